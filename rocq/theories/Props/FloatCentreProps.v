(** C86: cell values of a MAC field and faces from cell values, with rounding. *)
From Coq Require Import ZArith Reals List Bool Lia Lra.
From Flocq Require Import Core BinarySingleNaN.
From Verif Require Import Model.Base Model.VecM Model.MacM Model.FloatM Model.FloatMipM Model.FloatCentreM.
From Verif Require Import Spec.VoxelSpec Spec.MacSpec Spec.FloatSpec Spec.FloatMipSpec Spec.FloatCentreSpec.
From Verif Require Import Proof.BaseP Proof.MacP Proof.FloatP Proof.FloatP2 Proof.FloatMipP Proof.FloatMipP2 Proof.FloatMipP3 Proof.FloatMipP4 Proof.FloatCentreP.
Open Scope R_scope.

(** The value of a cell lies between its two faces, so two equal faces give back their value; it does not depend on anything
    else, and is as near to the mean of the two as the type allows. *)
Theorem C86_cell : forall t (faces : component -> v3 -> val t) c p, addable (faces c p) -> addable (faces c (next c p)) ->
  addable (fc_center t faces c p) /\
  (forall lo hi, lo <= B2R (faces c p) <= hi -> lo <= B2R (faces c (next c p)) <= hi -> lo <= B2R (fc_center t faces c p) <= hi) /\
  (forall B, Rabs (B2R (faces c p)) <= B -> Rabs (B2R (faces c (next c p))) <= B ->
     Rabs (B2R (fc_center t faces c p) - (B2R (faces c p) + B2R (faces c (next c p))) / 2) <= mip_rounding t B / 3).
Proof.
  intros t faces c p A B. apply good_addable in A, B. unfold fc_center. rewrite next_add.
  destruct (mean_good t _ _ A B) as (G & R). split; [apply good_addable; exact G|]. split; [exact R|].
  intros M X Y. destruct (mean_ok t _ _ A B) as (_ & ->). apply avg_err; auto.
Qed.
Print Assumptions C86_cell.

(** Raising a face never lowers the value of a cell. *)
Theorem C86_monotone : forall t (f g : component -> v3 -> val t) c p, addable (f c p) -> addable (f c (next c p)) -> addable (g c p) -> addable (g c (next c p)) ->
  B2R (f c p) <= B2R (g c p) -> B2R (f c (next c p)) <= B2R (g c (next c p)) -> B2R (fc_center t f c p) <= B2R (fc_center t g c p).
Proof.
  intros t f g c p A B C D X Y. apply good_addable in A, B, C, D. unfold fc_center. rewrite next_add.
  destruct (mean_ok t _ _ A B) as (_ & ->). destruct (mean_ok t _ _ C D) as (_ & ->). apply avg_mono; auto.
Qed.
Print Assumptions C86_monotone.

(** A face that is made from cells lies between the cells of the window beside it; at the border of the window it is the
    one cell's value, bit for bit. *)
Theorem C86_face : forall t dw (cells : component -> v3 -> val t) c p, box_nonempty dw -> is_face dw c p ->
  (forall q, beside dw c p q -> addable (cells c q)) ->
  addable (fc_face t dw cells c p) /\
  (forall lo hi, (forall q, beside dw c p q -> lo <= B2R (cells c q) <= hi) -> lo <= B2R (fc_face t dw cells c p) <= hi) /\
  (forall q, (forall q', beside dw c p q' -> q' = q) -> fc_face t dw cells c p = cells c q) /\
  (forall B, in_box p dw -> in_box (prev c p) dw -> Rabs (B2R (cells c p)) <= B -> Rabs (B2R (cells c (prev c p))) <= B ->
     Rabs (B2R (fc_face t dw cells c p) - (B2R (cells c p) + B2R (cells c (prev c p))) / 2) <= mip_rounding t B / 3).
Proof.
  intros t dw cells c p NE I G. assert (G' : forall q, beside dw c p q -> good (cells c q)) by (intros q Q; apply good_addable; auto).
  destruct (face_good t dw cells c p NE I G') as (A & B). split; [apply good_addable; exact A|]. split; [exact B|]. split.
  - intros q U. destruct (face_cases t dw cells c p NE I) as [(D & ->)|[(D & ->)|(D & D' & _)]].
    + rewrite (U p); [reflexivity|split; auto].
    + rewrite (U (prev c p)); [reflexivity|split; auto].
    + exfalso. assert (E : p = prev c p) by (transitivity q; [apply U|symmetry; apply U]; split; auto).
      destruct c, p as [i j k]; unfold prev in E; injection E; lia.
  - intros M D D' X Y. unfold fc_face. rewrite prev_sub.
    destruct (Z.eqb_spec (along c p) (along c (bmin dw))) as [E|_]; [exfalso; unfold in_box, along, prev in *; destruct c; cbn [vx vy vz] in *; lia|].
    destruct (Z.eqb_spec (along c p) (along c (bmax dw) + 1)) as [E|_]; [exfalso; unfold in_box, along, prev in *; destruct c; cbn [vx vy vz] in *; lia|].
    destruct (mean_ok t (cells c p) (cells c (prev c p))) as (_ & ->); [apply G'; split; auto|apply G'; split; auto|]. apply avg_err; auto.
Qed.
Print Assumptions C86_face.

(** From cells to faces and back a component stays within the cell and its two neighbours in the component's direction; a
    component that is the same in all three comes back unchanged. *)
Theorem C86_there_and_back : forall t dw (cells : component -> v3 -> val t) c p, box_nonempty dw -> in_box p dw ->
  (forall q, in_line dw c p q -> addable (cells c q)) ->
  addable (fc_center t (fc_face t dw cells) c p) /\
  (forall lo hi, (forall q, in_line dw c p q -> lo <= B2R (cells c q) <= hi) -> lo <= B2R (fc_center t (fc_face t dw cells) c p) <= hi) /\
  (forall x, (forall q, in_line dw c p q -> B2R (cells c q) = x) -> B2R (fc_center t (fc_face t dw cells) c p) = x).
Proof.
  intros t dw cells c p NE I G. destruct (back_good t dw cells c p NE I) as (A & B); [intros q Q; apply good_addable; auto|].
  split; [apply good_addable; exact A|]. split; [exact B|]. intros x E. apply Rle_antisym; apply (B x x); intros q Q; rewrite E; auto; lra.
Qed.
Print Assumptions C86_there_and_back.

(** ** What does not hold *)
(** Two faces of the largest number of a [float] give an infinite cell, though their mean is that number. *)
Definition huge : f32 := binary_normalize 24 128 gt_24 lt_128 mode_NE (2 ^ 24 - 1) 104 false.
Theorem C86_overflow_refuted : exists (faces : component -> v3 -> val VFloat) c p, is_finite (faces c p) = true /\ is_finite (faces c (next c p)) = true /\
  is_finite (fc_center VFloat faces c p) = false.
Proof. exists (fun _ _ => huge), CompU, (V3 0 0 0). repeat split; vm_compute; reflexivity. Qed.
Print Assumptions C86_overflow_refuted.

(** ** Instances *)
(** Cells 1, 2 and 4 in a row: the faces are 1, 1.5, 3 and 4, the cells from them 1.25, 2.25 and 3.5. *)
Definition row3 : box := Box (V3 0 0 0) (V3 2 0 0).
Definition cells3 (_ : component) (q : v3) : f32 := binary_normalize 24 128 gt_24 lt_128 mode_NE 1 (vx q) false.
Definition quarter (n : Z) : SpecFloat.spec_float := B2SF (binary_normalize 24 128 gt_24 lt_128 mode_NE n (-2) false).
Example C86_ex : List.map (fun i => B2SF (fc_face VFloat row3 cells3 CompU (V3 i 0 0))) (0 :: 1 :: 2 :: 3 :: nil)%Z = List.map quarter (4 :: 6 :: 12 :: 16 :: nil)%Z /\
  List.map (fun i => B2SF (fc_center VFloat (fc_face VFloat row3 cells3) CompU (V3 i 0 0))) (0 :: 1 :: 2 :: nil)%Z = List.map quarter (5 :: 9 :: 14 :: nil)%Z.
Proof. split; vm_compute; reflexivity. Qed.
Example C86_ex_hyps : box_nonempty row3 /\ in_box (V3 1 0 0) row3 /\ is_face row3 CompU (V3 1 0 0) /\
  (forall q, in_line row3 CompU (V3 1 0 0) q -> addable (t := VFloat) (cells3 CompU q)) /\ beside row3 CompU (V3 1 0 0) (V3 0 0 0).
Proof.
  split; [unfold box_nonempty; cbn; lia|]. split; [unfold in_box; cbn; lia|]. split; [unfold is_face; cbn; lia|]. split.
  - assert (E : forall i k, B2SF (cells3 CompU (V3 i 0 0)) = SpecFloat.S754_finite false 8388608 k -> (k <= 0)%Z -> addable (t := VFloat) (cells3 CompU (V3 i 0 0))).
    { intros i k H K. split; [rewrite <- is_finite_SF_B2SF; change (B2SF (cells3 CompU (V3 i 0 0) : val VFloat)) with (B2SF (cells3 CompU (V3 i 0 0))); rewrite H; reflexivity|].
      change (B2R (cells3 CompU (V3 i 0 0) : val VFloat)) with (B2R (cells3 CompU (V3 i 0 0))). rewrite <- SF2R_B2SF, H. unfold SF2R, F2R. cbn [Fnum Fexp cond_Zopp].
      assert (P : bpow radix2 k <= 1) by (change 1 with (bpow radix2 0); apply bpow_le; auto). pose proof (bpow_gt_0 radix2 k).
      rewrite Rabs_pos_eq by lra. apply Rle_lt_trans with 8388608; [lra|]. rewrite pow_IZR. apply IZR_lt. reflexivity. }
    intros q (_ & [-> |[-> | ->]]); [apply (E 1%Z (-22)%Z)|apply (E 0%Z (-23)%Z)|apply (E 2%Z (-21)%Z)]; try lia; vm_compute; reflexivity.
  - split; [unfold in_box; cbn; lia|]. right. reflexivity.
Qed.
