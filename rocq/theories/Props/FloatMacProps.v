(** C85: linear interpolation in a MAC field as it is computed, with rounding. *)
From Coq Require Import ZArith Reals List Bool Lia Lra.
From Flocq Require Import Core BinarySingleNaN.
From Verif Require Import Model.Base Model.VecM Model.MacM Model.FloatM Model.FloatMacM.
From Verif Require Import Spec.VoxelSpec Spec.InterpSpec Spec.MacSpec Spec.FloatSpec Spec.FloatMacSpec.
From Verif Require Import Proof.BaseP Proof.DenseP Proof.MacP Proof.FloatP Proof.FloatP2 Proof.FloatP3 Proof.FloatMacP Props.FloatProps Props.MacProps.
Import ListNotations.
Open Scope R_scope.

(** Sampling is defined at every position that has an index in [int], whatever the faces hold. *)
Theorem C85_defined : forall t (faces : component -> v3 -> val t) dw x y z, in_int_range x -> in_int_range y -> in_int_range z ->
  (forall c, exists s, f_mac_one t faces dw c x y z = Ok s) /\ exists r, f_mac t faces dw x y z = Ok r.
Proof.
  intros t faces dw x y z X Y Z0.
  assert (D : forall c, exists s, f_mac_one t faces dw c x y z = Ok s).
  { intros c. unfold f_mac_one. destruct (face_corner_defined (is_u c) x X) as ([[[x1 x2] ax] bx] & CX).
    destruct (face_corner_defined (is_v c) y Y) as ([[[y1 y2] ay] by_] & CY). destruct (face_corner_defined (is_w c) z Z0) as ([[[z1 z2] az] bz] & CZ).
    rewrite CX, CY, CZ. cbn [bind]. eauto. }
  split; [exact D|]. unfold f_mac. destruct (D CompU) as (a & ->). destruct (D CompV) as (b & ->). destruct (D CompW) as (c & ->). cbn [bind]. eauto.
Qed.
Print Assumptions C85_defined.

(** In a field of [half] or [float] no rounding ever takes a component of a sampled vector outside the range of the faces
    of that component around the position; the other components' faces have no part in it. *)
Theorem C85_bounded : forall t (faces : component -> v3 -> val t) dw x y z r c, t <> VDouble -> box_nonempty dw -> faces_finite dw faces ->
  f_mac t faces dw x y z = Ok r ->
  is_finite (part c r) = true /\
  forall lo hi : R, (forall q, near_face dw c (at_ x y z) q -> lo <= B2R (faces c q) <= hi) -> lo <= B2R (part c r) <= hi.
Proof.
  intros t faces dw x y z r c N NE AF H. destruct (mac_part t faces dw x y z r c H) as (s & Hs & ->).
  assert (NO : faces_small dw faces) by (intros E; congruence).
  destruct (mac_mstencil t faces dw c x y z s NE Hs) as (ax & bx & ay & by_ & az & bz & q1 & q2 & q3 & q4 & q5 & q6 & q7 & q8 & St).
  rewrite (ms_sample _ _ _ _ _ _ _ _ _ _ _ _ _ _ _ _ _ _ _ St) in Hs. injection Hs as <-.
  destruct (ms_narrow t faces dw c x y z _ _ _ _ _ _ _ _ _ _ _ _ _ _ St NE AF NO N) as (P & Q). split; auto. intros lo hi B. rewrite Q.
  assert (V : Valid_exp (SpecFloat.fexp (prec t) (emax t))) by (apply FLT_exp_valid; destruct t; reflexivity).
  split.
  - set (k := round radix2 (SpecFloat.fexp (prec t) (emax t)) Zceil lo).
    apply Rle_trans with k; [apply round_UP_pt; auto|]. apply nround_ge; auto; [apply generic_format_round; auto; typeclasses eauto|].
    eapply ms_lower; eauto. intros q A. apply round_UP_pt; auto; [apply fmt_val|apply B; auto].
  - set (k := round radix2 (SpecFloat.fexp (prec t) (emax t)) Zfloor hi).
    apply Rle_trans with k; [|apply round_DN_pt; auto]. apply nround_le; auto; [apply generic_format_round; auto; typeclasses eauto|].
    eapply ms_upper; eauto. intros q A. apply round_DN_pt; auto; [apply fmt_val|apply B; auto].
Qed.
Print Assumptions C85_bounded.

(** One component alone is a [double], in a field of any type: it may leave the range, by a few units in the last place of a
    [double], but faces that are not negative do not give a negative sample. *)
Theorem C85_alone : forall t (faces : component -> v3 -> val t) dw c x y z s, box_nonempty dw -> faces_finite dw faces -> faces_small dw faces ->
  f_mac_one t faces dw c x y z = Ok s ->
  is_finite s = true /\
  (forall lo hi : R, (forall q, near_face dw c (at_ x y z) q -> lo <= B2R (faces c q) <= hi) -> lo - few_ulps lo <= B2R s <= hi + few_ulps hi) /\
  ((forall q, near_face dw c (at_ x y z) q -> 0 <= B2R (faces c q)) -> 0 <= B2R s).
Proof.
  intros t faces dw c x y z s NE AF NO H.
  destruct (mac_mstencil t faces dw c x y z s NE H) as (ax & bx & ay & by_ & az & bz & q1 & q2 & q3 & q4 & q5 & q6 & q7 & q8 & St).
  rewrite (ms_sample _ _ _ _ _ _ _ _ _ _ _ _ _ _ _ _ _ _ _ St) in H. injection H as <-.
  destruct (ms_tri t faces dw c x y z _ _ _ _ _ _ _ _ _ _ _ _ _ _ St NE AF NO) as (P & Q). split; [exact P|]. rewrite Q. split.
  - intros lo hi B. rewrite <- !spread_ulps. split.
    + eapply ms_lower; eauto. intros q A. apply B. auto.
    + eapply ms_upper; eauto. intros q A. apply B. auto.
  - intros B. eapply ms_pos; eauto.
Qed.
Print Assumptions C85_alone.

(** A component of the vector is that component alone, converted to the field's type. *)
Theorem C85_parts : forall t (faces : component -> v3 -> val t) dw x y z r c, f_mac t faces dw x y z = Ok r ->
  exists s, f_mac_one t faces dw c x y z = Ok s /\ part c r = narrow t s.
Proof. intros. apply mac_part. auto. Qed.
Print Assumptions C85_parts.

(** At the centre of a face: its value, to the last bit, from both functions and in a field of any type. *)
Theorem C85_face : forall t (faces : component -> v3 -> val t) dw x y z c q, box_nonempty dw -> faces_finite dw faces -> faces_small dw faces ->
  is_face dw c q -> at_ x y z = face_centre c q ->
  (forall s, f_mac_one t faces dw c x y z = Ok s -> is_finite s = true /\ B2R s = B2R (faces c q)) /\
  (forall r, f_mac t faces dw x y z = Ok r -> is_finite (part c r) = true /\ B2R (part c r) = B2R (faces c q)).
Proof.
  intros t faces dw x y z c q NE AF NO I E. split.
  - intros s H. destruct (one_face t faces dw c q x y z s AF NO NE I E H) as (A & B & _). auto.
  - intros r H. destruct (mac_part t faces dw x y z r c H) as (s & Hs & ->).
    destruct (one_face t faces dw c q x y z s AF NO NE I E Hs) as (_ & _ & A & B). auto.
Qed.
Print Assumptions C85_face.

(** Raising faces of a component never lowers it in a sample, from either function. *)
Theorem C85_monotone : forall t (v w : component -> v3 -> val t) dw x y z c, box_nonempty dw -> faces_finite dw v -> faces_small dw v ->
  faces_finite dw w -> faces_small dw w -> (forall q, near_face dw c (at_ x y z) q -> B2R (v c q) <= B2R (w c q)) ->
  (forall r s, f_mac_one t v dw c x y z = Ok r -> f_mac_one t w dw c x y z = Ok s -> B2R r <= B2R s) /\
  (forall r s, f_mac t v dw x y z = Ok r -> f_mac t w dw x y z = Ok s -> B2R (part c r) <= B2R (part c s)).
Proof.
  intros t v w dw x y z c NE AV OV AW OW L.
  assert (G : forall r s, f_mac_one t v dw c x y z = Ok r -> f_mac_one t w dw c x y z = Ok s -> B2R r <= B2R s /\ B2R (narrow t r) <= B2R (narrow t s)).
  { intros r s HV HW.
    destruct (mac_mstencil t v dw c x y z r NE HV) as (ax & bx & ay & by_ & az & bz & q1 & q2 & q3 & q4 & q5 & q6 & q7 & q8 & St).
    rewrite (ms_sample _ _ _ _ _ _ _ _ _ _ _ _ _ _ _ _ _ _ _ St) in HV, HW. injection HV as <-. injection HW as <-.
    pose proof (ms_mono t v w dw c x y z _ _ _ _ _ _ _ _ _ _ _ _ _ _ St L) as M.
    destruct (ms_tri t v dw c x y z _ _ _ _ _ _ _ _ _ _ _ _ _ _ St NE AV OV) as (_ & Q1).
    destruct (ms_tri t w dw c x y z _ _ _ _ _ _ _ _ _ _ _ _ _ _ St NE AW OW) as (_ & Q2).
    split; [rewrite Q1, Q2; exact M|]. destruct (vtype_eq t) as [->|N].
    - cbn [narrow]. rewrite <- Q1, <- Q2 in M. exact M.
    - destruct (ms_narrow t v dw c x y z _ _ _ _ _ _ _ _ _ _ _ _ _ _ St NE AV OV N) as (_ & R1).
      destruct (ms_narrow t w dw c x y z _ _ _ _ _ _ _ _ _ _ _ _ _ _ St NE AW OW N) as (_ & R2).
      rewrite R1, R2. apply nround_mono. exact M. }
  split.
  - intros r s HV HW. apply (G r s HV HW).
  - intros r s HV HW. destruct (mac_part t v dw x y z r c HV) as (a & Ha & ->). destruct (mac_part t w dw x y z s c HW) as (b & Hb & ->).
    apply (G a b Ha Hb).
Qed.
Print Assumptions C85_monotone.

(** How far a computed sample is from the exact one (C49) of a field whose faces hold the same numbers: rounding of the size of
    the type, and the change of the component over the rounding error of the position. *)
Theorem C85_error : forall t (faces : component -> v3 -> val t) m c x y z s r v B L, box_nonempty (m_dw m) -> faces_finite (m_dw m) faces -> faces_small (m_dw m) faces ->
  (forall q, is_face (m_dw m) c q -> face m c q = Ok (B2R (faces c q))) -> (forall q, is_face (m_dw m) c q -> Rabs (B2R (faces c q)) <= B) -> 0 <= L ->
  (forall q q', is_face (m_dw m) c q -> is_face (m_dw m) c q' -> adjacent q q' -> Rabs (B2R (faces c q) - B2R (faces c q')) <= L) ->
  mac_pos_ok (at_ x y z) -> mac_linear m (at_ x y z) = Ok v ->
  f_mac_one t faces (m_dw m) c x y z = Ok s -> f_mac t faces (m_dw m) x y z = Ok r ->
  let d := L * (Rabs (B2R x) + Rabs (B2R y) + Rabs (B2R z) + 3) / 2 ^ 53 in
  Rabs (B2R s - coord c v) <= rounding VDouble B + d /\ Rabs (B2R (part c r) - coord c v) <= rounding t B + d.
Proof.
  intros t faces m c x y z s r v B L NE AF NO EF BB L0 LL PO EV Hs Hr d.
  destruct (mac_error t faces m c x y z s v B L NE AF NO EF BB L0 LL PO EV Hs) as (_ & A & _ & D). split; [exact A|].
  destruct (mac_part t faces (m_dw m) x y z r c Hr) as (s' & Hs' & ->). rewrite Hs in Hs'. injection Hs' as <-. exact D.
Qed.
Print Assumptions C85_error.

(** ** What does not hold *)
(** In a field of [float] that is 3 everywhere the component alone is 2.9999999999999996, though the vector's component is 3. *)
Theorem C85_alone_refuted : exists (faces : component -> v3 -> val VFloat) dw c x y z s, box_nonempty dw /\ faces_finite dw faces /\
  (forall c q, B2R (faces c q) = 3) /\ f_mac_one VFloat faces dw c x y z = Ok s /\ B2R s < 3 /\ B2R (narrow VFloat s) = 3.
Proof.
  exists (fun _ _ => c3f), cell1, CompV, at_02, f_half, f_half.
  assert (A : exists r, f_mac_one VFloat (fun _ _ => c3f) cell1 CompV at_02 f_half f_half = Ok r /\ B2SF r = SpecFloat.S754_finite false 6755399441055743 (-51)).
  { destruct (f_mac_one VFloat (fun _ _ => c3f) cell1 CompV at_02 f_half f_half) as [r| |] eqn:E;
      [exists r; split; auto|exfalso..]; assert (Q : sf (f_mac_one VFloat (fun _ _ => c3f) cell1 CompV at_02 f_half f_half) = SpecFloat.S754_finite false 6755399441055743 (-51)) by (vm_compute; reflexivity); rewrite E in Q; auto; discriminate. }
  assert (V3' : B2R c3f = 3) by (rewrite <- SF2R_B2SF; replace (B2SF c3f) with (SpecFloat.S754_finite false 12582912 (-22)) by (vm_compute; reflexivity); unfold SF2R, F2R; cbn; lra).
  destruct A as (r & R & S). exists r.
  split; [unfold box_nonempty; cbn; lia|]. split; [intros c q _; reflexivity|]. split; [intros c q; exact V3'|]. split; [exact R|].
  split; [rewrite <- SF2R_B2SF; rewrite S; unfold SF2R, F2R; cbn; lra|].
  apply (one_const VFloat (fun _ _ => c3f) cell1 CompV at_02 f_half f_half r 3); [congruence|unfold box_nonempty; cbn; lia|intros c q _; reflexivity|exact R|].
  intros q. exact V3'.
Qed.
Print Assumptions C85_alone_refuted.

(** ** Instances *)
(** The faces of the x component are 1, 2 and 3: three quarters of the way across the first voxel the component is 1.75, at
    the second face 2 and beyond the last 3; the y component is 3. *)
Definition u_ramp (c : component) (q : v3) : f32 := match c with CompU => ramp_f q | _ => c3f end.
Definition at_n (n : Z) : f64 := of_int n.
Definition psf (c : component) (r : res (f32 * f32 * f32)) : SpecFloat.spec_float := match r with Ok x => B2SF (part c x) | _ => SpecFloat.S754_nan end.
Example C85_ex :
  psf CompU (f_mac VFloat u_ramp cell1 at_34 f_half f_half) = SpecFloat.S754_finite false 14680064 (-23) /\
  psf CompU (f_mac VFloat u_ramp cell1 (at_n 1) f_half f_half) = SpecFloat.S754_finite false 8388608 (-22) /\
  psf CompU (f_mac VFloat u_ramp cell1 (at_n 7) f_half f_half) = SpecFloat.S754_finite false 12582912 (-22) /\
  psf CompV (f_mac VFloat u_ramp cell1 at_34 f_half f_half) = SpecFloat.S754_finite false 12582912 (-22).
Proof. repeat split; vm_compute; reflexivity. Qed.
Example C85_ex_hyps : VFloat <> VDouble /\ box_nonempty cell1 /\ faces_finite (t := VFloat) cell1 u_ramp /\ faces_small (t := VFloat) cell1 u_ramp /\
  in_int_range at_34 /\ is_face cell1 CompU (V3 2 0 0) /\ ~ in_box (V3 2 0 0) cell1 /\ at_ (at_n 2) f_half f_half = face_centre CompU (V3 2 0 0).
Proof.
  split; [discriminate|]. split; [unfold box_nonempty; cbn; lia|]. split.
  { intros c [i j k] I. destruct c; [|reflexivity..]. destruct I as (I & _). cbn in I. assert (C : (i = 0 \/ i = 1 \/ i = 2)%Z) by lia. destruct C as [-> |[-> | ->]]; reflexivity. }
  split; [discriminate|].
  assert (E : B2R at_34 = 3 / 4) by (rewrite <- SF2R_B2SF; replace (B2SF at_34) with (SpecFloat.S754_finite false 6755399441055744 (-53)) by (vm_compute; reflexivity); unfold SF2R, F2R; cbn; lra).
  split; [split; [reflexivity|rewrite E; simpl; lra]|].
  split; [unfold is_face; cbn; lia|]. split; [unfold in_box; cbn; lia|].
  destruct half_ok as (_ & H). destruct (of_int_ok 2) as (_ & H2); [discriminate|]. unfold at_, face_centre, at_n. cbn [vx vy vz]. rewrite H, H2. f_equal; lra.
Qed.
(** A field whose faces hold the numbers of [u_ramp]. *)
Definition ramp_ops : list mop := [MSize cell1 cell1; MClear (R3 3 3 3); MFace CompU (V3 0 0 0) 1; MFace CompU (V3 1 0 0) 2].
Example C85_ex_error : exists m, mac_reached m /\ m_dw m = cell1 /\ forall c q, is_face cell1 c q -> face m c q = Ok (B2R (u_ramp c q)).
Proof.
  assert (L : mlegal mspec_init ramp_ops).
  { cbn. split; [|split; [auto|]; split; [lia|]; split; [lia|]; auto]. unfold int_window. split; [solve_int_box|]. split; [solve_int_box|]. split; solve_int_box. }
  destruct (mrefines_run ramp_ops _ _ mrefines_init L) as (m & EM & [I X W F]).
  exists m. split; [exists ramp_ops; auto|]. cbn in W. split; [exact W|]. intros c q Q. apply F; [exact Q|].
  assert (V3' : B2R c3f = 3) by (rewrite <- SF2R_B2SF; replace (B2SF c3f) with (SpecFloat.S754_finite false 12582912 (-22)) by (vm_compute; reflexivity); unfold SF2R, F2R; cbn; lra).
  assert (V1 : B2R (ramp_f (V3 0 0 0)) = 1) by (rewrite <- SF2R_B2SF; replace (B2SF (ramp_f (V3 0 0 0))) with (SpecFloat.S754_finite false 8388608 (-23)) by (vm_compute; reflexivity); unfold SF2R, F2R; cbn; lra).
  assert (V2 : B2R (ramp_f (V3 1 0 0)) = 2) by (rewrite <- SF2R_B2SF; replace (B2SF (ramp_f (V3 1 0 0))) with (SpecFloat.S754_finite false 8388608 (-22)) by (vm_compute; reflexivity); unfold SF2R, F2R; cbn; lra).
  assert (V4 : B2R (ramp_f (V3 2 0 0)) = 3) by (rewrite <- SF2R_B2SF; replace (B2SF (ramp_f (V3 2 0 0))) with (SpecFloat.S754_finite false 12582912 (-22)) by (vm_compute; reflexivity); unfold SF2R, F2R; cbn; lra).
  destruct c; [|unfold u_ramp; rewrite V3'; reflexivity..].
  destruct q as [i j k]. destruct Q as (Q1 & Q2 & Q3). cbn in Q1, Q2, Q3. assert (j = 0%Z) by lia. assert (k = 0%Z) by lia. subst j k.
  unfold u_ramp. assert (C : (i = 0 \/ i = 1 \/ i = 2)%Z) by lia.
  destruct C as [-> |[-> | ->]]; [rewrite V1|rewrite V2|rewrite V4]; reflexivity.
Qed.
