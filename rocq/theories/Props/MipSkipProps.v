(** C36: skipping empty input when building MIP levels of sparse fields. *)
From Coq Require Import ZArith Reals List Bool Lia Lra.
From Verif Require Import Model.Base Model.RealM Model.FieldM Model.DenseM Model.SparseM Model.OpsM Model.LoopM Model.FilterM Model.MipM
  Spec.VoxelSpec Spec.DenseSpec Spec.SparseSpec Spec.OpsSpec Spec.FilterSpec Spec.MipSpec
  Proof.BaseP Proof.LoopP Proof.RealP Proof.SparseP Proof.SparseP3 Proof.OpsP Proof.FilterP Proof.ResampleP Proof.ResampleP2
  Proof.MipP Proof.MipP2 Props.ResampleProps.
Import ListNotations.
Open Scope R_scope.

(** For narrow filters the test never fails, and it skips a box of target voxels only if
    all source voxels within the filter's support are 0; filtering would then leave 0 in
    the target. *)
Theorem C36_skip_sound (src : sparse R) flt a add o r v b :
  sum_filter flt -> narrow flt -> f_reached 0 0 reqb KSparse src -> holds (k := KSparse) src (res_box o) v -> res_ok o -> res_ok r ->
  (forall c, c <> a -> vget c r = vget c o) -> (0 <= add <= 1)%Z -> box_nonempty b -> sub_box b (res_box r) ->
  exists e, check_input_empty (k := KSparse) src b (fl_support flt) a = Ok e /\
    (e = true -> forall p, in_box p b ->
      (forall s, (0 <= s <= vget a o - 1)%Z -> mip_distance add s (vget a p) <= fl_support flt -> v (vset a p s) = 0) /\
      (mip_voxel (k := KSparse) flt a add src p = Ok None \/ mip_voxel (k := KSparse) flt a add src p = Ok (Some 0))).
Proof.
  intros F NR Rs H Ro Rr Eq A Nb Sb. apply sum_filter_ok in F as [F1 F2]. pose proof F2 as [SP VN].
  assert (Is : sshape src) by (apply (inv_reached 0 0 KSparse reqb); auto; exact reqb_decides).
  assert (Bmin : in_box (bmin b) (res_box r)) by (apply Sb, in_box_min; auto).
  assert (Bmax : in_box (bmax b) (res_box r)) by (apply Sb, in_box_max; auto).
  pose proof (res_ok_axis r a Rr). pose proof (in_res_axis _ _ a Bmin). pose proof (in_res_axis _ _ a Bmax).
  destruct (input_empty_ok src b (fl_support flt) a Is) as (e & Ee & He); try lia; [unfold narrow in NR; lra|].
  exists e. split; auto. intros -> p P.
  assert (Z0 : forall s, (0 <= s <= vget a o - 1)%Z -> mip_distance add s (vget a p) <= fl_support flt -> v (vset a p s) = 0).
  { intros z Z1 Z2. destruct H as [Ds Vs]. cbn [f_dw f_get] in *.
    assert (Q : in_box (vset a p z) (res_box o)) by (apply in_res_vset with r; auto).
    assert (Rg := support_region flt add z (vget a p) (vget a (bmin b)) (vget a (bmax b)) NR A
      ltac:(destruct P as (? & ? & ?); destruct a; cbn; lia) Z2).
    pose proof (Vs _ Q) as VV. rewrite He in VV; auto; [congruence|congruence|].
    destruct P as (PX & PY & PZ). unfold in_box. destruct a; cbn in *; lia. }
  split; auto.
  destruct (mip_voxel_sum KSparse flt a add src o r v p) as (x & Ex & Vx); auto.
  assert (V0 : val0 x = 0).
  { rewrite Vx. apply weighted_mean_zero. intros s S.
    destruct (Rlt_le_dec (fl_support flt) (mip_distance add s (vget a p))); auto. }
  destruct x as [y|]; auto. cbn in V0. subst y. auto.
Qed.
Print Assumptions C36_skip_sound.

(** A row of 8 voxels stored in blocks of one voxel; voxel 1 is 1, the others are 0. *)
Definition row : v3 := V3 8 1 1.
Definition row_ops : list (sop R) := [SSize (res_box row) (res_box row); SOrder 0; SWrite (V3 1 0 0) 1].
Definition row_val (p : v3) : R := if (vx p =? 1)%Z then 1 else 0.
Definition row_block (full : bool) : block R := if full then Block true 0 (Some [1]) else Block false 0 None.
Definition row_src : sparse R :=
  Sparse (res_box row) (res_box row) 0 row 8 (map row_block [false; true; false; false; false; false; false; false]).
Lemma row_field : f_reached 0 0 reqb KSparse row_src /\ holds (k := KSparse) row_src (res_box row) row_val.
Proof.
  split.
  - exists row_ops. eexists. split; [|split; [reflexivity|reflexivity]]. cbn. unfold order_ok, window_ok, in_box. cbn. 
    repeat split; try lia; intros c C; decompose [or] C; subst; try contradiction; lia.
  - split; [reflexivity|]. intros [x y z] (X & Y & Z0). cbn in X, Y, Z0.
    assert (y = 0)%Z as -> by lia. assert (z = 0)%Z as -> by lia.
    assert (x = 0 \/ x = 1 \/ x = 2 \/ x = 3 \/ x = 4 \/ x = 5 \/ x = 6 \/ x = 7)%Z as Q by lia.
    decompose [or] Q; subst; reflexivity.
Qed.

(** Blocks 2 to 7 are empty. *)
Lemma row_empty c : (2 <= vx c <= 7)%Z -> vy c = 0%Z -> vz c = 0%Z -> block_occupied row_src c = Ok false.
Proof.
  destruct c as [x y z]. cbn [vx vy vz]. intros X -> ->.
  assert (E0 : reqb 0 0 = true) by (apply reqb_decides; reflexivity).
  assert (x = 2 \/ x = 3 \/ x = 4 \/ x = 5 \/ x = 6 \/ x = 7)%Z as Q by lia.
  decompose [or] Q; subst; unfold block_occupied;
    match goal with |- context [get_block_empty_value ?f ?c] =>
      change (block_is_allocated f c) with (Ok false); change (get_block_empty_value f c) with (Ok (0 : R)) end;
    cbn [bind]; rewrite E0; reflexivity.
Qed.
Lemma row_check t pad supp : rceil (supp * (1 / 2)) = pad -> (t = 2 /\ pad = 1 \/ t = 3 /\ pad = 2)%Z ->
  check_input_empty (k := KSparse) row_src (Box (V3 t 0 0) (V3 t 0 0)) supp AxX = Ok true.
Proof.
  intros Ep H. cbn [check_input_empty]. unfold sparse_input_empty, int_ceil. rewrite Ep.
  assert (C : forall l, (forall c, In c l -> (2 <= vx c <= 7)%Z /\ vy c = 0%Z /\ vz c = 0%Z) ->
    each (fun c (empty : bool) => if empty then let* o := block_occupied row_src c in Ok (negb o) else Ok false) l true = Ok true).
  { induction l as [|c l IH]; intros Hl; [reflexivity|]. cbn [each]. destruct (Hl c (or_introl eq_refl)) as (X & Y & Z0).
    rewrite (row_empty c X Y Z0). cbn [bind negb]. apply IH. intros d D. apply Hl. right. auto. }
  destruct H as [[-> ->] | [-> ->]].
  - change (each (fun c (empty : bool) => if empty then let* o := block_occupied row_src c in Ok (negb o) else Ok false)
      (box_voxels (Box (V3 2 0 0) (V3 6 0 0))) true = Ok true). apply C. intros c I. apply voxels_in in I as (X & Y & Z0). cbn in X, Y, Z0. lia.
  - change (each (fun c (empty : bool) => if empty then let* o := block_occupied row_src c in Ok (negb o) else Ok false)
      (box_voxels (Box (V3 2 0 0) (V3 7 0 0))) true = Ok true). apply C. intros c I. apply voxels_in in I as (X & Y & Z0). cbn in X, Y, Z0. lia.
Qed.

(** The target of the first pass. *)
Lemma row_item t : (0 <= t <= 3)%Z -> In (Box (V3 t 0 0) (V3 t 0 0)) (mip_blocks (pass_res AxX row (V3 4 1 1)) (threading_block_size (k := KSparse) row_src)).
Proof.
  intros T. assert (t = 0 \/ t = 1 \/ t = 2 \/ t = 3)%Z as Q by lia. vm_compute. decompose [or] Q; subst; auto.
Qed.

Lemma row_voxel flt t : sum_filter flt -> (0 <= t <= 3)%Z ->
  0 < sum_to 8 (fun s => fl_eval flt (mip_distance 0 s t)) -> fl_eval flt (mip_distance 0 1 t) <> 0 ->
  exists x, mip_voxel (k := KSparse) flt AxX 0 row_src (V3 t 0 0) = Ok (Some x) /\ x <> 0.
Proof.
  intros F T P N. apply sum_filter_ok in F as [F1 F2].
  destruct (mip_voxel_sum KSparse flt AxX 0 row_src row (V3 4 1 1) row_val (V3 t 0 0)) as (x & E & V); auto;
    try (unfold res_ok; cbn; lia).
  - apply row_field.
  - intros [] Nb; try reflexivity. contradiction.
  - unfold in_box; cbn; lia.
  - unfold halved_row, weighted_mean in V. cbn [vget row vx vset] in V. change (Z.to_nat 8) with 8%nat in V.
    destruct (Rlt_dec _ _) as [L|L]; [|contradiction].
    assert (Nz : val0 x <> 0).
    { rewrite V. unfold Rdiv. apply Rmult_integral_contrapositive_currified; [|apply Rinv_neq_0_compat; lra].
      cbn [sum_to]. unfold row_val. cbn [vx]. cbn [Z.of_nat Pos.of_succ_nat Pos.succ Z.eqb Pos.eqb]. lra. }
    destruct x as [y|]; [exists y; auto|]. cbn in Nz. lra.
Qed.

(** Skipping is wrong for the Mitchell filter: the box is skipped, but filtering gives a
    value other than 0. *)
Theorem C36_mitchell_refuted : let flt := mitchell_filter 1 (1 / 3) (1 / 3) in
  exists (src : sparse R) b p x, f_reached 0 0 reqb KSparse src /\ holds (k := KSparse) src (res_box row) row_val /\
    In b (mip_blocks (pass_res AxX row (V3 4 1 1)) (threading_block_size (k := KSparse) src)) /\ in_box p b /\
    check_input_empty (k := KSparse) src b (fl_support flt) AxX = Ok true /\
    mip_voxel (k := KSparse) flt AxX 0 src p = Ok (Some x) /\ x <> 0.
Proof.
  intros flt.
  assert (W : forall d y, 0 <= d -> d < 1 -> y = d -> fl_eval flt y = (7 * d * d * d - 12 * d * d + 16 / 3) / 6).
  { intros d y D1 D2 ->. unfold flt. cbn [fl_eval mitchell_filter]. replace (d / 1) with d by field. rewrite Rabs_pos_eq by auto.
    destruct (rltb_spec d 1) as [L|L]; [field|lra]. }
  assert (W2 : forall d y, 1 <= d -> d < 2 -> y = d -> fl_eval flt y = (- (7 / 3) * d * d * d + 12 * d * d - 20 * d + 32 / 3) / 6).
  { intros d y D1 D2 ->. unfold flt. cbn [fl_eval mitchell_filter]. replace (d / 1) with d by field. rewrite Rabs_pos_eq by lra.
    destruct (rltb_spec d 1) as [L|L]; [lra|]. destruct (rleb_spec 1 d) as [L1|L1]; [|lra]. destruct (rltb_spec d 2) as [L2|L2]; [|lra]. cbn [andb]. field. }
  assert (W3 : forall y, 2 <= y -> fl_eval flt y = 0).
  { intros d D. unfold flt. cbn [fl_eval mitchell_filter]. replace (d / 1) with d by field. rewrite Rabs_pos_eq by lra.
    destruct (rltb_spec d 1) as [L|L]; [lra|]. destruct (rltb_spec d 2) as [L2|L2]; [lra|]. rewrite andb_false_r. reflexivity. }
  assert (Ds : forall s, mip_distance 0 s 2 = Rabs (IZR s - 9 / 2) / 2).
  { intros s. unfold mip_distance. f_equal. f_equal. lra. }
  destruct (row_voxel flt 2) as (x & E & N).
  - unfold flt. constructor. lra.
  - lia.
  - cbn [sum_to]. cbn [Z.of_nat Pos.of_succ_nat Pos.succ]. rewrite !Ds.
    rewrite (W3 (Rabs (0 - 9 / 2) / 2)) by (rewrite Rabs_left by lra; lra).
    rewrite (W2 (7 / 4) (Rabs (1 - 9 / 2) / 2)) by (try rewrite Rabs_left by lra; lra).
    rewrite (W2 (5 / 4) (Rabs (2 - 9 / 2) / 2)) by (try rewrite Rabs_left by lra; lra).
    rewrite (W (3 / 4) (Rabs (3 - 9 / 2) / 2)) by (try rewrite Rabs_left by lra; lra).
    rewrite (W (1 / 4) (Rabs (4 - 9 / 2) / 2)) by (try rewrite Rabs_left by lra; lra).
    rewrite (W (1 / 4) (Rabs (5 - 9 / 2) / 2)) by (try rewrite Rabs_pos_eq by lra; lra).
    rewrite (W (3 / 4) (Rabs (6 - 9 / 2) / 2)) by (try rewrite Rabs_pos_eq by lra; lra).
    rewrite (W2 (5 / 4) (Rabs (7 - 9 / 2) / 2)) by (try rewrite Rabs_pos_eq by lra; lra). lra.
  - rewrite Ds. rewrite (W2 (7 / 4) (Rabs (1 - 9 / 2) / 2)) by (try rewrite Rabs_left by lra; lra). lra.
  - destruct row_field as [R1 R2]. exists row_src, (Box (V3 2 0 0) (V3 2 0 0)), (V3 2 0 0), x. split; auto. split; auto.
    split; [apply row_item; lia|]. split; [unfold in_box; cbn; lia|]. split; auto.
    apply row_check with 1%Z; [|lia]. apply rceil_unique. unfold flt. cbn [fl_support mitchell_filter]. lra.
Qed.
Print Assumptions C36_mitchell_refuted.

(** The same for the Gaussian filter with its default parameters. *)
Theorem C36_gaussian_refuted : let flt := gaussian_filter 2 2 in
  exists (src : sparse R) b p x, f_reached 0 0 reqb KSparse src /\ holds (k := KSparse) src (res_box row) row_val /\
    In b (mip_blocks (pass_res AxX row (V3 4 1 1)) (threading_block_size (k := KSparse) src)) /\ in_box p b /\
    check_input_empty (k := KSparse) src b (fl_support flt) AxX = Ok true /\
    mip_voxel (k := KSparse) flt AxX 0 src p = Ok (Some x) /\ x <> 0.
Proof.
  intros flt.
  assert (Nn : forall y, 0 <= fl_eval flt y) by (intros y; unfold flt; cbn [fl_eval gaussian_filter]; apply Rmax_l).
  assert (Ds : mip_distance 0 1 3 = 11 / 4).
  { unfold mip_distance. rewrite Rabs_left by lra. lra. }
  assert (Ps : 0 < fl_eval flt (mip_distance 0 1 3)).
  { rewrite Ds. unfold flt. cbn [fl_eval gaussian_filter].
    assert (exp (- (2) * 2 * 2) < exp (- (2) * (11 / 4 / 2) * (11 / 4 / 2))) by (apply exp_increasing; lra).
    eapply Rlt_le_trans; [|apply Rmax_r]. lra. }
  destruct (row_voxel flt 3) as (x & E & N).
  - unfold flt. constructor; lra.
  - lia.
  - cbn [sum_to]. cbn [Z.of_nat Pos.of_succ_nat Pos.succ].
    pose proof (Nn (mip_distance 0 0 3)). pose proof (Nn (mip_distance 0 2 3)). pose proof (Nn (mip_distance 0 3 3)).
    pose proof (Nn (mip_distance 0 4 3)). pose proof (Nn (mip_distance 0 5 3)). pose proof (Nn (mip_distance 0 6 3)).
    pose proof (Nn (mip_distance 0 7 3)). lra.
  - lra.
  - destruct row_field as [R1 R2]. exists row_src, (Box (V3 3 0 0) (V3 3 0 0)), (V3 3 0 0), x. split; auto. split; auto.
    split; [apply row_item; lia|]. split; [unfold in_box; cbn; lia|]. split; auto.
    apply row_check with 2%Z; [|lia]. apply rceil_unique. unfold flt. cbn [fl_support gaussian_filter]. lra.
Qed.
Print Assumptions C36_gaussian_refuted.

(** The hypotheses of the theorem, met by the same row and the default box and triangle
    filters; a box is skipped and another is not. *)
Example C36_example :
  sum_filter (box_filter 1) /\ narrow (box_filter 1) /\ sum_filter (triangle_filter 1) /\ narrow (triangle_filter 1) /\
  f_reached 0 0 reqb KSparse row_src /\ holds (k := KSparse) row_src (res_box row) row_val /\ res_ok row /\ res_ok (V3 4 1 1) /\
  check_input_empty (k := KSparse) row_src (Box (V3 2 0 0) (V3 2 0 0)) (fl_support (triangle_filter 1)) AxX = Ok true /\
  check_input_empty (k := KSparse) row_src (Box (V3 0 0 0) (V3 0 0 0)) (fl_support (triangle_filter 1)) AxX = Ok false.
Proof.
  split; [constructor; lra|]. split; [unfold narrow; cbn; lra|]. split; [constructor; lra|]. split; [unfold narrow; cbn; lra|].
  split; [apply row_field|]. split; [apply row_field|]. split; [unfold res_ok; cbn; lia|]. split; [unfold res_ok; cbn; lia|].
  assert (C1 : rceil (fl_support (triangle_filter 1) * (1 / 2)) = 1%Z) by (apply rceil_unique; cbn [fl_support triangle_filter]; lra).
  split; [apply row_check with 1%Z; [exact C1|lia]|].
  cbn [check_input_empty]. unfold sparse_input_empty, int_ceil. rewrite C1.
  change (each (fun c (empty : bool) => if empty then let* o := block_occupied row_src c in Ok (negb o) else Ok false)
    (box_voxels (Box (V3 0 0 0) (V3 2 0 0))) true = Ok false).
  change (box_voxels (Box (V3 0 0 0) (V3 2 0 0))) with [V3 0 0 0; V3 1 0 0; V3 2 0 0]. cbn [each].
  assert (E0 : reqb 0 0 = true) by (apply reqb_decides; reflexivity).
  assert (B0 : block_occupied row_src (V3 0 0 0) = Ok false).
  { unfold block_occupied. change (block_is_allocated row_src (V3 0 0 0)) with (Ok false).
    change (get_block_empty_value row_src (V3 0 0 0)) with (Ok (0 : R)). cbn [bind]. rewrite E0. reflexivity. }
  rewrite B0. cbn [bind negb]. change (block_occupied row_src (V3 1 0 0)) with (Ok true). cbn [bind negb]. reflexivity.
Qed.
