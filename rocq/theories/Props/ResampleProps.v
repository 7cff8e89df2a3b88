(** C33: resampling. *)
From Coq Require Import ZArith Reals List Bool Lia Lra Psatz.
From Verif Require Import Model.Base Model.RealM Model.FieldM Model.DenseM Model.SparseM Model.OpsM Model.FilterM
  Spec.VoxelSpec Spec.DenseSpec Spec.SparseSpec Spec.OpsSpec Spec.FilterSpec
  Proof.BaseP Proof.RealP Proof.DenseP Proof.OpsP Proof.FilterP Proof.ResampleP Proof.ResampleP2.
Import ListNotations.
Open Scope R_scope.

Lemma reqb_decides : decides_eq reqb.
Proof. intros a b. destruct (reqb_spec a b); split; congruence. Qed.

(** Every output voxel is the nested weighted mean over all source voxels, whatever
    filter, field kind, content and resolutions; the target's old content is irrelevant. *)
Theorem C33_formula k flt (src tgt : fld k) old new v :
  sum_filter flt -> f_reached 0 0 reqb k tgt -> holds src (res_box old) v ->
  res_ok old -> (2 <= vx old /\ 2 <= vy old /\ 2 <= vz old)%Z -> res_ok new ->
  fits k tgt (res_box (V3 (vx new) (vy old) (vz old))) -> fits_new k (res_box (V3 (vx new) (vy new) (vz old))) ->
  fits k tgt (res_box new) ->
  exists t, resample flt src tgt new = Ok (Some t) /\ f_ext t = res_box new /\
    holds t (res_box new) (resampled (fl_eval flt) old new v).
Proof.
  intros F It Hs Ro So Rn Fx Fy Fz. apply sum_filter_ok in F as [F1 F2].
  destruct (resample_ok k flt src tgt old new v) as (t & E & _ & X & _ & H); auto.
  - apply (inv_reached 0 0 k reqb); auto. exact reqb_decides.
  - exists t. auto.
Qed.
Print Assumptions C33_formula.

(** Means never leave the range of the input. *)
Theorem C33_bounds k flt (src tgt : fld k) old new v a b :
  mean_filter flt -> f_reached 0 0 reqb k tgt -> holds src (res_box old) v ->
  (forall q, in_box q (res_box old) -> a <= v q <= b) ->
  res_ok old -> (2 <= vx old /\ 2 <= vy old /\ 2 <= vz old)%Z -> res_ok new ->
  fits k tgt (res_box (V3 (vx new) (vy old) (vz old))) -> fits_new k (res_box (V3 (vx new) (vy new) (vz old))) ->
  fits k tgt (res_box new) ->
  exists t u, resample flt src tgt new = Ok (Some t) /\ holds t (res_box new) u /\
    forall p, in_box p (res_box new) -> a <= u p <= b.
Proof.
  intros F It Hs B Ro So Rn Fx Fy Fz.
  destruct (C33_formula k flt src tgt old new v) as (t & E & X & H); auto; [apply mean_filter_ok; auto|].
  exists t, (resampled (fl_eval flt) old new v). split; auto. split; auto.
  intros p P. apply resampled_bounds; auto.
Qed.
Print Assumptions C33_bounds.

(** Constant fields stay constant. *)
Theorem C33_constant k flt (src tgt : fld k) old new c :
  mean_filter flt -> f_reached 0 0 reqb k tgt -> holds src (res_box old) (fun _ => c) ->
  res_ok old -> (2 <= vx old /\ 2 <= vy old /\ 2 <= vz old)%Z -> res_ok new ->
  fits k tgt (res_box (V3 (vx new) (vy old) (vz old))) -> fits_new k (res_box (V3 (vx new) (vy new) (vz old))) ->
  fits k tgt (res_box new) ->
  exists t, resample flt src tgt new = Ok (Some t) /\ holds t (res_box new) (fun _ => c).
Proof.
  intros F It Hs Ro So Rn Fx Fy Fz.
  destruct (C33_bounds k flt src tgt old new (fun _ => c) c c) as (t & u & E & [D G] & H); auto; [intros; lra|].
  exists t. split; auto. split; auto. intros p P. rewrite G by auto. f_equal. specialize (H p P). lra.
Qed.
Print Assumptions C33_constant.

(** The minimum filter: each output voxel is an input value of its footprint and not
    above any other; likewise the maximum filter. *)
Theorem C33_min k w (src tgt : fld k) old new v :
  1 <= w <= 100 -> f_reached 0 0 reqb k tgt -> holds src (res_box old) v ->
  (forall q, in_box q (res_box old) -> v q < flt_max) ->
  res_ok old -> (2 <= vx old /\ 2 <= vy old /\ 2 <= vz old)%Z -> res_ok new ->
  fits k tgt (res_box (V3 (vx new) (vy old) (vz old))) -> fits_new k (res_box (V3 (vx new) (vy new) (vz old))) ->
  fits k tgt (res_box new) ->
  exists t u, resample (min_filter w) src tgt new = Ok (Some t) /\ holds t (res_box new) u /\
    forall p, in_box p (res_box new) ->
      (exists q, in_box q (res_box old) /\ in_footprint w old new q p /\ u p = v q) /\
      (forall q, in_box q (res_box old) -> in_footprint w old new q p -> u p <= v q).
Proof.
  intros W It Hs B Ro So Rn Fx Fy Fz. apply (inv_reached 0 0 k reqb _ reqb_decides) in It.
  destruct (resample_ext Rmin Rle flt_max Rle_refl Rle_trans Rmin_l Rmin_r (fun a b => ltac:(unfold Rmin; destruct (Rle_dec a b); auto))
    (fun a => a < flt_max) ltac:(intros a A; split; [apply Rmin_right|]; lra) k (min_filter w) w src tgt old new v)
    as (t & u & E & _ & _ & _ & H & U); auto.
  - repeat split; auto; lra.
  - exists t, u. auto.
Qed.
Print Assumptions C33_min.

Theorem C33_max k w (src tgt : fld k) old new v :
  1 <= w <= 100 -> f_reached 0 0 reqb k tgt -> holds src (res_box old) v ->
  (forall q, in_box q (res_box old) -> - flt_max < v q) ->
  res_ok old -> (2 <= vx old /\ 2 <= vy old /\ 2 <= vz old)%Z -> res_ok new ->
  fits k tgt (res_box (V3 (vx new) (vy old) (vz old))) -> fits_new k (res_box (V3 (vx new) (vy new) (vz old))) ->
  fits k tgt (res_box new) ->
  exists t u, resample (max_filter w) src tgt new = Ok (Some t) /\ holds t (res_box new) u /\
    forall p, in_box p (res_box new) ->
      (exists q, in_box q (res_box old) /\ in_footprint w old new q p /\ u p = v q) /\
      (forall q, in_box q (res_box old) -> in_footprint w old new q p -> v q <= u p).
Proof.
  intros W It Hs B Ro So Rn Fx Fy Fz. apply (inv_reached 0 0 k reqb _ reqb_decides) in It.
  destruct (resample_ext Rmax Rge (- flt_max) (fun a => Rge_refl a) (fun a b c => Rge_trans a b c)
    (fun a b => Rle_ge _ _ (Rmax_l a b)) (fun a b => Rle_ge _ _ (Rmax_r a b)) (fun a b => ltac:(unfold Rmax; destruct (Rle_dec a b); auto))
    (fun a => - flt_max < a) ltac:(intros a A; split; [apply Rmax_right|]; lra) k (max_filter w) w src tgt old new v)
    as (t & u & E & _ & _ & _ & H & U); auto.
  - repeat split; auto; lra.
  - exists t, u. split; auto. split; auto. intros p P. destruct (U p P) as [U1 U2]. split; auto.
    intros q Q1 Q2. apply Rge_le, U2; auto.
Qed.
Print Assumptions C33_max.

(** The call is refused, leaving the target alone, exactly for fields with a single
    voxel along some axis or whose window does not start at the origin. *)
Theorem C33_refused k flt (src tgt : fld k) new :
  (~ (vx (bmin (f_dw src)) < vx (bmax (f_dw src)) /\ vy (bmin (f_dw src)) < vy (bmax (f_dw src)) /\
      vz (bmin (f_dw src)) < vz (bmax (f_dw src)))%Z \/ bmin (f_dw src) <> V3 0 0 0) <->
  resample flt src tgt new = Ok None.
Proof.
  unfold resample. destruct (has_volume (f_dw src)) eqn:H; cbn [negb].
  - destruct (v3_eqb (bmin (f_dw src)) (V3 0 0 0)) eqn:E; cbn [negb].
    + apply v3_eqb_eq in E. split; [intros [N|N]; [exfalso; apply N; unfold has_volume in H; lia|contradiction]|].
      intros N. exfalso. repeat (apply bind_ok in N; destruct N as (? & _ & N)). discriminate.
    + split; auto. intros _. right. intros N. apply v3_eqb_eq in N. congruence.
  - split; auto. intros _. left. unfold has_volume in H. lia.
Qed.
Print Assumptions C33_refused.

(** A concrete source: 2 x 2 x 2 voxels, one of them 3, the others 0. *)
Definition two : box := res_box (V3 2 2 2).
Definition src_ops : list (dop R) := [DSize two two; DWrite (V3 1 0 1) 3].
Definition src_val (p : v3) : R := if v3_eqb p (V3 1 0 1) then 3 else 0.
Lemma src_field : exists f : fld (V := R) KDense, f_reached 0 0 reqb KDense f /\ holds f two src_val.
Proof.
  eexists. split.
  - exists src_ops. split; [|reflexivity].
    cbn. split; [solve_int_box|]. split; auto. unfold in_box; cbn; lia.
  - split; [reflexivity|]. intros [x y z] (X & Y & Z0). cbn in X, Y, Z0.
    assert (x = 0 \/ x = 1)%Z as [-> | ->] by lia; assert (y = 0 \/ y = 1)%Z as [-> | ->] by lia;
      assert (z = 0 \/ z = 1)%Z as [-> | ->] by lia; reflexivity.
Qed.
Lemma flt_max_big : 1000 < flt_max.
Proof. unfold flt_max. apply IZR_lt. reflexivity. Qed.

Example C33_example : exists src tgt : fld (V := R) KDense,
  mean_filter (box_filter 1) /\ mean_filter (triangle_filter 1) /\ mean_filter (gaussian_filter 2 2) /\
  sum_filter (mitchell_filter 1 (1 / 3) (1 / 3)) /\
  f_reached 0 0 reqb KDense tgt /\ holds src two src_val /\ (forall q, in_box q two -> 0 <= src_val q <= 3) /\
  (forall q, in_box q two -> - flt_max < src_val q < flt_max) /\
  res_ok (V3 2 2 2) /\ res_ok (V3 3 1 4) /\
  fits KDense tgt (res_box (V3 3 2 2)) /\ fits_new KDense (res_box (V3 3 1 2)) /\ fits KDense tgt (res_box (V3 3 1 4)).
Proof.
  destruct src_field as (f & Rf & Hf). exists f, f. pose proof flt_max_big as M.
  split; [constructor; lra|]. split; [constructor; lra|]. split; [constructor; lra|]. split; [constructor; lra|].
  split; [exact Rf|]. split; [exact Hf|]. split; [intros q _; unfold src_val; destruct (v3_eqb q (V3 1 0 1)); lra|].
  split; [intros q _; unfold src_val; destruct (v3_eqb q (V3 1 0 1)); lra|].
  split; [unfold res_ok; cbn; lia|]. split; [unfold res_ok; cbn; lia|]. cbn [fits fits_new].
  split; [solve_int_box|]. split; solve_int_box.
Qed.

(** A box narrower than one voxel leaves holes: the constant field 1, resampled from
    2 x 2 x 2 to 3 x 3 x 3 voxels with width 1/2, is 0 in the middle. *)
Theorem C33_narrow_box_refuted :
  exists src tgt t : fld (V := R) KDense, holds src two (fun _ => 1) /\
    resample (box_filter (1 / 2)) src tgt (V3 3 3 3) = Ok (Some t) /\ f_get t (V3 1 1 1) = Ok 0.
Proof.
  assert (S : exists f : fld (V := R) KDense, f_reached 0 0 reqb KDense f /\ holds f two (fun _ => 1)).
  { eexists. split.
    - exists [DSize two two; DClear 1]. split; [|reflexivity]. cbn. split; [solve_int_box|]. auto.
    - split; [reflexivity|]. intros [x y z] (X & Y & Z0). cbn in X, Y, Z0.
      assert (x = 0 \/ x = 1)%Z as [-> | ->] by lia; assert (y = 0 \/ y = 1)%Z as [-> | ->] by lia;
      assert (z = 0 \/ z = 1)%Z as [-> | ->] by lia; reflexivity. }
  destruct S as (f & Rf & Hf).
  destruct (C33_formula KDense (box_filter (1 / 2)) f f (V3 2 2 2) (V3 3 3 3) (fun _ => 1)) as (t & E & _ & [_ G]); auto;
    try (unfold res_ok; cbn; lia); try (cbn [fits fits_new]; solve_int_box).
  - constructor. lra.
  - exists f, f, t. split; auto. split; auto. rewrite G by (unfold in_box; cbn; lia). f_equal.
    unfold resampled, resampled_row at 1, weighted_mean.
    assert (W : forall s, (s = 0 \/ s = 1)%Z -> fl_eval (box_filter (1 / 2)) (distance 2 3 s 1) = 0).
    { intros s S. cbn. unfold box_eval, distance. cbn [Z.min Z.compare Pos.compare Pos.compare_cont].
      destruct (rleb_spec (Rabs ((IZR s + 1 / 2) / 2 - (1 + 1 / 2) / 3) * 2 / (1 / 2)) (1 / 2)) as [L|L]; auto. exfalso.
      destruct S as [-> | ->].
      - rewrite Rabs_left in L by lra. lra.
      - rewrite Rabs_pos_eq in L by lra. lra. }
    cbn [vz vy vx]. change (Z.to_nat 2) with 2%nat. cbn [sum_to]. change (Z.of_nat 0) with 0%Z. change (Z.of_nat 1) with 1%Z.
    rewrite !W by auto. destruct (Rlt_dec 0 (0 + 0 + 0)); lra.
Qed.
Print Assumptions C33_narrow_box_refuted.
