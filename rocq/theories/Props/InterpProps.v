(** C27, C28, C29: interpolation. *)
From Coq Require Import ZArith Reals List Bool Lia Lra.
From Verif Require Import Model.Base Model.FieldM Model.RealM Model.VecM Model.DenseM Model.SparseM Model.InterpM.
From Verif Require Import Spec.VoxelSpec Spec.DenseSpec Spec.SparseSpec Spec.InterpSpec.
From Verif Require Import Proof.BaseP Proof.RealP Proof.DenseP Proof.SparseP Proof.SparseP3 Proof.SparseP4 Proof.InterpP Proof.CubicP.
Import ListNotations.
Open Scope R_scope.

(** ** C27 *)

(** The theorems below are about any field that answers reads inside its window with a
    map.  Dense and sparse fields do, after any legal history (C01, C04). *)
Theorem C27_fields_read_maps :
  (forall (l : list (dop R)), legal 0 (spec_init 0) l ->
     exists f, dense_run 0 dense_init l = Ok f /\
       reads (d_dw f) (dense_value f) (a_val (spec_run 0 (spec_init 0) l))) /\
  (forall (l : list (sop R)), slegal 0 (sspec_init 0) l ->
     exists f0 f, sparse_init 0 = Ok f0 /\ sparse_run 0 reqb f0 l = Ok f /\
       reads (s_dw f) (sparse_value f) (sm_val (sspec_run 0 (sspec_init 0) l))).
Proof.
  split; intros l L.
  - destruct (refines_run 0 l _ _ (refines_init 0) L) as (f & E & [S X W D]).
    exists f. split; auto. intros q B. apply D. congruence.
  - destruct (srefines_init 0) as (f0 & E0 & R0).
    assert (De : decides_eq reqb) by (intros a b; destruct (reqb_spec a b); split; congruence).
    destruct (srefines_run 0 reqb De l f0 _ R0 L) as (f & E & [S X W O D]).
    exists f0, f. split; [auto|]. split; [auto|]. intros q B. apply D. congruence.
Qed.
Print Assumptions C27_fields_read_maps.

(** At the centre of every voxel of the window: that voxel's value. *)
Theorem C27_at_voxel_centres : forall dw val m q, reads dw val m -> in_box q dw -> pos_ok (centre q) ->
  linear_sample dw val (centre q) = Ok (m q) /\ generic_sample dw val (centre q) = Ok (m q).
Proof.
  intros dw val m q RD I P. assert (NE : box_nonempty dw) by (unfold in_box, box_nonempty in *; lia).
  rewrite generic_linear, (linear_eq dw val m), mix3_centre by auto. auto.
Qed.
Print Assumptions C27_at_voxel_centres.

(** Anywhere: between the smallest and the largest value of the voxels around the
    position. *)
Theorem C27_bounded : forall dw val m p, box_nonempty dw -> reads dw val m -> pos_ok p ->
  exists v, linear_sample dw val p = Ok v /\ generic_sample dw val p = Ok v /\
  forall lo hi, (forall q, around dw p q -> lo <= m q <= hi) -> lo <= v <= hi.
Proof.
  intros dw val m p NE RD P. exists (mix3 dw m p). rewrite generic_linear, (linear_eq dw val m) by auto.
  split; [auto|]. split; [auto|]. apply mix3_bound.
Qed.
Print Assumptions C27_bounded.

(** Affine data is reproduced exactly between the centres of the outermost voxels. *)
Theorem C27_affine : forall dw val m p c a b d, reads dw val m -> pos_ok p -> box_nonempty dw ->
  (forall q, in_box q dw -> m q = affine c a b d (centre q)) -> between (bmin dw) (bmax dw) p ->
  linear_sample dw val p = Ok (affine c a b d p) /\ generic_sample dw val p = Ok (affine c a b d p).
Proof.
  intros dw val m p c a b d RD P NE A B. rewrite generic_linear, (linear_eq dw val m), (mix3_affine dw m p c a b d) by auto. auto.
Qed.
Print Assumptions C27_affine.

(** Constant data everywhere, also outside the window. *)
Theorem C27_constant : forall dw val m p v, reads dw val m -> pos_ok p -> box_nonempty dw ->
  (forall q, in_box q dw -> m q = v) -> linear_sample dw val p = Ok v /\ generic_sample dw val p = Ok v.
Proof.
  intros dw val m p v RD P NE H. rewrite generic_linear, (linear_eq dw val m), (mix3_const dw m p v) by auto. auto.
Qed.
Print Assumptions C27_constant.

(** No jumps: the sampled function changes by at most the largest difference between
    adjacent voxels per voxel moved, also across cell borders and outside the window. *)
Theorem C27_lipschitz : forall dw val m L p p', reads dw val m -> box_nonempty dw -> 0 <= L ->
  (forall q q', in_box q dw -> in_box q' dw -> adjacent q q' -> Rabs (m q - m q') <= L) ->
  pos_ok p -> pos_ok p' ->
  exists v v', linear_sample dw val p = Ok v /\ linear_sample dw val p' = Ok v' /\
    Rabs (v - v') <= L * (Rabs (rx p - rx p') + Rabs (ry p - ry p') + Rabs (rz p - rz p')).
Proof.
  intros dw val m L p p' RD NE L0 H P P'. exists (mix3 dw m p), (mix3 dw m p').
  rewrite !(linear_eq dw val m) by auto. split; [auto|]. split; [auto|]. apply mix3_lip; auto.
Qed.
Print Assumptions C27_lipschitz.

(** A window away from the origin with one value per voxel. *)
Definition ex_dw : box := Box (V3 (-2) 1 0) (V3 3 5 4).
Definition ex_map (q : v3) : R := 3 + 2 * (IZR (vx q) + 1 / 2) - 5 * (IZR (vy q) + 1 / 2) + (IZR (vz q) + 1 / 2).
Definition ex_val (q : v3) : res R := if is_in_bounds ex_dw (vx q) (vy q) (vz q) then Ok (ex_map q) else UB.
Lemma ex_reads : reads ex_dw ex_val ex_map.
Proof.
  intros [i j k] (X & Y & Z0). unfold ex_val, is_in_bounds, ex_dw in *. cbn [vx vy vz bmin bmax] in *.
  destruct (_ || _)%bool eqn:E; auto. rewrite !orb_true_iff in E. rewrite !Z.ltb_lt, !Z.gtb_lt in E. lia.
Qed.
Lemma ex_nonempty : box_nonempty ex_dw.
Proof. unfold box_nonempty. cbn. lia. Qed.
Example C27_example : linear_sample ex_dw ex_val (R3 (1 / 4) 3 2) = Ok (- 19 / 2).
Proof.
  destruct (C27_affine ex_dw ex_val ex_map (R3 (1 / 4) 3 2) 3 2 (-5) 1) as [E _].
  - apply ex_reads.
  - unfold pos_ok. cbn [rx ry rz]. simpl pow. lra.
  - apply ex_nonempty.
  - intros q _. unfold ex_map, affine, centre. cbn [rx ry rz]. lra.
  - unfold between, centre. cbn. lra.
  - rewrite E. unfold affine. cbn [rx ry rz]. f_equal. lra.
Qed.

(** ** C28 *)

(** The sparse interpolator agrees with the generic one at every position, for every
    field reached by any history of operations: every block order, alignment and mix of
    allocated and unallocated blocks. *)
Theorem C28_sparse_fast_path : forall f p, sparse_reached 0 reqb f -> box_nonempty (s_dw f) ->
  sparse_sample f p = generic_sample (s_dw f) (sparse_value f) p.
Proof.
  intros f p R NE. apply sparse_sample_eq; auto. apply (reached_shape 0 reqb); auto.
  intros a b. destruct (reqb_spec a b); split; congruence.
Qed.
Print Assumptions C28_sparse_fast_path.

(** So it interpolates the map the field stands for. *)
Theorem C28_sparse_interpolates : forall (l : list (sop R)) p, slegal 0 (sspec_init 0) l -> pos_ok p ->
  let m := sm_val (sspec_run 0 (sspec_init 0) l) in let dw := sm_dw (sspec_run 0 (sspec_init 0) l) in
  box_nonempty dw ->
  exists f0 f v, sparse_init 0 = Ok f0 /\ sparse_run 0 reqb f0 l = Ok f /\
    sparse_sample f p = Ok v /\
    (forall q, in_box q dw -> p = centre q -> v = m q) /\
    (forall lo hi, (forall q, around dw p q -> lo <= m q <= hi) -> lo <= v <= hi) /\
    (forall c a b d, between (bmin dw) (bmax dw) p ->
       (forall q, in_box q dw -> m q = affine c a b d (centre q)) -> v = affine c a b d p).
Proof.
  intros l p L P m dw NE. destruct (srefines_init 0) as (f0 & E0 & R0).
  assert (De : decides_eq reqb) by (intros a b; destruct (reqb_spec a b); split; congruence).
  destruct (srefines_run 0 reqb De l f0 _ R0 L) as (f & E1 & [SH X W OO D]).
  exists f0, f, (mix3 dw m p). split; [auto|]. split; [auto|].
  assert (Edw : s_dw f = dw) by (unfold dw; congruence).
  split.
  { rewrite sparse_sample_eq by (rewrite ?Edw; auto). rewrite Edw, generic_linear, (linear_eq dw _ m) by (auto; intros q B; apply D; auto).
    reflexivity. }
  split; [intros q I ->; apply mix3_centre; auto|]. split; [apply mix3_bound|]. intros. apply mix3_affine; auto.
Qed.
Print Assumptions C28_sparse_interpolates.

Definition ex_sops : list (sop R) :=
  [SSize (Box (V3 0 0 0) (V3 7 3 3)) (Box (V3 0 0 0) (V3 7 3 3)); SOrder 2; SClear 5; SWrite (V3 1 1 1) 9; SBlockEmpty (V3 1 0 0) 4].
Example C28_example : slegal 0 (sspec_init 0) ex_sops /\ box_nonempty (sm_dw (sspec_run 0 (sspec_init 0) ex_sops)) /\
  sm_val (sspec_run 0 (sspec_init 0) ex_sops) (V3 1 1 1) = 9 /\ sm_val (sspec_run 0 (sspec_init 0) ex_sops) (V3 6 1 1) = 4 /\
  sm_val (sspec_run 0 (sspec_init 0) ex_sops) (V3 2 1 1) = 5.
Proof.
  split; [apply slegalb_ok; vm_compute; reflexivity|]. split; [unfold box_nonempty; cbn; lia|].
  repeat split; vm_compute; reflexivity.
Qed.

(** ** C29 *)

(** At the centre of every voxel with non-negative coordinates: that voxel's value. *)
Theorem C29_at_voxel_centres : forall dw val m q, reads dw val m -> win_ok dw -> in_box q dw ->
  (0 <= vx q)%Z -> (0 <= vy q)%Z -> (0 <= vz q)%Z -> pos_ok (centre q) -> cubic_sample dw val (centre q) = Ok (m q).
Proof. intros dw val m q RD W I X Y Z0 P. rewrite (cubic_eq dw val m), cub3_centre by auto. auto. Qed.
Print Assumptions C29_at_voxel_centres.

(** Constant data everywhere. *)
Theorem C29_constant : forall dw val m p v, reads dw val m -> win_ok dw -> pos_ok p ->
  (forall q, in_box q dw -> m q = v) -> cubic_sample dw val p = Ok v.
Proof. intros dw val m p v RD W P H. rewrite (cubic_eq dw val m), (cub3_const dw m p v) by (auto; apply W). auto. Qed.
Print Assumptions C29_constant.

(** Affine data exactly, one voxel away from the border of the window and at positions
    not below 1/2. *)
Theorem C29_affine : forall dw val m p c a b d, reads dw val m -> win_ok dw -> pos_ok p ->
  (forall q, in_box q dw -> m q = affine c a b d (centre q)) ->
  between (v3_add (bmin dw) (V3 1 1 1)) (v3_sub (bmax dw) (V3 1 1 1)) p ->
  1 / 2 <= rx p -> 1 / 2 <= ry p -> 1 / 2 <= rz p ->
  cubic_sample dw val p = Ok (affine c a b d p).
Proof. intros dw val m p c a b d RD W P H B X Y Z0. rewrite (cubic_eq dw val m), (cub3_affine dw m p c a b d) by auto. auto. Qed.
Print Assumptions C29_affine.

(** The overshoot is bounded: at most 61/128 of the range of the data, anywhere... *)
Theorem C29_overshoot_bounded : forall dw val m p lo hi, reads dw val m -> win_ok dw -> pos_ok p ->
  (forall q, in_box q dw -> lo <= m q <= hi) ->
  exists v, cubic_sample dw val p = Ok v /\ lo - 61 / 128 * (hi - lo) <= v <= hi + 61 / 128 * (hi - lo).
Proof.
  intros dw val m p lo hi RD W P H. rewrite (cubic_eq dw val m) by auto. eexists. split; [reflexivity|].
  apply cub3_bound; auto. apply W.
Qed.
Print Assumptions C29_overshoot_bounded.
(** ... and an eighth of it on a line of four samples, which is reached. *)
Theorem C29_interpolant_overshoot : 
  (forall lo hi a b c d t, 0 <= t <= 1 -> lo <= a <= hi -> lo <= b <= hi -> lo <= c <= hi -> lo <= d <= hi ->
     lo - (hi - lo) / 8 <= cubic a b c d t <= hi + (hi - lo) / 8) /\
  (forall a b c d, cubic a b c d 0 = b /\ cubic a b c d 1 = c) /\
  (forall e, 0 < e <= 1 -> cubic 0 1 (1 - e) 0 (1 / 2) = 9 / 8 - e * (9 / 16)).
Proof.
  split; [exact cubic_bound|]. split; [intros; split; [apply cubic_zero|apply cubic_one]|].
  intros e L. rewrite cubic_weights by lra. field.
Qed.
Print Assumptions C29_interpolant_overshoot.

(** The interpolant called monotonic is between its two middle samples for monotone data
    whose slopes are at most three times the middle step... *)
Theorem C29_monotone_partial : forall a b c d t, 0 <= t <= 1 -> a <= b -> b <= c -> c <= d ->
  c - a <= 6 * (c - b) -> d - b <= 6 * (c - b) -> b <= cubic a b c d t <= c.
Proof. exact cubic_hull. Qed.
Print Assumptions C29_monotone_partial.
Example C29_monotone_example : 1 <= cubic 0 1 3 4 (1 / 2) <= 3.
Proof. apply C29_monotone_partial; lra. Qed.
(** ... but not for all monotone data. *)
Theorem C29_monotone_refuted : exists a b c d t, 0 <= t <= 1 /\ a <= b /\ b <= c /\ c <= d /\ c + 6 < cubic a b c d t.
Proof.
  exists (-100), 0, 1, 1, (1 / 4). repeat (split; [lra|]). rewrite cubic_weights by lra. lra.
Qed.
Print Assumptions C29_monotone_refuted.

(** At the centre of a voxel with a negative coordinate the value is another voxel's: the
    position is clamped at 1/2 whatever the window. *)
Theorem C29_negative_window_refuted : exists dw m val q, win_ok dw /\ reads dw val m /\ in_box q dw /\ pos_ok (centre q) /\
  exists v, cubic_sample dw val (centre q) = Ok v /\ v <> m q.
Proof.
  pose (dw := Box (V3 (-1) 0 0) (V3 0 0 0)). pose (m := fun q : v3 => IZR (vx q)). pose (val := fun q => Ok (m q)).
  exists dw, m, val, (V3 (-1) 0 0).
  assert (W : win_ok dw) by (unfold win_ok, box_nonempty, dw; cbn; lia).
  assert (P : pos_ok (centre (V3 (-1) 0 0))) by (unfold pos_ok, centre; cbn [rx ry rz vx vy vz]; simpl pow; lra).
  assert (RD : reads dw val m) by (intros q _; reflexivity).
  split; [auto|]. split; [auto|]. split; [unfold in_box, dw; cbn; lia|]. split; [auto|].
  rewrite (cubic_eq dw val m) by auto. eexists. split; [reflexivity|].
  assert (E : cub3 dw m (centre (V3 (-1) 0 0)) = cub3 dw m (centre (V3 0 0 0))).
  { unfold cub3, centre. cbn [rx ry rz vx vy vz]. unfold cub1 at 1 4. unfold Rmax.
    destruct (Rle_dec (1 / 2) (-1 + 1 / 2)); [lra|]. destruct (Rle_dec (1 / 2) (0 + 1 / 2)); [|lra].
    replace (0 + 1 / 2 - 1 / 2) with (1 / 2 - 1 / 2) by lra. reflexivity. }
  rewrite E, cub3_centre; [unfold m; cbn; lra|unfold in_box, dw; cbn; lia|cbn; lia|cbn; lia|cbn; lia].
Qed.
Print Assumptions C29_negative_window_refuted.
Example C29_example : cubic_sample ex_dw ex_val (R3 (3 / 4) 3 2) = Ok (- 17 / 2).
Proof.
  rewrite (C29_affine ex_dw ex_val ex_map (R3 (3 / 4) 3 2) 3 2 (-5) 1).
  - unfold affine. cbn [rx ry rz]. f_equal. lra.
  - apply ex_reads.
  - unfold win_ok, box_nonempty. cbn. lia.
  - unfold pos_ok. cbn [rx ry rz]. simpl pow. lra.
  - intros q _. unfold ex_map, affine, centre. cbn [rx ry rz]. lra.
  - unfold between, centre, v3_add, v3_sub. cbn. lra.
  - cbn. lra.
  - cbn. lra.
  - cbn. lra.
Qed.

(** Below a window that starts above the origin the border value is not continued: the
    index is clamped to the window but the fraction is not.  The voxel nearest to the
    position holds 0, the result is above 1/2. *)
Theorem C29_below_window_refuted : exists dw m val p, win_ok dw /\ reads dw val m /\ pos_ok p /\
  (forall q, around dw p q -> m q = 0) /\ exists v, cubic_sample dw val p = Ok v /\ 1 / 2 < v.
Proof.
  pose (dw := Box (V3 5 0 0) (V3 6 0 0)). pose (m := fun q : v3 => IZR (vx q) - 5). pose (val := fun q => Ok (m q)).
  exists dw, m, val, (R3 (5 + 1 / 4) (1 / 2) (1 / 2)).
  assert (W : win_ok dw) by (unfold win_ok, box_nonempty, dw; cbn; lia).
  assert (P : pos_ok (R3 (5 + 1 / 4) (1 / 2) (1 / 2))) by (unfold pos_ok; cbn [rx ry rz]; simpl pow; lra).
  assert (RD : reads dw val m) by (intros q _; reflexivity).
  split; [auto|]. split; [auto|]. split; [auto|]. split.
  - intros q (n & -> & X & _ & _). cbn [centre rx] in X. apply Rabs_def2 in X.
    assert (L : (vx n < 6)%Z) by (apply lt_IZR; lra). unfold m, nearest, dw. cbn [vx bmin bmax].
    replace (Z.max 5 (Z.min (vx n) 6)) with 5%Z by lia. lra.
  - rewrite (cubic_eq dw val m) by auto. eexists. split; [reflexivity|].
    unfold cub3. cbn [rx ry rz dw bmin bmax vx vy vz].
    assert (I : forall i, cub1 0 0 (fun j => cub1 0 0 (fun k => m (V3 i j k)) (1 / 2)) (1 / 2) = IZR i - 5).
    { intros i. replace (1 / 2) with (IZR 0 + 1 / 2) by lra. rewrite !(cub1_centre 0 0) by lia. reflexivity. }
    unfold cub1 at 1. cbv zeta. rewrite !I. rewrite Rmax_right by lra.
    replace (rfloor (5 + 1 / 4 - 1 / 2)) with 4%Z by (symmetry; apply rfloor_unique; lra).
    change (clamp_in 5 6 4) with 5%Z. change (clamp_in 5 6 (5 - 1)) with 5%Z. change (clamp_in 5 6 (5 + 1)) with 6%Z. change (clamp_in 5 6 (5 + 2)) with 6%Z.
    rewrite cubic_weights by lra. lra.
Qed.
Print Assumptions C29_below_window_refuted.
