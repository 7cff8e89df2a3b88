(** C34: the levels of MIP fields. *)
From Coq Require Import ZArith Reals List Bool Lia Lra Psatz.
From Verif Require Import Model.Base Model.RealM Model.FieldM Model.DenseM Model.SparseM Model.OpsM Model.FilterM Model.MipM
  Spec.VoxelSpec Spec.DenseSpec Spec.SparseSpec Spec.OpsSpec Spec.FilterSpec Spec.MipSpec
  Proof.BaseP Proof.RealP Proof.DenseP Proof.OpsP Proof.FilterP Proof.ResampleP Proof.ResampleP2
  Proof.MipP Proof.MipP2 Proof.MipP3 Proof.MipP4 Proof.MipExtP Props.ResampleProps.
Import ListNotations.
Open Scope R_scope.

(** For every filter, offset, minimum size, number of threads and schedule, building the
    levels terminates without undefined behaviour.  The levels have the expected number,
    sizes and values.  The result is thrown away with an exception exactly when two
    successive levels have the same size. *)
Theorem C34_levels k flt (base : fld k) b offset v min_size n sched fuel :
  sum_filter flt -> (k = KSparse -> narrow flt) -> (0 < n)%nat -> f_reached 0 0 reqb k base ->
  f_ext base = res_box b -> holds base (res_box b) v -> res_ok b -> fits_new k (res_box b) -> (25 <= fuel)%nat ->
  exists fs m, depth b offset min_size m /\ levels_are (fl_eval flt) b offset v m fs /\
    (~ stalls b offset m -> make_mip fuel flt base min_size offset n sched = Some (Ok (Some fs))) /\
    (stalls b offset m -> make_mip fuel flt base min_size offset n sched = Some Exn).
Proof.
  intros F NR N Rb X H Ro Fb L. apply sum_filter_ok in F as [F1 F2]. apply make_mip_ok; auto.
  apply (inv_reached 0 0 k reqb); auto. exact reqb_decides.
Qed.
Print Assumptions C34_levels.

(** Without offset the call succeeds, and every level has half the size of the one before,
    rounded up. *)
Theorem C34_zero_offset k flt (base : fld k) b v min_size n sched fuel :
  sum_filter flt -> (k = KSparse -> narrow flt) -> (0 < n)%nat -> f_reached 0 0 reqb k base ->
  f_ext base = res_box b -> holds base (res_box b) v -> res_ok b -> fits_new k (res_box b) -> (25 <= fuel)%nat ->
  exists fs m, make_mip fuel flt base min_size (V3 0 0 0) n sched = Some (Ok (Some fs)) /\
    depth b (V3 0 0 0) min_size m /\ levels_are (fl_eval flt) b (V3 0 0 0) v m fs /\
    level_res b (V3 0 0 0) 0 = b /\
    forall l, let r := level_res b (V3 0 0 0) l in
      level_res b (V3 0 0 0) (S l) = V3 ((vx r + 1) / 2) ((vy r + 1) / 2) ((vz r + 1) / 2).
Proof.
  intros F NR N Rb X H Ro Fb L.
  destruct (C34_levels k flt base b zero3 v min_size n sched fuel) as (fs & m & D & A & S & _); auto.
  exists fs, m. split; [apply S, (no_stall_zero b min_size m D)|]. split; auto. split; auto. split; [apply level_res_0|].
  intros l r. unfold r, level_res. cbn [vx vy vz]. rewrite !level_size_zero. reflexivity.
Qed.
Print Assumptions C34_zero_offset.

(** With the box filter, each voxel is the mean of the eight voxels it covers in the level
    before, where that level has all eight. *)
Theorem C34_mean_of_eight k (base : fld k) b v min_size n sched fuel :
  (0 < n)%nat -> f_reached 0 0 reqb k base ->
  f_ext base = res_box b -> holds base (res_box b) v -> res_ok b -> fits_new k (res_box b) -> (25 <= fuel)%nat ->
  exists fs, make_mip fuel (box_filter 1) base min_size (V3 0 0 0) n sched = Some (Ok (Some fs)) /\
    forall l f g u x y z, nth_error fs l = Some f -> nth_error fs (S l) = Some g -> holds f (f_dw f) u ->
      in_box (V3 x y z) (f_dw g) -> in_box (V3 (2 * x + 1) (2 * y + 1) (2 * z + 1)) (f_dw f) ->
      f_get g (V3 x y z) = Ok (mean_of_eight u (V3 (2 * x) (2 * y) (2 * z))).
Proof.
  intros N Rb X H Ro Fb L.
  destruct (C34_zero_offset k (box_filter 1) base b v min_size n sched fuel) as (fs & m & E & D & [_ A] & _ & _); auto.
  { constructor. lra. } { intros _. unfold narrow. cbn. lra. }
  exists fs. split; auto. intros l f g u x y z Ef Eg [_ U] P Q.
  apply A in Ef as [_ [Df Vf]]. apply A in Eg as [_ [Dg Vg]]. rewrite Dg in P. rewrite Vg by auto. f_equal.
  rewrite Df in Q, U. assert (Q' := Q). destruct Q' as (Qx & Qy & Qz). destruct P as (Px & Py & Pz).
  assert (UV : forall q, in_box q (res_box (level_res b (V3 0 0 0) l)) -> u q = level_val (fl_eval (box_filter 1)) b (V3 0 0 0) v l q).
  { intros q Hq. specialize (U q Hq). rewrite Vf in U by auto. congruence. }
  cbn [level_val]. unfold halved. cbn [level_adds level_res res_box bmin bmax vx vy vz] in *. change (fl_eval (box_filter 1)) with (box_eval 1) in *.
  rewrite !level_add_zero. rewrite halved_row_box by lia. unfold pair_mean.
  replace ((0 <=? 2 * z - 0)%Z && (2 * z - 0 <? level_size (vz b) 0 l)%Z) with true by lia.
  replace ((0 <=? 2 * z - 0 + 1)%Z && (2 * z - 0 + 1 <? level_size (vz b) 0 l)%Z) with true by lia.
  rewrite !halved_row_box by lia. unfold pair_mean.
  replace ((0 <=? 2 * y - 0)%Z && (2 * y - 0 <? level_size (vy b) 0 l)%Z) with true by lia.
  replace ((0 <=? 2 * y - 0 + 1)%Z && (2 * y - 0 + 1 <? level_size (vy b) 0 l)%Z) with true by lia.
  rewrite !halved_row_box by lia. unfold pair_mean.
  replace ((0 <=? 2 * x - 0)%Z && (2 * x - 0 <? level_size (vx b) 0 l)%Z) with true by lia.
  replace ((0 <=? 2 * x - 0 + 1)%Z && (2 * x - 0 + 1 <? level_size (vx b) 0 l)%Z) with true by lia.
  rewrite !Z.sub_0_r. unfold mean_of_eight, v3_add. cbn [vx vy vz]. rewrite !Z.add_0_r.
  rewrite !UV by (unfold in_box; cbn [level_res res_box bmin bmax vx vy vz]; lia). field.
Qed.
Print Assumptions C34_mean_of_eight.

(** Means never leave the range of the base, on any level. *)
Theorem C34_bounds k flt (base : fld k) b v lo hi min_size n sched fuel :
  mean_filter flt -> (k = KSparse -> narrow flt) -> (0 < n)%nat -> f_reached 0 0 reqb k base ->
  f_ext base = res_box b -> holds base (res_box b) v -> (forall q, in_box q (res_box b) -> lo <= v q <= hi) ->
  res_ok b -> fits_new k (res_box b) -> (25 <= fuel)%nat ->
  exists fs, make_mip fuel flt base min_size (V3 0 0 0) n sched = Some (Ok (Some fs)) /\
    forall f p, In f fs -> in_box p (f_dw f) -> exists x, f_get f p = Ok x /\ lo <= x <= hi.
Proof.
  intros F NR N Rb X H B Ro Fb L.
  destruct (C34_zero_offset k flt base b v min_size n sched fuel) as (fs & m & E & D & [_ A] & _ & _); auto.
  { apply mean_filter_ok; auto. }
  exists fs. split; auto. intros f p I P. apply In_nth_error in I as (l & I). apply A in I as [_ [Df Vf]].
  rewrite Df in P. eexists. split; [apply Vf; auto|]. apply level_val_bounds; auto.
Qed.
Print Assumptions C34_bounds.

(** With the minimum filter every voxel of a level is the least value of the base voxels it
    covers, on every level; with the maximum filter the greatest.  Every base voxel is
    covered. *)
Theorem C34_min k (base : fld k) b v min_size n sched fuel :
  (0 < n)%nat -> f_reached 0 0 reqb k base ->
  f_ext base = res_box b -> holds base (res_box b) v -> (forall q, in_box q (res_box b) -> v q < flt_max) ->
  res_ok b -> fits_new k (res_box b) -> (25 <= fuel)%nat ->
  exists fs m, make_mip fuel (min_filter 1) base min_size (V3 0 0 0) n sched = Some (Ok (Some fs)) /\
    depth b (V3 0 0 0) min_size m /\ length fs = S m /\
    forall l f, nth_error fs l = Some f -> extreme_level Rle b v l f.
Proof.
  intros N Rb X H B Ro Fb L. apply (inv_reached 0 0 k reqb _ reqb_decides) in Rb.
  apply (make_mip_ext Rmin Rle flt_max Rle_refl Rle_trans Rmin_l Rmin_r (fun a b => ltac:(unfold Rmin; destruct (Rle_dec a b); auto))
    (fun a => a < flt_max) ltac:(intros a A; split; [apply Rmin_right|]; lra)); auto.
  repeat split; auto; lra.
Qed.
Print Assumptions C34_min.
Theorem C34_max k (base : fld k) b v min_size n sched fuel :
  (0 < n)%nat -> f_reached 0 0 reqb k base ->
  f_ext base = res_box b -> holds base (res_box b) v -> (forall q, in_box q (res_box b) -> - flt_max < v q) ->
  res_ok b -> fits_new k (res_box b) -> (25 <= fuel)%nat ->
  exists fs m, make_mip fuel (max_filter 1) base min_size (V3 0 0 0) n sched = Some (Ok (Some fs)) /\
    depth b (V3 0 0 0) min_size m /\ length fs = S m /\
    forall l f, nth_error fs l = Some f -> extreme_level Rge b v l f.
Proof.
  intros N Rb X H B Ro Fb L. apply (inv_reached 0 0 k reqb _ reqb_decides) in Rb.
  apply (make_mip_ext Rmax Rge (- flt_max) (fun a => Rge_refl a) (fun a b c => Rge_trans a b c)
    (fun a b => Rle_ge _ _ (Rmax_l a b)) (fun a b => Rle_ge _ _ (Rmax_r a b)) (fun a b => ltac:(unfold Rmax; destruct (Rle_dec a b); auto))
    (fun a => - flt_max < a) ltac:(intros a A; split; [apply Rmax_right|]; lra)); auto.
  repeat split; auto; lra.
Qed.
Print Assumptions C34_max.
Theorem C34_covered b l q : res_ok b -> in_box q (res_box b) ->
  exists p, in_box p (res_box (level_res b (V3 0 0 0) l)) /\ covered l q p.
Proof.
  intros Rb (X0 & Y0 & Z0). cbn in X0, Y0, Z0.
  exists (V3 (vx q / 2 ^ Z.of_nat l) (vy q / 2 ^ Z.of_nat l) (vz q / 2 ^ Z.of_nat l)). split; [|unfold covered; auto].
  unfold in_box, res_box, level_res. cbn [bmin bmax vx vy vz]. split; [|split]; apply level_size_div; lia.
Qed.
Print Assumptions C34_covered.

(** A field whose data window is not its extents yields a null pointer. *)
Theorem C34_cropped k flt (base : fld k) min_size offset n sched fuel :
  f_ext base <> f_dw base -> make_mip fuel flt base min_size offset n sched = Some (Ok None).
Proof.
  intros H. unfold make_mip. destruct (box_eqb (f_ext base) (f_dw base)) eqn:E; [|reflexivity].
  apply box_eqb_eq in E. contradiction.
Qed.
Print Assumptions C34_cropped.

(** Concrete base fields: [n] voxels per axis filled by [v], for small [n]. *)
Definition cube (n : Z) : v3 := V3 n n n.
Definition cube_ops (n : Z) (v : v3 -> R) : list (dop R) :=
  DSize (res_box (cube n)) (res_box (cube n)) :: map (fun p => DWrite p (v p)) (enum (res_box (cube n))).
Definition right_face (p : v3) : R := if (vx p =? 3)%Z then 1 else 0.
Lemma base_cube n v : int_box (res_box (cube n)) -> exists f : fld (V := R) KDense, f_reached 0 0 reqb KDense f /\ f_ext f = res_box (cube n) /\
  holds f (res_box (cube n)) v.
Proof.
  intros I.
  assert (W : forall l a, (forall p, In p l -> in_box p (a_dw a)) -> legal 0 a (map (fun p => DWrite p (v p)) l)).
  { induction l as [|p l IH]; intros a Hl; cbn; auto. split; [apply Hl; left; auto|]. apply IH. intros q Q. apply Hl. right. auto. }
  assert (Lg : legal 0 (spec_init 0) (cube_ops n v)).
  { cbn. split; auto. apply W. intros p P. apply enum_In in P. exact P. }
  destruct (refines_run 0 (cube_ops n v) _ _ (refines_init 0) Lg) as (f & E & Rf). exists f. split; [exists (cube_ops n v); auto|].
  assert (Wr : forall l a, let r := spec_run 0 a (map (fun p => DWrite p (v p)) l) in
    a_ext r = a_ext a /\ a_dw r = a_dw a /\ forall q, a_val r q = v q \/ (~ In q l /\ a_val r q = a_val a q)).
  { induction l as [|p l IH]; intros a; cbn [map spec_run fold_left]; [tauto|].
    destruct (IH (spec_step 0 a (DWrite p (v p)))) as (X & W1 & V1). split; [exact X|]. split; [exact W1|].
    intros q. destruct (V1 q) as [V2|[I1 V2]]; [left; exact V2|].
    fold (spec_run 0 (spec_step 0 a (DWrite p (v p))) (map (fun p => DWrite p (v p)) l)). rewrite V2. cbn [spec_step a_val].
    unfold upd. destruct (v3_dec q p) as [->|Ep]; [left; auto|].
    right. split; auto. intros [->|I2]; contradiction. }
  destruct (Wr (enum (res_box (cube n))) (spec_step 0 (spec_init 0) (DSize (res_box (cube n)) (res_box (cube n))))) as (X & W1 & V1).
  destruct Rf as [_ R1 R2 R3]. unfold cube_ops in R1, R2, R3. cbn [spec_run fold_left] in R1, R2, R3.
  cbn [spec_run] in X, W1, V1. unfold spec_run in X, W1, V1. rewrite X in R1. rewrite W1 in R2, R3. cbn [spec_step a_ext a_dw] in R1, R2, R3.
  split; [exact R1|]. split; [exact R2|]. intros q Hq. change (dense_value f q = Ok (v q)). rewrite (R3 q Hq).
  destruct (V1 q) as [V2|[I1 _]]; [f_equal; exact V2|]. destruct I1. apply enum_In. auto.
Qed.
Lemma base_field n v : n = 3%Z \/ n = 4%Z -> exists f : fld (V := R) KDense, f_reached 0 0 reqb KDense f /\ f_ext f = res_box (cube n) /\
  holds f (res_box (cube n)) v.
Proof. intros N. apply base_cube. destruct N as [-> | ->]; solve_int_box. Qed.
Lemma cube_ok n : n = 3%Z \/ n = 4%Z -> res_ok (cube n) /\ fits_new KDense (res_box (cube n)).
Proof. intros [-> | ->]; (split; [unfold res_ok; cbn; lia|cbn [fits_new]; solve_int_box]). Qed.

Example C34_example : exists base : fld (V := R) KDense,
  mean_filter (box_filter 1) /\ sum_filter (box_filter 1) /\ narrow (box_filter 1) /\ narrow (triangle_filter 1) /\
  f_reached 0 0 reqb KDense base /\ f_ext base = res_box (cube 4) /\ holds base (res_box (cube 4)) right_face /\
  (forall q, in_box q (res_box (cube 4)) -> 0 <= right_face q <= 1) /\
  res_ok (cube 4) /\ fits_new KDense (res_box (cube 4)) /\ depth (cube 4) (V3 0 0 0) 1 1 /\ depth (cube 4) (V3 1 1 1) 1 2.
Proof.
  destruct (base_field 4 right_face) as (f & Rf & X & H); auto. destruct (cube_ok 4) as [C1 C2]; auto.
  exists f. split; [constructor; lra|]. split; [constructor; lra|]. split; [unfold narrow; cbn; lra|]. split; [unfold narrow; cbn; lra|].
  split; auto. split; auto. split; auto. split; [intros q _; unfold right_face; destruct (vx q =? 3)%Z; lra|].
  split; auto. split; auto. split; (split; [|unfold continues; cbn; lia]).
  - intros [|l] L; [|lia]. unfold continues; cbn; lia.
  - intros [|[|l]] L; [| |lia]; unfold continues; cbn; lia.
Qed.

(** A field for the minimum and the maximum, with two levels. *)
Example C34_extreme_example : exists base : fld (V := R) KDense,
  f_reached 0 0 reqb KDense base /\ f_ext base = res_box (cube 4) /\ holds base (res_box (cube 4)) right_face /\
  (forall q, in_box q (res_box (cube 4)) -> - flt_max < right_face q < flt_max) /\
  res_ok (cube 4) /\ fits_new KDense (res_box (cube 4)) /\ depth (cube 4) (V3 0 0 0) 2 1 /\ covered 1 (V3 3 0 2) (V3 1 0 1).
Proof.
  destruct (base_field 4 right_face) as (f & Rf & X & H); auto. destruct (cube_ok 4) as [C1 C2]; auto.
  exists f. split; auto. split; auto. split; auto. split.
  { intros q _. assert (2 <= flt_max) by (apply IZR_le; lia). unfold right_face. destruct (vx q =? 3)%Z; lra. }
  split; auto. split; auto. split; [|unfold covered; cbn; lia]. split; [|unfold continues; cbn; lia].
  intros [|l] L; [|lia]. unfold continues; cbn; lia.
Qed.

(** An odd offset can stop the sizes from decreasing: whatever the content of a field of
    3 x 3 x 3 voxels, the call throws. *)
Theorem C34_odd_offset_refuted v n sched fuel : (0 < n)%nat -> (25 <= fuel)%nat ->
  exists base : fld (V := R) KDense, f_reached 0 0 reqb KDense base /\ f_ext base = res_box (cube 3) /\
    holds base (res_box (cube 3)) v /\ make_mip fuel (box_filter 1) base 1 (V3 1 1 1) n sched = Some Exn.
Proof.
  intros N L. destruct (base_field 3 v) as (f & Rf & X & H); auto. destruct (cube_ok 3) as [C1 C2]; auto.
  exists f. split; auto. split; auto. split; auto.
  destruct (C34_levels KDense (box_filter 1) f (cube 3) (V3 1 1 1) v 1 n sched fuel) as (fs & m & [D1 D2] & A & _ & S); auto;
    [constructor; lra|discriminate|].
  apply S. exists 0%nat. split; [|reflexivity]. destruct m; [|lia]. exfalso. apply D2. unfold continues; cbn; lia.
Qed.
Print Assumptions C34_odd_offset_refuted.

(** An odd offset can drop data: the right-most slice of a field of 4 x 4 x 4 voxels has
    value 1, the rest is 0, and the coarsest level is 0 everywhere. *)
Theorem C34_dropped_data_refuted n sched fuel : (0 < n)%nat -> (25 <= fuel)%nat ->
  exists (base : fld (V := R) KDense) f0 f1 f2, f_reached 0 0 reqb KDense base /\ holds base (res_box (cube 4)) right_face /\
    make_mip fuel (box_filter 1) base 1 (V3 1 1 1) n sched = Some (Ok (Some [f0; f1; f2])) /\
    holds f2 (res_box (cube 1)) (fun _ => 0).
Proof.
  intros N L. destruct (base_field 4 right_face) as (f & Rf & X & H); auto. destruct (cube_ok 4) as [C1 C2]; auto.
  destruct (C34_levels KDense (box_filter 1) f (cube 4) (V3 1 1 1) right_face 1 n sched fuel) as (fs & m & [D1 D2] & [A1 A2] & S & _); auto;
    [constructor; lra|discriminate|].
  assert (m = 2)%nat as ->.
  { destruct m as [|[|[|m]]]; auto; exfalso.
    - apply D2. unfold continues; cbn; lia.
    - apply D2. unfold continues; cbn; lia.
    - specialize (D1 2%nat ltac:(lia)). unfold continues in D1. cbn in D1. lia. }
  destruct fs as [|f0 [|f1 [|f2 [|? ?]]]]; try discriminate. exists f, f0, f1, f2. split; auto. split; auto. split.
  - apply S. intros (l & Ll & E). destruct l as [|[|l]]; [| |lia]; discriminate.
  - destruct (A2 2%nat f2 eq_refl) as [_ [Df Vf]]. change (level_res (cube 4) (V3 1 1 1) 2) with (cube 1) in *. split; auto.
    intros p P. rewrite Vf by auto. f_equal. destruct p as [x y z]. destruct P as (Px & Py & Pz). cbn in Px, Py, Pz.
    assert (x = 0)%Z as -> by lia. assert (y = 0)%Z as -> by lia. assert (z = 0)%Z as -> by lia.
    cbn [level_val]. unfold halved. change (fl_eval (box_filter 1)) with (box_eval 1).
    cbn [level_adds level_res vx vy vz cube].
    repeat change (level_add 1 2) with 0%Z. repeat change (level_add 1 1) with 1%Z.
    repeat change (level_size 4 1 1) with 3%Z. repeat change (level_size 4 1 0) with 4%Z.
    repeat (rewrite ?halved_row_box by lia; unfold pair_mean; cbn [andb Z.leb Z.ltb Z.compare Z.sub Z.mul Z.add Z.opp Pos.mul Pos.add Pos.compare Pos.compare_cont Pos.succ Z.pos_sub]; cbv iota).
    unfold right_face. cbn. lra.
Qed.
Print Assumptions C34_dropped_data_refuted.
