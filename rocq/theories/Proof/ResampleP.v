(** Proofs about separable resampling. *)
From Coq Require Import ZArith Reals List Bool Lia Lra Psatz.
From Verif Require Import Model.Base Model.RealM Model.VecM Model.FieldM Model.OpsM Model.LoopM Model.FilterM
  Spec.VoxelSpec Spec.OpsSpec Spec.FilterSpec Proof.BaseP Proof.RealP Proof.LoopP Proof.OpsP Proof.FilterP.
Import ListNotations.
Open Scope R_scope.

Lemma IZR_pos n : (1 <= n)%Z -> 1 <= IZR n.
Proof. intros H. apply (IZR_le 1) in H. exact H. Qed.
Lemma get_dist_ok n m s t : (1 <= n)%Z -> (1 <= m)%Z ->
  get_dist (m >? n)%Z (voxel_centre s) (voxel_centre t) (1 / IZR n) (1 / IZR m) = distance n m s t.
Proof.
  intros N M. apply IZR_pos in N as N'. apply IZR_pos in M as M'. unfold get_dist, distance, voxel_centre.
  destruct (m >? n)%Z eqn:E.
  - rewrite Z.min_l by lia. rewrite <- (Rabs_pos_eq (IZR n)) at 3 by lra. rewrite <- Rabs_mult, Rabs_minus_sym.
    f_equal. field. lra.
  - rewrite Z.min_r by lia. rewrite <- (Rabs_pos_eq (IZR m)) at 3 by lra. rewrite <- Rabs_mult. f_equal. field. lra.
Qed.

Lemma distance_nonneg n m s t : (1 <= n)%Z -> (1 <= m)%Z -> 0 <= distance n m s t.
Proof. intros N M. unfold distance. apply Rmult_le_pos; [apply Rabs_pos|]. apply (IZR_le 0). lia. Qed.

Lemma Rabs_le_inv a b : Rabs a <= b -> - b <= a <= b.
Proof. intros H. unfold Rabs in H. destruct (Rcase_abs a); lra. Qed.

(** Position of target voxel [t] in source coordinates. *)
Definition src_pos (n m t : Z) : R := (IZR t + 1 / 2) * IZR n / IZR m.
Lemma src_pos_range n m t : (1 <= n)%Z -> (0 <= t <= m - 1)%Z -> 0 < src_pos n m t < IZR n.
Proof.
  intros N T. assert (1 <= IZR n) by (apply IZR_pos; auto). assert (1 <= IZR m) by (apply IZR_pos; lia).
  assert (0 <= IZR t <= IZR m - 1) by (rewrite <- minus_IZR; split; [apply (IZR_le 0)|apply IZR_le]; lia).
  unfold src_pos. split; [apply Rdiv_lt_0_compat; [apply Rmult_lt_0_compat; lra|lra]|].
  apply Rmult_lt_reg_r with (IZR m); [lra|]. unfold Rdiv. rewrite Rmult_assoc, Rinv_l by lra. nra.
Qed.

Lemma src_support_ok n m t supp : (1 <= n <= 2 ^ 24)%Z -> (1 <= m <= 2 ^ 24)%Z -> (0 <= t <= m - 1)%Z -> 0 < supp <= 100 ->
  exists lo hi, src_support (voxel_centre t) supp (m >? n)%Z (1 / IZR n) (1 / IZR m) = Ok (lo, hi) /\
    forall s, distance n m s t <= supp -> (lo <= s <= hi)%Z.
Proof.
  intros N M T S. assert (N1 : 1 <= IZR n) by (apply IZR_pos; lia). assert (M1 : 1 <= IZR m) by (apply IZR_pos; lia).
  assert (N2 : IZR n <= 16777216) by (apply (IZR_le _ (2 ^ 24)); lia).
  pose proof (src_pos_range n m t ltac:(lia) T) as Q. set (q := src_pos n m t) in *.
  unfold src_support, voxel_centre. destruct (m >? n)%Z eqn:E.
  - replace ((IZR t + 1 / 2) * (1 / IZR m) / (1 / IZR n)) with q by (unfold q, src_pos; field; lra).
    unfold int_floor, int_ceil. pose proof (rfloor_spec (q - supp)) as F. pose proof (rceil_spec (q + supp)) as C.
    assert (-101 < rfloor (q - supp))%Z by (apply lt_IZR; lra).
    assert (rfloor (q - supp) <= 16777216)%Z by (apply le_IZR; lra).
    assert (rceil (q + supp) < 16777317)%Z by (apply lt_IZR; lra).
    assert (0 <= rceil (q + supp))%Z by (apply le_IZR; lra).
    rewrite !i32_ok by (unfold int_min, int_max; lia). cbn [bind].
    rewrite !i32_ok by (unfold int_min, int_max; lia). cbn [bind].
    eexists. eexists. split; [reflexivity|]. intros s D. unfold distance in D. rewrite Z.min_l in D by lia.
    rewrite <- (Rabs_pos_eq (IZR n)) in D at 2 by lra. rewrite <- Rabs_mult in D.
    replace (((IZR s + 1 / 2) / IZR n - (IZR t + 1 / 2) / IZR m) * IZR n) with (IZR s + 1 / 2 - q) in D by (unfold q, src_pos; field; lra).
    apply Rabs_le_inv in D. split.
    + assert (rfloor (q - supp) < s + 1)%Z; [|lia]. apply lt_IZR. rewrite plus_IZR. lra.
    + assert (s < rceil (q + supp))%Z; [|lia]. apply lt_IZR. lra.
  - set (r := IZR n / IZR m).
    assert (R1 : 1 <= r). { unfold r. apply Rmult_le_reg_r with (IZR m); [lra|]. unfold Rdiv. rewrite Rmult_assoc, Rinv_l by lra.
      assert (IZR m <= IZR n) by (apply IZR_le; lia). lra. }
    assert (R2 : r <= IZR n). { unfold r. apply Rmult_le_reg_r with (IZR m); [lra|]. unfold Rdiv. rewrite Rmult_assoc, Rinv_l by lra. nra. }
    assert (Q' : (IZR t + 1 / 2) * r = q) by (unfold q, src_pos, r; field; lra).
    replace ((IZR t + 1 / 2 - supp) * (1 / IZR m) / (1 / IZR n)) with (q - supp * r) by (rewrite <- Q'; unfold r; field; lra).
    replace ((IZR t + 1 / 2 + supp) * (1 / IZR m) / (1 / IZR n)) with (q + supp * r) by (rewrite <- Q'; unfold r; field; lra).
    unfold int_floor, int_ceil. pose proof (rfloor_spec (q - supp * r)) as F. pose proof (rceil_spec (q + supp * r)) as C.
    assert (0 < supp * r <= 1677721600) by nra.
    assert (-1677721602 < rfloor (q - supp * r))%Z by (apply lt_IZR; lra).
    assert (rfloor (q - supp * r) <= 16777216)%Z by (apply le_IZR; lra).
    assert (rceil (q + supp * r) < 1694498817)%Z by (apply lt_IZR; lra).
    assert (0 <= rceil (q + supp * r))%Z by (apply le_IZR; lra).
    rewrite !i32_ok by (unfold int_min, int_max; lia). cbn [bind].
    eexists. eexists. split; [reflexivity|]. intros s D. unfold distance in D. rewrite Z.min_r in D by lia.
    assert (D' : Rabs (IZR s + 1 / 2 - q) <= supp * r).
    { replace (IZR s + 1 / 2 - q) with (((IZR s + 1 / 2) / IZR n - (IZR t + 1 / 2) / IZR m) * IZR n) by (unfold q, src_pos; field; lra).
      rewrite Rabs_mult, (Rabs_pos_eq (IZR n)) by lra.
      replace (IZR n) with (IZR m * r) at 2 by (unfold r; field; lra). rewrite <- Rmult_assoc. apply Rmult_le_compat_r; lra. }
    apply Rabs_le_inv in D'. split.
    + assert (rfloor (q - supp * r) < s + 1)%Z; [|lia]. apply lt_IZR. rewrite plus_IZR. lra.
    + apply Z.lt_succ_r. apply lt_IZR. rewrite succ_IZR. lra.
Qed.

(** Some source voxel is within half a unit of every target voxel. *)
Lemma nearest n m t : (1 <= n)%Z -> (1 <= m)%Z -> (0 <= t <= m - 1)%Z -> exists s, (0 <= s <= n - 1)%Z /\ distance n m s t <= 1 / 2.
Proof.
  intros N M T. pose proof (src_pos_range n m t N T) as Q. set (q := src_pos n m t) in *.
  pose proof (rfloor_spec q) as F. exists (rfloor q). split.
  - split; [assert (-1 < rfloor q)%Z by (apply lt_IZR; lra); lia|].
    assert (rfloor q < n)%Z by (apply lt_IZR; lra). lia.
  - assert (N1 : 1 <= IZR n) by (apply IZR_pos; lia). assert (M1 : 1 <= IZR m) by (apply IZR_pos; lia).
    unfold distance. replace ((IZR (rfloor q) + 1 / 2) / IZR n - (IZR t + 1 / 2) / IZR m)
      with ((IZR (rfloor q) + 1 / 2 - q) * / IZR n) by (unfold q at 2, src_pos; field; lra).
    rewrite Rabs_mult, (Rabs_pos_eq (/ IZR n)) by (left; apply Rinv_0_lt_compat; lra).
    assert (A : Rabs (IZR (rfloor q) + 1 / 2 - q) <= 1 / 2) by (apply Rabs_le; lra).
    assert (K : 0 <= / IZR n * IZR (Z.min n m) <= 1).
    { split; [apply Rmult_le_pos; [left; apply Rinv_0_lt_compat; lra|apply (IZR_le 0); lia]|].
      apply Rmult_le_reg_l with (IZR n); [lra|]. rewrite <- Rmult_assoc, Rinv_r, Rmult_1_l, Rmult_1_r by lra. apply IZR_le; lia. }
    rewrite Rmult_assoc. pose proof (Rabs_pos (IZR (rfloor q) + 1 / 2 - q)). nra.
Qed.

(** * One pass *)
(** The filter has no weight beyond its support. *)
Definition vanishes (flt : filter) : Prop :=
  0 < fl_support flt <= 100 /\ forall t, fl_support flt < t -> fl_eval flt t = 0.

Lemma box_size_res r : res_ok r -> v3_add (box_size (res_box r)) (V3 1 1 1) = r.
Proof.
  intros (X & Y & Z0). unfold box_size, res_box, box_empty. cbn.
  replace (_ || _ || _) with false by lia. unfold v3_add, v3_sub. cbn. destruct r as [a b c]; cbn in *. f_equal; lia.
Qed.
Lemma size_v_res r : size_v r = (res_box r, res_box r).
Proof. unfold size_v, res_box, v3_sub. cbn. reflexivity. Qed.
Lemma res_box_nonempty r : res_ok r -> box_nonempty (res_box r).
Proof. intros (X & Y & Z0). unfold box_nonempty, res_box. cbn. lia. Qed.
Lemma in_res_box p r : in_box p (res_box r) <->
  (0 <= vx p <= vx r - 1 /\ 0 <= vy p <= vy r - 1 /\ 0 <= vz p <= vz r - 1)%Z.
Proof. reflexivity. Qed.
Lemma res_box_axis r a : bmin (res_box r) = V3 0 0 0 /\ vget a (bmin (res_box r)) = 0%Z /\ vget a (bmax (res_box r)) = (vget a r - 1)%Z.
Proof. destruct a; cbn; auto. Qed.
Lemma res_ok_axis r a : res_ok r -> (1 <= vget a r <= 2 ^ 24)%Z.
Proof. intros (X & Y & Z0). destruct a; cbn [vget]; auto. Qed.
Lemma in_res_axis p r a : in_box p (res_box r) -> (0 <= vget a p <= vget a r - 1)%Z.
Proof. intros (X & Y & Z0). destruct a; cbn in *; auto. Qed.
Lemma in_res_vset p old new a s : in_box p (res_box new) -> (forall b, b <> a -> vget b new = vget b old) ->
  (0 <= s <= vget a old - 1)%Z -> in_box (vset a p s) (res_box old).
Proof.
  intros (X & Y & Z0) H S.
  assert (HX := H AxX). assert (HY := H AxY). assert (HZ := H AxZ). unfold in_box.
  destruct a; cbn in *; rewrite ?HX, ?HY, ?HZ in * by discriminate; auto.
Qed.

(** One pass, whatever the filter: if every voxel's loop succeeds, the target ends up
    with the results. *)
Lemma separable_gen k flt a (src tgt : fld (V := R) k) new (P : v3 -> option R -> Prop) :
  inv k tgt -> res_ok new -> fits k tgt (res_box new) ->
  (forall p, in_box p (res_box new) -> exists o, separable_voxel flt a src new p = Ok o /\ P p o) ->
  exists t' h, separable flt a src tgt new = Ok t' /\ inv k t' /\ f_ext t' = res_box new /\
    (forall b, fits k t' b <-> fits k tgt b) /\ (forall p, in_box p (res_box new) -> P p (h p)) /\
    holds t' (res_box new) (fun p => val0 (h p)).
Proof.
  intros It Rn Ft G. unfold separable. rewrite size_v_res.
  destruct (size_ok 0 0 k tgt (res_box new) (res_box new) It Ft (res_box_nonempty new Rn)) as (t & -> & It' & Xt & Dt & Fit & Vt).
  cbn [bind].
  set (h := fun p => match separable_voxel flt a src new p with Ok o => o | _ => None end).
  destruct (fill_ok k (separable_voxel flt a src new) h (box_voxels (Box (V3 0 0 0) (v3_sub new (V3 1 1 1)))) t It')
    as (t' & -> & It2 & Xt2 & Dt2 & Fit2 & Vt2).
  { intros p Q. apply voxels_in in Q. assert (Q' : in_box p (res_box new)) by exact Q.
    split; [congruence|]. destruct (G p Q') as (o & E & _). unfold h. rewrite E. reflexivity. }
  exists t', h. split; auto. split; auto. split; [congruence|]. split; [intros b; rewrite Fit2, Fit; tauto|].
  split; [intros p Q; destruct (G p Q) as (o & E & O); unfold h; rewrite E; auto|].
  split; [congruence|]. intros p Q. destruct (Vt2 p) as [V1 _]; [congruence|].
  rewrite V1 by (apply voxels_in; exact Q). destruct (h p); cbn [val0]; auto. rewrite Vt by auto. destruct k; reflexivity.
Qed.

(** The loop bounds of one voxel contain all voxels within the support. *)
Lemma separable_voxel_range k flt a (src : fld (V := R) k) old new p :
  0 < fl_support flt <= 100 -> f_dw src = res_box old -> res_ok old -> res_ok new -> in_box p (res_box new) ->
  exists lo hi, (0 <= lo)%Z /\ (hi <= vget a old - 1)%Z /\
    (forall s, (0 <= s <= vget a old - 1)%Z -> distance (vget a old) (vget a new) s (vget a p) <= fl_support flt -> (lo <= s <= hi)%Z) /\
    separable_voxel flt a src new p = filter_line flt (fun s => f_get src (vset a p s))
      (fun s => fl_eval flt (get_dist (vget a new >? vget a old)%Z (voxel_centre s) (voxel_centre (vget a p))
         (1 / IZR (vget a old)) (1 / IZR (vget a new)))) lo hi.
Proof.
  intros SP Ds Ro Rn Q. unfold separable_voxel. rewrite Ds, box_size_res by auto.
  destruct (src_support_ok (vget a old) (vget a new) (vget a p) (fl_support flt)) as (lo & hi & -> & B);
      [apply res_ok_axis; auto|apply res_ok_axis; auto|apply in_res_axis; auto|auto|].
  cbn [bind]. destruct (res_box_axis old a) as (_ & -> & ->).
  exists (Z.max lo 0), (Z.min hi (vget a old - 1)). split; [lia|]. split; [lia|]. split; [|reflexivity].
  intros s S D. apply B in D. lia.
Qed.

(** What one pass of any summing filter computes. *)
Lemma separable_ok k flt a (src tgt : fld (V := R) k) old new v :
  sum_kind flt -> vanishes flt -> inv k tgt -> holds src (res_box old) v ->
  res_ok old -> res_ok new -> fits k tgt (res_box new) -> (forall b, b <> a -> vget b new = vget b old) ->
  exists t', separable flt a src tgt new = Ok t' /\ inv k t' /\ f_ext t' = res_box new /\
    (forall b, fits k t' b <-> fits k tgt b) /\
    holds t' (res_box new) (fun p => resampled_row (fl_eval flt) (vget a old) (vget a new) (fun s => v (vset a p s)) (vget a p)).
Proof.
  intros SK [SP VN] It [Ds Vs] Ro Rn Ft Eq.
  destruct (separable_gen k flt a src tgt new (fun p o =>
     val0 o = resampled_row (fl_eval flt) (vget a old) (vget a new) (fun s => v (vset a p s)) (vget a p)))
    as (t' & h & E & I & X & F & Ph & D & G); auto.
  { intros p Q. destruct (separable_voxel_range k flt a src old new p) as (lo & hi & L & H & B & ->); auto.
    match goal with |- context [filter_line _ _ ?w _ _] => 
    destruct (filter_line_sum flt (fun s => f_get src (vset a p s)) (fun s => v (vset a p s)) w lo hi (vget a old))
      as (o & -> & E); auto end.
    - destruct (res_ok_axis old a Ro). lia.
    - intros s S. apply Vs. apply in_res_vset with new; auto. lia.
    - intros s S NS. rewrite get_dist_ok by (apply res_ok_axis; auto). apply VN.
      destruct (Rlt_le_dec (fl_support flt) (distance (vget a old) (vget a new) s (vget a p))) as [|DD]; auto.
      apply B in DD; auto. contradiction.
    - exists o. split; auto. rewrite E. apply weighted_mean_ext. intros s S. split; auto.
      rewrite get_dist_ok by (apply res_ok_axis; auto). reflexivity. }
  exists t'. split; auto. split; auto. split; auto. split; auto. split; auto.
  intros p Q. rewrite G by auto. f_equal. apply Ph. auto.
Qed.

Lemma resampled_row_ext eval n m v v' t : (forall s, (0 <= s <= n - 1)%Z -> v s = v' s) ->
  resampled_row eval n m v t = resampled_row eval n m v' t.
Proof. intros H. apply weighted_mean_ext. auto. Qed.

(** Does the call accept the field? *)
Definition solid (r : v3) : Prop := (2 <= vx r /\ 2 <= vy r /\ 2 <= vz r)%Z.

Lemma resample_ok k flt (src tgt : fld (V := R) k) old new v :
  sum_kind flt -> vanishes flt -> inv k tgt -> holds src (res_box old) v ->
  res_ok old -> solid old -> res_ok new ->
  fits k tgt (res_box (V3 (vx new) (vy old) (vz old))) ->
  fits_new k (res_box (V3 (vx new) (vy new) (vz old))) -> fits k tgt (res_box new) ->
  exists t', resample flt src tgt new = Ok (Some t') /\ inv k t' /\ f_ext t' = res_box new /\
    (forall b, fits k t' b <-> fits k tgt b) /\
    holds t' (res_box new) (resampled (fl_eval flt) old new v).
Proof.
  intros SK VN It Hs Ro So Rn Fx Fy Fz. unfold resample.
  assert (Dw : f_dw src = res_box old) by apply Hs. rewrite Dw, box_size_res by auto.
  assert (has_volume (res_box old) = true) as -> by (unfold has_volume, res_box, solid in *; cbn; lia).
  cbn [negb]. change (v3_eqb (bmin (res_box old)) (V3 0 0 0)) with true. cbn [negb].
  destruct (inv_new (0 : R) (0 : R) k) as (tmp & -> & Itmp & Ftmp). cbn [bind].
  destruct Ro as (Ox & Oy & Oz). destruct Rn as (Nx & Ny & Nz).
  destruct (separable_ok k flt AxX src tgt old (V3 (vx new) (vy old) (vz old)) v) as (t1 & -> & I1 & X1 & F1 & H1); auto.
  { unfold res_ok; auto. } { unfold res_ok; cbn; auto. } { intros [] N; cbn; auto; congruence. }
  cbn [bind].
  match type of H1 with holds _ _ ?v1 => 
  destruct (separable_ok k flt AxY t1 tmp (V3 (vx new) (vy old) (vz old)) (V3 (vx new) (vy new) (vz old)) v1) as (t2 & -> & I2 & X2 & F2 & H2); auto end.
  { unfold res_ok; cbn; auto. } { unfold res_ok; cbn; auto. } { apply Ftmp; auto. } { intros [] N; cbn; auto; congruence. }
  cbn [bind].
  match type of H2 with holds _ _ ?v2 => 
  destruct (separable_ok k flt AxZ t2 t1 (V3 (vx new) (vy new) (vz old)) (V3 (vx new) (vy new) (vz new)) v2) as (t3 & -> & I3 & X3 & F3 & H3); auto end.
  { unfold res_ok; cbn; auto. } { unfold res_ok; cbn; auto. } { apply F1. destruct new; auto. } { intros [] N; cbn; auto; congruence. }
  cbn [bind]. exists t3. split; auto. split; auto. replace (V3 (vx new) (vy new) (vz new)) with new in * by (destruct new; auto).
  split; auto. split; [intros b; rewrite F3, F1; tauto|].
  destruct H3 as [D3 V3']. split; [exact D3|]. intros p P. rewrite V3' by auto. f_equal.
Qed.
