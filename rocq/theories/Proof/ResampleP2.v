(** The individual filters: means, minima and maxima. *)
From Coq Require Import ZArith Reals List Bool Lia Lra Psatz.
From Verif Require Import Model.Base Model.RealM Model.VecM Model.FieldM Model.OpsM Model.LoopM Model.FilterM
  Spec.VoxelSpec Spec.OpsSpec Spec.FilterSpec Proof.BaseP Proof.RealP Proof.LoopP Proof.OpsP Proof.FilterP Proof.ResampleP.
Import ListNotations.
Open Scope R_scope.

Lemma div_lt_iff x w c : 0 < w -> c < x / w <-> c * w < x.
Proof.
  intros W. split; intros H.
  - apply Rmult_lt_reg_r with (/ w); [apply Rinv_0_lt_compat; auto|]. rewrite Rmult_assoc, Rinv_r, Rmult_1_r by lra. exact H.
  - apply Rmult_lt_reg_r with w; auto. unfold Rdiv. rewrite Rmult_assoc, Rinv_l, Rmult_1_r by lra. exact H.
Qed.
Lemma div_le_iff x w c : 0 < w -> x / w <= c <-> x <= c * w.
Proof. intros W. pose proof (div_lt_iff x w c W). split; intros; apply Rnot_lt_le; intros N; apply H in N; lra. Qed.

Lemma box_eval_pos w x : 0 < w -> 0 < box_eval w x <-> x <= w / 2.
Proof.
  intros W. unfold box_eval. destruct (rleb_spec (x / w) (1 / 2)) as [H|H]; rewrite div_le_iff in H by auto; split; intros; lra.
Qed.

Lemma gauss_zero a w t : 0 <= a -> 0 < w <= 2 -> 2 * w < t ->
  Rmax 0 (exp (- a * (t / w) * (t / w)) - exp (- a * w * w)) = 0.
Proof.
  intros A W T. apply Rmax_left.
  assert (2 < t / w) by (apply div_lt_iff; lra).
  assert (E : - a * (t / w) * (t / w) <= - a * w * w). { assert (w * w <= (t / w) * (t / w)) by nra. nra. }
  destruct E as [E|E]; [apply exp_increasing in E; lra|rewrite E; lra].
Qed.
Lemma mitchell_zero w t : 0 < w -> 2 * w < t -> rltb (Rabs (t / w)) 1 = false /\ rltb (Rabs (t / w)) 2 = false.
Proof.
  intros W T. assert (2 < t / w) by (apply div_lt_iff; lra). rewrite Rabs_pos_eq by lra.
  destruct (rltb_spec (t / w) 1); destruct (rltb_spec (t / w) 2); lra || auto.
Qed.
Lemma sum_filter_ok flt : sum_filter flt -> sum_kind flt /\ vanishes flt.
Proof.
  intros [w W|w W|a w A W|w b c W]; (split; [split; reflexivity|split; [cbn; lra|]]); cbn; intros t T.
  - unfold box_eval. destruct (rleb_spec (t / w) (1 / 2)) as [H|H]; auto. rewrite div_le_iff in H by lra. lra.
  - destruct (rltb_spec 1 (t / w)) as [H|H]; auto. rewrite div_lt_iff in H by lra. lra.
  - apply gauss_zero; auto.
  - destruct (mitchell_zero w t) as [-> ->]; try lra. rewrite andb_false_r. auto.
Qed.
Lemma mean_filter_ok flt : mean_filter flt -> sum_filter flt /\
  (forall t, 0 <= t -> 0 <= fl_eval flt t) /\ (forall t, 0 <= t <= 1 / 2 -> 0 < fl_eval flt t).
Proof.
  intros [w W|w W|a w A W2 W]; (split; [constructor; lra|split; intros t T; cbn]).
  - unfold box_eval. destruct (rleb (t / w) (1 / 2)); lra.
  - change (0 < box_eval w t). apply box_eval_pos; lra.
  - destruct (rltb_spec 1 (t / w)) as [H|H]; try lra.
  - destruct (rltb_spec 1 (t / w)) as [H|H]; [rewrite div_lt_iff in H; lra|].
    assert (t / w < 1); [|lra]. apply Rmult_lt_reg_r with w; [lra|]. unfold Rdiv. rewrite Rmult_assoc, Rinv_l by lra. lra.
  - apply Rmax_l.
  - rewrite Rmax_right; [|left].
    all: assert (E : - a * w * w < - a * (t / w) * (t / w)).
    1, 3: assert (t / w * (t / w) < w * w); [|nra].
    1, 2: assert (0 <= t / w <= 1 / (2 * w));
      [split; [apply Rmult_le_pos; [lra|left; apply Rinv_0_lt_compat; lra]|
        apply Rmult_le_reg_r with w; [lra|]; unfold Rdiv; rewrite Rmult_assoc, Rinv_l by lra;
        replace (1 * / (2 * w) * w) with (1 / 2) by (field; lra); lra]|].
    1, 2: assert (1 / (2 * w) < w); [apply Rmult_lt_reg_r with (2 * w); [lra|]; unfold Rdiv; rewrite Rmult_assoc, Rinv_l by lra; lra|]; nra.
    all: apply exp_increasing in E; lra.
Qed.

Lemma resampled_row_bounds flt n m v t a b : mean_filter flt -> (1 <= n)%Z -> (1 <= m)%Z -> (0 <= t <= m - 1)%Z ->
  (forall s, (0 <= s <= n - 1)%Z -> a <= v s <= b) -> a <= resampled_row (fl_eval flt) n m v t <= b.
Proof.
  intros F N M T V. apply mean_filter_ok in F as (_ & F1 & F2). destruct (nearest n m t N M T) as (x & X & D).
  apply weighted_mean_bounds with x; auto.
  - intros s S. apply F1. apply distance_nonneg; auto.
  - apply F2. split; auto. apply distance_nonneg; auto.
Qed.
Lemma resampled_bounds flt old new v a b p : mean_filter flt -> res_ok old -> res_ok new -> in_box p (res_box new) ->
  (forall q, in_box q (res_box old) -> a <= v q <= b) -> a <= resampled (fl_eval flt) old new v p <= b.
Proof.
  intros F (Ox & Oy & Oz) (Nx & Ny & Nz) (Px & Py & Pz) V. cbn in Px, Py, Pz. unfold resampled.
  apply resampled_row_bounds; auto; try lia. intros z Hz.
  apply resampled_row_bounds; auto; try lia. intros y Hy.
  apply resampled_row_bounds; auto; try lia. intros x Hx. apply V. unfold in_box, res_box. cbn. lia.
Qed.

(** * Minimum and maximum filters *)
Section Extremum.
Variable op : R -> R -> R.
Variable rel : R -> R -> Prop.
Variable top : R.
Hypothesis rel_refl : forall a, rel a a.
Hypothesis rel_trans : forall a b c, rel a b -> rel b c -> rel a c.
Hypothesis op_l : forall a b, rel (op a b) a.
Hypothesis op_r : forall a b, rel (op a b) b.
Hypothesis op_in : forall a b, op a b = a \/ op a b = b.
(** Values strictly better than the initial one. *)
Variable inside : R -> Prop.
Hypothesis inside_top : forall a, inside a -> op top a = a /\ a <> top.

Lemma each_extremum (val : Z -> res R) (v w : Z -> R) l : (forall s, In s l -> val s = Ok (v s)) ->
  (forall s, In s l -> inside (v s)) ->
  exists acc, each (fun s a => let* x := val s in Ok (if rltb 0 (w s) then op a x else a)) l top = Ok acc /\
    ((acc = top /\ forall s, In s l -> ~ 0 < w s) \/
     ((exists s, In s l /\ 0 < w s /\ acc = v s) /\ forall s, In s l -> 0 < w s -> rel acc (v s))).
Proof.
  intros V I.
  destruct (each_inv (fun s a => let* x := val s in Ok (if rltb 0 (w s) then op a x else a))
    (fun done acc => (acc = top /\ forall s, In s done -> ~ 0 < w s) \/
     ((exists s, In s done /\ 0 < w s /\ acc = v s) /\ forall s, In s done -> 0 < w s -> rel acc (v s))) l [] top) as (acc & E & C).
  - left. split; auto.
  - intros d a t s Eq C. cbn [app] in Eq. assert (J : In a l) by (rewrite Eq; apply in_or_app; right; left; auto).
    rewrite V by auto. cbn [bind]. eexists. split; [reflexivity|]. destruct (rltb_spec 0 (w a)) as [W|W].
    + right. destruct C as [[-> C]|[(x & X1 & X2 & X3) C]].
      * destruct (inside_top (v a) (I a J)) as [-> _]. split.
        -- exists a. split; [apply in_or_app; right; left; auto|auto].
        -- intros y Y P. apply in_app_or in Y as [Y|[<-|[]]]; [exfalso; apply (C y); auto|apply rel_refl].
      * split.
        -- destruct (op_in s (v a)) as [->| ->].
           ++ exists x. split; [apply in_or_app; auto|auto].
           ++ exists a. split; [apply in_or_app; right; left; auto|auto].
        -- intros y Y P. apply in_app_or in Y as [Y|[<-|[]]]; [apply rel_trans with s; auto|auto].
    + destruct C as [[-> C]|[(x & X1 & X2 & X3) C]].
      * left. split; auto. intros y Y. apply in_app_or in Y as [Y|[<-|[]]]; auto.
      * right. split; [exists x; split; [apply in_or_app; auto|auto]|].
        intros y Y P. apply in_app_or in Y as [Y|[<-|[]]]; [auto|contradiction].
  - exists acc. split; auto.
Qed.

Definition ext_kind (flt : filter) (w : R) : Prop :=
  fl_op flt = Some op /\ fl_init flt = top /\ fl_eval flt = box_eval w /\ fl_support flt = 1 / 2 * w /\ 1 <= w <= 100.

(** One pass: the value is attained in the footprint and bounds the footprint. *)
Lemma separable_ext k flt wd a (src tgt : fld (V := R) k) old new v :
  ext_kind flt wd -> inv k tgt -> holds src (res_box old) v -> (forall q, in_box q (res_box old) -> inside (v q)) ->
  res_ok old -> res_ok new -> fits k tgt (res_box new) -> (forall b, b <> a -> vget b new = vget b old) ->
  exists t' u, separable flt a src tgt new = Ok t' /\ inv k t' /\ f_ext t' = res_box new /\
    (forall b, fits k t' b <-> fits k tgt b) /\ holds t' (res_box new) u /\
    forall p, in_box p (res_box new) ->
      (exists s, (0 <= s <= vget a old - 1)%Z /\ distance (vget a old) (vget a new) s (vget a p) <= wd / 2 /\ u p = v (vset a p s)) /\
      (forall s, (0 <= s <= vget a old - 1)%Z -> distance (vget a old) (vget a new) s (vget a p) <= wd / 2 -> rel (u p) (v (vset a p s))).
Proof.
  intros (Ko & Ki & Ke & Ks & Kw) It [Ds Vs] In' Ro Rn Ft Eq.
  destruct (separable_gen k flt a src tgt new (fun p o => exists x, o = Some x /\
      (exists s, (0 <= s <= vget a old - 1)%Z /\ distance (vget a old) (vget a new) s (vget a p) <= wd / 2 /\ x = v (vset a p s)) /\
      (forall s, (0 <= s <= vget a old - 1)%Z -> distance (vget a old) (vget a new) s (vget a p) <= wd / 2 -> rel x (v (vset a p s)))))
    as (t' & h & E & I & X & F & Ph & D & G); auto.
  { intros p Q. destruct (separable_voxel_range k flt a src old new p) as (lo & hi & L & H & B & ->); auto; [rewrite Ks; lra|].
    assert (Q' := in_res_axis p new a Q). destruct (res_ok_axis old a Ro) as [O1 _]. destruct (res_ok_axis new a Rn) as [N1 _].
    unfold filter_line. rewrite Ko, Ki. rewrite Ks in B.
    destruct (each_extremum (fun s => f_get src (vset a p s)) (fun s => v (vset a p s))
      (fun s => fl_eval flt (get_dist (vget a new >? vget a old)%Z (voxel_centre s) (voxel_centre (vget a p))
         (1 / IZR (vget a old)) (1 / IZR (vget a new)))) (zrange lo hi)) as (acc & -> & C).
    - intros s S. apply zrange_in in S. apply Vs. apply in_res_vset with new; auto. lia.
    - intros s S. apply zrange_in in S. apply In'. apply in_res_vset with new; auto. lia.
    - cbn [bind]. rewrite Ke in C.
      assert (PW : forall s, 0 < box_eval wd (get_dist (vget a new >? vget a old)%Z (voxel_centre s) (voxel_centre (vget a p))
         (1 / IZR (vget a old)) (1 / IZR (vget a new))) <-> distance (vget a old) (vget a new) s (vget a p) <= wd / 2).
      { intros s. rewrite box_eval_pos by lra. rewrite get_dist_ok by auto. tauto. }
      destruct C as [[_ C]|[(s & S1 & S2 & ->) C]].
      + exfalso. destruct (nearest (vget a old) (vget a new) (vget a p) O1 N1 Q') as (x & Hx & Dx).
        apply (C x); [apply zrange_in, B; auto; lra|]. apply PW. lra.
      + apply zrange_in in S1.
        assert (SR : (0 <= s <= vget a old - 1)%Z) by lia.
        destruct (inside_top (v (vset a p s))) as [_ NT]; [apply In'; apply in_res_vset with new; auto|].
        destruct (reqb_spec (v (vset a p s)) top); [contradiction|].
        eexists. split; [reflexivity|]. eexists. split; [reflexivity|]. split.
        * exists s. split; [exact SR|]. split; [apply PW; auto|reflexivity].
        * intros y Y DY. apply C; [apply zrange_in, B; auto; lra|]. apply PW. auto. }
  exists t', (fun p => val0 (h p)). split; auto. split; auto. split; auto. split; auto. split; [split; auto|].
  intros p Q. destruct (Ph p Q) as (x & -> & H). cbn [val0]. exact H.
Qed.

Lemma resample_ext k flt wd (src tgt : fld (V := R) k) old new v :
  ext_kind flt wd -> inv k tgt -> holds src (res_box old) v -> (forall q, in_box q (res_box old) -> inside (v q)) ->
  res_ok old -> solid old -> res_ok new ->
  fits k tgt (res_box (V3 (vx new) (vy old) (vz old))) ->
  fits_new k (res_box (V3 (vx new) (vy new) (vz old))) -> fits k tgt (res_box new) ->
  exists t' u, resample flt src tgt new = Ok (Some t') /\ inv k t' /\ f_ext t' = res_box new /\
    (forall b, fits k t' b <-> fits k tgt b) /\ holds t' (res_box new) u /\
    forall p, in_box p (res_box new) ->
      (exists q, in_box q (res_box old) /\ in_footprint wd old new q p /\ u p = v q) /\
      (forall q, in_box q (res_box old) -> in_footprint wd old new q p -> rel (u p) (v q)).
Proof.
  intros K It Hs In' Ro So Rn Fx Fy Fz. unfold resample.
  assert (Dw : f_dw src = res_box old) by apply Hs. rewrite Dw, box_size_res by auto.
  assert (has_volume (res_box old) = true) as -> by (unfold has_volume, res_box, solid in *; cbn; lia).
  cbn [negb]. change (v3_eqb (bmin (res_box old)) (V3 0 0 0)) with true. cbn [negb].
  destruct (inv_new (0 : R) (0 : R) k) as (tmp & -> & Itmp & Ftmp). cbn [bind].
  assert (Ro' := Ro). assert (Rn' := Rn). destruct Ro' as (Ox & Oy & Oz). destruct Rn' as (Nx & Ny & Nz).
  destruct (separable_ext k flt wd AxX src tgt old (V3 (vx new) (vy old) (vz old)) v) as (t1 & u1 & -> & I1 & X1 & F1 & H1 & U1); auto.
  { unfold res_ok; cbn; auto. } { intros [] N; cbn; auto; congruence. }
  cbn [bind].
  assert (In1 : forall q, in_box q (res_box (V3 (vx new) (vy old) (vz old))) -> inside (u1 q)).
  { intros q Q. destruct (U1 q Q) as [(s & S & _ & ->) _]. apply In'. eapply in_res_vset; [exact Q|intros [] N; cbn; auto; congruence|exact S]. }
  destruct (separable_ext k flt wd AxY t1 tmp (V3 (vx new) (vy old) (vz old)) (V3 (vx new) (vy new) (vz old)) u1) as (t2 & u2 & -> & I2 & X2 & F2 & H2 & U2); auto.
  { unfold res_ok; cbn; auto. } { unfold res_ok; cbn; auto. } { apply Ftmp; auto. } { intros [] N; cbn; auto; congruence. }
  cbn [bind].
  assert (In2 : forall q, in_box q (res_box (V3 (vx new) (vy new) (vz old))) -> inside (u2 q)).
  { intros q Q. destruct (U2 q Q) as [(s & S & _ & ->) _]. apply In1. eapply in_res_vset; [exact Q|intros [] N; cbn; auto; congruence|exact S]. }
  destruct (separable_ext k flt wd AxZ t2 t1 (V3 (vx new) (vy new) (vz old)) (V3 (vx new) (vy new) (vz new)) u2) as (t3 & u3 & -> & I3 & X3 & F3 & H3 & U3); auto.
  { unfold res_ok; cbn; auto. } { apply F1. replace (V3 (vx new) (vy new) (vz new)) with new by (destruct new; auto). exact Fz. }
  { intros [] N; cbn; auto; congruence. }
  cbn [bind]. replace (V3 (vx new) (vy new) (vz new)) with new in * by (destruct new; auto).
  exists t3, u3. split; auto. split; auto. split; auto. split; [intros b; rewrite F3, F1; tauto|]. split; auto.
  intros p Q. assert (Q' := Q). destruct Q' as (Qx & Qy & Qz). cbn in Qx, Qy, Qz. split.
  - destruct (U3 p Q) as [(s3 & S3 & D3 & ->) _]. cbn [vget vset] in *.
    destruct (U2 (V3 (vx p) (vy p) s3)) as [(s2 & S2 & D2 & ->) _]; [unfold in_box, res_box; cbn in *; lia|]. cbn [vget vset vx vy vz] in *.
    destruct (U1 (V3 (vx p) s2 s3)) as [(s1 & S1 & D1 & ->) _]; [unfold in_box, res_box; cbn in *; lia|]. cbn [vget vset vx vy vz] in *.
    exists (V3 s1 s2 s3). split; [unfold in_box, res_box; cbn; lia|]. split; auto. unfold in_footprint. cbn. auto.
  - intros q B (E1 & E2 & E3). destruct B as (Bx & By & Bz). cbn in Bx, By, Bz.
    destruct (U3 p Q) as [_ C3]. apply rel_trans with (u2 (V3 (vx p) (vy p) (vz q))); [apply (C3 (vz q)); auto|].
    destruct (U2 (V3 (vx p) (vy p) (vz q))) as [_ C2]; [unfold in_box, res_box; cbn in *; lia|].
    apply rel_trans with (u1 (V3 (vx p) (vy q) (vz q))); [apply (C2 (vy q)); auto|].
    destruct (U1 (V3 (vx p) (vy q) (vz q))) as [_ C1]; [unfold in_box, res_box; cbn in *; lia|].
    replace q with (V3 (vx q) (vy q) (vz q)) at 3 by (destruct q; auto). apply (C1 (vx q)); auto.
Qed.
End Extremum.
