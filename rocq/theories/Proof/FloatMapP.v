(** Proofs about the conversion between local and voxel coordinates in floating point. *)
From Coq Require Import ZArith Reals List Bool Lia Lra Psatz.
From Flocq Require Import Core BinarySingleNaN Relative.
From Verif Require Import Model.Base Model.FloatM Model.FloatRayM Model.FloatMapM Spec.FloatMapSpec Proof.BaseP Proof.FloatP Proof.FloatRayP.
Local Open Scope R_scope.

(** Extents that can be set: the origin and the resolution are exact. *)
Definition map_of (m : f64 * f64) (o r : Z) : Prop :=
  (- 2 ^ 31 <= o < 2 ^ 31)%Z /\ (1 <= r < 2 ^ 31)%Z /\ m = (of_int o, of_int r).
Lemma extents_ok lo hi m : (- 2 ^ 31 <= lo < 2 ^ 31)%Z -> (lo <= hi)%Z -> f_extents lo hi = Ok m -> map_of m lo (hi - lo + 1).
Proof.
  intros L H E. unfold f_extents in E. destruct (i32 (hi - lo)) as [d| |] eqn:D; try discriminate. cbn [bind] in E.
  apply i32_inv in D. destruct D as (-> & D). destruct (i32 (hi - lo + 1)) as [r| |] eqn:R; try discriminate. cbn [bind] in E. apply i32_inv in R. destruct R as (-> & R).
  injection E as <-. unfold int_min, int_max in *. unfold map_of. repeat split; lia.
Qed.
Lemma rd_int_le z x : (Z.abs z <= 2 ^ 53)%Z -> x <= IZR z -> rd x <= IZR z.
Proof. intros Z H. apply rd_le in H. rewrite (rd_int z) in H by auto. exact H. Qed.
Lemma rd_int_ge z x : (Z.abs z <= 2 ^ 53)%Z -> IZR z <= x -> IZR z <= rd x.
Proof. intros Z H. apply rd_le in H. rewrite (rd_int z) in H by auto. exact H. Qed.

Definition loc (o r : Z) (v : R) : R := rd (rd (v - IZR o) / IZR r).
Definition vox (o r : Z) (l : R) : R := rd (IZR o + rd (l * IZR r)).
(** Coordinates up to [2 ^ 50]. *)
Lemma to_local m o r v : map_of m o r -> is_finite v = true -> Rabs (B2R v) <= IZR (2 ^ 50) ->
  is_finite (f_voxel_to_local m v) = true /\ B2R (f_voxel_to_local m v) = loc o r (B2R v).
Proof.
  intros (O & R & ->) F B. unfold f_voxel_to_local, f_lerpfactor. destruct (of_int_ok o) as (OF & OV); [lia|]. destruct (of_int_ok r) as (RF & RV); [lia|].
  assert (RP : 1 <= IZR r) by (apply IZR_le; lia). assert (RL : IZR r <= IZR (2 ^ 31)) by (apply IZR_le; lia).
  assert (OB : - IZR (2 ^ 31) <= IZR o <= IZR (2 ^ 31)) by (rewrite <- opp_IZR; split; apply IZR_le; lia).
  assert (K : IZR (2 ^ 31) <= IZR (2 ^ 50)) by (apply IZR_le; lia). assert (K' : IZR (2 ^ 52) = 4 * IZR (2 ^ 50)) by (rewrite <- mult_IZR; reflexivity).
  destruct (fadd_ok (of_int o) (of_int r) OF RF) as (SF & SV).
  { rewrite OV, RV, <- plus_IZR. apply (big_small _ (2 ^ 33)); [rewrite <- abs_IZR; apply IZR_le; lia|lia]. }
  rewrite OV, RV, <- plus_IZR, rd_int in SV by lia.
  destruct (fsub_ok (fadd (of_int o) (of_int r)) (of_int o) SF OF) as (DF & DV).
  { rewrite SV, OV, <- minus_IZR. apply (big_small _ (2 ^ 33)); [rewrite <- abs_IZR; apply IZR_le; lia|lia]. }
  rewrite SV, OV, <- minus_IZR, rd_int in DV by lia. replace (o + r - o)%Z with r in DV by lia. apply Rabs_le_inv in B.
  destruct (fsub_ok v (of_int o) F OF) as (NF & NV).
  { rewrite OV. apply (big_small _ (2 ^ 52)); [apply Rabs_le; lra|lia]. }
  rewrite OV in NV. set (d := fsub (fadd (of_int o) (of_int r)) (of_int o)) in *. set (n := fsub v (of_int o)) in *.
  assert (NB : Rabs (B2R n) <= IZR (2 ^ 52)).
  { rewrite NV. apply Rabs_le. rewrite <- opp_IZR. split; [apply rd_int_ge|apply rd_int_le]; try lia; rewrite ?opp_IZR; lra. }
  cbv zeta. assert (G : Bltb f_one (Babs d) || Bltb (Babs n) (fmul f_max (Babs d)) = true).
  { destruct one_ok as (F1 & V1). apply orb_true_iff. destruct (Z.eq_dec r 1) as [E1|N1].
    - right. destruct max_ok as (MF & MV). assert (AF : is_finite (Babs d) = true) by (rewrite is_finite_Babs; auto). assert (AV : B2R (Babs d) = 1) by (rewrite B2R_Babs, DV, E1, Rabs_pos_eq; lra).
      assert (PV : B2R (fmul f_max (Babs d)) = B2R f_max /\ is_finite (fmul f_max (Babs d)) = true).
      { pose proof (Bmult_correct 53 1024 _ _ mode_NE f_max (Babs d)) as M. rewrite AV, Rmult_1_r in M. cbn [round_mode] in M. rewrite round_generic in M; [|typeclasses eauto|apply generic_format_B2R].
        rewrite Rlt_bool_true in M by apply abs_B2R_lt_emax. rewrite MF, AF in M. unfold fmul. tauto. }
      apply ltb_ok; [rewrite is_finite_Babs; auto|tauto|]. rewrite B2R_Babs, (proj1 PV). apply Rle_lt_trans with (IZR (2 ^ 52)); [exact NB|]. eapply Rlt_le_trans; [|exact MV]. change (IZR (2 ^ 52)) with (bpow radix2 52). apply bpow_lt. lia.
    - left. apply ltb_ok; [exact F1|rewrite is_finite_Babs; auto|]. rewrite B2R_Babs, V1, DV, Rabs_pos_eq by lra. apply (IZR_lt 1). lia. }
  rewrite G. destruct (fdiv_ok n d NF) as (QF & QV); [rewrite DV; lra| |].
  - rewrite DV. apply (big_small _ (2 ^ 52)); [|lia]. unfold Rdiv. rewrite Rabs_mult, (Rabs_pos_eq (/ IZR r)) by (left; apply Rinv_0_lt_compat; lra).
    assert (I : 0 <= / IZR r <= 1) by (split; [left; apply Rinv_0_lt_compat; lra|rewrite <- Rinv_1; apply Rinv_le; lra]). pose proof (Rabs_pos (B2R n)). nra.
  - split; [exact QF|]. rewrite QV, DV, NV. reflexivity.
Qed.
Lemma to_voxel m o r l : map_of m o r -> is_finite l = true -> Rabs (B2R l) <= IZR (2 ^ 20) ->
  is_finite (f_local_to_voxel m l) = true /\ B2R (f_local_to_voxel m l) = vox o r (B2R l).
Proof.
  intros (O & R & ->) F B. unfold f_local_to_voxel. destruct (of_int_ok o) as (OF & OV); [lia|]. destruct (of_int_ok r) as (RF & RV); [lia|].
  assert (RP : 1 <= IZR r) by (apply IZR_le; lia). assert (RL : IZR r <= IZR (2 ^ 31)) by (apply IZR_le; lia).
  assert (OB : - IZR (2 ^ 31) <= IZR o <= IZR (2 ^ 31)) by (rewrite <- opp_IZR; split; apply IZR_le; lia).
  assert (PB : Rabs (B2R l * IZR r) <= IZR (2 ^ 51)).
  { rewrite Rabs_mult, (Rabs_pos_eq (IZR r)) by lra. replace (2 ^ 51)%Z with (2 ^ 20 * 2 ^ 31)%Z by lia. rewrite mult_IZR. apply Rmult_le_compat; try lra. apply Rabs_pos. }
  destruct (fmul_ok l (of_int r) F RF) as (MF & MV); [rewrite RV; apply (big_small _ (2 ^ 51)); [exact PB|lia]|]. rewrite RV in MV.
  assert (MB : - IZR (2 ^ 51) <= rd (B2R l * IZR r) <= IZR (2 ^ 51)).
  { apply Rabs_le_inv in PB. rewrite <- opp_IZR. split; [apply rd_int_ge|apply rd_int_le]; try lia; rewrite ?opp_IZR; lra. }
  assert (K : IZR (2 ^ 52) = 2 * IZR (2 ^ 51)) by (rewrite <- mult_IZR; reflexivity). assert (K' : IZR (2 ^ 31) <= IZR (2 ^ 51)) by (apply IZR_le; lia).
  destruct (fadd_ok (of_int o) (fmul l (of_int r)) OF MF) as (SF & SV); [rewrite OV, MV; apply (big_small _ (2 ^ 52)); [apply Rabs_le; lra|lia]|].
  split; [exact SF|]. rewrite SV, OV, MV. reflexivity.
Qed.

(** * In order, and in range *)
Lemma loc_mono o r v v' : (1 <= r)%Z -> v <= v' -> loc o r v <= loc o r v'.
Proof.
  intros R H. unfold loc. assert (I : 0 < / IZR r) by (apply Rinv_0_lt_compat, (IZR_lt 0); lia). assert (M : rd (v - IZR o) <= rd (v' - IZR o)) by (apply rd_le; lra).
  apply rd_le. unfold Rdiv. apply Rmult_le_compat_r; lra.
Qed.
Lemma vox_mono o r l l' : (1 <= r)%Z -> l <= l' -> vox o r l <= vox o r l'.
Proof.
  intros R H. unfold vox. assert (P : 0 < IZR r) by (apply (IZR_lt 0); lia). assert (M : rd (l * IZR r) <= rd (l' * IZR r)) by (apply rd_le; apply Rmult_le_compat_r; lra). apply rd_le. lra.
Qed.
Lemma loc_ends o r : (1 <= r < 2 ^ 31)%Z -> (- 2 ^ 31 <= o < 2 ^ 31)%Z -> loc o r (IZR o) = 0 /\ loc o r (IZR (o + r)) = 1.
Proof.
  intros R O. assert (P : 0 < IZR r) by (apply (IZR_lt 0); lia). unfold loc. replace (IZR o - IZR o) with 0 by ring. rewrite rd_0. unfold Rdiv at 1. rewrite Rmult_0_l, rd_0. split; [reflexivity|].
  rewrite <- minus_IZR. replace (o + r - o)%Z with r by lia. rewrite rd_int by lia. replace (IZR r / IZR r) with 1 by (field; lra). apply (rd_int 1). lia.
Qed.
Lemma vox_ends o r : (1 <= r < 2 ^ 31)%Z -> (- 2 ^ 31 <= o < 2 ^ 31)%Z -> vox o r 0 = IZR o /\ vox o r 1 = IZR (o + r).
Proof.
  intros R O. unfold vox. rewrite Rmult_0_l, Rmult_1_l, rd_0, Rplus_0_r, rd_int by lia. split; [reflexivity|]. rewrite (rd_int r), <- plus_IZR by lia. apply rd_int. lia.
Qed.
Lemma loc_in o r v : (1 <= r < 2 ^ 31)%Z -> (- 2 ^ 31 <= o < 2 ^ 31)%Z -> IZR o <= v <= IZR (o + r) -> 0 <= loc o r v <= 1.
Proof. intros R O (A & B). destruct (loc_ends o r R O) as (E0 & E1). rewrite <- E0, <- E1. split; apply loc_mono; auto; lia. Qed.
Lemma vox_in o r l : (1 <= r < 2 ^ 31)%Z -> (- 2 ^ 31 <= o < 2 ^ 31)%Z -> 0 <= l <= 1 -> IZR o <= vox o r l <= IZR (o + r).
Proof. intros R O (A & B). destruct (vox_ends o r R O) as (E0 & E1). rewrite <- E0, <- E1. split; apply vox_mono; auto; lia. Qed.

(** * There and back *)
Lemma eta_tiny : eta <= u * / 1000000.
Proof.
  apply Rle_trans with (u * bpow radix2 (-30)); [rewrite u_val, <- bpow_plus; apply bpow_le; lia|]. apply Rmult_le_compat_l; [pose proof u_small; lra|]. cbn. apply Rinv_le; [lra|]. apply IZR_le. discriminate.
Qed.
Definition span (o r : Z) : R := IZR (Z.abs o + Z.abs (o + r - 1) + 1).
Lemma span_ok o r : (1 <= r)%Z -> IZR r <= span o r /\ Rabs (IZR o) <= span o r /\ Rabs (IZR (o + r)) <= span o r /\ 1 <= span o r.
Proof. intros R. unfold span. rewrite <- !abs_IZR. repeat split; apply IZR_le; lia. Qed.
Lemma loc_err o r v : (1 <= r < 2 ^ 31)%Z -> (- 2 ^ 31 <= o < 2 ^ 31)%Z -> IZR o <= v <= IZR (o + r) -> Rabs (loc o r v - (v - IZR o) / IZR r) <= 3 * u.
Proof.
  intros R O V. assert (P : 1 <= IZR r) by (apply IZR_le; lia). rewrite plus_IZR in V.
  assert (Q : forall x, (x / IZR r) * IZR r = x) by (intros; field; lra).
  pose proof (rd_err (v - IZR o)) as E1. rewrite (Rabs_pos_eq (v - IZR o)) in E1 by lra. apply Rabs_le_inv in E1.
  assert (N : 0 <= rd (v - IZR o) <= IZR r) by (split; [rewrite <- rd_0; apply rd_le; lra|apply rd_int_le; [lia|lra]]).
  pose proof (rd_err (rd (v - IZR o) / IZR r)) as E2. set (n := rd (v - IZR o)) in *.
  assert (B : 0 <= n / IZR r <= 1). { pose proof (Q n). split; nra. }
  rewrite (Rabs_pos_eq (n / IZR r)) in E2 by lra. apply Rabs_le_inv in E2. unfold loc. fold n.
  pose proof eta_pos. pose proof eta_tiny. pose proof u_small.
  assert (D : Rabs (n / IZR r - (v - IZR o) / IZR r) <= u + eta).
  { replace (n / IZR r - (v - IZR o) / IZR r) with ((n - (v - IZR o)) / IZR r) by (field; lra). unfold Rdiv. rewrite Rabs_mult, (Rabs_pos_eq (/ IZR r)) by (left; apply Rinv_0_lt_compat; lra).
    apply Rmult_le_reg_r with (IZR r); [lra|]. rewrite Rmult_assoc, Rinv_l, Rmult_1_r by lra. apply Rabs_le. assert (u * (v - IZR o) <= u * IZR r) by (apply Rmult_le_compat_l; lra). assert (eta * 1 <= eta * IZR r) by (apply Rmult_le_compat_l; lra). split; nra. }
  apply Rabs_le_inv in D. assert (u * (n / IZR r) <= u * 1) by (apply Rmult_le_compat_l; lra). apply Rabs_le. lra.
Qed.
Lemma vox_err o r l : (1 <= r < 2 ^ 31)%Z -> (- 2 ^ 31 <= o < 2 ^ 31)%Z -> 0 <= l <= 1 -> Rabs (vox o r l - (IZR o + l * IZR r)) <= 3 * u * span o r.
Proof.
  intros R O L. assert (P : 1 <= IZR r) by (apply IZR_le; lia). destruct (span_ok o r) as (S1 & S2 & S3 & S4); [lia|]. set (W := span o r) in *.
  pose proof eta_pos. pose proof eta_tiny. pose proof u_small.
  assert (PB : 0 <= l * IZR r <= IZR r) by nra. pose proof (rd_err (l * IZR r)) as E1. rewrite (Rabs_pos_eq (l * IZR r)) in E1 by lra. apply Rabs_le_inv in E1.
  assert (M : 0 <= rd (l * IZR r) <= IZR r) by (split; [rewrite <- rd_0; apply rd_le; lra|apply rd_int_le; [lia|lra]]). unfold vox. set (p := rd (l * IZR r)) in *.
  pose proof (rd_err (IZR o + p)) as E2. rewrite plus_IZR in S3. apply Rabs_le_inv in S2. apply Rabs_le_inv in S3.
  assert (A : Rabs (IZR o + p) <= W) by (apply Rabs_le; lra). assert (u * Rabs (IZR o + p) <= u * W) by (apply Rmult_le_compat_l; lra). apply Rabs_le_inv in E2.
  assert (u * (l * IZR r) <= u * W) by (apply Rmult_le_compat_l; lra). assert (u * 1 <= u * W) by (apply Rmult_le_compat_l; lra). apply Rabs_le. lra.
Qed.
Lemma there_and_back o r v : (1 <= r < 2 ^ 31)%Z -> (- 2 ^ 31 <= o < 2 ^ 31)%Z -> IZR o <= v <= IZR (o + r) -> Rabs (vox o r (loc o r v) - v) <= 6 * u * span o r.
Proof.
  intros R O V. assert (P : 1 <= IZR r) by (apply IZR_le; lia). destruct (span_ok o r) as (S1 & _); [lia|]. pose proof (loc_in o r v R O V) as L. pose proof (loc_err o r v R O V) as E1. pose proof (vox_err o r _ R O L) as E2.
  apply Rabs_le_inv in E1. apply Rabs_le_inv in E2. pose proof u_small. set (l := loc o r v) in *.
  assert (Q : (v - IZR o) / IZR r * IZR r = v - IZR o) by (field; lra). set (e := (v - IZR o) / IZR r) in *.
  assert (D : (l - e) * IZR r <= 3 * u * IZR r) by (apply Rmult_le_compat_r; lra). assert (D' : (e - l) * IZR r <= 3 * u * IZR r) by (apply Rmult_le_compat_r; lra).
  assert (u * IZR r <= u * span o r) by (apply Rmult_le_compat_l; lra). apply Rabs_le. lra.
Qed.
Lemma back_and_there o r l : (1 <= r < 2 ^ 31)%Z -> (- 2 ^ 31 <= o < 2 ^ 31)%Z -> 0 <= l <= 1 -> Rabs (loc o r (vox o r l) - l) <= 3 * u + 3 * u * span o r / IZR r.
Proof.
  intros R O L. assert (P : 1 <= IZR r) by (apply IZR_le; lia). pose proof (vox_in o r l R O L) as V. pose proof (loc_err o r _ R O V) as E1. pose proof (vox_err o r l R O L) as E2.
  apply Rabs_le_inv in E1. apply Rabs_le_inv in E2. set (v := vox o r l) in *. set (b := 3 * u * span o r) in *.
  assert (I : 0 < / IZR r) by (apply Rinv_0_lt_compat; lra).
  assert (Q : (v - IZR o) / IZR r - l = (v - (IZR o + l * IZR r)) * / IZR r) by (field; lra).
  assert ((v - (IZR o + l * IZR r)) * / IZR r <= b * / IZR r) by (apply Rmult_le_compat_r; lra).
  assert (- b * / IZR r <= (v - (IZR o + l * IZR r)) * / IZR r) by (apply Rmult_le_compat_r; lra). apply Rabs_le. unfold Rdiv in *. lra.
Qed.
Lemma floor_in x i : is_finite x = true -> (- 2 ^ 31 <= i < 2 ^ 31)%Z -> IZR i <= B2R x < IZR i + 1 -> floor_int x = Ok i.
Proof.
  intros F I H. unfold floor_int. rewrite F. destruct (Bnearbyint_correct 53 1024 _ mode_DN x) as (A & _). pose proof (Btrunc_correct 53 1024 _ (Bnearbyint mode_DN x)) as T. rewrite A in T. cbn [round_mode] in T.
  assert (Q : forall r rnd, round radix2 (FIX_exp 0) rnd r = IZR (rnd r)).
  { intros. unfold round, scaled_mantissa, cexp, FIX_exp, F2R. cbn. rewrite !Rmult_1_r. reflexivity. }
  rewrite !Q, Ztrunc_IZR in T. apply eq_IZR in T. rewrite T. rewrite (Zfloor_imp i); [|rewrite plus_IZR; exact H]. apply i32_ok. unfold int_min, int_max. lia.
Qed.
