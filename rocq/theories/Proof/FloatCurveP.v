(** Rounding in time curves: the interpolation between two samples. *)
From Coq Require Import ZArith Reals List Bool Lia Lra Psatz.
From Flocq Require Import Core BinarySingleNaN Relative Plus_error.
From Verif Require Import Model.Base Model.CurveM Model.FloatM Model.FloatMipM Model.FloatCurveM Spec.FloatCurveSpec.
From Verif Require Import Model.RealM Proof.RealP Spec.CurveSpec Proof.CurveP.
From Verif Require Import Proof.BaseP Proof.FloatP Proof.FloatP2 Proof.FloatMipP Proof.FloatMipP2.
Import ListNotations.
Open Scope R_scope.

Definition c24 : R := / 16777216.
Lemma unit_f : unit VFloat = c24.
Proof. reflexivity. Qed.
Lemma unit_le t : t <> VHalf -> 0 < unit t <= c24.
Proof. intros N. split; [apply bpow_gt_0|]. rewrite <- unit_f. apply bpow_le. destruct t; cbn; [congruence|lia|lia]. Qed.
Lemma tiny_le t : t <> VHalf -> 0 < tiny t <= bpow radix2 (-150).
Proof. intros N. split; [apply bpow_gt_0|]. apply bpow_le. destruct t; cbn; [congruence|lia|lia]. Qed.
Lemma tiny_f : 0 < bpow radix2 (-150) <= c24 / 1000000.
Proof.
  split; [apply bpow_gt_0|]. apply Rle_trans with (bpow radix2 (-24 + -20)); [apply bpow_le; lia|]. rewrite bpow_plus.
  change (bpow radix2 (-24)) with c24. change (bpow radix2 (-20)) with (/ 1048576). unfold c24. lra.
Qed.
(** A difference is rounded relatively, however small it is. *)
Lemma sub_rel x y : vfmt VFloat x -> vfmt VFloat y -> exists e, Rabs e <= c24 /\ rnd VFloat (x - y) = (x - y) * (1 + e).
Proof.
  intros X Y. destruct (FLT_plus_error_N_ex radix2 (-149) 24 (fun x => negb (Z.even x)) x (- y) X) as (e & A & B).
  { apply generic_format_opp. exact Y. }
  exists e. split; [|exact B]. eapply Rle_trans; [exact A|]. unfold u_ro. change (bpow radix2 (- (24) + 1)) with (/ 8388608). unfold c24.
  apply Rmult_le_reg_r with (1 + / 2 * / 8388608); [lra|]. unfold Rdiv. rewrite Rmult_assoc, Rinv_l by lra. lra.
Qed.
Lemma top_f : top VFloat = bpow radix2 128 - bpow radix2 104.
Proof. reflexivity. Qed.
Lemma p127 : bpow radix2 128 = 2 * bpow radix2 127.
Proof. change 128%Z with (1 + 127)%Z. rewrite bpow_plus. reflexivity. Qed.
Lemma pow_bp n : 2 ^ n = bpow radix2 (Z.of_nat n).
Proof. rewrite bpow_powerRZ. rewrite pow_powerRZ. reflexivity. Qed.
(** A float less than [2^127] is at most its predecessor. *)
Lemma time_le x : time_ok x -> Rabs (B2R x) <= bpow radix2 127 - bpow radix2 103.
Proof.
  intros (F & L). rewrite pow_bp in L. change (Z.of_nat 127) with 127%Z in L.
  assert (P : Rabs (B2R x) <= pred radix2 (fx VFloat) (bpow radix2 127)).
  { apply pred_ge_gt; [typeclasses eauto|apply generic_format_abs, generic_format_B2R|apply generic_format_bpow; cbn; lia|exact L]. }
  rewrite pred_bpow in P. exact P.
Qed.
Lemma diff_fits x y : time_ok x -> time_ok y -> fits VFloat (B2R x - B2R y).
Proof.
  intros X Y. apply time_le in X, Y. unfold fits. rewrite top_f, p127. unfold Rminus at 1. eapply Rle_trans; [apply Rabs_triang|]. rewrite Rabs_Ropp.
  assert (E : bpow radix2 104 = 2 * bpow radix2 103) by (change 104%Z with (1 + 103)%Z; rewrite bpow_plus; reflexivity). rewrite E. lra.
Qed.
Lemma vfmt_B2R t (x : val t) : vfmt t (B2R x).
Proof. apply generic_format_B2R. Qed.
Lemma max_ok : is_finite time_max = true /\ B2R time_max = top VFloat.
Proof.
  split; [reflexivity|]. unfold time_max. cbn [vnum]. replace (B2R _) with (F2R (Float radix2 16777215 104)).
  - unfold F2R. cbn [Fnum Fexp]. rewrite top_f. change 128%Z with (24 + 104)%Z. rewrite bpow_plus. change (bpow radix2 24) with 16777216. lra.
  - transitivity (SF2R radix2 (B2SF time_max)); [|symmetry; apply SF2R_B2SF || (symmetry; apply SF2R_B2SF)].
    replace (B2SF time_max) with (SpecFloat.S754_finite false 16777215 104) by (vm_compute; reflexivity). reflexivity.
Qed.
Lemma one_f : is_finite (vnum VFloat 1 0) = true /\ B2R (vnum VFloat 1 0) = 1.
Proof. exact w1_ok. Qed.
Lemma abs_pos (x : time) : 0 <= B2R x -> B2R (Babs x) = B2R x.
Proof. intros H. rewrite B2R_Babs. apply Rabs_pos_eq. auto. Qed.

Lemma factor_ok m a b : time_ok m -> time_ok a -> time_ok b -> B2R a <= B2R m < B2R b ->
  is_finite (t_factor m a b) = true /\ 0 <= B2R (t_factor m a b) <= 1 /\
  Rabs (B2R (t_factor m a b) - (B2R m - B2R a) / (B2R b - B2R a)) <= 4 * c24 /\
  (B2R m = B2R a -> B2R (t_factor m a b) = 0).
Proof.
  intros M A B (L & U). destruct (vsub_ok VFloat b a (proj1 B) (proj1 A) (diff_fits _ _ B A)) as (DF & DV).
  destruct (vsub_ok VFloat m a (proj1 M) (proj1 A) (diff_fits _ _ M A)) as (NF & NV).
  set (d := vsub b a) in *. set (n := vsub m a) in *.
  destruct (sub_rel (B2R b) (B2R a) (vfmt_B2R _ b) (vfmt_B2R _ a)) as (e2 & E2 & V2). destruct (sub_rel (B2R m) (B2R a) (vfmt_B2R _ m) (vfmt_B2R _ a)) as (e1 & E1 & V1).
  rewrite V2 in DV. set (D := B2R b - B2R a) in *. set (N := B2R m - B2R a) in *. assert (D0 : 0 < D) by (unfold D; lra). assert (N0 : 0 <= N <= D) by (unfold N, D; lra).
  assert (ND : B2R n <= B2R d).
  { rewrite DV, NV, <- V2. apply rnd_le. lra. }
  assert (N1 : 0 <= B2R n) by (rewrite NV, <- (rnd_0 VFloat); apply rnd_le; lra).
  rewrite V1 in NV. apply Rabs_le_inv in E1, E2. unfold c24 in E1, E2.
  assert (D1 : 0 < B2R d) by (rewrite DV; apply Rmult_lt_0_compat; lra).
  assert (Q01 : 0 <= B2R n / B2R d <= 1).
  { split; [apply Rmult_le_pos; [auto|apply Rlt_le, Rinv_0_lt_compat; auto]|]. apply Rmult_le_reg_r with (B2R d); auto. unfold Rdiv. rewrite Rmult_assoc, Rinv_l by lra. lra. }
  assert (K : t_factor m a b = vdiv n d).
  { unfold t_factor. fold d n. destruct one_f as (OF & OV). destruct max_ok as (MF & MV).
    rewrite Bltb_correct by (rewrite ?is_finite_Babs; auto). rewrite OV, abs_pos by lra.
    destruct (Rlt_bool_spec 1 (B2R d)) as [G|G]; [reflexivity|]. cbn [orb].
    assert (T2 : 2 <= top VFloat).
    { rewrite top_f. change 128%Z with (24 + 104)%Z. rewrite bpow_plus. change (bpow radix2 24) with 16777216. assert (1 <= bpow radix2 104) by (change 1 with (bpow radix2 0); apply bpow_le; lia). lra. }
    destruct (vmul_ok VFloat time_max (Babs d) MF) as (PF & PV).
    { rewrite is_finite_Babs. auto. }
    { unfold fits. rewrite MV, abs_pos by lra. rewrite Rabs_pos_eq; [|apply Rmult_le_pos; lra]. nra. }
    rewrite Bltb_correct by (rewrite ?is_finite_Babs; auto). rewrite abs_pos by lra. rewrite PV, MV, abs_pos by lra.
    rewrite Rlt_bool_true; [reflexivity|]. apply Rlt_le_trans with (2 * B2R d); [lra|].
    rewrite <- (rnd_fmt VFloat (2 * B2R d)) by (apply double_fmt, vfmt_B2R). apply rnd_le. apply Rmult_le_compat_r; lra. }
  rewrite K. destruct (vdiv_ok VFloat n d NF) as (RF & RV); [lra| |].
  { apply (fits_le _ 1); [rewrite Rabs_pos_eq; lra|lia|discriminate]. }
  split; [exact RF|]. rewrite RV. split.
  { rewrite <- (rnd_0 VFloat). replace 1 with (rnd VFloat 1) by (apply rnd_fmt, (int_fmt VFloat 1); cbn; lia). split; apply rnd_le; lra. }
  split; [|intros E; rewrite NV; unfold N; rewrite E; replace ((B2R a - B2R a) * (1 + e1) / B2R d) with 0 by (unfold Rdiv; ring); apply rnd_0].
  pose proof (rnd_err VFloat (B2R n / B2R d)) as RE. rewrite unit_f, (Rabs_pos_eq (B2R n / B2R d)) in RE by lra.
  change (tiny VFloat) with (bpow radix2 (-150)) in RE. pose proof tiny_f as TF.
  assert (X : Rabs (B2R n / B2R d - N / D) <= 2.1 * c24).
  { assert (T : 0 <= N / D <= 1).
    { split; [apply Rmult_le_pos; [lra|apply Rlt_le, Rinv_0_lt_compat; auto]|]. apply Rmult_le_reg_r with D; auto. unfold Rdiv. rewrite Rmult_assoc, Rinv_l by lra. lra. }
    replace (B2R n / B2R d - N / D) with ((N / D) * ((e1 - e2) / (1 + e2))) by (rewrite NV, DV; field; split; lra).
    rewrite Rabs_mult, (Rabs_pos_eq (N / D)) by lra.
    assert (Y : Rabs ((e1 - e2) / (1 + e2)) <= 2.1 * c24).
    { apply Rabs_le. unfold c24. split.
      - apply Rmult_le_reg_r with (1 + e2); [lra|]. unfold Rdiv. rewrite (Rmult_assoc (e1 - e2)), Rinv_l by lra. lra.
      - apply Rmult_le_reg_r with (1 + e2); [lra|]. unfold Rdiv. rewrite (Rmult_assoc (e1 - e2)), Rinv_l by lra. lra. }
    pose proof (Rabs_pos ((e1 - e2) / (1 + e2))). nra. }
  apply Rabs_le_inv in RE, X. apply Rabs_le. unfold c24 in *. split; nra.
Qed.

(** * The value *)
Lemma comp_top t (v : val t) : comp_ok v -> t <> VHalf /\ 2 * Rabs (B2R v) <= top t.
Proof.
  intros (F & C). destruct t; [contradiction| |]; (split; [discriminate|]).
  - assert (T : time_ok v) by (split; auto). apply time_le in T. rewrite top_f, p127.
    assert (E : bpow radix2 104 = 2 * bpow radix2 103) by (change 104%Z with (1 + 103)%Z; rewrite bpow_plus; reflexivity). rewrite E. lra.
  - rewrite pow_bp in C. change (Z.of_nat 1023) with 1023%Z in C.
    assert (P : Rabs (B2R v) <= pred radix2 (fx VDouble) (bpow radix2 1023)).
    { apply pred_ge_gt; [typeclasses eauto|apply generic_format_abs, generic_format_B2R|apply generic_format_bpow; cbn; lia|exact C]. }
    rewrite pred_bpow in P. change (fx VDouble 1023) with 970%Z in P. assert (E : top VDouble = 2 * (bpow radix2 1023 - bpow radix2 970)).
    { unfold top. rewrite Rmult_minus_distr_l. change 2 with (bpow radix2 1). rewrite <- !bpow_plus. reflexivity. }
    rewrite E. lra.
Qed.
Lemma widen_f t (x : time) : t <> VHalf -> is_finite x = true -> 0 <= B2R x <= 1 -> is_finite (cast t x) = true /\ B2R (cast t x) = B2R x.
Proof.
  intros N F H. destruct (cast_ok VFloat t x F) as (P & Q); [apply (fits_le _ 1); [rewrite Rabs_pos_eq; lra|lia|auto]|].
  split; [exact P|]. rewrite Q. destruct t; [congruence|apply rnd_fmt, vfmt_B2R|]. apply rnd_fmt.
  apply (incl 24 53 (-149) (-1074)); [lia|lia|]. apply (vfmt_B2R VFloat x).
Qed.
Lemma lerp_val t (a b : val t) x : comp_ok a -> comp_ok b -> is_finite x = true -> 0 <= B2R x <= 1 ->
  let s := rnd VFloat (1 - B2R x) in 0 <= s <= 1 /\ Rabs (s - (1 - B2R x)) <= c24 /\ (B2R x = 0 -> s = 1) /\
    is_finite (t_lerp a b x) = true /\ B2R (t_lerp a b x) = rnd t (rnd t (B2R a * s) + rnd t (B2R b * B2R x)).
Proof.
  intros A B F H. destruct (comp_top _ _ A) as (N & TA). destruct (comp_top _ _ B) as (_ & TB). destruct one_f as (OF & OV).
  destruct (vsub_ok VFloat (vnum VFloat 1 0) x OF F) as (SF & SV).
  { rewrite OV. apply (fits_le _ 1); [rewrite Rabs_pos_eq; lra|lia|discriminate]. }
  rewrite OV in SV. intros s. fold s in SV.
  assert (S1 : 0 <= s <= 1).
  { unfold s. rewrite <- (rnd_0 VFloat). replace 1 with (rnd VFloat 1) at 3 by (apply rnd_fmt, (int_fmt VFloat 1); cbn; lia). split; apply rnd_le; lra. }
  assert (S2 : Rabs (s - (1 - B2R x)) <= c24).
  { destruct (sub_rel 1 (B2R x)) as (e & E & V); [apply (int_fmt VFloat 1); cbn; lia|apply (vfmt_B2R VFloat x)|]. unfold s. rewrite V.
    replace ((1 - B2R x) * (1 + e) - (1 - B2R x)) with ((1 - B2R x) * e) by ring. rewrite Rabs_mult, Rabs_pos_eq by lra.
    pose proof (Rabs_pos e). unfold c24 in *. nra. }
  split; [exact S1|]. split; [exact S2|]. split.
  { intros E. unfold s. rewrite E, Rminus_0_r. apply rnd_fmt, (int_fmt VFloat 1). cbn. lia. }
  destruct (widen_f t _ N SF) as (CF & CV); [rewrite SV; exact S1|]. destruct (widen_f t _ N F H) as (XF & XV). rewrite SV in CV.
  assert (HA : forall (v : val t) k, 2 * Rabs (B2R v) <= top t -> 0 <= k <= 1 -> fits t (B2R v * k) /\ Rabs (rnd t (B2R v * k)) <= Rabs (B2R v)).
  { intros v k T K. assert (L : Rabs (B2R v * k) <= Rabs (B2R v)) by (rewrite Rabs_mult, (Rabs_pos_eq k) by lra; pose proof (Rabs_pos (B2R v)); nra).
    split; [unfold fits; pose proof (Rabs_pos (B2R v)); lra|]. apply abs_round_le_generic; auto; try typeclasses eauto. apply generic_format_abs, vfmt_B2R. }
  destruct (HA a s TA S1) as (FA & RA). destruct (HA b (B2R x) TB H) as (FB & RB).
  destruct (vmul_ok t a (cast t (vsub (vnum VFloat 1 0) x : time)) (proj1 A) CF) as (PF & PV); [rewrite CV; exact FA|].
  destruct (vmul_ok t b (cast t x) (proj1 B) XF) as (QF & QV); [rewrite XV; exact FB|]. rewrite CV in PV. rewrite XV in QV.
  unfold t_lerp. destruct (vadd_ok t _ _ PF QF) as (ZF & ZV).
  { rewrite PV, QV. unfold fits. eapply Rle_trans; [apply Rabs_triang|]. lra. }
  rewrite PV, QV in ZV. auto.
Qed.
Lemma lerp_ok t (a b : val t) x : comp_ok a -> comp_ok b -> is_finite x = true -> 0 <= B2R x <= 1 ->
  exists s, 0 <= s <= 1 /\ Rabs (s - (1 - B2R x)) <= c24 /\ (B2R x = 0 -> s = 1) /\
    is_finite (t_lerp a b x) = true /\ B2R (t_lerp a b x) = rnd t (rnd t (B2R a * s) + rnd t (B2R b * B2R x)).
Proof. intros A B F H. eexists. apply lerp_val; auto. Qed.
Lemma lerp_err t (a b : val t) x tau : comp_ok a -> comp_ok b -> is_finite x = true -> 0 <= B2R x <= 1 -> Rabs (B2R x - tau) <= 4 * c24 ->
  is_finite (t_lerp a b x) = true /\ Rabs (B2R (t_lerp a b x) - (B2R a + (B2R b - B2R a) * tau)) <= curve_rounding (B2R a) (B2R b).
Proof.
  intros A B F H T. destruct (lerp_ok t a b x A B F H) as (s & S1 & S2 & _ & LF & LV). split; [exact LF|]. rewrite LV.
  destruct (comp_top _ _ A) as (N & _). destruct (unit_le t N) as (U0 & U1). destruct (tiny_le t N) as (Y0 & Y1).
  set (u := B2R a) in *. set (w := B2R b) in *. set (z := B2R x) in *. set (Bd := Rmax (Rabs u) (Rabs w)).
  assert (BU : Rabs u <= Bd) by apply Rmax_l. assert (BW : Rabs w <= Bd) by apply Rmax_r. assert (B0 : 0 <= Bd) by (pose proof (Rabs_pos u); lra).
  pose proof (rnd_err t (u * s)) as E1. pose proof (rnd_err t (w * z)) as E2. rewrite Rabs_mult, (Rabs_pos_eq s) in E1 by lra. rewrite Rabs_mult, (Rabs_pos_eq z) in E2 by lra.
  set (p := rnd t (u * s)) in *. set (q := rnd t (w * z)) in *. pose proof (rnd_err t (p + q)) as E3. set (r := rnd t (p + q)) in *.
  unfold curve_rounding. fold Bd. replace (Rabs (w - u) / 2 ^ 22) with (4 * c24 * Rabs (w - u)) by (unfold c24; cbn; lra).
  replace (Bd / 2 ^ 22) with (4 * c24 * Bd) by (unfold c24; cbn; lra).
  replace (/ 2 ^ 148) with (4 * bpow radix2 (-150)).
  2: { rewrite pow_bp, <- bpow_opp. change 4 with (bpow radix2 2). rewrite <- bpow_plus. reflexivity. }
  set (k := bpow radix2 (-150)) in *. assert (K0 : 0 < k) by apply bpow_gt_0.
  assert (G1 : Rabs (p - u * s) <= c24 * (Bd * s) + k).
  { eapply Rle_trans; [exact E1|]. apply Rplus_le_compat; [|lra]. apply Rmult_le_compat; try lra; [pose proof (Rabs_pos u); nra|]. apply Rmult_le_compat_r; lra. }
  assert (G2 : Rabs (q - w * z) <= c24 * (Bd * z) + k).
  { eapply Rle_trans; [exact E2|]. apply Rplus_le_compat; [|lra]. apply Rmult_le_compat; try lra; [pose proof (Rabs_pos w); nra|]. apply Rmult_le_compat_r; lra. }
  assert (L1 : Rabs (u * s) <= Bd * s) by (rewrite Rabs_mult, (Rabs_pos_eq s) by lra; apply Rmult_le_compat_r; lra).
  assert (L2 : Rabs (w * z) <= Bd * z) by (rewrite Rabs_mult, (Rabs_pos_eq z) by lra; apply Rmult_le_compat_r; lra).
  assert (SZ : s + z <= 1 + c24) by (apply Rabs_le_inv in S2; lra).
  assert (PQ : Rabs (p + q) <= Bd * (s + z) + c24 * (Bd * (s + z)) + 2 * k).
  { replace (p + q) with ((u * s + w * z) + ((p - u * s) + (q - w * z))) by ring.
    eapply Rle_trans; [apply Rabs_triang|]. eapply Rle_trans; [apply Rplus_le_compat; apply Rabs_triang|]. lra. }
  assert (BSZ : Bd * (s + z) <= Bd * (1 + c24)) by (apply Rmult_le_compat_l; lra).
  assert (BSZ0 : 0 <= Bd * (s + z)) by (apply Rmult_le_pos; lra).
  assert (G3 : Rabs (r - (p + q)) <= c24 * (Bd * (s + z) + c24 * (Bd * (s + z)) + 2 * k) + k).
  { eapply Rle_trans; [exact E3|]. apply Rplus_le_compat; [|lra]. apply Rmult_le_compat; try lra. apply Rabs_pos. }
  assert (G4 : Rabs (u * (s - (1 - z))) <= Bd * c24) by (rewrite Rabs_mult; apply Rmult_le_compat; auto; apply Rabs_pos).
  assert (G5 : Rabs ((w - u) * (z - tau)) <= Rabs (w - u) * (4 * c24)) by (rewrite Rabs_mult; apply Rmult_le_compat_l; [apply Rabs_pos|auto]).
  replace (r - (u + (w - u) * tau)) with ((r - (p + q)) + ((p - u * s) + (q - w * z)) + (u * (s - (1 - z)) + (w - u) * (z - tau))) by ring.
  eapply Rle_trans; [apply Rabs_triang|]. eapply Rle_trans; [apply Rplus_le_compat; [apply Rabs_triang|apply Rabs_triang]|].
  pose proof (Rabs_triang (p - u * s) (q - w * z)). set (W := Rabs (w - u)) in *.
  assert (X : c24 * (Bd * (s + z)) <= c24 * (Bd * (1 + c24))) by (apply Rmult_le_compat_l; [unfold c24; lra|auto]).
  unfold c24 in *. lra.
Qed.
(** At the lower sample, exactly. *)
Lemma lerp_lower t (a b : val t) x : comp_ok a -> comp_ok b -> is_finite x = true -> B2R x = 0 ->
  is_finite (t_lerp a b x) = true /\ B2R (t_lerp a b x) = B2R a.
Proof.
  intros A B F Z. destruct (lerp_ok t a b x A B F) as (s & _ & _ & S & LF & LV); [lra|]. split; [exact LF|].
  rewrite LV, S, Z by auto. rewrite Rmult_1_r, Rmult_0_r, rnd_0, Rplus_0_r. rewrite !(rnd_fmt t (B2R a)) by apply vfmt_B2R. reflexivity.
Qed.

(** * Samples: the same as with numbers in place of positions *)
Section K.
Context {t : vtype}.
Notation sample := (time * (nat -> val t))%type.
Definition key (s : sample) : R * (nat -> val t) := (B2R (fst s), snd s).
Definition fin (s : sample) : Prop := is_finite (fst s) = true.
Lemma before_R a b : is_finite a = true -> is_finite b = true -> t_before a b = rltb (B2R a) (B2R b).
Proof. intros A B. unfold t_before. rewrite Bltb_correct by auto. destruct (Rlt_bool_spec (B2R a) (B2R b)), (rltb_spec (B2R a) (B2R b)); auto; lra. Qed.
Lemma same_R a b : is_finite a = true -> is_finite b = true -> t_same a b = reqb (B2R a) (B2R b).
Proof. intros A B. unfold t_same. rewrite Beqb_correct by auto. destruct (Req_bool_spec (B2R a) (B2R b)), (reqb_spec (B2R a) (B2R b)); auto; congruence. Qed.
Lemma replace_key x v : is_finite x = true -> forall l : list sample, Forall fin l ->
  Forall fin (replace_at t_same x v l) /\ map key (replace_at t_same x v l) = replace_at reqb (B2R x) v (map key l).
Proof.
  intros X. induction l as [|(s & w) l IH]; intros F; [cbn; auto|]. inversion F as [|? ? F1 F2]; subst. cbn [replace_at map key fst snd].
  rewrite same_R by auto. destruct (reqb (B2R s) (B2R x)); cbn [map key fst snd].
  - split; [constructor; auto|reflexivity].
  - destruct (IH F2) as (P & Q). split; [constructor; auto|]. rewrite Q. reflexivity.
Qed.
Lemma insert_key x v : is_finite x = true -> forall l : list sample, Forall fin l ->
  Forall fin (insert_at t_before x v l) /\ map key (insert_at t_before x v l) = insert_at rltb (B2R x) v (map key l).
Proof.
  intros X. induction l as [|(s & w) l IH]; intros F; [cbn; split; [constructor; auto|auto]|]. inversion F as [|? ? F1 F2]; subst. cbn [insert_at map key fst snd].
  rewrite before_R by auto. destruct (rltb (B2R x) (B2R s)); cbn [map key fst snd].
  - split; [constructor; auto|reflexivity].
  - destruct (IH F2) as (P & Q). split; [constructor; auto|]. rewrite Q. reflexivity.
Qed.
Lemma exists_key x : is_finite x = true -> forall l : list sample, Forall fin l ->
  existsb (fun s => t_same (fst s) x) l = existsb (fun s => reqb (fst s) (B2R x)) (map key l).
Proof. intros X. induction 1 as [|s l F1 F2 IH]; auto. cbn. rewrite IH, same_R by auto. reflexivity. Qed.
Lemma add_key x v (l : list sample) : is_finite x = true -> Forall fin l ->
  Forall fin (t_add x v l) /\ map key (t_add x v l) = add_sample rltb reqb (B2R x) v (map key l).
Proof.
  intros X F. unfold t_add, add_sample. rewrite exists_key by auto. destruct (existsb _ (map key l)); [apply replace_key; auto|apply insert_key; auto].
Qed.
Lemma run_key (h : list sample) : Forall fin h -> Forall fin (t_run h) /\ map key (t_run h) = curve_run rltb reqb (map key h).
Proof.
  assert (G : forall h, Forall fin h -> forall l, Forall fin l -> Forall fin (fold_left (fun l s => t_add (fst s) (snd s) l) h l) /\
    map key (fold_left (fun l s => t_add (fst s) (snd s) l) h l) = fold_left (fun l s => add_sample rltb reqb (fst s) (snd s) l) (map key h) (map key l)).
  { clear. induction 1 as [|s h F1 F2 IH]; intros l F; [auto|]. cbn [fold_left map]. destruct (add_key (fst s) (snd s) l F1 F) as (P & Q).
    destruct (IH _ P) as (P' & Q'). split; [exact P'|]. rewrite Q', Q. reflexivity. }
  intros F. apply (G h F []). constructor.
Qed.
Lemma last_key (h : list sample) x v : last_at reqb (map key h) x = Some v <-> last_given h x v.
Proof.
  unfold last_at, last_given. induction h as [|(s & w) h IH] using rev_ind.
  - cbn. split; [discriminate|]. intros (a & s & b & E & _). destruct a; discriminate.
  - rewrite map_app, fold_left_app. cbn [map fold_left key fst snd]. destruct (reqb_spec (B2R s) x) as [E|E].
    + split.
      * intros [= <-]. exists h, s, []. split; [reflexivity|]. split; [exact E|]. intros s' v' [].
      * intros (a & s0 & b & H & K & L). destruct b as [|c b] using rev_ind.
        -- apply app_inj_tail in H. destruct H as (_ & H). congruence.
        -- clear IHb. rewrite app_comm_cons, app_assoc in H. apply app_inj_tail in H. destruct H as (_ & <-). exfalso. apply (L s w); auto. apply in_or_app. right. left. auto.
    + rewrite IH. split.
      * intros (a & s0 & b & H & K & L). exists a, s0, (b ++ [(s, w)]). split; [rewrite H, <- app_assoc; reflexivity|]. split; [exact K|].
        intros s' v' I. apply in_app_or in I. destruct I as [I|[I|[]]]; [apply (L _ _ I)|]. injection I as <- _. exact E.
      * intros (a & s0 & b & H & K & L). destruct b as [|c b] using rev_ind.
        -- apply app_inj_tail in H. destruct H as (_ & H). congruence.
        -- clear IHb. rewrite app_comm_cons, app_assoc in H. apply app_inj_tail in H. destruct H as (H & <-). exists a, s0, b. split; [exact H|]. split; [exact K|].
           intros s' v' I. apply (L s' v'). apply in_or_app. auto.
Qed.
(** * Lookups *)
Lemma from_skip (between : sample -> sample -> time -> nat -> val t) at_ a l2 : forall l1 z, Forall (fun s => t_before at_ (fst s) = false) (l1 ++ [a]) ->
  linear_from t_before between z (l1 ++ a :: l2) at_ = linear_from t_before between a l2 at_.
Proof.
  induction l1 as [|b l1 IH]; intros z F; inversion F as [|? ? F1 F2]; subst; cbn [app linear_from]; rewrite F1; auto.
Qed.
Lemma linear_at (dflt : nat -> val t) at_ a l2 : forall l1, Forall (fun s => t_before at_ (fst s) = false) (l1 ++ [a]) ->
  t_linear dflt (l1 ++ a :: l2) at_ = linear_from t_before t_between a l2 at_.
Proof.
  intros [|b l1] F; unfold t_linear; inversion F as [|? ? F1 F2]; subst; cbn [app linear]; rewrite F1; auto. apply from_skip. auto.
Qed.
End K.
