(** Resampling in floating point: which voxels are read. *)
From Coq Require Import ZArith Reals List Bool Lia Lra.
From Flocq Require Import Core BinarySingleNaN Relative.
From Verif Require Import Model.Base Model.LoopM Model.FilterM Model.MipM Model.FloatM Model.FloatMipM Model.FloatMinMaxM Model.FloatResampleM.
From Verif Require Import Spec.FloatResampleSpec.
From Verif Require Import Proof.BaseP Proof.FloatP Proof.FloatP2 Proof.FloatMipP Proof.FloatMipP2.
Import ListNotations.
Open Scope R_scope.

(** * Rounding as a relative error *)
Definition u : R := / 16777216.
Definition rel (k x y : R) : Prop := exists e, x = y * (1 + e) /\ Rabs e <= k * u.
Lemma rnd_rel x : x = 0 \/ bpow radix2 (-100) <= Rabs x -> rel 1 (rnd VFloat x) x.
Proof.
  intros [->|H]; [exists 0; rewrite rnd_0, Rabs_R0; unfold u; split; lra|].
  destruct (relative_error_N_FLT_ex radix2 (-149) 24 ltac:(lia) (fun x => negb (Z.even x)) x) as (e & E & V).
  { eapply Rle_trans; [|exact H]. apply bpow_le. lia. }
  exists e. split; [exact V|]. eapply Rle_trans; [exact E|]. change (bpow radix2 (- (24) + 1)) with (/ 8388608). unfold u. lra.
Qed.
Lemma rnd_rel64 x : bpow radix2 (-100) <= Rabs x -> rel 1 (rnd VDouble x) x.
Proof.
  intros H. destruct (relative_error_N_FLT_ex radix2 (-1074) 53 ltac:(lia) (fun x => negb (Z.even x)) x) as (e & E & V).
  { eapply Rle_trans; [|exact H]. apply bpow_le. lia. }
  exists e. split; [exact V|]. eapply Rle_trans; [exact E|]. change (bpow radix2 (- (53) + 1)) with (/ 4503599627370496). unfold u. lra.
Qed.
Lemma rel_trans j k x y z : 0 <= j <= 10 -> 0 <= k <= 10 -> rel j x y -> rel k y z -> rel (j + k + / 1000) x z.
Proof.
  intros J K (e & -> & E) (f & -> & F). exists (e + f + e * f). split; [ring|]. pose proof (Rabs_pos e). pose proof (Rabs_pos f).
  eapply Rle_trans; [apply Rabs_triang|]. eapply Rle_trans; [apply Rplus_le_compat; [apply Rabs_triang|rewrite Rabs_mult; apply Rmult_le_compat; eauto]|]. unfold u in *.
  assert (j * / 16777216 * (k * / 16777216) <= / 1000 * / 16777216) by nra. lra.
Qed.
Lemma rel_scale k x y c : rel k x y -> rel k (c * x) (c * y).
Proof. intros (e & -> & E). exists e. split; auto. ring. Qed.
Lemma rel_inv k x y : 0 <= k <= 10 -> y <> 0 -> rel k x y -> rel (k + / 1000) (/ x) (/ y).
Proof.
  intros K Y (e & -> & E). assert (Eb : Rabs e <= / 1000000) by (eapply Rle_trans; [exact E|]; unfold u; lra). apply Rabs_le_inv in E as E'. apply Rabs_le_inv in Eb.
  exists (/ (1 + e) - 1). split; [field; split; auto; lra|]. replace (/ (1 + e) - 1) with (- e * / (1 + e)) by (field; lra). rewrite Rabs_mult, Rabs_Ropp.
  rewrite (Rabs_pos_eq (/ (1 + e))) by (apply Rlt_le, Rinv_0_lt_compat; lra).
  assert (I : / (1 + e) <= 1 + / 100000). { apply Rmult_le_reg_r with (1 + e); [lra|]. rewrite Rinv_l by lra. nra. }
  assert (0 < / (1 + e)) by (apply Rinv_0_lt_compat; lra). pose proof (Rabs_pos e).
  eapply Rle_trans; [apply Rmult_le_compat; [auto|lra|exact E|exact I]|]. unfold u. nra.
Qed.
Lemma rel_abs k x y B : 0 <= k -> rel k x y -> Rabs y <= B -> Rabs (x - y) <= k * u * B.
Proof. intros K (e & -> & E) Y. replace (y * (1 + e) - y) with (e * y) by ring. rewrite Rabs_mult. apply Rmult_le_compat; auto; apply Rabs_pos. Qed.
Lemma rel_size k x y : 0 <= k <= 10 -> rel k x y -> Rabs y / 2 <= Rabs x <= 2 * Rabs y.
Proof.
  intros K (e & -> & E). assert (Eb : Rabs e <= / 1000000) by (eapply Rle_trans; [exact E|]; unfold u; lra). apply Rabs_le_inv in Eb.
  rewrite Rabs_mult, (Rabs_pos_eq (1 + e)) by lra. pose proof (Rabs_pos y). split; nra.
Qed.

(** * Sizes and scaled positions *)
Definition cap : Z := 2 ^ 19.
Lemma domain_ok n : (1 <= n <= cap)%Z -> is_finite (fr_domain n) = true /\ B2R (fr_domain n) = IZR n.
Proof.
  intros N. unfold fr_domain, vnum. pose proof (binary_normalize_correct (prec VFloat) (emax VFloat) (gt_prec VFloat) (lt_emax VFloat) mode_NE n 0 false) as H. cbv zeta in H.
  assert (E : F2R (Float radix2 n 0) = IZR n) by (unfold F2R; cbn; ring). rewrite E in H.
  assert (R : round radix2 (SpecFloat.fexp (prec VFloat) (emax VFloat)) (round_mode mode_NE) (IZR n) = IZR n) by (apply (rnd_fmt VFloat); apply int_fmt; unfold cap in N; cbn [prec]; lia).
  rewrite R, Rlt_bool_true in H; [split; apply H|]. rewrite Rabs_pos_eq by (apply IZR_le; lia). apply Rle_lt_trans with (IZR (2 ^ 19)); [apply IZR_le; apply N|].
  change (IZR (2 ^ 19)) with (bpow radix2 19). apply bpow_lt. cbn. lia.
Qed.
Lemma inv_bounds n : (1 <= n <= cap)%Z -> / 524288 <= / IZR n <= 1.
Proof.
  intros (L & H). apply IZR_le in L, H. change (IZR cap) with 524288 in H. split; [apply Rinv_le; lra|]. rewrite <- Rinv_1. apply Rinv_le; lra.
Qed.
Lemma small_100 x : / 1000000000 <= x -> bpow radix2 (-100) <= x.
Proof. intros H. eapply Rle_trans; [apply (bpow_le radix2 (-100) (-40)); lia|]. eapply Rle_trans; [|exact H]. change (bpow radix2 (-40)) with (/ 1099511627776). lra. Qed.
Lemma size_ok n : (1 <= n <= cap)%Z -> is_finite (fr_size n) = true /\ rel (2 + / 100) (B2R (fr_size n)) (/ IZR n).
Proof.
  intros N. destruct (domain_ok n N) as (DF & DV). pose proof (inv_bounds n N) as IB. destruct (of_int_ok 1) as (OF & OV); [lia|].
  destruct (cast_ok VFloat VDouble _ DF) as (CF & CV).
  { rewrite DV. apply (fits_le _ (2 ^ 19)); [rewrite <- abs_IZR; apply IZR_le; unfold cap in N; lia|lia|discriminate]. }
  rewrite DV, rnd_fmt in CV by (apply int_fmt; unfold cap in N; cbn [prec]; lia).
  assert (NZ : IZR n <> 0) by (apply IZR_neq; lia).
  assert (E : B2R (of_int 1 : val VDouble) / B2R (cast VDouble (fr_domain n)) = / IZR n).
  { rewrite CV. change (B2R (of_int 1 : val VDouble)) with (B2R (of_int 1)). rewrite OV. field. auto. }
  destruct (vdiv_ok VDouble (of_int 1) (cast VDouble (fr_domain n)) OF) as (QF & QV); [rewrite CV; auto|rewrite E; apply (fits_le _ 1); [rewrite Rabs_pos_eq; lra|lia|discriminate]|].
  rewrite E in QV. assert (R1 : rel 1 (rnd VDouble (/ IZR n)) (/ IZR n)) by (apply rnd_rel64; rewrite Rabs_pos_eq by lra; apply small_100; lra).
  rewrite <- QV in R1. set (q := vdiv (of_int 1 : val VDouble) (cast VDouble (fr_domain n))) in *.
  assert (S : Rabs (/ IZR n) / 2 <= Rabs (B2R q) <= 2 * Rabs (/ IZR n)) by (apply (rel_size 1); auto; lra). rewrite (Rabs_pos_eq (/ IZR n)) in S by lra.
  destruct (cast_ok VDouble VFloat q QF) as (PF & PV); [apply (fits_le _ 2); [lra|lia|discriminate]|]. split; [exact PF|]. change (B2R (fr_size n)) with (B2R (cast VFloat q)).
  rewrite PV. destruct (rel_trans 1 1 (rnd VFloat (B2R q)) (B2R q) (/ IZR n)) as (e & X & Y); [lra|lra| |auto|].
  - apply rnd_rel. right. apply small_100. lra.
  - exists e. split; auto. unfold u in *. lra.
Qed.
(** [x * a / b] *)
Lemma scaled_ok (x : val VFloat) p q : (1 <= p <= cap)%Z -> (1 <= q <= cap)%Z -> is_finite x = true -> B2R x = 0 \/ / 4 <= Rabs (B2R x) -> Rabs (B2R x) <= 1000000 ->
  is_finite (vdiv (vmul x (fr_size p)) (fr_size q)) = true /\ rel 7 (B2R (vdiv (vmul x (fr_size p)) (fr_size q))) (B2R x * IZR q / IZR p).
Proof.
  intros P Q XF X0 X1. destruct (size_ok p P) as (PF & PR). destruct (size_ok q Q) as (QF & QR). pose proof (inv_bounds p P) as IP. pose proof (inv_bounds q Q) as IQ.
  assert (NP : IZR p <> 0) by (apply IZR_neq; lia). assert (NQ : IZR q <> 0) by (apply IZR_neq; lia).
  assert (SP : Rabs (/ IZR p) / 2 <= Rabs (B2R (fr_size p)) <= 2 * Rabs (/ IZR p)) by (apply (rel_size (2 + / 100)); auto; lra). rewrite (Rabs_pos_eq (/ IZR p)) in SP by lra.
  assert (SQ : Rabs (/ IZR q) / 2 <= Rabs (B2R (fr_size q)) <= 2 * Rabs (/ IZR q)) by (apply (rel_size (2 + / 100)); auto; lra). rewrite (Rabs_pos_eq (/ IZR q)) in SQ by lra.
  pose proof (Rabs_pos (B2R x)) as XP. set (a := B2R (fr_size p)) in *. set (b := B2R (fr_size q)) in *. assert (AP : 0 < Rabs a) by lra. assert (BP : 0 < Rabs b) by lra.
  assert (BNZ : b <> 0) by (intros Z; rewrite Z, Rabs_R0 in BP; lra).
  assert (M0 : B2R x * a = 0 \/ / 10000000 <= Rabs (B2R x * a)).
  { destruct X0 as [->|X0]; [left; ring|right]. rewrite Rabs_mult. nra. }
  assert (M1 : Rabs (B2R x * a) <= 2000000) by (rewrite Rabs_mult; nra).
  destruct (vmul_ok VFloat x (fr_size p) XF PF) as (MF & MV); [apply (fits_le _ 2000000); [exact M1|lia|discriminate]|]. fold a in MV.
  assert (MR : rel 1 (B2R (vmul x (fr_size p))) (B2R x * a)). { rewrite MV. apply rnd_rel. destruct M0 as [M0|M0]; auto. right. apply small_100. lra. }
  set (m := vmul x (fr_size p)) in *. assert (MS : Rabs (B2R x * a) / 2 <= Rabs (B2R m) <= 2 * Rabs (B2R x * a)) by (apply (rel_size 1); auto; lra).
  assert (IB : Rabs (/ b) = / Rabs b) by (apply Rabs_inv). assert (IBB : / 2 <= / Rabs b <= 2000000).
  { split; [apply Rinv_le; lra|]. replace 2000000 with (/ / 2000000) by field. apply Rinv_le; lra. }
  assert (D1 : Rabs (B2R m / b) <= IZR (2 ^ 24) * 1000000000).
  { unfold Rdiv. rewrite Rabs_mult, IB. change (IZR (2 ^ 24)) with 16777216. nra. }
  assert (DT : fits VFloat (B2R m / b)).
  { unfold fits. eapply Rle_trans; [exact D1|]. apply Rle_trans with (bpow radix2 100); [change (IZR (2 ^ 24)) with 16777216; apply Rle_trans with (bpow radix2 60); [change (bpow radix2 60) with 1152921504606846976; lra|apply bpow_le; lia]|].
    unfold top. cbn [emax prec]. assert (A : bpow radix2 128 = 2 * bpow radix2 127) by (change 128%Z with (1 + 127)%Z; rewrite bpow_plus; reflexivity).
    assert (B : bpow radix2 (128 - 24) <= bpow radix2 127) by (apply bpow_le; lia). assert (C : bpow radix2 100 <= bpow radix2 127) by (apply bpow_le; lia).
    revert A B C. generalize (bpow radix2 128) (bpow radix2 127) (bpow radix2 (128 - 24)) (bpow radix2 100). intros. lra. }
  destruct (vdiv_ok VFloat m (fr_size q) MF) as (DF & DV); [exact BNZ|exact DT|]. fold b in DV. split; [exact DF|]. rewrite DV.
  assert (D0 : B2R m / b = 0 \/ / 1000000000 <= Rabs (B2R m / b)).
  { destruct M0 as [M0|M0]; [left; destruct MR as (e & -> & _); rewrite M0; unfold Rdiv; ring|right]. unfold Rdiv. rewrite Rabs_mult, IB. nra. }
  assert (R1 : rel 1 (rnd VFloat (B2R m / b)) (B2R m / b)) by (apply rnd_rel; destruct D0; auto; right; apply small_100; auto).
  assert (R2 : rel 1 (B2R m / b) (B2R x * a / b)). { unfold Rdiv. rewrite (Rmult_comm (B2R m)), (Rmult_comm (B2R x * a)). apply rel_scale. auto. }
  assert (R3 : rel (2 + / 100) (B2R x * a / b) (B2R x * / IZR p / b)).
  { replace (B2R x * a / b) with (B2R x * / b * a) by (field; auto). replace (B2R x * / IZR p / b) with (B2R x * / b * / IZR p) by (field; auto). apply rel_scale. auto. }
  assert (R4 : rel (2 + / 100 + / 1000) (B2R x * / IZR p / b) (B2R x * / IZR p * IZR q)).
  { unfold Rdiv. apply rel_scale. rewrite <- (Rinv_inv (IZR q)). apply rel_inv; [lra|apply Rinv_neq_0_compat; auto|auto]. }
  replace (B2R x * IZR q / IZR p) with (B2R x * / IZR p * IZR q) by (field; auto).
  assert (R12 : rel (1 + 1 + / 1000) (rnd VFloat (B2R m / b)) (B2R x * a / b)) by (eapply rel_trans; [lra|lra|exact R1|exact R2]).
  assert (R123 : rel (1 + 1 + / 1000 + (2 + / 100) + / 1000) (rnd VFloat (B2R m / b)) (B2R x * / IZR p / b)) by (eapply rel_trans; [lra|lra|exact R12|exact R3]).
  assert (R1234 : rel (1 + 1 + / 1000 + (2 + / 100) + / 1000 + (2 + / 100 + / 1000) + / 1000) (rnd VFloat (B2R m / b)) (B2R x * / IZR p * IZR q)) by (eapply rel_trans; [lra|lra|exact R123|exact R4]).
  destruct R1234 as (e & E & Eb). exists e. split; auto. unfold u in *. lra.
Qed.

(** * Weights *)
Lemma vfloor_ok t (x : val t) : is_finite x = true -> in_int (Zfloor (B2R x)) = true -> vfloor x = Ok (Zfloor (B2R x)).
Proof.
  intros F I. unfold vfloor. rewrite F. destruct (Bnearbyint_correct (prec t) (emax t) _ mode_DN x) as (A & _).
  pose proof (Btrunc_correct (prec t) (emax t) _ (Bnearbyint mode_DN x)) as T. rewrite A in T. cbn [round_mode] in T.
  rewrite !round_FIX_IZR, Ztrunc_IZR in T. apply eq_IZR in T. rewrite T. unfold i32. rewrite I. auto.
Qed.
Lemma vceil_ok t (x : val t) : is_finite x = true -> in_int (Zceil (B2R x)) = true -> vceil x = Ok (Zceil (B2R x)).
Proof.
  intros F I. unfold vceil. rewrite F. destruct (Bnearbyint_correct (prec t) (emax t) _ mode_UP x) as (A & _).
  pose proof (Btrunc_correct (prec t) (emax t) _ (Bnearbyint mode_UP x)) as T. rewrite A in T. cbn [round_mode] in T.
  rewrite !round_FIX_IZR, Ztrunc_IZR in T. apply eq_IZR in T. rewrite T. unfold i32. rewrite I. auto.
Qed.
Lemma half_fmt i : (Z.abs i <= 2 ^ 20)%Z -> vfmt VFloat (IZR i + / 2).
Proof.
  intros H. replace (IZR i + / 2) with (IZR (2 * i + 1) * bpow radix2 (-1)) by (rewrite plus_IZR, mult_IZR; change (bpow radix2 (-1)) with (/ 2); lra).
  apply dyadic; cbn [prec emax]; lia.
Qed.
Lemma pos_ok i : (0 <= i <= cap)%Z -> is_finite (cast VFloat (fm_centre i)) = true /\ B2R (cast VFloat (fm_centre i)) = IZR i + / 2.
Proof.
  unfold cap. intros H. destruct (centre_ok i) as (CF & CV); [lia|]. destruct (cast_ok VDouble VFloat _ CF) as (F & V).
  - rewrite CV. apply (fits_le _ (2 ^ 20)); [|lia|discriminate]. rewrite Rabs_pos_eq by (assert (0 <= IZR i) by (apply IZR_le; lia); lra).
    assert (IZR i <= IZR (2 ^ 19)) by (apply IZR_le; lia). change (IZR (2 ^ 19)) with 524288 in *. change (IZR (2 ^ 20)) with 1048576. lra.
  - split; auto. rewrite V, CV. apply rnd_fmt. apply half_fmt. lia.
Qed.
Lemma eval_ok (x : val VFloat) : is_finite x = true -> fm_eval w1 x = if Rle_bool (B2R x) (/ 2) then w1 else B754_zero false.
Proof.
  intros F. destruct w1_ok as (_ & W). destruct wh_ok as (HF & HV). unfold fm_eval.
  assert (E : B2R x / B2R w1 = B2R x) by (rewrite W; field).
  destruct (vdiv_ok VFloat x w1 F) as (QF & QV); [rewrite W; lra|rewrite E; apply top_ge|]. rewrite E, rnd_fmt in QV by apply fmt_val.
  rewrite Bleb_correct by auto. rewrite QV, HV. reflexivity.
Qed.
Definition zero32 : val VFloat := B754_zero false.
Lemma hit (x : val VFloat) m c b j : (1 <= c)%Z -> (1 <= m)%Z -> (c * m <= cap)%Z -> (0 <= b < m)%Z -> (0 <= j < c * m)%Z ->
  is_finite x = true -> rel 7 (B2R x) ((IZR j + / 2) / IZR c) ->
  fm_eval w1 (Babs (vsub x (cast VFloat (fm_centre b)))) = if (j / c =? b)%Z then w1 else zero32.
Proof.
  unfold cap. intros C M CM B J F R. destruct (pos_ok b) as (PF & PV); [unfold cap; nia|]. set (pb := cast VFloat (fm_centre b)) in *.
  set (k := / IZR c). assert (C1 : 1 <= IZR c) by (apply IZR_le; lia). assert (K0 : 0 < k) by (apply Rinv_0_lt_compat; lra). assert (KC : IZR c * k = 1) by (apply Rinv_r; lra).
  assert (M1 : 1 <= IZR m) by (apply IZR_le; lia). assert (CMR : IZR c * IZR m <= 524288) by (rewrite <- mult_IZR; apply (IZR_le _ 524288); auto).
  assert (MK : IZR m <= 524288 * k) by nra. assert (K1 : / 524288 <= k) by nra.
  assert (J0 : 0 <= IZR j) by (apply IZR_le; lia). assert (J1 : IZR j + 1 <= IZR c * IZR m) by (rewrite <- mult_IZR, <- (plus_IZR _ 1); apply IZR_le; lia).
  replace ((IZR j + / 2) / IZR c) with (IZR j * k + k / 2) in R by (unfold k; field; lra).
  assert (T0 : 0 <= IZR j * k) by nra. assert (T1 : IZR j * k + k <= IZR m) by nra.
  assert (D : Rabs (B2R x - (IZR j * k + k / 2)) <= 7 * u * IZR m) by (apply rel_abs; [lra|auto|rewrite Rabs_pos_eq; lra]).
  assert (D' : Rabs (B2R x - (IZR j * k + k / 2)) <= 7 / 32 * k) by (eapply Rle_trans; [exact D|]; unfold u; lra). apply Rabs_le_inv in D'. clear D.
  assert (B0 : 0 <= IZR b) by (apply IZR_le; lia). assert (B1 : IZR b + 1 <= IZR m) by (rewrite <- (plus_IZR _ 1); apply IZR_le; lia).
  assert (KL : k <= 1) by nra. assert (MU : IZR m <= 524288) by nra.
  destruct (vsub_ok VFloat x pb F PF) as (SF & SV); [rewrite PV; apply (fits_le _ 2000000); [apply Rabs_le; lra|lia|discriminate]|].
  assert (AF : is_finite (Babs (vsub x pb)) = true) by (rewrite is_finite_Babs; auto). rewrite eval_ok by auto. rewrite B2R_Babs, SV, PV.
  assert (E : (j = c * (j / c) + j mod c)%Z) by (apply Z.div_mod; lia). pose proof (Z.mod_pos_bound j c ltac:(lia)) as MB.
  destruct (Z.eqb_spec (j / c) b) as [Q|Q].
  - assert (L1 : IZR c * IZR b <= IZR j) by (rewrite <- mult_IZR; apply IZR_le; nia). assert (L2 : IZR j + 1 <= IZR c * IZR b + IZR c) by (assert (Lz : (j + 1 <= c * b + c)%Z) by nia; apply IZR_le in Lz; rewrite !plus_IZR, mult_IZR in Lz; exact Lz).
    assert (N1 : IZR b <= IZR j * k) by nra. assert (N2 : IZR j * k + k <= IZR b + 1) by nra.
    rewrite Rle_bool_true; auto. apply Rabs_le. split.
    + rewrite <- (rnd_fmt VFloat (- / 2)) by (replace (- / 2) with (IZR (-1) + / 2) by lra; apply half_fmt; lia). apply rnd_le. lra.
    + rewrite <- (rnd_fmt VFloat (/ 2)) at 2 by (replace (/ 2) with (IZR 0 + / 2) by lra; apply half_fmt; lia). apply rnd_le. lra.
  - assert (H : vfmt VFloat (/ 2 + u)). { replace (/ 2 + u) with (IZR 8388609 * bpow radix2 (-24)) by (change (bpow radix2 (-24)) with (/ 16777216); unfold u; lra). apply dyadic; cbn [prec emax]; lia. }
    assert (H' : vfmt VFloat (- (/ 2 + u))). { replace (- (/ 2 + u)) with (IZR (-8388609) * bpow radix2 (-24)) by (change (bpow radix2 (-24)) with (/ 16777216); unfold u; lra). apply dyadic; cbn [prec emax]; lia. }
    rewrite Rle_bool_false; auto. apply Rlt_le_trans with (/ 2 + u); [unfold u; lra|].
    destruct (Z_lt_ge_dec (j / c) b) as [G|G].
    + assert (L : IZR j + 1 <= IZR c * IZR b) by (assert (Lz : (j + 1 <= c * b)%Z) by nia; apply IZR_le in Lz; rewrite !plus_IZR, mult_IZR in Lz; exact Lz). assert (N : IZR j * k + k <= IZR b) by nra.
      rewrite <- Rabs_Ropp. eapply Rle_trans; [|apply Rle_abs]. apply Ropp_le_cancel. rewrite Ropp_involutive. rewrite <- (rnd_fmt VFloat _ H'). apply rnd_le. unfold u. lra.
    + assert (L : IZR c * IZR b + IZR c <= IZR j) by (rewrite <- mult_IZR, <- plus_IZR; apply IZR_le; nia). assert (N : IZR b + 1 <= IZR j * k) by nra.
      eapply Rle_trans; [|apply Rle_abs]. rewrite <- (rnd_fmt VFloat _ H). apply rnd_le. unfold u. lra.
Qed.

(** * Intervals *)
Lemma floor_le (x : val VFloat) : is_finite x = true -> Rabs (B2R x) <= 2000000 -> exists f, vfloor x = Ok f /\ IZR f <= B2R x.
Proof.
  intros F B. apply Rabs_le_inv in B. pose proof (Zfloor_lb (B2R x)) as L. pose proof (Zfloor_ub (B2R x)) as U. eexists. split; [apply vfloor_ok; auto|auto].
  assert (L' : (Zfloor (B2R x) <= 2000000)%Z) by (apply le_IZR; lra). assert (U' : (-2000002 < Zfloor (B2R x))%Z) by (apply lt_IZR; lra).
  unfold in_int, int_min, int_max. apply andb_true_iff. rewrite !Z.leb_le. lia.
Qed.
Lemma ceil_ge (x : val VFloat) : is_finite x = true -> Rabs (B2R x) <= 2000000 -> exists f, vceil x = Ok f /\ B2R x <= IZR f /\ (Z.abs f <= 2000002)%Z.
Proof.
  intros F B. apply Rabs_le_inv in B. pose proof (Zceil_ub (B2R x)) as L. pose proof (Zceil_lb (B2R x)) as U.
  assert (L' : (-2000000 <= Zceil (B2R x))%Z) by (apply le_IZR; lra). assert (U' : (Zceil (B2R x) < 2000002)%Z) by (apply lt_IZR; lra).
  eexists. split; [apply vceil_ok; auto|split; [auto|lia]]. unfold in_int, int_min, int_max. apply andb_true_iff. rewrite !Z.leb_le. lia.
Qed.
Definition ov (old new i s : Z) : bool := (s * new <? (i + 1) * old)%Z && (i * old <? (s + 1) * new)%Z.
Lemma ov_iff old new i s : (0 <= s < old)%Z -> ov old new i s = true <-> overlap old new i s.
Proof. intros S. unfold ov, overlap. rewrite andb_true_iff, !Z.ltb_lt. tauto. Qed.
Lemma support_ok : is_finite (fm_support default_width) = true /\ B2R (fm_support default_width) = / 2.
Proof. assert (E : fm_support default_width = vnum VFloat 1 (-1)) by (apply B2SF_inj; vm_compute; reflexivity). rewrite E. apply wh_ok. Qed.
Lemma interval_ok old new i : whole old new -> (0 <= i < new)%Z -> exists lo hi,
  fr_interval (cast VFloat (fm_centre i)) (fm_support default_width) (new >? old)%Z (fr_size old) (fr_size new) = Ok (lo, hi) /\ forall s, overlap old new i s -> (lo <= s <= hi)%Z.
Proof.
  intros (O & N & c & C & W) I. change (2 ^ 19)%Z with cap in *. destruct (pos_ok i) as (PF & PV); [unfold cap in *; lia|]. destruct support_ok as (UF & UV).
  set (p := cast VFloat (fm_centre i)) in *. set (h := fm_support default_width) in *. unfold fr_interval.
  assert (I0 : 0 <= IZR i) by (apply IZR_le; lia). assert (I1 : IZR i + 1 <= 524288) by (rewrite <- (plus_IZR _ 1); apply IZR_le; unfold cap in *; lia).
  assert (O0 : 1 <= IZR old <= 524288) by (split; apply IZR_le; unfold cap in *; lia). assert (N0 : 1 <= IZR new <= 524288) by (split; apply IZR_le; unfold cap in *; lia).
  assert (I2 : IZR i + 1 <= IZR new) by (rewrite <- (plus_IZR _ 1); apply IZR_le; lia).
  destruct (new >? old)%Z eqn:G.
  - apply Z.gtb_lt in G. assert (W' : (new = c * old)%Z) by nia.
    destruct (scaled_ok p new old N O PF) as (XF & XR); [right; rewrite PV, Rabs_pos_eq; lra|rewrite PV, Rabs_pos_eq; lra|]. set (x := vdiv (vmul p (fr_size new)) (fr_size old)) in *.
    rewrite PV in XR. assert (C1 : 1 <= IZR c) by (apply IZR_le; lia). set (k := / IZR c). assert (K0 : 0 < k) by (apply Rinv_0_lt_compat; lra). assert (KC : IZR c * k = 1) by (apply Rinv_r; lra).
    assert (WR : IZR new = IZR c * IZR old) by (rewrite <- mult_IZR; f_equal; auto).
    replace ((IZR i + / 2) * IZR old / IZR new) with (IZR i * k + k / 2) in XR by (rewrite WR; unfold k; field; lra).
    assert (T0 : 0 <= IZR i * k) by nra. assert (T1 : IZR i * k + k <= IZR old) by nra.
    assert (D : Rabs (B2R x - (IZR i * k + k / 2)) <= 7 * u * IZR old) by (apply rel_abs; [lra|auto|rewrite Rabs_pos_eq; lra]).
    assert (OK : IZR old <= 524288 * k) by nra. assert (D' : Rabs (B2R x - (IZR i * k + k / 2)) <= 7 / 32 * k) by (eapply Rle_trans; [exact D|]; unfold u; lra). apply Rabs_le_inv in D'.
    assert (KL : k <= 1) by nra.
    destruct (vsub_ok VFloat x h XF UF) as (SF & SV); [rewrite UV; apply (fits_le _ 2000000); [apply Rabs_le; lra|lia|discriminate]|].
    destruct (vadd_ok VFloat x h XF UF) as (AF & AV); [rewrite UV; apply (fits_le _ 2000000); [apply Rabs_le; lra|lia|discriminate]|].
    rewrite UV in SV, AV. assert (FM : forall z, (Z.abs z <= 1000000)%Z -> rnd VFloat (IZR z) = IZR z) by (intros z Hz; apply rnd_fmt, int_fmt; cbn [prec]; lia).
    assert (SB : -1 <= B2R (vsub x h) <= 1000000) by (rewrite SV; split; [rewrite <- (FM (-1)%Z) by lia|rewrite <- (FM 1000000%Z) by lia]; apply rnd_le; lra).
    assert (AB : -1 <= B2R (vadd x h) <= 1000000) by (rewrite AV; split; [rewrite <- (FM (-1)%Z) by lia|rewrite <- (FM 1000000%Z) by lia]; apply rnd_le; lra).
    destruct (floor_le (vsub x h) SF) as (lo & LO & LB); [apply Rabs_le; lra|]. destruct (ceil_ge (vadd x h) AF) as (hi & HI & HB & HR); [apply Rabs_le; lra|].
    exists lo, (hi - 1)%Z. rewrite LO, HI. cbn [bind]. unfold i32. replace (in_int (hi - 1)) with true by (symmetry; unfold in_int, int_min, int_max; apply andb_true_iff; rewrite !Z.leb_le; lia).
    split; auto. intros s (S & S1 & S2). subst new. assert (Q1 : (s * c <= i)%Z) by nia. assert (Q2 : (i + 1 <= (s + 1) * c)%Z) by nia.
    assert (R1 : IZR s * IZR c <= IZR i) by (rewrite <- mult_IZR; apply IZR_le; auto). assert (R2 : IZR i + 1 <= (IZR s + 1) * IZR c) by (apply IZR_le in Q2; rewrite mult_IZR, !plus_IZR in Q2; exact Q2).
    assert (V1 : IZR s <= IZR i * k) by nra. assert (V2 : IZR i * k + k <= IZR s + 1) by nra.
    assert (HS : vfmt VFloat (IZR s + / 2)) by (apply half_fmt; unfold cap in *; lia).
    split.
    + assert (B2R (vsub x h) <= IZR s + / 2) by (rewrite SV, <- (rnd_fmt VFloat _ HS); apply rnd_le; lra). assert (lo < s + 1)%Z by (apply lt_IZR; rewrite plus_IZR; lra). lia.
    + assert (IZR s + / 2 <= B2R (vadd x h)) by (rewrite AV, <- (rnd_fmt VFloat _ HS); apply rnd_le; lra). assert (s < hi)%Z by (apply lt_IZR; lra). lia.
  - rewrite Z.gtb_ltb in G. apply Z.ltb_ge in G. assert (W' : (old = c * new)%Z) by (destruct W as [W|W]; [auto|nia]).
    assert (PM : is_finite (vsub p h) = true /\ B2R (vsub p h) = IZR i).
    { destruct (vsub_ok VFloat p h PF UF) as (A & B); rewrite PV, UV in *; replace (IZR i + / 2 - / 2) with (IZR i) in * by lra; [apply (fits_le _ 2000000); [rewrite Rabs_pos_eq; lra|lia|discriminate]|].
      split; auto. rewrite B. apply rnd_fmt, int_fmt. cbn [prec]. unfold cap in *. lia. }
    assert (PP : is_finite (vadd p h) = true /\ B2R (vadd p h) = IZR i + 1).
    { destruct (vadd_ok VFloat p h PF UF) as (A & B); rewrite PV, UV in *; replace (IZR i + / 2 + / 2) with (IZR (i + 1)) in * by (rewrite plus_IZR; lra); [apply (fits_le _ 2000000); [rewrite plus_IZR, Rabs_pos_eq; lra|lia|discriminate]|].
      split; auto. rewrite B, <- (plus_IZR _ 1). apply rnd_fmt, int_fmt. cbn [prec]. unfold cap in *. lia. }
    destruct PM as (MF & MV). destruct PP as (QF & QV).
    destruct (scaled_ok (vsub p h) new old N O MF) as (XF & XR); [rewrite MV; destruct (Z.eq_dec i 0) as [->|NZ]; [left; auto|right; assert (1 <= IZR i) by (apply IZR_le; lia); rewrite Rabs_pos_eq; lra]|rewrite MV, Rabs_pos_eq; lra|].
    destruct (scaled_ok (vadd p h) new old N O QF) as (YF & YR); [right; rewrite QV, Rabs_pos_eq; lra|rewrite QV, Rabs_pos_eq; lra|].
    rewrite MV in XR. rewrite QV in YR. assert (WR : IZR old = IZR c * IZR new) by (rewrite <- mult_IZR; f_equal; auto). assert (C1 : 1 <= IZR c) by (apply IZR_le; lia).
    replace (IZR i * IZR old / IZR new) with (IZR i * IZR c) in XR by (rewrite WR; field; lra). replace ((IZR i + 1) * IZR old / IZR new) with ((IZR i + 1) * IZR c) in YR by (rewrite WR; field; lra).
    assert (B1 : (IZR i + 1) * IZR c <= 524288) by nra. assert (B0 : 0 <= IZR i * IZR c) by nra.
    apply (rel_abs 7 _ _ 524288) in XR; [|lra|rewrite Rabs_pos_eq; lra]. apply (rel_abs 7 _ _ 524288) in YR; [|lra|rewrite Rabs_pos_eq; lra].
    unfold u in XR, YR. apply Rabs_le_inv in XR, YR.
    destruct (floor_le _ XF) as (lo & LO & LB); [apply Rabs_le; lra|]. destruct (ceil_ge _ YF) as (hi & HI & HB & HR); [apply Rabs_le; lra|].
    exists lo, hi. rewrite LO, HI. cbn [bind]. split; auto. intros s (S & S1 & S2). subst old.
    assert (Q1 : (s + 1 <= (i + 1) * c)%Z) by nia. assert (Q2 : (i * c <= s)%Z) by nia.
    assert (IZR s + 1 <= (IZR i + 1) * IZR c) by (apply IZR_le in Q1; rewrite mult_IZR, !plus_IZR in Q1; exact Q1). assert (IZR i * IZR c <= IZR s) by (rewrite <- mult_IZR; apply IZR_le; auto).
    split; [assert (lo < s + 1)%Z by (apply lt_IZR; rewrite plus_IZR; lra); lia|]. assert (s < hi)%Z by (apply lt_IZR; lra). lia.
Qed.
Lemma taps_ok old new i : whole old new -> (0 <= i < new)%Z -> exists lo hi,
  fr_taps old new i = Ok (map (fun s => (s, if ov old new i s then w1 else zero32)) (zrange (Z.max lo 0) (Z.min hi (old - 1)))) /\ forall s, overlap old new i s -> (lo <= s <= hi)%Z.
Proof.
  intros W I. destruct (interval_ok old new i W I) as (lo & hi & E & H). exists lo, hi. split; auto. unfold fr_taps. rewrite E. cbn [bind]. f_equal. apply map_ext_in. intros s S. apply in_zrange in S.
  f_equal. destruct W as (O & N & c & C & W). change (2 ^ 19)%Z with cap in *. change default_width with w1. unfold fr_dist.
  assert (S' : (0 <= s < old)%Z) by lia. destruct (pos_ok i) as (PF & PV); [unfold cap in *; lia|]. destruct (pos_ok s) as (QF & QV); [unfold cap in *; lia|].
  assert (P0 : forall z, (0 <= z < cap)%Z -> / 4 <= Rabs (IZR z + / 2) <= 1000000).
  { intros z Hz. assert (0 <= IZR z <= 524288) by (split; apply IZR_le; unfold cap in *; lia). rewrite Rabs_pos_eq; lra. }
  assert (C0 : IZR c <> 0) by (apply IZR_neq; lia). assert (O0 : IZR old <> 0) by (apply IZR_neq; lia). assert (N0 : IZR new <> 0) by (apply IZR_neq; lia).
  destruct (new >? old)%Z eqn:G.
  - apply Z.gtb_lt in G. assert (W' : (new = c * old)%Z) by nia. destruct (P0 i) as (P1 & P2); [lia|].
    destruct (scaled_ok (cast VFloat (fm_centre i)) new old N O PF) as (XF & XR); [right; rewrite PV; auto|rewrite PV; auto|]. rewrite PV in XR.
    assert (WR : IZR new = IZR c * IZR old) by (rewrite <- mult_IZR; f_equal; auto).
    replace ((IZR i + / 2) * IZR old / IZR new) with ((IZR i + / 2) / IZR c) in XR by (rewrite WR; field; auto).
    rewrite (hit _ old c s i) by (auto; lia). replace (ov old new i s) with (i / c =? s)%Z; auto. unfold ov. subst new. apply eq_true_iff_eq. rewrite andb_true_iff, !Z.ltb_lt, Z.eqb_eq.
    pose proof (Z.div_mod i c ltac:(lia)). pose proof (Z.mod_pos_bound i c ltac:(lia)). split; intros; [subst s; nia|]. assert (s * c < i + 1)%Z by nia. assert (i < (s + 1) * c)%Z by nia. nia.
  - rewrite Z.gtb_ltb in G. apply Z.ltb_ge in G. assert (W' : (old = c * new)%Z) by (destruct W as [W|W]; [auto|nia]). destruct (P0 s) as (P1 & P2); [lia|].
    destruct (scaled_ok (cast VFloat (fm_centre s)) old new O N QF) as (XF & XR); [right; rewrite QV; auto|rewrite QV; auto|]. rewrite QV in XR.
    assert (WR : IZR old = IZR c * IZR new) by (rewrite <- mult_IZR; f_equal; auto).
    replace ((IZR s + / 2) * IZR new / IZR old) with ((IZR s + / 2) / IZR c) in XR by (rewrite WR; field; auto).
    rewrite (hit _ new c i s) by (auto; lia). replace (ov old new i s) with (s / c =? i)%Z; auto. unfold ov. subst old. apply eq_true_iff_eq. rewrite andb_true_iff, !Z.ltb_lt, Z.eqb_eq.
    pose proof (Z.div_mod s c ltac:(lia)). pose proof (Z.mod_pos_bound s c ltac:(lia)). split; intros; [subst i; nia|]. assert (s < (i + 1) * c)%Z by nia. assert (i * c < s + 1)%Z by nia. nia.
Qed.
