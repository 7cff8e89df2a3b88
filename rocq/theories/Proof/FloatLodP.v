(** Proofs about interpolation in MIP fields in floating point. *)
From Coq Require Import ZArith Reals List Bool Lia Lra Psatz.
From Flocq Require Import Core BinarySingleNaN Relative Sterbenz.
From Verif Require Import Model.Base Model.MipMapM Model.VecM Model.FloatM Model.FloatMipM Model.FloatCurveM Model.FloatLodM.
From Verif Require Import Spec.VoxelSpec Spec.InterpSpec Spec.FloatSpec Spec.FloatCurveSpec Spec.FloatLodSpec.
From Verif Require Import Proof.BaseP Proof.FloatP Proof.FloatP2 Proof.FloatP3 Proof.FloatMipP Proof.FloatMipP2 Proof.FloatCurveP.
Import ListNotations.
Open Scope R_scope.

(** * Sizes and factors *)
Lemma num_fmt m e : vfmt VFloat (IZR m * bpow radix2 e) -> fits VFloat (IZR m * bpow radix2 e) ->
  is_finite (vnum VFloat m e) = true /\ B2R (vnum VFloat m e) = IZR m * bpow radix2 e.
Proof.
  intros F T. pose proof (binary_normalize_correct (prec VFloat) (emax VFloat) _ _ mode_NE m e false) as H.
  unfold F2R in H. cbn [Fnum Fexp] in H.
  replace (round radix2 (SpecFloat.fexp (prec VFloat) (emax VFloat)) (round_mode mode_NE) (IZR m * bpow radix2 e)) with (IZR m * bpow radix2 e) in H by (symmetry; apply (rnd_fmt VFloat); exact F).
  rewrite Rlt_bool_true in H; [destruct H as (A & B & _); split; [exact B|exact A]|].
  eapply Rle_lt_trans; [exact T|apply top_lt].
Qed.
Lemma pow_ok e : (-149 <= e <= 127)%Z -> is_finite (vnum VFloat 1 e) = true /\ B2R (vnum VFloat 1 e) = bpow radix2 e.
Proof.
  intros E. destruct (num_fmt 1 e) as (A & B).
  - apply dyadic; cbn [prec emax]; lia.
  - rewrite Rmult_1_l. unfold fits. rewrite Rabs_pos_eq by apply bpow_ge_0. apply Rle_trans with (bpow radix2 127); [apply bpow_le; lia|].
    rewrite top_f, p127. assert (bpow radix2 104 <= bpow radix2 127) by (apply bpow_le; lia). lra.
  - split; [exact A|]. rewrite B. ring.
Qed.
Lemma double_pow x i : vfmt VFloat x -> vfmt VFloat (x * 2 ^ i).
Proof.
  intros F. induction i as [|i IH]; [rewrite Rmult_1_r; exact F|].
  replace (x * 2 ^ S i) with (2 * (x * 2 ^ i)) by (cbn [pow]; ring). apply double_fmt. exact IH.
Qed.
Lemma side_le size i n : size_ok size n -> (i <= n)%nat -> 0 < side size i <= side size n.
Proof.
  intros (_ & P & _) L. unfold side. split; [apply Rmult_lt_0_compat; [auto|apply pow_lt; lra]|].
  apply Rmult_le_compat_l; [lra|]. apply Rle_pow; [lra|lia].
Qed.
Lemma pow_127 : 2 ^ 127 = bpow radix2 127.
Proof. rewrite pow_bp. reflexivity. Qed.
Lemma lod_size_ok size i n : size_ok size n -> (i <= n)%nat -> (i <= 127)%nat -> time_ok (lod_size size i) /\ B2R (lod_size size i) = side size i.
Proof.
  intros S L I. pose proof (side_le size i n S L) as (P & Q). destruct S as (F & S0 & S1).
  destruct (pow_ok (Z.of_nat i)) as (PF & PV); [lia|].
  assert (E : B2R size * B2R (vnum VFloat 1 (Z.of_nat i)) = side size i) by (rewrite PV; unfold side; rewrite pow_bp; reflexivity).
  destruct (vmul_ok VFloat size (vnum VFloat 1 (Z.of_nat i)) F PF) as (MF & MV).
  { rewrite E. unfold fits. rewrite Rabs_pos_eq by lra. rewrite pow_127 in S1.
    assert (bpow radix2 104 <= bpow radix2 127) by (apply bpow_le; lia). rewrite top_f, p127. lra. }
  assert (V : B2R (lod_size size i) = side size i).
  { unfold lod_size. rewrite MV, E. apply rnd_fmt. apply double_pow. apply vfmt_B2R. }
  split; [|exact V]. split; [exact MF|]. rewrite V. rewrite Rabs_pos_eq; lra.
Qed.
(** Twice a size minus the size, and a spot between them minus the size, are exact. *)
Lemma factor_exact m a b : time_ok m -> time_ok a -> time_ok b -> 0 < B2R a -> B2R b = 2 * B2R a -> B2R a <= B2R m <= B2R b ->
  is_finite (t_factor m a b) = true /\ B2R (t_factor m a b) = rnd VFloat ((B2R m - B2R a) / B2R a).
Proof.
  intros M A B A0 BA (L & U). destruct (vsub_ok VFloat b a (proj1 B) (proj1 A) (diff_fits _ _ B A)) as (DF & DV).
  destruct (vsub_ok VFloat m a (proj1 M) (proj1 A) (diff_fits _ _ M A)) as (NF & NV).
  set (d := vsub b a) in *. set (n := vsub m a) in *.
  replace (B2R b - B2R a) with (B2R a) in DV by lra. rewrite (rnd_fmt VFloat (B2R a) (vfmt_B2R _ a)) in DV.
  rewrite (rnd_fmt VFloat (B2R m - B2R a)) in NV.
  2: { unfold vfmt. change (SpecFloat.fexp (prec VFloat) (emax VFloat)) with (FLT_exp (-149) 24). apply sterbenz; try typeclasses eauto; [apply (vfmt_B2R VFloat m)|apply (vfmt_B2R VFloat a)|lra]. }
  assert (Q01 : 0 <= B2R n / B2R d <= 1).
  { rewrite NV, DV. split; [apply Rmult_le_pos; [lra|apply Rlt_le, Rinv_0_lt_compat; auto]|]. apply Rmult_le_reg_r with (B2R a); auto. unfold Rdiv. rewrite Rmult_assoc, Rinv_l by lra. lra. }
  assert (K : t_factor m a b = vdiv n d).
  { unfold t_factor. fold d n. destruct one_f as (OF & OV). destruct max_ok as (MF & MV).
    rewrite Bltb_correct by (rewrite ?is_finite_Babs; auto). rewrite OV, abs_pos by lra.
    destruct (Rlt_bool_spec 1 (B2R d)) as [G|G]; [reflexivity|]. cbn [orb].
    assert (T2 : 2 <= top VFloat).
    { rewrite top_f. change 128%Z with (24 + 104)%Z. rewrite bpow_plus. change (bpow radix2 24) with 16777216. assert (1 <= bpow radix2 104) by (change 1 with (bpow radix2 0); apply bpow_le; lia). lra. }
    destruct (vmul_ok VFloat time_max (Babs d) MF) as (PF & PV).
    { rewrite is_finite_Babs. auto. }
    { unfold fits. rewrite MV, abs_pos by lra. rewrite Rabs_pos_eq; [|apply Rmult_le_pos; lra]. nra. }
    rewrite Bltb_correct by (rewrite ?is_finite_Babs; auto). rewrite abs_pos by lra. rewrite PV, MV, abs_pos by lra.
    rewrite Rlt_bool_true; [reflexivity|]. apply Rlt_le_trans with (2 * B2R d); [lra|].
    rewrite <- (rnd_fmt VFloat (2 * B2R d)) by (apply double_fmt, vfmt_B2R). apply rnd_le. apply Rmult_le_compat_r; lra. }
  rewrite K. destruct (vdiv_ok VFloat n d NF) as (RF & RV); [lra| |].
  { apply (fits_le _ 1); [rewrite Rabs_pos_eq; lra|lia|discriminate]. }
  split; [exact RF|]. rewrite RV, NV, DV. reflexivity.
Qed.

Lemma between_none size spot n : is_finite spot = true -> size_ok size n -> (n <= 127)%nat -> side size n < B2R spot ->
  forall k i, (i + k <= S n)%nat -> lod_between size spot i k = None.
Proof.
  intros T S N L. induction k as [|k IH]; intros i I; [reflexivity|]. cbn [lod_between].
  destruct (lod_size_ok size i n S) as ((SF & _) & SV); [lia|lia|]. rewrite Bleb_correct by auto.
  rewrite SV. pose proof (side_le size i n S ltac:(lia)). rewrite Rle_bool_false by lra. apply IH. lia.
Qed.
Lemma between_at size spot n j : is_finite spot = true -> size_ok size n -> (n <= 127)%nat -> (j < n)%nat -> side size j < B2R spot <= side size (S j) ->
  forall k i, (1 <= i)%nat -> (i <= S j)%nat -> (S j < i + k)%nat ->
  lod_between size spot i k = Some (Lod j (S j) (t_factor spot (lod_size size j) (lod_size size (S j)))).
Proof.
  intros T S N J (L & U). induction k as [|k IH]; intros i I1 I2 I3; [lia|]. cbn [lod_between].
  destruct (lod_size_ok size i n S) as ((SF & _) & SV); [lia|lia|]. rewrite Bleb_correct by auto. rewrite SV.
  destruct (Nat.eq_dec i (Datatypes.S j)) as [->|NE].
  - rewrite Rle_bool_true by lra. replace (Datatypes.S j - 1)%nat with j by lia. reflexivity.
  - assert (S' : size_ok size j).
    { destruct S as (F & S0 & S1). split; [auto|]. split; [auto|]. eapply Rle_lt_trans; [|exact S1]. apply side_le; [repeat split; auto|lia]. }
    pose proof (side_le size i j S' ltac:(lia)). rewrite Rle_bool_false by lra. apply IH; lia.
Qed.

Theorem info_low size n spot : is_finite spot = true -> size_ok size n -> (n <= 127)%nat -> B2R spot <= side size 0 ->
  lod_lower (lod_info size (S n) spot) = 0%nat /\ lod_upper (lod_info size (S n) spot) = 0%nat.
Proof.
  intros F S N L. unfold lod_info. destruct (lod_size_ok size 0 n S) as ((SF & _) & SV); [lia|lia|].
  rewrite Bleb_correct, SV, Rle_bool_true by auto. auto.
Qed.
Theorem info_high size n spot : is_finite spot = true -> size_ok size n -> (n <= 127)%nat -> side size n < B2R spot ->
  lod_lower (lod_info size (S n) spot) = n /\ lod_upper (lod_info size (S n) spot) = n.
Proof.
  intros F S N L. unfold lod_info. destruct (lod_size_ok size 0 n S) as ((SF & _) & SV); [lia|lia|].
  pose proof (side_le size 0 n S ltac:(lia)). rewrite Bleb_correct, SV, Rle_bool_false by (auto; lra).
  cbn [Nat.sub]. rewrite Nat.sub_0_r, (between_none size spot n) by (auto; lia). auto.
Qed.
Theorem info_mid size n spot j : is_finite spot = true -> size_ok size n -> (n <= 127)%nat -> (j < n)%nat -> side size j < B2R spot <= side size (S j) ->
  let i := lod_info size (S n) spot in
  lod_lower i = j /\ lod_upper i = S j /\ is_finite (lod_t i) = true /\ B2R (lod_t i) = rnd VFloat ((B2R spot - side size j) / side size j).
Proof.
  intros F S N J L. unfold lod_info. destruct (lod_size_ok size 0 n S) as ((SF & _) & SV); [lia|lia|].
  assert (S' : size_ok size j).
  { destruct S as (F' & S0 & S1). split; [auto|]. split; [auto|]. eapply Rle_lt_trans; [|exact S1]. apply side_le; [repeat split; auto|lia]. }
  pose proof (side_le size 0 j S' ltac:(lia)). rewrite Bleb_correct, SV, Rle_bool_false by (auto; lra).
  cbn [Nat.sub]. rewrite Nat.sub_0_r, (between_at size spot n j) by (auto; lia). cbn [lod_lower lod_upper lod_t].
  destruct (lod_size_ok size j n S) as (TA & VA); [lia|lia|]. destruct (lod_size_ok size (Datatypes.S j) n S) as (TB & VB); [lia|lia|].
  pose proof (side_le size (Datatypes.S j) n S ltac:(lia)) as Q. destruct S as (F' & S0 & S1).
  destruct (factor_exact spot (lod_size size j) (lod_size size (Datatypes.S j))) as (P1 & P2); auto.
  - split; auto. rewrite Rabs_pos_eq by lra. lra.
  - rewrite VA. lra.
  - rewrite VA, VB. unfold side. cbn [pow]. ring.
  - rewrite VA, VB. lra.
  - rewrite VA in P2. auto.
Qed.
Lemma factor_range u v : 0 < u -> u < v <= 2 * u ->
  0 <= rnd VFloat ((v - u) / u) <= 1 /\ Rabs (rnd VFloat ((v - u) / u) - (v - u) / u) <= (v - u) / u / 2 ^ 24 + / 2 ^ 150 /\
  (v = 2 * u -> rnd VFloat ((v - u) / u) = 1).
Proof.
  intros U V. assert (T : 0 <= (v - u) / u <= 1).
  { split; [apply Rmult_le_pos; [lra|apply Rlt_le, Rinv_0_lt_compat; auto]|]. apply Rmult_le_reg_r with u; auto. unfold Rdiv. rewrite Rmult_assoc, Rinv_l by lra. lra. }
  assert (O : rnd VFloat 1 = 1) by (apply rnd_fmt, (int_fmt VFloat 1); cbn; lia).
  split; [split; [rewrite <- (rnd_0 VFloat); apply rnd_le; lra|rewrite <- O; apply rnd_le; lra]|]. split.
  - pose proof (rnd_err VFloat ((v - u) / u)) as E. rewrite unit_f in E. rewrite (Rabs_pos_eq ((v - u) / u)) in E by lra.
    change (tiny VFloat) with (bpow radix2 (-150)) in E. rewrite inv_pow_bpow. change (- Z.of_nat 150)%Z with (-150)%Z.
    replace ((v - u) / u / 2 ^ 24) with (c24 * ((v - u) / u)) by (unfold c24; field; lra). exact E.
  - intros ->. replace ((2 * u - u) / u) with 1 by (field; lra). exact O.
Qed.

(** * Positions *)
Lemma fits_bp x : Rabs x <= bpow radix2 127 -> fits VFloat x.
Proof. intros H. unfold fits. rewrite top_f, p127. assert (bpow radix2 104 <= bpow radix2 127) by (apply bpow_le; lia). lra. Qed.
Lemma int_num m : (Z.abs m <= 2 ^ 30)%Z -> is_finite (vnum VFloat m 0) = true /\ B2R (vnum VFloat m 0) = rnd VFloat (IZR m).
Proof.
  intros M. pose proof (binary_normalize_correct (prec VFloat) (emax VFloat) _ _ mode_NE m 0 false) as H. cbv zeta in H.
  assert (V : F2R (Float radix2 m 0) = IZR m) by (unfold F2R; cbn; ring). rewrite V in H.
  rewrite (fits_bool VFloat) in H; [destruct H as (A & B & _); split; [exact B|exact A]|].
  apply (fits_le _ (2 ^ 30)); [rewrite <- abs_IZR; apply IZR_le; auto|lia|discriminate].
Qed.
Lemma shift_range off l : (Z.abs off < 2 ^ 30)%Z -> (0 <= l <= 30)%Z -> (- 2 ^ l < mip_shift off l <= 0)%Z /\ (Z.abs (mip_shift off l) <= 2 ^ 30)%Z.
Proof.
  intros O L. unfold mip_shift. rewrite Z.shiftr_div_pow2, Z.shiftl_mul_pow2 by lia.
  assert (P : (0 < 2 ^ l)%Z) by (apply Z.pow_pos_nonneg; lia). assert (Q : (2 ^ l <= 2 ^ 30)%Z) by (apply Z.pow_le_mono_r; lia).
  pose proof (Z.div_mod off (2 ^ l)). pose proof (Z.mod_pos_bound off (2 ^ l) P). lia.
Qed.
Lemma rnd_bp t x e : (3 - emax t - prec t <= e)%Z -> Rabs x <= bpow radix2 e -> Rabs (rnd t x) <= bpow radix2 e.
Proof.
  intros E H. assert (F : vfmt t (bpow radix2 e)) by (rewrite <- (Rmult_1_l (bpow radix2 e)); apply dyadic; [destruct t; cbn; lia|auto]).
  apply abs_round_le_generic; auto; typeclasses eauto.
Qed.
Lemma widen_any (x : time) : is_finite x = true -> is_finite (cast VDouble x) = true /\ B2R (cast VDouble x) = B2R x.
Proof.
  intros F. destruct (cast_ok VFloat VDouble x F) as (P & Q).
  { unfold fits. eapply Rle_trans; [apply (top_ge VFloat)|]. rewrite top_f. unfold top. cbn [emax prec].
    assert (bpow radix2 128 + bpow radix2 971 <= bpow radix2 1024).
    { replace (bpow radix2 1024) with (bpow radix2 53 * bpow radix2 971) by (rewrite <- bpow_plus; reflexivity).
      assert (bpow radix2 128 <= bpow radix2 971) by (apply bpow_le; lia). assert (2 <= bpow radix2 53) by (change 2 with (bpow radix2 1); apply bpow_le; lia). pose proof (bpow_gt_0 radix2 971). nra. }
    pose proof (bpow_gt_0 radix2 104). change (1024 - 53)%Z with 971%Z. lra. }
  split; [exact P|]. rewrite Q. apply rnd_fmt. apply (incl 24 53 (-149) (-1074)); [lia|lia|]. apply (vfmt_B2R VFloat x).
Qed.
Lemma bp30 : bpow radix2 30 = 2 ^ 30.
Proof. rewrite pow_bp. reflexivity. Qed.
Lemma coord_val off l x : place_ok x -> (Z.abs off < 2 ^ 30)%Z -> (l <= 30)%nat ->
  is_finite (lod_coord off l x) = true /\ Rabs (B2R (lod_coord off l x)) <= 2 ^ 30 /\
  B2R (lod_coord off l x) = rnd VFloat (rnd VFloat (rnd VFloat (B2R x) - rnd VFloat (IZR (mip_shift off (Z.of_nat l)))) * bpow radix2 (- Z.of_nat l)).
Proof.
  intros (F & X) O L. rewrite <- bp30 in X |- *. destruct (shift_range off (Z.of_nat l) O ltac:(lia)) as (SR & SA). set (s := mip_shift off (Z.of_nat l)) in *.
  assert (B127 : forall e, (e <= 127)%Z -> bpow radix2 e <= bpow radix2 127) by (intros; apply bpow_le; lia).
  destruct (cast_ok VDouble VFloat (x : val VDouble) F) as (CF & CV); [apply fits_bp; eapply Rle_trans; [exact X|apply B127; lia]|].
  assert (C1 : Rabs (rnd VFloat (B2R x)) <= bpow radix2 30) by (apply rnd_bp; [cbn; lia|exact X]).
  destruct (int_num s SA) as (NF & NV).
  assert (N1 : Rabs (rnd VFloat (IZR s)) <= bpow radix2 (Z.of_nat l)).
  { apply rnd_bp; [cbn; lia|]. rewrite <- abs_IZR, <- (IZR_Zpower radix2) by lia. apply IZR_le. change (Zpower radix2 (Z.of_nat l)) with (2 ^ Z.of_nat l)%Z. lia. }
  assert (D1 : Rabs (rnd VFloat (B2R x) - rnd VFloat (IZR s)) <= bpow radix2 (30 + Z.of_nat l)).
  { destruct l as [|l].
    - assert (s = 0)%Z as -> by (cbn in SR; lia). rewrite rnd_0, Rminus_0_r. rewrite Z.add_0_r. exact C1.
    - eapply Rle_trans; [apply Rabs_triang|]. rewrite Rabs_Ropp. apply Rle_trans with (bpow radix2 30 + bpow radix2 30).
      + apply Rplus_le_compat; [exact C1|]. eapply Rle_trans; [exact N1|]. apply bpow_le. lia.
      + replace (bpow radix2 30 + bpow radix2 30) with (bpow radix2 31) by (change 31%Z with (1 + 30)%Z; rewrite bpow_plus; change (bpow radix2 1) with 2; ring). apply bpow_le. lia. }
  destruct (vsub_ok VFloat (cast VFloat (x : val VDouble)) (vnum VFloat s 0) CF NF) as (DF & DV).
  { rewrite CV, NV. apply fits_bp. eapply Rle_trans; [exact D1|]. apply B127. lia. }
  rewrite CV, NV in DV. destruct (pow_ok (- Z.of_nat l)) as (PF & PV); [lia|].
  assert (M1 : Rabs (rnd VFloat (rnd VFloat (B2R x) - rnd VFloat (IZR s)) * bpow radix2 (- Z.of_nat l)) <= bpow radix2 30).
  { rewrite Rabs_mult, (Rabs_pos_eq (bpow radix2 _)) by apply bpow_ge_0.
    replace (bpow radix2 30) with (bpow radix2 (30 + Z.of_nat l) * bpow radix2 (- Z.of_nat l)) by (rewrite <- bpow_plus; f_equal; lia).
    apply Rmult_le_compat_r; [apply bpow_ge_0|]. apply rnd_bp; [cbn [emax prec]; lia|exact D1]. }
  destruct (vmul_ok VFloat (vsub (cast VFloat (x : val VDouble)) (vnum VFloat s 0)) (vnum VFloat 1 (- Z.of_nat l)) DF PF) as (MF & MV).
  { rewrite DV, PV. apply fits_bp. eapply Rle_trans; [exact M1|]. apply B127. lia. }
  rewrite DV, PV in MV. destruct (widen_any _ MF) as (WF & WV). unfold lod_coord. fold s. split; [exact WF|].
  assert (V : B2R (cast VDouble (vmul (vsub (cast VFloat (x : val VDouble)) (vnum VFloat s 0)) (vnum VFloat 1 (- Z.of_nat l)) : val VFloat))
    = rnd VFloat (rnd VFloat (rnd VFloat (B2R x) - rnd VFloat (IZR s)) * bpow radix2 (- Z.of_nat l))) by (eapply eq_trans; [exact WV|exact MV]).
  split; [|exact V]. eapply Rle_trans; [apply Req_le, f_equal; exact V|]. apply rnd_bp; [cbn; lia|exact M1].
Qed.
Lemma coord_err off l x : place_ok x -> (Z.abs off < 2 ^ 30)%Z -> (l <= 24)%nat ->
  let s := IZR (mip_shift off (Z.of_nat l)) in
  Rabs (B2R (lod_coord off l x) - (B2R x - s) / 2 ^ l) <= (Rabs (B2R x) + Rabs (B2R x - s)) / 2 ^ l / 2 ^ 22 + / 2 ^ 148.
Proof.
  intros X O L. destruct (coord_val off l x X O ltac:(lia)) as (_ & _ & V). intros s. rewrite V. destruct (shift_range off (Z.of_nat l) O ltac:(lia)) as (SR & _). fold s.
  assert (E24 : rnd VFloat s = s).
  { apply rnd_fmt, int_fmt. cbn [prec]. assert (2 ^ Z.of_nat l <= 2 ^ 24)%Z by (apply Z.pow_le_mono_r; lia). lia. }
  rewrite E24. set (v := B2R x) in *. assert (FS : vfmt VFloat s) by (rewrite <- E24; apply rnd_is).
  pose proof (rnd_err VFloat v) as E1. destruct (sub_rel (rnd VFloat v) s (rnd_is VFloat v) FS) as (e & E2 & V2).
  rewrite V2. set (v1 := rnd VFloat v) in *. set (k := bpow radix2 (-150)). change (tiny VFloat) with k in E1. rewrite unit_f in E1.
  set (b := bpow radix2 (- Z.of_nat l)). assert (B1 : 0 < b <= 1) by (split; [apply bpow_gt_0|change 1 with (bpow radix2 0); apply bpow_le; lia]).
  assert (BV : / 2 ^ l = b) by (unfold b; apply inv_pow_bpow).
  pose proof (rnd_err VFloat ((v1 - s) * (1 + e) * b)) as E3. change (tiny VFloat) with k in E3. rewrite unit_f in E3.
  set (y := rnd VFloat ((v1 - s) * (1 + e) * b)) in *.
  replace ((v - s) / 2 ^ l) with ((v - s) * b) by (rewrite <- BV; reflexivity).
  replace ((Rabs v + Rabs (v - s)) / 2 ^ l / 2 ^ 22) with (4 * c24 * ((Rabs v + Rabs (v - s)) * b)) by (rewrite <- BV; unfold c24, Rdiv; field; apply pow_nonzero; lra).
  replace (/ 2 ^ 148) with (4 * k) by (unfold k; rewrite inv_pow_bpow; change 4 with (bpow radix2 2); rewrite <- bpow_plus; reflexivity).
  assert (K0 : 0 < k) by apply bpow_gt_0. pose proof (Rabs_pos v) as V0. pose proof (Rabs_pos (v - s)) as S0.
  assert (A1 : Rabs (v1 - s) <= Rabs (v - s) + c24 * Rabs v + k).
  { replace (v1 - s) with ((v - s) + (v1 - v)) by ring. eapply Rle_trans; [apply Rabs_triang|]. lra. }
  assert (A2 : Rabs ((v1 - s) * e) <= (Rabs (v - s) + c24 * Rabs v + k) * c24) by (rewrite Rabs_mult; apply Rmult_le_compat; auto; apply Rabs_pos).
  assert (A3 : Rabs ((v1 - s) * (1 + e) * b) <= (Rabs (v - s) + c24 * Rabs v + k) * (1 + c24) * b).
  { rewrite !Rabs_mult, (Rabs_pos_eq b) by lra. apply Rmult_le_compat_r; [lra|]. apply Rmult_le_compat; auto; try apply Rabs_pos.
    eapply Rle_trans; [apply Rabs_triang|]. rewrite Rabs_R1. lra. }
  replace (y - (v - s) * b) with ((y - (v1 - s) * (1 + e) * b) + ((v1 - v) + (v1 - s) * e) * b) by ring.
  eapply Rle_trans; [apply Rabs_triang|]. rewrite (Rabs_mult _ b), (Rabs_pos_eq b) by lra.
  assert (A4 : Rabs ((v1 - v) + (v1 - s) * e) * b <= (c24 * Rabs v + k + (Rabs (v - s) + c24 * Rabs v + k) * c24) * b).
  { apply Rmult_le_compat_r; [lra|]. eapply Rle_trans; [apply Rabs_triang|]. lra. }
  assert (A5 : c24 * Rabs ((v1 - s) * (1 + e) * b) <= c24 * ((Rabs (v - s) + c24 * Rabs v + k) * (1 + c24) * b)) by (apply Rmult_le_compat_l; [unfold c24; lra|exact A3]).
  assert (KB : 0 <= k * b <= k) by nra. assert (VB : 0 <= Rabs v * b) by nra. assert (SB : 0 <= Rabs (v - s) * b) by nra.
  set (P := Rabs v) in *. set (Q := Rabs (v - s)) in *. unfold c24 in *. nra.
Qed.

(** * Mixing two levels *)
Definition mix c (s z u w : R) : R := rnd c (rnd c (u * s) + rnd c (w * z)).
Lemma mix_mono c s z u w u' w' : 0 <= s -> 0 <= z -> u <= u' -> w <= w' -> mix c s z u w <= mix c s z u' w'.
Proof. intros S Z U W. apply rnd_le, Rplus_le_compat; apply rnd_le, Rmult_le_compat_r; auto. Qed.
Lemma mix_opp c s z u w : mix c s z (- u) (- w) = - mix c s z u w.
Proof. unfold mix. rewrite !Ropp_mult_distr_l_reverse, !rnd_opp, <- Ropp_plus_distr. apply rnd_opp. Qed.
Definition wander (M : R) : R := 7 / 2 * c24 * Rabs M + 7 / 2 * bpow radix2 (-150).
Lemma mix_same c s z M : c <> VHalf -> 0 <= s <= 1 -> 0 <= z <= 1 -> Rabs (s + z - 1) <= c24 -> Rabs (mix c s z M M - M) <= wander M.
Proof.
  intros N S Z T. destruct (unit_le c N) as (U0 & U1). destruct (tiny_le c N) as (K0 & K1). unfold mix, wander. set (k := bpow radix2 (-150)) in *.
  assert (E : forall x, Rabs (rnd c x - x) <= c24 * Rabs x + k) by (intros x; eapply Rle_trans; [apply rnd_err|]; pose proof (Rabs_pos x); nra).
  pose proof (E (M * s)) as P. pose proof (E (M * z)) as Q. set (p := rnd c (M * s)) in *. set (q := rnd c (M * z)) in *. pose proof (E (p + q)) as R. set (r := rnd c (p + q)) in *.
  rewrite Rabs_mult in P, Q. rewrite (Rabs_pos_eq s) in P by lra. rewrite (Rabs_pos_eq z) in Q by lra. pose proof (Rabs_pos M) as M0.
  assert (MT : Rabs (M * (s + z - 1)) <= Rabs M * c24) by (rewrite Rabs_mult; apply Rmult_le_compat_l; auto).
  assert (D : Rabs (p + q - M) <= c24 * (Rabs M * (s + z)) + 2 * k + Rabs M * c24).
  { replace (p + q - M) with ((p - M * s) + (q - M * z) + M * (s + z - 1)) by ring. eapply Rle_trans; [apply Rabs_triang|]. apply Rplus_le_compat; [|exact MT].
    eapply Rle_trans; [apply Rabs_triang|]. lra. }
  assert (ST : s + z <= 1 + c24) by (apply Rabs_le_inv in T; lra).
  assert (MS : Rabs M * (s + z) <= Rabs M * (1 + c24)) by (apply Rmult_le_compat_l; auto).
  assert (D' : Rabs (p + q) <= Rabs M + Rabs (p + q - M)) by (replace (p + q) with (M + (p + q - M)) at 1 by ring; apply Rabs_triang).
  replace (r - M) with ((r - (p + q)) + (p + q - M)) by ring. eapply Rle_trans; [apply Rabs_triang|].
  assert (KK : 0 < k) by apply bpow_gt_0. unfold c24 in *. set (a := Rabs M) in *. set (d := Rabs (p + q - M)) in *. set (g := Rabs (p + q)) in *. set (m := a * (s + z)) in *. lra.
Qed.
Lemma mix_le c s z u w M : c <> VHalf -> 0 <= s <= 1 -> 0 <= z <= 1 -> Rabs (s + z - 1) <= c24 -> u <= M -> w <= M -> mix c s z u w <= M + wander M.
Proof.
  intros N S Z T U W. eapply Rle_trans; [apply (mix_mono c s z u w M M); lra|]. pose proof (mix_same c s z M N S Z T) as H. apply Rabs_le_inv in H. lra.
Qed.
Lemma mix_ge c s z u w M : c <> VHalf -> 0 <= s <= 1 -> 0 <= z <= 1 -> Rabs (s + z - 1) <= c24 -> M <= u -> M <= w -> M - wander M <= mix c s z u w.
Proof.
  intros N S Z T U W. pose proof (mix_le c s z (- u) (- w) (- M) N S Z T ltac:(lra) ltac:(lra)) as H. rewrite mix_opp in H. unfold wander in *. rewrite Rabs_Ropp in H. lra.
Qed.
Lemma gap16 M : generic_format radix2 (FLT_exp (-24) 11) M -> wander M < (succ radix2 (FLT_exp (-24) 11) M - M) / 2.
Proof.
  intros F. set (fx := FLT_exp (-24) 11) in *. set (g := succ radix2 fx M - M). set (e := bpow radix2 (-11)). set (h := bpow radix2 (-24)).
  assert (He : e = / 2048) by (unfold e; cbn; lra).
  assert (G : h <= g /\ (Rabs M - g) * e < g).
  { assert (U : forall y, h <= ulp radix2 fx y /\ Rabs y * e < ulp radix2 fx y).
    { intros y. split; [|apply (ulp_FLT_gt radix2 (-24) 11)]. unfold h. rewrite <- (ulp_FLT_0 radix2 (-24) 11). apply ulp_ge_ulp_0; typeclasses eauto. }
    destruct (Rle_lt_dec 0 M) as [P|N].
    - unfold g. rewrite succ_eq_pos by auto. replace (M + ulp radix2 fx M - M) with (ulp radix2 fx M) by ring. destruct (U M) as (U1 & U2). split; auto.
      assert (0 < h) by apply bpow_gt_0. assert (0 < e) by apply bpow_gt_0. nra.
    - set (y := - M). assert (Y : 0 < y) by (unfold y; lra). assert (FY : generic_format radix2 fx y) by (apply generic_format_opp; auto).
      pose proof (pred_plus_ulp radix2 fx y Y FY) as Q. pose proof (pred_ge_0 radix2 fx y Y FY) as Q0. destruct (U (pred radix2 fx y)) as (U1 & U2).
      assert (Eg : g = ulp radix2 fx (pred radix2 fx y)).
      { unfold g. replace M with (- y) by (unfold y; ring). rewrite succ_opp. lra. }
      rewrite Rabs_pos_eq in U2 by auto. rewrite Eg, Rabs_left by auto. split; auto. fold y.
      replace (y - ulp radix2 fx (pred radix2 fx y)) with (pred radix2 fx y) by lra. auto. }
  destruct G as (G1 & G2). unfold wander. destruct tiny_f as (K0 & K1). set (k := bpow radix2 (-150)) in *.
  assert (Hh : h = c24) by reflexivity. rewrite He, Hh in *. unfold c24 in *. pose proof (Rabs_pos M). lra.
Qed.
Lemma half_le M y : vfmt VHalf M -> y <= M + wander M -> rnd VHalf y <= M.
Proof. intros F H. apply round_N_le_midp; [typeclasses eauto|exact F|]. pose proof (gap16 M F) as G. change (fx VHalf) with (FLT_exp (-24) 11). lra. Qed.
Lemma half_ge M y : vfmt VHalf M -> M - wander M <= y -> M <= rnd VHalf y.
Proof.
  intros F H. assert (L : rnd VHalf (- y) <= - M); [|rewrite rnd_opp in L; lra]. apply half_le; [apply generic_format_opp; auto|].
  unfold wander in *. rewrite Rabs_Ropp. lra.
Qed.
(** The sample of a level. *)
Definition level_ok {t} (v : val t) : Prop :=
  is_finite v = true /\ match t with VHalf => True | VFloat => Rabs (B2R v) < 2 ^ 127 | VDouble => Rabs (B2R v) < 2 ^ 1023 end.
Lemma lod_lerp_ok t (a b : val t) (x : time) : level_ok a -> level_ok b -> is_finite x = true -> 0 <= B2R x <= 1 ->
  let s := rnd VFloat (1 - B2R x) in 0 <= s <= 1 /\ Rabs (s + B2R x - 1) <= c24 /\ (B2R x = 0 -> s = 1) /\
    is_finite (lod_lerp a b x) = true /\ B2R (lod_lerp a b x) = rnd t (mix (ct t) s (B2R x) (B2R a) (B2R b)).
Proof.
  intros A B F H s. destruct t.
  - destruct A as (FA & _), B as (FB & _). destruct (up_ok VHalf a FA) as (UA & VA). destruct (up_ok VHalf b FB) as (UB & VB). cbn [ct] in UA, VA, UB, VB.
    assert (CO : forall v : val VHalf, is_finite (cast VFloat v) = true -> B2R (cast VFloat v) = B2R v -> comp_ok (cast VFloat v)).
    { intros v P Q. split; [exact P|]. rewrite Q, pow_127. eapply Rle_lt_trans; [apply top_ge|]. eapply Rlt_le_trans; [apply top_lt|]. apply bpow_le. cbn. lia. }
    destruct (lerp_val VFloat (cast VFloat a) (cast VFloat b) x (CO a UA VA) (CO b UB VB) F H) as (S1 & S2 & S3 & LF & LV). fold s in S1, S2, S3, LV.
    assert (S4 : Rabs (s + B2R x - 1) <= c24) by (replace (s + B2R x - 1) with (s - (1 - B2R x)) by ring; exact S2).
    rewrite VA, VB in LV. change (rnd VFloat (rnd VFloat (B2R a * s) + rnd VFloat (B2R b * B2R x))) with (mix VFloat s (B2R x) (B2R a) (B2R b)) in LV.
    split; [exact S1|]. split; [exact S4|]. split; [exact S3|].
    assert (TA : - top VHalf <= B2R a <= top VHalf) by (apply Rabs_le_inv; apply top_ge). assert (TB : - top VHalf <= B2R b <= top VHalf) by (apply Rabs_le_inv; apply top_ge).
    pose proof (convert_ok 24 128 11 16 gt_11 lt_16 (t_lerp (cast VFloat a) (cast VFloat b) x : val VFloat) LF) as C.
    change (B2R (t_lerp (cast VFloat a) (cast VFloat b) x : val VFloat)) with (B2R (t_lerp (cast VFloat a) (cast VFloat b) x)) in C. rewrite LV in C. apply C.
    eapply Rle_lt_trans; [|apply (top_lt VHalf)]. apply Rabs_le. split.
    + apply half_ge; [apply generic_format_opp, top_fmt|]. apply mix_ge; try lra; discriminate || auto.
    + apply half_le; [apply top_fmt|]. apply mix_le; try lra; discriminate || auto.
  - destruct (lerp_val VFloat a b x A B F H) as (S1 & S2 & S3 & LF & LV). fold s in S1, S2, S3, LV.
    assert (S4 : Rabs (s + B2R x - 1) <= c24) by (replace (s + B2R x - 1) with (s - (1 - B2R x)) by ring; exact S2).
    split; [exact S1|]. split; [exact S4|]. split; [exact S3|]. split; [exact LF|]. cbn [ct]. rewrite rnd_fmt by apply rnd_is. exact LV.
  - destruct (lerp_val VDouble a b x A B F H) as (S1 & S2 & S3 & LF & LV). fold s in S1, S2, S3, LV.
    assert (S4 : Rabs (s + B2R x - 1) <= c24) by (replace (s + B2R x - 1) with (s - (1 - B2R x)) by ring; exact S2).
    split; [exact S1|]. split; [exact S4|]. split; [exact S3|]. split; [exact LF|]. cbn [ct]. rewrite rnd_fmt by apply rnd_is. exact LV.
Qed.
(** The ends. *)
Lemma lod_lerp_low t (a b : val t) (x : time) : level_ok a -> level_ok b -> is_finite x = true -> B2R x = 0 -> is_finite (lod_lerp a b x) = true /\ B2R (lod_lerp a b x) = B2R a.
Proof.
  intros A B F Z. destruct (lod_lerp_ok t a b x A B F ltac:(lra)) as (_ & _ & S & LF & LV). split; [exact LF|]. rewrite LV, (S Z), Z. unfold mix.
  rewrite Rmult_0_r, Rmult_1_r, rnd_0, Rplus_0_r, !(rnd_fmt (ct t)), rnd_fmt; auto using vfmt_B2R; try apply rnd_is; apply fmt_ct, vfmt_B2R.
Qed.
Lemma lod_lerp_high t (a b : val t) (x : time) : level_ok a -> level_ok b -> is_finite x = true -> B2R x = 1 -> is_finite (lod_lerp a b x) = true /\ B2R (lod_lerp a b x) = B2R b.
Proof.
  intros A B F Z. destruct (lod_lerp_ok t a b x A B F ltac:(lra)) as (_ & _ & _ & LF & LV). split; [exact LF|]. rewrite LV, Z. unfold mix.
  replace (1 - 1) with 0 by ring. rewrite rnd_0, Rmult_0_r, Rmult_1_r, rnd_0, Rplus_0_l, !(rnd_fmt (ct t)), rnd_fmt; auto using vfmt_B2R; try apply rnd_is; apply fmt_ct, vfmt_B2R.
Qed.
