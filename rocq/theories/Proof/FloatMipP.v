(** Rounding in the filtering of MIP levels: one row. *)
From Coq Require Import ZArith Reals List Bool Lia Lra.
From Flocq Require Import Core BinarySingleNaN Relative.
From Verif Require Import Model.Base Model.LoopM Model.FilterM Model.MipM Model.FloatM Model.FloatMipM.
From Verif Require Import Proof.BaseP Proof.FloatP Proof.FloatP2.
Import ListNotations.
Open Scope R_scope.

Definition fx (t : vtype) : Z -> Z := SpecFloat.fexp (prec t) (emax t).
Definition rnd (t : vtype) (x : R) : R := round radix2 (fx t) ZnearestE x.
#[global] Instance valid_fx t : Valid_exp (fx t).
Proof. apply FLT_exp_valid. destruct t; reflexivity. Qed.
Lemma fx_flt t : fx t = FLT_exp (3 - emax t - prec t) (prec t).
Proof. reflexivity. Qed.
Lemma rnd_le t x y : x <= y -> rnd t x <= rnd t y.
Proof. apply round_le; typeclasses eauto. Qed.
Lemma rnd_fmt t x : vfmt t x -> rnd t x = x.
Proof. intros H. apply round_generic; [typeclasses eauto|exact H]. Qed.
Lemma rnd_is t x : vfmt t (rnd t x).
Proof. apply generic_format_round; typeclasses eauto. Qed.
Lemma rnd_opp t x : rnd t (- x) = - rnd t x.
Proof. apply round_NE_opp. Qed.
Lemma rnd_0 t : rnd t 0 = 0.
Proof. apply round_0. typeclasses eauto. Qed.
Lemma rnd_top t x : Rabs x <= top t -> Rabs (rnd t x) <= top t.
Proof. intros H. apply abs_round_le_generic; auto; try typeclasses eauto. apply top_fmt. Qed.
Lemma dyadic t m e : (Z.abs m <= 2 ^ prec t)%Z -> (3 - emax t - prec t <= e)%Z -> vfmt t (IZR m * bpow radix2 e).
Proof.
  intros M E. destruct (Z.eq_dec (Z.abs m) (2 ^ prec t)) as [Q|N].
  - assert (X : vfmt t (bpow radix2 (prec t + e))).
    { apply generic_format_bpow. unfold SpecFloat.fexp, SpecFloat.emin. destruct t; cbn [prec emax] in *; lia. }
    assert (P : IZR (2 ^ prec t) = bpow radix2 (prec t)) by (apply (IZR_Zpower radix2); destruct t; discriminate).
    destruct (Z.abs_spec m) as [[_ R]|[_ R]]; rewrite R in Q.
    + rewrite Q, P, <- bpow_plus. auto.
    + replace m with (- 2 ^ prec t)%Z by lia. rewrite opp_IZR, P. rewrite Ropp_mult_distr_l_reverse, <- bpow_plus. apply generic_format_opp. auto.
  - apply generic_format_FLT. exists (Float radix2 m e); auto. cbn [Fnum]. change (Zpower radix2 (prec t)) with (2 ^ prec t)%Z. lia.
Qed.
Lemma int_fmt t z : (Z.abs z <= 2 ^ prec t)%Z -> vfmt t (IZR z).
Proof. intros H. replace (IZR z) with (IZR z * bpow radix2 0) by (cbn; ring). apply dyadic; auto. destruct t; cbn; lia. Qed.
Lemma double_fmt t x : vfmt t x -> vfmt t (2 * x).
Proof.
  intros H. apply FLT_format_generic in H; [|apply gt_prec]. destruct H as [[m e] V M E]. cbn in M, E. rewrite V. unfold F2R. cbn [Fnum Fexp].
  replace (2 * (IZR m * bpow radix2 e)) with (IZR m * bpow radix2 (e + 1)) by (rewrite bpow_plus; change (bpow radix2 1) with 2; ring).
  change (Zpower radix2 (prec t)) with (2 ^ prec t)%Z in M. apply dyadic; [lia|]. unfold SpecFloat.emin in E. lia.
Qed.

Definition fits t (x : R) : Prop := Rabs x <= top t.
Lemma fits_bool t x : fits t x -> Rlt_bool (Rabs (round radix2 (SpecFloat.fexp (prec t) (emax t)) (round_mode mode_NE) x)) (bpow radix2 (emax t)) = true.
Proof. intros H. apply Rlt_bool_true. apply Rle_lt_trans with (top t); [apply (rnd_top t x H)|apply top_lt]. Qed.
Lemma vadd_ok t (x y : val t) : is_finite x = true -> is_finite y = true -> fits t (B2R x + B2R y) ->
  is_finite (vadd x y) = true /\ B2R (vadd x y) = rnd t (B2R x + B2R y).
Proof. intros X Y S. pose proof (Bplus_correct (prec t) (emax t) _ _ mode_NE x y X Y) as H. rewrite (fits_bool _ _ S) in H. split; apply H. Qed.
Lemma vsub_ok t (x y : val t) : is_finite x = true -> is_finite y = true -> fits t (B2R x - B2R y) ->
  is_finite (vsub x y) = true /\ B2R (vsub x y) = rnd t (B2R x - B2R y).
Proof. intros X Y S. pose proof (Bminus_correct (prec t) (emax t) _ _ mode_NE x y X Y) as H. rewrite (fits_bool _ _ S) in H. split; apply H. Qed.
Lemma vmul_ok t (x y : val t) : is_finite x = true -> is_finite y = true -> fits t (B2R x * B2R y) ->
  is_finite (vmul x y) = true /\ B2R (vmul x y) = rnd t (B2R x * B2R y).
Proof. intros X Y S. pose proof (Bmult_correct (prec t) (emax t) _ _ mode_NE x y) as H. rewrite (fits_bool _ _ S), X, Y in H. split; apply H. Qed.
Lemma vdiv_ok t (x y : val t) : is_finite x = true -> B2R y <> 0 -> fits t (B2R x / B2R y) ->
  is_finite (vdiv x y) = true /\ B2R (vdiv x y) = rnd t (B2R x / B2R y).
Proof. intros X Y S. pose proof (Bdiv_correct (prec t) (emax t) _ _ mode_NE x y Y) as H. rewrite (fits_bool _ _ S), X in H. split; apply H. Qed.
Lemma cast_ok s t (x : val s) : is_finite x = true -> fits t (B2R x) -> is_finite (cast t x) = true /\ B2R (cast t x) = rnd t (B2R x).
Proof.
  intros X S. apply (convert_ok (prec s) (emax s) (prec t) (emax t) (gt_prec t) (lt_emax t) x X).
  apply Rle_lt_trans with (top t); [apply (rnd_top t _ S)|apply top_lt].
Qed.
Lemma fits_le t k x : Rabs x <= IZR k -> (k <= 2 ^ 30)%Z -> t <> VHalf -> fits t x.
Proof.
  intros H K N. unfold fits. eapply Rle_trans; [exact H|]. eapply Rle_trans; [apply IZR_le; exact K|]. change (IZR (2 ^ 30)) with (bpow radix2 30).
  unfold top. assert (A : bpow radix2 (emax t) = 2 * bpow radix2 (emax t - 1)).
  { replace (emax t) with (1 + (emax t - 1))%Z at 1 by lia. rewrite bpow_plus. reflexivity. }
  assert (bpow radix2 (emax t - prec t) <= bpow radix2 (emax t - 1)) by (apply bpow_le; destruct t; cbn; lia).
  assert (bpow radix2 30 <= bpow radix2 (emax t - 1)) by (apply bpow_le; destruct t; cbn; [congruence|lia|lia]). lra.
Qed.

(** * Positions *)
Lemma num_ok m e : is_finite (vnum VFloat m e) = true -> B2R (vnum VFloat m e) = SF2R radix2 (B2SF (vnum VFloat m e)).
Proof. intros _. symmetry. apply SF2R_B2SF. Qed.
Definition w1 : val VFloat := vnum VFloat 1 0.
Lemma w1_ok : is_finite w1 = true /\ B2R w1 = 1.
Proof. split; [reflexivity|]. cbn. unfold F2R. cbn. lra. Qed.
Lemma w2_ok : is_finite (vnum VFloat 2 0) = true /\ B2R (vnum VFloat 2 0) = 2.
Proof. split; [reflexivity|]. cbn. unfold F2R. cbn. lra. Qed.
Lemma wh_ok : is_finite (vnum VFloat 1 (-1)) = true /\ B2R (vnum VFloat 1 (-1)) = / 2.
Proof. split; [reflexivity|]. cbn. unfold F2R. cbn. lra. Qed.
Lemma centre_ok i : (Z.abs i <= 2 ^ 31)%Z -> is_finite (fm_centre i) = true /\ B2R (fm_centre i) = IZR i + / 2.
Proof.
  intros H. destruct (of_int_ok i) as (F & V); [lia|]. destruct half_ok as (HF & HV).
  assert (A : Rabs (IZR i) <= IZR (2 ^ 31)) by (rewrite <- abs_IZR; apply IZR_le; auto).
  destruct (fadd_ok (of_int i) f_half F HF) as (P & Q).
  { rewrite V, HV. apply (big_small _ (2 ^ 31 + 1)); [|lia]. eapply Rle_trans; [apply Rabs_triang|]. rewrite plus_IZR, (Rabs_pos_eq (/ 2)) by lra. lra. }
  split; [exact P|]. unfold fm_centre. eapply eq_trans; [exact Q|]. rewrite V, HV. apply (rnd_fmt VDouble).
  replace (IZR i + / 2) with (IZR (2 * i + 1) * bpow radix2 (-1)) by (rewrite plus_IZR, mult_IZR; change (bpow radix2 (-1)) with (/ 2); lra).
  apply dyadic; cbn [prec emax]; lia.
Qed.
Lemma cur_ok t add : (Z.abs t <= 2 ^ 26)%Z -> (Z.abs add <= 2 ^ 26)%Z -> (Z.abs (2 * t + 1 - add) <= 2 ^ 24)%Z ->
  is_finite (fm_cur t add) = true /\ B2R (fm_cur t add) = IZR (2 * t + 1 - add).
Proof.
  intros T A H. destruct (centre_ok t) as (CF & CV); [lia|].
  assert (T2 : is_finite (cast VDouble (vnum VFloat 2 0)) = true /\ B2R (cast VDouble (vnum VFloat 2 0)) = 2) by (split; [reflexivity|]; cbn; unfold F2R; cbn; lra).
  destruct T2 as (TF & TV).
  assert (E : B2R (fm_centre t) * B2R (cast VDouble (vnum VFloat 2 0)) = IZR (2 * t + 1)) by (rewrite CV, TV, plus_IZR, mult_IZR; lra).
  destruct (vmul_ok VDouble (fm_centre t) (cast VDouble (vnum VFloat 2 0)) CF TF) as (MF & MV).
  { rewrite E. apply (fits_le _ (2 ^ 28)); [rewrite <- abs_IZR; apply IZR_le; lia|lia|discriminate]. }
  rewrite E, rnd_fmt in MV by (apply int_fmt; cbn [prec emax]; lia).
  destruct (of_int_ok add) as (AF & AV); [lia|].
  assert (E2 : B2R (vmul (fm_centre t) (cast VDouble (vnum VFloat 2 0))) - B2R (of_int add : val VDouble) = IZR (2 * t + 1 - add)).
  { rewrite MV. change (B2R (of_int add : val VDouble)) with (B2R (of_int add)). rewrite AV, minus_IZR. auto. }
  destruct (vsub_ok VDouble (vmul (fm_centre t) (cast VDouble (vnum VFloat 2 0))) (of_int add) MF AF) as (SF & SV).
  { rewrite E2. apply (fits_le _ (2 ^ 24)); [rewrite <- abs_IZR; apply IZR_le; lia|lia|discriminate]. }
  rewrite E2, rnd_fmt in SV by (apply int_fmt; cbn [prec emax]; lia).
  unfold fm_cur. destruct (cast_ok VDouble VFloat _ SF) as (P & Q).
  { rewrite SV. apply (fits_le _ (2 ^ 24)); [rewrite <- abs_IZR; apply IZR_le; lia|lia|discriminate]. }
  rewrite SV, rnd_fmt in Q by (apply int_fmt; cbn [prec emax]; lia). auto.
Qed.
Lemma vfloor_int t (x : val t) z : is_finite x = true -> B2R x = IZR z -> in_int z = true -> vfloor x = Ok z.
Proof.
  intros F V I. unfold vfloor. rewrite F. destruct (Bnearbyint_correct (prec t) (emax t) _ mode_DN x) as (A & _).
  pose proof (Btrunc_correct (prec t) (emax t) _ (Bnearbyint mode_DN x)) as T. rewrite A, V in T. cbn [round_mode] in T.
  rewrite (round_generic radix2 (FIX_exp 0) Zfloor) in T; [|apply generic_format_FIX; exists (Float radix2 z 0); [unfold F2R; cbn; ring|reflexivity]].
  rewrite (round_generic radix2 (FIX_exp 0) Ztrunc) in T; [|apply generic_format_FIX; exists (Float radix2 z 0); [unfold F2R; cbn; ring|reflexivity]].
  apply eq_IZR in T. rewrite T. unfold i32. rewrite I. auto.
Qed.
Lemma vceil_int t (x : val t) z : is_finite x = true -> B2R x = IZR z -> in_int z = true -> vceil x = Ok z.
Proof.
  intros F V I. unfold vceil. rewrite F. destruct (Bnearbyint_correct (prec t) (emax t) _ mode_UP x) as (A & _).
  pose proof (Btrunc_correct (prec t) (emax t) _ (Bnearbyint mode_UP x)) as T. rewrite A, V in T. cbn [round_mode] in T.
  rewrite (round_generic radix2 (FIX_exp 0) Zceil) in T; [|apply generic_format_FIX; exists (Float radix2 z 0); [unfold F2R; cbn; ring|reflexivity]].
  rewrite (round_generic radix2 (FIX_exp 0) Ztrunc) in T; [|apply generic_format_FIX; exists (Float radix2 z 0); [unfold F2R; cbn; ring|reflexivity]].
  apply eq_IZR in T. rewrite T. unfold i32. rewrite I. auto.
Qed.
(** The interval of source voxels. *)
Lemma one_ok1 : vmul (fm_support w1) (vnum VFloat 2 0) = w1.
Proof. apply B2SF_inj. vm_compute. reflexivity. Qed.
Lemma interval t add : (Z.abs t <= 2 ^ 26)%Z -> (Z.abs add <= 2 ^ 26)%Z -> (Z.abs (2 * t + 1 - add) < 2 ^ 24)%Z ->
  vfloor (vsub (fm_cur t add) (vmul (fm_support w1) (vnum VFloat 2 0))) = Ok (2 * t - add)%Z /\
  vceil (vadd (fm_cur t add) (vmul (fm_support w1) (vnum VFloat 2 0))) = Ok (2 * t + 2 - add)%Z.
Proof.
  intros T A H. destruct (cur_ok t add T A) as (F & V); [lia|]. rewrite one_ok1. destruct w1_ok as (WF & WV). split.
  - assert (E : B2R (fm_cur t add) - B2R w1 = IZR (2 * t - add)) by (rewrite V, WV; rewrite <- minus_IZR; f_equal; lia).
    destruct (vsub_ok VFloat (fm_cur t add) w1 F WF) as (P & Q).
    { rewrite E. apply (fits_le _ (2 ^ 24)); [rewrite <- abs_IZR; apply IZR_le; lia|lia|discriminate]. }
    rewrite E, rnd_fmt in Q by (apply int_fmt; cbn [prec emax]; lia). apply vfloor_int; auto. unfold in_int, int_min, int_max. lia.
  - assert (E : B2R (fm_cur t add) + B2R w1 = IZR (2 * t + 2 - add)) by (rewrite V, WV; rewrite <- plus_IZR; f_equal; lia).
    destruct (vadd_ok VFloat (fm_cur t add) w1 F WF) as (P & Q).
    { rewrite E. apply (fits_le _ (2 ^ 24)); [rewrite <- abs_IZR; apply IZR_le; lia|lia|discriminate]. }
    rewrite E, rnd_fmt in Q by (apply int_fmt; cbn [prec emax]; lia). apply vceil_int; auto. unfold in_int, int_min, int_max. lia.
Qed.
(** Both have weight one, however their centres are rounded. *)
Lemma weight_one t add s : (Z.abs t <= 2 ^ 26)%Z -> (Z.abs add <= 2 ^ 26)%Z -> (Z.abs (2 * t + 1 - add) < 2 ^ 24)%Z ->
  (2 * t - add <= s <= 2 * t + 1 - add)%Z ->
  fm_eval w1 (vmul (Babs (vsub (cast VFloat (fm_centre s)) (fm_cur t add))) (vdiv (vnum VFloat 1 0) (vnum VFloat 2 0))) = w1.
Proof.
  intros T A H S. destruct (cur_ok t add T A) as (F & V); [lia|]. destruct (centre_ok s) as (CF & CV); [lia|].
  set (c := (2 * t + 1 - add)%Z) in *. assert (C1 : IZR (c - 1) <= IZR s <= IZR c) by (split; apply IZR_le; lia). rewrite minus_IZR in C1.
  destruct (cast_ok VDouble VFloat _ CF) as (PF & PV).
  { rewrite CV. apply (fits_le _ (2 ^ 25)); [|lia|discriminate]. eapply Rle_trans; [apply Rabs_triang|]. rewrite <- abs_IZR, (Rabs_pos_eq (/ 2)) by lra.
    assert (IZR (Z.abs s) <= IZR (2 ^ 24)) by (apply IZR_le; lia). replace (IZR (2 ^ 25)) with (IZR (2 ^ 24) + IZR (2 ^ 24)) by (rewrite <- plus_IZR; reflexivity). assert (1 <= IZR (2 ^ 24)) by (apply IZR_le; lia). lra. }
  set (q := cast VFloat (fm_centre s)) in *.
  assert (L : IZR (c - 1) <= B2R q) by (rewrite PV, <- (rnd_fmt VFloat (IZR (c - 1))) by (apply int_fmt; cbn [prec emax]; lia); apply rnd_le; rewrite CV, minus_IZR; lra).
  assert (U : B2R q <= IZR (c + 1)) by (rewrite PV, <- (rnd_fmt VFloat (IZR (c + 1))) by (apply int_fmt; cbn [prec emax]; lia); apply rnd_le; rewrite CV, plus_IZR; lra).
  rewrite minus_IZR in L. rewrite plus_IZR in U.
  destruct (vsub_ok VFloat q (fm_cur t add) PF F) as (DF & DV).
  { rewrite V. apply (fits_le _ 1); [apply Rabs_le; lra|lia|discriminate]. }
  set (d := vsub q (fm_cur t add)) in *.
  assert (D1 : Rabs (B2R d) <= 1).
  { rewrite DV. apply abs_round_le_generic; try typeclasses eauto; [apply (int_fmt VFloat 1); cbn [prec emax]; lia|]. rewrite V. apply Rabs_le. lra. }
  assert (BF : is_finite (Babs d) = true) by (rewrite is_finite_Babs; auto).
  assert (BV : B2R (Babs d) = Rabs (B2R d)) by apply B2R_Babs.
  assert (HQ : vdiv (vnum VFloat 1 0) (vnum VFloat 2 0) = vnum VFloat 1 (-1)) by (apply B2SF_inj; vm_compute; reflexivity). rewrite HQ.
  destruct wh_ok as (HF & HV). pose proof (Rabs_pos (B2R d)) as DP.
  destruct (vmul_ok VFloat (Babs d) (vnum VFloat 1 (-1)) BF HF) as (MF & MV).
  { rewrite BV, HV. apply (fits_le _ 1); [rewrite Rabs_pos_eq; lra|lia|discriminate]. }
  set (m := vmul (Babs d) (vnum VFloat 1 (-1))) in *.
  assert (HFm : vfmt VFloat (/ 2)) by (change (/ 2) with (bpow radix2 (-1)); replace (bpow radix2 (-1)) with (IZR 1 * bpow radix2 (-1)) by ring; apply dyadic; cbn [prec emax]; lia).
  assert (M1 : B2R m <= / 2) by (rewrite MV, BV, HV; rewrite <- (rnd_fmt VFloat (/ 2) HFm) at 2; apply rnd_le; lra).
  assert (M0 : 0 <= B2R m) by (rewrite MV, BV, HV; rewrite <- (rnd_0 VFloat); apply rnd_le; lra).
  destruct w1_ok as (WF & WV). destruct (vdiv_ok VFloat m w1 MF) as (QF & QV); [rewrite WV; lra|rewrite WV; apply (fits_le _ 1); [rewrite Rabs_pos_eq; lra|lia|discriminate]|].
  unfold fm_eval. assert (LE : Bleb (vdiv m w1) (vnum VFloat 1 (-1)) = true).
  { rewrite (Bleb_correct (prec VFloat) (emax VFloat)) by auto. apply Rle_bool_true. change (B2R (vnum VFloat 1 (-1) : binary_float (prec VFloat) (emax VFloat))) with (B2R (vnum VFloat 1 (-1))).
    rewrite HV. eapply Rle_trans; [apply Req_le; exact QV|]. rewrite WV. rewrite <- (rnd_fmt VFloat (/ 2) HFm). apply rnd_le. lra. }
  rewrite LE. reflexivity.
Qed.
