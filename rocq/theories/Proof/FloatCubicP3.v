(** Rounding in cubic interpolation: how far the computed interpolant is from the exact one. *)
From Coq Require Import ZArith Reals List Bool Lia Lra Psatz.
From Flocq Require Import Core BinarySingleNaN Relative Sterbenz.
From Verif Require Import Model.Base Model.VecM Model.RealM Model.InterpM Model.FloatM Model.FloatMipM Model.FloatCubicM.
From Verif Require Import Spec.VoxelSpec Spec.InterpSpec Spec.FloatSpec Spec.FloatCubicSpec.
From Verif Require Import Proof.BaseP Proof.RealP Proof.InterpP Proof.CubicP Proof.FloatP Proof.FloatP2 Proof.FloatMipP Proof.FloatMipP2 Proof.FloatCubicP Proof.FloatCubicP2.
Open Scope R_scope.

Section Line.
Variables (s : shape) (t : vtype) (B : R).
Let w := expr s t.
Let W : wider t w := wider_expr s t.
Let D := er t * B + ab t.
Hypothesis B0 : 0 <= B.
Hypothesis room : 17 * B + 512 * D <= top t.
Let E0 := er_pos t.
Let H0 := ab_pos t.

Definition app {u} (x : val u) (X m k : R) : Prop := is_finite x = true /\ Rabs (B2R x - X) <= k * D /\ Rabs X <= m * B.
Lemma D0 : 0 < D.
Proof. unfold D. pose proof E0. pose proof H0. nra. Qed.
Lemma mag z X m k : Rabs (z - X) <= k * D -> Rabs X <= m * B -> Rabs z <= m * B + k * D.
Proof. intros A C. replace z with (X + (z - X)) by ring. eapply Rle_trans; [apply Rabs_triang|]. lra. Qed.
Lemma step z X m k : Rabs (z - X) <= k * D -> Rabs X <= m * B -> 1 <= m <= 17 -> 0 <= k <= 512 ->
  er t * Rabs z + ab t <= (m + / 2) * D /\ fits t z.
Proof.
  intros A C M K. pose proof (mag z X m k A C) as G. pose proof D0 as DP. destruct E0 as (E1 & E2). destruct H0 as (H1 & H2). split.
  - assert (er t * Rabs z <= er t * (m * B + k * D)) by (apply Rmult_le_compat_l; lra).
    assert (er t * (k * D) <= / 2 * D).
    { rewrite <- Rmult_assoc. apply Rmult_le_compat_r; [lra|]. apply Rle_trans with (/ 1024 * 512); [|lra]. apply Rmult_le_compat; lra. }
    assert (m * (er t * B) + ab t <= m * D) by (unfold D; nra). lra.
  - unfold fits. assert (m * B <= 17 * B) by (apply Rmult_le_compat_r; lra). assert (k * D <= 512 * D) by (apply Rmult_le_compat_r; lra). lra.
Qed.
Lemma after z X y m k : Rabs (z - X) <= k * D -> Rabs X <= m * B -> 1 <= m <= 17 -> 0 <= k <= 512 ->
  Rabs (y - z) <= er t * Rabs z + ab t -> Rabs (y - X) <= (k + m + / 2) * D.
Proof.
  intros A C M K Y. destruct (step z X m k A C M K) as (S & _). replace (y - X) with ((y - z) + (z - X)) by ring.
  eapply Rle_trans; [apply Rabs_triang|]. lra.
Qed.
Lemma r2_t z : Rabs (r2 w z - z) <= er t * Rabs z + ab t.
Proof. eapply Rle_trans; [apply r2_er|]. pose proof (er_up t w W). pose proof (ab_up t w W). pose proof (Rabs_pos z). nra. Qed.
Lemma app_add (x y : val w) X Y m n k l : app x X m k -> app y Y n l -> 1 <= m + n <= 17 -> 0 <= k + l <= 512 ->
  app (wadd x y) (X + Y) (m + n) (k + l + (m + n) + / 2).
Proof.
  intros (FX & AX & BX) (FY & AY & BY) M K.
  assert (A : Rabs ((B2R x + B2R y) - (X + Y)) <= (k + l) * D).
  { replace (B2R x + B2R y - (X + Y)) with ((B2R x - X) + (B2R y - Y)) by ring. eapply Rle_trans; [apply Rabs_triang|]. lra. }
  assert (C : Rabs (X + Y) <= (m + n) * B) by (eapply Rle_trans; [apply Rabs_triang|]; lra).
  destruct (step _ _ _ _ A C M K) as (_ & F). destruct (wadd_ok w x y FX FY) as (G & V); [apply (fits_up t); auto|].
  split; [auto|]. split; [|auto]. rewrite V. eapply after; eauto. apply r2_t.
Qed.
Lemma app_sub (x y : val w) X Y m n k l : app x X m k -> app y Y n l -> 1 <= m + n <= 17 -> 0 <= k + l <= 512 ->
  app (wsub x y) (X - Y) (m + n) (k + l + (m + n) + / 2).
Proof.
  intros (FX & AX & BX) (FY & AY & BY) M K.
  assert (A : Rabs ((B2R x - B2R y) - (X - Y)) <= (k + l) * D).
  { replace (B2R x - B2R y - (X - Y)) with ((B2R x - X) + - (B2R y - Y)) by ring. eapply Rle_trans; [apply Rabs_triang|]. rewrite Rabs_Ropp. lra. }
  assert (C : Rabs (X - Y) <= (m + n) * B) by (unfold Rminus; eapply Rle_trans; [apply Rabs_triang|]; rewrite Rabs_Ropp; lra).
  destruct (step _ _ _ _ A C M K) as (_ & F). destruct (wsub_ok w x y FX FY) as (G & V); [apply (fits_up t); auto|].
  split; [auto|]. split; [|auto]. rewrite V. eapply after; eauto. apply r2_t.
Qed.
Lemma app_const (c : val w) (x : val w) C X m k : is_finite c = true /\ B2R c = C -> 0 <= C -> app x X m k -> 1 <= C * m <= 17 -> 0 <= C * k <= 512 ->
  app (wmul c x) (C * X) (C * m) (C * k + C * m + / 2).
Proof.
  intros (FC & VC) C0 (FX & AX & BX) M K.
  assert (A : Rabs ((B2R c * B2R x) - (C * X)) <= (C * k) * D).
  { rewrite VC, <- Rmult_minus_distr_l, Rabs_mult, (Rabs_pos_eq C) by auto. rewrite Rmult_assoc. apply Rmult_le_compat_l; auto. }
  assert (G : Rabs (C * X) <= (C * m) * B) by (rewrite Rabs_mult, (Rabs_pos_eq C), Rmult_assoc by auto; apply Rmult_le_compat_l; auto).
  destruct (step _ _ _ _ A G M K) as (_ & F). destruct (wmul_ok w c x FC FX) as (P & V); [apply (fits_up t); auto|].
  split; [auto|]. split; [|auto]. rewrite V. eapply after; eauto. apply r2_t.
Qed.
(** A factor between nought and one. *)
Definition fac {u} (x : val u) (T j : R) : Prop := is_finite x = true /\ 0 <= B2R x <= 1 /\ 0 <= T <= 1 /\ Rabs (B2R x - T) <= j * er t.
Lemma app_fac (x y : val w) X T m k j : app x X m k -> fac y T j -> 0 <= j -> 1 <= m <= 17 -> 0 <= k + m * j <= 512 ->
  app (wmul x y) (X * T) m (k + m * j + m + / 2).
Proof.
  intros (FX & AX & BX) (FY & YI & TI & YT) J M K. destruct E0 as (E1 & _). destruct H0 as (H1 & _). pose proof D0 as DP.
  assert (A : Rabs ((B2R x * B2R y) - (X * T)) <= (k + m * j) * D).
  { replace (B2R x * B2R y - X * T) with ((B2R x - X) * B2R y + X * (B2R y - T)) by ring. eapply Rle_trans; [apply Rabs_triang|].
    rewrite !Rabs_mult, (Rabs_pos_eq (B2R y)) by lra.
    assert (Rabs (B2R x - X) * B2R y <= k * D * 1) by (apply Rmult_le_compat; try apply Rabs_pos; lra).
    assert (Rabs X * Rabs (B2R y - T) <= (m * B) * (j * er t)) by (apply Rmult_le_compat; auto; apply Rabs_pos).
    assert (er t * B <= D) by (unfold D; lra). assert (0 <= m * j) by (apply Rmult_le_pos; lra).
    assert (m * B * (j * er t) <= (m * j) * D) by (replace (m * B * (j * er t)) with ((m * j) * (er t * B)) by ring; apply Rmult_le_compat_l; lra). lra. }
  assert (G : Rabs (X * T) <= m * B).
  { rewrite Rabs_mult, (Rabs_pos_eq T) by lra. rewrite <- (Rmult_1_r (m * B)). apply Rmult_le_compat; try apply Rabs_pos; lra. }
  destruct (step _ _ _ _ A G M K) as (_ & F). destruct (wmul_ok w x y FX FY) as (P & V); [apply (fits_up t); auto|].
  split; [auto|]. split; [|auto]. rewrite V. eapply after; eauto. apply r2_t.
Qed.
Lemma app_st (x : val w) X m k : app x X m k -> 1 <= m <= 17 -> 0 <= k <= 512 -> app (cast t x) X m (k + m + / 2).
Proof.
  intros (F & A & C) M K. destruct (step _ _ _ _ A C M K) as (_ & G). destruct (cast_ok w t x F G) as (P & V).
  split; [auto|]. split; [|auto]. rewrite V. eapply after; eauto. apply rnd_er.
Qed.
Lemma app_up (x : val t) X m k : app x X m k -> app (cast w x) X m k.
Proof. intros (F & A & C). destruct (cast_up t w x W F) as (P & V). split; [auto|]. rewrite V. auto. Qed.
Lemma fac_up (x : val t) T j : fac x T j -> fac (cast w x) T j.
Proof. intros (F & A & C). destruct (cast_up t w x W F) as (P & V). split; [auto|]. rewrite V. auto. Qed.
Lemma fac_mul (x y : val t) X Y j i : fac x X j -> fac y Y i -> fac (cast t (wmul (cast w x) (cast w y))) (X * Y) (j + i + 4).
Proof.
  intros FX FY. destruct (fac_up x X j FX) as (GX & IX & TX & EX). destruct (fac_up y Y i FY) as (GY & IY & TY & EY).
  set (x' := cast w x) in *. set (y' := cast w y) in *. destruct E0 as (E1 & E2). destruct H0 as (H1 & H2).
  assert (O : forall u, vfmt u 1) by (intros u; apply (int_fmt u 1); destruct u; discriminate).
  assert (R01 : forall u y, 0 <= y <= 1 -> 0 <= rnd u y <= 1).
  { intros u z (A & C). apply (rnd_le u) in A. apply (rnd_le u) in C. rewrite rnd_0 in A. rewrite (rnd_fmt u 1) in C by apply O. auto. }
  assert (FT : forall u y, 0 <= y <= 1 -> fits u y).
  { intros u z (A & C). unfold fits. rewrite Rabs_pos_eq by auto. eapply Rle_trans; [exact C|]. destruct (two_w u) as (_ & E). pose proof (top_ge u (vnum u 2 0)) as G. rewrite E, Rabs_pos_eq in G by lra. lra. }
  assert (I : 0 <= B2R x' * B2R y' <= 1) by nra.
  destruct (wmul_ok w x' y' GX GY) as (M & V); [apply FT; auto|]. assert (J : 0 <= r2 w (B2R x' * B2R y') <= 1) by (apply R01, R01; auto).
  destruct (cast_ok w t _ M) as (M' & V'); [rewrite V; apply FT; auto|]. rewrite V in V'.
  split; [auto|]. rewrite V'. split; [apply R01; auto|]. split; [nra|].
  pose proof (r2_t (B2R x' * B2R y')) as R1. pose proof (rnd_er t (r2 w (B2R x' * B2R y'))) as R2'.
  rewrite (Rabs_pos_eq (B2R x' * B2R y')) in R1 by lra. set (z := r2 w (B2R x' * B2R y')) in *. rewrite (Rabs_pos_eq z) in R2' by lra. set (z' := rnd t z) in *.
  assert (R3 : Rabs (B2R x' * B2R y' - X * Y) <= (j + i) * er t).
  { replace (B2R x' * B2R y' - X * Y) with ((B2R x' - X) * B2R y' + X * (B2R y' - Y)) by ring. eapply Rle_trans; [apply Rabs_triang|].
    rewrite !Rabs_mult, (Rabs_pos_eq (B2R y')), (Rabs_pos_eq X) by lra. pose proof (Rabs_pos (B2R x' - X)). pose proof (Rabs_pos (B2R y' - Y)). nra. }
  replace (z' - X * Y) with ((z' - z) + ((z - B2R x' * B2R y') + (B2R x' * B2R y' - X * Y))) by ring.
  eapply Rle_trans; [apply Rabs_triang|]. eapply Rle_trans; [apply Rplus_le_compat_l, Rabs_triang|]. nra.
Qed.
Lemma app_val (x : val t) : is_finite x = true -> Rabs (B2R x) <= B -> app x (B2R x) 1 0.
Proof. intros F A. split; auto. unfold Rminus. rewrite Rplus_opp_r, Rabs_R0. lra. Qed.

Lemma app_le {u} (x : val u) X X' m m' k k' : app x X m k -> X = X' -> m <= m' -> k <= k' -> app x X' m' k'.
Proof.
  intros (F & A & C) <- M K. pose proof D0. split; auto. split.
  - eapply Rle_trans; [exact A|]. apply Rmult_le_compat_r; lra.
  - eapply Rle_trans; [exact C|]. apply Rmult_le_compat_r; lra.
Qed.
Lemma apart x y : vfmt t x -> vfmt t y -> x <> y -> bpow radix2 (3 - emax t - prec t) <= Rabs (x - y).
Proof.
  intros FX FY N. set (e := (3 - emax t - prec t)%Z).
  assert (G : forall z, vfmt t z -> exists m, z = IZR m * bpow radix2 e).
  { intros z Z. change (generic_format radix2 (FLT_exp e (prec t)) z) in Z. apply generic_format_FIX_FLT in Z.
    apply FIX_format_generic in Z. destruct Z as [[m e'] V E]. cbn in E. subst e'. exists m. exact V. }
  destruct (G x FX) as (m & ->). destruct (G y FY) as (n & ->). rewrite <- Rmult_minus_distr_r, <- minus_IZR, Rabs_mult, (Rabs_pos_eq (bpow _ _)) by apply bpow_ge_0.
  rewrite <- abs_IZR. assert (m <> n) by (intros ->; apply N; auto). rewrite <- (Rmult_1_l (bpow radix2 e)) at 1. apply Rmult_le_compat_r; [apply bpow_ge_0|]. apply IZR_le. lia.
Qed.
Lemma delta_zero (x y : val t) : is_finite x = true -> is_finite y = true -> fits t (B2R x - B2R y) ->
  let d := cast t (wsub (cast w x) (cast w y)) in is_finite d = true /\ (B2R d = 0 <-> B2R x - B2R y = 0).
Proof.
  intros FX FY G. destruct (cast_up t w x W FX) as (PX & VX). destruct (cast_up t w y W FY) as (PY & VY).
  destruct (wsub_ok w _ _ PX PY) as (Q & V); [rewrite VX, VY; apply (fits_up t); auto|]. rewrite VX, VY in V.
  assert (L : fits t (r2 w (B2R x - B2R y))).
  { unfold fits, r2. apply abs_round_le_generic; try typeclasses eauto; [apply (fmt_up t w _ W), top_fmt|].
    apply abs_round_le_generic; auto; try typeclasses eauto. apply (fmt_up w); [apply wider_ct|]. apply (fmt_up t w _ W), top_fmt. }
  destruct (cast_ok w t _ Q) as (Q' & V'); [rewrite V; auto|]. cbv zeta. split; auto. rewrite V', V. split.
  - intros Z. destruct (Req_EM_T (B2R x) (B2R y)) as [->|N]; [ring|]. exfalso.
    set (e := bpow radix2 (3 - emax t - prec t)). assert (EP : 0 < e) by apply bpow_gt_0.
    assert (EF : vfmt t e) by (unfold e; replace (bpow radix2 _) with (IZR 1 * bpow radix2 (3 - emax t - prec t)) by ring; apply dyadic; [destruct t; discriminate|lia]).
    assert (S : e <= Rabs (rnd t (r2 w (B2R x - B2R y)))).
    { apply abs_round_ge_generic; try typeclasses eauto; [exact EF|]. apply abs_round_ge_generic; try typeclasses eauto; [apply (fmt_up t w _ W EF)|].
      apply abs_round_ge_generic; try typeclasses eauto; [apply (fmt_up w); [apply wider_ct|apply (fmt_up t w _ W EF)]|]. apply apart; auto; apply fmt_val. }
    rewrite Z, Rabs_R0 in S. lra.
  - intros ->. rewrite r2_0. apply rnd_0.
Qed.

Lemma line_err (f1 f2 f3 f4 : val t) x : is_finite f1 = true -> is_finite f2 = true -> is_finite f3 = true -> is_finite f4 = true ->
  Rabs (B2R f1) <= B -> Rabs (B2R f2) <= B -> Rabs (B2R f3) <= B -> Rabs (B2R f4) <= B -> frac x ->
  is_finite (f_cubic s t f1 f2 f3 f4 x) = true /\
  Rabs (B2R (f_cubic s t f1 f2 f3 f4 x) - cubic (B2R f1) (B2R f2) (B2R f3) (B2R f4) (B2R x)) <= 350 * D /\
  (B2R x = 0 -> B2R (f_cubic s t f1 f2 f3 f4 x) = B2R f2).
Proof.
  intros F1 F2 F3 F4 A1 A2 A3 A4 X. destruct (narrow_frac t x X) as (N1 & N2 & N3 & N4). destruct X as (XF & XI).
  assert (T1 : fac (narrow t x) (B2R x) 2) by (repeat split; tauto).
  unfold f_cubic. fold w. set (t1 := narrow t x) in *.
  pose proof (fac_mul _ _ _ _ _ _ T1 T1) as T2. set (t2 := cast t (wmul (cast w t1) (cast w t1))) in *.
  pose proof (fac_mul _ _ _ _ _ _ T2 T1) as T3. set (t3 := cast t (wmul (cast w t2) (cast w t1))) in *.
  pose proof (app_up _ _ _ _ (app_val f1 F1 A1)) as V1. pose proof (app_up _ _ _ _ (app_val f2 F2 A2)) as V2.
  pose proof (app_up _ _ _ _ (app_val f3 F3 A3)) as V3. pose proof (app_up _ _ _ _ (app_val f4 F4 A4)) as V4.
  set (u1 := B2R f1) in *. set (u2 := B2R f2) in *. set (u3 := B2R f3) in *. set (u4 := B2R f4) in *.
  assert (DK : app (cast t (wmul (vnum w 1 (-1)) (wsub (cast w f3) (cast w f1)))) (1 / 2 * (u3 - u1)) 1 (17 / 4)).
  { pose proof (app_sub _ _ _ _ _ _ _ _ V3 V1 ltac:(lra) ltac:(lra)) as P. apply (app_const _ _ _ _ _ _ (half_w w)) in P; try lra.
    apply app_st in P; try lra. eapply app_le; [exact P|lra..]. }
  assert (DK1 : app (cast t (wmul (vnum w 1 (-1)) (wsub (cast w f4) (cast w f2)))) (1 / 2 * (u4 - u2)) 1 (17 / 4)).
  { pose proof (app_sub _ _ _ _ _ _ _ _ V4 V2 ltac:(lra) ltac:(lra)) as P. apply (app_const _ _ _ _ _ _ (half_w w)) in P; try lra.
    apply app_st in P; try lra. eapply app_le; [exact P|lra..]. }
  assert (DE : app (cast t (wsub (cast w f3) (cast w f2))) (u3 - u2) 2 5).
  { pose proof (app_sub _ _ _ _ _ _ _ _ V3 V2 ltac:(lra) ltac:(lra)) as P. apply app_st in P; try lra. eapply app_le; [exact P|lra..]. }
  destruct (delta_zero f3 f2 F3 F2) as (DF & DZ).
  { pose proof D0. apply (step (u3 - u2) (u3 - u2) 2 0); try lra; [unfold Rminus at 1; rewrite Rplus_opp_r, Rabs_R0; lra|].
    unfold Rminus. eapply Rle_trans; [apply Rabs_triang|]. rewrite Rabs_Ropp. lra. }
  fold u3 u2 in DZ. set (delta := cast t (wsub (cast w f3) (cast w f2))) in *. set (zero := B754_zero false : val t).
  set (test := Beqb delta zero) in *.
  assert (TZ : test = true <-> u3 - u2 = 0) by (unfold test, zero; rewrite (beq0 t delta DF); exact DZ).
  assert (Z0 : app zero 0 1 (17 / 4)) by (pose proof D0; split; [reflexivity|]; unfold zero; cbn [B2R]; rewrite Rminus_eq_0, Rabs_R0; lra).
  set (ek := if reqb (u3 - u2) 0 then 0 else 1 / 2 * (u3 - u1)). set (ek1 := if reqb (u3 - u2) 0 then 0 else 1 / 2 * (u4 - u2)).
  assert (SK : forall (q : val t) e, app q e 1 (17 / 4) -> app (if test then zero else q) (if reqb (u3 - u2) 0 then 0 else e) 1 (17 / 4)).
  { intros q e Q. destruct (reqb_spec (u3 - u2) 0) as [EZ|EZ].
    - rewrite (proj2 TZ EZ). exact Z0.
    - destruct test; [exfalso; apply EZ, TZ; auto|exact Q]. }
  apply SK in DK. apply SK in DK1. fold ek in DK. fold ek1 in DK1.
  set (dk := if test then zero else cast t (wmul (vnum w 1 (-1)) (wsub (cast w f3) (cast w f1)))) in *.
  set (dk1 := if test then zero else cast t (wmul (vnum w 1 (-1)) (wsub (cast w f4) (cast w f2)))) in *.
  pose proof (app_up _ _ _ _ DE) as UE. pose proof (app_up _ _ _ _ DK) as UK. pose proof (app_up _ _ _ _ DK1) as UK1.
  assert (C2 : app (cast t (wsub (wsub (wmul (vnum w 3 0) (cast w delta)) (wmul (vnum w 2 0) (cast w dk))) (cast w dk1))) (3 * (u3 - u2) - 2 * ek - ek1) 9 (257 / 4)).
  { pose proof (app_const _ _ _ _ _ _ (three_w w) ltac:(lra) UE ltac:(lra) ltac:(lra)) as P1.
    pose proof (app_const _ _ _ _ _ _ (two_w w) ltac:(lra) UK ltac:(lra) ltac:(lra)) as P2.
    pose proof (app_sub _ _ _ _ _ _ _ _ P1 P2 ltac:(lra) ltac:(lra)) as P3. pose proof (app_sub _ _ _ _ _ _ _ _ P3 UK1 ltac:(lra) ltac:(lra)) as P4.
    apply app_st in P4; try lra. eapply app_le; [exact P4|lra..]. }
  assert (C3 : app (cast t (wsub (wadd (cast w dk) (cast w dk1)) (wmul (vnum w 2 0) (cast w delta)))) (ek + ek1 - 2 * (u3 - u2)) 6 (77 / 2)).
  { pose proof (app_add _ _ _ _ _ _ _ _ UK UK1 ltac:(lra) ltac:(lra)) as P1.
    pose proof (app_const _ _ _ _ _ _ (two_w w) ltac:(lra) UE ltac:(lra) ltac:(lra)) as P2.
    pose proof (app_sub _ _ _ _ _ _ _ _ P1 P2 ltac:(lra) ltac:(lra)) as P3. apply app_st in P3; try lra. eapply app_le; [exact P3|lra..]. }
  set (a2 := cast t (wsub (wsub _ _) _)) in *. set (a3 := cast t (wsub (wadd _ _) _)) in *.
  pose proof (app_fac _ _ _ _ _ _ _ (app_up _ _ _ _ C3) (fac_up _ _ _ T3) ltac:(lra) ltac:(lra) ltac:(lra)) as S3.
  pose proof (app_fac _ _ _ _ _ _ _ (app_up _ _ _ _ C2) (fac_up _ _ _ T2) ltac:(lra) ltac:(lra) ltac:(lra)) as S2.
  pose proof (app_fac _ _ _ _ _ _ _ UK (fac_up _ _ _ T1) ltac:(lra) ltac:(lra) ltac:(lra)) as S1.
  pose proof (app_add _ _ _ _ _ _ _ _ S3 S2 ltac:(lra) ltac:(lra)) as Q1. pose proof (app_add _ _ _ _ _ _ _ _ Q1 S1 ltac:(lra) ltac:(lra)) as Q2.
  pose proof (app_add _ _ _ _ _ _ _ _ Q2 V2 ltac:(lra) ltac:(lra)) as Q3. apply app_st in Q3; try lra.
  destruct Q3 as (QF & QE & _). split; [exact QF|]. split.
  - fold (cubic u1 u2 u3 u4 (B2R x)). unfold cubic. cbv zeta. fold ek ek1. eapply Rle_trans; [exact QE|]. apply Rmult_le_compat_r; [pose proof D0|]; lra.
  - intros Z. assert (Z1 : B2R t1 = 0) by auto.
    assert (Z2 : B2R t2 = 0 /\ B2R t3 = 0).
    { destruct T1 as (G1 & _). destruct (cast_up t w t1 W G1) as (U1 & W1). destruct (prod0 w _ _ U1 U1) as (M & V); [rewrite W1; auto|].
      destruct (cast_0 t w _ M V) as (Y1 & Y2). fold t2 in Y1, Y2. split; auto. destruct (cast_up t w t2 W Y1) as (U2 & W2).
      destruct (prod0 w _ _ U2 U1) as (M' & V'); [rewrite W2; auto|]. apply (cast_0 t w _ M' V'). }
    destruct Z2 as (Z2 & Z3). apply (combine_0 s t); auto; [apply C3|apply T3|apply C2|apply T2|apply DK].
Qed.
End Line.
