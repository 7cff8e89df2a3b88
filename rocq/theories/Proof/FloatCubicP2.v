(** Rounding in cubic interpolation: four samples on a line. *)
From Coq Require Import ZArith Reals List Bool Lia Lra Psatz.
From Flocq Require Import Core BinarySingleNaN Relative Sterbenz.
From Verif Require Import Model.Base Model.VecM Model.RealM Model.InterpM Model.FloatM Model.FloatMipM Model.FloatCubicM.
From Verif Require Import Spec.VoxelSpec Spec.InterpSpec Spec.FloatSpec Spec.FloatCubicSpec.
From Verif Require Import Proof.BaseP Proof.RealP Proof.InterpP Proof.CubicP Proof.FloatP Proof.FloatP2 Proof.FloatMipP Proof.FloatMipP2 Proof.FloatCubicP.
Open Scope R_scope.

Lemma beq0 t (x : val t) : is_finite x = true -> Beqb x (B754_zero false) = true <-> B2R x = 0.
Proof.
  intros F. rewrite (Beqb_correct (prec t) (emax t) x (B754_zero false) F eq_refl). cbn [B2R]. destruct (Req_bool_spec (B2R x) 0); split; auto; discriminate.
Qed.
Lemma zero_up t w : is_finite (cast w (B754_zero false : val t)) = true /\ B2R (cast w (B754_zero false : val t)) = 0.
Proof. split; reflexivity. Qed.
Lemma prod0 w (x y : val w) : is_finite x = true -> is_finite y = true -> B2R x = 0 \/ B2R y = 0 -> is_finite (wmul x y) = true /\ B2R (wmul x y) = 0.
Proof.
  intros X Y Z. assert (E : B2R x * B2R y = 0) by (destruct Z as [-> | ->]; ring). destruct (wmul_ok w x y X Y) as (A & C); [rewrite E; apply fits_0|].
  rewrite E, r2_0 in C. auto.
Qed.
Lemma sub0 w (x y : val w) : is_finite x = true -> is_finite y = true -> B2R x = B2R y -> is_finite (wsub x y) = true /\ B2R (wsub x y) = 0.
Proof.
  intros X Y Z. assert (E : B2R x - B2R y = 0) by lra. destruct (wsub_ok w x y X Y) as (A & C); [rewrite E; apply fits_0|]. rewrite E, r2_0 in C. auto.
Qed.
Lemma add0 w (x y : val w) : is_finite x = true -> is_finite y = true -> B2R x = 0 -> is_finite (wadd x y) = true /\ B2R (wadd x y) = B2R y.
Proof.
  intros X Y Z. assert (E : B2R x + B2R y = B2R y) by lra. destruct (wadd_ok w x y X Y) as (A & C); [rewrite E; apply fits_val|].
  rewrite E, fmt_r2 in C by apply fmt_val. auto.
Qed.
Lemma cast_down t w (x : val w) : is_finite x = true -> vfmt t (B2R x) -> fits t (B2R x) -> is_finite (cast t x) = true /\ B2R (cast t x) = B2R x.
Proof. intros F V T. destruct (cast_ok w t x F T) as (A & C). rewrite rnd_fmt in C; auto. Qed.
Lemma cast_0 t w (x : val w) : is_finite x = true -> B2R x = 0 -> is_finite (cast t x) = true /\ B2R (cast t x) = 0.
Proof. intros F E. destruct (cast_ok w t x F) as (A & C); [rewrite E; apply fits_0|]. rewrite E, rnd_0 in C. auto. Qed.

(** The last line of the interpolant: with three vanishing terms it gives back the second sample. *)
Definition combine s t (a3 t3 a2 t2 a1 t1 a0 : val t) : val t :=
  let w := expr s t in let up : val t -> val w := cast w in
  cast t (wadd (wadd (wadd (wmul (up a3) (up t3)) (wmul (up a2) (up t2))) (wmul (up a1) (up t1))) (up a0)).
Lemma combine_0 s t (a3 t3 a2 t2 a1 t1 a0 : val t) :
  is_finite a3 = true -> is_finite t3 = true -> is_finite a2 = true -> is_finite t2 = true -> is_finite a1 = true -> is_finite t1 = true -> is_finite a0 = true ->
  (B2R a3 = 0 /\ B2R a2 = 0 /\ B2R a1 = 0) \/ (B2R t3 = 0 /\ B2R t2 = 0 /\ B2R t1 = 0) ->
  is_finite (combine s t a3 t3 a2 t2 a1 t1 a0) = true /\ B2R (combine s t a3 t3 a2 t2 a1 t1 a0) = B2R a0.
Proof.
  intros F3 G3 F2 G2 F1 G1 F0 Z. unfold combine. set (w := expr s t). pose proof (wider_expr s t : wider t w) as W.
  destruct (cast_up t w a3 W F3) as (A3 & B3). destruct (cast_up t w t3 W G3) as (C3 & D3).
  destruct (cast_up t w a2 W F2) as (A2 & B2). destruct (cast_up t w t2 W G2) as (C2 & D2).
  destruct (cast_up t w a1 W F1) as (A1 & B1). destruct (cast_up t w t1 W G1) as (C1 & D1). destruct (cast_up t w a0 W F0) as (A0 & B0).
  destruct (prod0 w _ _ A3 C3) as (P3 & Q3); [rewrite B3, D3; tauto|]. destruct (prod0 w _ _ A2 C2) as (P2 & Q2); [rewrite B2, D2; tauto|].
  destruct (prod0 w _ _ A1 C1) as (P1 & Q1); [rewrite B1, D1; tauto|].
  destruct (add0 w _ _ P3 P2 Q3) as (S1 & V1). rewrite Q2 in V1. destruct (add0 w _ _ S1 P1 V1) as (S2 & V2). rewrite Q1 in V2.
  destruct (add0 w _ _ S2 A0 V2) as (S3 & V3'). rewrite B0 in V3'. rewrite <- V3'. apply cast_down; auto; rewrite V3'; [apply fmt_val|apply fits_val].
Qed.

(** A fraction. *)
Definition frac (x : f64) : Prop := is_finite x = true /\ 0 <= B2R x <= 1.
Lemma narrow_frac t x : frac x -> is_finite (narrow t x) = true /\ 0 <= B2R (narrow t x) <= 1 /\ Rabs (B2R (narrow t x) - B2R x) <= 2 * er t /\ (B2R x = 0 -> B2R (narrow t x) = 0).
Proof.
  intros (F & I).
  assert (O : forall u, vfmt u 1) by (intros u; apply (int_fmt u 1); destruct u; discriminate).
  assert (R01 : forall u y, 0 <= y <= 1 -> 0 <= rnd u y <= 1).
  { intros u y (A & C). apply (rnd_le u) in A. apply (rnd_le u) in C. rewrite rnd_0 in A. rewrite (rnd_fmt u 1) in C by apply O. auto. }
  assert (FT : forall u y, 0 <= y <= 1 -> fits u y).
  { intros u y (A & C). unfold fits. rewrite Rabs_pos_eq by auto. eapply Rle_trans; [exact C|]. destruct (two_w u) as (_ & E). pose proof (top_ge u (vnum u 2 0)) as G. rewrite E, Rabs_pos_eq in G by lra. lra. }
  destruct (er_pos t) as (E0 & E1). destruct (ab_pos t) as (H0 & H1).
  assert (RE : forall y, 0 <= y <= 1 -> Rabs (rnd t y - y) <= 2 * er t).
  { intros y Y. eapply Rle_trans; [apply rnd_er|]. rewrite Rabs_pos_eq by lra. nra. }
  destruct t.
  - destruct (cast_ok VDouble VFloat x F (FT VFloat _ I)) as (A & C). destruct (cast_ok VFloat VHalf _ A) as (A' & C'); [rewrite C; apply FT, R01; auto|].
    change (narrow VHalf x) with (cast VHalf (cast VFloat (x : val VDouble))). rewrite C'. rewrite C. split; [exact A'|]. split; [apply R01, R01; auto|]. split; [|intros Z0; change (B2R (x : val VDouble) = 0) in Z0; rewrite Z0, !rnd_0; auto].
    change (@B2R 53 1024 x) with (@B2R (prec VDouble) (emax VDouble) x) in I |- *. set (y := @B2R (prec VDouble) (emax VDouble) x) in *. pose proof (R01 VFloat y I) as Y.
    pose proof (rnd_err VFloat y) as R1. pose proof (rnd_err VHalf (rnd VFloat y)) as R2. set (z := rnd VFloat y) in *. set (q := rnd VHalf z) in *.
    rewrite (Rabs_pos_eq y) in R1 by lra. rewrite (Rabs_pos_eq z) in R2 by lra.
    unfold er in *. assert (U : unit VHalf = / 2048) by reflexivity. assert (T : tiny VHalf = / 33554432) by reflexivity.
    assert (U' : unit VFloat = / 16777216) by reflexivity. assert (T' : 0 < tiny VFloat <= / 67108864) by (split; [apply bpow_gt_0|apply (bpow_le radix2 (-150) (-26)); lia]).
    rewrite U, T, U' in *. replace (q - y) with ((q - z) + (z - y)) by ring. eapply Rle_trans; [apply Rabs_triang|]. lra.
  - destruct (cast_ok VDouble VFloat x F (FT VFloat _ I)) as (A & C).
    change (narrow VFloat x) with (cast VFloat (x : val VDouble)). rewrite C. split; [exact A|]. split; [apply R01; auto|]. split; [apply RE; auto|intros Z0; change (B2R (x : val VDouble) = 0) in Z0; rewrite Z0; apply rnd_0].
  - cbn [narrow]. split; [exact F|]. split; [exact I|]. split; [|auto]. unfold Rminus. rewrite Rplus_opp_r, Rabs_R0. lra.
Qed.

(** * Constant data *)
Lemma line_const s t (f1 f2 f3 f4 : val t) x v : is_finite f1 = true -> is_finite f2 = true -> is_finite f3 = true -> is_finite f4 = true ->
  B2R f1 = v -> B2R f2 = v -> B2R f3 = v -> B2R f4 = v -> frac x ->
  is_finite (f_cubic s t f1 f2 f3 f4 x) = true /\ B2R (f_cubic s t f1 f2 f3 f4 x) = v.
Proof.
  intros F1 F2 F3 F4 E1 E2 E3 E4 X. unfold f_cubic. set (w := expr s t). pose proof (wider_expr s t : wider t w) as W.
  destruct (cast_up t w f1 W F1) as (A1 & B1). destruct (cast_up t w f2 W F2) as (A2 & B2).
  destruct (cast_up t w f3 W F3) as (A3 & B3). destruct (cast_up t w f4 W F4) as (A4 & B4).
  destruct (sub0 w _ _ A3 A2) as (SF & SV); [congruence|]. destruct (cast_0 t w _ SF SV) as (DF & DV).
  rewrite (proj2 (beq0 t _ DF) DV). set (delta := cast t (wsub (cast w f3) (cast w f2))) in *.
  set (z := B754_zero false : val t). destruct (zero_up t w) as (ZF & ZV). fold z in ZF, ZV.
  destruct (cast_up t w delta W DF) as (UF & UV). rewrite DV in UV. destruct (two_w w) as (T2 & _). destruct (three_w w) as (T3 & _).
  destruct (prod0 w _ _ T3 UF (or_intror UV)) as (P1 & Q1). destruct (prod0 w _ _ T2 ZF (or_intror ZV)) as (P2 & Q2).
  destruct (sub0 w _ _ P1 P2) as (P3 & Q3); [congruence|]. destruct (sub0 w _ _ P3 ZF) as (P4 & Q4); [congruence|]. destruct (cast_0 t w _ P4 Q4) as (P5 & Q5).
  destruct (add0 w _ _ ZF ZF ZV) as (P6 & Q6). rewrite ZV in Q6. destruct (prod0 w _ _ T2 UF (or_intror UV)) as (P7 & Q7).
  destruct (sub0 w _ _ P6 P7) as (P8 & Q8); [congruence|]. destruct (cast_0 t w _ P8 Q8) as (P9 & Q9).
  destruct (narrow_frac t x X) as (N1 & N2 & _).
  assert (PW : forall a b : val t, is_finite a = true -> is_finite b = true -> 0 <= B2R a <= 1 -> 0 <= B2R b <= 1 ->
    let c := cast t (wmul (cast w a) (cast w b)) in is_finite c = true /\ 0 <= B2R c <= 1).
  { intros a b Fa Fb Ia Ib. destruct (cast_up t w a W Fa) as (Ga & Va). destruct (cast_up t w b W Fb) as (Gb & Vb).
    assert (I : 0 <= B2R a * B2R b <= 1) by nra.
    assert (O : forall u, vfmt u 1) by (intros u; apply (int_fmt u 1); destruct u; discriminate).
    assert (R01 : forall u y, 0 <= y <= 1 -> 0 <= rnd u y <= 1).
    { intros u y (A & C). apply (rnd_le u) in A. apply (rnd_le u) in C. rewrite rnd_0 in A. rewrite (rnd_fmt u 1) in C by apply O. auto. }
    assert (FT : forall u y, 0 <= y <= 1 -> fits u y).
    { intros u y (A & C). unfold fits. rewrite Rabs_pos_eq by auto. eapply Rle_trans; [exact C|]. destruct (two_w u) as (_ & E). pose proof (top_ge u (vnum u 2 0)) as G. rewrite E, Rabs_pos_eq in G by lra. lra. }
    destruct (wmul_ok w _ _ Ga Gb) as (M & V); [rewrite Va, Vb; apply FT; auto|]. rewrite Va, Vb in V.
    assert (J : 0 <= r2 w (B2R a * B2R b) <= 1) by (apply R01, R01; auto).
    destruct (cast_ok w t _ M) as (M' & V'); [rewrite V; apply FT; auto|]. cbv zeta. split; auto. rewrite V', V. apply R01. auto. }
  destruct (PW _ _ N1 N1 N2 N2) as (G2 & I2). destruct (PW _ _ G2 N1 I2 N2) as (G3 & _).
  rewrite <- E2. apply (combine_0 s t); auto.
Qed.
