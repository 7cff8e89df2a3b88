(** Proofs about positions through a matrix in floating point. *)
From Coq Require Import ZArith Reals List Bool Lia Lra Psatz.
From Flocq Require Import Core BinarySingleNaN Relative.
From Verif Require Import Model.Base Model.RealM Model.VecM Model.MatM Model.FloatM Model.FloatRayM Model.FloatMatM Spec.FloatMatSpec Proof.FloatP Proof.FloatRayP Proof.FloatMapP.
Local Open Scope R_scope.

Definition r_dot (t1 t2 t3 t4 : R) : R := rd (rd (rd (rd t1 + rd t2) + rd t3) + t4).
Lemma round_abs x : Rabs (rd x) <= Rabs x + (u * Rabs x + eta).
Proof. pose proof (rd_err x). replace (rd x) with (x + (rd x - x)) at 1 by ring. eapply Rle_trans; [apply Rabs_triang|]. lra. Qed.
Lemma dot_err t1 t2 t3 t4 : Rabs (r_dot t1 t2 t3 t4 - (t1 + t2 + t3 + t4)) <= bpow radix2 (-50) * (Rabs t1 + Rabs t2 + Rabs t3 + Rabs t4) + bpow radix2 (-1070).
Proof.
  replace (bpow radix2 (-50)) with (8 * u) by (rewrite u_val; change 8 with (bpow radix2 3); rewrite <- bpow_plus; reflexivity).
  replace (bpow radix2 (-1070)) with (32 * eta) by (unfold eta; change 32 with (bpow radix2 5); rewrite <- bpow_plus; reflexivity).
  pose proof u_small as (U0 & U1). pose proof eta_pos as E0. unfold r_dot.
  pose proof (rd_err t1) as P1. pose proof (rd_err t2) as P2. pose proof (rd_err t3) as P3.
  pose proof (round_abs t1) as A1. pose proof (round_abs t2) as A2. pose proof (round_abs t3) as A3.
  set (p1 := rd t1) in *. set (p2 := rd t2) in *. set (p3 := rd t3) in *.
  set (b1 := Rabs t1) in *. set (b2 := Rabs t2) in *. set (b3 := Rabs t3) in *. set (b4 := Rabs t4).
  assert (B1 : 0 <= b1) by apply Rabs_pos. assert (B2 : 0 <= b2) by apply Rabs_pos. assert (B3 : 0 <= b3) by apply Rabs_pos. assert (B4 : 0 <= b4) by apply Rabs_pos.
  set (T := b1 + b2 + b3 + b4). assert (UB : forall b, 0 <= b -> 0 <= u * b <= / 1000000 * b) by (intros b B; split; [apply Rmult_le_pos; lra|apply Rmult_le_compat_r; lra]).
  pose proof (UB b1 B1). pose proof (UB b2 B2). pose proof (UB b3 B3). pose proof (UB b4 B4).
  assert (S1 : Rabs (p1 + p2) <= Rabs p1 + Rabs p2) by apply Rabs_triang.
  pose proof (rd_err (p1 + p2)) as Q1. pose proof (round_abs (p1 + p2)) as R1. set (q1 := rd (p1 + p2)) in *.
  pose proof (UB _ (Rabs_pos (p1 + p2))) as V1.
  assert (S2 : Rabs (q1 + p3) <= Rabs q1 + Rabs p3) by apply Rabs_triang.
  pose proof (rd_err (q1 + p3)) as Q2. pose proof (round_abs (q1 + p3)) as R2. set (q2 := rd (q1 + p3)) in *.
  pose proof (UB _ (Rabs_pos (q1 + p3))) as V2.
  assert (S3 : Rabs (q2 + t4) <= Rabs q2 + b4) by apply Rabs_triang. pose proof (rd_err (q2 + t4)) as Q3.
  assert (X1 : Rabs (p1 + p2) <= 2 * T + 2 * eta) by (unfold T; lra).
  assert (L1 : Rabs (p1 + p2) <= 1.00001 * T + 3 * eta) by (unfold T; lra).
  assert (L2 : Rabs (q1 + p3) <= 1.0001 * T + 6 * eta) by (unfold T; lra).
  assert (L3 : Rabs (q2 + t4) <= 1.001 * T + 9 * eta) by (unfold T; lra).
  assert (M1 : u * Rabs (p1 + p2) <= u * (1.00001 * T + 3 * eta)) by (apply Rmult_le_compat_l; lra).
  assert (M2 : u * Rabs (q1 + p3) <= u * (1.0001 * T + 6 * eta)) by (apply Rmult_le_compat_l; lra).
  assert (M3 : u * Rabs (q2 + t4) <= u * (1.001 * T + 9 * eta)) by (apply Rmult_le_compat_l; lra).
  assert (UE : 0 <= u * eta <= / 1000000 * eta) by (apply UB; lra). assert (UT : u * T = u * b1 + u * b2 + u * b3 + u * b4) by (unfold T; ring).
  apply Rabs_le_inv in P1. apply Rabs_le_inv in P2. apply Rabs_le_inv in P3. apply Rabs_le_inv in Q1. apply Rabs_le_inv in Q2. apply Rabs_le_inv in Q3.
  apply Rabs_le. split; lra.
Qed.
Lemma rd_pow k x : (-1000 <= k)%Z -> Rabs x <= bpow radix2 k -> Rabs (rd x) <= bpow radix2 k.
Proof. intros K H. apply rd_bpow; auto. Qed.
Lemma prod_fair x y : fair x -> fair y -> Rabs (B2R x * B2R y) <= bpow radix2 800.
Proof. intros (_ & X) (_ & Y). rewrite Rabs_mult. change 800%Z with (400 + 400)%Z. rewrite bpow_plus. apply Rmult_le_compat; auto; apply Rabs_pos. Qed.
Lemma twice k x y : Rabs x <= bpow radix2 k -> Rabs y <= bpow radix2 k -> Rabs (x + y) <= bpow radix2 (1 + k).
Proof. intros X Y. rewrite bpow_plus. change (bpow radix2 1) with 2. pose proof (Rabs_triang x y). lra. Qed.
Lemma fair_small k x : (k <= 1023)%Z -> Rabs x <= bpow radix2 k -> small x.
Proof. intros K X. unfold small. eapply Rle_trans; [exact X|]. apply bpow_le. exact K. Qed.
Definition exact_dot (p : f3) (c : fcol) : R := B2R (f3x p) * B2R (c0 c) + B2R (f3y p) * B2R (c1 c) + B2R (f3z p) * B2R (c2 c) + B2R (c3 c).
Lemma dot_ok p c : fair_point p -> fair_col c ->
  is_finite (f_dot p c) = true /\ B2R (f_dot p c) = r_dot (B2R (f3x p) * B2R (c0 c)) (B2R (f3y p) * B2R (c1 c)) (B2R (f3z p) * B2R (c2 c)) (B2R (c3 c)) /\
  Rabs (B2R (f_dot p c)) <= bpow radix2 803.
Proof.
  intros (X & Y & Z) (C0 & C1 & C2 & C3). unfold f_dot. pose proof (prod_fair _ _ X C0) as P1. pose proof (prod_fair _ _ Y C1) as P2. pose proof (prod_fair _ _ Z C2) as P3.
  destruct (fmul_ok (f3x p) (c0 c) (proj1 X) (proj1 C0)) as (F1 & V1); [apply (fair_small 800); [lia|exact P1]|].
  destruct (fmul_ok (f3y p) (c1 c) (proj1 Y) (proj1 C1)) as (F2 & V2); [apply (fair_small 800); [lia|exact P2]|].
  destruct (fmul_ok (f3z p) (c2 c) (proj1 Z) (proj1 C2)) as (F3 & V3); [apply (fair_small 800); [lia|exact P3]|].
  pose proof (rd_pow 800 _ ltac:(lia) P1) as B1. pose proof (rd_pow 800 _ ltac:(lia) P2) as B2. pose proof (rd_pow 800 _ ltac:(lia) P3) as B3.
  pose proof (twice _ _ _ B1 B2) as S1. destruct (fadd_ok _ _ F1 F2) as (G1 & W1); [rewrite V1, V2; apply (fair_small (1 + 800)); [lia|exact S1]|]. rewrite V1, V2 in W1.
  pose proof (rd_pow (1 + 800) _ ltac:(lia) S1) as T1. assert (B3' : Rabs (rd (B2R (f3z p) * B2R (c2 c))) <= bpow radix2 (1 + 800)) by (eapply Rle_trans; [exact B3|apply bpow_le; lia]).
  pose proof (twice _ _ _ T1 B3') as S2. destruct (fadd_ok _ _ G1 F3) as (G2 & W2); [rewrite W1, V3; apply (fair_small (1 + (1 + 800))); [lia|exact S2]|]. rewrite W1, V3 in W2.
  pose proof (rd_pow (1 + (1 + 800)) _ ltac:(lia) S2) as T2. assert (B4 : Rabs (B2R (c3 c)) <= bpow radix2 (1 + (1 + 800))) by (eapply Rle_trans; [apply C3|apply bpow_le; lia]).
  pose proof (twice _ _ _ T2 B4) as S3. destruct (fadd_ok _ _ G2 (proj1 C3)) as (G3 & W3); [rewrite W2; apply (fair_small (1 + (1 + (1 + 800)))); [lia|exact S3]|]. rewrite W2 in W3.
  split; [exact G3|]. split; [rewrite W3; reflexivity|]. rewrite W3. apply (rd_pow 803); [lia|exact S3].
Qed.
Lemma weight_one p m : fair_point p -> affine_matrix m -> is_finite (f_dot p (colw m)) = true /\ B2R (f_dot p (colw m)) = 1.
Proof.
  intros P (_ & _ & _ & W & E0 & E1 & E2 & E3). destruct (dot_ok p (colw m) P W) as (F & V & _). split; [exact F|]. rewrite V, E0, E1, E2, E3. unfold r_dot.
  rewrite !Rmult_0_r. repeat (first [rewrite rd_0|rewrite Rplus_0_r|rewrite Rplus_0_l]). apply (rd_int 1). lia.
Qed.
Lemma div_one a w : is_finite a = true -> B2R w = 1 -> Rabs (B2R a) <= bpow radix2 803 -> is_finite (fdiv a w) = true /\ B2R (fdiv a w) = B2R a.
Proof.
  intros A W B. destruct (fdiv_ok a w A) as (F & V); [rewrite W; lra|rewrite W; unfold Rdiv; rewrite Rinv_1, Rmult_1_r; apply (fair_small 803); [lia|exact B]|].
  split; [exact F|]. rewrite V, W. unfold Rdiv. rewrite Rinv_1, Rmult_1_r. apply round_generic; [typeclasses eauto|]. apply generic_format_B2R.
Qed.
Lemma mult_ok p m : fair_point p -> affine_matrix m -> finite_point (f_mult_vec m p) /\
  B2R (f3x (f_mult_vec m p)) = B2R (f_dot p (colx m)) /\ B2R (f3y (f_mult_vec m p)) = B2R (f_dot p (coly m)) /\ B2R (f3z (f_mult_vec m p)) = B2R (f_dot p (colz m)).
Proof.
  intros P A. destruct (weight_one p m P A) as (_ & W). destruct A as (X & Y & Z & _). destruct (dot_ok p _ P X) as (FX & _ & BX). destruct (dot_ok p _ P Y) as (FY & _ & BY). destruct (dot_ok p _ P Z) as (FZ & _ & BZ).
  unfold f_mult_vec, finite_point. cbn [f3x f3y f3z]. destruct (div_one _ _ FX W BX) as (-> & ->). destruct (div_one _ _ FY W BY) as (-> & ->). destruct (div_one _ _ FZ W BZ) as (-> & ->). auto 10.
Qed.
Lemma dot_error p c : fair_point p -> fair_col c -> Rabs (B2R (f_dot p c) - exact_dot p c) <= error p c.
Proof. intros P C. destruct (dot_ok p c P C) as (_ & V & _). rewrite V. apply dot_err. Qed.
(** The exact image. *)
Lemma exact_image p m : affine_matrix m -> mult_vec (matrix_of m) (point_of p) = Some (R3 (exact_dot p (colx m)) (exact_dot p (coly m)) (exact_dot p (colz m))).
Proof.
  intros (_ & _ & _ & _ & E0 & E1 & E2 & E3). unfold mult_vec, matrix_of, point_of, rowmul, row_of, exact_dot. cbn [e0 e1 e2 e3 rx ry rz row0 row1 row2 row3]. rewrite E0, E1, E2, E3.
  assert (N : reqb (B2R (f3x p) * 0 + B2R (f3y p) * 0 + B2R (f3z p) * 0 + 1 * 1) 0 = false).
  { unfold reqb. destruct (Req_EM_T _ _); auto. exfalso. lra. }
  rewrite N. f_equal. f_equal; field.
Qed.
