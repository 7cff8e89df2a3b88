(** Proofs about linear interpolation in floating point. *)
From Coq Require Import ZArith Reals List Bool Lia Lra Psatz.
From Flocq Require Import Core BinarySingleNaN Relative.
From Verif Require Import Model.Base Model.FloatM Proof.BaseP.
Local Open Scope R_scope.

(** * Rounding to binary64 *)
Definition fe64 : Z -> Z := FLT_exp (-1074) 53.
Notation rd := (round radix2 fe64 ZnearestE).
Definition u : R := / IZR (2 ^ 53).
Definition eta : R := bpow radix2 (-1075).
#[global] Instance valid64 : Valid_exp fe64.
Proof. apply FLT_exp_valid. reflexivity. Qed.
Lemma fexp64 : SpecFloat.fexp 53 1024 = fe64.
Proof. reflexivity. Qed.
Lemma eta_pos : 0 < eta.
Proof. apply bpow_gt_0. Qed.
Lemma u_val : u = bpow radix2 (-53).
Proof. reflexivity. Qed.
Lemma u_small : 0 < u <= / 1000000.
Proof.
  unfold u. split; [apply Rinv_0_lt_compat; apply IZR_lt; reflexivity|]. apply Rinv_le; [lra|]. apply IZR_le. discriminate.
Qed.
Lemma rd_err x : Rabs (rd x - x) <= u * Rabs x + eta.
Proof.
  destruct (error_N_FLT radix2 (-1074) 53 eq_refl (fun x => negb (Z.even x)) x) as (e & h & A & B & _ & E).
  unfold fe64. rewrite E. replace (x * (1 + e) + h - x) with (e * x + h) by ring.
  eapply Rle_trans; [apply Rabs_triang|]. rewrite Rabs_mult. apply Rplus_le_compat.
  - apply Rmult_le_compat_r; [apply Rabs_pos|]. eapply Rle_trans; [exact A|]. rewrite u_val. replace (bpow radix2 (-53)) with (bpow radix2 (-1) * bpow radix2 (- (53) + 1)) by (rewrite <- bpow_plus; reflexivity). apply Req_le. reflexivity.
  - eapply Rle_trans; [exact B|]. unfold eta. replace (bpow radix2 (-1075)) with (bpow radix2 (-1) * bpow radix2 (-1074)) by (rewrite <- bpow_plus; reflexivity). apply Req_le. reflexivity.
Qed.
Lemma rd_le x y : x <= y -> rd x <= rd y.
Proof. intros. apply round_le; auto; typeclasses eauto. Qed.
Lemma rd_0 : rd 0 = 0.
Proof. apply round_0. typeclasses eauto. Qed.
Lemma rd_opp x : rd (- x) = - rd x.
Proof. apply round_NE_opp. Qed.
Lemma rd_int z : (Z.abs z <= 2 ^ 53)%Z -> rd (IZR z) = IZR z.
Proof.
  intros H. apply round_generic; [typeclasses eauto|]. destruct (Z.eq_dec (Z.abs z) (2 ^ 53)) as [E|N].
  - assert (X : generic_format radix2 fe64 (bpow radix2 53)) by (apply generic_format_bpow; unfold fe64, FLT_exp; lia).
    change (bpow radix2 53) with (IZR (2 ^ 53)) in X. destruct (Z.abs_eq_or_opp z) as [A|A]; rewrite A in E.
    + rewrite E. exact X.
    + replace z with (- 2 ^ 53)%Z by lia. rewrite opp_IZR. apply generic_format_opp. exact X.
  - apply generic_format_FLT. exists (Float radix2 z 0); cbn; try lia; try (unfold F2R; cbn; ring).
Qed.

Lemma rd_01 x : 0 <= x <= 1 -> 0 <= rd x <= 1.
Proof.
  intros (A & B). apply rd_le in A. apply rd_le in B. rewrite rd_0 in A. rewrite (rd_int 1) in B by discriminate. auto.
Qed.

(** * Operations that do not overflow *)
Definition small (x : R) : Prop := Rabs x <= bpow radix2 1023.
Lemma small_round x : small x -> Rlt_bool (Rabs (rd x)) (bpow radix2 1024) = true.
Proof.
  intros H. apply Rlt_bool_true. apply Rle_lt_trans with (bpow radix2 1023); [|apply bpow_lt; lia].
  apply abs_round_le_generic; auto; try typeclasses eauto. apply generic_format_bpow. unfold fe64, FLT_exp. lia.
Qed.
Lemma fadd_ok x y : is_finite x = true -> is_finite y = true -> small (B2R x + B2R y) ->
  is_finite (fadd x y) = true /\ B2R (fadd x y) = rd (B2R x + B2R y).
Proof.
  intros X Y S. pose proof (Bplus_correct 53 1024 _ _ mode_NE x y X Y) as H. cbn [round_mode] in H. rewrite fexp64, (small_round _ S) in H. tauto.
Qed.
Lemma fsub_ok x y : is_finite x = true -> is_finite y = true -> small (B2R x - B2R y) ->
  is_finite (fsub x y) = true /\ B2R (fsub x y) = rd (B2R x - B2R y).
Proof.
  intros X Y S. pose proof (Bminus_correct 53 1024 _ _ mode_NE x y X Y) as H. cbn [round_mode] in H. rewrite fexp64, (small_round _ S) in H. tauto.
Qed.
Lemma fmul_ok x y : is_finite x = true -> is_finite y = true -> small (B2R x * B2R y) ->
  is_finite (fmul x y) = true /\ B2R (fmul x y) = rd (B2R x * B2R y).
Proof.
  intros X Y S. pose proof (Bmult_correct 53 1024 _ _ mode_NE x y) as H. cbn [round_mode] in H. rewrite fexp64, (small_round _ S), X, Y in H. tauto.
Qed.
Lemma big_small x k : Rabs x <= IZR k -> (k <= 2 ^ 60)%Z -> small x.
Proof. intros H K. unfold small. eapply Rle_trans; [exact H|]. eapply Rle_trans; [apply IZR_le; exact K|]. change (IZR (2 ^ 60)) with (bpow radix2 60). apply bpow_le. lia. Qed.
Lemma of_int_ok z : (Z.abs z <= 2 ^ 53)%Z -> is_finite (of_int z) = true /\ B2R (of_int z) = IZR z.
Proof.
  intros H. pose proof (binary_normalize_correct 53 1024 _ _ mode_NE z 0 false) as N. cbv zeta in N. cbn [round_mode] in N. rewrite fexp64 in N.
  assert (E : F2R (Float radix2 z 0) = IZR z) by (unfold F2R; cbn; ring). rewrite E, small_round, rd_int in N; auto.
  - unfold of_int. tauto.
  - apply (big_small _ (Z.abs z)); [rewrite <- abs_IZR; lra|lia].
Qed.
Lemma one_ok : is_finite f_one = true /\ B2R f_one = 1.
Proof. apply (of_int_ok 1). discriminate. Qed.
Lemma half_ok : is_finite f_half = true /\ B2R f_half = / 2.
Proof. split; [reflexivity|]. unfold f_half. cbn. unfold F2R. cbn. lra. Qed.

(** * Weights *)
Definition weight (a : f64) : Prop := is_finite a = true /\ 0 <= B2R a <= 1.
Definition weights (a b : f64) : Prop := weight a /\ weight b /\ Rabs (B2R a + B2R b - 1) <= 2 * u.
Lemma eta_u : eta <= u.
Proof. rewrite u_val. apply bpow_le. lia. Qed.
Lemma floor_ok x c : is_finite x = true -> floor_int x = Ok c -> IZR c <= B2R x < IZR c + 1 /\ (- 2 ^ 31 <= c < 2 ^ 31)%Z.
Proof.
  intros F H. unfold floor_int in H. rewrite F in H.
  destruct (Bnearbyint_correct 53 1024 _ mode_DN x) as (A & _). pose proof (Btrunc_correct 53 1024 _ (Bnearbyint mode_DN x)) as T.
  rewrite A in T. cbn [round_mode] in T.
  assert (Q : forall r rnd, round radix2 (FIX_exp 0) rnd r = IZR (rnd r)).
  { intros. unfold round, scaled_mantissa, cexp, FIX_exp, F2R. cbn. rewrite !Rmult_1_r. reflexivity. }
  rewrite !Q, Ztrunc_IZR in T. apply eq_IZR in T. rewrite T in H. apply i32_inv in H. destruct H as (-> & H).
  split; [|unfold int_min, int_max in H; lia]. split; [apply Zfloor_lb|]. apply Zfloor_ub.
Qed.
Lemma fsub_half_fin x : is_finite (fsub x f_half) = true -> is_finite x = true /\ B2R (fsub x f_half) = rd (B2R x - / 2).
Proof.
  intros P. destruct half_ok as (HF & HV). assert (F : is_finite x = true) by (destruct x as [[]|[]| |[]]; auto). split; auto.
  pose proof (Bminus_correct 53 1024 _ _ mode_NE x f_half F HF) as H. cbn [round_mode] in H. rewrite fexp64, HV in H. fold (fsub x f_half) in H.
  destruct (Rlt_bool _ _); [tauto|]. destruct H as (H & _). rewrite <- is_finite_SF_B2SF, H in P.
  unfold binary_overflow in P. cbn in P. discriminate.
Qed.
(** The lower corner is less than one voxel away; so is the upper one, unless its weight is nought. *)
Definition close (x : f64) (c : Z) : Prop := Rabs (IZR c + / 2 - B2R x) < 1.
Lemma corner_val x c1 c2 a b : f_corner x = Ok (c1, c2, a, b) ->
  is_finite x = true /\ c2 = (c1 + 1)%Z /\ (- 2 ^ 31 <= c1 < 2 ^ 31)%Z /\ IZR c1 <= rd (B2R x - / 2) < IZR c1 + 1 /\
  is_finite a = true /\ B2R a = rd (IZR c1 + 1 - rd (B2R x - / 2)) /\ 0 <= B2R a <= 1 /\
  is_finite b = true /\ B2R b = rd (1 - B2R a) /\ 0 <= B2R b <= 1.
Proof.
  intros H. unfold f_corner in H. destruct one_ok as (OF & OV). cbv zeta in H.
  destruct (floor_int (fsub x f_half)) as [c| |] eqn:E; cbn [bind] in H; try discriminate.
  assert (PF : is_finite (fsub x f_half) = true) by (unfold floor_int in E; destruct (is_finite (fsub x f_half)); auto; discriminate).
  destruct (fsub_half_fin x PF) as (F & PV). split; auto. set (p := fsub x f_half) in *.
  destruct (floor_ok p c PF E) as (B & C).
  destruct (i32 (c + 1)) as [d| |] eqn:D; cbn [bind] in H; try discriminate. cbv zeta in H.
  remember (fsub (of_int d) p) as g1 eqn:G1. remember (fsub f_one g1) as g2 eqn:G2. injection H as <- <- <- <-.
  assert (Ed : d = (c + 1)%Z) by (apply i32_inv in D; tauto). subst d g1 g2.
  destruct (of_int_ok (c + 1)) as (IF & IV); [lia|]. rewrite plus_IZR in IV.
  destruct (fsub_ok (of_int (c + 1)) p IF PF) as (AF & AV); [rewrite IV; apply (big_small _ 1); [rewrite Rabs_pos_eq; lra|lia]|].
  rewrite IV in AV. set (a := fsub (of_int (c + 1)) p) in *.
  assert (A1 : 0 <= B2R a <= 1).
  { rewrite AV. apply rd_01. lra. }
  destruct (fsub_ok f_one a OF AF) as (BF & BV); [rewrite OV; apply (big_small _ 1); [rewrite Rabs_pos_eq; lra|lia]|]. rewrite OV in BV.
  set (b := fsub f_one a) in *.
  assert (B1 : 0 <= B2R b <= 1).
  { rewrite BV. apply rd_01. lra. }
  rewrite PV in *. auto 12.
Qed.
Lemma corner_ok x c1 c2 a b : f_corner x = Ok (c1, c2, a, b) ->
  is_finite x = true /\ weights a b /\ c2 = (c1 + 1)%Z /\ close x c1 /\ (B2R b = 0 \/ close x c2).
Proof.
  intros H. destruct (corner_val _ _ _ _ _ H) as (F & Ed & C & B & AF & AV & A1 & BF & BV & B1). split; auto. rename c1 into c. subst c2.
  set (p := rd (B2R x - / 2)) in *.
  assert (I : forall k, (- 2 ^ 31 - 5 <= k <= 2 ^ 31 + 5)%Z -> B2R x - / 2 <= IZR k -> p <= IZR k).
  { intros k K L. unfold p. rewrite <- (rd_int k) by lia. apply rd_le. auto. }
  assert (J : forall k, (- 2 ^ 31 - 5 <= k <= 2 ^ 31 + 5)%Z -> IZR k <= B2R x - / 2 -> IZR k <= p).
  { intros k K L. unfold p. rewrite <- (rd_int k) by lia. apply rd_le. auto. }
  assert (Up : B2R x - / 2 < IZR (c + 1)).
  { destruct (Rlt_le_dec (B2R x - / 2) (IZR (c + 1))) as [L|L]; auto. apply J in L; [|lia]. rewrite plus_IZR in L. lra. }
  assert (Dn : IZR (c - 1) < B2R x - / 2).
  { destruct (Rlt_le_dec (IZR (c - 1)) (B2R x - / 2)) as [L|L]; auto. apply I in L; [|lia]. rewrite minus_IZR in L. lra. }
  rewrite plus_IZR in Up. rewrite minus_IZR in Dn.
  split; [|split; [auto|split]].
  - split; [split; auto|]. split; [split; auto|]. rewrite BV.
    replace (B2R a + rd (1 - B2R a) - 1) with (rd (1 - B2R a) - (1 - B2R a)) by ring.
    eapply Rle_trans; [apply rd_err|]. rewrite Rabs_pos_eq by lra. pose proof eta_u. pose proof u_small. nra.
  - apply Rabs_def1; lra.
  - unfold close. rewrite plus_IZR. destruct (Rlt_le_dec (IZR c) (B2R x - / 2)) as [L|L].
    + right. apply Rabs_def1; lra.
    + left. apply I in L; [|lia]. assert (Q : B2R a = 1).
      { rewrite AV. replace (IZR c + 1 - p) with 1 by lra. apply (rd_int 1). discriminate. }
      rewrite BV, Q, Rminus_diag_eq by auto. apply rd_0.
Qed.
(** At the centre of a voxel that voxel has all the weight. *)
Lemma corner_centre x c1 c2 a b i : f_corner x = Ok (c1, c2, a, b) -> B2R x = IZR i + / 2 -> c1 = i /\ B2R a = 1 /\ B2R b = 0.
Proof.
  intros H E. destruct (corner_val _ _ _ _ _ H) as (F & Ed & C & B & AF & AV & A1 & BF & BV & B1).
  destruct (corner_ok _ _ _ _ _ H) as (_ & _ & _ & N & _). unfold close in N. apply Rabs_def2 in N. rewrite E in *.
  assert (Q : c1 = i).
  { assert (IZR c1 < IZR (i + 1)) by (rewrite plus_IZR; lra). assert (IZR (i - 1) < IZR c1) by (rewrite minus_IZR; lra). apply lt_IZR in H0, H1. lia. }
  subst i. split; auto. replace (IZR c1 + / 2 - / 2) with (IZR c1) in * by lra. rewrite rd_int in * by lia.
  assert (A : B2R a = 1) by (rewrite AV; replace (IZR c1 + 1 - IZR c1) with 1 by ring; apply (rd_int 1); discriminate).
  split; auto. rewrite BV, A, Rminus_diag_eq by auto. apply rd_0.
Qed.
(** The weights against those of the exact position. *)
Lemma corner_err x c1 c2 a b : f_corner x = Ok (c1, c2, a, b) -> exists p, IZR c1 <= p < IZR c1 + 1 /\
  Rabs (p - (B2R x - / 2)) <= u * Rabs (B2R x - / 2) + eta /\ Rabs (B2R a - (IZR c1 + 1 - p)) <= 2 * u /\ Rabs (B2R b - (p - IZR c1)) <= 4 * u.
Proof.
  intros H. destruct (corner_val _ _ _ _ _ H) as (F & Ed & C & B & AF & AV & A1 & BF & BV & B1).
  exists (rd (B2R x - / 2)). set (p := rd (B2R x - / 2)) in *. split; auto. split; [apply rd_err|].
  pose proof u_small. pose proof eta_u.
  assert (EA : Rabs (B2R a - (IZR c1 + 1 - p)) <= 2 * u).
  { rewrite AV. eapply Rle_trans; [apply rd_err|]. rewrite Rabs_pos_eq by lra. nra. }
  split; auto. assert (EB : Rabs (B2R b - (1 - B2R a)) <= 2 * u).
  { rewrite BV. eapply Rle_trans; [apply rd_err|]. rewrite Rabs_pos_eq by lra. nra. }
  apply Rabs_le_inv in EA, EB. apply Rabs_le. lra.
Qed.
Lemma corner_defined x : is_finite x = true -> - IZR (2 ^ 31) + / 2 <= B2R x < IZR (2 ^ 31) - 1 -> exists c, f_corner x = Ok c.
Proof.
  intros F (L & U). destruct half_ok as (HF & HV).
  destruct (fsub_ok x f_half F HF) as (PF & PV).
  { rewrite HV. apply (big_small _ (2 ^ 32)); [|lia]. apply Rabs_le. change (IZR (2 ^ 31)) with 2147483648 in *. change (IZR (2 ^ 32)) with 4294967296. lra. }
  rewrite HV in PV. unfold f_corner. cbv zeta.
  assert (A : IZR (- 2 ^ 31) <= B2R (fsub x f_half)).
  { rewrite PV, <- (rd_int (- 2 ^ 31)) by lia. apply rd_le. change (IZR (2 ^ 31)) with 2147483648 in *. change (IZR (- 2 ^ 31)) with (-2147483648). lra. }
  assert (B : B2R (fsub x f_half) < IZR (2 ^ 31 - 1)).
  { rewrite PV. apply Rle_lt_trans with (IZR (2 ^ 31) - 3 / 2).
    - assert (Q : rd (IZR (2 ^ 31) - 3 / 2) = IZR (2 ^ 31) - 3 / 2).
      { apply round_generic; [typeclasses eauto|]. apply generic_format_FLT. exists (Float radix2 (2 ^ 32 - 3) (-1)); cbn; try lia. unfold F2R. cbn. lra. }
      rewrite <- Q. apply rd_le. lra.
    - change (IZR (2 ^ 31)) with 2147483648. change (IZR (2 ^ 31 - 1)) with 2147483647. lra. }
  unfold floor_int. rewrite PF.
  destruct (Bnearbyint_correct 53 1024 _ mode_DN (fsub x f_half)) as (N & _). pose proof (Btrunc_correct 53 1024 _ (Bnearbyint mode_DN (fsub x f_half))) as T.
  rewrite N in T. cbn [round_mode] in T.
  assert (Q : forall r rnd, round radix2 (FIX_exp 0) rnd r = IZR (rnd r)).
  { intros. unfold round, scaled_mantissa, cexp, FIX_exp, F2R. cbn. rewrite !Rmult_1_r. reflexivity. }
  rewrite !Q, Ztrunc_IZR in T. apply eq_IZR in T. rewrite T. set (c := Zfloor (B2R (fsub x f_half))).
  assert (C1 : (- 2 ^ 31 <= c)%Z) by (apply Zfloor_lub; auto).
  assert (C2 : (c < 2 ^ 31 - 1)%Z) by (apply lt_IZR; eapply Rle_lt_trans; [apply Zfloor_lb|auto]).
  rewrite i32_ok by (unfold int_min, int_max; lia). cbn [bind]. rewrite i32_ok by (unfold int_min, int_max; lia). cbn [bind]. eauto.
Qed.

(** * The weighted sum of two values *)
Definition mixr (a b v w : R) : R := rd (rd (a * v) + rd (b * w)).
Lemma mixr_mono a b v w v' w' : 0 <= a -> 0 <= b -> v <= v' -> w <= w' -> mixr a b v w <= mixr a b v' w'.
Proof. intros A B V W. apply rd_le. apply Rplus_le_compat; apply rd_le; apply Rmult_le_compat_l; auto. Qed.
Lemma mixr_opp a b v w : mixr a b (- v) (- w) = - mixr a b v w.
Proof. unfold mixr. rewrite !Ropp_mult_distr_r_reverse, !rd_opp, <- Ropp_plus_distr, rd_opp. auto. Qed.
Lemma mixr_const a b K : 0 <= a <= 1 -> 0 <= b <= 1 -> Rabs (a + b - 1) <= 2 * u -> Rabs (mixr a b K K - K) <= 5 * u * Rabs K + 4 * eta.
Proof.
  intros A B S. pose proof u_small as U. pose proof eta_pos as E. set (k := Rabs K). assert (Hk : 0 <= k) by apply Rabs_pos.
  pose proof (rd_err (a * K)) as E1. pose proof (rd_err (b * K)) as E2. rewrite !Rabs_mult, (Rabs_pos_eq a), (Rabs_pos_eq b) in * by lra. fold k in E1, E2.
  set (s := rd (a * K) + rd (b * K)).
  assert (D : Rabs (s - K) <= u * (a + b) * k + 2 * eta + 2 * u * k).
  { replace (s - K) with ((rd (a * K) - a * K) + (rd (b * K) - b * K) + (a + b - 1) * K) by (unfold s; ring).
    eapply Rle_trans; [apply Rabs_triang|]. eapply Rle_trans; [apply Rplus_le_compat_r, Rabs_triang|]. rewrite Rabs_mult. fold k.
    assert (Rabs (a + b - 1) * k <= 2 * u * k) by (apply Rmult_le_compat_r; auto). lra. }
  assert (AB : a + b <= 1 + 2 * u) by (apply Rabs_le_inv in S; lra).
  assert (D2 : Rabs (s - K) <= 7/2 * u * k + 2 * eta).
  { eapply Rle_trans; [exact D|]. assert (u * (a + b) * k <= u * (3/2) * k) by (apply Rmult_le_compat_r; auto; apply Rmult_le_compat_l; lra). lra. }
  assert (Sk : Rabs s <= k + (7/2 * u * k + 2 * eta)).
  { replace s with (K + (s - K)) by ring. eapply Rle_trans; [apply Rabs_triang|]. fold k. lra. }
  pose proof (rd_err s) as E3. unfold mixr. fold s. replace (rd s - K) with ((rd s - s) + (s - K)) by ring.
  eapply Rle_trans; [apply Rabs_triang|].
  assert (u * Rabs s <= u * (k + (7/2 * u * k + 2 * eta))) by (apply Rmult_le_compat_l; lra).
  assert (u * (7/2 * u * k) <= /4 * (u * k)) by (assert (0 <= u * k) by (apply Rmult_le_pos; lra); nra).
  assert (u * (2 * eta) <= eta / 2) by nra. nra.
Qed.
Lemma mixr_skip a b v w v' w' : (a = 0 \/ v = v') -> (b = 0 \/ w = w') -> mixr a b v w = mixr a b v' w'.
Proof. intros [->| ->] [->| ->]; unfold mixr; rewrite ?Rmult_0_l; auto. Qed.
Lemma mixr_mono0 a b v w v' w' : 0 <= a -> 0 <= b -> (a = 0 \/ v <= v') -> (b = 0 \/ w <= w') -> mixr a b v w <= mixr a b v' w'.
Proof.
  intros A B V W. apply rd_le. apply Rplus_le_compat; apply rd_le.
  - destruct V as [->|V]; [lra|]. apply Rmult_le_compat_l; auto.
  - destruct W as [->|W]; [lra|]. apply Rmult_le_compat_l; auto.
Qed.
Lemma mixr_0 a b : mixr a b 0 0 = 0.
Proof. unfold mixr. rewrite !Rmult_0_r, rd_0, Rplus_0_l. apply rd_0. Qed.
Lemma mixr_one v w : rd v = v -> mixr 1 0 v w = v.
Proof. intros E. unfold mixr. rewrite Rmult_1_l, Rmult_0_l, rd_0, Rplus_0_r, E, E. auto. Qed.
(** Against the exact sum with other weights and values. *)
Lemma mixr_err a b a0 b0 v w v0 w0 B d : 0 <= a <= 1 -> 0 <= b <= 1 -> Rabs (a + b - 1) <= 2 * u -> Rabs (a - a0) <= 2 * u -> Rabs (b - b0) <= 4 * u ->
  Rabs (v - v0) <= d -> Rabs (w - w0) <= d -> Rabs v0 <= B -> Rabs w0 <= B ->
  Rabs (mixr a b v w - (a0 * v0 + b0 * w0)) <= d + 10 * u * B + 5 * u * d + 4 * eta.
Proof.
  intros A Bb S EA EB V W V0 W0. pose proof u_small as U. pose proof eta_pos as E.
  assert (d0 : 0 <= d) by (eapply Rle_trans; [apply Rabs_pos|exact V]). assert (B0 : 0 <= B) by (eapply Rle_trans; [apply Rabs_pos|exact V0]).
  assert (AB : a + b <= 1 + 2 * u) by (apply Rabs_le_inv in S; lra).
  assert (Vb : Rabs v <= B + d) by (replace v with (v0 + (v - v0)) by ring; eapply Rle_trans; [apply Rabs_triang|]; lra).
  assert (Wb : Rabs w <= B + d) by (replace w with (w0 + (w - w0)) by ring; eapply Rle_trans; [apply Rabs_triang|]; lra).
  pose proof (rd_err (a * v)) as E1. pose proof (rd_err (b * w)) as E2. rewrite !Rabs_mult, (Rabs_pos_eq a), (Rabs_pos_eq b) in * by lra.
  set (s := rd (a * v) + rd (b * w)). set (x := a0 * v0 + b0 * w0).
  assert (Pa : a * Rabs v <= a * (B + d)) by (apply Rmult_le_compat_l; lra). assert (Pb : b * Rabs w <= b * (B + d)) by (apply Rmult_le_compat_l; lra).
  assert (Qa : a * Rabs (v - v0) <= a * d) by (apply Rmult_le_compat_l; lra). assert (Qb : b * Rabs (w - w0) <= b * d) by (apply Rmult_le_compat_l; lra).
  assert (Ra : Rabs (a - a0) * Rabs v0 <= 2 * u * B) by (apply Rmult_le_compat; auto using Rabs_pos). assert (Rb : Rabs (b - b0) * Rabs w0 <= 4 * u * B) by (apply Rmult_le_compat; auto using Rabs_pos).
  assert (ABd : (a + b) * (B + d) <= (1 + 2 * u) * (B + d)) by (apply Rmult_le_compat_r; lra). assert (ABd' : (a + b) * d <= (1 + 2 * u) * d) by (apply Rmult_le_compat_r; lra).
  assert (uB : 0 <= u * B) by (apply Rmult_le_pos; lra). assert (ud : 0 <= u * d) by (apply Rmult_le_pos; lra).
  assert (uuB : u * (u * B) <= / 1000000 * (u * B)) by (apply Rmult_le_compat_r; lra). assert (uud : u * (u * d) <= / 1000000 * (u * d)) by (apply Rmult_le_compat_r; lra).
  assert (ue : u * eta <= / 1000000 * eta) by (apply Rmult_le_compat_r; lra).
  assert (P1 : u * (a * Rabs v) + u * (b * Rabs w) <= u * ((1 + 2 * u) * (B + d))).
  { rewrite <- Rmult_plus_distr_l. apply Rmult_le_compat_l; lra. }
  assert (S1 : Rabs (s - (a * v + b * w)) <= u * ((1 + 2 * u) * (B + d)) + 2 * eta).
  { replace (s - (a * v + b * w)) with ((rd (a * v) - a * v) + (rd (b * w) - b * w)) by (unfold s; ring). eapply Rle_trans; [apply Rabs_triang|]. lra. }
  assert (S2 : Rabs (a * v + b * w - x) <= (1 + 2 * u) * d + 6 * u * B).
  { replace (a * v + b * w - x) with ((a * (v - v0) + b * (w - w0)) + ((a - a0) * v0 + (b - b0) * w0)) by (unfold x; ring).
    eapply Rle_trans; [apply Rabs_triang|]. eapply Rle_trans; [apply Rplus_le_compat; apply Rabs_triang|]. rewrite !Rabs_mult, (Rabs_pos_eq a), (Rabs_pos_eq b) by lra. lra. }
  assert (S3 : Rabs (a * v + b * w) <= (1 + 2 * u) * (B + d)).
  { eapply Rle_trans; [apply Rabs_triang|]. rewrite !Rabs_mult, (Rabs_pos_eq a), (Rabs_pos_eq b) by lra. lra. }
  assert (S4 : Rabs s <= (1 + 2 * u) * (B + d) + (u * ((1 + 2 * u) * (B + d)) + 2 * eta)).
  { replace s with ((a * v + b * w) + (s - (a * v + b * w))) by ring. eapply Rle_trans; [apply Rabs_triang|]. lra. }
  pose proof (rd_err s) as S5. assert (S6 : u * Rabs s <= u * ((1 + 2 * u) * (B + d) + (u * ((1 + 2 * u) * (B + d)) + 2 * eta))) by (apply Rmult_le_compat_l; lra).
  unfold mixr. fold s. replace (rd s - x) with ((rd s - s) + (s - (a * v + b * w)) + (a * v + b * w - x)) by ring.
  eapply Rle_trans; [apply Rabs_triang|]. eapply Rle_trans; [apply Rplus_le_compat_r, Rabs_triang|].
  assert (uuuB : u * (u * (u * B)) <= / 1000000 * (u * B)) by (eapply Rle_trans; [apply Rmult_le_compat_l; [lra|exact uuB]|]; nra).
  assert (uuud : u * (u * (u * d)) <= / 1000000 * (u * d)) by (eapply Rle_trans; [apply Rmult_le_compat_l; [lra|exact uud]|]; nra).
  lra.
Qed.
Lemma mixr_le a b v w K : 0 <= a <= 1 -> 0 <= b <= 1 -> Rabs (a + b - 1) <= 2 * u -> (a = 0 \/ v <= K) -> (b = 0 \/ w <= K) ->
  mixr a b v w <= K + 5 * u * Rabs K + 4 * eta.
Proof.
  intros A B S V W. eapply Rle_trans; [apply (mixr_mono0 a b v w K K); auto; lra|]. pose proof (mixr_const a b K A B S) as H. apply Rabs_le_inv in H. lra.
Qed.

(** * The weighted sum of eight *)
Definition tri (ax bx ay by_ az bz v1 v2 v3 v4 v5 v6 v7 v8 : R) : R :=
  mixr ax bx (mixr ay by_ (mixr az bz v1 v2) (mixr az bz v3 v4)) (mixr ay by_ (mixr az bz v5 v6) (mixr az bz v7 v8)).
Definition spread (K : R) : R := 16 * u * Rabs K + 16 * eta.
Lemma grow K : let K1 := K + 5 * u * Rabs K + 4 * eta in let K2 := K1 + 5 * u * Rabs K1 + 4 * eta in K2 + 5 * u * Rabs K2 + 4 * eta <= K + spread K.
Proof.
  intros K1 K2. pose proof u_small as U. pose proof eta_pos as E. unfold spread. set (k := Rabs K) in *. assert (Hk : 0 <= k) by apply Rabs_pos.
  assert (uk : 0 <= u * k) by (apply Rmult_le_pos; lra).
  assert (uuk : u * (u * k) <= / 1000 * (u * k)) by (apply Rmult_le_compat_r; lra). assert (ue : u * eta <= / 1000 * eta) by (apply Rmult_le_compat_r; lra).
  assert (A1 : Rabs K1 <= k + 5 * u * k + 4 * eta).
  { unfold K1. eapply Rle_trans; [apply Rabs_triang|]. eapply Rle_trans; [apply Rplus_le_compat_r, Rabs_triang|]. fold k.
    rewrite !Rabs_pos_eq by (try apply Rmult_le_pos; lra). lra. }
  assert (B1 : u * Rabs K1 <= u * k + u * k / 100 + eta / 100).
  { eapply Rle_trans; [apply Rmult_le_compat_l; [lra|exact A1]|]. lra. }
  assert (A2 : Rabs K2 <= Rabs K1 + 5 * u * Rabs K1 + 4 * eta).
  { unfold K2. assert (0 <= Rabs K1) by apply Rabs_pos. assert (0 <= u * Rabs K1) by (apply Rmult_le_pos; lra).
    eapply Rle_trans; [apply Rabs_triang|]. eapply Rle_trans; [apply Rplus_le_compat_r, Rabs_triang|].
    rewrite (Rabs_pos_eq (5 * u * Rabs K1)), (Rabs_pos_eq (4 * eta)) by lra. lra. }
  assert (A3 : Rabs K2 <= k + 11 * (u * k) + 9 * eta) by lra.
  assert (B2 : u * Rabs K2 <= u * k + u * k / 50 + eta / 50).
  { eapply Rle_trans; [apply Rmult_le_compat_l; [lra|exact A3]|]. lra. }
  assert (E1 : K1 = K + 5 * u * k + 4 * eta) by reflexivity. assert (E2 : K2 = K1 + 5 * u * Rabs K1 + 4 * eta) by reflexivity. clearbody K2 K1. lra.
Qed.
Section Eight.
Context (ax bx ay by_ az bz : R) (X : 0 <= ax <= 1 /\ 0 <= bx <= 1 /\ Rabs (ax + bx - 1) <= 2 * u)
  (Y : 0 <= ay <= 1 /\ 0 <= by_ <= 1 /\ Rabs (ay + by_ - 1) <= 2 * u) (Z : 0 <= az <= 1 /\ 0 <= bz <= 1 /\ Rabs (az + bz - 1) <= 2 * u).
Context (v1 v2 v3 v4 v5 v6 v7 v8 : R).
Definition weighed (P : R -> R -> Prop) (w1 w2 w3 w4 w5 w6 w7 w8 : R) : Prop :=
  (ax <> 0 -> ay <> 0 -> az <> 0 -> P v1 w1) /\ (ax <> 0 -> ay <> 0 -> bz <> 0 -> P v2 w2) /\
  (ax <> 0 -> by_ <> 0 -> az <> 0 -> P v3 w3) /\ (ax <> 0 -> by_ <> 0 -> bz <> 0 -> P v4 w4) /\
  (bx <> 0 -> ay <> 0 -> az <> 0 -> P v5 w5) /\ (bx <> 0 -> ay <> 0 -> bz <> 0 -> P v6 w6) /\
  (bx <> 0 -> by_ <> 0 -> az <> 0 -> P v7 w7) /\ (bx <> 0 -> by_ <> 0 -> bz <> 0 -> P v8 w8).
Ltac zero := match goal with |- ?a = 0 \/ _ => destruct (Req_dec a 0); [left; assumption|right] end.
Lemma tri_mono w1 w2 w3 w4 w5 w6 w7 w8 : weighed Rle w1 w2 w3 w4 w5 w6 w7 w8 ->
  tri ax bx ay by_ az bz v1 v2 v3 v4 v5 v6 v7 v8 <= tri ax bx ay by_ az bz w1 w2 w3 w4 w5 w6 w7 w8.
Proof.
  intros (H1 & H2 & H3 & H4 & H5 & H6 & H7 & H8). destruct X as (X1 & X2 & X3), Y as (Y1 & Y2 & Y3), Z as (Z1 & Z2 & Z3). unfold tri.
  destruct X1, X2, Y1, Y2, Z1, Z2. apply mixr_mono0; auto; zero; apply mixr_mono0; auto; zero; apply mixr_mono0; auto; zero; auto.
Qed.
Lemma tri_skip w1 w2 w3 w4 w5 w6 w7 w8 : weighed eq w1 w2 w3 w4 w5 w6 w7 w8 ->
  tri ax bx ay by_ az bz v1 v2 v3 v4 v5 v6 v7 v8 = tri ax bx ay by_ az bz w1 w2 w3 w4 w5 w6 w7 w8.
Proof.
  intros (H1 & H2 & H3 & H4 & H5 & H6 & H7 & H8). unfold tri.
  apply mixr_skip; zero; apply mixr_skip; zero; apply mixr_skip; zero; auto.
Qed.
Lemma tri_le K : weighed Rle K K K K K K K K -> tri ax bx ay by_ az bz v1 v2 v3 v4 v5 v6 v7 v8 <= K + spread K.
Proof.
  intros (H1 & H2 & H3 & H4 & H5 & H6 & H7 & H8). destruct X as (X1 & X2 & X3), Y as (Y1 & Y2 & Y3), Z as (Z1 & Z2 & Z3).
  eapply Rle_trans; [|apply grow]. unfold tri. apply mixr_le; auto; zero; apply mixr_le; auto; zero; apply mixr_le; auto; zero; auto.
Qed.
End Eight.
Section Eight2.
Context (ax bx ay by_ az bz : R) (X : 0 <= ax <= 1 /\ 0 <= bx <= 1 /\ Rabs (ax + bx - 1) <= 2 * u)
  (Y : 0 <= ay <= 1 /\ 0 <= by_ <= 1 /\ Rabs (ay + by_ - 1) <= 2 * u) (Z : 0 <= az <= 1 /\ 0 <= bz <= 1 /\ Rabs (az + bz - 1) <= 2 * u).
Context (v1 v2 v3 v4 v5 v6 v7 v8 : R).
Lemma tri_opp :
  tri ax bx ay by_ az bz (- v1) (- v2) (- v3) (- v4) (- v5) (- v6) (- v7) (- v8) = - tri ax bx ay by_ az bz v1 v2 v3 v4 v5 v6 v7 v8.
Proof. unfold tri. rewrite !mixr_opp. auto. Qed.
Lemma tri_ge K : weighed ax bx ay by_ az bz v1 v2 v3 v4 v5 v6 v7 v8 Rge K K K K K K K K ->
  K - spread K <= tri ax bx ay by_ az bz v1 v2 v3 v4 v5 v6 v7 v8.
Proof.
  intros H. assert (L : tri ax bx ay by_ az bz (- v1) (- v2) (- v3) (- v4) (- v5) (- v6) (- v7) (- v8) <= - K + spread (- K)).
  { apply tri_le; auto. unfold weighed in *. decompose [and] H. repeat split; intros; apply Ropp_ge_le_contravar; auto. }
  rewrite tri_opp in L. unfold spread in *. rewrite Rabs_Ropp in L. lra.
Qed.
Lemma tri_pos : weighed ax bx ay by_ az bz v1 v2 v3 v4 v5 v6 v7 v8 Rge 0 0 0 0 0 0 0 0 -> 0 <= tri ax bx ay by_ az bz v1 v2 v3 v4 v5 v6 v7 v8.
Proof.
  intros H. assert (E : tri ax bx ay by_ az bz 0 0 0 0 0 0 0 0 = 0) by (unfold tri; rewrite !mixr_0; auto).
  rewrite <- E. apply tri_mono; auto. unfold weighed in *. decompose [and] H. repeat split; intros; apply Rge_le; auto.
Qed.
End Eight2.

(** * The floating point expressions compute the rounded ones *)
Lemma mix_ok a b v w : weights a b -> is_finite v = true -> is_finite w = true -> Rabs (B2R v) <= bpow radix2 1021 -> Rabs (B2R w) <= bpow radix2 1021 ->
  is_finite (f_mix a b v w) = true /\ B2R (f_mix a b v w) = mixr (B2R a) (B2R b) (B2R v) (B2R w).
Proof.
  intros ((FA & A) & (FB & B) & S) FV FW V W.
  assert (M : forall c x, 0 <= c <= 1 -> Rabs x <= bpow radix2 1021 -> Rabs (c * x) <= bpow radix2 1021).
  { intros c x C Hx. rewrite Rabs_mult, (Rabs_pos_eq c) by lra. assert (0 <= Rabs x) by apply Rabs_pos. nra. }
  assert (G : forall x, Rabs x <= bpow radix2 1021 -> small x).
  { intros x Hx. unfold small. eapply Rle_trans; [exact Hx|]. apply bpow_le. lia. }
  destruct (fmul_ok a v FA FV) as (P1 & P2); [apply G, M; auto|]. destruct (fmul_ok b w FB FW) as (Q1 & Q2); [apply G, M; auto|].
  assert (R : forall x, Rabs x <= bpow radix2 1021 -> Rabs (rd x) <= bpow radix2 1021).
  { intros x Hx. apply abs_round_le_generic; auto; try typeclasses eauto. apply generic_format_bpow. unfold fe64, FLT_exp. lia. }
  unfold f_mix, mixr. rewrite <- P2, <- Q2. apply fadd_ok; auto. unfold small. rewrite P2, Q2.
  eapply Rle_trans; [apply Rabs_triang|]. change 1023%Z with (1 + 1022)%Z. rewrite bpow_plus. change (bpow radix2 1) with 2.
  pose proof (R _ (M _ _ A V)). pose proof (R _ (M _ _ B W)). assert (bpow radix2 1021 <= bpow radix2 1022) by (apply bpow_le; lia). lra.
Qed.
Lemma mixr_abs a b v w k : 0 <= a <= 1 -> 0 <= b <= 1 -> (0 <= k)%Z -> Rabs v <= bpow radix2 k -> Rabs w <= bpow radix2 k -> Rabs (mixr a b v w) <= bpow radix2 (k + 1).
Proof.
  intros A B K V W.
  assert (M : forall c x, 0 <= c <= 1 -> Rabs x <= bpow radix2 k -> Rabs (c * x) <= bpow radix2 k).
  { intros c x C Hx. rewrite Rabs_mult, (Rabs_pos_eq c) by lra. assert (0 <= Rabs x) by apply Rabs_pos. nra. }
  assert (R : forall x j, (0 <= j)%Z -> Rabs x <= bpow radix2 j -> Rabs (rd x) <= bpow radix2 j).
  { intros x j J Hx. apply abs_round_le_generic; auto; try typeclasses eauto. apply generic_format_bpow. unfold fe64, FLT_exp. lia. }
  apply R; [lia|]. eapply Rle_trans; [apply Rabs_triang|]. rewrite bpow_plus. change (bpow radix2 1) with 2.
  pose proof (R _ _ K (M _ _ A V)). pose proof (R _ _ K (M _ _ B W)). lra.
Qed.
Definition mid (v : f64) : Prop := is_finite v = true /\ Rabs (B2R v) <= bpow radix2 1019.
Lemma trilinear_ok ax bx ay by_ az bz v1 v2 v3 v4 v5 v6 v7 v8 : weights ax bx -> weights ay by_ -> weights az bz ->
  mid v1 -> mid v2 -> mid v3 -> mid v4 -> mid v5 -> mid v6 -> mid v7 -> mid v8 ->
  is_finite (f_trilinear ax bx ay by_ az bz v1 v2 v3 v4 v5 v6 v7 v8) = true /\
  B2R (f_trilinear ax bx ay by_ az bz v1 v2 v3 v4 v5 v6 v7 v8) =
    tri (B2R ax) (B2R bx) (B2R ay) (B2R by_) (B2R az) (B2R bz) (B2R v1) (B2R v2) (B2R v3) (B2R v4) (B2R v5) (B2R v6) (B2R v7) (B2R v8).
Proof.
  intros X Y Z (F1 & B1) (F2 & B2) (F3 & B3) (F4 & B4) (F5 & B5) (F6 & B6) (F7 & B7) (F8 & B8).
  assert (St : forall k a b v w, (0 <= k <= 1021)%Z -> weights a b -> is_finite v = true -> is_finite w = true -> Rabs (B2R v) <= bpow radix2 k -> Rabs (B2R w) <= bpow radix2 k ->
    is_finite (f_mix a b v w) = true /\ B2R (f_mix a b v w) = mixr (B2R a) (B2R b) (B2R v) (B2R w) /\ Rabs (B2R (f_mix a b v w)) <= bpow radix2 (k + 1)).
  { intros k a b v w K Wg FV FW V W. destruct (mix_ok a b v w Wg FV FW) as (P & Q); [eapply Rle_trans; [exact V|]; apply bpow_le; clear - K; lia|eapply Rle_trans; [exact W|]; apply bpow_le; clear - K; lia|].
    split; auto. split; auto. rewrite Q. destruct Wg as ((_ & A) & (_ & B) & _). apply mixr_abs; auto. clear - K. lia. }
  assert (K1 : (0 <= 1019 <= 1021)%Z) by (split; discriminate). assert (K2 : (0 <= 1020 <= 1021)%Z) by (split; discriminate). assert (K3 : (0 <= 1021 <= 1021)%Z) by (split; discriminate).
  destruct (St _ az bz v1 v2 K1 Z F1 F2 B1 B2) as (P1 & Q1 & R1). destruct (St _ az bz v3 v4 K1 Z F3 F4 B3 B4) as (P2 & Q2 & R2).
  destruct (St _ az bz v5 v6 K1 Z F5 F6 B5 B6) as (P3 & Q3 & R3). destruct (St _ az bz v7 v8 K1 Z F7 F8 B7 B8) as (P4 & Q4 & R4).
  destruct (St _ ay by_ _ _ K2 Y P1 P2 R1 R2) as (P5 & Q5 & R5). destruct (St _ ay by_ _ _ K2 Y P3 P4 R3 R4) as (P6 & Q6 & R6).
  destruct (St _ ax bx _ _ K3 X P5 P6 R5 R6) as (P7 & Q7 & R7).
  unfold f_trilinear, tri. split; auto. rewrite Q7, Q5, Q6, Q1, Q2, Q3, Q4. auto.
Qed.

(** * Conversions *)
Lemma convert_ok p e p' e' g l (x : binary_float p e) : is_finite x = true ->
  Rabs (round radix2 (SpecFloat.fexp p' e') ZnearestE (B2R x)) < bpow radix2 e' ->
  is_finite (convert p' e' g l x) = true /\ B2R (convert p' e' g l x) = round radix2 (SpecFloat.fexp p' e') ZnearestE (B2R x).
Proof.
  intros F B. destruct x as [s|s| |s m ex H]; try discriminate.
  - cbn. rewrite round_0 by typeclasses eauto. auto.
  - pose proof (binary_normalize_correct p' e' g l mode_NE (cond_Zopp s (Zpos m)) ex s) as N. cbv zeta in N. cbn [round_mode] in N.
    change (F2R (Float radix2 (cond_Zopp s (Zpos m)) ex)) with (B2R (B754_finite s m ex H)) in N. rewrite Rlt_bool_true in N by auto. cbn [convert]. tauto.
Qed.
Lemma fexp32 : SpecFloat.fexp 24 128 = FLT_exp (-149) 24.
Proof. reflexivity. Qed.
Lemma fexp16 : SpecFloat.fexp 11 16 = FLT_exp (-24) 11.
Proof. reflexivity. Qed.
Lemma incl p p' e e' x : (0 < p <= p')%Z -> (e' <= e)%Z -> generic_format radix2 (FLT_exp e p) x -> generic_format radix2 (FLT_exp e' p') x.
Proof. intros P E. apply generic_inclusion_mag. intros _. unfold FLT_exp. lia. Qed.
Definition fe (t : vtype) : Z -> Z := FLT_exp (3 - emax t - prec t) (prec t).
Lemma widen_ok t (x : val t) : is_finite x = true -> is_finite (widen t x) = true /\ B2R (widen t x) = B2R x.
Proof.
  intros F. assert (G : generic_format radix2 fe64 (B2R x)).
  { apply (incl (prec t) 53 (3 - emax t - prec t)); [destruct t; cbn; lia|destruct t; cbn; lia|]. apply generic_format_B2R. }
  assert (B : Rabs (B2R x) < bpow radix2 1024).
  { eapply Rlt_le_trans; [apply abs_B2R_lt_emax|]. apply bpow_le. destruct t; cbn; lia. }
  assert (Q : forall p e (y : binary_float p e), is_finite y = true -> generic_format radix2 fe64 (B2R y) -> Rabs (B2R y) < bpow radix2 1024 ->
    is_finite (convert 53 1024 gt_53 lt_1024 y) = true /\ B2R (convert 53 1024 gt_53 lt_1024 y) = B2R y).
  { intros p e y Fy Gy By. assert (Ry : rd (B2R y) = B2R y) by (apply round_generic; auto; typeclasses eauto).
    destruct (convert_ok p e 53 1024 gt_53 lt_1024 y Fy) as (P & R); [rewrite fexp64, Ry; auto|]. rewrite fexp64, Ry in R. auto. }
  destruct t; [apply Q; auto|apply Q; auto|auto].
Qed.
