(** Byte counts as text. *)
From Coq Require Import ZArith List Bool String Lia Reals Lra.
From Flocq Require Import Core BinarySingleNaN Relative.
From Verif Require Import Model.Base Model.OgM Model.FieldIOM Model.FileM Model.FloatM Spec.FloatSpec Model.FloatMipM Spec.FloatMipSpec Proof.FloatP Proof.FloatP2 Proof.FloatMipP
  Model.LogM Spec.NameSpec Proof.SequenceP Spec.LogSpec.
Import ListNotations.
Open Scope Z_scope.

(** Nearest, ties to even. *)
Definition nearest (n : Z) (v : R) : Prop :=
  (Rabs (IZR n - v) <= / 2)%R /\ ((Rabs (IZR n - v) = / 2)%R -> Z.even n = true).
Lemma nearest_le n m v w : nearest n v -> nearest m w -> (v <= w)%R -> n <= m.
Proof.
  intros [N1 N2] [M1 M2] L. destruct (Z.le_gt_cases n m) as [|G]; auto. exfalso.
  assert (G' : (IZR m + 1 <= IZR n)%R) by (rewrite <- plus_IZR; apply IZR_le; lia).
  assert (A := Rabs_le_inv _ _ N1). assert (B := Rabs_le_inv _ _ M1).
  assert (E1 : (IZR n - v = / 2)%R) by lra. assert (E2 : (IZR m - w = - / 2)%R) by lra.
  assert (E3 : (IZR n = IZR m + 1)%R) by lra. rewrite <- plus_IZR in E3. apply eq_IZR in E3.
  rewrite E1, Rabs_pos_eq in N2 by lra. rewrite E2, Rabs_Ropp, Rabs_pos_eq in M2 by lra.
  specialize (N2 eq_refl). specialize (M2 eq_refl). subst n. rewrite Z.add_1_r, Z.even_succ, <- Z.negb_even, M2 in N2. discriminate.
Qed.
Lemma div_even_nearest n d : 0 < d -> nearest (div_even n d) (IZR n / IZR d).
Proof.
  intros D. assert (D' : (0 < IZR d)%R) by (apply IZR_lt; auto).
  pose proof (Z.div_mod n d ltac:(lia)) as E. pose proof (Z.mod_pos_bound n d D) as B. unfold div_even.
  set (q := n / d) in *. set (r := n mod d) in *. clearbody q r.
  assert (V : (IZR n / IZR d = IZR q + IZR r / IZR d)%R).
  { rewrite E, plus_IZR, mult_IZR. field. lra. }
  rewrite V.
  assert (H0 : (0 <= IZR r / IZR d)%R) by (apply Rmult_le_pos; [apply IZR_le; lia|left; apply Rinv_0_lt_compat; auto]).
  assert (LT : (IZR r / IZR d < 1)%R).
  { apply (Rmult_lt_reg_r (IZR d)); auto. unfold Rdiv. rewrite Rmult_assoc, Rinv_l, Rmult_1_r, Rmult_1_l by lra. apply IZR_lt; lia. }
  assert (C1 : 2 * r < d -> (IZR r / IZR d < / 2)%R).
  { intros H. apply (Rmult_lt_reg_r (IZR d)); auto. unfold Rdiv. rewrite Rmult_assoc, Rinv_l, Rmult_1_r by lra.
    apply IZR_lt in H. rewrite mult_IZR in H. lra. }
  assert (C2 : d < 2 * r -> (/ 2 < IZR r / IZR d)%R).
  { intros H. apply (Rmult_lt_reg_r (IZR d)); auto. unfold Rdiv. rewrite Rmult_assoc, Rinv_l, Rmult_1_r by lra.
    apply IZR_lt in H. rewrite mult_IZR in H. lra. }
  assert (C3 : d = 2 * r -> (IZR r / IZR d = / 2)%R).
  { intros H. rewrite H, mult_IZR. assert (0 < IZR r)%R by (apply IZR_lt; lia). field. lra. }
  set (f := (IZR r / IZR d)%R) in *. clearbody f.
  destruct (Z.ltb_spec (2 * r) d) as [L|L].
  - specialize (C1 L). replace (IZR q - (IZR q + f))%R with (- f)%R by ring. unfold nearest.
    replace (IZR q - (IZR q + f))%R with (- f)%R by ring. rewrite Rabs_Ropp, Rabs_pos_eq by lra. split; [lra|]. intros; exfalso; lra.
  - destruct (Z.ltb_spec d (2 * r)) as [L2|L2].
    + specialize (C2 L2). unfold nearest. rewrite plus_IZR. replace (IZR q + 1 - (IZR q + f))%R with (1 - f)%R by ring.
      rewrite Rabs_pos_eq by lra. split; [lra|]. intros; exfalso; lra.
    + specialize (C3 ltac:(lia)). unfold nearest. destruct (Z.even q) eqn:Q.
      * replace (IZR q - (IZR q + f))%R with (- f)%R by ring. rewrite Rabs_Ropp, Rabs_pos_eq by lra. split; [lra|auto].
      * rewrite plus_IZR. replace (IZR q + 1 - (IZR q + f))%R with (1 - f)%R by ring. rewrite Rabs_pos_eq by lra.
        split; [lra|]. intros _. rewrite Z.add_1_r, Z.even_succ, <- Z.negb_even, Q. reflexivity.
Qed.
Lemma nearest_int n : nearest n (IZR n).
Proof.
  unfold nearest. replace (IZR n - IZR n)%R with 0%R by ring. rewrite Rabs_R0. split; [lra|]. intros; exfalso; lra.
Qed.
Lemma thousandths_nearest (x : val VFloat) : is_finite x = true -> (0 <= B2R x)%R ->
  nearest (thousandths x) (1000 * B2R x).
Proof.
  intros F P. destruct x as [s|s| |s m e H]; try discriminate.
  - cbn. rewrite Rmult_0_r. apply nearest_int.
  - destruct s.
    { exfalso. cbn [B2R cond_Zopp] in P. assert (Q : (F2R (Float radix2 (Z.opp (Zpos m)) e) < 0)%R) by (apply F2R_lt_0; cbn; lia). cbn in P, Q. lra. }
    cbn [thousandths]. unfold B2R, F2R. cbn [Fnum Fexp cond_Zopp]. destruct (Z.leb_spec 0 e) as [E|E].
    + replace (1000 * (IZR (Zpos m) * bpow radix2 e))%R with (IZR (1000 * Zpos m * 2 ^ e)); [apply nearest_int|].
      rewrite !mult_IZR. rewrite <- (IZR_Zpower radix2 e) by lia. change (Zpower radix2 e) with (2 ^ e). ring.
    + replace (1000 * (IZR (Zpos m) * bpow radix2 e))%R with (IZR (1000 * Zpos m) / IZR (2 ^ (- e)))%R.
      * apply div_even_nearest. apply Z.pow_pos_nonneg; lia.
      * rewrite mult_IZR. unfold Rdiv. change (2 ^ (- e)) with (Zpower radix2 (- e)). rewrite IZR_Zpower by lia.
        rewrite <- bpow_opp, Z.opp_involutive. ring.
Qed.

(** The division is exact. *)
Lemma float_of_int b : 0 <= b < 2 ^ 63 -> is_finite (vnum VFloat b 0) = true /\ B2R (vnum VFloat b 0) = rnd VFloat (IZR b).
Proof.
  intros B. pose proof (binary_normalize_correct (prec VFloat) (emax VFloat) _ _ mode_NE b 0 false) as N. cbv zeta in N.
  assert (V : F2R (Float radix2 b 0) = IZR b) by (unfold F2R; cbn; ring). rewrite V in N.
  rewrite (fits_bool VFloat) in N; [destruct N as (A & C & _); auto|].
  unfold fits. rewrite Rabs_pos_eq by (apply IZR_le; lia). apply Rle_trans with (IZR (2 ^ 63)); [apply IZR_le; lia|].
  unfold top. cbn. lra.
Qed.
Lemma unit_float k : k = 10 \/ k = 20 \/ k = 30 -> B2R (vnum VFloat (2 ^ k) 0) = bpow radix2 k.
Proof. intros [->|[->| ->]]; cbn; unfold F2R; cbn; lra. Qed.
Lemma shift_fmt x k : vfmt VFloat x -> (1 <= x)%R -> 0 <= k <= 30 -> vfmt VFloat (x / bpow radix2 k).
Proof.
  intros H P K. apply FLT_format_generic in H; [|apply gt_prec]. destruct H as [[m e] V M E]. cbn [Fnum Fexp] in *.
  change (Zpower radix2 (prec VFloat)) with (2 ^ 24) in M.
  assert (E2 : -24 <= e).
  { destruct (Z.le_gt_cases (-24) e) as [|G]; auto. exfalso.
    assert (A : (IZR m * bpow radix2 e < 1)%R).
    { apply Rle_lt_trans with (IZR (2 ^ 24) * bpow radix2 e)%R.
      - apply Rmult_le_compat_r; [apply bpow_ge_0|apply IZR_le; lia].
      - change (IZR (2 ^ 24)) with (bpow radix2 24). rewrite <- bpow_plus. change 1%R with (bpow radix2 0). apply bpow_lt. lia. }
    unfold F2R in V. cbn in V. lra. }
  rewrite V. unfold F2R, Rdiv. cbn [Fnum Fexp]. rewrite <- bpow_opp, Rmult_assoc, <- bpow_plus.
  apply dyadic; cbn [prec emax]; lia.
Qed.
Lemma in_units_ok b k : 1 <= b < 2 ^ 63 -> k = 10 \/ k = 20 \/ k = 30 ->
  is_finite (in_units b (2 ^ k)) = true /\ B2R (in_units b (2 ^ k)) = (rnd VFloat (IZR b) / bpow radix2 k)%R.
Proof.
  intros B K. destruct (float_of_int b) as [F V]; [lia|]. unfold in_units.
  assert (P : (1 <= rnd VFloat (IZR b))%R).
  { rewrite <- (rnd_fmt VFloat 1). apply rnd_le. apply (IZR_le 1); lia. apply (int_fmt VFloat 1). cbn; lia. }
  assert (T : (Rabs (rnd VFloat (IZR b)) <= top VFloat)%R).
  { apply rnd_top. rewrite Rabs_pos_eq by (apply IZR_le; lia). apply Rle_trans with (IZR (2 ^ 63)); [apply IZR_le; lia|]. unfold top. cbn. lra. }
  assert (K1 : (1 <= bpow radix2 k)%R) by (change 1%R with (bpow radix2 0); apply bpow_le; lia).
  assert (D := shift_fmt _ k (rnd_is VFloat (IZR b)) P ltac:(lia)).
  destruct (vdiv_ok VFloat (vnum VFloat b 0) (vnum VFloat (2 ^ k) 0) F) as [G W].
  - rewrite unit_float by auto. lra.
  - rewrite V, unit_float by auto. unfold fits. rewrite Rabs_pos_eq by (try apply Rmult_le_pos; try lra; left; apply Rinv_0_lt_compat; lra).
    rewrite (Rabs_pos_eq (rnd VFloat (IZR b))) in T by lra.
    eapply Rle_trans; [|exact T]. apply (Rmult_le_reg_r (bpow radix2 k)); [lra|]. unfold Rdiv. rewrite Rmult_assoc, Rinv_l, Rmult_1_r by lra.
    rewrite <- (Rmult_1_r (rnd VFloat (IZR b))) at 1. apply Rmult_le_compat_l; lra.
  - split; [exact G|]. eapply eq_trans; [exact W|]. rewrite V, unit_float by auto. apply rnd_fmt. exact D.
Qed.
Lemma rnd_error b : 1 <= b -> (Rabs (rnd VFloat (IZR b) - IZR b) <= bpow radix2 (-24) * IZR b)%R.
Proof.
  intros B. assert (B1 : (1 <= IZR b)%R) by (apply (IZR_le 1); lia).
  pose proof (relative_error_N_FLT radix2 (-149) 24 ltac:(lia) (fun x => negb (Z.even x)) (IZR b)) as H.
  rewrite (Rabs_pos_eq (IZR b)) in H by lra.
  replace (/ 2 * bpow radix2 (- (24) + 1))%R with (bpow radix2 (-24)) in H by (cbn; lra).
  apply H. apply Rle_trans with 1%R; auto. change 1%R with (bpow radix2 0). apply bpow_le. lia.
Qed.

(** Thousandths of a unit. *)
Definition count (b k : Z) : Z := thousandths (in_units b (2 ^ k)).
Lemma count_nearest b k : 1 <= b < 2 ^ 63 -> k = 10 \/ k = 20 \/ k = 30 ->
  nearest (count b k) (1000 * (rnd VFloat (IZR b) / bpow radix2 k)).
Proof.
  intros B K. destruct (in_units_ok b k B K) as [F V]. unfold count. rewrite <- V. apply thousandths_nearest; auto.
  rewrite V. apply Rmult_le_pos; [|left; apply Rinv_0_lt_compat, bpow_gt_0].
  rewrite <- (rnd_0 VFloat). apply rnd_le. apply (IZR_le 0); lia.
Qed.
Lemma count_le a b k : 1 <= a <= b -> b < 2 ^ 63 -> k = 10 \/ k = 20 \/ k = 30 -> count a k <= count b k.
Proof.
  intros A B K. apply (nearest_le _ _ _ _ (count_nearest a k ltac:(lia) K) (count_nearest b k ltac:(lia) K)).
  apply Rmult_le_compat_l; [lra|]. apply Rmult_le_compat_r; [left; apply Rinv_0_lt_compat, bpow_gt_0|].
  apply rnd_le, IZR_le. lia.
Qed.
Lemma count_pos b k : 1 <= b < 2 ^ 63 -> k = 10 \/ k = 20 \/ k = 30 -> 0 <= count b k.
Proof.
  intros B K. apply (nearest_le _ _ _ _ (nearest_int 0) (count_nearest b k B K)).
  apply Rmult_le_pos; [lra|]. apply Rmult_le_pos; [|left; apply Rinv_0_lt_compat, bpow_gt_0].
  rewrite <- (rnd_0 VFloat). apply rnd_le. apply (IZR_le 0); lia.
Qed.
Lemma count_error b k : 1 <= b < 2 ^ 63 -> k = 10 \/ k = 20 \/ k = 30 ->
  2 ^ 24 * Z.abs (count b k * 2 ^ k - 1000 * b) <= 2 ^ 23 * 2 ^ k + 1000 * b /\
  (b <= 2 ^ 24 -> 2 * Z.abs (count b k * 2 ^ k - 1000 * b) <= 2 ^ k).
Proof.
  intros B K. destruct (count_nearest b k B K) as [N _].
  assert (U : (0 < bpow radix2 k)%R) by apply bpow_gt_0.
  set (r := rnd VFloat (IZR b)) in *.
  assert (M : (Rabs (IZR (count b k) * bpow radix2 k - 1000 * r) <= / 2 * bpow radix2 k)%R).
  { replace (IZR (count b k) * bpow radix2 k - 1000 * r)%R with ((IZR (count b k) - 1000 * (r / bpow radix2 k)) * bpow radix2 k)%R by (field; lra).
    rewrite Rabs_mult, (Rabs_pos_eq (bpow radix2 k)) by lra. apply Rmult_le_compat_r; lra. }
  assert (PU : bpow radix2 k = IZR (2 ^ k)) by (change (2 ^ k) with (Zpower radix2 k); rewrite IZR_Zpower by lia; reflexivity).
  rewrite PU in M. apply Rabs_le_inv in M. split.
  - pose proof (rnd_error b ltac:(lia)) as Q. fold r in Q. change (bpow radix2 (-24)) with (/ 16777216)%R in Q.
    apply Rabs_le_inv in Q. apply le_IZR.
    rewrite mult_IZR, abs_IZR, minus_IZR, plus_IZR, !mult_IZR. change (IZR (2 ^ 24)) with 16777216%R. change (IZR (2 ^ 23)) with 8388608%R.
    unfold Rabs. destruct (Rcase_abs _); lra.
  - intros L. assert (R1 : r = IZR b) by (apply rnd_fmt, int_fmt; cbn [prec]; lia). rewrite R1 in M.
    apply le_IZR. rewrite mult_IZR, abs_IZR, minus_IZR, !mult_IZR. unfold Rabs. destruct (Rcase_abs _); lra.
Qed.

(** The digits. *)
Lemma fixed3_reads (x : val VFloat) (neg : bool) (name : string) : 0 <= thousandths x ->
  reads ((if neg then [45] else []) ++ fixed3 x ++ [32] ++ str name) neg (thousandths x) name.
Proof.
  intros P. unfold fixed3. set (n := thousandths x) in *. clearbody n.
  exists (int_name (Z.to_nat (n / 1000))), (n / 1000), (n / 100 mod 10), (n / 10 mod 10), (n mod 10). unfold digit.
  split; [rewrite <- (Z2Nat.id (n / 1000)) at 2 by (apply Z.div_pos; lia); apply int_name_decimal|].
  split; [Z.div_mod_to_equations; lia|]. split; [Z.div_mod_to_equations; lia|]. split; [Z.div_mod_to_equations; lia|].
  split; [|rewrite <- !app_assoc; reflexivity].
  assert (n / 1000 = n / 10 / 10 / 10) by (rewrite !Z.div_div by lia; reflexivity).
  assert (n / 100 = n / 10 / 10) by (rewrite !Z.div_div by lia; reflexivity).
  Z.div_mod_to_equations. lia.
Qed.

(** The whole string. *)
Lemma units b U name : unit_of b U name -> b < 2 ^ 63 -> exists k, (k = 10 \/ k = 20 \/ k = 30) /\ U = 2 ^ k /\ 1 <= b < 2 ^ 63 /\
  (if b <? 1024 then int_name (Z.to_nat b) ++ str "  B"
    else if b <? 1024 * 1024 then fixed3 (in_units b 1024) ++ str " KB"
    else if b <? 1024 * 1024 * 1024 then fixed3 (in_units b (1024 * 1024)) ++ str " MB"
    else fixed3 (in_units b (1024 * 1024 * 1024)) ++ str " GB") = fixed3 (in_units b U) ++ [32] ++ str name.
Proof.
  intros H L. destruct H as [b H|b H|b H].
  - exists 10. rewrite (proj2 (Z.ltb_ge b 1024)), (proj2 (Z.ltb_lt b (1024 * 1024))) by lia. split; [lia|]. split; [lia|]. split; [lia|]. reflexivity.
  - exists 20. rewrite (proj2 (Z.ltb_ge b 1024)), (proj2 (Z.ltb_ge b (1024 * 1024))), (proj2 (Z.ltb_lt b (1024 * 1024 * 1024))) by lia.
    split; [lia|]. split; [lia|]. split; [lia|]. reflexivity.
  - exists 30. rewrite (proj2 (Z.ltb_ge b 1024)), (proj2 (Z.ltb_ge b (1024 * 1024))), (proj2 (Z.ltb_ge b (1024 * 1024 * 1024))) by lia.
    split; [lia|]. split; [lia|]. split; [lia|]. reflexivity.
Qed.
Theorem string_of b U name : - 2 ^ 63 < b < 2 ^ 63 -> unit_of (Z.abs b) U name ->
  exists k s, (k = 10 \/ k = 20 \/ k = 30) /\ U = 2 ^ k /\ 1 <= Z.abs b < 2 ^ 63 /\
  bytes_to_string b = Ok s /\ reads s (b <? 0) (count (Z.abs b) k) name.
Proof.
  intros B H. destruct (units _ _ _ H ltac:(lia)) as (k & K & -> & R & E). exists k.
  eexists. split; [exact K|]. split; [reflexivity|]. split; [exact R|]. split.
  - unfold bytes_to_string. assert (X : (if b <? 0 then if - b <=? 2 ^ 63 - 1 then Ok (- b) else UB else Ok b) = Ok (Z.abs b)).
    { destruct (Z.ltb_spec b 0). rewrite (proj2 (Z.leb_le _ _)) by lia. f_equal; lia. f_equal; lia. }
    rewrite X. cbn [bind]. rewrite E. reflexivity.
  - change (str "-") with [45]. apply fixed3_reads. apply count_pos; auto.
Qed.

(** A string reads one way only. *)
Lemma split_dot (l1 l2 r1 r2 : list Z) : Forall (fun c => c <> 46) l1 -> Forall (fun c => c <> 46) l2 ->
  l1 ++ 46 :: r1 = l2 ++ 46 :: r2 -> l1 = l2 /\ r1 = r2.
Proof.
  intros H; revert l2. induction H as [|c l1 C H IH]; intros l2 H2 E; destruct H2 as [|d l2 D H2]; cbn in E; injection E; intros; subst; try easy.
  destruct (IH l2 H2) as [-> ->]; auto.
Qed.

Lemma no_dot t w : decimal t w -> Forall (fun c => c <> 46) t.
Proof. intros ((N & D) & _). apply Forall_forall. intros c I. specialize (D c I). lia. Qed.
Lemma first_digit t w r : decimal t w -> exists c u, t ++ r = c :: u /\ c <> 45.
Proof. intros ((N & D) & _). destruct t as [|c t]; [easy|]. exists c, (t ++ r). split; auto. specialize (D c (or_introl eq_refl)). lia. Qed.
Lemma cons_inj (a b : Z) l m : a :: l = b :: m -> a = b /\ l = m.
Proof. intros E. inversion E. auto. Qed.
Theorem reads_once s neg n name neg' n' name' : reads s neg n name -> reads s neg' n' name' ->
  neg = neg' /\ n = n' /\ str name = str name'.
Proof.
  intros (t & w & x & y & z & T & X & Y & Z & N & E) (t' & w' & x' & y' & z' & T' & X' & Y' & Z' & N' & E').
  assert (neg = neg').
  { subst s. destruct (first_digit t w ([46; 48 + x; 48 + y; 48 + z] ++ [32] ++ str name) T) as (c & u & E1 & C).
    destruct (first_digit t' w' ([46; 48 + x'; 48 + y'; 48 + z'] ++ [32] ++ str name') T') as (c' & u' & E1' & C').
    rewrite E1, E1' in E'. destruct neg, neg'; auto; cbn in E'; congruence. }
  subst neg' s. apply app_inv_head in E'. cbn [List.app] in E'.
  destruct (split_dot _ _ _ _ (no_dot _ _ T) (no_dot _ _ T') E') as [<- F].
  destruct (cons_inj _ _ _ _ F) as [HX F1]. destruct (cons_inj _ _ _ _ F1) as [HY F2]. destruct (cons_inj _ _ _ _ F2) as [HZ F3].
  destruct (cons_inj _ _ _ _ F3) as [_ S].
  destruct T as (_ & W & _), T' as (_ & W' & _). split; [reflexivity|]. split; [|exact S]. lia.
Qed.
Theorem bytes_of b : Z.abs b < 1024 -> exists s, bytes_to_string b = Ok s /\ reads_bytes s (b <? 0) (Z.abs b).
Proof.
  intros B. exists ((if b <? 0 then [45] else []) ++ int_name (Z.to_nat (Z.abs b)) ++ str "  B"). split.
  - unfold bytes_to_string. assert (X : (if b <? 0 then if - b <=? 2 ^ 63 - 1 then Ok (- b) else UB else Ok b) = Ok (Z.abs b)).
    { destruct (Z.ltb_spec b 0). rewrite (proj2 (Z.leb_le _ _)) by lia. f_equal; lia. f_equal; lia. }
    rewrite X. cbn [bind]. rewrite (proj2 (Z.ltb_lt (Z.abs b) 1024)) by lia. reflexivity.
  - exists (int_name (Z.to_nat (Z.abs b))). split; auto. rewrite <- (Z2Nat.id (Z.abs b)) at 2 by lia. apply int_name_decimal.
Qed.
