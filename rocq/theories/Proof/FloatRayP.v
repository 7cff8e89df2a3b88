(** Proofs about the intersection of a ray and a box in floating point. *)
From Coq Require Import ZArith Reals List Bool Lia Lra Psatz.
From Flocq Require Import Core BinarySingleNaN Relative Plus_error.
From Verif Require Import Model.Base Model.FloatM Model.FloatRayM Spec.FloatRaySpec Proof.FloatP.
Import ListNotations.
Local Open Scope R_scope.

Lemma fdiv_ok x y : is_finite x = true -> B2R y <> 0 -> small (B2R x / B2R y) -> is_finite (fdiv x y) = true /\ B2R (fdiv x y) = rd (B2R x / B2R y).
Proof.
  intros X Y S. pose proof (Bdiv_correct 53 1024 _ _ mode_NE x y Y) as H. cbn [round_mode] in H. rewrite fexp64, (small_round _ S), X in H. unfold fdiv. tauto.
Qed.
Lemma eps_ok : is_finite f_eps = true /\ B2R f_eps = 10 * bpow radix2 (-52).
Proof. split; [reflexivity|]. unfold f_eps. cbn. unfold F2R. cbn. lra. Qed.
Lemma max_ok : is_finite f_max = true /\ bpow radix2 1023 <= B2R f_max.
Proof.
  assert (E : F2R (Float radix2 (2 ^ 53 - 1) 971) = IZR (2 ^ 53 - 1) * bpow radix2 971) by reflexivity.
  assert (G : generic_format radix2 fe64 (F2R (Float radix2 (2 ^ 53 - 1) 971))).
  { apply generic_format_FLT. exists (Float radix2 (2 ^ 53 - 1) 971); cbn; try lia; reflexivity. }
  pose proof (binary_normalize_correct 53 1024 _ _ mode_NE (2 ^ 53 - 1) 971 false) as N. cbv zeta in N. cbn [round_mode] in N. rewrite fexp64 in N.
  rewrite round_generic in N; [|typeclasses eauto|exact G].
  assert (P : Rabs (F2R (Float radix2 (2 ^ 53 - 1) 971)) < bpow radix2 1024).
  { rewrite E, Rabs_pos_eq by (apply Rmult_le_pos; [apply IZR_le; discriminate|apply bpow_ge_0]). change 1024%Z with (53 + 971)%Z. rewrite bpow_plus.
    apply Rmult_lt_compat_r; [apply bpow_gt_0|]. change (bpow radix2 53) with (IZR (2 ^ 53)). apply IZR_lt. reflexivity. }
  rewrite Rlt_bool_true in N by exact P. destruct N as (V & F & _). fold f_max in V, F. split; [exact F|]. rewrite V, E.
  change 1023%Z with (52 + 971)%Z. rewrite bpow_plus. apply Rmult_le_compat_r; [apply bpow_ge_0|]. change (bpow radix2 52) with (IZR (2 ^ 52)). apply IZR_le. discriminate.
Qed.
Lemma ltb_ok (x y : f64) : is_finite x = true -> is_finite y = true -> Bltb x y = true <-> B2R x < B2R y.
Proof. intros X Y. rewrite Bltb_correct by auto. destruct (Rlt_bool_spec (B2R x) (B2R y)); split; intros; auto; try discriminate. lra. Qed.
Lemma ltb_no (x y : f64) : is_finite x = true -> is_finite y = true -> Bltb x y = false <-> B2R y <= B2R x.
Proof. intros X Y. rewrite Bltb_correct by auto. destruct (Rlt_bool_spec (B2R x) (B2R y)); split; intros; auto; try discriminate. lra. Qed.
Lemma max_val (x y : f64) : is_finite x = true -> is_finite y = true -> is_finite (std_max x y) = true /\ B2R (std_max x y) = Rmax (B2R x) (B2R y).
Proof.
  intros X Y. unfold std_max. destruct (Bltb x y) eqn:E; [apply ltb_ok in E|apply ltb_no in E]; auto; split; auto; [rewrite Rmax_right|rewrite Rmax_left]; lra.
Qed.
Lemma min_val (x y : f64) : is_finite x = true -> is_finite y = true -> is_finite (std_min x y) = true /\ B2R (std_min x y) = Rmin (B2R x) (B2R y).
Proof.
  intros X Y. unfold std_min. destruct (Bltb y x) eqn:E; [apply ltb_ok in E|apply ltb_no in E]; auto; split; auto; [rewrite Rmin_right|rewrite Rmin_left]; lra.
Qed.

(** * The allowed error *)
Lemma k_small : 0 < bpow radix2 (-51) <= / 1000.
Proof. split; [apply bpow_gt_0|]. cbn. apply Rinv_le; [lra|]. apply IZR_le. discriminate. Qed.
Lemma up_mono a b : a <= b -> a + slack a <= b + slack b.
Proof.
  intros H. unfold slack. pose proof k_small as (K & L). set (k := bpow radix2 (-51)) in *.
  assert (Rabs a - Rabs b <= b - a) by (unfold Rabs; repeat destruct Rcase_abs; lra).
  assert ((Rabs a - Rabs b) * k <= (b - a) * k) by (apply Rmult_le_compat_r; lra). nra.
Qed.
Lemma down_mono a b : a < b -> a - slack a < b - slack b.
Proof.
  intros H. unfold slack. pose proof k_small as (K & L). set (k := bpow radix2 (-51)) in *.
  assert (Rabs b - Rabs a <= b - a) by (unfold Rabs; repeat destruct Rcase_abs; lra).
  assert ((Rabs b - Rabs a) * k <= (b - a) * k) by (apply Rmult_le_compat_r; lra). nra.
Qed.
Lemma down_mono' a b : a <= b -> a - slack a <= b - slack b.
Proof. intros [H| ->]; [left; apply down_mono; auto|right; reflexivity]. Qed.
Lemma up_mono' a b : a < b -> a + slack a < b + slack b.
Proof.
  intros H. unfold slack. pose proof k_small as (K & L). set (k := bpow radix2 (-51)) in *.
  assert (Rabs a - Rabs b <= b - a) by (unfold Rabs; repeat destruct Rcase_abs; lra).
  assert ((Rabs a - Rabs b) * k <= (b - a) * k) by (apply Rmult_le_compat_r; lra). nra.
Qed.

(** * One quotient *)
Definition eps_r : R := 10 * bpow radix2 (-52).
Lemma eps_low : bpow radix2 (-49) <= eps_r.
Proof. unfold eps_r. replace (bpow radix2 (-49)) with (8 * bpow radix2 (-52)); [pose proof (bpow_gt_0 radix2 (-52)); lra|]. change 8 with (bpow radix2 3). rewrite <- bpow_plus. reflexivity. Qed.
Lemma diff_small a b : Rabs a <= bpow radix2 900 -> Rabs b <= bpow radix2 900 -> Rabs (a - b) <= bpow radix2 901.
Proof.
  intros A B. change 901%Z with (1 + 900)%Z. rewrite bpow_plus. change (bpow radix2 1) with 2.
  assert (Rabs (a - b) <= Rabs a + Rabs b) by (replace (a - b) with (a + - b) by ring; rewrite <- (Rabs_Ropp b); apply Rabs_triang). lra.
Qed.
Lemma rd_bpow k : (-1000 <= k)%Z -> forall x, Rabs x <= bpow radix2 k -> Rabs (rd x) <= bpow radix2 k.
Proof. intros K x H. apply abs_round_le_generic; auto; try typeclasses eauto. apply generic_format_bpow. unfold fe64, FLT_exp. lia. Qed.
Lemma div_small s d : Rabs s <= bpow radix2 901 -> eps_r <= Rabs d -> Rabs (s / d) <= bpow radix2 950.
Proof.
  intros S D. pose proof eps_low as L. pose proof (bpow_gt_0 radix2 (-49)) as P. unfold Rdiv. rewrite Rabs_mult, Rabs_inv by (intros ->; rewrite Rabs_R0 in D; lra).
  change 950%Z with (901 + 49)%Z. rewrite bpow_plus. apply Rmult_le_compat; try apply Rabs_pos; auto; [left; apply Rinv_0_lt_compat; lra|].
  change 49%Z with (- - (49))%Z. rewrite bpow_opp. apply Rinv_le; [exact P|]. change (- (49))%Z with (-49)%Z. lra.
Qed.
Definition q_of (a p d : R) : R := rd (rd (a - p) / d).
Lemma quotient_err a p d : eps_r <= Rabs d -> Rabs (q_of a p d - (a - p) / d) <= slack ((a - p) / d).
Proof.
  intros D. pose proof eps_low as L. pose proof (bpow_gt_0 radix2 (-49)) as P. assert (NZ : d <> 0) by (intros ->; rewrite Rabs_R0 in D; lra).
  unfold q_of. set (s := a - p). set (e := s / d). pose proof (rd_err s) as E1. pose proof (rd_err (rd s / d)) as E2.
  assert (DD : rd s / d - e = (rd s - s) / d) by (unfold e; field; auto).
  assert (I : 0 < / Rabs d <= bpow radix2 49).
  { split; [apply Rinv_0_lt_compat; lra|]. change 49%Z with (- - (49))%Z. rewrite bpow_opp. apply Rinv_le; [exact P|]. change (- (49))%Z with (-49)%Z. lra. }
  assert (E3 : Rabs (rd s / d - e) <= u * Rabs e + eta * bpow radix2 49).
  { rewrite DD. unfold Rdiv. rewrite Rabs_mult, Rabs_inv by auto. apply Rle_trans with ((u * Rabs s + eta) * / Rabs d); [apply Rmult_le_compat_r; lra|].
    unfold e, Rdiv. rewrite Rabs_mult, Rabs_inv by auto. pose proof eta_pos. assert (eta * / Rabs d <= eta * bpow radix2 49) by (apply Rmult_le_compat_l; lra). lra. }
  assert (E4 : Rabs (rd s / d) <= Rabs e + Rabs (rd s / d - e)) by (replace (rd s / d) with (e + (rd s / d - e)) at 1 by ring; apply Rabs_triang).
  assert (E5 : Rabs (rd (rd s / d) - e) <= Rabs (rd (rd s / d) - rd s / d) + Rabs (rd s / d - e)).
  { replace (rd (rd s / d) - e) with ((rd (rd s / d) - rd s / d) + (rd s / d - e)) by ring. apply Rabs_triang. }
  assert (H1 : eta * bpow radix2 49 = bpow radix2 (-1026)) by (unfold eta; rewrite <- bpow_plus; reflexivity).
  assert (H2 : eta <= bpow radix2 (-1026) * / 1000000).
  { unfold eta. apply Rle_trans with (bpow radix2 (-1026) * bpow radix2 (-49)); [right; rewrite <- bpow_plus; reflexivity|]. apply Rmult_le_compat_l; [apply bpow_ge_0|]. cbn. apply Rinv_le; [lra|]. apply IZR_le. discriminate. }
  assert (H3 : bpow radix2 (-1025) = 2 * bpow radix2 (-1026)) by (change (-1025)%Z with (1 + -1026)%Z; rewrite bpow_plus; reflexivity).
  assert (H4 : bpow radix2 (-51) = 4 * u) by (rewrite u_val; change 4 with (bpow radix2 2); rewrite <- bpow_plus; reflexivity).
  unfold slack. rewrite H3, H4. rewrite H1 in E3. pose proof u_small as (U0 & U1). pose proof (Rabs_pos e). pose proof (bpow_gt_0 radix2 (-1026)) as B0. set (b := bpow radix2 (-1026)) in *.
  set (x := Rabs (rd s / d - e)) in *. set (ae := Rabs e) in *.
  assert (X1 : u * Rabs (rd s / d) <= u * (ae + (u * ae + b))) by (apply Rmult_le_compat_l; lra).
  assert (X2 : u * (u * ae) <= u * ae) by (apply Rmult_le_compat_l; [lra|]; nra).
  assert (X3 : u * b <= / 1000000 * b) by (apply Rmult_le_compat_r; [left; exact B0|exact U1]).
  assert (X4 : 0 <= u * ae) by (apply Rmult_le_pos; lra). lra.
Qed.
Lemma quotient_mono a a' p d : a <= a' -> 0 < d -> q_of a p d <= q_of a' p d.
Proof.
  intros H D. unfold q_of. apply rd_le. assert (I : 0 < / d) by (apply Rinv_0_lt_compat; auto). assert (M : rd (a - p) <= rd (a' - p)) by (apply rd_le; lra).
  unfold Rdiv. apply Rmult_le_compat_r; lra.
Qed.
Lemma quotient_anti a a' p d : a <= a' -> d < 0 -> q_of a' p d <= q_of a p d.
Proof.
  intros H D. unfold q_of. apply rd_le. assert (I : / d < 0) by (apply Rinv_lt_0_compat; auto). assert (M : rd (a - p) <= rd (a' - p)) by (apply rd_le; lra).
  unfold Rdiv. rewrite !(Rmult_comm _ (/ d)). apply Rmult_le_compat_neg_l; lra.
Qed.

(** * One dimension *)
Lemma quotient_ok a p d : moderate a -> moderate p -> is_finite d = true -> eps_r <= Rabs (B2R d) ->
  is_finite (fdiv (fsub a p) d) = true /\ B2R (fdiv (fsub a p) d) = q_of (B2R a) (B2R p) (B2R d).
Proof.
  intros (AF & A) (PF & P) DF D. pose proof eps_low as L. pose proof (bpow_gt_0 radix2 (-49)) as B0. assert (NZ : B2R d <> 0) by (intros Z; rewrite Z, Rabs_R0 in D; lra).
  pose proof (diff_small _ _ A P) as S. destruct (fsub_ok a p AF PF) as (SF & SV); [unfold small; eapply Rle_trans; [exact S|apply bpow_le; lia]|].
  assert (S' : Rabs (rd (B2R a - B2R p)) <= bpow radix2 901) by (apply rd_bpow; [lia|exact S]).
  destruct (fdiv_ok (fsub a p) d SF NZ) as (QF & QV).
  - rewrite SV. unfold small. eapply Rle_trans; [apply div_small; eauto|apply bpow_le; lia].
  - split; [exact QF|]. rewrite QV, SV. reflexivity.
Qed.
(** The interval between [t0] and [t1] is the set [hit], but for the error. *)
Definition close_to (t0 t1 : R) (hit : R -> Prop) : Prop :=
  (forall t, in_range t -> hit t -> t0 <= t + slack t /\ t - slack t <= t1) /\ (forall t, t0 <= t - slack t -> t + slack t <= t1 -> hit t).
Lemma bounds_close e0 e1 q0 q1 : Rabs (q0 - e0) <= slack e0 -> Rabs (q1 - e1) <= slack e1 -> close_to q0 q1 (fun t => e0 <= t <= e1).
Proof.
  intros A B. apply Rabs_le_inv in A. apply Rabs_le_inv in B. split.
  - intros t _ (H0 & H1). pose proof (up_mono _ _ H0). pose proof (down_mono' _ _ H1). lra.
  - intros t H0 H1. split.
    + destruct (Rle_or_lt e0 t) as [|N]; auto. pose proof (down_mono _ _ N). lra.
    + destruct (Rle_or_lt t e1) as [|N]; auto. pose proof (up_mono' _ _ N). lra.
Qed.
Definition sorted (a : faxis) : f64 * f64 :=
  let t0 := fdiv (fsub (fa_min a) (fa_pos a)) (fa_dir a) in
  let t1 := fdiv (fsub (fa_max a) (fa_pos a)) (fa_dir a) in
  if Bltb t1 t0 then (t1, t0) else (t0, t1).
Lemma close_iff t0 t1 (P Q : R -> Prop) : (forall t, P t <-> Q t) -> close_to t0 t1 P -> close_to t0 t1 Q.
Proof. intros H (A & B). split; [intros t R X; apply A; auto; apply H; auto|intros t X Y; apply H; auto]. Qed.
Lemma axis_close a t0 t1 : ordinary a -> eps_r <= Rabs (B2R (fa_dir a)) -> sorted a = (t0, t1) ->
  is_finite t0 = true /\ is_finite t1 = true /\ close_to (B2R t0) (B2R t1) (within a).
Proof.
  intros (P & (DF & _) & LO & HI & LE & _) D S. destruct (quotient_ok _ _ _ LO P DF D) as (F0 & V0). destruct (quotient_ok _ _ _ HI P DF D) as (F1 & V1).
  unfold sorted in S. cbv zeta in S. set (q0 := fdiv (fsub (fa_min a) (fa_pos a)) (fa_dir a)) in *. set (q1 := fdiv (fsub (fa_max a) (fa_pos a)) (fa_dir a)) in *.
  pose proof (quotient_err (B2R (fa_min a)) (B2R (fa_pos a)) _ D) as E0. pose proof (quotient_err (B2R (fa_max a)) (B2R (fa_pos a)) _ D) as E1. rewrite <- V0 in E0. rewrite <- V1 in E1.
  pose proof eps_low as L. pose proof (bpow_gt_0 radix2 (-49)) as B0. unfold within. set (d := B2R (fa_dir a)) in *. set (p := B2R (fa_pos a)) in *. set (lo := B2R (fa_min a)) in *. set (hi := B2R (fa_max a)) in *.
  destruct (Rle_or_lt d 0) as [N|N].
  - assert (N' : d < 0) by (destruct N as [N| ->]; auto; rewrite Rabs_R0 in D; lra).
    pose proof (quotient_anti lo hi p d LE N') as M. rewrite <- V0, <- V1 in M.
    assert (C : close_to (B2R q1) (B2R q0) (fun t => lo <= p + t * d <= hi)).
    { eapply close_iff; [|apply (bounds_close _ _ _ _ E1 E0)]. intros t. cbn.
      assert (X : forall c, (c - p) / d * d = c - p) by (intros; field; lra). pose proof (X lo). pose proof (X hi). split; intros (A & B); split; nra. }
    destruct (Bltb q1 q0) eqn:Q; injection S as <- <-; split; auto. apply ltb_no in Q; auto. split; auto. replace (B2R q0) with (B2R q1) at 1 by lra. replace (B2R q1) with (B2R q0) at 2 by lra. exact C.
  - pose proof (quotient_mono lo hi p d LE N) as M. rewrite <- V0, <- V1 in M.
    assert (C : close_to (B2R q0) (B2R q1) (fun t => lo <= p + t * d <= hi)).
    { eapply close_iff; [|apply (bounds_close _ _ _ _ E0 E1)]. intros t. cbn.
      assert (X : forall c, (c - p) / d * d = c - p) by (intros; field; lra). pose proof (X lo). pose proof (X hi). split; intros (A & B); split; nra. }
    assert (Q : Bltb q1 q0 = false) by (apply ltb_no; auto). rewrite Q in S. injection S as <- <-. auto.
Qed.
Lemma sub_negative x y : is_finite x = true -> is_finite y = true -> small (B2R x - B2R y) -> B2R x < B2R y -> exists m e h, fsub x y = B754_finite true m e h.
Proof.
  intros X Y S L. destruct (fsub_ok x y X Y S) as (F & V).
  assert (N : rd (B2R x - B2R y) < 0).
  { assert (LE : rd (B2R x - B2R y) <= 0) by (rewrite <- rd_0; apply rd_le; lra). destruct LE as [|E]; auto. exfalso. revert E.
    apply (round_plus_neq_0 radix2 fe64 ZnearestE (B2R x) (- B2R y)); [apply generic_format_B2R|apply generic_format_opp, generic_format_B2R|lra]. }
  rewrite <- V in N. destruct (fsub x y) as [s|s| |s m e h]; try discriminate; [cbn in N; lra|]. destruct s; [eauto|]. exfalso. cbn in N.
  assert (0 <= F2R (Float radix2 (Zpos m) e)) by (apply F2R_ge_0; cbn; lia). lra.
Qed.
Lemma sub_positive x y : is_finite x = true -> is_finite y = true -> small (B2R x - B2R y) -> B2R y < B2R x -> exists m e h, fsub x y = B754_finite false m e h.
Proof.
  intros X Y S L. destruct (fsub_ok x y X Y S) as (F & V).
  assert (N : 0 < rd (B2R x - B2R y)).
  { assert (LE : 0 <= rd (B2R x - B2R y)) by (rewrite <- rd_0; apply rd_le; lra). destruct LE as [|E]; auto. exfalso. symmetry in E. revert E.
    apply (round_plus_neq_0 radix2 fe64 ZnearestE (B2R x) (- B2R y)); [apply generic_format_B2R|apply generic_format_opp, generic_format_B2R|lra]. }
  rewrite <- V in N. destruct (fsub x y) as [s|s| |s m e h]; try discriminate; [cbn in N; lra|]. destruct s; [|eauto]. exfalso. cbn in N.
  assert (F2R (Float radix2 (Zneg m) e) <= 0) by (apply F2R_le_0; cbn; lia). lra.
Qed.
(** A direction of nought, and strictly inside: minus and plus infinity, whichever nought it is. *)
Lemma axis_parallel a : ordinary a -> B2R (fa_dir a) = 0 -> B2R (fa_min a) < B2R (fa_pos a) < B2R (fa_max a) -> sorted a = (B754_infinity true, B754_infinity false).
Proof.
  intros ((PF & P) & (DF & _) & (LF & L) & (HF & H) & _) D (A & B). unfold sorted.
  destruct (sub_negative _ _ LF PF) as (m & e & h & E); [unfold small; eapply Rle_trans; [apply diff_small; eauto|apply bpow_le; lia]|auto|].
  destruct (sub_positive _ _ HF PF) as (m' & e' & h' & E'); [unfold small; eapply Rle_trans; [apply diff_small; eauto|apply bpow_le; lia]|auto|].
  rewrite E, E'. destruct (fa_dir a) as [s|s| |s k x w]; try discriminate; [destruct s; reflexivity|]. exfalso. cbn in D. apply eq_0_F2R in D. destruct s; discriminate.
Qed.

(** * The loop *)
Lemma close_max n f t0 t1 (P Q : R -> Prop) : close_to n f P -> close_to t0 t1 Q -> close_to (Rmax n t0) (Rmin f t1) (fun t => P t /\ Q t).
Proof.
  intros (A & B) (A' & B'). split.
  - intros t R (H & H'). specialize (A t R H). specialize (A' t R H'). split; [apply Rmax_lub|apply Rmin_glb]; lra.
  - intros t H H'. pose proof (Rmax_l n t0). pose proof (Rmax_r n t0). pose proof (Rmin_l f t1). pose proof (Rmin_r f t1). split; [apply B|apply B']; lra.
Qed.
Lemma axis_step a near far (P : R -> Prop) : ordinary a -> is_finite near = true -> is_finite far = true -> close_to (B2R near) (B2R far) P ->
  (Bltb (Babs (fa_dir a)) f_eps && (Bltb (fa_pos a) (fa_min a) || Bltb (fa_max a) (fa_pos a)) = true /\ (forall t, ~ within a t)) \/
  (Bltb (Babs (fa_dir a)) f_eps && (Bltb (fa_pos a) (fa_min a) || Bltb (fa_max a) (fa_pos a)) = false /\
   exists t0 t1, sorted a = (t0, t1) /\ is_finite (std_max near t0) = true /\ is_finite (std_min far t1) = true /\
     close_to (B2R (std_max near t0)) (B2R (std_min far t1)) (fun t => P t /\ within a t)).
Proof.
  intros O NF FF C. pose proof O as ((PF & _) & (DF & _) & (LF & _) & (HF & _) & LE & K). destruct eps_ok as (EF & EV). fold eps_r in EV.
  assert (AF : is_finite (Babs (fa_dir a)) = true) by (rewrite is_finite_Babs; auto).
  assert (AV : B2R (Babs (fa_dir a)) = Rabs (B2R (fa_dir a))) by apply B2R_Babs.
  destruct K as [K|(Z & N1 & N2)].
  - right. fold eps_r in K. assert (Q : Bltb (Babs (fa_dir a)) f_eps = false) by (apply ltb_no; auto; rewrite AV, EV; exact K). rewrite Q. split; [reflexivity|].
    destruct (sorted a) as (t0, t1) eqn:S. destruct (axis_close a t0 t1 O K S) as (F0 & F1 & C'). exists t0, t1. split; auto.
    destruct (max_val near t0 NF F0) as (MF & MV). destruct (min_val far t1 FF F1) as (mF & mV). rewrite MV, mV. split; auto. split; auto. apply close_max; auto.
  - assert (Q : Bltb (Babs (fa_dir a)) f_eps = true).
    { apply ltb_ok; auto. rewrite AV, EV, Z, Rabs_R0. unfold eps_r. pose proof (bpow_gt_0 radix2 (-52)). lra. }
    rewrite Q. cbn [andb]. destruct (Rlt_or_le (B2R (fa_pos a)) (B2R (fa_min a))) as [L1|L1].
    { left. split; [apply orb_true_iff; left; apply ltb_ok; auto|]. intros t (H & _). rewrite Z, Rmult_0_r in H. lra. }
    destruct (Rlt_or_le (B2R (fa_max a)) (B2R (fa_pos a))) as [L2|L2].
    { left. split; [apply orb_true_iff; right; apply ltb_ok; auto|]. intros t (_ & H). rewrite Z, Rmult_0_r in H. lra. }
    right. split; [apply orb_false_iff; split; apply ltb_no; auto|]. exists (B754_infinity true), (B754_infinity false).
    assert (I : B2R (fa_min a) < B2R (fa_pos a) < B2R (fa_max a)) by lra. split; [apply axis_parallel; auto|].
    assert (X : std_max near (B754_infinity true) = near) by (unfold std_max; destruct near as [[]|[]| |[] m e h]; try discriminate; reflexivity).
    assert (Y : std_min far (B754_infinity false) = far) by (unfold std_min; destruct far as [[]|[]| |[] m e h]; try discriminate; reflexivity).
    rewrite X, Y. split; auto. split; auto. eapply close_iff; [|exact C]. intros t. unfold within. rewrite Z, Rmult_0_r, Rplus_0_r. split; [intros; split; auto; lra|tauto].
Qed.
Lemma nearly_iff r (P Q : R -> Prop) : (forall t, P t <-> Q t) -> nearly r P -> nearly r Q.
Proof.
  intros EQ. destruct r as [(r0, r1)|]; cbn [nearly].
  - intros (F0 & F1 & L & O & G & G'). split; [auto|]. split; [auto|]. split; [auto|]. split; [auto|]. split.
    + intros t R H. apply G; auto. apply EQ. exact H.
    + intros t H H'. apply EQ. apply G'; auto.
  - intros G t t' R R' T T' H H'. apply G; auto; apply EQ; auto.
Qed.
Lemma slabs_nearly l : forall near far (P : R -> Prop), Forall ordinary l -> is_finite near = true -> is_finite far = true -> close_to (B2R near) (B2R far) P -> B2R near <= B2R far -> 0 <= B2R far ->
  nearly (f_slabs l near far) (fun t => P t /\ Forall (fun a => within a t) l).
Proof.
  induction l as [|a l IH]; intros near far P O NF FF C LE PO.
  - cbn [f_slabs nearly]. repeat split; auto; destruct C as (A & B); try (apply A; tauto); apply B; auto.
  - inversion O as [|? ? Oa Ol]; subst. change (f_slabs (a :: l) near far) with
      (if Bltb (Babs (fa_dir a)) f_eps && (Bltb (fa_pos a) (fa_min a) || Bltb (fa_max a) (fa_pos a)) then None else
       let (t0, t1) := sorted a in if Bltb (std_min far t1) (std_max near t0) then None else if Bltb (std_min far t1) f_zero then None else f_slabs l (std_max near t0) (std_min far t1)).
    destruct (axis_step a near far P Oa NF FF C) as [(E & N)|(E & t0 & t1 & S & MF & mF & C')].
    { rewrite E. intros t t' _ _ _ _ (_ & H) _. inversion H as [|? ? W]; subst. elim (N t W). }
    rewrite E, S. pose proof C' as (A & B).
    assert (Z : is_finite f_zero = true /\ B2R f_zero = 0) by (split; reflexivity). destruct Z as (ZF & ZV).
    destruct (Bltb (std_min far t1) (std_max near t0)) eqn:E1.
    { apply ltb_ok in E1; auto. intros t t' R R' _ _ (H & W) (H' & W'). inversion W; inversion W'; subst. destruct (A t R) as (X & _); auto. destruct (A t' R') as (_ & Y); auto. lra. }
    destruct (Bltb (std_min far t1) f_zero) eqn:E2.
    { apply ltb_ok in E2; auto. rewrite ZV in E2. intros t t' R R' T _ (H & W) (H' & W'). inversion W; inversion W'; subst. destruct (A t' R') as (_ & Y); auto.
      assert (0 <= slack t) by (unfold slack; pose proof (Rabs_pos t); pose proof (bpow_gt_0 radix2 (-51)); pose proof (bpow_gt_0 radix2 (-1025)); nra). lra. }
    apply ltb_no in E1; auto. apply ltb_no in E2; auto. rewrite ZV in E2. specialize (IH _ _ _ Ol MF mF C' E1 E2). revert IH. apply nearly_iff.
    intros t. split; [intros ((X & Y) & W); split; auto|intros (X & W); inversion W; subst; auto].
Qed.
Lemma intersect_nearly x y z : ordinary x -> ordinary y -> ordinary z -> nearly (f_intersect x y z) (hits x y z).
Proof.
  intros X Y Z. destruct max_ok as (F & V). pose proof (bpow_gt_0 radix2 1023) as B0. unfold f_intersect.
  assert (OV : B2R (Bopp f_max) = - B2R f_max) by apply B2R_Bopp.
  assert (OF : is_finite (Bopp f_max) = true) by (rewrite is_finite_Bopp; auto).
  assert (SL : forall t, 0 <= slack t) by (intros t; unfold slack; pose proof (Rabs_pos t); pose proof (bpow_gt_0 radix2 (-51)); pose proof (bpow_gt_0 radix2 (-1025)); nra).
  assert (C : close_to (B2R (Bopp f_max)) (B2R f_max) (fun _ => True)).
  { split; [|auto]. intros t R _. unfold in_range in R. apply Rabs_le_inv in R. pose proof (SL t). rewrite OV. lra. }
  pose proof (slabs_nearly [x; y; z] _ _ _ (Forall_cons _ X (Forall_cons _ Y (Forall_cons _ Z (Forall_nil _)))) OF F C) as N. specialize (N ltac:(rewrite OV; lra) ltac:(lra)). revert N.
  apply nearly_iff. intros t. unfold hits.
  split; [intros (_ & W); inversion W as [|? ? A W1]; inversion W1 as [|? ? B W2]; inversion W2; subst; auto|intros (A & B & D); split; auto; repeat constructor; auto].
Qed.
