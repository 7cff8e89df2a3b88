(** C72: time curves in floating point. *)
From Coq Require Import ZArith Reals List Bool Lia Lra Sorted.
From Flocq Require Import Core BinarySingleNaN.
From Verif Require Import Model.Base Model.CurveM Model.FloatM Model.FloatMipM Model.FloatCurveM Spec.FloatCurveSpec.
From Verif Require Import Model.RealM Proof.RealP Spec.CurveSpec Proof.CurveP Proof.FloatCurveP Props.CurveProps.
Import ListNotations.
Open Scope R_scope.

(** In any order, with any repetitions: the samples are in increasing order, and each position has the value it was last
    given; [-0] and [+0] are one position. *)
Theorem C72_samples : forall t (h : list (time * (nat -> val t))), Forall (fun s => is_finite (fst s) = true) h ->
  let l := t_run h in
  Forall (fun s => is_finite (fst s) = true) l /\ StronglySorted (fun a b => B2R (fst a) < B2R (fst b)) l /\
  forall x v, (exists s, In (s, v) l /\ B2R s = x) <-> last_given h x v.
Proof.
  intros t h F l. destruct (run_key h F) as (FL & K). fold l in FL, K. split; [exact FL|].
  destruct (C32_samples _ _ rltb reqb (map key h) ordered_R) as (S & V). rewrite <- K in S, V. split.
  - clearbody l. clear - S. remember (map key l) as m eqn:E. revert l E. induction S as [|a m S IH G]; intros l E; destruct l as [|b l]; try discriminate; constructor.
    + apply IH. injection E as _ E. exact E.
    + injection E as -> ->. rewrite Forall_map in G. eapply Forall_impl; [|exact G]. intros c H. cbn [key fst] in H.
      destruct (rltb_spec (B2R (fst b)) (B2R (fst c))); [auto|discriminate].
  - intros x v. rewrite <- last_key, <- V, in_map_iff. split.
    + intros (s & I & E). exists (s, v). split; [apply (f_equal (fun y => (y, v)) E)|auto].
    + intros ((s & w) & E & I). injection E as E <-. exists s. auto.
Qed.
Print Assumptions C72_samples.

Section L.
Context {t : vtype} (dflt : nat -> val t) (h : list (time * (nat -> val t))) (at_ : time).
Hypothesis T : Forall (fun s => time_ok (fst s)) h.
Hypothesis A : time_ok at_.
Let l := t_run h.
Lemma h_fin : Forall (fun s => is_finite (fst s) = true) h.
Proof. eapply Forall_impl; [|exact T]. intros s (F & _). exact F. Qed.
Lemma l_times : Forall (fun s => time_ok (fst s)) l.
Proof.
  destruct (C72_samples t h h_fin) as (FL & _ & V). fold l in FL, V. apply Forall_forall. intros (s & v) I. cbn [fst].
  rewrite Forall_forall in FL. split; [apply (FL (s, v) I)|].
  destruct (proj1 (V (B2R s) v)) as (a & s' & b & E & Q & _); [exists s; auto|]. rewrite <- Q.
  rewrite Forall_forall in T. apply (T (s', v)). rewrite E. apply in_or_app. right. left. auto.
Qed.
(** The samples up to one that is not after the lookup are not after it. *)
Lemma l_skip l1 a l2 : l = l1 ++ a :: l2 -> B2R (fst a) <= B2R at_ -> Forall (fun s => t_before at_ (fst s) = false) (l1 ++ [a]).
Proof.
  intros E H. destruct (C72_samples t h h_fin) as (FL & S & _). fold l in FL, S. rewrite E in FL, S. destruct A as (AF & _).
  assert (FL' : Forall (fun s => is_finite (fst s) = true) (l1 ++ [a])).
  { apply Forall_app in FL. destruct FL as (P & Q). apply Forall_app. split; [exact P|]. inversion Q; auto. }
  assert (L : Forall (fun s => B2R (fst s) <= B2R at_) (l1 ++ [a])).
  { clear - S H. induction l1 as [|b l1 IH]; cbn [app] in *; [constructor; [exact H|constructor]|]. inversion S as [|? ? S1 F1]; subst. constructor; [|apply IH; exact S1].
    rewrite Forall_forall in F1. eapply Rle_trans; [apply Rlt_le, (F1 a); apply in_or_app; right; left; auto|exact H]. }
  apply Forall_forall. intros s I. rewrite Forall_forall in FL', L. rewrite before_R by auto. destruct (rltb_spec (B2R at_) (B2R (fst s))) as [G|G]; [|reflexivity]. destruct (Rlt_not_le _ _ G (L s I)).
Qed.
End L.

(** The value at every position: exactly that of the sample there, of the first sample before it, and of the last one
    after it; between two samples, near the straight line. *)
Theorem C72_linear : forall t (dflt : nat -> val t) h at_, Forall (fun s => time_ok (fst s)) h -> time_ok at_ ->
  let l := t_run h in let value := t_linear dflt l at_ in
  (h = [] -> value = dflt) /\
  (forall a u r, l = (a, u) :: r -> B2R at_ < B2R a -> value = u) /\
  (forall a u r, l = r ++ [(a, u)] -> B2R a <= B2R at_ -> value = u) /\
  (forall i, (forall a u, In (a, u) l -> comp_ok (u i)) ->
    (forall a u, In (a, u) l -> B2R a = B2R at_ -> is_finite (value i) = true /\ B2R (value i) = B2R (u i)) /\
    (forall a u b w l1 l2, l = l1 ++ (a, u) :: (b, w) :: l2 -> B2R a <= B2R at_ <= B2R b ->
      is_finite (value i) = true /\
      Rabs (B2R (value i) - line (B2R a) (B2R (u i)) (B2R b) (B2R (w i)) (B2R at_)) <= curve_rounding (B2R (u i)) (B2R (w i)))).
Proof.
  intros t dflt h at_ T A l value. pose proof (l_times h T) as TL. destruct (C72_samples t h (h_fin h T)) as (FL & S & _). fold l in TL, FL, S.
  pose proof (l_skip h at_ T A) as SK. fold l in SK. pose proof A as (AF & _).
  split; [intros ->; reflexivity|]. split; [|split].
  - intros a u r E H. unfold value. rewrite E. unfold t_linear. cbn [linear fst snd]. rewrite before_R.
    + destruct (rltb_spec (B2R at_) (B2R a)); [reflexivity|lra].
    + exact AF.
    + rewrite E in FL. inversion FL; auto.
  - intros a u r E H. unfold value. rewrite E, linear_at; [reflexivity|]. apply (SK r (a, u) []); auto.
  - intros i C.
    assert (EX : forall a u, In (a, u) l -> B2R a = B2R at_ -> is_finite (value i) = true /\ B2R (value i) = B2R (u i)).
    { intros a u I H. pose proof I as J. apply in_split in J. destruct J as (l1 & l2 & E). unfold value. rewrite E, linear_at by (apply (SK l1 (a, u) l2); cbn [fst]; [auto|lra]).
      destruct l2 as [|(b & w) l2]; cbn [linear_from fst snd]; [split; [apply (C a u I)|reflexivity]|].
      assert (IB : In (b, w) l) by (rewrite E; apply in_or_app; right; right; left; auto).
      assert (AB : B2R a < B2R b).
      { rewrite E in S. clear - S. induction l1 as [|c l1 IH]; cbn [app] in S; inversion S as [|? ? S1 F1]; subst; auto. rewrite Forall_forall in F1. apply (F1 (b, w)). left. auto. }
      rewrite Forall_forall in TL. pose proof (TL _ I) as TA. pose proof (TL _ IB) as TB. cbn [fst] in TA, TB.
      rewrite before_R; [|exact AF|apply TB]. destruct (rltb_spec (B2R at_) (B2R b)); [|lra].
      unfold t_between. cbn [fst snd]. destruct (factor_ok at_ a b A TA TB) as (XF & _ & _ & X0); [lra|]. apply lerp_lower; auto; [apply (C _ _ I)|apply (C _ _ IB)]. }
    split; [exact EX|]. intros a u b w l1 l2 E H.
    assert (IA : In (a, u) l) by (rewrite E; apply in_or_app; right; left; auto).
    assert (IB : In (b, w) l) by (rewrite E; apply in_or_app; right; right; left; auto).
    assert (AB : B2R a < B2R b).
    { rewrite E in S. clear - S. induction l1 as [|c l1 IH]; cbn [app] in S; inversion S as [|? ? S1 F1]; subst; auto. rewrite Forall_forall in F1. apply (F1 (b, w)). left. auto. }
    destruct (Req_dec (B2R at_) (B2R b)) as [Q|Q].
    { destruct (EX b w IB) as (P & V); [auto|]. split; [exact P|]. rewrite V, Q. unfold line.
      replace (B2R (w i) - (B2R (u i) + (B2R (w i) - B2R (u i)) * ((B2R b - B2R a) / (B2R b - B2R a)))) with 0 by (field; lra). rewrite Rabs_R0.
      unfold curve_rounding. assert (0 < 2 ^ 22) by (apply pow_lt; lra). assert (0 < / 2 ^ 148) by (apply Rinv_0_lt_compat, pow_lt; lra).
      assert (0 <= Rabs (B2R (w i) - B2R (u i)) / 2 ^ 22) by (apply Rmult_le_pos; [apply Rabs_pos|apply Rlt_le, Rinv_0_lt_compat; auto]).
      assert (0 <= Rmax (Rabs (B2R (u i))) (Rabs (B2R (w i))) / 2 ^ 22).
      { apply Rmult_le_pos; [eapply Rle_trans; [apply Rabs_pos|apply Rmax_l]|apply Rlt_le, Rinv_0_lt_compat; auto]. }
      lra. }
    rewrite Forall_forall in TL. pose proof (TL _ IA) as TA. pose proof (TL _ IB) as TB. cbn [fst] in TA, TB.
    unfold value. rewrite E, linear_at by (apply (SK l1 (a, u) ((b, w) :: l2)); cbn [fst]; [auto|lra]). cbn [linear_from fst snd].
    rewrite before_R; [|exact AF|apply TB]. destruct (rltb_spec (B2R at_) (B2R b)); [|lra].
    unfold t_between. cbn [fst snd]. destruct (factor_ok at_ a b A TA TB) as (XF & X1 & X2 & _); [lra|].
    unfold line. apply lerp_err; auto; [apply (C _ _ IA)|apply (C _ _ IB)].
Qed.
Print Assumptions C72_linear.

(** A component that all samples agree on moves by at most two parts in eight million. *)
Theorem C72_constant : forall t (dflt : nat -> val t) h at_ i x, Forall (fun s => time_ok (fst s)) h -> time_ok at_ -> h <> [] ->
  (forall a u, In (a, u) (t_run h) -> comp_ok (u i) /\ B2R (u i) = x) ->
  Rabs (B2R (t_linear dflt (t_run h) at_ i) - x) <= Rabs x / 2 ^ 22 + / 2 ^ 148.
Proof.
  intros t dflt h at_ i x T A N C. destruct (C72_linear t dflt h at_ T A) as (_ & First & Last & V). specialize (V i (fun a u I => proj1 (C a u I))). destruct V as (_ & Line).
  destruct (C72_samples t h (h_fin h T)) as (_ & S & Gv). set (l := t_run h) in *.
  assert (Z : 0 <= Rabs x / 2 ^ 22 + / 2 ^ 148).
  { apply Rplus_le_le_0_compat; [apply Rmult_le_pos; [apply Rabs_pos|]|]; apply Rlt_le, Rinv_0_lt_compat, pow_lt; lra. }
  assert (Ex : forall u : nat -> val t, (exists a, In (a, u) l) -> t_linear dflt l at_ = u -> Rabs (B2R (t_linear dflt l at_ i) - x) <= Rabs x / 2 ^ 22 + / 2 ^ 148).
  { intros u (a & I) ->. rewrite (proj2 (C a u I)). replace (x - x) with 0 by ring. rewrite Rabs_R0. exact Z. }
  assert (G : forall l2 l1 a, l = l1 ++ a :: l2 -> B2R (fst a) <= B2R at_ -> Rabs (B2R (t_linear dflt l at_ i) - x) <= Rabs x / 2 ^ 22 + / 2 ^ 148).
  { induction l2 as [|(b & w) l2 IH]; intros l1 (a & u) E H; cbn [fst] in H.
    - apply (Ex u); [exists a; rewrite E; apply in_or_app; right; left; auto|]. apply (Last a u l1); auto.
    - destruct (Rle_lt_dec (B2R b) (B2R at_)) as [B|B]; [apply (IH (l1 ++ [(a, u)]) (b, w)); [rewrite <- app_assoc; exact E|auto]|].
      destruct (Line a u b w l1 l2 E) as (_ & K); [lra|].
      destruct (C a u) as (_ & U); [rewrite E; apply in_or_app; right; left; auto|]. destruct (C b w) as (_ & W); [rewrite E; apply in_or_app; right; right; left; auto|].
      rewrite U, W in K. unfold line, curve_rounding in K. replace (x - x) with 0 in K by ring. rewrite Rmult_0_l, Rplus_0_r, Rabs_R0, Rmax_left in K by lra.
      unfold Rdiv at 1 in K. rewrite Rmult_0_l, Rplus_0_l in K. exact K. }
  destruct l as [|(a & u) r] eqn:El.
  - exfalso. destruct h as [|(s & v) h'] using rev_ind; [congruence|]. destruct (proj2 (Gv (B2R s) v)) as (s' & [] & _).
    exists h', s, []. split; [reflexivity|]. split; [reflexivity|]. intros s' v' [].
  - destruct (Rlt_le_dec (B2R at_) (B2R a)) as [B|B].
    + apply (Ex u); [exists a; left; auto|]. apply (First a u r); auto.
    + apply (G r [] (a, u)); auto.
Qed.
Print Assumptions C72_constant.

(** * What does not hold *)
Definition n_ (z : Z) : time := vnum VFloat z 0.
Definition d_ (z : Z) : nat -> val VDouble := fun _ => vnum VDouble z 0.
Definition see (v : val VDouble) : SpecFloat.spec_float := B2SF v.
(** A matrix that is the same at two times is not quite the same between them: 1 at times 0 and 3, looked up at 1. *)
Theorem C72_constant_refuted : exists v, t_linear (d_ 0) (t_run [(n_ 0, d_ 1); (n_ 3, d_ 1)]) (n_ 1) 0%nat = v /\ is_finite v = true /\ B2R v <> 1.
Proof.
  eexists. split; [reflexivity|]. split; [vm_compute; reflexivity|]. intros E.
  assert (X : Beqb (t_linear (d_ 0) (t_run [(n_ 0, d_ 1); (n_ 3, d_ 1)]) (n_ 1) 0%nat) (vnum VDouble 1 0) = true).
  { rewrite Beqb_correct by (vm_compute; reflexivity). apply Req_bool_true. eapply eq_trans; [exact E|]. vm_compute. lra. }
  vm_compute in X. discriminate.
Qed.
Print Assumptions C72_constant_refuted.
(** A sample whose time is not a number hides the sample before it: the value at time 0, given 10, is 77. *)
Theorem C72_nan_time_refuted :
  see (t_linear (d_ 0) (t_run [(n_ 0, d_ 10); (B754_nan, d_ 77); (n_ 1, d_ 20)]) (n_ 0) 0%nat) = see (d_ 77 0%nat).
Proof. vm_compute. reflexivity. Qed.
Print Assumptions C72_nan_time_refuted.
(** Times whose difference is out of range: the value between them is not a number. *)
Theorem C72_span_refuted : let far := vnum VFloat 3 126 in let near := vnum VFloat 5 125 in
  see (t_linear (d_ 0) (t_run [(Bopp far, d_ 10); (far, d_ 20)]) near 0%nat) = SpecFloat.S754_nan.
Proof. vm_compute. reflexivity. Qed.
Print Assumptions C72_span_refuted.
(** An infinite value spoils the sample before it. *)
Theorem C72_infinite_refuted :
  see (t_linear (d_ 0) (t_run [(n_ 0, d_ 10); (n_ 1, fun _ => B754_infinity false)]) (n_ 0) 0%nat) = SpecFloat.S754_nan.
Proof. vm_compute. reflexivity. Qed.
Print Assumptions C72_infinite_refuted.

(** A concrete case: three samples out of order, one of them twice. *)
Definition case : list (time * (nat -> val VDouble)) := [(n_ 2, d_ 30); (n_ 0, d_ 99); (n_ 1, d_ 20); (n_ 0, d_ 10)].
Lemma n_ok z : (Z.abs z <= 100)%Z -> time_ok (n_ z) /\ B2R (n_ z) = IZR z.
Proof.
  intros H. pose proof (binary_normalize_correct 24 128 _ _ mode_NE z 0 false) as N. cbv zeta in N. cbn [round_mode] in N.
  assert (E : F2R (Float radix2 z 0) = IZR z) by (unfold F2R; cbn; ring). rewrite E in N.
  change (round radix2 (SpecFloat.fexp 24 128) ZnearestE (IZR z)) with (FloatMipP.rnd VFloat (IZR z)) in N.
  rewrite (FloatMipP.rnd_fmt VFloat) in N by (apply FloatMipP.int_fmt; cbn [prec]; lia).
  assert (L : Rabs (IZR z) < 2 ^ 127).
  { rewrite <- abs_IZR. apply Rle_lt_trans with 100; [apply IZR_le; auto|]. apply Rlt_le_trans with (2 ^ 7); [lra|apply Rle_pow; [lra|lia]]. }
  rewrite Rlt_bool_true in N.
  - destruct N as (V & F & _). split; [split; [exact F|]|exact V]. eapply Rle_lt_trans; [apply Req_le, (f_equal Rabs V)|exact L].
  - eapply Rlt_trans; [exact L|]. rewrite pow_bp. apply bpow_lt. lia.
Qed.
Lemma d_ok z i : (Z.abs z <= 100)%Z -> comp_ok (d_ z i) /\ B2R (d_ z i) = IZR z.
Proof.
  intros H. pose proof (binary_normalize_correct 53 1024 _ _ mode_NE z 0 false) as N. cbv zeta in N. cbn [round_mode] in N.
  assert (E : F2R (Float radix2 z 0) = IZR z) by (unfold F2R; cbn; ring). rewrite E in N.
  change (round radix2 (SpecFloat.fexp 53 1024) ZnearestE (IZR z)) with (FloatMipP.rnd VDouble (IZR z)) in N.
  rewrite (FloatMipP.rnd_fmt VDouble) in N by (apply FloatMipP.int_fmt; cbn [prec]; lia).
  assert (L : Rabs (IZR z) < 2 ^ 1023).
  { rewrite <- abs_IZR. apply Rle_lt_trans with 100; [apply IZR_le; auto|]. apply Rlt_le_trans with (2 ^ 7); [lra|apply Rle_pow; [lra|lia]]. }
  rewrite Rlt_bool_true in N.
  - destruct N as (V & F & _). split; [split; [exact F|]|exact V]. eapply Rle_lt_trans; [apply Req_le, (f_equal Rabs V)|exact L].
  - eapply Rlt_trans; [exact L|]. rewrite pow_bp. apply bpow_lt. lia.
Qed.
Lemma case_times : Forall (fun s => time_ok (fst s)) case.
Proof. repeat constructor; apply n_ok; lia. Qed.
Lemma case_run : t_run case = [(n_ 0, d_ 10); (n_ 1, d_ 20); (n_ 2, d_ 30)].
Proof.
  unfold t_run, case. cbn [fold_left fst snd]. unfold t_add, add_sample.
  repeat (cbn [existsb replace_at insert_at fst snd];
    match goal with
    | |- context [t_same (n_ ?a) (n_ ?b)] => let e := eval vm_compute in (t_same (n_ a) (n_ b)) in change (t_same (n_ a) (n_ b)) with e
    | |- context [t_before (n_ ?a) (n_ ?b)] => let e := eval vm_compute in (t_before (n_ a) (n_ b)) in change (t_before (n_ a) (n_ b)) with e
    end; cbn [orb]). reflexivity.
Qed.
Example C72_ex : exists v, t_linear (d_ 0) (t_run case) (vnum VFloat 3 (-1)) 0%nat = v /\ see v = see (d_ 25 0%nat).
Proof. eexists. split; [reflexivity|]. vm_compute. reflexivity. Qed.
Example C72_ex_sample : is_finite (t_linear (d_ 0) (t_run case) (n_ 1) 5%nat) = true /\ B2R (t_linear (d_ 0) (t_run case) (n_ 1) 5%nat) = 20.
Proof.
  destruct (C72_linear VDouble (d_ 0) case (n_ 1) case_times (proj1 (n_ok 1 ltac:(lia)))) as (_ & _ & _ & V). rewrite case_run in *.
  destruct (V 5%nat) as (E & _).
  { intros a u [I|[I|[I|[]]]]; injection I as <- <-; apply d_ok; lia. }
  destruct (E (n_ 1) (d_ 20)) as (P & Q); [right; left; auto|auto|]. split; [exact P|]. rewrite Q. apply d_ok. lia.
Qed.
