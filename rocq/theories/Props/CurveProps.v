(** C32: curves. *)
From Coq Require Import ZArith Reals List Bool Lra Sorted.
From Verif Require Import Model.RealM Proof.RealP Model.CurveM Spec.CurveSpec Proof.CurveP.
Import ListNotations.
Open Scope R_scope.

Lemma ordered_R : ordered rltb reqb.
Proof.
  split; intros.
  - destruct (reqb_spec a b); split; congruence.
  - destruct (rltb_spec a a); auto; lra.
  - destruct (rltb_spec a b), (rltb_spec b c), (rltb_spec a c); auto; try discriminate; lra.
  - destruct (rltb_spec a b), (rltb_spec b a); try discriminate; lra.
Qed.

(** In any order, with any number of repetitions: the samples are in strictly increasing
    order and each position has the value it was last given. *)
Theorem C32_samples : forall T X ltb eqb (history : list (T * X)), ordered ltb eqb ->
  let l := curve_run ltb eqb history in
  rising ltb l /\ forall t v, In (t, v) l <-> last_at eqb history t = Some v.
Proof.
  intros T X ltb eqb h O l. assert (R : rising ltb l) by (apply (curve_rising ltb eqb O); constructor).
  split; auto. intros t v. rewrite <- (value_in ltb eqb O) by auto. unfold l, curve_run. rewrite curve_value by auto. reflexivity.
Qed.
Print Assumptions C32_samples.

Lemma from_first (a : R * R) l t dflt : fst a <= t -> linear_from rltb mix a l t = linear rltb dflt mix (a :: l) t.
Proof. intros H. cbn. destruct (rltb_spec t (fst a)); auto. lra. Qed.
Lemma linear_skip dflt l1 : forall a l2 t, rising rltb (l1 ++ a :: l2) -> fst a <= t ->
  linear rltb dflt mix (l1 ++ a :: l2) t = linear_from rltb mix a l2 t.
Proof.
  assert (G : forall l1 z a l2 t, rising rltb (z :: l1 ++ a :: l2) -> fst a <= t ->
    linear_from rltb mix z (l1 ++ a :: l2) t = linear_from rltb mix a l2 t).
  { clear. induction l1 as [|b l1 IH]; intros z a l2 t S H; cbn.
    - destruct (rltb_spec t (fst a)); auto. lra.
    - inversion S as [|? ? S' F]; subst. inversion S' as [|? ? S2 F2]; subst.
      assert (B : rltb (fst b) (fst a) = true) by (apply (proj1 (Forall_forall _ _) F2); apply in_app_iff; right; left; auto).
      destruct (rltb_spec (fst b) (fst a)); [|discriminate].
      destruct (rltb_spec t (fst b)); [lra|]. apply IH; auto. }
  destruct l1 as [|b l1]; intros a l2 t S H.
  - cbn [app]. symmetry. apply from_first; auto.
  - cbn [app]. assert (B : rltb (fst b) (fst a) = true).
    { inversion S as [|? ? S2 F2]; subst. apply (proj1 (Forall_forall _ _) F2); apply in_app_iff; right; left; auto. }
    destruct (rltb_spec (fst b) (fst a)); [|discriminate]. rewrite <- from_first by lra. apply G; auto.
Qed.
Lemma mix_first a b : fst a < fst b -> mix a b (fst a) = snd a.
Proof. intros. unfold mix, lerp. rewrite lerpfactor_ne by lra. field. lra. Qed.
Lemma from_self l : forall a, rising rltb (a :: l) -> linear_from rltb mix a l (fst a) = snd a.
Proof.
  intros a S. destruct l as [|b l]; auto. cbn.
  inversion S as [|? ? S2 F2]; subst. inversion F2; subst. destruct (rltb_spec (fst a) (fst b)); [|discriminate]. apply mix_first; auto.
Qed.

(** The value at every position. *)
Theorem C32_linear : forall dflt history t,
  let l := curve_run rltb reqb history in let value := linear rltb dflt mix l t in
  (history = [] -> value = dflt) /\
  (forall v, In (t, v) l -> value = v) /\
  (forall a u r, l = (a, u) :: r -> t <= a -> value = u) /\
  (forall a u r, l = r ++ [(a, u)] -> a <= t -> value = u) /\
  (forall a u b w l1 l2, l = l1 ++ (a, u) :: (b, w) :: l2 -> a <= t <= b ->
     value = u + (w - u) * ((t - a) / (b - a))).
Proof.
  intros dflt h t l value. destruct (C32_samples _ _ rltb reqb h ordered_R) as (S & _). fold l in S.
  assert (EX : forall v, In (t, v) l -> value = v).
  { intros v I. apply in_split in I as (l1 & l2 & E). unfold value. rewrite E in *.
    rewrite linear_skip by (auto; cbn; lra). assert (S' : rising rltb ((t, v) :: l2)).
    { clear -S. induction l1; auto. inversion S; auto. }
    apply (from_self l2 (t, v) S'). }
  split; [intros ->; reflexivity|]. split; [auto|]. split; [|split].
  - intros a u r E H. destruct (Req_dec t a) as [->|]; [apply EX; rewrite E; left; auto|].
    unfold value. rewrite E. cbn. destruct (rltb_spec t a); auto. lra.
  - intros a u r E H. unfold value. rewrite E in *. rewrite linear_skip by auto. reflexivity.
  - intros a u b w l1 l2 E H. assert (AB : a < b).
    { rewrite E in S. clear -S. induction l1; [|inversion S; auto]. inversion S as [|? ? S2 F2]; subst. inversion F2; subst.
      cbn in H1. destruct (rltb_spec a b); [auto|discriminate]. }
    destruct (Req_dec t b) as [->|N].
    { rewrite (EX w). 2:{ rewrite E. apply in_app_iff. right. right. left. auto. } field. lra. }
    unfold value. rewrite E in *. rewrite linear_skip by (auto; cbn; lra). cbn. destruct (rltb_spec t b); [|lra].
    unfold mix, lerp. cbn. rewrite lerpfactor_ne by lra. field. lra.
Qed.
Print Assumptions C32_linear.

(** A value interpolated never leaves the range of the samples. *)
Theorem C32_bounded : forall dflt history t lo hi,
  let l := curve_run rltb reqb history in
  l <> [] -> Forall (fun s => lo <= snd s <= hi) l -> lo <= linear rltb dflt mix l t <= hi.
Proof.
  intros dflt h t lo hi l N F. destruct (C32_samples _ _ rltb reqb h ordered_R) as (S & _). fold l in S.
  destruct l as [|a l']; [congruence|]. clear N. cbn. inversion F as [|? ? Fa F']; subst.
  destruct (rltb_spec t (fst a)); [auto|]. clear F. assert (H : fst a <= t) by lra. clear n. revert a Fa F' S H.
  induction l' as [|b l2 IH]; intros a Fa F' S H; [auto|]. cbn. inversion F' as [|? ? Fb Fb']; subst.
  inversion S as [|? ? S2 F2]; subst. inversion F2; subst. destruct (rltb_spec (fst a) (fst b)); [|discriminate].
  destruct (rltb_spec t (fst b)); [|apply IH; auto; lra].
  unfold mix, lerp. rewrite lerpfactor_ne by lra. set (q := (t - fst a) / (fst b - fst a)).
  assert (0 <= q <= 1).
  { unfold q. split; [apply Rmult_le_pos; [lra|apply Rlt_le, Rinv_0_lt_compat; lra]|].
    apply Rmult_le_reg_r with (fst b - fst a); [lra|]. unfold Rdiv. rewrite Rmult_assoc, Rinv_l by lra. lra. }
  split; nra.
Qed.
Print Assumptions C32_bounded.

(** Three samples given out of order, one of them twice. *)
Example C32_example :
  curve_run rltb reqb [(2, 30); (0, 99); (1, 20); (0, 10)] = [(0, 10); (1, 20); (2, 30)] /\
  linear rltb 0 mix [(0, 10); (1, 20); (2, 30)] (3 / 2) = 25.
Proof.
  split.
  - unfold curve_run, add_sample, rltb, reqb.
    repeat (cbn; match goal with |- context [Rlt_dec ?a ?b] => destruct (Rlt_dec a b); try lra
                 | |- context [Req_EM_T ?a ?b] => destruct (Req_EM_T a b); try lra end); cbn; auto.
  - destruct (C32_linear 0 [(0, 10); (1, 20); (2, 30)] (3/2)) as (_ & _ & _ & _ & H).
    cbn. unfold rltb. repeat match goal with |- context [Rlt_dec ?a ?b] => destruct (Rlt_dec a b); try lra end.
    unfold mix, lerp. cbn. rewrite lerpfactor_ne by lra. lra.
Qed.
