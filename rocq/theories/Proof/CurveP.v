From Coq Require Import List Bool Sorted.
From Verif Require Import Model.CurveM Spec.CurveSpec.
Import ListNotations.

Section P.
Context {T X : Type}.
Variables ltb eqb : T -> T -> bool.
Hypothesis O : ordered ltb eqb.
Implicit Types l : list (T * X).

Lemma eqb_refl' a : eqb a a = true. Proof. apply (eqb_iff _ _ O); auto. Qed.
Lemma eqb_neq' a b : a <> b -> eqb a b = false.
Proof. intros N. destruct (eqb a b) eqn:E; auto. apply (eqb_iff _ _ O) in E. congruence. Qed.
Lemma ltb_anti a b : ltb a b = true -> ltb b a = false.
Proof. intros H. destruct (ltb b a) eqn:E; auto. pose proof (ltb_tr _ _ O _ _ _ H E) as K. rewrite (ltb_irr _ _ O) in K. congruence. Qed.
Lemma ltb_ne a b : ltb a b = true -> a <> b. Proof. intros H ->. rewrite (ltb_irr _ _ O) in H. discriminate. Qed.
Lemma ltb_cases a b : a <> b -> ltb a b = false -> ltb b a = true.
Proof. intros N H. destruct (ltb b a) eqn:E; auto. exfalso. apply N. apply (ltb_tot _ _ O); auto. Qed.

Lemma replace_times t v l : map fst (replace_at eqb t v l) = map fst l.
Proof. induction l as [|(u, w) r IH]; cbn; auto. destruct (eqb u t); cbn; congruence. Qed.
Lemma rising_map (l m : list (T * X)) : map fst l = map fst m -> rising ltb l -> rising ltb m.
Proof.
  intros E S. revert m E. induction S as [|a l S IH F]; intros [|b m] E; try discriminate; [constructor|].
  cbn in E. injection E as E1 E2. constructor; [apply IH; auto|].
  apply Forall_forall. intros x I. assert (In (fst x) (map fst l)) by (rewrite E2; apply in_map; auto).
  apply in_map_iff in H as (y & Ey & Iy). rewrite <- E1, <- Ey. apply (proj1 (Forall_forall _ _) F); auto.
Qed.
Lemma insert_in' t v l x : In x (insert_at ltb t v l) <-> x = (t, v) \/ In x l.
Proof. induction l as [|(u, w) r IH]; cbn; [intuition|]. destruct (ltb t u); cbn; rewrite ?IH; intuition. Qed.
Lemma insert_rising t v l : rising ltb l -> ~ In t (map fst l) -> rising ltb (insert_at ltb t v l).
Proof.
  induction 1 as [|(u, w) l S IH F]; intros N; cbn; [repeat constructor|]. cbn in N. destruct (ltb t u) eqn:E.
  - constructor; [constructor; auto|]. constructor; auto. apply Forall_forall. intros x I.
    apply (ltb_tr _ _ O) with u; auto. apply (proj1 (Forall_forall _ _) F x I).
  - constructor; [apply IH; auto|]. apply Forall_forall. intros x I. apply insert_in' in I as [->|I].
    + cbn. apply ltb_cases; auto.
    + apply (proj1 (Forall_forall _ _) F x I).
Qed.
Lemma not_in_times t l : existsb (fun s => eqb (fst s) t) l = false -> ~ In t (map fst l).
Proof.
  intros H I. apply in_map_iff in I as (x & E & I). apply not_true_iff_false in H. apply H. apply existsb_exists.
  exists x. split; auto. rewrite E. apply eqb_refl'.
Qed.
Lemma add_rising t v l : rising ltb l -> rising ltb (add_sample ltb eqb t v l).
Proof.
  intros R. unfold add_sample. destruct (existsb _ l) eqn:E.
  - apply rising_map with l; auto. rewrite replace_times; auto.
  - apply insert_rising; auto. apply not_in_times; auto.
Qed.

Fixpoint value_at (l : list (T * X)) (t : T) : option X :=
  match l with [] => None | (u, w) :: r => if eqb u t then Some w else value_at r t end.
Lemma value_add t v l t' : value_at (add_sample ltb eqb t v l) t' = if eqb t t' then Some v else value_at l t'.
Proof.
  unfold add_sample. destruct (existsb (fun s => eqb (fst s) t) l) eqn:E.
  - induction l as [|(u, w) r IH]; cbn in *; [discriminate|]. destruct (eqb u t) eqn:F; cbn.
    + apply (eqb_iff _ _ O) in F as ->. destruct (eqb t t'); auto.
    + rewrite IH by auto. destruct (eqb u t') eqn:K; auto. apply (eqb_iff _ _ O) in K as ->.
      rewrite eqb_neq'; auto. intros ->. rewrite eqb_refl' in F. discriminate.
  - apply not_in_times in E. induction l as [|(u, w) r IH]; cbn in *; auto. destruct (ltb t u) eqn:F; cbn; auto.
    rewrite IH by tauto. destruct (eqb u t') eqn:K; auto. destruct (eqb t t') eqn:K2; auto.
    apply (eqb_iff _ _ O) in K, K2. exfalso. apply E. left. congruence.
Qed.
Lemma curve_value h : forall l t,
  value_at (fold_left (fun l s => add_sample ltb eqb (fst s) (snd s) l) h l) t =
  fold_left (fun acc s => if eqb (fst s) t then Some (snd s) else acc) h (value_at l t).
Proof. induction h as [|s h IH]; intros; auto. cbn [fold_left]. rewrite IH, value_add. reflexivity. Qed.
Lemma curve_rising h : forall l, rising ltb l -> rising ltb (fold_left (fun l s => add_sample ltb eqb (fst s) (snd s) l) h l).
Proof. induction h; intros; auto. cbn. apply IHh, add_rising; auto. Qed.
Lemma value_in l t v : rising ltb l -> (value_at l t = Some v <-> In (t, v) l).
Proof.
  induction 1 as [|(u, w) l S IH F]; cbn; [split; [discriminate|tauto]|].
  destruct (eqb u t) eqn:E.
  - apply (eqb_iff _ _ O) in E as ->. split; [intros [= ->]; auto|]. intros [[= ->]|I]; auto.
    apply (proj1 (Forall_forall _ _) F) in I. cbn in I. rewrite (ltb_irr _ _ O) in I. discriminate.
  - rewrite IH. split; auto. intros [[= -> ->]|I]; auto. rewrite eqb_refl' in E. discriminate.
Qed.

(** Adding samples in increasing order appends them. *)
Lemma add_last t v l : Forall (fun s => ltb (fst s) t = true) l -> add_sample ltb eqb t v l = l ++ [(t, v)].
Proof.
  intros F. unfold add_sample. replace (existsb (fun s => eqb (fst s) t) l) with false.
  - induction F as [|(u, w) l H F IH]; cbn; auto. rewrite (ltb_anti u t H). f_equal. auto.
  - symmetry. apply not_true_iff_false. rewrite existsb_exists. intros (x & I & E). apply (eqb_iff _ _ O) in E.
    apply (proj1 (Forall_forall _ _) F) in I. apply ltb_ne in I. auto.
Qed.
Lemma curve_rebuild l2 : forall l1, rising ltb (l1 ++ l2) ->
  fold_left (fun l s => add_sample ltb eqb (fst s) (snd s) l) l2 l1 = l1 ++ l2.
Proof.
  induction l2 as [|(t, v) l2 IH]; intros l1 R; cbn [fold_left]; [rewrite app_nil_r; auto|].
  rewrite add_last.
  - rewrite IH; rewrite <- app_assoc; auto.
  - clear IH. induction l1 as [|a l1 IH]; constructor; inversion R; subst; auto.
    apply (proj1 (Forall_forall _ _) H2 (t, v)). apply in_app_iff. right. left. auto.
Qed.
End P.
