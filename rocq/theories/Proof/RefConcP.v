From Coq Require Import ZArith List Bool Arith Lia.
From Verif Require Import Model.RefConcM Spec.RefConcSpec.
Import ListNotations.
Open Scope Z_scope.

Fixpoint total (l : list rthread) : Z := match l with [] => 0 | q :: r => Z.of_nat (q_refs q) + total r end.
Lemma total_nonneg l : 0 <= total l. Proof. induction l; cbn; lia. Qed.
Lemma upd_length {A} (l : list A) : forall i f, List.length (upd l i f) = List.length l.
Proof. induction l; destruct i; cbn; auto. Qed.
Lemma nth_upd {A} (l : list A) : forall i f j, nth_error (upd l i f) j =
  if Nat.eqb i j then option_map f (nth_error l j) else nth_error l j.
Proof. induction l as [|x l IH]; intros [|i] f [|j]; cbn; try apply IH; auto. destruct (Nat.eqb i j); auto. Qed.
Lemma total_upd l : forall i f q, nth_error l i = Some q ->
  total (upd l i f) = total l - Z.of_nat (q_refs q) + Z.of_nat (q_refs (f q)).
Proof. induction l as [|x l IH]; intros [|i] f q; cbn; try discriminate; [intros [= ->]; lia|]. intros H. rewrite (IH _ f _ H). lia. Qed.
Lemma total_in l q : In q l -> Z.of_nat (q_refs q) <= total l.
Proof. induction l as [|x l IH]; cbn; [tauto|]. pose proof (total_nonneg l). intros [->|K]; [lia|]. specialize (IH K). lia. Qed.
Lemma total_zero l : total l = 0 <-> forall q, In q l -> q_refs q = O.
Proof.
  induction l as [|x l IH]; cbn; [split; [intros _ ? []|auto]|]. pose proof (total_nonneg l). split.
  - intros H0 q [->|I]; [lia|]. apply IH; auto. lia.
  - intros H0. rewrite (H0 x) by auto. rewrite (proj2 IH); auto.
Qed.
Lemma referenced_total s : referenced s <-> 0 < total (x_threads s).
Proof.
  split.
  - intros (q & I & H). pose proof (total_in _ _ I). lia.
  - unfold referenced. induction (x_threads s) as [|x l IH]; cbn; [lia|]. intros H. destruct (q_refs x) eqn:E.
    + destruct IH as (q & I & K); [lia|]. exists q; auto.
    + exists x. split; auto. lia.
Qed.

Definition pending (q : rthread) : Prop := q_pc q = PUnrefd \/ q_pc q = PSawZero.
Record cinv (s : cref) : Prop := CInv {
  w_cnt : x_cnt s = total (x_threads s);
  w_dead : x_live s = false -> total (x_threads s) = 0;
  w_zero : forall q, In q (x_threads s) -> q_pc q = PSawZero -> total (x_threads s) = 0;
  w_look : forall q, In q (x_threads s) -> q_pc q <> PSawLive;
  w_leak : x_live s = true -> 0 < total (x_threads s) \/ exists q, In q (x_threads s) /\ pending q;
  w_once : x_deleted s = if x_live s then O else 1%nat }.

Lemma in_upd {A} (l : list A) i f q x : nth_error l i = Some q -> In x (upd l i f) -> x = f q \/ In x l.
Proof.
  intros N I. apply In_nth_error in I as (j & J). rewrite nth_upd in J. destruct (Nat.eqb_spec i j) as [EQ|]; [subst j|].
  - rewrite N in J. cbn in J. left. congruence.
  - right. apply nth_error_In with j; auto.
Qed.
Lemma in_upd_new {A} (l : list A) i f q : nth_error l i = Some q -> In (f q) (upd l i f).
Proof. intros N. apply nth_error_In with i. rewrite nth_upd, Nat.eqb_refl, N. reflexivity. Qed.
Lemma in_upd_other {A} (l : list A) i f q x : nth_error l i = Some q -> x <> q -> In x l -> In x (upd l i f).
Proof.
  intros N D I. apply In_nth_error in I as (j & J). apply nth_error_In with j. rewrite nth_upd.
  destruct (Nat.eqb_spec i j) as [<-|]; auto. congruence.
Qed.

(** A step of a thread without the cache. *)
Lemma cstep_inv s t a : cinv s -> a <> ALookup ->
  match cstep s t a with
  | Fine s' => cinv s'
  | Dangling => a = ANext /\ exists q, nth_error (x_threads s) t = Some q /\ pending q /\ x_live s = false
  end.
Proof.
  intros I NA. unfold cstep. destruct (nth_error (x_threads s) t) as [q|] eqn:N; auto.
  pose proof (nth_error_In _ _ N) as IQ. pose proof (total_in _ _ IQ) as TQ. pose proof (total_nonneg (x_threads s)) as T0.
  assert (HL : q_refs q <> O -> x_live s = true).
  { intros H. destruct (x_live s) eqn:L; auto. pose proof (w_dead _ I L). lia. }
  assert (HZ : q_refs q <> O -> forall x, In x (x_threads s) -> q_pc x <> PSawZero).
  { intros H x IX E. pose proof (w_zero _ I x IX E). lia. }
  destruct (q_pc q) eqn:P; destruct a as [| |t'| |]; auto; try congruence.
  - (* copy *) destruct (Nat.eqb_spec (q_refs q) 0) as [Z|Z]; auto. rewrite (HL Z). destruct I as [A B C D E F].
    assert (TU : total (upd (x_threads s) t (refs_add 1)) = total (x_threads s) + 1) by (rewrite (total_upd _ _ _ _ N); cbn; lia).
    split; cbn [x_cnt x_live x_threads x_deleted]; rewrite ?TU.
    + lia.
    + discriminate.
    + intros x IX EX. apply (in_upd _ _ _ _ _ N) in IX as [->|IX]; [cbn in EX; congruence|]. exfalso. apply (HZ Z x IX EX).
    + intros x IX. apply (in_upd _ _ _ _ _ N) in IX as [->|IX]; auto. cbn. congruence.
    + left; lia.
    + rewrite F, (HL Z). auto.
  - (* release *) destruct (Nat.eqb_spec (q_refs q) 0) as [Z|Z]; auto. rewrite (HL Z). destruct I as [A B C D E F].
    assert (TU : total (upd (x_threads s) t (fun q => go PUnrefd (refs_drop q))) = total (x_threads s) - 1) by (rewrite (total_upd _ _ _ _ N); cbn; lia).
    split; cbn [x_cnt x_live x_threads x_deleted]; rewrite ?TU.
    + lia.
    + discriminate.
    + intros x IX EX. apply (in_upd _ _ _ _ _ N) in IX as [->|IX]; [cbn in EX; congruence|]. exfalso. apply (HZ Z x IX EX).
    + intros x IX. apply (in_upd _ _ _ _ _ N) in IX as [->|IX]; auto. cbn. congruence.
    + intros _. right. eexists. split; [apply (in_upd_new _ _ _ _ N)|]. left. reflexivity.
    + rewrite F, (HL Z). auto.
  - (* give *) destruct (Nat.eqb_spec (q_refs q) 0) as [Z|Z]; auto. destruct (Nat.ltb_spec t' (List.length (x_threads s))) as [L|L]; auto. cbn [orb negb].
    assert (X : exists q', nth_error (upd (x_threads s) t refs_drop) t' = Some q').
    { destruct (nth_error (upd (x_threads s) t refs_drop) t') eqn:K; eauto. apply nth_error_None in K. rewrite upd_length in K. lia. }
    destruct X as (q' & N'). pose proof (HL Z) as LV. destruct I as [A B C D E F].
    assert (TU : total (upd (upd (x_threads s) t refs_drop) t' (refs_add 1)) = total (x_threads s)).
    { rewrite (total_upd _ _ _ _ N'), (total_upd _ _ _ _ N). cbn. lia. }
    assert (PC : forall x, In x (upd (upd (x_threads s) t refs_drop) t' (refs_add 1)) -> exists y, In y (x_threads s) /\ q_pc x = q_pc y).
    { intros x IX. apply (in_upd _ _ _ _ _ N') in IX as [->|IX].
      - cbn. apply nth_error_In in N'. apply (in_upd _ _ _ _ _ N) in N' as [->|N']; [exists q; auto|exists q'; auto].
      - apply (in_upd _ _ _ _ _ N) in IX as [->|IX]; [exists q; auto|exists x; auto]. }
    split; cbn [x_cnt x_live x_threads x_deleted]; rewrite ?TU; auto.
    + intros x IX EX. destruct (PC x IX) as (y & IY & EY). apply (C y IY). congruence.
    + intros x IX EX. destruct (PC x IX) as (y & IY & EY). apply (D y IY). congruence.
    + left. lia.
  - (* read *) destruct (x_live s) eqn:L; [|split; auto; exists q; unfold pending; auto]. destruct I as [A B C D E F].
    assert (TU : forall p, total (upd (x_threads s) t (go p)) = total (x_threads s)) by (intros; rewrite (total_upd _ _ _ _ N); cbn; lia).
    split; cbn [x_cnt x_live x_threads x_deleted]; rewrite ?TU; auto.
    + discriminate.
    + intros x IX EX. apply (in_upd _ _ _ _ _ N) in IX as [->|IX]; [|apply (C x IX EX)].
      cbn in EX. destruct (Z.eqb_spec (x_cnt s) 0); [lia|discriminate].
    + intros x IX. apply (in_upd _ _ _ _ _ N) in IX as [->|IX]; auto. cbn. destruct (x_cnt s =? 0); congruence.
    + intros _. destruct (Z.eqb_spec (x_cnt s) 0) as [K|K]; [|left; lia].
      right. eexists. split; [apply (in_upd_new _ _ _ _ N)|]. right. reflexivity.
    + rewrite F, L. auto.
  - (* delete *) destruct (x_live s) eqn:L; [|split; auto; exists q; unfold pending; auto]. destruct I as [A B C D E F].
    assert (TU : forall p, total (upd (x_threads s) t (go p)) = total (x_threads s)) by (intros; rewrite (total_upd _ _ _ _ N); cbn; lia).
    split; cbn [x_cnt x_live x_threads x_deleted]; rewrite ?TU; auto.
    + intros _. apply (C q IQ P).
    + intros x IX EX. apply (in_upd _ _ _ _ _ N) in IX as [->|IX]; [cbn in EX; discriminate|]. apply (C x IX EX).
    + intros x IX. apply (in_upd _ _ _ _ _ N) in IX as [->|IX]; auto. cbn. congruence.
    + discriminate.
    + rewrite F, L. auto.
  - exfalso. apply (w_look _ I q IQ P).
Qed.

Lemma shared_inv refs : (exists n, In n refs /\ (0 < n)%nat) -> cinv (shared refs).
Proof.
  intros (n & I & P).
  assert (T : total (map (fun n => RThread n PIdle) refs) = fold_right (fun n a => Z.of_nat n + a) 0 refs).
  { clear. induction refs; cbn; auto. lia. }
  assert (IDLE : forall q, In q (map (fun n => RThread n PIdle) refs) -> q_pc q = PIdle).
  { intros q IQ. apply in_map_iff in IQ as (m & <- & _). reflexivity. }
  split; cbn; try discriminate; auto.
  - intros q IQ E. rewrite IDLE in E by auto. discriminate.
  - intros q IQ E. rewrite IDLE in E by auto. discriminate.
  - intros _. left. rewrite T. assert (In (RThread n PIdle) (map (fun n => RThread n PIdle) refs)) by (apply in_map_iff; exists n; auto).
    apply total_in in H. cbn in H. rewrite T in H. lia.
Qed.
Lemma crun_app s l1 : forall l2, crun s (l1 ++ l2) = match crun s l1 with Fine s' => crun s' l2 | Dangling => Dangling end.
Proof. revert s. induction l1 as [|(t, a) l IH]; intros s l2; cbn; auto. destruct (cstep s t a); auto. Qed.
Lemma crun_inv l : forall s s', no_lookup l -> cinv s -> crun s l = Fine s' -> cinv s'.
Proof.
  induction l as [|(t, a) l IH]; intros s s' NL I H; cbn in H; [congruence|]. inversion NL; subst. cbn in H2.
  pose proof (cstep_inv s t a I H2) as K. destruct (cstep s t a); [|discriminate]. eauto.
Qed.

(** * Releases one at a time *)
Definition alone (s : cref) : Prop :=
  (forall i j q q', nth_error (x_threads s) i = Some q -> nth_error (x_threads s) j = Some q' -> pending q -> pending q' -> i = j) /\
  (forall q, In q (x_threads s) -> pending q -> x_live s = true).
Lemma quiet_not s q : quiet s -> In q (x_threads s) -> ~ pending q.
Proof. intros Q I [H|H]; rewrite (proj1 (Forall_forall _ _) Q q I) in H; discriminate. Qed.
Lemma alone_keep s s' : (forall i q', nth_error (x_threads s') i = Some q' -> pending q' -> exists q, nth_error (x_threads s) i = Some q /\ pending q) ->
  (x_live s = true -> x_live s' = true) -> alone s -> alone s'.
Proof.
  intros H L (A & B). split.
  - intros i j q q' N N' P P'. destruct (H _ _ N P) as (r & NR & PR). destruct (H _ _ N' P') as (r' & NR' & PR'). eauto.
  - intros q I P. apply In_nth_error in I as (i & N). destruct (H _ _ N P) as (r & NR & PR). apply L. apply (B r); auto. apply nth_error_In with i; auto.
Qed.
Lemma alone_step s t a : cinv s -> alone s -> a <> ALookup -> (a = ARelease -> quiet s) ->
  match cstep s t a with Fine s' => alone s' | Dangling => False end.
Proof.
  intros I AL NA Q. pose proof (cstep_inv s t a I NA) as K.
  unfold cstep in *. destruct (nth_error (x_threads s) t) as [q|] eqn:N; auto.
  assert (U : forall f, (pending (f q) -> pending q) -> forall i q', nth_error (upd (x_threads s) t f) i = Some q' -> pending q' ->
     exists q, nth_error (x_threads s) i = Some q /\ pending q).
  { intros f H i q' N' P. rewrite nth_upd in N'. destruct (Nat.eqb_spec t i) as [<-|]; [|eauto]. rewrite N in N'. cbn in N'. injection N' as <-. eauto. }
  destruct (q_pc q) eqn:P; destruct a as [| |t'| |]; auto; try congruence.
  - destruct (Nat.eqb (q_refs q) 0); auto. destruct (x_live s) eqn:L; [|destruct K as (X & _); discriminate].
    apply alone_keep with s; [|intros; reflexivity|assumption]. cbn [x_threads]. apply U. unfold pending. cbn. auto.
  - destruct (Nat.eqb (q_refs q) 0); auto. destruct (x_live s) eqn:L; [|destruct K as (X & _); discriminate].
    specialize (Q eq_refl). split; cbn [x_threads x_live]; auto.
    intros i j r r' NR NR' PR PR'. rewrite nth_upd in NR, NR'.
    destruct (Nat.eqb_spec t i) as [<-|]; [|exfalso; apply (quiet_not s r Q); auto; apply nth_error_In with i; auto].
    destruct (Nat.eqb_spec t j) as [<-|]; [auto|exfalso; apply (quiet_not s r' Q); auto; apply nth_error_In with j; auto].
  - destruct (Nat.eqb (q_refs q) 0 || negb (Nat.ltb t' (List.length (x_threads s)))); [auto|].
    apply alone_keep with s; [|cbn; auto|assumption]. cbn [x_threads]. intros i q' N' PQ. rewrite nth_upd in N'.
    destruct (Nat.eqb_spec t' i) as [<-|].
    + destruct (nth_error (upd (x_threads s) t refs_drop) t') as [r|] eqn:NR; [|discriminate]. cbn in N'. injection N' as <-.
      exact (U refs_drop (fun x => x) t' r NR PQ).
    + exact (U refs_drop (fun x => x) i q' N' PQ).
  - destruct (x_live s) eqn:L; [|destruct AL as (_ & B); rewrite (B q) in L; [discriminate|apply nth_error_In with t; auto|left; auto]].
    apply alone_keep with s; [|cbn; auto|assumption]. cbn [x_threads]. apply U. unfold pending. cbn. auto.
  - destruct (x_live s) eqn:L; [|destruct AL as (_ & B); rewrite (B q) in L; [discriminate|apply nth_error_In with t; auto|right; auto]].
    assert (NP : forall i q', nth_error (upd (x_threads s) t (go PIdle)) i = Some q' -> ~ pending q').
    { intros i q' N' PQ. rewrite nth_upd in N'. destruct (Nat.eqb_spec t i) as [<-|D].
      - rewrite N in N'. cbn in N'. injection N' as <-. destruct PQ; discriminate.
      - apply D. apply (proj1 AL t i q q'); auto. right; auto. }
    split; cbn [x_threads x_live].
    + intros i j r r' NR _ PR _. exfalso. eapply NP; eauto.
    + intros r IR PR. apply In_nth_error in IR as (i & NR). exfalso. eapply NP; eauto.
  - exfalso. apply (w_look _ I q); auto. apply nth_error_In with t; auto.
Qed.
Lemma serial_run l : forall s, no_lookup l -> cinv s -> alone s -> serial s l -> exists s', crun s l = Fine s' /\ cinv s'.
Proof.
  induction l as [|(t, a) l IH]; intros s NL I A S; cbn; [eauto|]. inversion NL; subst. cbn in H1. cbn in S. destruct S as (Q & S).
  pose proof (alone_step s t a I A H1 Q) as K. pose proof (cstep_inv s t a I H1) as K2. destruct (cstep s t a); [|tauto]. eauto.
Qed.
Lemma shared_alone refs : alone (shared refs).
Proof.
  assert (IDLE : forall q, In q (map (fun n => RThread n PIdle) refs) -> ~ pending q).
  { intros q IQ. apply in_map_iff in IQ as (m & <- & _). intros [H|H]; discriminate. }
  split.
  - cbn. intros i j q q' N _ P _. exfalso. apply (IDLE q); auto. apply nth_error_In with i; auto.
  - auto.
Qed.
