From Coq Require Import ZArith List Bool Lia Arith Permutation.
From Verif Require Import Model.Base Model.CacheConcM Proof.CacheConcP.
Import ListNotations.
Open Scope Z_scope.

Fixpoint sizes (size : nat -> Z) (l : list nat) : Z :=
  match l with [] => 0 | b :: r => size b + sizes size r end.
Lemma sizes_app size l l' : sizes size (l ++ l') = sizes size l + sizes size l'.
Proof. induction l; simpl; lia. Qed.

Section P.
Context {D : Type}.
Variables (mtx : nat -> nat) (file : nat -> D) (fill : D) (size : nat -> Z) (limit : bool) (max_mem : Z).
Variable n : nat.
Notation exec := (exec mtx file fill size limit max_mem).
Notation J := (J mtx file n).
Notation holdsM := (holdsM mtx).
Implicit Types (s : gstate D) (p : pc D).

(** * Locks, with or without flushing threads *)
Record L s : Prop := {
  l_out : forall t, (n <= t)%nat -> g_pc s t = PIdle;
  l_A : forall t, g_lockA s = Some t <-> holdsA (g_pc s t) = true;
  l_M : forall m t, g_lockM s m = Some t <-> holdsM (g_pc s t) = Some m }.

Lemma L_init : L (@g_init D).
Proof. constructor; cbn; intros; auto; split; discriminate. Qed.

Inductive chA s s' t p' : Prop :=
| AKeep : g_lockA s' = g_lockA s -> holdsA p' = holdsA (g_pc s t) -> chA s s' t p'
| ATake : g_lockA s = None -> g_lockA s' = Some t -> holdsA p' = true -> chA s s' t p'
| ADrop : holdsA (g_pc s t) = true -> g_lockA s' = None -> holdsA p' = false -> chA s s' t p'.
Inductive chM s s' t p' : Prop :=
| MKeep : g_lockM s' = g_lockM s -> holdsM p' = holdsM (g_pc s t) -> chM s s' t p'
| MTake m : g_lockM s m = None -> g_lockM s' = fupd (g_lockM s) m (Some t) -> holdsM (g_pc s t) = None -> holdsM p' = Some m -> chM s s' t p'
| MDrop m : holdsM (g_pc s t) = Some m -> g_lockM s' = fupd (g_lockM s) m None -> holdsM p' = None -> chM s s' t p'.

Lemma L_ch s s' t p' : L s -> (t < n)%nat -> g_pc s' = fupd (g_pc s) t p' -> chA s s' t p' -> chM s s' t p' -> L s'.
Proof.
  intros I Lt Ep CA CM. constructor.
  - intros u Lu. rewrite Ep, fupd_other by lia. apply (l_out _ I); auto.
  - intros u. rewrite Ep. pose proof (l_A _ I u) as Q. pose proof (l_A _ I t) as Qt. unfold fupd.
    destruct (Nat.eqb_spec u t) as [E|N]; [subst u|]; destruct CA as [E1 E2|E1 E2 E3|E1 E2 E3]; rewrite ?E1, ?E2, ?E3 in *; auto.
    + tauto.
    + split; discriminate.
    + split; [congruence|]. intros X. apply Q in X. discriminate.
    + split; [discriminate|]. intros X. apply Q in X. destruct Qt as [_ Qt]. rewrite Qt in X by auto. congruence.
  - intros m u. rewrite Ep. pose proof (l_M _ I m u) as Q. pose proof (l_M _ I m t) as Qt. unfold fupd.
    destruct (Nat.eqb_spec u t) as [E|N]; [subst u|]; destruct CM as [E1 E2|m0 E1 E2 E3 E4|m0 E1 E2 E3].
    + rewrite E1, E2. auto.
    + rewrite E2, E4. unfold fupd. destruct (Nat.eqb_spec m m0) as [E|Nm]; [subst; tauto|].
      rewrite Q, E3. split; congruence.
    + rewrite E2, E3. unfold fupd. destruct (Nat.eqb_spec m m0) as [E|Nm]; [split; discriminate|].
      rewrite Q, E1. split; congruence.
    + rewrite E1. auto.
    + rewrite E2. unfold fupd. destruct (Nat.eqb_spec m m0) as [E|Nm]; [subst m|auto].
      split; [congruence|]. intros X. apply Q in X. congruence.
    + rewrite E2. unfold fupd. destruct (Nat.eqb_spec m m0) as [E|Nm]; [subst m|auto].
      split; [discriminate|]. intros X. apply Q in X. destruct Qt as [_ Qt]. rewrite Qt in X by auto. congruence.
Qed.

Ltac lk P :=
  match goal with
  | I : L ?s, Lt : (?t < n)%nat |- L ?s' =>
      match s' with goto _ _ ?p' =>
        apply (L_ch s s' t p' I Lt);
        [ reflexivity
        | first [ apply AKeep; [reflexivity|rewrite P; reflexivity]
                | apply ATake; [assumption|reflexivity|reflexivity]
                | apply ADrop; [rewrite P; reflexivity|reflexivity|reflexivity] ]
        | first [ apply MKeep; [reflexivity|rewrite P; reflexivity]
                | eapply MTake; [eassumption|reflexivity|rewrite P; reflexivity|reflexivity]
                | eapply MDrop; [rewrite P; reflexivity|reflexivity|reflexivity] ] ]
      end
  end.

Lemma L_step s s' t c : L s -> (t < n)%nat -> exec t c s = Some s' -> L s'.
Proof.
  intros I Lt. unfold CacheConcM.exec, lockM, lockA.
  destruct (g_pc s t) eqn:P.
  - destruct c; try discriminate; [|intros [= <-]; lk P].
    destruct (g_lockM s (mtx b)) eqn:EM; [discriminate|]. intros [= <-]. lk P.
  - intros [= <-]. lk P.
  - intros [= <-]. lk P.
  - intros [= <-]. destruct (g_loaded s b), limit; lk P.
  - destruct (g_lockA s) eqn:EA; [discriminate|]. intros [= <-]. lk P.
  - destruct (g_before s ++ g_after s) as [|x r]; [intros [= <-]; lk P|].
    destruct (max_mem - g_mem s <? size b); [|intros [= <-]; lk P].
    destruct (g_after s); intros [= <-]; lk P.
  - destruct (g_lockM s (mtx c0)) eqn:EM; [discriminate|]. intros [= <-]. lk P.
  - destruct (g_refs s c0 >? 0); [|intros [= <-]; lk P].
    destruct (advance_eq (unlockM mtx s c0)) as (bb & aa & ->). intros [= <-]. lk P.
  - destruct (g_used s c0); [|intros [= <-]; lk P].
    destruct (advance_eq (unlockM mtx (set_used s c0 false) c0)) as (bb & aa & ->). intros [= <-]. lk P.
  - intros [= <-]. lk P.
  - intros [= <-]. lk P.
  - destruct (g_lockA s) eqn:EA; [discriminate|]. intros [= <-]. lk P.
  - destruct (g_lockM s (mtx b)) eqn:EM; [discriminate|]. intros [= <-]. lk P.
  - destruct (g_loaded s b); intros [= <-]; lk P.
  - intros [= <-]. lk P.
  - intros [= <-]. lk P.
  - intros [= <-]. lk P.
  - intros [= <-]. lk P.
  - intros [= <-]. lk P.
  - intros [= <-]. lk P.
  - destruct c; [intros [= <-]; lk P| |];
    (destruct (g_lockM s (mtx b)) eqn:EM; [discriminate|]; intros [= <-]; lk P).
  - intros [= <-]. lk P.
  - intros [= <-]. lk P.
  - destruct (g_lockA s) eqn:EA; [discriminate|]. intros [= <-]. lk P.
  - destruct (g_before s ++ g_after s); intros [= <-]; lk P.
  - intros [= <-]. lk P.
Qed.

Lemma greach_L fl s : greach mtx file fill size limit max_mem n fl s -> L s.
Proof. induction 1 as [|s s' _ IH [t c Lt M E]]; [apply L_init|]. eapply L_step; eauto. Qed.

Lemma dec_thread (Q : nat -> bool) m : {t | (t < m)%nat /\ Q t = true} + {forall t, (t < m)%nat -> Q t = false}.
Proof.
  induction m as [|m IH]; [right; intros; lia|].
  destruct IH as [(t & Lt & H)|H]; [left; exists t; auto|].
  destruct (Q m) eqn:E; [left; exists m; auto|]. right. intros t Lt.
  destruct (Nat.eq_dec t m) as [->|]; auto. apply H. lia.
Qed.

Lemma no_deadlock s : L s -> (exists t, (t < n)%nat /\ g_pc s t <> PIdle) ->
  exists t s', (t < n)%nat /\ g_pc s t <> PIdle /\ exec t ChDone s = Some s'.
Proof.
  intros I (t0 & L0 & N0).
  destruct (dec_thread (fun t => match holdsM (g_pc s t) with Some _ => true | None => false end) n) as [(t & Lt & H)|HM].
  { destruct (g_pc s t) eqn:P; try discriminate; exists t; unfold CacheConcM.exec; rewrite P.
    all: try (eexists; split; [auto|]; split; [discriminate|reflexivity]).
    - destruct (g_refs s c >? 0); eexists; split; auto; split; try discriminate; reflexivity.
    - destruct (g_used s c); eexists; split; auto; split; try discriminate; reflexivity.
    - destruct (g_loaded s b); eexists; split; auto; split; try discriminate; reflexivity. }
  assert (FM : forall m, g_lockM s m = None).
  { intros m. destruct (g_lockM s m) as [u|] eqn:E; auto. exfalso.
    apply (l_M _ I) in E. destruct (lt_dec u n) as [Lu|Lu].
    - specialize (HM u Lu). rewrite E in HM. discriminate.
    - rewrite (l_out _ I) in E by lia. discriminate. }
  destruct (dec_thread (fun t => holdsA (g_pc s t)) n) as [(t & Lt & H)|HA].
  { exists t. destruct (g_pc s t) eqn:P; try discriminate; unfold CacheConcM.exec, lockM; rewrite P, ?FM.
    all: try (eexists; split; [auto|]; split; [discriminate|reflexivity]).
    - destruct (g_before s ++ g_after s); [|destruct (max_mem - g_mem s <? size b); [destruct (g_after s)|]];
        eexists; split; auto; split; try discriminate; reflexivity.
    - destruct (g_refs s c >? 0); eexists; split; auto; split; try discriminate; reflexivity.
    - destruct (g_used s c); eexists; split; auto; split; try discriminate; reflexivity.
    - destruct (g_loaded s b); eexists; split; auto; split; try discriminate; reflexivity.
    - destruct (g_before s ++ g_after s); eexists; split; auto; split; try discriminate; reflexivity. }
  assert (FA : g_lockA s = None).
  { destruct (g_lockA s) as [u|] eqn:E; auto. exfalso.
    apply (l_A _ I) in E. destruct (lt_dec u n) as [Lu|Lu].
    - specialize (HA u Lu). rewrite E in HA. discriminate.
    - rewrite (l_out _ I) in E by lia. discriminate. }
  exists t0. specialize (HA t0 L0). destruct (g_pc s t0) eqn:P; try discriminate; try congruence;
    unfold CacheConcM.exec, lockM, lockA; rewrite P, ?FM, ?FA.
  all: eexists; split; [auto|]; split; [discriminate|reflexivity].
Qed.

(** * Accounting *)
Definition hand p : option nat :=
  match p with PEvB _ c | PEvRef _ c | PEvUsed _ c | PEvClear _ c | PEvUnl _ c => Some c | _ => None end.

Record K s : Prop := {
  k_nodup : NoDup (g_before s ++ g_after s);
  k_in : forall b, g_loaded s b = true <-> In b (g_before s ++ g_after s) \/ exists t, g_pc s t = PLdAdd b;
  k_mem : g_mem s = sizes size (g_before s ++ g_after s);
  k_hand : forall t c, hand (g_pc s t) = Some c -> exists r, g_after s = c :: r;
  k_add : forall t b, g_pc s t = PLdAdd b -> ~ In b (g_before s ++ g_after s) }.

Lemma K_init : K (@g_init D).
Proof.
  constructor; cbn; intros; try discriminate; auto. constructor. split; [discriminate|].
  intros [[]|(t & E)]. discriminate.
Qed.

(** A step of [t] that changes neither the list, nor the loaded flags. *)
Lemma K_quiet s s' t p' : K s -> g_pc s' = fupd (g_pc s) t p' -> g_loaded s' = g_loaded s ->
  g_before s' = g_before s -> g_after s' = g_after s -> g_mem s' = g_mem s ->
  (forall b, g_pc s t <> PLdAdd b) -> (forall b, p' <> PLdAdd b) ->
  (forall c, hand p' = Some c -> exists r, g_after s = c :: r) -> K s'.
Proof.
  intros I Ep El Eb Ea Em H1 H2 H3. destruct I as [K1 K2 K3 K4 K5].
  constructor; rewrite ?El, ?Eb, ?Ea, ?Em; auto.
  - intros b. rewrite K2. split; (intros [H|(u & E)]; [auto|right; exists u]).
    + rewrite Ep, fupd_other; auto. intros ->. congruence.
    + rewrite Ep in E. unfold fupd in E. destruct (Nat.eqb_spec u t); auto. destruct (H2 b); auto.
  - intros u c. rewrite Ep. unfold fupd. destruct (Nat.eqb_spec u t); auto. apply K4.
  - intros u b. rewrite Ep. unfold fupd. destruct (Nat.eqb_spec u t); [intros E; destruct (H2 b); auto|apply K5].
Qed.

(** A step of the list-lock holder that rearranges the list. *)
Lemma hand_A p c : hand p = Some c -> holdsA p = true.
Proof. destruct p; try discriminate; auto. Qed.
Lemma K_list s s' t p' : J s -> K s -> holdsA (g_pc s t) = true -> g_pc s' = fupd (g_pc s) t p' ->
  g_loaded s' = g_loaded s -> Permutation (g_before s ++ g_after s) (g_before s' ++ g_after s') ->
  g_mem s' = g_mem s ->
  (forall b, g_pc s t <> PLdAdd b) -> (forall b, p' <> PLdAdd b) ->
  (forall c, hand p' = Some c -> exists r, g_after s' = c :: r) -> K s'.
Proof.
  intros IJ I HA Ep El PL Em H1 H2 H3. destruct I as [K1 K2 K3 K4 K5].
  assert (ad : forall u b, g_pc s' u = PLdAdd b -> g_pc s u = PLdAdd b).
  { intros u b. rewrite Ep. unfold fupd. destruct (Nat.eqb_spec u t); auto. intros E. destruct (H2 b); auto. }
  constructor; rewrite ?El, ?Em; auto.
  - eapply Permutation_NoDup; eauto.
  - intros b. rewrite K2. split; (intros [H|(u & E)]; [left|right; exists u]).
    + eapply Permutation_in; eauto.
    + rewrite Ep, fupd_other; auto. intros ->. congruence.
    + eapply Permutation_in; [apply Permutation_sym|]; eauto.
    + auto.
  - rewrite K3. clear -PL. induction PL; simpl; lia.
  - intros u c. rewrite Ep. unfold fupd. destruct (Nat.eqb_spec u t) as [|N]; auto. intros E.
    destruct N. apply (A_uniq _ _ _ s u t IJ); auto. eapply hand_A; eauto.
  - intros u b E IN. apply ad in E. apply (K5 u b E). eapply Permutation_in; [apply Permutation_sym|]; eauto.
Qed.

Lemma J_L s : J s -> L s.
Proof. intros I. constructor; [apply (j_out _ _ _ _ I)|apply (j_A _ _ _ _ I)|apply (j_M _ _ _ _ I)]. Qed.

Ltac kq P :=
  match goal with
  | I : K ?s |- K (goto ?s0 ?t ?p') =>
      apply (K_quiet s _ t p' I); try reflexivity; [rewrite P; discriminate|discriminate|try discriminate]
  end.

Lemma advance_list s : g_before (advance s) ++ g_after (advance s) = g_before s ++ g_after s.
Proof. unfold advance. destruct (g_after s) eqn:E; cbn; rewrite ?E; auto. rewrite <- app_assoc. auto. Qed.
Lemma advance_rest s : g_pc (advance s) = g_pc s /\ g_loaded (advance s) = g_loaded s /\ g_mem (advance s) = g_mem s.
Proof. unfold advance. destruct (g_after s); cbn; auto. Qed.

Lemma K_step s s' t c : J s -> K s -> (t < n)%nat -> exec t c s = Some s' -> K s'.
Proof.
  intros IJ I Lt. unfold CacheConcM.exec, lockM, lockA.
  pose proof (j_nofl _ _ _ _ IJ t) as NF.
  destruct (g_pc s t) eqn:P; try discriminate NF.
  - destruct c; try discriminate; [|intros [= <-]; kq P].
    destruct (g_lockM s (mtx b)) eqn:EM; [discriminate|]. intros [= <-]. kq P.
  - intros [= <-]. kq P.
  - intros [= <-]. kq P.
  - intros [= <-]. destruct (g_loaded s b), limit; kq P.
  - destruct (g_lockA s) eqn:EA; [discriminate|]. intros [= <-]. kq P.
  - destruct (g_before s ++ g_after s) as [|x r] eqn:EL; [intros [= <-]; kq P|].
    destruct (max_mem - g_mem s <? size b); [|intros [= <-]; kq P].
    destruct (g_after s) eqn:EA; intros [= <-].
    + rewrite app_nil_r in EL.
      apply (K_list s _ t (PEvB b x)); auto; try (rewrite P; first [reflexivity|discriminate]); try discriminate; cbn.
      * rewrite EA, app_nil_r, EL. apply Permutation_refl.
      * intros c0 [= <-]. eauto.
    + kq P. intros c0 [= <-]. eauto.
  - destruct (g_lockM s (mtx c0)) eqn:EM; [discriminate|]. intros [= <-]. kq P.
    intros c1 [= <-]. apply (k_hand _ I t). rewrite P. auto.
  - destruct (g_refs s c0 >? 0); intros [= <-].
    + destruct (advance_rest (unlockM mtx s c0)) as (A1 & A2 & A3).
      apply (K_list s _ t (PEvLoop b)); auto; try (rewrite P; first [reflexivity|discriminate]); try discriminate; cbn.
      * rewrite A1. reflexivity.
      * rewrite advance_list. apply Permutation_refl.
    + kq P. intros c1 [= <-]. apply (k_hand _ I t). rewrite P. auto.
  - destruct (g_used s c0); intros [= <-].
    + destruct (advance_rest (unlockM mtx (set_used s c0 false) c0)) as (A1 & A2 & A3).
      apply (K_list s _ t (PEvLoop b)); auto; try (rewrite P; first [reflexivity|discriminate]); try discriminate; cbn.
      * rewrite A1. reflexivity.
      * rewrite advance_list. apply Permutation_refl.
    + kq P. intros c1 [= <-]. apply (k_hand _ I t). rewrite P. auto.
  - intros [= <-]. kq P. intros c1 [= <-]. apply (k_hand _ I t). rewrite P. auto.
  - (* unload *) intros [= <-].
    assert (HA : holdsA (g_pc s t) = true) by (rewrite P; auto).
    destruct (k_hand _ I t c0) as (r & EA); [rewrite P; auto|].
    destruct I as [K1 K2 K3 K4 K5]. rewrite EA in *.
    pose proof (NoDup_remove _ _ _ K1) as [N1 N2].
    constructor; cbn.
    + rewrite ?EA. cbn. auto.
    + intros b'. rewrite ?EA. cbn. unfold fupd at 1. destruct (Nat.eqb_spec b' c0) as [E|Nb].
      * subst b'. split; [discriminate|]. intros [H|(u & E)]; [tauto|].
        unfold fupd in E. destruct (Nat.eqb_spec u t); [discriminate|]. exfalso. apply (K5 u c0 E).
        apply in_or_app. right. left. auto.
      * rewrite K2. rewrite !in_app_iff. cbn. split; (intros [H|(u & E)]; [left|right; exists u]).
        -- intuition congruence.
        -- rewrite fupd_other; auto. intros ->. congruence.
        -- tauto.
        -- unfold fupd in E. destruct (Nat.eqb_spec u t); [discriminate|]. auto.
    + rewrite K3, ?EA, !sizes_app. cbn. lia.
    + intros u c1. unfold fupd. destruct (Nat.eqb_spec u t) as [|N]; [discriminate|]. intros E.
      destruct N. apply (A_uniq _ _ _ s u t IJ); auto. eapply hand_A; eauto.
    + intros u b'. unfold fupd. destruct (Nat.eqb_spec u t) as [|N]; [discriminate|]. intros E.
      destruct N. apply (A_uniq _ _ _ s u t IJ); auto. rewrite E. auto.
  - destruct (g_lockA s) eqn:EA; [discriminate|]. intros [= <-]. kq P.
  - destruct (g_lockM s (mtx b)) eqn:EM; [discriminate|]. intros [= <-]. kq P.
  - destruct (g_loaded s b); intros [= <-]; kq P.
  - intros [= <-]. kq P.
  - intros [= <-]. kq P.
  - (* mark *) intros [= <-].
    assert (HA : holdsA (g_pc s t) = true) by (rewrite P; auto).
    assert (LF : g_loaded s b = false) by (apply (j_ld _ _ _ _ IJ t); rewrite P; auto).
    destruct I as [K1 K2 K3 K4 K5].
    assert (NI : ~ In b (g_before s ++ g_after s)).
    { intros H. assert (g_loaded s b = true) by (apply K2; auto). congruence. }
    constructor; cbn; auto.
    + intros b'. unfold fupd at 1. destruct (Nat.eqb_spec b' b) as [E|Nb].
      * subst b'. split; auto. intros _. right. exists t. apply fupd_same.
      * rewrite K2. split; (intros [H|(u & E)]; [left|right; exists u]); auto.
        -- rewrite fupd_other; auto. intros ->. congruence.
        -- unfold fupd in E. destruct (Nat.eqb_spec u t); [congruence|auto].
    + intros u c1. unfold fupd. destruct (Nat.eqb_spec u t) as [|N]; [discriminate|]. intros E.
      destruct N. apply (A_uniq _ _ _ s u t IJ); auto. eapply hand_A; eauto.
    + intros u b'. unfold fupd. destruct (Nat.eqb_spec u t) as [|N]; [intros [= <-]; auto|]. intros E.
      destruct N. apply (A_uniq _ _ _ s u t IJ); auto. rewrite E. auto.
  - (* add *) intros [= <-].
    assert (HA : holdsA (g_pc s t) = true) by (rewrite P; auto).
    assert (LT : g_loaded s b = true) by (apply (j_conf _ _ _ _ IJ t); rewrite P; auto).
    destruct I as [K1 K2 K3 K4 K5].
    pose proof (K5 t b P) as NI.
    assert (PM : Permutation (b :: g_before s ++ g_after s) ((g_before s ++ [b]) ++ g_after s)).
    { rewrite <- app_assoc. apply Permutation_middle. }
    constructor; cbn; auto.
    + eapply Permutation_NoDup; [exact PM|]. constructor; auto.
    + intros b'. assert (IN : In b' ((g_before s ++ [b]) ++ g_after s) <-> b = b' \/ In b' (g_before s ++ g_after s)).
      { split; intros H; [apply (Permutation_in b' (Permutation_sym PM)) in H; destruct H; auto|].
        eapply Permutation_in; [exact PM|]. destruct H; [left|right]; auto. }
      rewrite IN, K2. split.
      * intros [H|(u & E)]; [tauto|]. destruct (Nat.eq_dec u t) as [->|Nu]; [left; left; congruence|].
        right. exists u. rewrite fupd_other; auto.
      * intros [[<-|H]|(u & E)]; [right; exists t; auto|auto|right; exists u].
        unfold fupd in E. destruct (Nat.eqb_spec u t); [discriminate|auto].
    + rewrite K3, !sizes_app. cbn. lia.
    + intros u c1. unfold fupd. destruct (Nat.eqb_spec u t) as [|N]; [discriminate|]. intros E.
      destruct N. apply (A_uniq _ _ _ s u t IJ); auto. eapply hand_A; eauto.
    + intros u b'. unfold fupd. destruct (Nat.eqb_spec u t) as [|N]; [discriminate|]. intros E.
      destruct N. apply (A_uniq _ _ _ s u t IJ); auto. rewrite E. auto.
  - intros [= <-]. kq P.
  - intros [= <-]. kq P.
  - destruct c; [intros [= <-]; kq P| |];
    (destruct (g_lockM s (mtx b)) eqn:EM; [discriminate|]; intros [= <-]; kq P).
  - intros [= <-]. kq P.
  - intros [= <-]. kq P.
Qed.

Lemma greach_K s : greach mtx file fill size limit max_mem n false s -> K s.
Proof.
  induction 1 as [|s s' R IH [t c Lt M E]]; [apply K_init|]. eapply K_step; eauto.
  eapply greach_J; eauto.
Qed.

(** * How far the limit can be overshot *)
Definition inflight p : Z :=
  match p with
  | PLdA b | PLdB b | PLdCheck b | PLdFill b | PLdRead b | PLdMark b | PLdAdd b => size b
  | _ => 0
  end.
Definition flight s : Z := sumn n (fun t => inflight (g_pc s t)).
Variable S : Z.
Hypothesis size_pos : forall b, 0 <= size b <= S.
Hypothesis S_max : S <= max_mem.
Hypothesis lim : limit = true.
Definition O s : Prop := g_mem s + flight s <= max_mem + (Z.of_nat n - 1) * S.

Lemma inflight_bd p : 0 <= inflight p <= S.
Proof. pose proof (size_pos 0). destruct p; cbn; try (pose proof (size_pos b); lia); lia. Qed.
Lemma flight_upd s s' t p' : (t < n)%nat -> g_pc s' = fupd (g_pc s) t p' ->
  flight s' = flight s - inflight (g_pc s t) + inflight p'.
Proof.
  intros Lt E. unfold flight. rewrite (sumn_upd n (fun u => inflight (g_pc s u)) _ t Lt).
  - rewrite E, fupd_same. auto.
  - intros i N. rewrite E, fupd_other; auto.
Qed.
Lemma sumn_le m f : (forall i, f i <= S) -> sumn m f <= Z.of_nat m * S.
Proof. intros H. induction m; cbn [sumn]; [lia|]. specialize (H m). lia. Qed.
Lemma flight_others s t : (t < n)%nat -> flight s - inflight (g_pc s t) <= (Z.of_nat n - 1) * S.
Proof.
  intros Lt. unfold flight.
  assert (forall m, (t < m)%nat -> sumn m (fun u => inflight (g_pc s u)) - inflight (g_pc s t) <= (Z.of_nat m - 1) * S) as Q.
  { clear Lt. induction m; intros Lt; [lia|]. cbn [sumn]. destruct (Nat.eq_dec t m) as [->|N].
    - pose proof (sumn_le m (fun u => inflight (g_pc s u))) as Q. cbn in Q.
      specialize (Q ltac:(intros; apply inflight_bd)). lia.
    - specialize (IHm ltac:(lia)). pose proof (inflight_bd (g_pc s m)). lia. }
  auto.
Qed.
Lemma flight_nonneg s : 0 <= flight s.
Proof. unfold flight. induction n; cbn [sumn]; [lia|]. pose proof (inflight_bd (g_pc s n0)). lia. Qed.

Lemma O_le s s' t p' : O s -> (t < n)%nat -> g_pc s' = fupd (g_pc s) t p' ->
  g_mem s' + inflight p' <= g_mem s + inflight (g_pc s t) -> O s'.
Proof. unfold O. intros H Lt E Q. rewrite (flight_upd s s' t p' Lt E). lia. Qed.

Ltac oq P :=
  match goal with
  | I : O ?s, Lt : (?t < n)%nat |- O (goto ?s0 ?t ?p') =>
      apply (O_le s _ t p' I Lt); [reflexivity|rewrite P; cbn; try lia]
  end.

Lemma O_step s s' t c : J s -> K s -> O s -> (t < n)%nat -> exec t c s = Some s' -> O s'.
Proof.
  intros IJ IK I Lt. unfold CacheConcM.exec, lockM, lockA. rewrite lim.
  pose proof (j_nofl _ _ _ _ IJ t) as NF.
  assert (ENT : forall s0 b, g_pc s t = PEvLoop b -> g_pc s0 = g_pc s -> g_mem s0 = g_mem s ->
    g_mem s + size b <= max_mem -> O (goto s0 t (PLdA b))).
  { intros s0 b P E1 E2 H. unfold O. rewrite (flight_upd s _ t (PLdA b) Lt) by (cbn; rewrite E1; auto).
    pose proof (flight_others s t Lt). cbn. lia. }
  destruct (g_pc s t) eqn:P; try discriminate NF.
  - destruct c; try discriminate; [|intros [= <-]; oq P].
    destruct (g_lockM s (mtx b)) eqn:EM; [discriminate|]. intros [= <-]. oq P.
  - intros [= <-]. oq P.
  - intros [= <-]. oq P.
  - intros [= <-]. destruct (g_loaded s b); oq P.
  - destruct (g_lockA s) eqn:EA; [discriminate|]. intros [= <-]. oq P.
  - destruct (g_before s ++ g_after s) as [|x r] eqn:EL.
    + intros [= <-]. apply ENT; auto. rewrite (k_mem _ IK), EL. cbn. pose proof (size_pos b). lia.
    + destruct (max_mem - g_mem s <? size b) eqn:C; [|intros [= <-]; apply ENT; auto; lia].
      destruct (g_after s) eqn:EA; intros [= <-]; oq P.
  - destruct (g_lockM s (mtx c0)) eqn:EM; [discriminate|]. intros [= <-]. oq P.
  - destruct (g_refs s c0 >? 0); intros [= <-]; [|oq P].
    destruct (advance_rest (unlockM mtx s c0)) as (A1 & A2 & A3).
    apply (O_le s _ t (PEvLoop b) I Lt); cbn; [rewrite A1; auto|rewrite A3, P; cbn; lia].
  - destruct (g_used s c0); intros [= <-]; [|oq P].
    destruct (advance_rest (unlockM mtx (set_used s c0 false) c0)) as (A1 & A2 & A3).
    apply (O_le s _ t (PEvLoop b) I Lt); cbn; [rewrite A1; auto|rewrite A3, P; cbn; lia].
  - intros [= <-]. oq P.
  - intros [= <-]. pose proof (size_pos c0). oq P.
  - destruct (g_lockA s) eqn:EA; [discriminate|]. intros [= <-]. oq P.
  - destruct (g_lockM s (mtx b)) eqn:EM; [discriminate|]. intros [= <-]. oq P.
  - pose proof (size_pos b). destruct (g_loaded s b); intros [= <-]; oq P.
  - intros [= <-]. oq P.
  - intros [= <-]. oq P.
  - intros [= <-]. oq P.
  - intros [= <-]. oq P.
  - intros [= <-]. oq P.
  - intros [= <-]. oq P.
  - destruct c; [intros [= <-]; oq P| |];
    (destruct (g_lockM s (mtx b)) eqn:EM; [discriminate|]; intros [= <-]; oq P).
  - intros [= <-]. oq P.
  - intros [= <-]. oq P.
Qed.

Lemma greach_O s : (0 < n)%nat -> greach mtx file fill size limit max_mem n false s ->
  g_mem s <= max_mem + (Z.of_nat n - 1) * S.
Proof.
  intros Ln R. assert (O s) as H.
  { induction R as [|s s' R IH [t c Lt M E]].
    - unfold O, flight. cbn. assert (sumn n (fun _ => 0) = 0) as -> by (clear; induction n; cbn; lia).
      pose proof (size_pos 0). nia.
    - eapply O_step; eauto; [eapply greach_J|eapply greach_K]; eauto. }
  pose proof (flight_nonneg s). unfold O in H. lia.
Qed.
End P.
