From Coq Require Import ZArith List Bool Lia Arith Permutation.
From Verif Require Import Model.Base Model.CacheConcM.
Import ListNotations.
Open Scope Z_scope.

Lemma fupd_same {A} (f : nat -> A) i a : fupd f i a i = a.
Proof. unfold fupd. rewrite Nat.eqb_refl. auto. Qed.
Lemma fupd_other {A} (f : nat -> A) i j a : j <> i -> fupd f i a j = f j.
Proof. unfold fupd. intros H. apply Nat.eqb_neq in H. rewrite H. auto. Qed.

Fixpoint sumn (n : nat) (f : nat -> Z) : Z :=
  match n with O => 0 | S m => sumn m f + f m end.
Lemma sumn_ext n f g : (forall i, (i < n)%nat -> f i = g i) -> sumn n f = sumn n g.
Proof. induction n; intros H; simpl; auto. rewrite IHn, H by auto. auto. Qed.
Lemma sumn_upd n f g t : (t < n)%nat -> (forall i, i <> t -> g i = f i) -> sumn n g = sumn n f - f t + g t.
Proof.
  induction n; intros L H; [lia|]. simpl. destruct (Nat.eq_dec t n) as [->|N].
  - rewrite (sumn_ext n g f); [lia|]. intros. apply H. lia.
  - rewrite IHn by (auto; lia). rewrite (H n) by auto. lia.
Qed.
Lemma sumn_ge n f t : (t < n)%nat -> (forall i, 0 <= f i) -> f t <= sumn n f.
Proof.
  induction n; intros L H; [lia|]. simpl. destruct (Nat.eq_dec t n) as [->|N].
  - assert (0 <= sumn n f). { clear -H. induction n; simpl; [lia|]. specialize (H n). lia. } lia.
  - specialize (IHn ltac:(lia) H). specialize (H n). lia.
Qed.

Section P.
Context {D : Type}.
Variables (mtx : nat -> nat) (file : nat -> D) (fill : D) (size : nat -> Z) (limit : bool) (max_mem : Z).
Variable n : nat.
Notation exec := (exec mtx file fill size limit max_mem).
Implicit Types (s : gstate D) (p : pc D).

Definition holdsA p : bool :=
  match p with
  | PEvLoop _ | PEvB _ _ | PEvRef _ _ | PEvUsed _ _ | PEvClear _ _ | PEvUnl _ _
  | PLdB _ | PLdCheck _ | PLdFill _ | PLdRead _ | PLdMark _ | PLdAdd _ | PFlLoop | PFlUnl _ => true
  | _ => false
  end.
Definition holdsM p : option nat :=
  match p with
  | PIncIn b | PIncOut b | PDecIn b | PDecOut b => Some (mtx b)
  | PEvRef _ c | PEvUsed _ c | PEvClear _ c | PEvUnl _ c => Some (mtx c)
  | PLdCheck b | PLdFill b | PLdRead b | PLdMark b | PLdAdd b => Some (mtx b)
  | _ => None
  end.
Definition pins p : option nat :=
  match p with
  | PIncOut b | PCheck b | PEvA b | PEvLoop b | PEvB b _ | PEvRef b _ | PEvUsed b _ | PEvClear b _
  | PEvUnl b _ | PLdA b | PLdB b | PLdCheck b | PLdFill b | PLdRead b | PLdMark b | PLdAdd b
  | PUsed b | PRead b | PGot b _ | PDecIn b => Some b
  | _ => None
  end.
Definition conf p : option nat :=
  match p with PLdAdd b | PUsed b | PRead b | PGot b _ => Some b | _ => None end.
Definition pin1 p b : Z := match pins p with Some b' => if Nat.eqb b' b then 1 else 0 | None => 0 end.
Definition evicting p : option nat :=
  match p with PEvUsed _ c | PEvClear _ c | PEvUnl _ c => Some c | _ => None end.
Definition loading p : option nat :=
  match p with PLdFill b | PLdRead b | PLdMark b => Some b | _ => None end.
Definition is_flush p : bool := match p with PFlA | PFlLoop | PFlUnl _ => true | _ => false end.

Record J s : Prop := {
  j_out : forall t, (n <= t)%nat -> g_pc s t = PIdle;
  j_A : forall t, g_lockA s = Some t <-> holdsA (g_pc s t) = true;
  j_M : forall m t, g_lockM s m = Some t <-> holdsM (g_pc s t) = Some m;
  j_refs : forall b, g_refs s b = sumn n (fun t => pin1 (g_pc s t) b);
  j_conf : forall t b, conf (g_pc s t) = Some b -> g_loaded s b = true;
  j_data : forall b, g_loaded s b = true -> g_data s b = Some (file b) \/ exists t b', g_pc s t = PEvUnl b' b;
  j_ev : forall t c, evicting (g_pc s t) = Some c -> g_refs s c <= 0;
  j_ld : forall t b, loading (g_pc s t) = Some b -> g_loaded s b = false;
  j_mark : forall t b, g_pc s t = PLdMark b -> g_data s b = Some (file b);
  j_nofl : forall t, is_flush (g_pc s t) = false;
  j_got : forall t b r, g_pc s t = PGot b r -> r = Some (file b) }.

Lemma pin1_nonneg p b : 0 <= pin1 p b.
Proof. unfold pin1. destruct (pins p); [destruct (Nat.eqb _ _)|]; lia. Qed.
Lemma pinned_pos s t b : J s -> (t < n)%nat -> pins (g_pc s t) = Some b -> 1 <= g_refs s b.
Proof.
  intros I L P. rewrite (j_refs _ I).
  assert (pin1 (g_pc s t) b = 1) as <- by (unfold pin1; rewrite P, Nat.eqb_refl; auto).
  apply (sumn_ge n (fun t => pin1 (g_pc s t) b)); auto. intros. apply pin1_nonneg.
Qed.
Lemma A_uniq s t t' : J s -> holdsA (g_pc s t) = true -> holdsA (g_pc s t') = true -> t = t'.
Proof. intros I H1 H2. apply (j_A _ I) in H1, H2. congruence. Qed.
Lemma M_uniq s t t' m : J s -> holdsM (g_pc s t) = Some m -> holdsM (g_pc s t') = Some m -> t = t'.
Proof. intros I H1 H2. apply (j_M _ I) in H1, H2. congruence. Qed.
Lemma J_init : J (@g_init D).
Proof.
  constructor; cbn; intros; auto; try discriminate.
  - split; discriminate.
  - split; discriminate.
  - induction n; simpl; auto. rewrite <- IHn0. reflexivity.
Qed.

(** Generic preservation for a step of [t] that goes to [p'], changing nothing but the
    locks, used flags and the clock list. *)
Record quiet s s' (t : nat) (p' : pc D) : Prop := {
  q_pc : g_pc s' = fupd (g_pc s) t p';
  q_loaded : g_loaded s' = g_loaded s;
  q_data : g_data s' = g_data s;
  q_refs : g_refs s' = g_refs s }.

Lemma lockA_keep s s' t p' : J s -> g_pc s' = fupd (g_pc s) t p' -> g_lockA s' = g_lockA s ->
  holdsA p' = holdsA (g_pc s t) -> forall u, g_lockA s' = Some u <-> holdsA (g_pc s' u) = true.
Proof.
  intros I -> -> H u. rewrite (j_A _ I). unfold fupd. destruct (Nat.eqb_spec u t) as [->|]; [rewrite H|]; tauto.
Qed.
Lemma lockA_take s s' t p' : J s -> g_pc s' = fupd (g_pc s) t p' -> g_lockA s = None -> g_lockA s' = Some t ->
  holdsA p' = true -> forall u, g_lockA s' = Some u <-> holdsA (g_pc s' u) = true.
Proof.
  intros I -> E -> H u. unfold fupd. destruct (Nat.eqb_spec u t) as [->|]; [tauto|].
  split; [congruence|]. intros X. apply (j_A _ I) in X. congruence.
Qed.
Lemma lockA_drop s s' t p' : J s -> g_pc s' = fupd (g_pc s) t p' -> holdsA (g_pc s t) = true -> g_lockA s' = None ->
  holdsA p' = false -> forall u, g_lockA s' = Some u <-> holdsA (g_pc s' u) = true.
Proof.
  intros I -> E -> H u. unfold fupd. destruct (Nat.eqb_spec u t) as [->|]; [split; congruence|].
  split; [discriminate|]. intros X. destruct n0. eapply A_uniq; eauto.
Qed.
Lemma lockM_keep s s' t p' : J s -> g_pc s' = fupd (g_pc s) t p' -> g_lockM s' = g_lockM s ->
  holdsM p' = holdsM (g_pc s t) -> forall m u, g_lockM s' m = Some u <-> holdsM (g_pc s' u) = Some m.
Proof.
  intros I -> -> H m u. rewrite (j_M _ I). unfold fupd. destruct (Nat.eqb_spec u t) as [->|]; [rewrite H|]; tauto.
Qed.
Lemma lockM_take s s' t p' m0 : J s -> g_pc s' = fupd (g_pc s) t p' -> g_lockM s m0 = None ->
  g_lockM s' = fupd (g_lockM s) m0 (Some t) -> holdsM (g_pc s t) = None ->
  holdsM p' = Some m0 -> forall m u, g_lockM s' m = Some u <-> holdsM (g_pc s' u) = Some m.
Proof.
  intros I -> E -> N H m u. pose proof (j_M _ I m u) as Q. unfold fupd.
  destruct (Nat.eqb_spec m m0) as [->|Nm]; destruct (Nat.eqb_spec u t) as [->|Nu].
  - tauto.
  - rewrite E in Q. split; [congruence|]. intros X. apply Q in X. discriminate.
  - rewrite Q, N, H. split; congruence.
  - auto.
Qed.
Lemma lockM_drop s s' t p' m0 : J s -> g_pc s' = fupd (g_pc s) t p' -> holdsM (g_pc s t) = Some m0 ->
  g_lockM s' = fupd (g_lockM s) m0 None ->
  holdsM p' = None -> forall m u, g_lockM s' m = Some u <-> holdsM (g_pc s' u) = Some m.
Proof.
  intros I -> E -> H m u. pose proof (j_M _ I m u) as Q. unfold fupd.
  destruct (Nat.eqb_spec m m0) as [->|Nm]; destruct (Nat.eqb_spec u t) as [->|Nu].
  - rewrite H. split; discriminate.
  - split; [discriminate|]. intros X. destruct Nu. eapply M_uniq; eauto.
  - rewrite Q, E, H. split; congruence.
  - auto.
Qed.
Lemma refs_keep s s' t p' : J s -> (t < n)%nat -> g_pc s' = fupd (g_pc s) t p' -> g_refs s' = g_refs s ->
  pins p' = pins (g_pc s t) -> forall b, g_refs s' b = sumn n (fun t => pin1 (g_pc s' t) b).
Proof.
  intros I L -> -> H b. rewrite (j_refs _ I). apply sumn_ext. intros i _. unfold fupd, pin1.
  destruct (Nat.eqb_spec i t) as [->|]; [rewrite H|]; auto.
Qed.
Lemma refs_change s s' t p' b0 z : J s -> (t < n)%nat -> g_pc s' = fupd (g_pc s) t p' ->
  g_refs s' = fupd (g_refs s) b0 (g_refs s b0 + z) ->
  (forall b, pin1 p' b = pin1 (g_pc s t) b + if Nat.eqb b b0 then z else 0) ->
  forall b, g_refs s' b = sumn n (fun t => pin1 (g_pc s' t) b).
Proof.
  intros I L -> -> H b. rewrite (sumn_upd n (fun u => pin1 (g_pc s u) b) _ t L).
  - rewrite fupd_same, H, <- (j_refs _ I). unfold fupd. destruct (Nat.eqb_spec b b0) as [->|]; lia.
  - intros i Hi. cbn. rewrite fupd_other by auto. auto.
Qed.

Lemma J_quiet s s' t p' : J s -> (t < n)%nat -> quiet s s' t p' ->
  (forall u, g_lockA s' = Some u <-> holdsA (g_pc s' u) = true) ->
  (forall m u, g_lockM s' m = Some u <-> holdsM (g_pc s' u) = Some m) ->
  pins p' = pins (g_pc s t) ->
  (forall b, conf p' = Some b -> g_loaded s b = true) ->
  (forall c, evicting p' = Some c -> g_refs s c <= 0) ->
  (forall b, loading p' = Some b -> g_loaded s b = false) ->
  (forall b, p' = PLdMark b -> g_data s b = Some (file b)) ->
  is_flush p' = false ->
  (forall b r, p' = PGot b r -> r = Some (file b)) ->
  (forall b b', g_pc s t = PEvUnl b' b -> False) -> J s'.
Proof.
  intros I L [Qp Ql Qd Qr] HA HM Hp Hc He Hl Hm Hf Hg Hu. constructor; auto.
  - intros u Lu. rewrite Qp, fupd_other by lia. apply (j_out _ I); auto.
  - eapply refs_keep; eauto.
  - intros u b. rewrite Qp, Ql. unfold fupd. destruct (Nat.eqb_spec u t); [auto|apply (j_conf _ I)].
  - intros b. rewrite Qp, Ql, Qd. intros Lb. destruct (j_data _ I b Lb) as [E|(u & b' & E)]; [auto|].
    right. exists u, b'. rewrite fupd_other; auto. intros ->. eapply Hu; eauto.
  - intros u c. rewrite Qp, Qr. unfold fupd. destruct (Nat.eqb_spec u t); [auto|apply (j_ev _ I)].
  - intros u b. rewrite Qp, Ql. unfold fupd. destruct (Nat.eqb_spec u t); [auto|apply (j_ld _ I)].
  - intros u b. rewrite Qp, Qd. unfold fupd. destruct (Nat.eqb_spec u t); [auto|apply (j_mark _ I)].
  - intros u. rewrite Qp. unfold fupd. destruct (Nat.eqb_spec u t); [auto|apply (j_nofl _ I)].
  - intros u b r. rewrite Qp. unfold fupd. destruct (Nat.eqb_spec u t); [auto|apply (j_got _ I)].
Qed.

Lemma advance_eq s : exists b a, advance s = set_list s b a (g_mem s).
Proof. unfold advance. destruct (g_after s) eqn:E; [exists (g_before s), [] | eexists; eexists; reflexivity].
  destruct s; cbn in *. subst. reflexivity. Qed.

Ltac side P :=
  first [ reflexivity | assumption | rewrite P; reflexivity
        | (intros; discriminate) | (rewrite P; intros; discriminate) ].
Ltac qu I P :=
  match goal with
  | |- J (goto ?s0 ?t ?p') =>
      eapply (J_quiet _ _ t p' I); [assumption|constructor; reflexivity| | | | | | | | | | ];
      try solve [side P]
  end.

Lemma J_step s s' t c : J s -> (t < n)%nat -> c <> ChFlush -> exec t c s = Some s' -> J s'.
Proof.
  intros I L NF. unfold CacheConcM.exec.
  pose proof (lockA_keep s) as KA. pose proof (lockM_keep s) as KM.
  destruct (g_pc s t) eqn:P.
  - (* idle *) destruct c; try discriminate; [|tauto]. unfold lockM.
    destruct (g_lockM s (mtx b)) eqn:EM; [discriminate|]. intros [= <-]. qu I P.
    + eapply (lockA_keep s _ t (PIncIn b)); side P.
    + eapply (lockM_take s _ t (PIncIn b) (mtx b)); side P.
  - (* inc *) intros [= <-].
    assert (PN : forall b', pin1 (@PIncOut D b) b' = pin1 (g_pc s t) b' + if Nat.eqb b' b then 1 else 0).
    { intros b'. rewrite P. unfold pin1; cbn. rewrite (Nat.eqb_sym b b'). destruct (Nat.eqb b' b); lia. }
    constructor; cbn.
    + intros u Lu. rewrite fupd_other by lia. apply (j_out _ I); auto.
    + eapply (lockA_keep s (goto (set_refs s b (g_refs s b + 1)) t (PIncOut b)) t (PIncOut b)); side P.
    + eapply (lockM_keep s (goto (set_refs s b (g_refs s b + 1)) t (PIncOut b)) t (PIncOut b)); side P.
    + eapply (refs_change s (goto (set_refs s b (g_refs s b + 1)) t (PIncOut b)) t (PIncOut b) b 1); side P.
    + intros u b'. unfold fupd. destruct (Nat.eqb_spec u t); [discriminate|apply (j_conf _ I)].
    + intros b' Lb. destruct (j_data _ I b' Lb) as [E|(u & b'' & E)]; [auto|]. right. exists u, b''.
      rewrite fupd_other; auto. intros ->. congruence.
    + intros u c0. unfold fupd at 1. destruct (Nat.eqb_spec u t) as [->|Nu]; [discriminate|]. intros E.
      rewrite fupd_other; [eapply (j_ev _ I); eauto|]. intros ->. apply Nu.
      eapply (M_uniq s u t (mtx b) I); [|rewrite P; reflexivity].
      destruct (g_pc s u); try discriminate; injection E as ->; reflexivity.
    + intros u b'. unfold fupd. destruct (Nat.eqb_spec u t); [discriminate|apply (j_ld _ I)].
    + intros u b'. unfold fupd. destruct (Nat.eqb_spec u t); [discriminate|apply (j_mark _ I)].
    + intros u. unfold fupd. destruct (Nat.eqb_spec u t); [auto|apply (j_nofl _ I)].
    + intros u b' r. unfold fupd. destruct (Nat.eqb_spec u t); [discriminate|apply (j_got _ I)].
  - (* inc out *) intros [= <-]. qu I P.
    + eapply (lockA_keep s _ t (PCheck b)); side P.
    + eapply (lockM_drop s _ t (PCheck b) (mtx b)); side P.
  - (* check *) intros [= <-]. destruct (g_loaded s b) eqn:Lb; [|destruct limit].
    + qu I P; [eapply (lockA_keep s _ t (PUsed b)); side P|eapply (lockM_keep s _ t (PUsed b)); side P|].
      intros b' [= <-]. auto.
    + qu I P; [eapply (lockA_keep s _ t (PEvA b)); side P|eapply (lockM_keep s _ t (PEvA b)); side P].
    + qu I P; [eapply (lockA_keep s _ t (PLdA b)); side P|eapply (lockM_keep s _ t (PLdA b)); side P].
  - (* EvA *) unfold lockA. destruct (g_lockA s) eqn:EA; [discriminate|]. intros [= <-].
    qu I P; [eapply (lockA_take s _ t (PEvLoop b)); side P|eapply (lockM_keep s _ t (PEvLoop b)); side P].
  - (* EvLoop *)
    assert (REL : J (goto (set_lockA s None) t (PLdA b))).
    { qu I P; [eapply (lockA_drop s _ t (PLdA b)); side P|eapply (lockM_keep s _ t (PLdA b)); side P]. }
    destruct (g_before s ++ g_after s) as [|x r]; [intros [= <-]; auto|].
    destruct (max_mem - g_mem s <? size b); [|intros [= <-]; auto].
    destruct (g_after s); intros [= <-].
    + qu I P; [eapply (lockA_keep s _ t (PEvB b x)); side P|eapply (lockM_keep s _ t (PEvB b x)); side P].
    + qu I P; [eapply (lockA_keep s _ t (PEvB b n0)); side P|eapply (lockM_keep s _ t (PEvB b n0)); side P].
  - (* EvB *) unfold lockM. destruct (g_lockM s (mtx c0)) eqn:EM; [discriminate|]. intros [= <-].
    qu I P; [eapply (lockA_keep s _ t (PEvRef b c0)); side P|eapply (lockM_take s _ t (PEvRef b c0) (mtx c0)); side P].
  - (* EvRef *) destruct (g_refs s c0 >? 0) eqn:RC.
    + destruct (advance_eq (unlockM mtx s c0)) as (bb & aa & ->). intros [= <-].
      qu I P; [eapply (lockA_keep s _ t (PEvLoop b)); side P|eapply (lockM_drop s _ t (PEvLoop b) (mtx c0)); side P].
    + intros [= <-].
      qu I P; [eapply (lockA_keep s _ t (PEvUsed b c0)); side P|eapply (lockM_keep s _ t (PEvUsed b c0)); side P|].
      intros c1 [= <-]. lia.
  - (* EvUsed *) destruct (g_used s c0).
    + destruct (advance_eq (unlockM mtx (set_used s c0 false) c0)) as (bb & aa & ->). intros [= <-].
      qu I P; [eapply (lockA_keep s _ t (PEvLoop b)); side P|eapply (lockM_drop s _ t (PEvLoop b) (mtx c0)); side P].
    + intros [= <-].
      qu I P; [eapply (lockA_keep s _ t (PEvClear b c0)); side P|eapply (lockM_keep s _ t (PEvClear b c0)); side P|].
      intros c1 [= <-]. apply (j_ev _ I t). rewrite P. auto.
  - (* EvClear *) intros [= <-].
    constructor; cbn.
    + intros u Lu. rewrite fupd_other by lia. apply (j_out _ I); auto.
    + eapply (lockA_keep s (goto (set_data s c0 None) t (PEvUnl b c0)) t (PEvUnl b c0)); side P.
    + eapply (lockM_keep s (goto (set_data s c0 None) t (PEvUnl b c0)) t (PEvUnl b c0)); side P.
    + eapply (refs_keep s (goto (set_data s c0 None) t (PEvUnl b c0)) t (PEvUnl b c0)); side P.
    + intros u b'. unfold fupd. destruct (Nat.eqb_spec u t); [discriminate|apply (j_conf _ I)].
    + intros b' Lb. unfold fupd at 1. destruct (Nat.eqb_spec b' c0) as [->|].
      * right. exists t, b. apply fupd_same.
      * destruct (j_data _ I b' Lb) as [E|(u & b'' & E)]; [auto|]. right. exists u, b''.
        rewrite fupd_other; auto. intros ->. congruence.
    + intros u c1. unfold fupd. destruct (Nat.eqb_spec u t) as [->|Nu]; [|apply (j_ev _ I)].
      intros [= <-]. apply (j_ev _ I t). rewrite P. auto.
    + intros u b'. unfold fupd. destruct (Nat.eqb_spec u t); [discriminate|apply (j_ld _ I)].
    + intros u b'. unfold fupd at 1. destruct (Nat.eqb_spec u t); [discriminate|]. intros E.
      exfalso. apply n0. apply (A_uniq s); auto; [rewrite E|rewrite P]; reflexivity.
    + intros u. unfold fupd. destruct (Nat.eqb_spec u t); [auto|apply (j_nofl _ I)].
    + intros u b' r. unfold fupd. destruct (Nat.eqb_spec u t); [discriminate|apply (j_got _ I)].
  - (* EvUnl *) intros [= <-].
    set (s' := goto _ t (PEvLoop b)).
    assert (NP : forall u, (u < n)%nat -> pins (g_pc s u) <> Some c0).
    { intros u Lu E. pose proof (pinned_pos s u c0 I Lu E). pose proof (j_ev _ I t c0) as Q. rewrite P in Q. specialize (Q eq_refl). lia. }
    constructor; cbn.
    + intros u Lu. rewrite fupd_other by lia. apply (j_out _ I); auto.
    + eapply (lockA_keep s s' t (PEvLoop b)); side P.
    + eapply (lockM_drop s s' t (PEvLoop b) (mtx c0)); side P.
    + eapply (refs_keep s s' t (PEvLoop b)); side P.
    + intros u b'. unfold fupd at 1. destruct (Nat.eqb_spec u t); [discriminate|]. intros E.
      rewrite fupd_other; [eapply (j_conf _ I); eauto|]. intros ->.
      destruct (lt_dec u n) as [Lu|Lu].
      * apply (NP u Lu). destruct (g_pc s u); try discriminate; exact E.
      * rewrite (j_out _ I) in E by lia. discriminate.
    + intros b' Lb. unfold fupd in Lb. destruct (Nat.eqb_spec b' c0) as [Eb|Nb]; [discriminate|].
      destruct (j_data _ I b' Lb) as [E|(u & b'' & E)]; [auto|]. right. exists u, b''.
      rewrite fupd_other; auto. intros ->. congruence.
    + intros u c1. unfold fupd. destruct (Nat.eqb_spec u t) as [->|Nu]; [discriminate|apply (j_ev _ I)].
    + intros u b'. unfold fupd at 1. destruct (Nat.eqb_spec u t); [discriminate|]. intros E.
      unfold fupd. destruct (Nat.eqb b' c0); [auto|]. eapply (j_ld _ I); eauto.
    + intros u b'. unfold fupd. destruct (Nat.eqb_spec u t); [discriminate|apply (j_mark _ I)].
    + intros u. unfold fupd. destruct (Nat.eqb_spec u t); [auto|apply (j_nofl _ I)].
    + intros u b' r. unfold fupd. destruct (Nat.eqb_spec u t); [discriminate|apply (j_got _ I)].
  - (* LdA *) unfold lockA. destruct (g_lockA s) eqn:EA; [discriminate|]. intros [= <-].
    qu I P; [eapply (lockA_take s _ t (PLdB b)); side P|eapply (lockM_keep s _ t (PLdB b)); side P].
  - (* LdB *) unfold lockM. destruct (g_lockM s (mtx b)) eqn:EM; [discriminate|]. intros [= <-].
    qu I P; [eapply (lockA_keep s _ t (PLdCheck b)); side P|eapply (lockM_take s _ t (PLdCheck b) (mtx b)); side P].
  - (* LdCheck *) destruct (g_loaded s b) eqn:Lb; intros [= <-].
    + qu I P; [eapply (lockA_drop s _ t (PUsed b)); side P|eapply (lockM_drop s _ t (PUsed b) (mtx b)); side P|].
      intros b' [= <-]. auto.
    + qu I P; [eapply (lockA_keep s _ t (PLdFill b)); side P|eapply (lockM_keep s _ t (PLdFill b)); side P|].
      intros b' [= <-]. auto.
  - (* LdFill *) intros [= <-].
    assert (LF : g_loaded s b = false) by (apply (j_ld _ I t); rewrite P; auto).
    set (s' := goto _ t (PLdRead b)).
    constructor; cbn.
    + intros u Lu. rewrite fupd_other by lia. apply (j_out _ I); auto.
    + eapply (lockA_keep s s' t (PLdRead b)); side P.
    + eapply (lockM_keep s s' t (PLdRead b)); side P.
    + eapply (refs_keep s s' t (PLdRead b)); side P.
    + intros u b'. unfold fupd. destruct (Nat.eqb_spec u t); [discriminate|apply (j_conf _ I)].
    + intros b' Lb. rewrite fupd_other by congruence.
      destruct (j_data _ I b' Lb) as [E|(u & b'' & E)]; [auto|]. right. exists u, b''.
      rewrite fupd_other; auto. intros ->. congruence.
    + intros u c1. unfold fupd. destruct (Nat.eqb_spec u t) as [->|Nu]; [discriminate|apply (j_ev _ I)].
    + intros u b'. unfold fupd. destruct (Nat.eqb_spec u t); [intros [= <-]; auto|apply (j_ld _ I)].
    + intros u b'. unfold fupd at 1. destruct (Nat.eqb_spec u t); [discriminate|]. intros E.
      exfalso. apply n0. apply (A_uniq s); auto; [rewrite E|rewrite P]; reflexivity.
    + intros u. unfold fupd. destruct (Nat.eqb_spec u t); [auto|apply (j_nofl _ I)].
    + intros u b' r. unfold fupd. destruct (Nat.eqb_spec u t); [discriminate|apply (j_got _ I)].
  - (* LdRead *) intros [= <-].
    assert (LF : g_loaded s b = false) by (apply (j_ld _ I t); rewrite P; auto).
    set (s' := goto _ t (PLdMark b)).
    constructor; cbn.
    + intros u Lu. rewrite fupd_other by lia. apply (j_out _ I); auto.
    + eapply (lockA_keep s s' t (PLdMark b)); side P.
    + eapply (lockM_keep s s' t (PLdMark b)); side P.
    + eapply (refs_keep s s' t (PLdMark b)); side P.
    + intros u b'. unfold fupd. destruct (Nat.eqb_spec u t); [discriminate|apply (j_conf _ I)].
    + intros b' Lb. rewrite fupd_other by congruence.
      destruct (j_data _ I b' Lb) as [E|(u & b'' & E)]; [auto|]. right. exists u, b''.
      rewrite fupd_other; auto. intros ->. congruence.
    + intros u c1. unfold fupd. destruct (Nat.eqb_spec u t) as [->|Nu]; [discriminate|apply (j_ev _ I)].
    + intros u b'. unfold fupd. destruct (Nat.eqb_spec u t); [intros [= <-]; auto|apply (j_ld _ I)].
    + intros u b'. unfold fupd at 1. destruct (Nat.eqb_spec u t); [intros [= <-]; apply fupd_same|]. intros E.
      exfalso. apply n0. apply (A_uniq s); auto; [rewrite E|rewrite P]; reflexivity.
    + intros u. unfold fupd. destruct (Nat.eqb_spec u t); [auto|apply (j_nofl _ I)].
    + intros u b' r. unfold fupd. destruct (Nat.eqb_spec u t); [discriminate|apply (j_got _ I)].
  - (* LdMark *) intros [= <-].
    pose proof (j_mark _ I t b P) as DM.
    set (s' := goto _ t (PLdAdd b)).
    constructor; cbn.
    + intros u Lu. rewrite fupd_other by lia. apply (j_out _ I); auto.
    + eapply (lockA_keep s s' t (PLdAdd b)); side P.
    + eapply (lockM_keep s s' t (PLdAdd b)); side P.
    + eapply (refs_keep s s' t (PLdAdd b)); side P.
    + intros u b'. unfold fupd. destruct (Nat.eqb_spec u t).
      * intros [= <-]. rewrite Nat.eqb_refl. auto.
      * intros E. destruct (Nat.eqb b' b); auto. eapply (j_conf _ I); eauto.
    + intros b' Lb. unfold fupd in Lb. destruct (Nat.eqb_spec b' b) as [Eb|]; [rewrite Eb; auto|].
      destruct (j_data _ I b' Lb) as [E|(u & b'' & E)]; [auto|]. right. exists u, b''.
      rewrite fupd_other; auto. intros ->. congruence.
    + intros u c1. unfold fupd. destruct (Nat.eqb_spec u t) as [->|Nu]; [discriminate|apply (j_ev _ I)].
    + intros u b'. unfold fupd at 1. destruct (Nat.eqb_spec u t); [discriminate|]. intros E.
      exfalso. apply n0. apply (A_uniq s); auto; [|rewrite P; reflexivity].
      destruct (g_pc s u); try discriminate; reflexivity.
    + intros u b'. unfold fupd. destruct (Nat.eqb_spec u t); [discriminate|apply (j_mark _ I)].
    + intros u. unfold fupd. destruct (Nat.eqb_spec u t); [auto|apply (j_nofl _ I)].
    + intros u b' r. unfold fupd. destruct (Nat.eqb_spec u t); [discriminate|apply (j_got _ I)].
  - (* LdAdd *) intros [= <-].
    qu I P; [eapply (lockA_drop s _ t (PUsed b)); side P|eapply (lockM_drop s _ t (PUsed b) (mtx b)); side P|].
    intros b' [= <-]. apply (j_conf _ I t). rewrite P. auto.
  - (* Used *) intros [= <-].
    qu I P; [eapply (lockA_keep s _ t (PRead b)); side P|eapply (lockM_keep s _ t (PRead b)); side P|].
    intros b' [= <-]. apply (j_conf _ I t). rewrite P. auto.
  - (* Read *) intros [= <-].
    assert (LB : g_loaded s b = true) by (apply (j_conf _ I t); rewrite P; auto).
    qu I P; [eapply (lockA_keep s _ t (PGot b (g_data s b))); side P|eapply (lockM_keep s _ t (PGot b (g_data s b))); side P| |].
    + intros b' [= <-]. auto.
    + intros b' r [= <- <-]. destruct (j_data _ I b LB) as [E|(u & b'' & E)]; [auto|]. exfalso.
      assert (1 <= g_refs s b) by (apply (pinned_pos s t b I L); rewrite P; auto).
      pose proof (j_ev _ I u b) as Q. rewrite E in Q. specialize (Q eq_refl). lia.
  - (* Got *)
    assert (LB : g_loaded s b = true) by (apply (j_conf _ I t); rewrite P; auto).
    assert (AG : J (goto s t (PRead b))).
    { qu I P; [eapply (lockA_keep s _ t (PRead b)); side P|eapply (lockM_keep s _ t (PRead b)); side P|].
      intros b' [= <-]. auto. }
    assert (DN : lockM mtx s t b (fun s => goto s t (PDecIn b)) = Some s' -> J s').
    { unfold lockM. destruct (g_lockM s (mtx b)) eqn:EM; [discriminate|]. intros [= <-].
      qu I P; [eapply (lockA_keep s _ t (PDecIn b)); side P|eapply (lockM_take s _ t (PDecIn b) (mtx b)); side P]. }
    destruct c; auto. intros [= <-]. auto.
  - (* DecIn *) intros [= <-].
    assert (PN : forall b', pin1 (@PDecOut D b) b' = pin1 (g_pc s t) b' + if Nat.eqb b' b then -1 else 0).
    { intros b'. rewrite P. unfold pin1; cbn. rewrite (Nat.eqb_sym b b'). destruct (Nat.eqb b' b); lia. }
    set (s' := goto _ t (PDecOut b)).
    constructor; cbn.
    + intros u Lu. rewrite fupd_other by lia. apply (j_out _ I); auto.
    + eapply (lockA_keep s s' t (PDecOut b)); side P.
    + eapply (lockM_keep s s' t (PDecOut b)); side P.
    + eapply (refs_change s s' t (PDecOut b) b (-1)); side P.
    + intros u b'. unfold fupd. destruct (Nat.eqb_spec u t); [discriminate|apply (j_conf _ I)].
    + intros b' Lb. destruct (j_data _ I b' Lb) as [E|(u & b'' & E)]; [auto|]. right. exists u, b''.
      rewrite fupd_other; auto. intros ->. congruence.
    + intros u c1. unfold fupd at 1. destruct (Nat.eqb_spec u t) as [->|Nu]; [discriminate|]. intros E.
      pose proof (j_ev _ I u c1 E). unfold fupd. destruct (Nat.eqb_spec c1 b) as [->|]; lia.
    + intros u b'. unfold fupd. destruct (Nat.eqb_spec u t); [discriminate|apply (j_ld _ I)].
    + intros u b'. unfold fupd. destruct (Nat.eqb_spec u t); [discriminate|apply (j_mark _ I)].
    + intros u. unfold fupd. destruct (Nat.eqb_spec u t); [auto|apply (j_nofl _ I)].
    + intros u b' r. unfold fupd. destruct (Nat.eqb_spec u t); [discriminate|apply (j_got _ I)].
  - (* DecOut *) intros [= <-].
    qu I P; [eapply (lockA_keep s _ t PIdle); side P|eapply (lockM_drop s _ t PIdle (mtx b)); side P].
  - pose proof (j_nofl _ I t) as Q. rewrite P in Q. discriminate.
  - pose proof (j_nofl _ I t) as Q. rewrite P in Q. discriminate.
  - pose proof (j_nofl _ I t) as Q. rewrite P in Q. discriminate.
Qed.

Lemma greach_J s : greach mtx file fill size limit max_mem n false s -> J s.
Proof.
  induction 1 as [|s s' _ IH [t c L M E]]; [apply J_init|]. eapply J_step; eauto.
  intros ->. cbn in M. discriminate.
Qed.
End P.
