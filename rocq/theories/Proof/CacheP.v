From Coq Require Import ZArith List Bool Lia Arith Permutation.
From Verif Require Import Model.Base Model.SparseM Model.CacheM Spec.CacheSpec Proof.BaseP.
Import ListNotations.
Open Scope Z_scope.

Lemma entry_eqb_eq a b : entry_eqb a b = true <-> a = b.
Proof.
  destruct a as [[t f] i], b as [[t' f'] i']; simpl.
  rewrite !andb_true_iff, !Nat.eqb_eq. split; [intros [[-> ->] ->]; auto | intros H; inversion H; auto].
Qed.
Lemma entry_eqb_refl a : entry_eqb a a = true.
Proof. apply entry_eqb_eq; auto. Qed.
Lemma entry_eqb_neq a b : a <> b -> entry_eqb a b = false.
Proof. intros H. destruct (entry_eqb a b) eqn:E; auto. apply entry_eqb_eq in E. tauto. Qed.
Lemma entry_dec (a b : entry) : {a = b} + {a <> b}.
Proof. destruct (entry_eqb a b) eqn:E; [left; apply entry_eqb_eq; auto | right; intros H; apply entry_eqb_eq in H; congruence]. Qed.

Section C.
Context {V : Type}.
Implicit Types (s : cache V) (e : entry).

Definition stat s t f := option_map (fun r => (r_file r, r_nvox r, r_elem r, r_disk r)) (ref_at s t f).

Record upd_to s e (k' : cblk V) s' : Prop := {
  ut_blk : forall e', blk_at s' e' = if entry_eqb e' e then Some k' else blk_at s e';
  ut_stat : forall t f, stat s' t f = stat s t f;
  ut_len : forall t, length (c_refs s' t) = length (c_refs s t);
  ut_before : c_before s' = c_before s; ut_after : c_after s' = c_after s;
  ut_mem : c_mem s' = c_mem s; ut_max : c_max s' = c_max s; ut_limit : c_limit s' = c_limit s }.

Lemma upd_blk_ok s e g k : blk_at s e = Some k ->
  exists s', upd_blk s e g = Ok s' /\ upd_to s e (g k) s'.
Proof.
  destruct e as [[t f] i]. unfold blk_at, upd_blk. destruct (ref_at s t f) as [r|] eqn:R; [|discriminate].
  intros K. rewrite K. eexists. split; [reflexivity|].
  assert (Lf : (f < length (c_refs s t))%nat) by (apply nth_error_Some; unfold ref_at in R; congruence).
  assert (Li : (i < length (r_blk r))%nat) by (apply nth_error_Some; congruence).
  constructor; try reflexivity.
  - intros [[t' f'] i']. unfold blk_at, ref_at, set_ref, entry_eqb; cbn [c_refs].
    destruct (Nat.eqb_spec t' t) as [->|]; cbn [andb]; [|reflexivity].
    destruct (Nat.eqb_spec f' f) as [->|]; cbn [andb].
    + rewrite list_set_same by auto. cbn [r_blk]. unfold ref_at in R. rewrite R.
      destruct (Nat.eqb_spec i' i) as [->|].
      * rewrite list_set_same; auto.
      * rewrite list_set_other; auto.
    + rewrite list_set_other; auto.
  - intros t' f'. unfold stat, ref_at, set_ref; cbn [c_refs].
    destruct (Nat.eqb_spec t' t) as [->|]; [|reflexivity].
    destruct (Nat.eq_dec f' f) as [->|].
    + rewrite list_set_same by auto. unfold ref_at in R. rewrite R. reflexivity.
    + rewrite list_set_other; auto.
  - intros t'. unfold set_ref; cbn [c_refs].
    destruct (Nat.eqb_spec t' t) as [->|]; [apply list_set_length|reflexivity].
Qed.

Lemma entry_size_stat s e : entry_size s e =
  let '(t, f, _) := e in match stat s t f with Some (_, n, m, _) => n * m | None => 0 end.
Proof. destruct e as [[t f] i]. unfold entry_size, stat, ref_block_size. destruct (ref_at s t f); reflexivity. Qed.
Lemma entry_size_same s s' e : (forall t f, stat s' t f = stat s t f) -> entry_size s' e = entry_size s e.
Proof. intros H. rewrite !entry_size_stat. destruct e as [[t f] i]. rewrite H. reflexivity. Qed.
Lemma bytes_same s s' l : (forall t f, stat s' t f = stat s t f) -> bytes s' l = bytes s l.
Proof. intros H. induction l; simpl; [auto|]. rewrite IHl, (entry_size_same s s'); auto. Qed.
Lemma bytes_app s l l' : bytes s (l ++ l') = bytes s l + bytes s l'.
Proof. induction l; simpl; lia. Qed.
Lemma bytes_perm s l l' : Permutation l l' -> bytes s l = bytes s l'.
Proof. induction 1; simpl; lia. Qed.

(** * Invariant *)
Definition has_content s e (d : list V) : Prop :=
  let '(t, f, i) := e in
  exists fi n m dk ix, stat s t f = Some (fi, n, m, dk) /\ nth_error fi i = Some ix /\ 0 <= ix /\
                       nth_error dk (Z.to_nat ix) = Some d.

Record cinv (a : fields V) s : Prop := {
  ci_len : forall t, length (c_refs s t) = length (a t);
  ci_live : forall t f d, is_open a t f d -> desc_ok d /\
     stat s t f = Some (file_indices 0 (fd_alloc d), fd_nvox d, fd_elem d, fd_disk d) /\
     (forall i, (i < length (fd_alloc d))%nat <-> blk_at s (t, f, i) <> None);
  ci_dead : forall t f, nth_error (a t) f = Some None -> forall i, blk_at s (t, f, i) = None;
  ci_blk : forall e k, blk_at s e = Some k ->
     if cb_loaded k then In e (cached s) /\ exists d, cb_data k = Some d /\ has_content s e d
     else ~ In e (cached s) /\ cb_data k = None;
  ci_in : forall e, In e (cached s) -> blk_at s e <> None;
  ci_nodup : NoDup (cached s);
  ci_mem : c_mem s = bytes s (cached s) }.

Lemma has_content_same s s' e d : (forall t f, stat s' t f = stat s t f) -> has_content s e d -> has_content s' e d.
Proof. intros H. destruct e as [[t f] i]. unfold has_content. rewrite H. auto. Qed.

Lemma ci_open_of_blk a s : cinv a s -> forall t f i k, blk_at s (t, f, i) = Some k ->
  exists d, is_open a t f d /\ (i < length (fd_alloc d))%nat.
Proof.
  intros I t f i k B.
  assert (exists r, nth_error (c_refs s t) f = Some r) as [r R].
  { unfold blk_at, ref_at in B. destruct (nth_error (c_refs s t) f); [eauto|discriminate]. }
  assert (L : (f < length (a t))%nat).
  { rewrite <- (ci_len _ _ I). apply nth_error_Some. congruence. }
  destruct (nth_error (a t) f) as [[d|]|] eqn:E.
  - exists d. split; [exact E|]. apply (ci_live _ _ I t f d E). congruence.
  - rewrite (ci_dead _ _ I _ _ E) in B. discriminate.
  - apply nth_error_None in E. lia.
Qed.

Lemma ci_size_pos a s : cinv a s -> forall e k, blk_at s e = Some k -> 0 < entry_size s e.
Proof.
  intros I [[t f] i] k B. destruct (ci_open_of_blk a s I t f i k B) as (d & O & _).
  destruct (ci_live _ _ I _ _ _ O) as (D & S & _). rewrite entry_size_stat, S. apply D.
Qed.

Lemma ci_cached_loaded a s : cinv a s -> forall e, In e (cached s) <-> loaded s e.
Proof.
  intros I e. split.
  - intros H. pose proof (ci_in _ _ I e H). destruct (blk_at s e) as [k|] eqn:B; [|tauto].
    exists k. split; auto. pose proof (ci_blk _ _ I e k B). destruct (cb_loaded k); auto. tauto.
  - intros (k & B & L). pose proof (ci_blk _ _ I e k B) as H. rewrite L in H. tauto.
Qed.

(** Preservation for a change of one block's flags with no change to what is loaded. *)
Lemma cinv_flags a s e k k' s' : cinv a s -> upd_to s e k' s' -> blk_at s e = Some k ->
  cb_loaded k' = cb_loaded k -> cb_data k' = cb_data k -> cinv a s'.
Proof.
  intros I U B L D. destruct I, U. constructor.
  - intros t. rewrite ut_len0. auto.
  - intros t f d O. destruct (ci_live0 t f d O) as (H1 & H2 & H3). split; [auto|split].
    + rewrite ut_stat0; auto.
    + intros i. rewrite H3, ut_blk0. destruct (entry_eqb (t, f, i) e) eqn:E; [|tauto].
      apply entry_eqb_eq in E. subst e. rewrite B. split; discriminate.
  - intros t f N i. rewrite ut_blk0. destruct (entry_eqb (t, f, i) e) eqn:E; [|auto].
    apply entry_eqb_eq in E. subst e. rewrite (ci_dead0 t f N) in B. discriminate.
  - intros e' k0. rewrite ut_blk0. unfold cached. rewrite ut_before0, ut_after0.
    destruct (entry_eqb e' e) eqn:E.
    + apply entry_eqb_eq in E. subst e'. intros [= <-]. specialize (ci_blk0 e k B).
      rewrite L, D. destruct (cb_loaded k); auto. destruct ci_blk0 as (? & d & ? & ?).
      split; auto. exists d. split; auto. eapply has_content_same; eauto.
    + intros B'. specialize (ci_blk0 e' k0 B'). destruct (cb_loaded k0); auto.
      destruct ci_blk0 as (? & d & ? & ?). split; auto. exists d. split; auto. eapply has_content_same; eauto.
  - intros e'. unfold cached. rewrite ut_before0, ut_after0, ut_blk0. intros H.
    destruct (entry_eqb e' e); [discriminate|auto].
  - unfold cached in *. rewrite ut_before0, ut_after0. auto.
  - unfold cached in *. rewrite ut_before0, ut_after0, ut_mem0, (bytes_same s); auto.
Qed.

(** Preservation when only the list is rearranged. *)
Lemma cinv_perm a s b l : cinv a s -> Permutation (cached s) (b ++ l) -> cinv a (with_list s b l (c_mem s)).
Proof.
  intros I P. destruct I.
  assert (HI : forall e, In e (b ++ l) <-> In e (cached s)).
  { intros e. split; apply Permutation_in; auto. apply Permutation_sym; auto. }
  constructor; auto.
  - intros e k B. specialize (ci_blk0 e k B). change (cached (with_list s b l (c_mem s))) with (b ++ l).
    destruct (cb_loaded k); rewrite HI; auto.
  - intros e. change (cached (with_list s b l (c_mem s))) with (b ++ l). rewrite HI. apply ci_in0.
  - change (cached (with_list s b l (c_mem s))) with (b ++ l). eapply Permutation_NoDup; eauto.
  - change (cached (with_list s b l (c_mem s))) with (b ++ l). cbn [c_mem with_list].
    change (bytes (with_list s b l (c_mem s))) with (bytes s). rewrite ci_mem0. apply bytes_perm; auto.
Qed.

Lemma cinv_max a s m lim : cinv a s -> cinv a (Cache (c_refs s) (c_before s) (c_after s) (c_mem s) m lim).
Proof. intros I. destruct I. constructor; auto. Qed.

(** Preservation when a cached block is unloaded and taken off the list. *)
Lemma cinv_unload a s e k s' b l : cinv a s -> blk_at s e = Some k -> upd_to s e (unload k) s' ->
  Permutation (cached s) (e :: b ++ l) ->
  cinv a (with_list s' b l (c_mem s - entry_size s e)).
Proof.
  intros I B U P. destruct I, U.
  assert (ND : NoDup (e :: b ++ l)) by (eapply Permutation_NoDup; eauto).
  assert (HI : forall e', In e' (cached s) <-> e' = e \/ In e' (b ++ l)).
  { intros e'. split; intros H.
    - apply (Permutation_in _ P) in H. destruct H; auto.
    - apply (Permutation_in _ (Permutation_sym P)). destruct H; simpl; auto. }
  inversion_clear ND.
  constructor.
  - intros t. cbn. rewrite ut_len0. auto.
  - intros t f d O. destruct (ci_live0 t f d O) as (H1 & H2 & H3). split; [auto|split].
    + rewrite <- H2. apply ut_stat0.
    + intros i. change (blk_at (with_list s' b l (c_mem s - entry_size s e))) with (blk_at s').
      rewrite H3, ut_blk0. destruct (entry_eqb (t, f, i) e) eqn:E; [|tauto].
      apply entry_eqb_eq in E. subst e. rewrite B. split; discriminate.
  - intros t f N i. change (blk_at (with_list s' b l (c_mem s - entry_size s e))) with (blk_at s').
    rewrite ut_blk0. destruct (entry_eqb (t, f, i) e) eqn:E; [|auto].
    apply entry_eqb_eq in E. subst e. rewrite (ci_dead0 t f N) in B. discriminate.
  - intros e' k0. change (blk_at (with_list s' b l (c_mem s - entry_size s e))) with (blk_at s').
    change (cached (with_list s' b l (c_mem s - entry_size s e))) with (b ++ l).
    rewrite ut_blk0. destruct (entry_eqb e' e) eqn:E.
    + apply entry_eqb_eq in E. subst e'. intros [= <-]. simpl. auto.
    + intros B'. specialize (ci_blk0 e' k0 B').
      assert (e' <> e) by (intros ->; rewrite entry_eqb_refl in E; discriminate).
      destruct (cb_loaded k0); rewrite HI in ci_blk0; [|tauto].
      destruct ci_blk0 as ([?|?] & d & ? & ?); [tauto|]. split; auto. exists d. split; auto.
      eapply (has_content_same s); eauto.
  - intros e'. change (blk_at (with_list s' b l (c_mem s - entry_size s e))) with (blk_at s').
    change (cached (with_list s' b l (c_mem s - entry_size s e))) with (b ++ l).
    rewrite ut_blk0. intros H1. destruct (entry_eqb e' e); [discriminate|]. apply ci_in0. apply HI. auto.
  - change (cached (with_list s' b l (c_mem s - entry_size s e))) with (b ++ l). auto.
  - change (cached (with_list s' b l (c_mem s - entry_size s e))) with (b ++ l). cbn [c_mem with_list].
    change (bytes (with_list s' b l (c_mem s - entry_size s e))) with (bytes s').
    rewrite (bytes_same s s') by auto. rewrite ci_mem0, (bytes_perm s _ _ P). simpl. lia.
Qed.

(** * One clock step, on the list rotated so that the hand comes first *)
Definition rot s : list entry := c_after s ++ c_before s.
Lemma rot_perm s : Permutation (rot s) (cached s).
Proof. apply Permutation_app_comm. Qed.

Definition usedb s e : bool := match blk_at s e with Some k => cb_used k | None => false end.

Record same_but s e s' : Prop := {
  sb_stat : forall t f, stat s' t f = stat s t f;
  sb_max : c_max s' = c_max s; sb_limit : c_limit s' = c_limit s;
  sb_pin : forall e', pinnedb s' e' = pinnedb s e';
  sb_used : forall e', e' <> e -> usedb s' e' = usedb s e';
  sb_blk : forall e', e' <> e -> blk_at s' e' = blk_at s e' }.

Lemma evict_step_cases a s e R : cinv a s -> rot s = e :: R ->
  exists s', evict_step s = Ok s' /\ cinv a s' /\ same_but s e s' /\
    if pinnedb s e then rot s' = R ++ [e] /\ c_mem s' = c_mem s /\ usedb s' e = usedb s e
    else if usedb s e then rot s' = R ++ [e] /\ c_mem s' = c_mem s /\ usedb s' e = false
    else rot s' = R /\ c_mem s' = c_mem s - entry_size s e.
Proof.
  intros I RT.
  assert (W : exists b rest, evict_step s = evict_at (with_list s b (e :: rest) (c_mem s)) e rest /\
              cached s = b ++ e :: rest /\ R = rest ++ b).
  { unfold evict_step. unfold rot in RT. unfold cached. destruct (c_after s) as [|x xs] eqn:A.
    - simpl in RT. rewrite RT. exists [], R. rewrite !app_nil_r. auto.
    - simpl in RT. injection RT as -> <-. exists (c_before s), xs. split; auto.
      destruct s; cbn in *. subst. reflexivity. }
  destruct W as (b & rest & -> & CS & ->).
  assert (In e (cached s)) by (rewrite CS; apply in_or_app; simpl; auto).
  destruct (blk_at s e) as [k|] eqn:B; [|destruct (ci_in _ _ I e); auto].
  unfold evict_at. change (blk_at (with_list s b (e :: rest) (c_mem s)) e) with (blk_at s e).
  rewrite B.
  assert (EP : pinnedb s e = (cb_refs k >? 0)) by (unfold pinnedb; rewrite B; reflexivity).
  assert (EU : usedb s e = cb_used k) by (unfold usedb; rewrite B; reflexivity).
  rewrite EP, EU.
  set (s0 := with_list s b (e :: rest) (c_mem s)).
  assert (I0 : cinv a s0). { apply cinv_perm; auto. rewrite CS. reflexivity. }
  assert (P1 : Permutation (cached s0) ((b ++ [e]) ++ rest)).
  { unfold s0, cached; cbn. rewrite <- app_assoc. reflexivity. }
  destruct (cb_refs k >? 0) eqn:PK.
  { eexists. split; [reflexivity|]. split; [|split].
    - apply cinv_perm; auto.
    - constructor; auto.
    - unfold rot; cbn. split; [rewrite app_assoc; reflexivity|split; auto].
      }
  destruct (cb_used k) eqn:UK.
  { destruct (upd_blk_ok s0 e (fun k => CBlk (cb_loaded k) false (cb_loads k) (cb_refs k) (cb_data k)) k B)
      as (s1 & E1 & U1).
    cbn [bind]. rewrite E1. cbn [bind]. eexists. split; [reflexivity|].
    assert (I1 : cinv a s1) by (eapply (cinv_flags a s0 e k); eauto).
    destruct U1. split; [|split].
    - change (c_mem s0) with (c_mem s) in *. rewrite <- ut_mem0.
      apply cinv_perm; auto. unfold cached in *. rewrite ut_before0, ut_after0. exact P1.
    - constructor; [exact ut_stat0|exact ut_max0|exact ut_limit0| | |].
      + intros e'. unfold pinnedb. change (blk_at (with_list s1 _ _ _) e') with (blk_at s1 e').
        rewrite ut_blk0. destruct (entry_eqb e' e) eqn:E; auto.
        apply entry_eqb_eq in E. subst. rewrite B. reflexivity.
      + intros e' N. unfold usedb. change (blk_at (with_list s1 _ _ _) e') with (blk_at s1 e').
        rewrite ut_blk0, entry_eqb_neq by auto. reflexivity.
      + intros e' N. change (blk_at (with_list s1 _ _ _) e') with (blk_at s1 e').
        rewrite ut_blk0, entry_eqb_neq by auto. reflexivity.
    - unfold rot; cbn. split; [rewrite app_assoc; reflexivity|split; auto].
      unfold usedb. change (blk_at (with_list s1 _ _ _) e) with (blk_at s1 e).
      rewrite ut_blk0, entry_eqb_refl. reflexivity. }
  destruct (upd_blk_ok s0 e unload k B) as (s1 & E1 & U1).
  rewrite E1. cbn [bind]. change (entry_size s0 e) with (entry_size s e).
  pose proof (ci_size_pos a s I e k B). destruct (entry_size s e >? 0) eqn:G; [|lia].
  eexists. split; [reflexivity|]. split; [|split].
  - change (c_mem s0 - entry_size s e) with (c_mem s0 - entry_size s0 e).
    eapply cinv_unload; eauto. unfold s0, cached; cbn. apply Permutation_sym, Permutation_middle.
  - destruct U1. constructor; [exact ut_stat0|exact ut_max0|exact ut_limit0| | |].
    + intros e'. unfold pinnedb. change (blk_at (with_list s1 _ _ _) e') with (blk_at s1 e').
      rewrite ut_blk0. destruct (entry_eqb e' e) eqn:E; auto.
      apply entry_eqb_eq in E. subst. rewrite B. reflexivity.
    + intros e' N. unfold usedb. change (blk_at (with_list s1 _ _ _) e') with (blk_at s1 e').
      rewrite ut_blk0, entry_eqb_neq by auto. reflexivity.
    + intros e' N. change (blk_at (with_list s1 _ _ _) e') with (blk_at s1 e').
      rewrite ut_blk0, entry_eqb_neq by auto. reflexivity.
  - unfold rot; cbn. auto.
Qed.

Lemma evict_step_nil s : rot s = [] -> evict_step s = Ok s.
Proof.
  unfold rot, evict_step. destruct (c_after s); [|discriminate]. destruct (c_before s); [auto|discriminate].
Qed.
End C.
