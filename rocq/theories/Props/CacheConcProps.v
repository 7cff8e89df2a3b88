(** C15 (and the concurrent part of C13): the block cache under every interleaving. *)
From Coq Require Import ZArith List Bool Lia Arith.
From Verif Require Import Model.Base Model.CacheConcM Proof.CacheConcP Proof.CacheConcP2.
Import ListNotations.
Open Scope Z_scope.

(** Thread [t] has activated block [b], holds a reference to it and is between two reads. *)
Definition accessing {D} (s : gstate D) (t b : nat) : Prop :=
  g_pc s t = PRead b \/ exists r, g_pc s t = PGot b r.

(** The summed sizes of a list of blocks. *)
Definition total (size : nat -> Z) (l : list nat) : Z := fold_right (fun b z => size b + z) 0 l.

Lemma total_sizes size l : total size l = sizes size l.
Proof. induction l; simpl; auto. rewrite IHl. auto. Qed.

(** Every value a reader obtains is the file's, whatever the interleaving. *)
Theorem C15_reader_sees_file_data :
  forall (D : Type) mtx (file : nat -> D) fill size limit max_mem n s t b r,
  greach mtx file fill size limit max_mem n false s ->
  g_pc s t = PGot b r -> r = Some (file b).
Proof.
  intros D mtx file fill size limit max_mem n s t b r R E.
  apply greach_J in R. eapply (j_got _ _ _ _ R); eauto.
Qed.

(** While a thread is accessing a block, the block is loaded, holds the file's data, and
    has a positive reference count; so no eviction frees it. *)
Theorem C15_pinned_block_stays_loaded :
  forall (D : Type) mtx (file : nat -> D) fill size limit max_mem n s t b,
  greach mtx file fill size limit max_mem n false s -> (t < n)%nat ->
  accessing s t b -> g_loaded s b = true /\ g_data s b = Some (file b) /\ 0 < g_refs s b.
Proof.
  intros D mtx file fill size limit max_mem n s t b R Lt A.
  apply greach_J in R.
  assert (P : 1 <= g_refs s b).
  { apply (pinned_pos _ _ _ s t b R Lt). destruct A as [->|(r & ->)]; auto. }
  assert (L : g_loaded s b = true).
  { apply (j_conf _ _ _ _ R t). destruct A as [->|(r & ->)]; auto. }
  split; auto. split; [|lia].
  destruct (j_data _ _ _ _ R b L) as [H|(u & b' & H)]; auto.
  pose proof (j_ev _ _ _ _ R u b) as Q. rewrite H in Q. specialize (Q eq_refl). lia.
Qed.

(** When no thread is using the cache every reference count is back to zero. *)
Theorem C15_counts_return_to_zero :
  forall (D : Type) mtx (file : nat -> D) fill size limit max_mem n s,
  greach mtx file fill size limit max_mem n false s ->
  (forall t, (t < n)%nat -> g_pc s t = PIdle) -> forall b, g_refs s b = 0.
Proof.
  intros D mtx file fill size limit max_mem n s R H b.
  apply greach_J in R. rewrite (j_refs _ _ _ _ R).
  rewrite (sumn_ext n _ (fun _ => 0)); [clear; induction n; simpl; lia|].
  intros i Hi. rewrite H by auto. auto.
Qed.

(** No deadlock, even with threads flushing the cache: if some thread is inside a cache
    operation, some such thread can take a step. *)
Theorem C15_no_deadlock :
  forall (D : Type) mtx (file : nat -> D) fill size limit max_mem n flushing s,
  greach mtx file fill size limit max_mem n flushing s ->
  (exists t, (t < n)%nat /\ g_pc s t <> PIdle) ->
  exists t s', (t < n)%nat /\ g_pc s t <> PIdle /\
    exec mtx file fill size limit max_mem t ChDone s = Some s'.
Proof. intros. eapply no_deadlock; eauto. eapply greach_L; eauto. Qed.

(** C13 under concurrency: whenever the list lock is free, the reported memory use is the
    sum of the sizes of the loaded blocks, each listed once. *)
Theorem C13_concurrent_accounting :
  forall (D : Type) mtx (file : nat -> D) fill size limit max_mem n s,
  greach mtx file fill size limit max_mem n false s -> g_lockA s = None ->
  exists l, NoDup l /\ (forall b, In b l <-> g_loaded s b = true) /\ g_mem s = total size l.
Proof.
  intros D mtx file fill size limit max_mem n s R A.
  pose proof (greach_K _ _ _ _ _ _ _ _ R) as K. apply greach_J in R.
  exists (g_before s ++ g_after s). split; [apply (k_nodup _ _ K)|]. split.
  - intros b. rewrite (k_in _ _ K). split; auto. intros [H|(t & E)]; auto.
    assert (g_lockA s = Some t) by (apply (j_A _ _ _ _ R); rewrite E; auto). congruence.
  - rewrite total_sizes. apply (k_mem _ _ K).
Qed.

(** With [n] threads the limit is exceeded by at most [n-1] blocks. *)
Theorem C13_concurrent_overshoot_bounded :
  forall (D : Type) mtx (file : nat -> D) fill size max_mem n biggest s,
  (0 < n)%nat -> (forall b, 0 <= size b <= biggest) -> biggest <= max_mem ->
  greach mtx file fill size true max_mem n false s ->
  g_mem s <= max_mem + (Z.of_nat n - 1) * biggest.
Proof. intros. eapply greach_O; eauto. Qed.

(** * Schedules *)
Lemma run_sched_reach {D} mtx (file : nat -> D) fill size limit max_mem n fl l : forall s s',
  greach mtx file fill size limit max_mem n fl s ->
  (forall t c, In (t, c) l -> (t < n)%nat /\ may fl c) ->
  run_sched mtx file fill size limit max_mem l s = Some s' ->
  greach mtx file fill size limit max_mem n fl s'.
Proof.
  induction l as [|(t, c) l IH]; intros s s' R H E; simpl in E; [injection E as <-; auto|].
  destruct (exec mtx file fill size limit max_mem t c s) as [s1|] eqn:X; [|discriminate].
  apply (IH s1 s'); auto; [|intros; apply H; right; auto].
  destruct (H t c) as [H1 H2]; [left; auto|]. eapply GNext; eauto. econstructor; eauto.
Qed.

(** [k] steps of thread [t]. *)
Definition steps (t k : nat) (c : choice) : list (nat * choice) := repeat (t, c) k.

(** Parameters of the examples: 4 blocks of 10 bytes, block [b] holds [100 + b]. *)
Definition xfile (b : nat) : nat := (100 + b)%nat.
Definition xsize (_ : nat) : Z := 10.
Notation xrun := (run_sched (fun b => b) xfile 0%nat xsize true).
Notation xreach := (greach (fun b => b) xfile 0%nat xsize true).

Definition view (o : option (gstate nat)) : option (list (pc nat) * Z * list nat * list Z) :=
  match o with
  | Some s => Some (map (g_pc s) [0%nat; 1%nat], g_mem s, g_before s ++ g_after s, map (g_refs s) [0%nat; 1%nat])
  | None => None
  end.

(** The claim without the "no flush" hypothesis is false: a reader that has activated its
    block finds no data in it because another thread flushed the cache. *)
Definition flush_sched : list (nat * choice) :=
  steps 0 14 (ChRead 0) ++ steps 1 5 ChFlush ++ steps 0 1 (ChRead 0).
Theorem C15_flush_breaks_readers_refuted :
  exists s t b, xreach 100 2%nat true s /\ (t < 2)%nat /\ g_pc s t = PGot b None.
Proof.
  destruct (xrun 100 flush_sched g_init) as [s|] eqn:E; [|vm_compute in E; discriminate].
  exists s, 0%nat, 0%nat. split; [|split; [lia|]].
  - eapply run_sched_reach; [apply GInit| |exact E].
    intros t c H. assert ((t < 2)%nat) by (revert H; cbn; intuition (try congruence; try lia);
      repeat match goal with H : (_, _) = (_, _) |- _ => inversion H; subst; clear H end; lia).
    split; auto. destruct c; cbn; auto.
  - assert (V : view (xrun 100 flush_sched g_init) = Some ([PGot 0 None; PIdle], 0, [], [1; 0])) by (vm_compute; reflexivity).
    rewrite E in V. cbn in V. injection V. auto.
Qed.

(** The limit itself is not respected by concurrent readers: with a limit of 15 bytes, two
    threads loading two different 10-byte blocks bring the memory use to 20. *)
Definition over_sched : list (nat * choice) :=
  steps 0 6 (ChRead 0) ++ steps 1 6 (ChRead 1) ++ steps 0 8 (ChRead 0) ++ steps 1 8 (ChRead 1).
Theorem C13_concurrent_limit_refuted :
  exists s, xreach 15 2%nat false s /\ g_mem s > 15.
Proof.
  destruct (xrun 15 over_sched g_init) as [s|] eqn:E; [|vm_compute in E; discriminate].
  exists s. split.
  - eapply run_sched_reach; [apply GInit| |exact E].
    intros t c H. split; [|destruct c; cbn; auto].
    + revert H; cbn; intuition (try congruence; try lia);
      repeat match goal with H : (_, _) = (_, _) |- _ => inversion H; subst; clear H end; lia.
    + exfalso. revert H. cbn. intuition congruence.
  - assert (V : view (xrun 15 over_sched g_init) = Some ([PRead 0; PRead 1], 20, [0%nat; 1%nat], [1; 1])) by (vm_compute; reflexivity).
    rewrite E in V. cbn in V. injection V. intros. lia.
Qed.

(** A reachable state in which one thread is reading block 0 while another has evicted
    block 2 to load block 1 under a 20-byte limit. *)
Definition ex_sched : list (nat * choice) :=
  steps 1 14 (ChRead 2) ++ steps 1 3 ChDone ++ steps 0 15 (ChRead 0) ++ steps 1 41 (ChRead 1).
Example C15_example :
  view (xrun 20 ex_sched g_init)
  = Some ([PGot 0 (Some 100%nat); PGot 1 (Some 101%nat)], 20, [1%nat; 0%nat], [1; 1]).
Proof. vm_compute. reflexivity. Qed.
Example C15_example_reachable : exists s, xreach 20 2%nat false s /\ accessing s 0 0 /\ accessing s 1 1 /\
  g_loaded s 2 = false /\ g_lockA s = None.
Proof.
  destruct (xrun 20 ex_sched g_init) as [s|] eqn:E; [|vm_compute in E; discriminate].
  exists s. split.
  - eapply run_sched_reach; [apply GInit| |exact E].
    intros t c H. split; [|destruct c; cbn; auto].
    + revert H; cbn; intuition (try congruence; try lia);
      repeat match goal with H : (_, _) = (_, _) |- _ => inversion H; subst; clear H end; lia.
    + exfalso. revert H. cbn. intuition congruence.
  - pose proof C15_example as V. rewrite E in V. cbn in V. injection V. intros.
    assert (W : match xrun 20 ex_sched g_init with Some s => g_loaded s 2 = false /\ g_lockA s = None | None => False end)
      by (vm_compute; auto).
    rewrite E in W. unfold accessing. intuition eauto.
Qed.

Print Assumptions C15_reader_sees_file_data.
Print Assumptions C15_pinned_block_stays_loaded.
Print Assumptions C15_counts_return_to_zero.
Print Assumptions C15_no_deadlock.
Print Assumptions C13_concurrent_accounting.
Print Assumptions C13_concurrent_overshoot_bounded.
Print Assumptions C15_flush_breaks_readers_refuted.
Print Assumptions C13_concurrent_limit_refuted.
