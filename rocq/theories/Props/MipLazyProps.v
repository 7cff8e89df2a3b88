(** C37: lazy loading of MIP levels. *)
From Coq Require Import Arith List Bool Lia.
From Verif Require Import Model.Base Model.MipLazyM Spec.MipLazySpec Proof.BaseP Proof.MipP Proof.MipLazyP.
Import ListNotations.

Lemma reached_inv n reqs st : valid_requests n reqs -> reached n reqs st -> linv n (requested reqs) reqs st.
Proof.
  intros V (sched & R). assert (Rq : forall r l, In r reqs -> In l r -> l < n /\ requested reqs l) by (intros r l A B; split; [eapply V; eauto|exists r; auto]).
  destruct (linv_run n (requested reqs) reqs Rq sched _ (linv_init n (requested reqs) reqs)) as (st' & E & I). congruence.
Qed.
Lemma req_ok n reqs : valid_requests n reqs -> forall r l, In r reqs -> In l r -> l < n /\ requested reqs l.
Proof. intros V r l A B. split; [eapply V; eauto|exists r; auto]. Qed.

(** No schedule makes the loading code touch a null pointer or an element that is not there. *)
Theorem C37_no_ub n reqs sched : valid_requests n reqs ->
  exists st, lrun sched (setup_lazy n, callers reqs) = Ok st.
Proof.
  intros V. destruct (linv_run n _ reqs (req_ok n reqs V) sched _ (linv_init n (requested reqs) reqs)) as (st' & E & I). eauto.
Qed.

(** A general form, for any invariant state. *)
Lemma loaded_le n asked reqs st l : linv n asked reqs st -> times_loaded st l <= 1.
Proof.
  intros I. unfold times_loaded. destruct (in_dec Nat.eq_dec l (mf_log (fst st))) as [Y|N].
  2: { apply (count_occ_not_In Nat.eq_dec) in N. lia. }
  destruct (li_log _ _ _ _ I l Y) as [_ Ll].
  assert (Pl : plain (fst st) l -> cnt (fst st) l <= 1) by (intros [(_ & _ & _ & C)|(id & (_ & _ & _ & C) & _)]; lia).
  assert (Bu : forall id r a sy m, built (fst st) l id r a sy m -> cnt (fst st) l <= 1) by (intros id r a sy m ((_ & _ & _ & C) & _); lia).
  change (cnt (fst st) l <= 1).
  destruct (li_own _ _ _ _ I) as [(_ & _ & P)|(i & pc & l0 & _ & _ & _ & _ & S & P)]; [auto|].
  destruct (Nat.eq_dec l l0) as [->|N]; [|auto].
  destruct pc; cbn [stage] in S; try contradiction; auto; try (destruct S as (id & S); eapply Bu; exact S). apply Pl. left. auto.
Qed.
(** Each level is read from disk at most once. *)
Theorem C37_loaded_once n reqs st l : valid_requests n reqs -> reached n reqs st -> times_loaded st l <= 1.
Proof. intros V R. eapply loaded_le. eapply reached_inv; eauto. Qed.

(** A level that nobody asked for is not read. *)
Theorem C37_only_requested n reqs st l : valid_requests n reqs -> reached n reqs st ->
  0 < times_loaded st l -> requested reqs l.
Proof.
  intros V R C. apply (count_occ_In Nat.eq_dec) in C. apply (li_log _ _ _ _ (reached_inv _ _ _ V R) l C).
Qed.

Lemma told_shown n asked reqs st l id o : linv n asked reqs st -> told st l (Got id o) -> shown (fst st) l id /\ lo_level o = l.
Proof.
  intros I (t & T & X). apply In_nth_error in T as (i & T). destruct (li_thr _ _ _ _ I i t T) as (_ & A). apply (A _ X).
Qed.
(** Everybody who asks for a level is given that level, which has been read, and all are
    given the same object. *)
Theorem C37_same_for_all n reqs st l id o id' o' : valid_requests n reqs -> reached n reqs st ->
  told st l (Got id o) -> told st l (Got id' o') -> lo_level o = l /\ times_loaded st l = 1 /\ id' = id.
Proof.
  intros V R A B. pose proof (reached_inv _ _ _ V R) as I.
  destruct (told_shown _ _ _ _ _ _ _ I A) as ((F & Rw & ob & Ho & Lo) & O). destruct (told_shown _ _ _ _ _ _ _ I B) as ((F' & _) & _).
  split; auto. split; [|congruence].
  assert (Ll : l < n). { destruct (li_len _ _ _ _ I) as (<- & _). apply nth_error_Some. congruence. }
  assert (Pl : plain (fst st) l -> cnt (fst st) l = 1) by (intros [(X & _)|(i & (_ & _ & _ & C) & _)]; [congruence|auto]).
  assert (Bu : forall id r a sy m, built (fst st) l id r a sy m -> cnt (fst st) l = 1) by (intros i r a sy m ((_ & _ & _ & C) & _); auto).
  change (cnt (fst st) l = 1).
  destruct (li_own _ _ _ _ I) as [(_ & _ & P)|(i & pc & l0 & _ & _ & _ & _ & S & P)]; [auto|].
  destruct (Nat.eq_dec l l0) as [->|N]; [|auto].
  destruct pc; cbn [stage] in S; try contradiction; auto; try (destruct S as (k & S); eapply Bu; exact S). apply Pl. left. auto.
Qed.

(** No two threads read from disk at the same time. *)
Theorem C37_one_reader n reqs st i j l l' : valid_requests n reqs -> reached n reqs st ->
  reading st i l -> reading st j l' -> i = j.
Proof.
  intros V R (r & d & Ei) (r' & d' & Ej). pose proof (reached_inv _ _ _ V R) as I.
  destruct (li_own _ _ _ _ I) as [(_ & Q & _)|(k & pc & l0 & _ & _ & _ & Q & _)]; [destruct (Q _ _ Ei)|].
  destruct (Nat.eq_dec i k) as [->|Ni]; [|destruct (Q i _ Ni Ei)]. destruct (Nat.eq_dec j k) as [->|Nj]; [auto|destruct (Q j _ Nj Ej)].
Qed.

(** Once nobody is loading, every level that has been read is ready for use, with its
    metadata and mapping, and that is what the callers hold. *)
Theorem C37_usable_at_rest n reqs st l : valid_requests n reqs -> reached n reqs st -> at_rest st ->
  times_loaded st l = 1 -> exists id, usable (fst st) l id /\ forall id' o, told st l (Got id' o) -> id' = id.
Proof.
  intros V R Re C. pose proof (reached_inv _ _ _ V R) as I.
  assert (Y : In l (mf_log (fst st))) by (apply (count_occ_In Nat.eq_dec); unfold times_loaded in C; lia).
  destruct (li_log _ _ _ _ I l Y) as [_ Ll].
  destruct (li_own _ _ _ _ I) as [(_ & _ & P)|(k & pc & l0 & Lk & _)]; [|unfold at_rest in Re; congruence].
  destruct (P l Ll) as [(_ & _ & _ & C0)|(id & (F & Rw & _) & H)]; [unfold cnt, times_loaded in *; lia|].
  exists id. split; [split; auto|]. intros id' o T. destruct (told_shown _ _ _ _ _ _ _ I T) as ((F' & _) & _). congruence.
Qed.

(** The answers come in the order of the requests; wherever the threads are, everybody can
    still get an answer; and nobody gets an exception unless a load fails. *)
Theorem C37_no_deadlock n reqs st : valid_requests n reqs -> reached n reqs st ->
  exists sched st', forallb snd sched = true /\ lrun sched st = Ok st' /\ all_answered reqs st'.
Proof.
  intros V R. pose proof (reached_inv _ _ _ V R) as I.
  destruct (finishes n _ reqs (req_ok n reqs V) st I) as (sched & st' & F & E & I' & Fin). exists sched, st'. split; auto. split; auto.
  assert (Le : length (snd st') = length reqs).
  { assert (K : forall sc a b, lrun sc a = Ok b -> length (snd b) = length (snd a)).
    { induction sc as [|[i ok] sc IH]; intros [s ts] b Eb; cbn [lrun] in Eb; [injection Eb as <-; auto|].
      unfold lstep in Eb. cbn [fst snd] in Eb. destruct (nth_error ts i) as [[pc [|l rest] done]|]; cbn [bind] in Eb; try (apply (IH _ _ Eb)).
      destruct (lazy_step ok s pc l rest done) as [[s1 t1]| |]; cbn [bind] in Eb; try discriminate. rewrite (IH _ _ Eb). cbn [snd]. apply list_set_length. }
    rewrite (K _ _ _ E). destruct R as (sc & Rs). rewrite (K _ _ _ Rs). cbn [snd]. unfold callers. apply map_length. }
  intros i r Er. destruct (nth_error (snd st') i) as [t|] eqn:Et.
  2: { apply nth_error_None in Et. assert (i < length reqs) by (apply nth_error_Some; congruence). lia. }
  exists t. split; auto. pose proof (Fin i t Et) as Td. split; auto. destruct (li_thr _ _ _ _ I' i t Et) as (X & _).
  rewrite Td, app_nil_r in X. congruence.
Qed.
Theorem C37_throws_only_on_failure n reqs sched st l : forallb snd sched = true ->
  lrun sched (setup_lazy n, callers reqs) = Ok st -> ~ told st l Threw.
Proof.
  intros F R (t & T & X). eapply (run_no_throw sched); eauto. intros t0 k T0. cbn [snd] in T0. unfold callers in T0. apply in_map_iff in T0 as (r & <- & _).
  cbn. auto.
Qed.

(** A load that failed can be repeated: after any history, new callers whose loads succeed
    can all be answered, never get an exception, and still nothing is read twice. *)
Lemma restart n asked reqs s ts reqs2 : linv n asked reqs (s, ts) -> mf_lock s = false -> linv n asked reqs2 (s, callers reqs2).
Proof.
  intros I Lk. constructor; cbn [fst snd]; try apply I.
  - intros i t E. unfold callers in E. rewrite nth_error_map in E. destruct (nth_error reqs2 i) as [r|] eqn:Er; [|discriminate].
    injection E as <-. split; auto. intros x [].
  - left. destruct (li_own _ _ _ _ I) as [(_ & _ & P)|(k & pc & l0 & L & _)]; cbn [fst snd] in *; [|congruence]. split; auto. split; auto.
    intros i t E. unfold callers in E. rewrite nth_error_map in E. destruct (nth_error reqs2 i); [|discriminate]. injection E as <-. exact Logic.I.
Qed.
Lemma linv_weaken n (a a' : nat -> Prop) reqs st : (forall l, a l -> a' l) -> linv n a reqs st -> linv n a' reqs st.
Proof. intros W [A B C D]. constructor; auto. intros l L. destruct (C l L). auto. Qed.
Theorem C37_retry n reqs st reqs2 : valid_requests n reqs -> valid_requests n reqs2 -> reached n reqs st -> at_rest st ->
  (exists sched st', forallb snd sched = true /\ lrun sched (fst st, callers reqs2) = Ok st' /\
     forall t, In t (snd st') -> lt_todo t = []) /\
  forall sched st', forallb snd sched = true -> lrun sched (fst st, callers reqs2) = Ok st' ->
    forall l, times_loaded st' l <= 1 /\ ~ told st' l Threw.
Proof.
  intros V V2 R Re. pose proof (reached_inv _ _ _ V R) as I. destruct st as [s ts]. unfold at_rest in Re. cbn [fst] in *.
  set (asked := fun l => requested reqs l \/ requested reqs2 l).
  assert (I2 : linv n asked reqs2 (s, callers reqs2)).
  { apply restart with reqs ts; auto. eapply linv_weaken; [|exact I]. unfold asked. auto. }
  assert (Rq : forall r l, In r reqs2 -> In l r -> l < n /\ asked l) by (intros r l A B; split; [eapply V2; eauto|right; exists r; auto]).
  split.
  - destruct (finishes n asked reqs2 Rq _ I2) as (sched & st' & F & E & I' & Fin). exists sched, st'. split; auto. split; auto.
    intros t T. apply In_nth_error in T as (i & T). eauto.
  - intros sched st' F E l. destruct (linv_run n asked reqs2 Rq sched _ I2) as (st1 & E1 & I1). assert (st1 = st') as -> by congruence.
    split; [eapply loaded_le; eauto|]. intros (t & T & X). eapply (run_no_throw sched); eauto. intros t0 k T0. cbn [snd] in T0.
    unfold callers in T0. apply in_map_iff in T0 as (r & <- & _). cbn. auto.
Qed.

(** A copy of the field, made while nothing is being loaded: the levels that were loaded are
    there in the copy, complete, and will not be read again. *)
Theorem C37_clone n reqs st reqs2 : valid_requests n reqs -> valid_requests n reqs2 -> reached n reqs st -> at_rest st ->
  exists c, clone_mip (fst st) = Ok c /\
    (forall l, l < n -> times_loaded st l = 1 -> exists id, usable c l id) /\
    forall sched, exists st', lrun sched (c, callers reqs2) = Ok st' /\ forall l, times_loaded st' l <= 1.
Proof.
  intros V V2 R Re. pose proof (reached_inv _ _ _ V R) as I. destruct st as [s ts]. unfold at_rest in Re. cbn [fst] in *.
  set (asked := fun l => requested reqs l \/ requested reqs2 l).
  assert (I0 : linv n asked reqs (s, ts)) by (eapply linv_weaken; [|exact I]; unfold asked; auto).
  destruct (clone_inv n asked reqs s ts reqs2 I0 Re) as (c & Ec & Ic & Q). exists c. split; auto.
  assert (Rq : forall r l, In r reqs2 -> In l r -> l < n /\ asked l) by (intros r l A B; split; [eapply V2; eauto|right; exists r; auto]).
  split.
  - intros l Ll C. destruct (Q l Ll) as [((_ & _ & _ & C0) & _)|(_ & id & (F & Rw & _) & H)]; [unfold times_loaded, cnt in *; cbn [fst] in *; lia|].
    exists id. split; auto.
  - intros sched. destruct (linv_run n asked reqs2 Rq sched _ Ic) as (st1 & E1 & I1). exists st1. split; auto. intros l. eapply loaded_le; eauto.
Qed.

(** The level is published before its mapping and metadata are set: a second thread can be
    given a level that has neither. *)
Definition two_callers : list (list nat) := [[0]; [0]].
Definition early_schedule : list (nat * bool) :=
  map (fun i => (i, true)) [0; 0; 0; 0; 0; 0; 0; 1; 1]%nat.
Theorem C37_ready_when_returned_refuted :
  ~ (forall n reqs st l id o, valid_requests n reqs -> reached n reqs st -> told st l (Got id o) ->
       lo_synced o = true /\ lo_mapped o = true).
Proof.
  intros H. destruct (lrun early_schedule (setup_lazy 1, callers two_callers)) as [st| |] eqn:E.
  2-3: vm_compute in E; discriminate.
  assert (T : told st 0 (Got 0 (LObj 0 false false))).
  { vm_compute in E. injection E as <-. eexists. split; [right; left; reflexivity|]. left. reflexivity. }
  destruct (H 1 two_callers st 0 0 (LObj 0 false false)) as [A _]; [|exists early_schedule; exact E|exact T|discriminate].
  intros r l [<-|[<-|[]]] [<-|[]]; lia.
Qed.

(** The comment on the mutex says that a field and its clone share it, so that one thread
    reads from the file at a time.  They do not: both can be reading the same level of the
    same file. *)
Theorem C37_clone_shares_mutex_refuted :
  ~ (forall n reqs st c reqs2 sched st1 sched2 st2 i j l l', valid_requests n reqs -> valid_requests n reqs2 ->
       reached n reqs st -> at_rest st -> clone_mip (fst st) = Ok c ->
       lrun sched st = Ok st1 -> lrun sched2 (c, callers reqs2) = Ok st2 ->
       ~ (reading st1 i l /\ reading st2 j l')).
Proof.
  intros H. set (sc := map (fun i => (i, true)) [0; 0; 0; 0]%nat).
  destruct (lrun sc (setup_lazy 1, callers [[0]])) as [st1| |] eqn:E.
  2-3: vm_compute in E; discriminate.
  assert (V : valid_requests 1 [[0]]) by (intros r l [<-|[]] [<-|[]]; lia).
  assert (Rd : reading st1 0 0).
  { vm_compute in E. injection E as <-. exists [], []. reflexivity. }
  apply (H 1 [[0]] (setup_lazy 1, callers [[0]]) (setup_lazy 1) [[0]] sc st1 sc st1 0 0 0 0); auto.
  - exists []. reflexivity.
  - reflexivity.
Qed.

(** Two levels, three threads; thread 1 asks for both, and its first load fails. *)
Definition three_callers : list (list nat) := [[0; 1]; [0; 1; 0]; [1]].
Example C37_valid : valid_requests 2 three_callers.
Proof. intros r l [<-|[<-|[<-|[]]]] H; cbn in H; lia. Qed.
Example C37_runs : exists st, lrun (map (fun i => (1, false)) (seq 0 5) ++ flat_map (fun _ => map (fun i => (i, true)) [0; 1; 2]) (seq 0 60)) (setup_lazy 2, callers three_callers) = Ok st /\
  all_answered three_callers st /\ told st 0 Threw /\ (exists id o, told st 1 (Got id o)) /\ times_loaded st 0 = 1 /\ times_loaded st 1 = 1 /\ at_rest st.
Proof.
  eexists. split; [vm_compute; reflexivity|]. repeat split.
  - intros [|[|[|i]]] r E; cbn in E; try (injection E as <-; eexists; split; [reflexivity|]; auto).
    destruct i; discriminate.
  - eexists. split; [right; left; reflexivity|]. left. reflexivity.
  - eexists. eexists. eexists. split; [left; reflexivity|]. right. left. reflexivity.
Qed.

Print Assumptions C37_no_ub.
Print Assumptions C37_loaded_once.
Print Assumptions C37_only_requested.
Print Assumptions C37_same_for_all.
Print Assumptions C37_one_reader.
Print Assumptions C37_usable_at_rest.
Print Assumptions C37_no_deadlock.
Print Assumptions C37_throws_only_on_failure.
Print Assumptions C37_retry.
Print Assumptions C37_clone.
Print Assumptions C37_ready_when_returned_refuted.
Print Assumptions C37_clone_shares_mutex_refuted.
