(** C38: counted references.  C26: the cache of loaded fields. *)
From Coq Require Import ZArith List Bool Arith Lia String.
From Verif Require Import Model.Base Model.OgawaM Spec.OgawaSpec Model.OgM Model.FieldIOM Model.RefM Spec.RefSpec Proof.RefP
  Model.RefConcM Spec.RefConcSpec Proof.RefConcP.
Import ListNotations.
Open Scope Z_scope.

(** * One thread *)

(** Any sequence of pointer operations, copies of objects and uses of the cache: no object
    is used after its deletion, an object exists exactly as long as a variable refers to
    it, its counter is the number of those variables, and it is deleted once. *)
Theorem C38_sequential : forall V n (ops : list (@rop V)), in_scope n ops ->
  exists s evs, rrun (r_start n) ops = Ok (s, evs) /\
    NoDup (s_deleted s) /\
    forall o x, nth_error (s_objs s) o = Some x ->
      (alive s o <-> held s o) /\
      (held s o <-> ~ In o (s_deleted s)) /\
      r_cnt x = Z.of_nat (List.length (filter (fun p => match p with Some o' => Nat.eqb o' o | None => false end) (s_vars s))).
Proof.
  intros V n ops H. destruct (run_inv n ops (r_start n) (inv_start n) (repeat_length _ _) H) as (s & es & E & I & _).
  exists s, es. split; auto.
  assert (DI : forall l o, deaths o l = Z.of_nat (count_occ Nat.eq_dec l o)).
  { induction l as [|y l IH]; intros o; cbn [deaths count_occ]; auto. rewrite IH. destruct (Nat.eq_dec y o), (Nat.eqb_spec y o); try congruence; lia. }
  split.
  - apply (NoDup_count_occ Nat.eq_dec). intros o. specialize (DI (s_deleted s) o). destruct (nth_error (s_objs s) o) as [x|] eqn:N.
    + rewrite (v_dead _ _ _ I o x N) in DI. destruct (r_live x); lia.
    + apply nth_error_None in N. rewrite (v_past _ _ _ I o N) in DI. lia.
  - intros o x N. pose proof (v_live _ _ _ I o x N) as L. pose proof (v_dead _ _ _ I o x N) as D. pose proof (v_cnt _ _ _ I o x N) as C.
    rewrite app_nil_r in L, C. rewrite count_in in L. unfold held, alive. rewrite N.
    split; [|split].
    + split; [intros (y & [= <-] & LY); destruct (proj1 L LY); [auto|discriminate]|]. intros K. exists x. split; auto. apply L; auto.
    + rewrite (count_occ_not_In Nat.eq_dec). rewrite DI in D. split.
      * intros K. rewrite (proj2 L) in D by auto. lia.
      * intros K. rewrite K in D. destruct (r_live x) eqn:LX; [|discriminate]. destruct (proj1 L eq_refl); [auto|discriminate].
    + rewrite C. clear. induction (s_vars s) as [|p l IH]; cbn [count filter]; auto. rewrite IH. unfold refers.
      destruct p as [o'|]; [destruct (Nat.eqb o' o)|]; cbn [List.length]; lia.
Qed.
Print Assumptions C38_sequential.

(** Two objects, one copied; the first is deleted when its second pointer goes. *)
Example C38_example : exists s evs, rrun (r_start 3) [RNew 0 7; RCopy 1 0; RClone 2 1; RReset 0; RAssign 2 1; RCopy 1 2] = Ok (s, evs) /\
  s_deleted s = [0%nat] /\ s_vars s = [None; Some 1%nat; Some 1%nat] /\ s_objs s = [RObj 0 false 7; RObj 2 true 7].
Proof. eexists; eexists. vm_compute. repeat split. Qed.

(** * Several threads *)

(** Threads that copy, release and hand over their own pointers, in every interleaving: the
    object is never deleted while a thread holds a pointer; copying and releasing a pointer
    a thread holds never touches a deleted object; and when all calls have returned the
    object is deleted if and only if no pointer is left, and then exactly once. *)
Theorem C38_concurrent : forall refs schedule, (exists n, In n refs /\ (0 < n)%nat) -> no_lookup schedule ->
  (forall s, crun (shared refs) schedule = Fine s ->
     (x_live s = false -> ~ referenced s) /\
     (quiet s -> (x_live s = false <-> ~ referenced s) /\ (x_live s = false -> x_deleted s = 1%nat)) /\
     (forall t q a, nth_error (x_threads s) t = Some q -> (0 < q_refs q)%nat -> a <> ALookup -> cstep s t a <> Dangling)).
Proof.
  intros refs sched P NL s H. pose proof (crun_inv sched _ _ NL (shared_inv refs P) H) as I. pose proof (total_nonneg (x_threads s)).
  split; [|split].
  - intros L. rewrite referenced_total, (w_dead _ I L). lia.
  - intros Q. split.
    + split; [intros L; rewrite referenced_total, (w_dead _ I L); lia|]. rewrite referenced_total. intros K.
      destruct (x_live s) eqn:L; auto. destruct (w_leak _ I L) as [A|(q & IQ & A)]; [lia|]. exfalso. apply (quiet_not s q Q); auto.
    + intros L. rewrite (w_once _ I), L. auto.
  - intros t q a N R NA K. pose proof (cstep_inv s t a I NA) as C. rewrite K in C. destruct C as (_ & q' & N' & _ & L).
    pose proof (w_dead _ I L) as Z. pose proof (total_in _ _ (nth_error_In _ _ N)). lia.
Qed.
Print Assumptions C38_concurrent.

(** When releases do not overlap with other calls nothing goes wrong. *)
Theorem C38_concurrent_serial : forall refs schedule, (exists n, In n refs /\ (0 < n)%nat) -> no_lookup schedule ->
  serial (shared refs) schedule -> exists s, crun (shared refs) schedule = Fine s /\ (x_deleted s <= 1)%nat.
Proof.
  intros refs sched P NL S. destruct (serial_run sched _ NL (shared_inv refs P) (shared_alone refs) S) as (s & E & I).
  exists s. split; auto. rewrite (w_once _ I). destruct (x_live s); lia.
Qed.
Print Assumptions C38_concurrent_serial.
Example C38_serial_example :
  let l := [(0, ACopy); (0, AGive 1); (0, ARelease); (0, ANext); (1, ARelease); (1, ANext); (1, ANext)]%nat in
  serial (shared [1; 0]%nat) l /\ crun (shared [1; 0]%nat) l = Fine (CRef 0 false 1 [RThread 0 PIdle; RThread 0 PIdle]).
Proof. cbv zeta. split; [|reflexivity]. cbn. repeat split; try discriminate; intros _; repeat constructor. Qed.

(** Otherwise two threads that each release their last pointer can both find the counter at
    0: the second deletes what the first has deleted. *)
Theorem C38_double_delete_refuted :
  let both_saw_zero := [(0, ARelease); (1, ARelease); (0, ANext); (1, ANext)]%nat in
  exists s, crun (shared [1; 1]%nat) both_saw_zero = Fine s /\
    Forall (fun q => q_pc q = PSawZero) (x_threads s) /\
    (exists s1, cstep s 0 ANext = Fine s1 /\ x_deleted s1 = 1%nat /\ cstep s1 1 ANext = Dangling).
Proof. eexists. split; [reflexivity|]. split; [repeat constructor|]. eexists. repeat split. Qed.
Print Assumptions C38_double_delete_refuted.

(** Or one reads the counter of an object the other has deleted. *)
Theorem C38_late_read_refuted :
  crun (shared [1; 1]%nat) [(0, ARelease); (1, ARelease); (1, ANext); (1, ANext); (0, ANext)]%nat = Dangling.
Proof. reflexivity. Qed.
Print Assumptions C38_late_read_refuted.

(** * The cache *)

(** After any history, what the cache gives for a file and a layer path is the object last
    put there for that file and that path, if it still exists, and otherwise nothing. *)
Theorem C26_lookup : forall V n (ops : list (@rop V)) file path s evs,
  in_scope n ops -> ops_layer_paths ops -> layer_path path -> rrun (r_start n) ops = Ok (s, evs) ->
  forall o, cached s file path = Some o <-> last_put evs file path = Some o /\ alive s o.
Proof.
  intros V n ops file path s evs H P L R o.
  destruct (run_inv n ops (r_start n) (inv_start n) (repeat_length _ _) H) as (s' & es & E & I & _ & C).
  rewrite R in E. injection E as <- <-. pose proof (run_paths ops _ _ _ R P) as F.
  unfold cached. rewrite C. cbn [r_start s_cache cache_find]. rewrite (evs_last _ _ _ F L). fold (last_put evs file path).
  unfold alive. destruct (last_put evs file path) as [o'|]; [|split; [discriminate|intros (K & _); discriminate]].
  destruct (nth_error (s_objs s) o') as [x|] eqn:N.
  - destruct (r_live x) eqn:LX; split.
    + intros [= <-]. split; eauto.
    + intros (K & _); auto.
    + discriminate.
    + intros ([= <-] & y & NY & LY). congruence.
  - split; [discriminate|]. intros ([= <-] & y & NY & _). congruence.
Qed.
Print Assumptions C26_lookup.

(** [readLayer] with a cache: while a field read from a file and a layer is in use, reading
    that layer again gives the same object. *)
Theorem C26_read_twice : forall V n (ops : list (@rop V)) s evs h h' file path v v' s1 e1 s2 e2,
  in_scope n ops -> rrun (r_start n) ops = Ok (s, evs) -> (h < n)%nat -> (h' < n)%nat -> h <> h' ->
  rstep s (RRead h file path v) = Ok (s1, e1) -> rstep s1 (RRead h' file path v') = Ok (s2, e2) ->
  var s2 h' = var s1 h /\ var s1 h <> None /\ e2 = [].
Proof.
  intros V n ops s evs h h' file path v v' s1 e1 s2 e2 H R B B' NE S1 S2.
  destruct (run_inv n ops (r_start n) (inv_start n) (repeat_length _ _) H) as (s' & es & E & I & LV & _).
  rewrite R in E. injection E as <- <-.
  assert (K : exists o, var s1 h = Some o /\ cached s1 file path = Some o /\ inv s1 [] None /\ List.length (s_vars s1) = n).
  { destruct (step_inv n s (RRead h file path v) I LV) as (s1' & e' & E' & I1 & L1 & _ & C1); [intros x [<-|[]]; auto|].
    rewrite S1 in E'. injection E' as <- <-.
    assert (Q : exists o, var s1 h = Some o /\ cache_find (s_cache s1) (cache_key file path) = Some o).
    { cbn [rstep] in S1. destruct (cached s file path) as [o|] eqn:CA.
      - destruct (inv_assign s h (Some o) None I) as (sx & EX & IX & VX & CX & _); [rewrite LV; auto|split; auto; eapply cached_alive; eauto|].
        rewrite EX in S1. cbn [bind] in S1. injection S1 as <- <-. exists o. split.
        + unfold var. rewrite VX. rewrite nth_set; auto. rewrite LV; auto.
        + rewrite CX. unfold cached in CA. destruct (cache_find (s_cache s) (cache_key file path)) as [o'|]; [|discriminate].
          destruct (nth_error (s_objs s) o') as [y|]; [|discriminate]. destruct (r_live y); congruence.
      - pose proof (inv_create s v I) as D. destruct (create s v) as (sc, o). destruct D as (Ic & Ac & X1 & X2 & X3 & X4).
        destruct (inv_assign sc h (Some o) (Some o) Ic) as (sx & EX & IX & VX & CX & _); [rewrite X1, LV; auto|auto|].
        rewrite EX in S1. cbn [bind] in S1. injection S1 as <- <-. exists o. cbn [put s_vars s_cache var]. split.
        + unfold var. cbn. rewrite VX, X1. rewrite nth_set; auto. rewrite LV; auto.
        + cbn. rewrite FileP.beq_refl. reflexivity. }
    destruct Q as (o & VO & CO). exists o. split; auto. split; [|auto].
    unfold cached. rewrite CO. destruct (held_alive s1 None o I1 (var_held _ _ _ VO)) as (x & N & L). rewrite N, L. reflexivity. }
  destruct K as (o & VO & CA & I1 & L1). cbn [rstep] in S2. rewrite CA in S2.
  destruct (inv_assign s1 h' (Some o) None I1) as (sx & EX & IX & VX & CX & _); [rewrite L1; auto|split; auto; eapply cached_alive; eauto|].
  rewrite EX in S2. cbn [bind] in S2. injection S2 as <- <-. rewrite VO. split; [|split; [discriminate|auto]].
  unfold var. rewrite VX. rewrite nth_set; auto. rewrite L1; auto.
Qed.
Print Assumptions C26_read_twice.

(** A field used, let go, and read again. *)
Example C26_example :
  let ops := [RRead 0 (str "a.f3d") (str "P.0/density") 1; RRead 1 (str "a.f3d") (str "P.0/density") 2; RReset 0; RReset 1;
              RRead 0 (str "a.f3d") (str "P.0/density") 3] in
  ops_layer_paths ops /\ exists s, rrun (r_start 2) ops = Ok (s, [EvPut (str "a.f3d") (str "P.0/density") 0; EvPut (str "a.f3d") (str "P.0/density") 1]) /\
  s_deleted s = [0%nat] /\ s_vars s = [Some 1%nat; None].
Proof.
  split.
  - assert (L : layer_path (str "P.0/density")).
    { exists (str "P.0"), (str "density"). split; [reflexivity|]. split; vm_compute; intuition discriminate. }
    intros c [<-|[<-|[<-|[<-|[<-|[]]]]]]; auto.
  - eexists. split; [vm_compute; reflexivity|]. split; reflexivity.
Qed.

(** Paths with more or fewer '/' than [readLayer] uses are confused. *)
Theorem C26_keys_refuted : exists (ops : list (@rop Z)) s evs,
  rrun (r_start 2) ops = Ok (s, evs) /\ evs = [EvPut (str "a") (str "b/c") 0] /\
  last_put evs (str "a/b") (str "c") = None /\ cached s (str "a/b") (str "c") = Some 0%nat.
Proof. exists [RNew 0 5; RPut 0 (str "a") (str "b/c")]. eexists; eexists. split; [vm_compute; reflexivity|]. repeat split. Qed.
Print Assumptions C26_keys_refuted.

(** A file written again while a field read from it is in use: reading gives the old
    contents. *)
Theorem C26_stale_refuted : exists (s : @rst Z) evs,
  rrun (r_start 2) [RRead 0 (str "a.f3d") (str "P.0/density") 1; RRead 1 (str "a.f3d") (str "P.0/density") 2] = Ok (s, evs) /\
  exists o x, var s 1 = Some o /\ nth_error (s_objs s) o = Some x /\ r_val x = 1.
Proof. eexists; eexists. split; [vm_compute; reflexivity|]. eexists; eexists. split; [reflexivity|]. split; reflexivity. Qed.
Print Assumptions C26_stale_refuted.

(** With two threads the cache can hand out a pointer to an object another thread is
    deleting: a pointer is held, the object is deleted, and releasing the pointer uses it. *)
Theorem C26_lookup_race_refuted : exists s,
  crun (shared [1; 0]%nat) [(1, ALookup); (0, ARelease); (0, ANext); (1, ANext); (0, ANext)]%nat = Fine s /\
  x_live s = false /\ referenced s /\ cstep s 1 ARelease = Dangling.
Proof. eexists. split; [reflexivity|]. split; [reflexivity|]. split; [|reflexivity]. exists (RThread 1 PIdle). cbn. auto. Qed.
Print Assumptions C26_lookup_race_refuted.
