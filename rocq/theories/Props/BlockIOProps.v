(** C19, C20: writing and reading the blocks of a sparse field with several threads. *)
From Coq Require Import List Bool Arith Lia.
From Verif Require Import Model.BlockIOM Spec.BlockIOSpec Proof.BlockIOP Proof.BlockIOP2 Proof.BlockIOP3.
Import ListNotations.

(** * C19 *)

(** One I/O thread: at every moment the blocks in the file are the first allocated ones, in
    order; after at most 20 n + 10 steps the thread has returned and all are there. *)
Theorem C19_one_thread : forall n alloc reload k,
  let s := wrun n alloc reload (w_init n alloc) (repeat 0 k) in
  prefix (w_out s) (allocated n alloc) /\ w_pc s 0 <> WCrash /\
  (w_pc s 0 = WDone -> w_out s = allocated n alloc) /\
  (20 * n + 10 <= k -> w_pc s 0 = WDone).
Proof.
  intros n alloc reload k s.
  destruct (uinv_run n alloc reload k _ (uinv_init n alloc)) as [I D]. fold s in I, D.
  split; [now apply uinv_prefix|]. split; [unfold uinv in I; intros E; now rewrite E in I|].
  split. { intros E. unfold uinv in I. rewrite E in I. exact I. }
  intros L. destruct D as [D|D]; auto.
  - unfold umeas, w_init; cbn [w_pc w_nw]. lia.
  - exfalso. unfold umeas, w_init in D; cbn [w_pc] in D. lia.
Qed.
Print Assumptions C19_one_thread.

(** Any number of threads, when no unallocated block lies between two allocated ones: under
    every schedule the blocks in the file are the first allocated ones, in order, and all of
    them once every thread has returned. *)
Theorem C19_no_gap_order : forall n alloc reload T sched,
  no_gap n alloc -> 0 < T -> sched_of T sched ->
  let s := wrun n alloc reload (w_init n alloc) sched in
  prefix (w_out s) (allocated n alloc) /\
  ((forall t, t < T -> w_pc s t = WDone) -> w_out s = allocated n alloc).
Proof.
  intros n alloc reload T sched G T0 S s.
  destruct (no_gap_range n alloc G) as (f & l & FL & AL).
  assert (I : winv n reload T f l s) by (apply winv_run; auto; apply winv_init; auto).
  rewrite (allocated_range n alloc f l FL AL). split.
  - eapply winv_prefix; eauto.
  - intros D. eapply winv_complete; eauto.
Qed.
Print Assumptions C19_no_gap_order.

(** The same, for progress and for memory safety (the counter loaded once per turn of the
    loop): no thread ever reads outside the block array, no schedule goes on for ever, and
    none gets stuck. *)
Theorem C19_no_gap_terminates : forall n alloc T sched,
  no_gap n alloc -> sched_of T sched ->
  let s := wrun n alloc false (w_init n alloc) sched in
  (forall t, w_pc s t <> WCrash) /\ no_hang w_pc (wstep n alloc false) T WDone s.
Proof.
  intros n alloc T sched G S s.
  destruct (no_gap_range n alloc G) as (f & l & FL & AL).
  assert (I : winv n false T f l s) by (apply winv_run; auto; apply winv_init; auto).
  split; [intros t; now apply (proj1 (proj2 I))|]. split.
  - pose proof (acc_eff n alloc T f l FL AL s I) as A. clearbody s. clear S. revert I. induction A as [s _ IH]. intros I.
    constructor. intros s' (t & Ht & E & N). apply IH.
    + split; auto. exists t. auto.
    + subst s'. now apply winv_step.
  - intros H. destruct (winv_progress n alloc false T f l FL AL s I eq_refl H) as (t & Ht & N).
    exists (wstep n alloc false t s), t. auto.
Qed.
Print Assumptions C19_no_gap_terminates.

(** Blocks 2 to 5 of 8 allocated, three threads: a schedule that lets all of them finish. *)
Definition ex_alloc (i : nat) : bool := (2 <=? i) && (i <=? 5).
Example ex_no_gap : no_gap 8 ex_alloc.
Proof.
  unfold no_gap, ex_alloc. intros i j k H K A B. apply andb_prop in A as [A1 A2], B as [B1 B2].
  apply Nat.leb_le in A1, A2, B1, B2. apply andb_true_intro. split; apply Nat.leb_le; lia.
Qed.
Example ex_run_done :
  let s := wrun 8 ex_alloc true (w_init 8 ex_alloc) (concat (repeat [0; 2; 1; 1; 0] 60)) in
  map (w_pc s) [0; 1; 2] = [WDone; WDone; WDone] /\ w_out s = [2; 3; 4; 5].
Proof. split; vm_compute; reflexivity. Qed.

(** In general the order is not kept: five blocks, the third unallocated, four threads.
    Thread 0 and thread 1 both find block 2 unallocated and both advance the counter. *)
Definition gap_alloc (i : nat) : bool := negb (i =? 2).
Definition swap_sched : list nat :=
  [0; 1; 2; 3] ++ [0; 1; 2; 3] ++        (* blocks 0, 1, 3, 4 fetched and compressed *)
  [0; 0; 0; 0] ++                        (* 0 written; counter 1 *)
  [1; 1; 1; 1] ++                        (* 1 written; counter 2 *)
  [0; 1] ++                              (* both find block 2 unallocated *)
  [0; 0] ++                              (* counter 3 *)
  [2] ++                                 (* the thread with block 3 may write *)
  [1; 1] ++                              (* counter 4 *)
  [3; 3] ++                              (* block 4 written *)
  [2] ++                                 (* block 3 written *)
  concat (repeat [0; 1; 2; 3] 10).

Theorem C19_order_refuted : exists n alloc T sched,
  sched_of T sched /\
  let s := wrun n alloc false (w_init n alloc) sched in
  (forall t, t < T -> w_pc s t = WDone) /\ allocated n alloc = [0; 1; 3; 4] /\ w_out s = [0; 1; 4; 3].
Proof.
  exists 5, gap_alloc, 4, swap_sched. split.
  - unfold sched_of. apply Forall_forall. intros x H. vm_compute in H.
    repeat (destruct H as [<-|H]; [lia|]). easy.
  - split; [|split; vm_compute; reflexivity].
    intros t Ht. destruct t as [|[|[|[|t]]]]; try lia; vm_compute; reflexivity.
Qed.
Print Assumptions C19_order_refuted.

(** And a schedule after which the writer never returns, whatever happens next: the counter
    jumps over block 3 before its thread looks at it. *)
Definition hang_sched : list nat :=
  [0; 1; 2; 3] ++ [0; 1; 2; 3] ++ [0; 0; 0; 0] ++ [1; 1; 1; 1] ++ [0; 1] ++ [0; 0] ++ [1; 1] ++
  concat (repeat [0; 1; 3] 15).

Theorem C19_hang_refuted : exists n alloc T sched,
  sched_of T sched /\
  let s := wrun n alloc false (w_init n alloc) sched in
  w_out s = [0; 1; 4] /\
  forall more, sched_of T more -> wrun n alloc false s more = s /\ w_pc s 2 = WWait 3.
Proof.
  exists 5, gap_alloc, 4, hang_sched. split.
  - unfold sched_of. apply Forall_forall. intros x H. vm_compute in H.
    repeat (destruct H as [<-|H]; [lia|]). easy.
  - intros s. split; [vm_compute; reflexivity|].
    assert (P0 : w_pc s 0 = WDone) by (vm_compute; reflexivity).
    assert (P1 : w_pc s 1 = WDone) by (vm_compute; reflexivity).
    assert (P2 : w_pc s 2 = WWait 3) by (vm_compute; reflexivity).
    assert (P3 : w_pc s 3 = WDone) by (vm_compute; reflexivity).
    assert (N : (w_nw s =? 3) = false) by (vm_compute; reflexivity).
    clearbody s. intros more M. split; auto. unfold wrun.
    induction M as [|t r Ht M IH]; cbn [fold_left]; auto.
    replace (wstep 5 gap_alloc false t s) with s; auto.
    unfold wstep. destruct t as [|[|[|[|t]]]]; try lia; rewrite ?P0, ?P1, ?P2, ?P3, ?N; reflexivity.
Qed.
Print Assumptions C19_hang_refuted.

(** Even with every block allocated: if the counter is loaded again for the index, as the
    source says, a thread can read past the end of the block array. *)
Theorem C19_overread_refuted : exists n alloc T sched t,
  (forall i, i < n -> alloc i = true) /\ sched_of T sched /\ t < T /\
  w_pc (wrun n alloc true (w_init n alloc) sched) t = WCrash.
Proof.
  exists 2, (fun _ => true), 2, ([0; 1; 0; 1; 0; 0; 0; 0] ++ [0] ++ [1; 1; 1; 1] ++ [0]), 0.
  split; [auto|]. split.
  - unfold sched_of. apply Forall_forall. intros x H. cbn in H.
    repeat (destruct H as [<-|H]; [lia|]). easy.
  - split; [lia|]. vm_compute. reflexivity.
Qed.
Print Assumptions C19_overread_refuted.

(** With zero I/O threads ([setNumIOThreads(0)], not rejected) nothing is written. *)
Theorem C19_zero_threads_refuted : exists n alloc, forall sched, sched_of 0 sched ->
  w_out (wrun n alloc true (w_init n alloc) sched) = [] /\ allocated n alloc <> [].
Proof.
  exists 1, (fun _ => true). intros sched S. destruct S as [|t r H _]; [|lia]. split; [reflexivity|discriminate].
Qed.
Print Assumptions C19_zero_threads_refuted.

(** * C20 *)

(** Reading with any number of threads, under every schedule: no two threads ever work on the
    same block; no block is filled twice; a block's storage is touched only if it is allocated,
    and then holds the element of the data set whose position is the number of allocated
    blocks before it.  If the file has an element for each of them, no thread fails; no
    schedule goes on for ever; and when all threads have returned every allocated block is
    filled. *)
Theorem C20_read_blocks : forall E n alloc (elem : nat -> option E) T sched,
  0 < T -> sched_of T sched ->
  let s := rrun n alloc elem r_init sched in
  (forall t t' b, t < T -> t' < T -> t <> t' -> r_pc s t = RIn b -> r_pc s t' <> RIn b) /\
  NoDup (r_log s) /\
  (forall b, r_mem s b <> None -> b < n /\ alloc b = true /\ r_mem s b = elem (rank alloc b)) /\
  ((forall b, b < n -> alloc b = true -> elem (rank alloc b) <> None) ->
     (forall t, t < T -> r_pc s t <> RFail) /\
     no_hang r_pc (rstep n alloc elem) T RDone s /\
     ((forall t, t < T -> r_pc s t = RDone) ->
        forall b, r_mem s b = if (b <? n) && alloc b then elem (rank alloc b) else None)).
Proof.
  intros E n alloc elem T sched T0 S s.
  assert (I : rinv n alloc elem T s) by (apply rinv_run; auto; apply rinv_init).
  destruct I as (I1 & I2 & I3 & I4 & I5 & I6 & I7 & I8 & I9 & I10).
  assert (TOUCH : forall b, r_mem s b <> None -> In b (r_log s)).
  { intros b H. destruct (in_dec Nat.eq_dec b (r_log s)); auto. now rewrite I8 in H. }
  split; [|split; [auto|split]].
  - intros t t' b _ _ N H H'. apply N. apply (I2 t t' b); [rewrite H|rewrite H']; now right.
  - intros b H. apply TOUCH in H. pose proof (I5 _ H). pose proof (I7 _ H). tauto.
  - intros F.
    assert (NF : forall t, t < T -> r_pc s t <> RFail).
    { intros t _ H. destruct (I10 t H) as (b & B1 & B2 & B3). now apply (F b). }
    split; [auto|]. split; [split; [apply racc|]|].
    + intros (t & Ht & N). exists (rstep n alloc elem t s), t. split; auto. split; auto.
      eapply rstep_moves; eauto.
    + intros D b. pose proof (I9 0 (D 0 T0)) as L.
      destruct (Nat.ltb_spec b n); cbn [andb].
      * destruct (alloc b) eqn:A.
        -- destruct (I6 b) as [X|[(t & X1 & X2)|X]]; auto; [lia|now apply I7| |now elim (F b)].
           rewrite D in X2 by auto. destruct X2; easy.
        -- apply I8. intros X. apply I5 in X. destruct X as (_ & _ & X). congruence.
      * apply I8. intros X. apply I5 in X. lia.
Qed.
Print Assumptions C20_read_blocks.

Example ex_read :
  let elem k := nth_error [10; 11; 12; 13] k in
  let s := rrun 8 ex_alloc elem r_init (concat (repeat [0; 1; 1; 2] 12)) in
  map (r_pc s) [0; 1; 2] = [RDone; RDone; RDone] /\
  map (r_mem s) (seq 0 8) = [None; None; Some 10; Some 11; Some 12; Some 13; None; None] /\
  (forall b, b < 8 -> ex_alloc b = true -> elem (rank ex_alloc b) <> None).
Proof.
  split; [vm_compute; reflexivity|]. split; [vm_compute; reflexivity|].
  intros b Hb. do 8 (destruct b as [|b]; [vm_compute; discriminate|]). lia.
Qed.

(** Writing then reading: whatever the schedules, each block gets its own data back. *)
Theorem C20_write_then_read : forall E n alloc (data : nat -> E) reload T sched T' sched',
  no_gap n alloc \/ T = 1 -> 0 < T -> sched_of T sched -> 0 < T' -> sched_of T' sched' ->
  let w := wrun n alloc reload (w_init n alloc) sched in
  let elem k := nth_error (map data (w_out w)) k in
  let r := rrun n alloc elem r_init sched' in
  (forall t, t < T -> w_pc w t = WDone) ->
  (forall t, t < T' -> r_pc r t <> RFail) /\
  ((forall t, t < T' -> r_pc r t = RDone) ->
   forall b, r_mem r b = if (b <? n) && alloc b then Some (data b) else None).
Proof.
  intros E n alloc data reload T sched T' sched' G T0 Sc T0' Sc' w elem r D.
  assert (O : w_out w = allocated n alloc).
  { destruct G as [G| ->].
    - destruct (C19_no_gap_order n alloc reload T sched G T0 Sc) as [_ H]. now apply H.
    - assert (sched = repeat 0 (length sched)) as ES.
      { clear - Sc. induction Sc; cbn; auto. rewrite <- IHSc. f_equal. lia. }
      destruct (C19_one_thread n alloc reload (length sched)) as (_ & _ & H & _).
      rewrite <- ES in H. apply H. apply (D 0). lia. }
  assert (R : forall b, b < n -> alloc b = true -> elem (rank alloc b) = Some (data b)).
  { intros b Hb A. unfold elem. rewrite O. unfold allocated, rank.
    replace n with (b + (1 + (n - S b))) by lia. rewrite !seq_app, !filter_app, !map_app.
    cbn [seq filter Nat.add]. rewrite A. rewrite nth_error_app2 by (rewrite map_length; lia).
    rewrite map_length, Nat.sub_diag. reflexivity. }
  destruct (C20_read_blocks E n alloc elem T' sched' T0' Sc') as (_ & _ & _ & H).
  destruct H as (H1 & _ & H2); [intros b Hb A; rewrite R by auto; discriminate|].
  split; auto. intros D' b. fold r in H2. rewrite H2 by auto.
  destruct (Nat.ltb_spec b n); cbn [andb]; auto. destruct (alloc b) eqn:A; auto.
Qed.
Print Assumptions C20_write_then_read.
