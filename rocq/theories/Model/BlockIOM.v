(** Interleaving model of the threads that write and read the blocks of a sparse field,
    src/SparseFieldIO.cpp.

    A thread's step is one access to shared state that another thread can also touch: a
    critical section of [compressMutex]/[readMutex] is one step (nothing else uses the
    counters it protects), every read and every write of the unprotected counter
    [nextBlockToWrite] is a step.  Memory is sequentially consistent.  A schedule is any
    list of thread numbers; [step t] lets thread [t] do its next step.

    Not modelled: [compress2] failing (the thread then returns and every later block waits
    for ever; level and buffer size are valid, so only lack of memory can cause it). *)
From Coq Require Import List Bool Arith.
Import ListNotations.

Definition nupd {A} (f : nat -> A) (i : nat) (a : A) : nat -> A := fun j => if Nat.eqb j i then a else f j.

(** * Writing *)
Section Writer.
(** [numBlocks] and [blocks[i].isAllocated] (constant while writing). *)
Variable n : nat.
Variable alloc : nat -> bool.
(** Whether the compiled code loads [nextBlockToWrite] twice at lines 265 and 267, for the
    loop condition and for the index, as the source says, or only once (a compiler may keep
    it in a register). *)
Variable reload : bool.

(** src/SparseFieldIO.cpp:226-231, 278-283: step a counter over unallocated blocks. *)
Fixpoint skip (fuel k : nat) : nat :=
  match fuel with
  | O => k
  | S f => if k <? n then (if alloc k then k else skip f (S k)) else k
  end.

Inductive wpc : Type :=
| WFetch                 (* 222-232, 274-284: the critical section *)
| WComp (b : nat)        (* 235-255: compressing block b *)
| WWait (b : nat)        (* 257: testing nextBlockToWrite *)
| WAdd (b : nat)         (* 262: addData *)
| WIncR | WIncW (v : nat) (* 264, 270: nextBlockToWrite++, the read and the write *)
| WScan                  (* 265: the loop condition *)
| WIdx                   (* 267: the index, when loaded again *)
| WDone                  (* returned *)
| WCrash.                (* blocks[] read out of bounds *)

Record wstate : Type := W {
  w_nc : nat;            (* nextBlockToCompress *)
  w_nw : nat;            (* nextBlockToWrite *)
  w_out : list nat;      (* the blocks added to the data set, in order *)
  w_pc : nat -> wpc }.

(** src/SparseFieldIO.cpp:164-193, the constructor of [ThreadingState]. *)
Definition w_init : wstate := W (skip n 0) (skip n 0) [] (fun _ => WFetch).

Definition w_goto (s : wstate) (t : nat) (p : wpc) : wstate := W (w_nc s) (w_nw s) (w_out s) (nupd (w_pc s) t p).

(** src/SparseFieldIO.cpp:217-286 [WriteBlockOp::operator()], one step. *)
Definition wstep (t : nat) (s : wstate) : wstate :=
  match w_pc s t with
  | WFetch =>
      let b := w_nc s in
      W (skip n (S b)) (w_nw s) (w_out s)
        (nupd (w_pc s) t (if b <? n then (if alloc b then WComp b else WFetch) else WDone))
  | WComp b => w_goto s t (WWait b)
  | WWait b => if w_nw s =? b then w_goto s t (WAdd b) else s
  | WAdd b => W (w_nc s) (w_nw s) (w_out s ++ [b]) (nupd (w_pc s) t WIncR)
  | WIncR => w_goto s t (WIncW (w_nw s))
  | WIncW v => W (w_nc s) (S v) (w_out s) (nupd (w_pc s) t WScan)
  | WScan =>
      if w_nw s <? n then
        if reload then w_goto s t WIdx
        else w_goto s t (if alloc (w_nw s) then WFetch else WIncR)
      else w_goto s t WFetch
  | WIdx =>
      if w_nw s <? n then w_goto s t (if alloc (w_nw s) then WFetch else WIncR)
      else w_goto s t WCrash
  | WDone | WCrash => s
  end.

Definition wrun (s : wstate) (sched : list nat) : wstate := fold_left (fun s t => wstep t s) sched s.
End Writer.

(** * Reading *)
Section Reader.
Context {E : Type}.
Variable n : nat.
Variable alloc : nat -> bool.
(** The elements of the data set on disk; [None]: no such element, and the thread then
    decompresses a buffer of unknown contents and length (undefined behaviour). *)
Variable elem : nat -> option E.

(** src/SparseFieldIO.cpp:784-792 [blockIdxToDatasetIdx]: 0 for unallocated blocks. *)
Fixpoint ds_index (i k next : nat) : list nat :=
  match k with
  | O => []
  | S k' => if alloc i then next :: ds_index (S i) k' (S next) else 0 :: ds_index (S i) k' next
  end.
Definition block_to_ds : list nat := ds_index 0 n 0.

Inductive rpc : Type :=
| RFetch                 (* 134-139, 147-151: the critical section *)
| RGot (b : nat)         (* 141-142: testing isAllocated *)
| RIn (b : nat)          (* 143-144: reading into block b's storage *)
| RDone                  (* returned *)
| RFail.                 (* undefined behaviour *)

Record rstate : Type := R {
  r_next : nat;                (* nextBlockToRead *)
  r_mem : nat -> option E;     (* what was read into block b's storage; [None]: untouched *)
  r_log : list nat;            (* blocks filled, in order *)
  r_pc : nat -> rpc }.

Definition r_init : rstate := R 0 (fun _ => None) [] (fun _ => RFetch).

(** src/SparseFieldIO.cpp:131-153 [ReadBlockOp::operator()], one step. *)
Definition rstep (t : nat) (s : rstate) : rstate :=
  match r_pc s t with
  | RFetch =>
      R (S (r_next s)) (r_mem s) (r_log s)
        (nupd (r_pc s) t (if r_next s <? n then RGot (r_next s) else RDone))
  | RGot b => R (r_next s) (r_mem s) (r_log s) (nupd (r_pc s) t (if alloc b then RIn b else RFetch))
  | RIn b =>
      match elem (nth b block_to_ds 0) with
      | Some e => R (r_next s) (nupd (r_mem s) b (Some e)) (r_log s ++ [b]) (nupd (r_pc s) t RFetch)
      | None => R (r_next s) (r_mem s) (r_log s) (nupd (r_pc s) t RFail)
      end
  | RDone | RFail => s
  end.

Definition rrun (s : rstate) (sched : list nat) : rstate := fold_left (fun s t => rstep t s) sched s.
End Reader.
