(** What threaded block writing and reading must do. *)
From Coq Require Import List Bool Arith.
From Verif Require Import Model.BlockIOM.
Import ListNotations.

(** The allocated blocks, in increasing order. *)
Definition allocated (n : nat) (alloc : nat -> bool) : list nat := filter alloc (seq 0 n).

(** How many allocated blocks come before block [b]: the position of its data on disk. *)
Definition rank (alloc : nat -> bool) (b : nat) : nat := length (filter alloc (seq 0 b)).

(** Once a block is unallocated after an allocated one, no later block is allocated. *)
Definition no_gap (n : nat) (alloc : nat -> bool) : Prop :=
  forall i j k, i < j < k -> k < n -> alloc i = true -> alloc k = true -> alloc j = true.

Definition prefix {A} (l m : list A) : Prop := exists r, m = l ++ r.

(** Schedules of [T] threads. *)
Definition sched_of (T : nat) (l : list nat) : Prop := Forall (fun t => t < T) l.

(** A step of some thread that is not a turn of a waiting loop: the thread's program point
    changes. *)
Definition moves {S P : Type} (pc : S -> nat -> P) (step : nat -> S -> S) (T : nat) (s' s : S) : Prop :=
  exists t, t < T /\ s' = step t s /\ pc s' t <> pc s t.

(** Every schedule that keeps letting threads move comes to an end, and until all threads
    are finished some thread can move. *)
Definition no_hang {S P : Type} (pc : S -> nat -> P) (step : nat -> S -> S) (T : nat) (fin : P) (s : S) : Prop :=
  Acc (moves pc step T) s /\
  ((exists t, t < T /\ pc s t <> fin) -> exists s', moves pc step T s' s).
