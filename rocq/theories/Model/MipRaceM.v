(** Model of concurrent stores into one block of a sparse field: what the threads of
    export/MIPUtil.h:186-349 do when several of them store into the same block of the
    target.  Memory is sequentially consistent; each access to the block is one step. *)
From Coq Require Import Arith List Bool.
From Verif Require Import Model.Base.
Import ListNotations.

(** The block (export/SparseField.h:295-310): [isAllocated], [data], and whether
    [ms_resizeMutex] is held.  The heap holds the arrays ever allocated: [None] after
    [delete[]]; a cell is [None] before its first assignment. *)
Record shared (V : Type) : Type := Shared {
  sh_flag : bool; sh_data : option nat; sh_heap : list (option (list (option V))); sh_lock : bool }.
Arguments Shared {V}. Arguments sh_flag {V}. Arguments sh_data {V}. Arguments sh_heap {V}. Arguments sh_lock {V}.

(** Where a thread is in [fastLValue] (export/SparseField.h:1653-1689) and
    [SparseBlock::resize] (export/SparseField.h:260-271). *)
Inductive wpc : Type :=
  | WCheck            (* [if (block.isAllocated)] *)
  | WLock             (* taking the mutex in [resize] *)
  | WFree             (* [if (data) delete[] data] *)
  | WNew              (* [data = new Data_T[n]] *)
  | WFlag             (* [isAllocated = true] *)
  | WFill (j : nat)   (* [std::fill_n], cell [j] next; releases the mutex at the end *)
  | WPtr              (* [block.value(...)] reads [data] *)
  | WStore (a : nat). (* the assignment through the reference *)

(** A thread and its remaining stores: cell of the block and value. *)
Record writer (V : Type) : Type := Writer { w_pc : wpc; w_jobs : list (nat * V) }.
Arguments Writer {V}. Arguments w_pc {V}. Arguments w_jobs {V}.

Section Race.
Context {V : Type}.
Variables (n : nat) (empty : V).   (* [blockSize], [emptyValue] *)

(** Assignment through a pointer: undefined into freed memory or past the end. *)
Definition heap_store (h : list (option (list (option V)))) (a c : nat) (v : V) : res (list (option (list (option V)))) :=
  match nth_error h a with
  | Some (Some cells) => if c <? length cells then Ok (list_set h a (Some (list_set cells c (Some v)))) else UB
  | _ => UB
  end.

(** One step of a thread with a store to do. *)
Definition writer_step (s : shared V) (pc : wpc) (c : nat) (v : V) (rest : list (nat * V))
  : res (shared V * writer V) :=
  let stay p := Writer p ((c, v) :: rest) in
  match pc with
  | WCheck => Ok (s, stay (if sh_flag s then WPtr else WLock))
  | WLock =>
      if sh_lock s then Ok (s, stay WLock)
      else Ok (Shared (sh_flag s) (sh_data s) (sh_heap s) true, stay WFree)
  | WFree =>
      match sh_data s with
      | None => Ok (s, stay WNew)
      | Some a =>
          match nth_error (sh_heap s) a with
          | Some (Some _) => Ok (Shared (sh_flag s) (sh_data s) (list_set (sh_heap s) a None) (sh_lock s), stay WNew)
          | _ => UB
          end
      end
  | WNew =>
      Ok (Shared (sh_flag s) (Some (length (sh_heap s))) (sh_heap s ++ [Some (repeat None n)]) (sh_lock s), stay WFlag)
  | WFlag => Ok (Shared true (sh_data s) (sh_heap s) (sh_lock s), stay (WFill 0))
  | WFill j =>
      if j <? n then
        match sh_data s with
        | Some a => let* h := heap_store (sh_heap s) a j empty in
                    Ok (Shared (sh_flag s) (sh_data s) h (sh_lock s), stay (WFill (S j)))
        | None => UB
        end
      else Ok (Shared (sh_flag s) (sh_data s) (sh_heap s) false, stay WPtr)
  | WPtr => match sh_data s with Some a => Ok (s, stay (WStore a)) | None => UB end
  | WStore a =>
      let* h := heap_store (sh_heap s) a c v in
      Ok (Shared (sh_flag s) (sh_data s) h (sh_lock s), Writer WCheck rest)
  end.

Definition race_state : Type := shared V * list (writer V).

(** One step of thread [i]. *)
Definition race_step (i : nat) (st : race_state) : res race_state :=
  let (s, ws) := st in
  match nth_error ws i with
  | Some (Writer pc ((c, v) :: rest)) =>
      let* (s', w) := writer_step s pc c v rest in Ok (s', list_set ws i w)
  | _ => Ok st
  end.

(** The threads take turns as the schedule says. *)
Fixpoint race_run (sched : list nat) (st : race_state) : res race_state :=
  match sched with
  | [] => Ok st
  | i :: t => let* st' := race_step i st in race_run t st'
  end.

(** export/SparseField.h:1616-1646 [fastValue] once the threads are done. *)
Definition read_cell (s : shared V) (c : nat) : res V :=
  if sh_flag s then
    match sh_data s with
    | Some a =>
        match nth_error (sh_heap s) a with
        | Some (Some cells) => match nth_error cells c with Some (Some v) => Ok v | _ => UB end
        | _ => UB
        end
    | None => UB
    end
  else Ok empty.

(** A block never allocated, and an allocated one. *)
Definition fresh_block : shared V := Shared false None [] false.
Definition loaded_block (cells : list V) : shared V := Shared true (Some 0) [Some (map Some cells)] false.
Definition start_writers (jobs : list (list (nat * V))) : list (writer V) := map (Writer WCheck) jobs.
End Race.
