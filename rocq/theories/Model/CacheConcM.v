(** Interleaving model of the block cache (src/SparseFile.cpp, export/SparseFile.h):
    any number of threads each running
      incBlockRef; activateBlock; read the block (any number of times); decBlockRef
    as [SparseField::fastValue] (export/SparseField.h:1636-1640) and the const iterator
    (export/SparseField.h:885-1059) do, plus threads running [flushCache].

    Each step of a thread is one access to shared state or one lock operation, so a
    schedule is any interleaving at that granularity (sequentially consistent memory
    is assumed; the unlocked reads and writes of [blockLoaded] and [blockUsed] in
    [activateBlock] are steps of their own).  [exec t c s] is the next step of thread
    [t]; [None] means it is blocked.  [c] resolves the caller's choices. *)
From Coq Require Import ZArith List Bool Arith.
From Verif Require Import Model.Base.
Import ListNotations.
Open Scope Z_scope.

Section Conc.
Context {D : Type}.
(** Block number to mutex number (blocks share mutexes,
    [blockIdx % blockMutexSize], export/SparseFile.h:694-701, and each reference has its
    own array). *)
Variable mtx : nat -> nat.
(** The data of a block in the file; what a freshly allocated block holds; its bytes. *)
Variable file : nat -> D.
Variable fill : D.
Variable size : nat -> Z.
(** [m_maxMemUseInBytes] and [m_limitMemUse], constant during the run. *)
Variable limit : bool.
Variable max_mem : Z.

Inductive pc : Type :=
| PIdle
(* incBlockRef, SparseFile.h:745-753: with the block mutex, before / after the ++ *)
| PIncIn (b : nat) | PIncOut (b : nat)
(* activateBlock, SparseFile.h:1262: the unlocked test of blockLoaded *)
| PCheck (b : nat)
(* deallocateBlocks, SparseFile.cpp:160-219 *)
| PEvA (b : nat) | PEvLoop (b : nat)
(* deallocateBlock(cb), SparseFile.cpp:99-143 *)
| PEvB (b c : nat) | PEvRef (b c : nat) | PEvUsed (b c : nat) | PEvClear (b c : nat) | PEvUnl (b c : nat)
(* rest of activateBlock, SparseFile.h:1275-1290, and loadBlock, SparseFile.cpp:498-532 *)
| PLdA (b : nat) | PLdB (b : nat) | PLdCheck (b : nat) | PLdFill (b : nat) | PLdRead (b : nat)
| PLdMark (b : nat) | PLdAdd (b : nat)
(* SparseFile.h:1291: blockUsed = true, no lock *)
| PUsed (b : nat)
(* block.value(...) ; the value read, [None] for a null pointer *)
| PRead (b : nat) | PGot (b : nat) (r : option D)
(* decBlockRef *)
| PDecIn (b : nat) | PDecOut (b : nat)
(* flushCache, SparseFile.cpp:223-256 *)
| PFlA | PFlLoop | PFlUnl (c : nat).

Record gstate : Type := G {
  g_loaded : nat -> bool; g_data : nat -> option D; g_used : nat -> bool; g_refs : nat -> Z;
  g_before : list nat; g_after : list nat; g_mem : Z;
  g_lockA : option nat; g_lockM : nat -> option nat; g_pc : nat -> pc }.

Definition fupd {A} (f : nat -> A) (i : nat) (a : A) : nat -> A := fun j => if Nat.eqb j i then a else f j.

Definition g_init : gstate :=
  G (fun _ => false) (fun _ => None) (fun _ => false) (fun _ => 0) [] [] 0 None (fun _ => None) (fun _ => PIdle).

Definition goto (s : gstate) (t : nat) (p : pc) : gstate :=
  G (g_loaded s) (g_data s) (g_used s) (g_refs s) (g_before s) (g_after s) (g_mem s)
    (g_lockA s) (g_lockM s) (fupd (g_pc s) t p).
Definition set_lockA (s : gstate) (o : option nat) : gstate :=
  G (g_loaded s) (g_data s) (g_used s) (g_refs s) (g_before s) (g_after s) (g_mem s)
    o (g_lockM s) (g_pc s).
Definition set_lockM (s : gstate) (m : nat) (o : option nat) : gstate :=
  G (g_loaded s) (g_data s) (g_used s) (g_refs s) (g_before s) (g_after s) (g_mem s)
    (g_lockA s) (fupd (g_lockM s) m o) (g_pc s).
Definition set_refs (s : gstate) (b : nat) (z : Z) : gstate :=
  G (g_loaded s) (g_data s) (g_used s) (fupd (g_refs s) b z) (g_before s) (g_after s) (g_mem s)
    (g_lockA s) (g_lockM s) (g_pc s).
Definition set_used (s : gstate) (b : nat) (u : bool) : gstate :=
  G (g_loaded s) (g_data s) (fupd (g_used s) b u) (g_refs s) (g_before s) (g_after s) (g_mem s)
    (g_lockA s) (g_lockM s) (g_pc s).
Definition set_data (s : gstate) (b : nat) (d : option D) : gstate :=
  G (g_loaded s) (fupd (g_data s) b d) (g_used s) (g_refs s) (g_before s) (g_after s) (g_mem s)
    (g_lockA s) (g_lockM s) (g_pc s).
Definition set_loaded (s : gstate) (b : nat) (l : bool) : gstate :=
  G (fupd (g_loaded s) b l) (g_data s) (g_used s) (g_refs s) (g_before s) (g_after s) (g_mem s)
    (g_lockA s) (g_lockM s) (g_pc s).
Definition set_list (s : gstate) (b a : list nat) (m : Z) : gstate :=
  G (g_loaded s) (g_data s) (g_used s) (g_refs s) b a m (g_lockA s) (g_lockM s) (g_pc s).

(** What an idle thread does next, and whether a reader reads once more. *)
Inductive choice : Type := ChRead (b : nat) | ChFlush | ChDone.

(** Acquire a free lock, or block. *)
Definition lockA (s : gstate) (t : nat) (k : gstate -> gstate) : option gstate :=
  match g_lockA s with None => Some (k (set_lockA s (Some t))) | Some _ => None end.
Definition lockM (s : gstate) (t b : nat) (k : gstate -> gstate) : option gstate :=
  match g_lockM s (mtx b) with None => Some (k (set_lockM s (mtx b) (Some t))) | Some _ => None end.
Definition unlockM (s : gstate) (b : nat) : gstate := set_lockM s (mtx b) None.

(** The hand moves on (SparseFile.cpp:216). *)
Definition advance (s : gstate) : gstate :=
  match g_after s with
  | [] => s
  | c :: r => set_list s (g_before s ++ [c]) r (g_mem s)
  end.

Definition exec (t : nat) (ch : choice) (s : gstate) : option gstate :=
  match g_pc s t with
  | PIdle =>
      match ch with
      | ChRead b => lockM s t b (fun s => goto s t (PIncIn b))
      | ChFlush => Some (goto s t PFlA)
      | ChDone => None
      end
  | PIncIn b => Some (goto (set_refs s b (g_refs s b + 1)) t (PIncOut b))
  | PIncOut b => Some (goto (unlockM s b) t (PCheck b))
  | PCheck b =>
      Some (goto s t (if g_loaded s b then PUsed b else if limit then PEvA b else PLdA b))
  | PEvA b => lockA s t (fun s => goto s t (PEvLoop b))
  | PEvLoop b =>
      match g_before s ++ g_after s with
      | [] => Some (goto (set_lockA s None) t (PLdA b))
      | first :: rest =>
          if max_mem - g_mem s <? size b then
            match g_after s with
            | c :: _ => Some (goto s t (PEvB b c))
            | [] => Some (goto (set_list s [] (first :: rest) (g_mem s)) t (PEvB b first))
            end
          else Some (goto (set_lockA s None) t (PLdA b))
      end
  | PEvB b c => lockM s t c (fun s => goto s t (PEvRef b c))
  | PEvRef b c =>
      if g_refs s c >? 0 then Some (goto (advance (unlockM s c)) t (PEvLoop b))
      else Some (goto s t (PEvUsed b c))
  | PEvUsed b c =>
      if g_used s c then Some (goto (advance (unlockM (set_used s c false) c)) t (PEvLoop b))
      else Some (goto s t (PEvClear b c))
  | PEvClear b c => Some (goto (set_data s c None) t (PEvUnl b c))
  | PEvUnl b c =>
      Some (goto (unlockM (set_list (set_loaded s c false) (g_before s) (tl (g_after s))
                                    (g_mem s - size c)) c) t (PEvLoop b))
  | PLdA b => lockA s t (fun s => goto s t (PLdB b))
  | PLdB b => lockM s t b (fun s => goto s t (PLdCheck b))
  | PLdCheck b =>
      if g_loaded s b then Some (goto (set_lockA (unlockM s b) None) t (PUsed b))
      else Some (goto s t (PLdFill b))
  | PLdFill b => Some (goto (set_data s b (Some fill)) t (PLdRead b))
  | PLdRead b => Some (goto (set_data s b (Some (file b))) t (PLdMark b))
  | PLdMark b => Some (goto (set_loaded s b true) t (PLdAdd b))
  | PLdAdd b =>
      Some (goto (set_lockA (unlockM (set_list s (g_before s ++ [b]) (g_after s) (g_mem s + size b)) b) None)
                 t (PUsed b))
  | PUsed b => Some (goto (set_used s b true) t (PRead b))
  | PRead b => Some (goto s t (PGot b (g_data s b)))
  | PGot b _ =>
      match ch with
      | ChRead _ => Some (goto s t (PRead b))
      | _ => lockM s t b (fun s => goto s t (PDecIn b))
      end
  | PDecIn b => Some (goto (set_refs s b (g_refs s b - 1)) t (PDecOut b))
  | PDecOut b => Some (goto (unlockM s b) t PIdle)
  | PFlA => lockA s t (fun s => goto s t PFlLoop)
  | PFlLoop =>
      match g_before s ++ g_after s with
      | [] => Some (goto (set_lockA s None) t PIdle)
      | c :: _ => Some (goto (set_data s c None) t (PFlUnl c))
      end
  | PFlUnl c =>
      Some (goto (set_list (set_loaded s c false) [] (tl (g_before s ++ g_after s)) (g_mem s - size c))
                 t PFlLoop)
  end.

(** One step of any of [n] threads; [flushing] says whether threads may flush. *)
Definition may (flushing : bool) (c : choice) : Prop :=
  match c with ChFlush => flushing = true | _ => True end.
Inductive gstep (n : nat) (flushing : bool) (s s' : gstate) : Prop :=
| GStep t c : (t < n)%nat -> may flushing c -> exec t c s = Some s' -> gstep n flushing s s'.
Inductive greach (n : nat) (flushing : bool) : gstate -> Prop :=
| GInit : greach n flushing g_init
| GNext s s' : greach n flushing s -> gstep n flushing s s' -> greach n flushing s'.

(** A schedule: which thread moves, with which choice. *)
Fixpoint run_sched (l : list (nat * choice)) (s : gstate) : option gstate :=
  match l with
  | [] => Some s
  | (t, c) :: r => match exec t c s with Some s' => run_sched r s' | None => None end
  end.
End Conc.
Arguments pc : clear implicits.
Arguments gstate : clear implicits.
