(** Specification vocabulary for the dynamic-loading cache: which fields are open,
    which histories are allowed, what is loaded, pinned, and how many bytes. *)
From Coq Require Import ZArith List Bool.
From Verif Require Import Model.Base Model.SparseM Model.CacheM.
Import ListNotations.
Open Scope Z_scope.

Section C.
Context {V : Type}.

(** What is open, per data type: the description a field was opened with, or [None]
    once it has been destroyed. *)
Definition fields : Type := nat -> list (option (fdesc V)).
Definition fields_step (a : fields) (o : cop V) : fields :=
  match o with
  | COpen t d => fun t' => if Nat.eqb t' t then a t' ++ [Some d] else a t'
  | CDestroy t f => fun t' => if Nat.eqb t' t then list_set (a t') f None else a t'
  | _ => a
  end.
Definition fields_run (a : fields) (l : list (cop V)) : fields := fold_left fields_step l a.
Definition no_fields : fields := fun _ => [].
Definition is_open (a : fields) (t f : nat) (d : fdesc V) : Prop :=
  nth_error (a t) f = Some (Some d).

(** A sane file: a data block for every allocated block, every block with the same
    positive number of bytes. *)
Definition desc_ok (d : fdesc V) : Prop :=
  (length (filter (fun b => b) (fd_alloc d)) <= length (fd_disk d))%nat /\
  0 < fd_nvox d * fd_elem d /\
  Forall (fun b => Z.of_nat (length b) = fd_nvox d) (fd_disk d).

(** Allowed histories: operations name a block of a field that is open. *)
Definition names_block (a : fields) (e : entry) : Prop :=
  let '(t, f, i) := e in exists d, is_open a t f d /\ (i < length (fd_alloc d))%nat.
Definition op_ok (a : fields) (o : cop V) : Prop :=
  match o with
  | COpen _ d => desc_ok d
  | CTouch e | CActivate e | CPin e | CUnpin e => names_block a e
  | CDestroy t f => exists d, is_open a t f d
  | CFlush | CSetMax _ | CSetLimit _ => True
  end.
Fixpoint clegal (a : fields) (l : list (cop V)) : Prop :=
  match l with [] => True | o :: t => op_ok a o /\ clegal (fields_step a o) t end.

(** The manager state after some allowed history. *)
Definition cache_reached (a : fields) (s : cache V) : Prop :=
  exists h fuel, clegal no_fields h /\ crun fuel cache_init h = Some (Ok s) /\
                 a = fields_run no_fields h.

(** Block [e] is in memory. *)
Definition loaded (s : cache V) (e : entry) : Prop :=
  exists k, blk_at s e = Some k /\ cb_loaded k = true.
(** Someone holds a reference to block [e]. *)
Definition pinnedb (s : cache V) (e : entry) : bool :=
  match blk_at s e with Some k => cb_refs k >? 0 | None => false end.
Definition bytes (s : cache V) (l : list entry) : Z :=
  fold_right (fun e n => entry_size s e + n) 0 l.
Definition pinned (s : cache V) : list entry := filter (pinnedb s) (cached s).

(** The file image of an in-memory sparse field: allocation flags and the data of
    the allocated blocks in order. *)
Definition block_payload (b : block V) : list (list V) :=
  if b_alloc b then match b_data b with Some d => [d] | None => [] end else [].
Definition stored (f : sparse V) (elem : Z) : fdesc V :=
  FDesc (map (fun b => b_alloc b) (s_blocks f)) (cells_per_block (s_order f)) elem
        (flat_map block_payload (s_blocks f)).
(** The same field as it looks right after a lazy read: no data in memory. *)
Definition hollow (f : sparse V) : sparse V :=
  Sparse (s_ext f) (s_dw f) (s_order f) (s_bres f) (s_xy f)
         (map (fun b => Block (b_alloc b) (b_empty b) None) (s_blocks f)).

(** Run the clock [n] times. *)
Fixpoint evict_steps (n : nat) (s : cache V) : res (cache V) :=
  match n with O => Ok s | S m => let* s' := evict_step s in evict_steps m s' end.
End C.
Arguments fields : clear implicits.
