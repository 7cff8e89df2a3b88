(** Iterators over a dynamically loaded sparse field together with the block cache:
    [SparseField::const_iterator] with a file manager (export/SparseField.h:885-1059),
    the reference counting that SparseM.v leaves out, and the lifetime of the memory
    an iterator points to. *)
From Coq Require Import ZArith List Bool.
From Verif Require Import Model.Base Model.FieldM Model.SparseM Model.CacheM.
Import ListNotations.
Open Scope Z_scope.

Section I.
Context {V : Type}.

(** A [const_iterator] of a managed field.  [mi_gen] is not a member of the class: it
    is the load count of the block at the time [m_p] was set, so that a pointer into
    an array that has been freed is not mistaken for a pointer into the array the
    same block got when it was loaded again. *)
Record miter : Type := MIter { mi_it : siter; mi_win : box; mi_gen : Z }.

(** [m_blocks[i].isAllocated] for an index in range (915-917, 993-995). *)
Definition has_block (h : sparse V) (i : Z) : bool :=
  (0 <=? i) && (i <? Z.of_nat (length (s_blocks h))) &&
  match arr_get (s_blocks h) i with Ok b => b_alloc b | _ => false end.

(** 914-920, the destructor; also the first half of [setupNextBlock] (991-997). *)
Definition unpin (s : cache V) (t f : nat) (h : sparse V) (i : Z) : res (cache V) :=
  if has_block h i then ref_count s (t, f, Z.to_nat i) (-1) else Ok s.
(** 998-1001, 1007-1012: no pin on a block past the last one or on an empty one. *)
Definition pin (s : cache V) (t f : nat) (h : sparse V) (i : Z) : res (cache V) :=
  if i >=? s_xy h * vz (s_bres h) then Ok s
  else if has_block h i then ref_count s (t, f, Z.to_nat i) 1 else Ok s.
(** The reference counting of [setupNextBlock] (985-1029); the rest is
    [siter_setup]. *)
Definition move_pin (s : cache V) (t f : nat) (h : sparse V) (old new : Z) : res (cache V) :=
  if old =? new then Ok s
  else let* s1 := unpin s t f h old in pin s1 t f h new.

(** 902-913, the constructor. *)
Definition miter_make (s : cache V) (t f : nat) (h : sparse V) (w : box) (p : v3)
  : res (cache V * miter) :=
  let* it := siter_make true h p in
  let* s1 := move_pin s t f h (-1) (si_block it) in
  Ok (s1, MIter it w 0).

(** 921-954 [operator++]. *)
Definition miter_next (s : cache V) (t f : nat) (h : sparse V) (m : miter)
  : res (cache V * miter) :=
  let* it := siter_next true h (mi_win m) (mi_it m) in
  let* s1 := move_pin s t f h (si_block (mi_it m)) (si_block it) in
  Ok (s1, MIter it (mi_win m) (mi_gen m)).

(** [*m_p]: the address of a voxel is valid as long as the array it was taken from has
    not been freed. *)
Definition miter_fetch (s : cache V) (t f : nat) (h : sparse V) (m : miter) : res V :=
  match si_p (mi_it m) with
  | PNull => UB
  | PEmpty b => let* bl := arr_get (s_blocks h) b in Ok (b_empty bl)
  | PCell b ix =>
      if b <? 0 then UB else
      match blk_at s (t, f, Z.to_nat b) with
      | None => UB
      | Some k =>
          match cb_data k with
          | None => UB
          | Some d => if cb_loads k =? mi_gen m then arr_get d ix else UB
          end
      end
  end.

(** 966-977 [operator*]. *)
Definition miter_deref (fuel : nat) (s : cache V) (t f : nat) (h : sparse V) (m : miter)
  : option (res (cache V * (V * miter))) :=
  let it := mi_it m in
  if negb (si_empty it) && negb (si_active it) then
    let e := (t, f, Z.to_nat (si_block it)) in
    do* s1 := activate fuel s e in
    match blk_at s1 e with
    | None => Some UB
    | Some k =>
        let p := PCell (si_block it) (cell_index (s_order h) (voxel_in_block (s_order h) (si_pos it))) in
        let m1 := MIter (SIter (si_pos it) p (si_empty it) (si_ticker it) (si_block it) true)
                        (mi_win m) (cb_loads k) in
        do* v := Some (miter_fetch s1 t f h m1) in
        Some (Ok (s1, (v, m1)))
    end
  else
    do* v := Some (miter_fetch s t f h m) in Some (Ok (s, (v, m))).

(** 914-920, the destructor. *)
Definition miter_drop (s : cache V) (t f : nat) (h : sparse V) (m : miter) : res (cache V) :=
  unpin s t f h (si_block (mi_it m)).

(** A program that uses several iterators of the field while other things happen to
    the cache.  Iterators are numbered in the order they are made; a destroyed one is
    [None]. *)
Record iworld : Type := IWorld { iw_cache : cache V; iw_its : list (option miter) }.
Inductive iop : Type :=
| IMake (w : box) (p : v3)          (* cbegin(w), cend(w) *)
| INext (i : nat)                   (* ++it *)
| IRead (i : nat)                   (* *it *)
| IDrop (i : nat)                   (* destruction *)
| ICopy (i : nat)                   (* the compiler's copy constructor: members only *)
| IOther (o : cop V).               (* anything else *)

Definition it_at (W : iworld) (i : nat) : option miter :=
  match nth_error (iw_its W) i with Some (Some m) => Some m | _ => None end.
(** Using an iterator that was never made or is destroyed is undefined. *)
Definition istep (fuel : nat) (t f : nat) (h : sparse V) (W : iworld) (o : iop)
  : option (res (iworld * list V)) :=
  let s := iw_cache W in
  match o with
  | IMake w p =>
      do* (s1, m) := Some (miter_make s t f h w p) in
      Some (Ok (IWorld s1 (iw_its W ++ [Some m]), []))
  | INext i =>
      match it_at W i with
      | None => Some UB
      | Some m =>
          do* (s1, m1) := Some (miter_next s t f h m) in
          Some (Ok (IWorld s1 (list_set (iw_its W) i (Some m1)), []))
      end
  | IRead i =>
      match it_at W i with
      | None => Some UB
      | Some m =>
          do* (s1, (v, m1)) := miter_deref fuel s t f h m in
          Some (Ok (IWorld s1 (list_set (iw_its W) i (Some m1)), [v]))
      end
  | IDrop i =>
      match it_at W i with
      | None => Some UB
      | Some m =>
          do* s1 := Some (miter_drop s t f h m) in
          Some (Ok (IWorld s1 (list_set (iw_its W) i None), []))
      end
  | ICopy i =>
      match it_at W i with
      | None => Some UB
      | Some m => Some (Ok (IWorld s (iw_its W ++ [Some m]), []))
      end
  | IOther c =>
      do* s1 := cstep fuel s c in Some (Ok (IWorld s1 (iw_its W), []))
  end.

(** The values read, in order. *)
Fixpoint irun (fuel : nat) (t f : nat) (h : sparse V) (W : iworld) (l : list iop)
  : option (res (iworld * list V)) :=
  match l with
  | [] => Some (Ok (W, []))
  | o :: r =>
      do* (W1, out) := istep fuel t f h W o in
      do* (W2, out2) := irun fuel t f h W1 r in
      Some (Ok (W2, out ++ out2))
  end.

End I.
Arguments iworld : clear implicits.
Arguments iop : clear implicits.
