(** Model of the block cache for dynamically loaded sparse fields:
    [SparseFileManager] (src/SparseFile.cpp, export/SparseFile.h) and the managed
    branch of [SparseField::fastValue].  This file is the sequential model; the
    interleaving model is in CacheConcM.v.

    Outcomes are [option (res _)]: [None] means the eviction loop was still running
    when the fuel ran out. *)
From Coq Require Import ZArith List Bool Arith.
From Verif Require Import Model.Base Model.SparseM.
Import ListNotations.
Open Scope Z_scope.

Definition obind {A B} (r : option (res A)) (f : A -> option (res B)) : option (res B) :=
  match r with
  | None => None
  | Some (Ok a) => f a
  | Some Exn => Some Exn
  | Some UB => Some UB
  end.
Notation "'do*' x := e 'in' k" := (obind e (fun x => k))
  (at level 200, x pattern, e at level 100, k at level 200, right associativity).

Section Cache.
Context {V : Type}.

(** export/SparseFile.h:137-152: the per-block vectors [blockLoaded], [blockUsed],
    [loadCounts], [refCounts] (the model zips them), and the data pointer of the
    field's block ([blocks[i].data]; [None] is null). *)
Record cblk : Type := CBlk {
  cb_loaded : bool; cb_used : bool; cb_loads : Z; cb_refs : Z; cb_data : option (list V) }.

(** export/SparseFile.h:104-215 [Reference].  [r_disk] is the file's block data in
    file order: the file is assumed to stay as it is while fields refer to it, and
    opening it (SparseFile.cpp:537-597) to succeed.  [r_elem] is [sizeof(Data_T)]. *)
Record cref : Type := CRef {
  r_file : list Z; r_blk : list cblk; r_nvox : Z; r_elem : Z; r_disk : list (list V) }.

(** export/SparseFile.h: [CacheBlock] (block type, reference index, block index). *)
Definition entry : Type := (nat * nat * nat)%type.
Definition entry_eqb (a b : entry) : bool :=
  let '(t, f, i) := a in let '(t', f', i') := b in
  Nat.eqb t t' && Nat.eqb f f' && Nat.eqb i i'.

(** [SparseFileManager]: [c_refs t] is the vector of references for data type [t]
    (export/SparseFile.h [FileReferences]).  The cache list is [c_before ++ c_after]
    and the clock hand [m_nextBlock] points at the first element of [c_after], or
    past the end.  [m_memUse] is an [int64_t], kept as a [Z]. *)
Record cache : Type := Cache {
  c_refs : nat -> list cref; c_before : list entry; c_after : list entry;
  c_mem : Z; c_max : Z; c_limit : bool }.

(** src/SparseFile.cpp:282-288, the constructor (1000 MB). *)
Definition cache_init : cache := Cache (fun _ => []) [] [] 0 (1000 * 1024 * 1024) false.

Definition cached (s : cache) : list entry := c_before s ++ c_after s.

Definition ref_at (s : cache) (t f : nat) : option cref := nth_error (c_refs s t) f.
Definition blk_at (s : cache) (e : entry) : option cblk :=
  let '(t, f, i) := e in
  match ref_at s t f with None => None | Some r => nth_error (r_blk r) i end.

(** export/SparseFile.h:771-774 [blockSize]. *)
Definition ref_block_size (r : cref) : Z := r_nvox r * r_elem r.
Definition entry_size (s : cache) (e : entry) : Z :=
  let '(t, f, _) := e in
  match ref_at s t f with None => 0 | Some r => ref_block_size r end.

Definition set_ref (s : cache) (t f : nat) (r : cref) : cache :=
  Cache (fun t' => if Nat.eqb t' t then list_set (c_refs s t') f r else c_refs s t')
        (c_before s) (c_after s) (c_mem s) (c_max s) (c_limit s).

(** Write to the per-block vectors; an index outside them is [UB]. *)
Definition upd_blk (s : cache) (e : entry) (g : cblk -> cblk) : res cache :=
  let '(t, f, i) := e in
  match ref_at s t f with
  | None => UB
  | Some r =>
      match nth_error (r_blk r) i with
      | None => UB
      | Some k => Ok (set_ref s t f (CRef (r_file r) (list_set (r_blk r) i (g k))
                                          (r_nvox r) (r_elem r) (r_disk r)))
      end
  end.
Definition with_list (s : cache) (b a : list entry) (m : Z) : cache :=
  Cache (c_refs s) b a m (c_max s) (c_limit s).

(** export/SparseFile.h:722-740 [unloadBlock], export/SparseField.h:273-282. *)
Definition unload (k : cblk) : cblk := CBlk false (cb_used k) (cb_loads k) (cb_refs k) None.

(** src/SparseFile.cpp:99-143 [deallocateBlock(cb)] with the clock hand at [e],
    followed by the rest of one pass of the loop in [deallocateBlocks]
    (src/SparseFile.cpp:173-216): the hand moves on unless bytes were freed.  [rest]
    is the list after the hand. *)
Definition evict_at (s : cache) (e : entry) (rest : list entry) : res cache :=
  match blk_at s e with
  | None => UB
  | Some k =>
      if cb_refs k >? 0 then Ok (with_list s (c_before s ++ [e]) rest (c_mem s))
      else if cb_used k then
        let* s1 := upd_blk s e (fun k => CBlk (cb_loaded k) false (cb_loads k) (cb_refs k) (cb_data k)) in
        Ok (with_list s1 (c_before s ++ [e]) rest (c_mem s))
      else
        let bytes := entry_size s e in
        let* s1 := upd_blk s e unload in
        let s2 := with_list s1 (c_before s) rest (c_mem s - bytes) in
        if bytes >? 0 then Ok s2
        else match rest with
             | [] => UB                      (* ++end() *)
             | x :: r => Ok (with_list s2 (c_before s2 ++ [x]) r (c_mem s2))
             end
  end.

(** src/SparseFile.cpp:166-171: wrap the hand. *)
Definition evict_step (s : cache) : res cache :=
  match c_after s with
  | e :: rest => evict_at s e rest
  | [] => match c_before s with
          | [] => Ok s
          | e :: rest => evict_at (with_list s [] (e :: rest) (c_mem s)) e rest
          end
  end.

(** src/SparseFile.cpp:164-165: the loop condition. *)
Definition must_evict (s : cache) (need : Z) : bool :=
  negb (match cached s with [] => true | _ => false end) && (c_max s - c_mem s <? need).

(** src/SparseFile.cpp:160-219 [deallocateBlocks]. *)
Fixpoint dealloc_blocks (fuel : nat) (s : cache) (need : Z) : option (res cache) :=
  match fuel with
  | O => None
  | S n =>
      if must_evict s need then
        match evict_step s with
        | Ok s' => dealloc_blocks n s' need
        | Exn => Some Exn
        | UB => Some UB
        end
      else Some (Ok s)
  end.

(** src/SparseFile.cpp:260-278 [addBlockToCache]: [push_back] when the hand is at the
    end, else insertion before the hand; both append to [c_before]. *)
Definition add_to_cache (s : cache) (e : entry) : cache :=
  with_list s (c_before s ++ [e]) (c_after s) (c_mem s).

(** src/SparseFile.cpp:498-532 [loadBlock]. *)
Definition load_block (s : cache) (e : entry) : res cache :=
  let '(t, f, i) := e in
  match ref_at s t f with
  | None => UB
  | Some r =>
      let* ix := arr_get (r_file r) (Z.of_nat i) in
      match nth_error (r_disk r) (Z.to_nat ix) with
      | None => Exn
      | Some d => upd_blk s e (fun k => CBlk true (cb_used k) (cb_loads k) (cb_refs k) (Some d))
      end
  end.

Definition mark_used (s : cache) (e : entry) : res cache :=
  upd_blk s e (fun k => CBlk (cb_loaded k) true (cb_loads k) (cb_refs k) (cb_data k)).

(** export/SparseFile.h:1257-1292 [activateBlock]. *)
Definition activate (fuel : nat) (s : cache) (e : entry) : option (res cache) :=
  let '(t, f, i) := e in
  match ref_at s t f with
  | None => Some UB
  | Some r =>
      match arr_get (r_file r) (Z.of_nat i) with
      | Ok ix =>
          do* s1 :=
            (if 0 <=? ix then
               match blk_at s e with
               | None => Some UB
               | Some k =>
                   if cb_loaded k then Some (Ok s)
                   else
                     do* s1 := (if c_limit s then dealloc_blocks fuel s (ref_block_size r)
                                else Some (Ok s)) in
                     do* s2 := Some (load_block s1 e) in
                     do* s3 := Some (upd_blk s2 e (fun k => CBlk (cb_loaded k) (cb_used k)
                                                      (cb_loads k + 1) (cb_refs k) (cb_data k))) in
                     let s4 := add_to_cache s3 e in
                     Some (Ok (with_list s4 (c_before s4) (c_after s4)
                                         (c_mem s4 + ref_block_size r)))
               end
             else Some (Ok s)) in
          Some (mark_used s1 e)
      | Exn => Some Exn
      | UB => Some UB
      end
  end.

(** export/SparseFile.h:745-766, 1298-1318: [incBlockRef] ([d = 1]) and [decBlockRef]
    ([d = -1]); nothing happens for blocks that are not in the file. *)
Definition ref_count (s : cache) (e : entry) (d : Z) : res cache :=
  let '(t, f, i) := e in
  match ref_at s t f with
  | None => UB
  | Some r =>
      let* ix := arr_get (r_file r) (Z.of_nat i) in
      if 0 <=? ix
      then upd_blk s e (fun k => CBlk (cb_loaded k) (cb_used k) (cb_loads k) (cb_refs k + d) (cb_data k))
      else Ok s
  end.

(** src/SparseFile.cpp:223-256 [flushCache], with [deallocateBlock(it)] 148-156: every
    entry is unloaded whatever its reference count. *)
Fixpoint flush_list (s : cache) (l : list entry) : res cache :=
  match l with
  | [] => Ok s
  | e :: t =>
      let* s1 := upd_blk s e unload in
      flush_list (with_list s1 [] t (c_mem s - entry_size s e)) t
  end.
Definition flush (s : cache) : res cache := flush_list s (cached s).

(** export/SparseFile.h:1199-1242 [removeFieldFromCache].  The field's blocks (and
    their data) are deleted by its destructor right after. *)
Definition same_field (t f : nat) (e : entry) : bool :=
  let '(t', f', _) := e in Nat.eqb t' t && Nat.eqb f' f.
Definition remove_field (s : cache) (t f : nat) : res cache :=
  match ref_at s t f with
  | None => UB
  | Some r =>
      let keep := filter (fun e => negb (same_field t f e)) in
      let gone := filter (same_field t f) (cached s) in
      let s1 := set_ref s t f (CRef (map (fun _ => -1) (r_file r)) [] (r_nvox r) (r_elem r) (r_disk r)) in
      Ok (with_list s1 (keep (c_before s)) (keep (c_after s))
                    (c_mem s - Z.of_nat (length gone) * ref_block_size r))
  end.

(** export/SparseField.h:1413-1432 [setupReferenceBlocks]: consecutive file indices
    for the allocated blocks, -1 for the others. *)
Fixpoint file_indices (next : Z) (alloc : list bool) : list Z :=
  match alloc with
  | [] => []
  | true :: t => next :: file_indices (next + 1) t
  | false :: t => -1 :: file_indices next t
  end.

(** What a lazily loaded field brings: which blocks are allocated, voxels per block,
    bytes per voxel, and the block data in the file. *)
Record fdesc : Type := FDesc {
  fd_alloc : list bool; fd_nvox : Z; fd_elem : Z; fd_disk : list (list V) }.

(** export/SparseFile.h:1183-1195 [getNextId], 677-705 [setNumBlocks];
    export/SparseField.h:1379-1394 [addReference]. *)
Definition open_field (s : cache) (t : nat) (d : fdesc) : cache :=
  let r := CRef (file_indices 0 (fd_alloc d))
                (map (fun _ => CBlk false false 0 0 None) (fd_alloc d))
                (fd_nvox d) (fd_elem d) (fd_disk d) in
  Cache (fun t' => if Nat.eqb t' t then c_refs s t' ++ [r] else c_refs s t')
        (c_before s) (c_after s) (c_mem s) (c_max s) (c_limit s).

(** export/SparseField.h:1614-1647 [fastValue] of a dynamically loaded field: [lf]
    holds the geometry, the allocation flags and the empty values; the block data is
    in the cache state. *)
Definition lazy_value (fuel : nat) (s : cache) (t f : nat) (lf : sparse V) (p : v3)
  : option (res (cache * V)) :=
  match window_offset lf p with
  | Ok q =>
    match block_id lf (block_coord (s_order lf) q) with
    | Ok id =>
      match arr_get (s_blocks lf) id with
      | Ok b =>
        if b_alloc b then
          let e := (t, f, Z.to_nat id) in
          do* s1 := Some (ref_count s e 1) in
          do* s2 := activate fuel s1 e in
          match blk_at s2 e with
          | None => Some UB
          | Some k =>
              match cb_data k with
              | None => Some UB
              | Some d =>
                  do* v := Some (arr_get d (cell_index (s_order lf) (voxel_in_block (s_order lf) q))) in
                  do* s3 := Some (ref_count s2 e (-1)) in
                  Some (Ok (s3, v))
              end
          end
        else Some (Ok (s, b_empty b))
      | Exn => Some Exn | UB => Some UB
      end
    | Exn => Some Exn | UB => Some UB
    end
  | Exn => Some Exn | UB => Some UB
  end.

(** Operations on the manager, one at a time. *)
Inductive cop : Type :=
| COpen (t : nat) (d : fdesc)            (* a field is read lazily from a file *)
| CTouch (e : entry)                     (* inc, activate, access, dec *)
| CActivate (e : entry)
| CPin (e : entry)
| CUnpin (e : entry)
| CFlush
| CSetMax (m : Z)                        (* setMaxMemUse, SparseFile.cpp:90-94, in bytes *)
| CSetLimit (b : bool)                   (* setLimitMemUse, SparseFile.cpp:76-79 *)
| CDestroy (t f : nat).                  (* a field is destroyed *)

Definition cstep (fuel : nat) (s : cache) (o : cop) : option (res cache) :=
  match o with
  | COpen t d => Some (Ok (open_field s t d))
  | CTouch e =>
      do* s1 := Some (ref_count s e 1) in
      do* s2 := activate fuel s1 e in
      Some (ref_count s2 e (-1))
  | CActivate e => activate fuel s e
  | CPin e => Some (ref_count s e 1)
  | CUnpin e => Some (ref_count s e (-1))
  | CFlush => Some (flush s)
  | CSetMax m => Some (Ok (Cache (c_refs s) (c_before s) (c_after s) (c_mem s) m (c_limit s)))
  | CSetLimit b => Some (Ok (Cache (c_refs s) (c_before s) (c_after s) (c_mem s) (c_max s) b))
  | CDestroy t f => Some (remove_field s t f)
  end.
Fixpoint crun (fuel : nat) (s : cache) (l : list cop) : option (res cache) :=
  match l with
  | [] => Some (Ok s)
  | o :: t => do* s' := cstep fuel s o in crun fuel s' t
  end.

(** Statistics: export/SparseFile.h:779-857 and src/SparseFile.cpp:292-438, per
    reference. *)
Definition ref_total_loads (r : cref) : Z := fold_left (fun n k => n + cb_loads k) (r_blk r) 0.
Definition ref_num_loaded (r : cref) : Z :=
  fold_left (fun n k => if cb_loaded k then n + 1 else n) (r_blk r) 0.

End Cache.
Arguments cblk : clear implicits.
Arguments cref : clear implicits.
Arguments cache : clear implicits.
Arguments fdesc : clear implicits.
Arguments cop : clear implicits.
