(** Model of sparse field objects, in memory or dynamically loaded, together with the
    block cache: construction, copying, assignment, the operations that replace the block
    array, writing, reading and destruction (export/SparseField.h, export/SparseFile.h,
    src/SparseFile.cpp).

    A reference of the manager points at the block array of its field
    (export/SparseFile.h:119, [F3D_NO_BLOCKS_ARRAY] is 1).  The cache model keeps the data of
    those blocks in the reference; here the world also records which references point at an
    array that has been deleted.  Using a block of such an array is [UB]. *)
From Coq Require Import ZArith List Bool Arith.
From Verif Require Import Model.Base Model.SparseM Model.CacheM Model.CloneM.
Import ListNotations.
Open Scope Z_scope.

Section FieldCache.
Context {V : Type}.
Variable zero : V.
Variable eqb : V -> V -> bool.

(** export/SparseField.h:604-626: a field of data type [o_type].  [o_lazy] is
    [m_fileManager != NULL] and [o_id] is [m_fileId]; the data of the blocks of a
    dynamically loaded field is in the cache ([b_data] is then [None] here). *)
Record obj : Type := Obj { o_type : nat; o_data : sparse V; o_lazy : bool; o_id : nat }.

(** The manager, the references whose [blocks] pointer is dangling, and the field objects
    ([None]: destroyed). *)
Record lworld : Type := LWorld {
  l_cache : cache V; l_freed : list (nat * nat); l_objs : list (option obj) }.
Definition l_init : lworld := LWorld cache_init [] [].

Definition freedb (fr : list (nat * nat)) (e : entry) : bool :=
  let '(t, f, _) := e in existsb (fun x => Nat.eqb (fst x) t && Nat.eqb (snd x) f) fr.

(** The block the clock will unload in its next step, if any: src/SparseFile.cpp:99-143,
    166-171. *)
Definition victim (s : cache V) : option entry :=
  match c_after s ++ c_before s with
  | [] => None
  | e :: _ =>
      match blk_at s e with
      | Some k => if (cb_refs k >? 0) || cb_used k then None else Some e
      | None => None
      end
  end.

(** src/SparseFile.cpp:160-219: [unloadBlock] (export/SparseFile.h:722-740) calls [clear]
    on the block. *)
Definition evict_in (fr : list (nat * nat)) (s : cache V) : res (cache V) :=
  match victim s with
  | Some e => if freedb fr e then UB else evict_step s
  | None => evict_step s
  end.
Fixpoint dealloc_in (fuel : nat) (fr : list (nat * nat)) (s : cache V) (need : Z) : option (res (cache V)) :=
  match fuel with
  | O => None
  | S n =>
      if must_evict s need then
        match evict_in fr s with
        | Ok s' => dealloc_in n fr s' need
        | Exn => Some Exn
        | UB => Some UB
        end
      else Some (Ok s)
  end.

(** export/SparseFile.h:1257-1292 [activateBlock]; [loadBlock] (src/SparseFile.cpp:498-532)
    resizes and fills the block. *)
Definition activate_in (fuel : nat) (fr : list (nat * nat)) (s : cache V) (e : entry) : option (res (cache V)) :=
  let '(t, f, i) := e in
  match ref_at s t f with
  | None => Some UB
  | Some r =>
      match arr_get (r_file r) (Z.of_nat i) with
      | Ok ix =>
          do* s1 :=
            (if 0 <=? ix then
               match blk_at s e with
               | None => Some UB
               | Some k =>
                   if cb_loaded k then Some (Ok s)
                   else
                     do* s1 := (if c_limit s then dealloc_in fuel fr s (ref_block_size r)
                                else Some (Ok s)) in
                     if freedb fr e then Some UB else
                     do* s2 := Some (load_block s1 e) in
                     do* s3 := Some (upd_blk s2 e (fun k => CBlk (cb_loaded k) (cb_used k)
                                                      (cb_loads k + 1) (cb_refs k) (cb_data k))) in
                     let s4 := add_to_cache s3 e in
                     Some (Ok (with_list s4 (c_before s4) (c_after s4)
                                         (c_mem s4 + ref_block_size r)))
               end
             else Some (Ok s)) in
          Some (mark_used s1 e)
      | Exn => Some Exn
      | UB => Some UB
      end
  end.

(** src/SparseFile.cpp:223-256 [flushCache]: every entry of the list is unloaded. *)
Definition flush_in (fr : list (nat * nat)) (s : cache V) : res (cache V) :=
  if existsb (freedb fr) (cached s) then UB else flush s.

(** export/SparseField.h:1614-1647 [fastValue] of a dynamically loaded field. *)
Definition lazy_value_in (fuel : nat) (fr : list (nat * nat)) (s : cache V) (t f : nat) (lf : sparse V) (p : v3)
  : option (res (cache V * V)) :=
  match window_offset lf p with
  | Ok q =>
    match block_id lf (block_coord (s_order lf) q) with
    | Ok id =>
      match arr_get (s_blocks lf) id with
      | Ok b =>
        if b_alloc b then
          let e := (t, f, Z.to_nat id) in
          do* s1 := Some (ref_count s e 1) in
          do* s2 := activate_in fuel fr s1 e in
          match blk_at s2 e with
          | None => Some UB
          | Some k =>
              match cb_data k with
              | None => Some UB
              | Some d =>
                  do* v := Some (arr_get d (cell_index (s_order lf) (voxel_in_block (s_order lf) q))) in
                  do* s3 := Some (ref_count s2 e (-1)) in
                  Some (Ok (s3, v))
              end
          end
        else Some (Ok (s, b_empty b))
      | Exn => Some Exn | UB => Some UB
      end
    | Exn => Some Exn | UB => Some UB
    end
  | Exn => Some Exn | UB => Some UB
  end.

(** Field [i], which must be alive. *)
Definition obj_at (w : lworld) (i : nat) : res obj :=
  match nth_error (l_objs w) i with Some (Some o) => Ok o | _ => UB end.
Definition put (w : lworld) (i : nat) (o : option obj) : lworld :=
  LWorld (l_cache w) (l_freed w) (list_set (l_objs w) i o).

(** [delete[] m_blocks] of [o] (1364-1366, 1871-1873): the reference of a dynamically loaded
    field keeps its pointer. *)
Definition free_blocks (w : lworld) (o : obj) : lworld :=
  if o_lazy o then LWorld (l_cache w) ((o_type o, o_id o) :: l_freed w) (l_objs w) else w.

(** A lazy read: [lf] is the field without its data, [d] what the file holds. *)
Definition l_open (w : lworld) (t : nat) (lf : sparse V) (d : fdesc V) : lworld :=
  LWorld (open_field (l_cache w) t d) (l_freed w)
         (l_objs w ++ [Some (Obj t lf true (length (c_refs (l_cache w) t)))]).

(** export/SparseField.h:1287-1293, the default constructor. *)
Definition l_new (w : lworld) (t : nat) : res lworld :=
  let* f := sparse_init zero in
  Ok (LWorld (l_cache w) (l_freed w) (l_objs w ++ [Some (Obj t f false 0)])).

(** 1399-1408 [copyBlockStates] after 1345-1346 [setupBlocks]. *)
Definition copy_states (o : sparse V) : res (sparse V) :=
  let* g := setup_blocks zero (s_ext o) (s_dw o) (s_order o) in
  if Nat.eqb (length (s_blocks g)) (length (s_blocks o))
  then Ok (Sparse (s_ext g) (s_dw g) (s_order g) (s_bres g) (s_xy g)
                  (map (fun b => Block (b_alloc b) (b_empty b) None) (s_blocks o)))
  else Ok g.

(** 1341-1374 [copySparseField]: the new contents of the field and the manager.  1379-1394
    [addReference] takes what describes the file from the other field's reference and
    registers a new reference; 1413-1432 [setupReferenceBlocks] numbers the allocated
    blocks. *)
Definition copy_field (s : cache V) (o : obj) : res (cache V * obj) :=
  if o_lazy o then
    let* g := copy_states (o_data o) in
    match ref_at s (o_type o) (o_id o) with
    | None => UB
    | Some r =>
        let d := FDesc (map (fun b => b_alloc b) (s_blocks g)) (r_nvox r) (r_elem r) (r_disk r) in
        Ok (open_field s (o_type o) d,
            Obj (o_type o) g true (length (c_refs s (o_type o))))
    end
  else
    let* g := copy_sparse (o_data o) in
    Ok (s, Obj (o_type o) g false 0).

(** 1298-1306, the copy constructor (and [clone]). *)
Definition l_copy (w : lworld) (j : nat) : res lworld :=
  let* o := obj_at w j in
  let* (s, c) := copy_field (l_cache w) o in
  Ok (LWorld s (l_freed w) (l_objs w ++ [Some c])).

(** 1326-1335 [operator=].  Fields of different data types cannot be assigned in C++. *)
Definition l_assign (w : lworld) (i j : nat) : res lworld :=
  let* a := obj_at w i in
  let* o := obj_at w j in
  if Nat.eqb i j then Ok w
  else if negb (Nat.eqb (o_type a) (o_type o)) then UB
  else
    let w1 := free_blocks w a in
    let* (s, c) := copy_field (l_cache w1) o in
    Ok (put (LWorld s (l_freed w1) (l_objs w1)) i (Some c)).

(** 1311-1321, the destructor. *)
Definition l_destroy (w : lworld) (i : nat) : res lworld :=
  let* o := obj_at w i in
  if o_lazy o then
    let* s := remove_field (l_cache w) (o_type o) (o_id o) in
    Ok (put (LWorld s (l_freed w) (l_objs w)) i None)
  else Ok (put w i None).

(** The blocks of a dynamically loaded field with the data that is in memory, and the
    opposite: the data pointers of the blocks are replaced. *)
Fixpoint with_data (l : list (block V)) (k : list (cblk V)) : list (block V) :=
  match l, k with
  | b :: l', c :: k' => Block (b_alloc b) (b_empty b) (cb_data c) :: with_data l' k'
  | _, _ => l
  end.
Fixpoint put_data (k : list (cblk V)) (l : list (block V)) : list (cblk V) :=
  match k, l with
  | c :: k', b :: l' => CBlk (cb_loaded c) (cb_used c) (cb_loads c) (cb_refs c) (b_data b) :: put_data k' l'
  | _, _ => k
  end.
Definition without_data (f : sparse V) : sparse V :=
  Sparse (s_ext f) (s_dw f) (s_order f) (s_bres f) (s_xy f)
         (map (fun b => Block (b_alloc b) (b_empty b) None) (s_blocks f)).

(** [setBlockEmptyValue] (1519-1528) and [releaseBlocks] (1551-1593) of a dynamically loaded
    field work on the blocks as they are in memory.  After the array has been replaced the
    reference's vectors have nothing to do with the blocks of the field: no block is
    allocated then and only the field changes. *)
Definition edit_in_place (w : lworld) (i : nat) (o : obj) (x : sop V) : res lworld :=
  let f := o_data o in
  match ref_at (l_cache w) (o_type o) (o_id o) with
  | None => UB
  | Some r =>
      if freedb (l_freed w) (o_type o, o_id o, O) then
        let* g := sparse_step zero eqb f x in
        Ok (put w i (Some (Obj (o_type o) g true (o_id o))))
      else
        let* g := sparse_step zero eqb
                    (Sparse (s_ext f) (s_dw f) (s_order f) (s_bres f) (s_xy f)
                            (with_data (s_blocks f) (r_blk r))) x in
        let s := set_ref (l_cache w) (o_type o) (o_id o)
                   (CRef (r_file r) (put_data (r_blk r) (s_blocks g)) (r_nvox r) (r_elem r) (r_disk r)) in
        Ok (put (LWorld s (l_freed w) (l_objs w)) i
                (Some (Obj (o_type o) (without_data g) true (o_id o))))
  end.

(** The operations of C03 on field [i].  [setSize], [setBlockOrder] and [clear] call
    [setupBlocks] (586-591, 1452-1470); [m_fileManager] and [m_fileId] stay.  A write to a
    dynamically loaded field goes to [m_dummy] (1662-1667; the assertion before it is off in
    release builds). *)
Definition l_edit (w : lworld) (i : nat) (x : sop V) : res lworld :=
  let* o := obj_at w i in
  if o_lazy o then
    match x with
    | SWrite _ _ => Ok w
    | SSize _ _ | SOrder _ | SClear _ =>
        let* g := sparse_step zero eqb (o_data o) x in
        Ok (put (free_blocks w o) i (Some (Obj (o_type o) g true (o_id o))))
    | SBlockEmpty _ _ | SRelease => edit_in_place w i o x
    end
  else
    let* g := sparse_step zero eqb (o_data o) x in
    Ok (put w i (Some (Obj (o_type o) g false (o_id o)))).

(** 1597-1647 [value]. *)
Definition l_read (fuel : nat) (w : lworld) (i : nat) (p : v3) : option (res (lworld * V)) :=
  do* o := Some (obj_at w i) in
  if o_lazy o then
    do* (s, v) := lazy_value_in fuel (l_freed w) (l_cache w) (o_type o) (o_id o) (o_data o) p in
    Some (Ok (LWorld s (l_freed w) (l_objs w), v))
  else
    do* v := Some (sparse_value (o_data o) p) in
    Some (Ok (w, v)).

(** Histories: each step gives the values it returned to the user. *)
Inductive lop : Type :=
| LOpen (t : nat) (lf : sparse V) (d : fdesc V)
| LNew (t : nat)
| LCopy (j : nat)
| LAssign (i j : nat)
| LEdit (i : nat) (x : sop V)
| LRead (i : nat) (p : v3)
| LDestroy (i : nat)
| LFlush
| LSetMax (m : Z)
| LSetLimit (b : bool).

Definition quietly (r : res lworld) : option (res (lworld * list V)) :=
  Some (let* w := r in Ok (w, [])).
Definition lstep (fuel : nat) (w : lworld) (o : lop) : option (res (lworld * list V)) :=
  match o with
  | LOpen t lf d => quietly (Ok (l_open w t lf d))
  | LNew t => quietly (l_new w t)
  | LCopy j => quietly (l_copy w j)
  | LAssign i j => quietly (l_assign w i j)
  | LEdit i x => quietly (l_edit w i x)
  | LRead i p => do* (w', v) := l_read fuel w i p in Some (Ok (w', [v]))
  | LDestroy i => quietly (l_destroy w i)
  | LFlush => quietly (let* s := flush_in (l_freed w) (l_cache w) in Ok (LWorld s (l_freed w) (l_objs w)))
  | LSetMax m =>
      let s := l_cache w in
      quietly (Ok (LWorld (Cache (c_refs s) (c_before s) (c_after s) (c_mem s) m (c_limit s)) (l_freed w) (l_objs w)))
  | LSetLimit b =>
      let s := l_cache w in
      quietly (Ok (LWorld (Cache (c_refs s) (c_before s) (c_after s) (c_mem s) (c_max s) b) (l_freed w) (l_objs w)))
  end.
Fixpoint lrun (fuel : nat) (w : lworld) (l : list lop) : option (res (lworld * list V)) :=
  match l with
  | [] => Some (Ok (w, []))
  | o :: r =>
      do* (w1, v) := lstep fuel w o in
      do* (w2, v') := lrun fuel w1 r in
      Some (Ok (w2, v ++ v'))
  end.
End FieldCache.
Arguments obj : clear implicits.
Arguments lworld : clear implicits.
Arguments lop : clear implicits.
