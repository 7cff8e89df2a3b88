(** Model of the in-memory behaviour of [export/SparseField.h]. *)
From Coq Require Import ZArith List Bool.
From Verif Require Import Model.Base Model.FieldM.
Import ListNotations.
Open Scope Z_scope.

(** Conversion of a non-negative [int] to [float]: round to nearest, ties to even,
    24 significant bits.  (The result is an integer; it is kept as a [Z].) *)
Definition float_of_int (z : Z) : Z :=
  let e := Z.log2 z - 23 in
  if e <=? 0 then z
  else
    let q := z / 2 ^ e in
    let r := z mod 2 ^ e in
    let h := 2 ^ (e - 1) in
    (if (r >? h) || ((r =? h) && Z.odd q) then q + 1 else q) * 2 ^ e.

(** [ceil(f / (1 << order))] in [float]: division by a power of two and [ceil] are
    exact. *)
Definition ceil_shift (f order : Z) : Z := (f + 2 ^ order - 1) / 2 ^ order.

(** export/SparseField.h:1862-1871, one axis of the block resolution: [size] is
    [m_dataWindow.size().x]. *)
Definition block_res_axis (order size : Z) : Z := ceil_shift (float_of_int (size + 1)) order.

Section Sparse.
Context {V : Type}.
(** [static_cast<Data_T>(0)] *)
Variable zero : V.

(** export/SparseField.h:227-327 [SparseBlock]; [b_data = None] is the null pointer. *)
Record block : Type := Block { b_alloc : bool; b_empty : V; b_data : option (list V) }.

(** export/SparseField.h:232-237, the constructor. *)
Definition block_init : block := Block false zero None.

(** export/SparseField.h:604-626, the data members of a field that is not
    dynamically loaded ([m_fileManager] null). *)
Record sparse : Type := Sparse {
  s_ext : box; s_dw : box; s_order : Z; s_bres : v3; s_xy : Z; s_blocks : list block }.

(** export/SparseField.h:1858-1876 [setupBlocks].  Products are computed in [int].
    The shift [1 << order] is assumed in range by the caller (see [order_ok] in the
    specification). *)
Definition setup_blocks (e dw : box) (order : Z) : res sparse :=
  let bx := block_res_axis order (vx (box_size dw)) in
  let by_ := block_res_axis order (vy (box_size dw)) in
  let bz := block_res_axis order (vz (box_size dw)) in
  let* xy := i32 (bx * by_) in
  let* n := i32 (xy * bz) in
  Ok (Sparse e dw order (V3 bx by_ bz) xy (repeat block_init (Z.to_nat n))).

(** export/SparseField.h:1287-1293: default constructor, [BLOCK_ORDER] = 4
    (export/SparseField.h:57). *)
Definition sparse_init : res sparse :=
  let b := Box (V3 0 0 0) (V3 (-1) (-1) (-1)) in setup_blocks b b 4.

(** export/SparseField.h:586-591 [sizeChanged] after [setSize], export/Field.h:941. *)
Definition sparse_set_size (f : sparse) (e dw : box) : res sparse :=
  setup_blocks e dw (s_order f).

(** export/SparseField.h:1466-1470 [setBlockOrder]. *)
Definition sparse_set_order (f : sparse) (order : Z) : res sparse :=
  setup_blocks (s_ext f) (s_dw f) order.

(** export/SparseField.h:1452-1461 [clear]. *)
Definition sparse_clear (f : sparse) (v : V) : res sparse :=
  let* g := setup_blocks (s_ext f) (s_dw f) (s_order f) in
  Ok (Sparse (s_ext g) (s_dw g) (s_order g) (s_bres g) (s_xy g)
             (map (fun b => Block (b_alloc b) v (b_data b)) (s_blocks g))).

(** export/SparseField.h:455-460 [applyDataWindowOffset]: subtracts the window minimum. *)
Definition window_offset (f : sparse) (p : v3) : res v3 :=
  let* i := i32 (vx p - vx (bmin (s_dw f))) in
  let* j := i32 (vy p - vy (bmin (s_dw f))) in
  let* k := i32 (vz p - vz (bmin (s_dw f))) in
  Ok (V3 i j k).

(** export/SparseField.h:1890-1900 [getBlockCoord]: arithmetic shift right. *)
Definition block_coord (order : Z) (q : v3) : v3 :=
  V3 (Z.shiftr (vx q) order) (Z.shiftr (vy q) order) (Z.shiftr (vz q) order).

(** export/SparseField.h:1905-1915 [getVoxelInBlock]: bit mask. *)
Definition voxel_in_block (order : Z) (q : v3) : v3 :=
  let m := Z.shiftl 1 order - 1 in
  V3 (Z.land (vx q) m) (Z.land (vy q) m) (Z.land (vz q) m).

(** export/SparseField.h:1881-1884 [blockId]. *)
Definition block_id (f : sparse) (b : v3) : res Z :=
  let* kx := i32 (vz b * s_xy f) in
  let* jx := i32 (vy b * vx (s_bres f)) in
  let* s := i32 (kx + jx) in
  i32 (s + vx b).

(** export/SparseField.h:249-257 index of a voxel in a block's array. *)
Definition cell_index (order : Z) (v : v3) : Z :=
  Z.shiftl (Z.shiftl (vz v) order) order + Z.shiftl (vy v) order + vx v.

(** Element of a block's array; null pointer or out of range is [UB]. *)
Definition block_cell (b : block) (ix : Z) : res V :=
  match b_data b with None => UB | Some d => arr_get d ix end.

(** export/SparseField.h:1614-1647 [fastValue]. *)
Definition sparse_value (f : sparse) (p : v3) : res V :=
  let* q := window_offset f p in
  let* id := block_id f (block_coord (s_order f) q) in
  let* b := arr_get (s_blocks f) id in
  if b_alloc b then block_cell b (cell_index (s_order f) (voxel_in_block (s_order f) q))
  else Ok (b_empty b).

(** export/SparseField.h:1682 [1 << order << order << order] in [int]. *)
Definition cells_per_block (order : Z) : Z :=
  Z.shiftl (Z.shiftl (Z.shiftl 1 order) order) order.

(** export/SparseField.h:260-271 [SparseBlock::resize]: a new array filled with the
    block's empty value. *)
Definition block_resize (b : block) (n : Z) : block :=
  Block true (b_empty b) (Some (repeat (b_empty b) (Z.to_nat n))).

(** export/SparseField.h:1653-1689 [fastLValue] followed by an assignment. *)
Definition sparse_write (f : sparse) (p : v3) (v : V) : res sparse :=
  let* q := window_offset f p in
  let* id := block_id f (block_coord (s_order f) q) in
  let* b := arr_get (s_blocks f) id in
  let b1 := if b_alloc b then b else block_resize b (cells_per_block (s_order f)) in
  match b_data b1 with
  | None => UB
  | Some d =>
      let* d' := arr_set d (cell_index (s_order f) (voxel_in_block (s_order f) q)) v in
      let* bl := arr_set (s_blocks f) id (Block (b_alloc b1) (b_empty b1) (Some d')) in
      Ok (Sparse (s_ext f) (s_dw f) (s_order f) (s_bres f) (s_xy f) bl)
  end.

(** export/SparseField.h:1970-1976 [deallocBlock], with [SparseBlock::clear]
    273-282. *)
Definition dealloc_block (v : V) : block := Block false v None.

(** export/SparseField.h:1519-1528 [setBlockEmptyValue]. *)
Definition sparse_set_block_empty (f : sparse) (c : v3) (v : V) : res sparse :=
  let* id := block_id f c in
  let* b := arr_get (s_blocks f) id in
  let b' := if b_alloc b then dealloc_block v else Block (b_alloc b) v (b_data b) in
  let* bl := arr_set (s_blocks f) id b' in
  Ok (Sparse (s_ext f) (s_dw f) (s_order f) (s_bres f) (s_xy f) bl).

(** export/SparseField.h:1491-1506 [voxelIsInAllocatedBlock], [blockIsAllocated];
    1511-1515 [getBlockEmptyValue]; 1533-1538 [blockIndexIsValid]. *)
Definition block_is_allocated (f : sparse) (c : v3) : res bool :=
  let* id := block_id f c in
  let* b := arr_get (s_blocks f) id in Ok (b_alloc b).
Definition voxel_is_in_allocated_block (f : sparse) (p : v3) : res bool :=
  let* q := window_offset f p in block_is_allocated f (block_coord (s_order f) q).
Definition get_block_empty_value (f : sparse) (c : v3) : res V :=
  let* id := block_id f c in
  let* b := arr_get (s_blocks f) id in Ok (b_empty b).
Definition block_index_is_valid (f : sparse) (c : v3) : bool :=
  (0 <=? vx c) && (0 <=? vy c) && (0 <=? vz c) &&
  (vx c <? vx (s_bres f)) && (vy c <? vy (s_bres f)) && (vz c <? vz (s_bres f)).

(** export/SparseField.h:710-765 [CheckAllEqual::check] and 811-873
    [CheckMaxAbs::check] share this loop: is there no valid voxel [v] with
    [bad v = true]?  [interior] is [validSize == blockSize]; the counters [x, y, z]
    are kept exactly as the code does (carry before use, [x++] after). *)
Fixpoint check_walk (bad : V -> bool) (interior : bool) (valid : v3) (s : Z)
         (d : list V) (x y z : Z) : bool :=
  match d with
  | [] => true
  | v :: t =>
      let '(x, y, z) :=
        if x >=? s then
          if y + 1 >=? s then (0, 0, z + 1) else (0, y + 1, z)
        else (x, y, z) in
      if negb interior && ((x >=? vx valid) || (y >=? vy valid) || (z >=? vz valid))
      then check_walk bad interior valid s t (x + 1) y z
      else if bad v then false
      else check_walk bad interior valid s t (x + 1) y z
  end.

(** The functor passed to [releaseBlocks]: given the block's first value, which
    values forbid the release.  [CheckAllEqual]: those different from the first.
    [CheckMaxAbs(m)]: those with |v| < m (in any component). *)
Definition checker : Type := V -> V -> bool.

(** [check]: [data[0]] is read first (UB if there is no data); the loop bound is
    blockSize^3, which must be the array's length. *)
Definition check_block (bad : checker) (b : block) (valid : v3) (s : Z) : res (option V) :=
  match b_data b with
  | None => UB
  | Some d =>
      let* first := arr_get d 0 in
      if Z.of_nat (length d) =? s * s * s then
        if check_walk (bad first) (v3_eqb valid (V3 s s s)) valid s d 0 0 0
        then Ok (Some first) else Ok None
      else UB
  end.

(** export/SparseField.h:1568-1592, one pass of the loop over the blocks, with the
    block coordinates [bx, by, bz] kept as the code does. *)
Fixpoint release_walk (bad : checker) (res_ bres : v3) (s : Z)
         (bl : list block) (bx by_ bz : Z) : res (list block * Z) :=
  match bl with
  | [] => Ok ([], 0)
  | b :: t =>
      let '(bx, by_, bz) :=
        if bx >=? vx bres then
          if by_ + 1 >=? vy bres then (0, 0, bz + 1) else (0, by_ + 1, bz)
        else (bx, by_, bz) in
      let valid :=
        V3 (if bx =? vx bres - 1 then vx res_ - bx * s else s)
           (if by_ =? vy bres - 1 then vy res_ - by_ * s else s)
           (if bz =? vz bres - 1 then vz res_ - bz * s else s) in
      let* (b', n) :=
        (if b_alloc b then
           let* r := check_block bad b valid s in
           match r with
           | Some e => Ok (dealloc_block e, 1)
           | None => Ok (b, 0)
           end
         else Ok (b, 0)) in
      let* (t', m) := release_walk bad res_ bres s t (bx + 1) by_ bz in
      Ok (b' :: t', n + m)
  end.

(** export/SparseField.h:1551-1593 [releaseBlocks]: the new field and the returned
    count. *)
Definition sparse_release (f : sparse) (bad : checker) : res (sparse * Z) :=
  let* (bl, n) := release_walk bad (data_resolution (s_dw f)) (s_bres f)
                               (Z.shiftl 1 (s_order f)) (s_blocks f) 0 0 0 in
  Ok (Sparse (s_ext f) (s_dw f) (s_order f) (s_bres f) (s_xy f) bl, n).

(** export/SparseField.h:710-765 and 811-873: the two functors. *)
Definition check_all_equal (eqb : V -> V -> bool) : checker :=
  fun first v => negb (eqb v first).
Definition check_max_abs (any_less : V -> V -> bool) (m : V) : checker :=
  fun _ v => any_less v m.

(** export/SparseField.h:1726-1738 [voxelCount]. *)
Definition sparse_voxel_count (f : sparse) : Z :=
  fold_left (fun n b => if b_alloc b then n + cells_per_block (s_order f) else n) (s_blocks f) 0.

(** export/SparseField.h:1708-1721 [memSize], data part: cells held by blocks with a
    non-null data pointer. *)
Definition sparse_data_cells (f : sparse) : Z :=
  fold_left (fun n b => match b_data b with
                        | Some _ => n + cells_per_block (s_order f)
                        | None => n
                        end) (s_blocks f) 0.

(** export/SparseField.h:1943-1946 [numGrains]. *)
Definition sparse_num_grains (f : sparse) : Z := Z.of_nat (length (s_blocks f)).

(** export/SparseField.h:1951-1965 [getGrainBounds]: bounds and "is a whole block". *)
Definition sparse_grain_bounds (f : sparse) (idx : Z) : res (box * bool) :=
  let side := Z.shiftl 1 (s_order f) in
  let* c := index_to_coord idx (s_bres f) in
  let start := v3_add (V3 (vx c * side) (vy c * side) (vz c * side)) (bmin (s_dw f)) in
  let un := Box start (v3_add start (V3 (side - 1) (side - 1) (side - 1))) in
  let b := clip_bounds un (s_dw f) in
  Ok (b, box_eqb b un).

(** [FIELD3D_CLIP(v, box)] (export/StdMathLib.h:79) is [Imath::clip]: clamps a point to a
    box component by component. *)
Definition clip_point (p : v3) (b : box) : v3 :=
  V3 (Z.min (Z.max (vx p) (vx (bmin b))) (vx (bmax b)))
     (Z.min (Z.max (vy p) (vy (bmin b))) (vy (bmax b)))
     (Z.min (Z.max (vz p) (vz (bmin b))) (vz (bmax b))).

(** export/SparseField.h:1262-1273 [block_iterator::recomputeBlockBoundingBox]: note
    that the data window's minimum is not added. *)
Definition block_iter_bounds (f : sparse) (c : v3) : box :=
  let s := Z.shiftl 1 (s_order f) in
  let mn := V3 (vx c * s) (vy c * s) (vz c * s) in
  let mx := v3_add mn (V3 (s - 1) (s - 1) (s - 1)) in
  Box (clip_point mn (s_dw f)) (clip_point mx (s_dw f)).

(** export/SparseField.h:1837-1853 [blockBegin], [blockEnd] and 1230-1245
    [operator++]: the iteration is that of [Field::const_iterator] over the block
    index box. *)
Definition block_window (f : sparse) : box :=
  Box (V3 0 0 0) (v3_sub (s_bres f) (V3 1 1 1)).
Definition block_iterate (fuel : nat) (f : sparse) : option (list v3) :=
  let w := block_window f in
  let e := V3 0 0 (vz (s_bres f)) in
  for_loop fuel (fun p => v3_eqb p e) (it_next w)
    (if v3_eqb (data_resolution (s_dw f)) (V3 0 0 0) then e else V3 0 0 0).

(** ** const_iterator of a field (885-1059).  A pointer is null, the address of a
    block's empty value, or the address of a cell of a block's array. *)
Inductive sptr : Type := PNull | PEmpty (blk : Z) | PCell (blk ix : Z).

(** [si_active] is [m_blockIsActivated] (only meaningful for a dynamically loaded
    field, [managed = true]). *)
Record siter : Type := SIter {
  si_pos : v3; si_p : sptr; si_empty : bool; si_ticker : Z; si_block : Z;
  si_active : bool }.

(** 985-1029 [setupNextBlock].  The reference counting of dynamically loaded blocks
    is left out here; block data are taken as loaded when accessed.  [managed] tells
    whether [m_manager] is non-null. *)
Definition siter_setup (managed : bool) (f : sparse) (it : siter) : res siter :=
  let* q := window_offset f (si_pos it) in
  let* id := block_id f (block_coord (s_order f) q) in
  let* lim := i32 (s_xy f * vz (s_bres f)) in
  if id >=? lim then
    Ok (SIter (si_pos it) (si_p it) true (si_ticker it) id (si_active it))
  else
    let* b := arr_get (s_blocks f) id in
    let v := voxel_in_block (s_order f) q in
    let act := if managed then false else si_active it in
    if b_alloc b then
      let p := if managed && negb (si_block it =? id) then si_p it
               else PCell id (cell_index (s_order f) v) in
      Ok (SIter (si_pos it) p false (vx v) id act)
    else Ok (SIter (si_pos it) (PEmpty id) true (vx v) id act).

(** 902-913, the constructor. *)
Definition siter_make (managed : bool) (f : sparse) (p : v3) : res siter :=
  siter_setup managed f (SIter p PNull false 0 (-1) false).

Definition sptr_inc (p : sptr) : res sptr :=
  match p with PCell b ix => Ok (PCell b (ix + 1)) | _ => UB end.

(** 921-954 [operator++]. *)
Definition siter_next (managed : bool) (f : sparse) (w : box) (it : siter) : res siter :=
  let p := si_pos it in
  let q := it_next w p in
  let reset := vx p =? vx (bmax w) in
  let t := si_ticker it + 1 in
  let* m := (if negb (si_empty it) && (negb managed || si_active it)
             then sptr_inc (si_p it) else Ok (si_p it)) in
  if reset || (t =? Z.shiftl 1 (s_order f))
  then siter_setup managed f (SIter q m (si_empty it) 0 (si_block it) (si_active it))
  else Ok (SIter q m (si_empty it) t (si_block it) (si_active it)).

Definition sptr_read (f : sparse) (p : sptr) : res V :=
  match p with
  | PNull => UB
  | PEmpty b => let* bl := arr_get (s_blocks f) b in Ok (b_empty bl)
  | PCell b ix => let* bl := arr_get (s_blocks f) b in block_cell bl ix
  end.

(** 966-977 [operator*]: for a dynamically loaded block not yet activated, the
    address is recomputed from the iterator's x, y, z WITHOUT subtracting the data
    window's minimum (972). Returns the value and the updated iterator. *)
Definition siter_deref (managed : bool) (f : sparse) (it : siter) : res (V * siter) :=
  if negb (si_empty it) && managed && negb (si_active it) then
    let v := voxel_in_block (s_order f) (si_pos it) in
    let p := PCell (si_block it) (cell_index (s_order f) v) in
    let* r := sptr_read f p in
    Ok (r, SIter (si_pos it) p (si_empty it) (si_ticker it) (si_block it) true)
  else let* r := sptr_read f (si_p it) in Ok (r, it).

(** [for (i = cbegin(w); i != cend(w); ++i) use( *i)]: positions and values seen. *)
Fixpoint siter_loop (fuel : nat) (managed : bool) (f : sparse) (w : box) (it : siter)
  : option (res (list (v3 * V))) :=
  match fuel with
  | O => None
  | S n =>
      if v3_eqb (si_pos it) (it_end w) then Some (Ok [])
      else match (let* (v, it1) := siter_deref managed f it in
                  let* it2 := siter_next managed f w it1 in Ok (v, it2)) with
           | Ok (v, it2) =>
               match siter_loop n managed f w it2 with
               | Some r => Some (let* l := r in Ok ((si_pos it, v) :: l))
               | None => None
               end
           | Exn => Some Exn
           | UB => Some UB
           end
  end.

(** export/SparseField.h:1744-1786 [cbegin(subset)]/[cend(subset)]. The end iterator
    is also constructed (its constructor runs [setupNextBlock]). *)
Definition sparse_iterate_sub (fuel : nat) (managed : bool) (f : sparse) (w : box)
  : option (res (list (v3 * V))) :=
  match siter_make managed f (it_end w), siter_make managed f (it_begin_sub w) with
  | Ok _, Ok b => siter_loop fuel managed f w b
  | _, _ => Some UB
  end.

(** ** The mutable [iterator] (1067-1204) of an in-memory field.  Its [operator++]
    and [setupNextBlock] are those of [const_iterator] with [m_manager] null. *)

(** export/SparseField.h:1653-1689 [lvalue(x, y, z)] without an assignment: only
    allocates the block. *)
Definition sparse_touch (f : sparse) (p : v3) : res sparse :=
  let* q := window_offset f p in
  let* id := block_id f (block_coord (s_order f) q) in
  let* b := arr_get (s_blocks f) id in
  let b1 := if b_alloc b then b else block_resize b (cells_per_block (s_order f)) in
  let* bl := arr_set (s_blocks f) id b1 in
  Ok (Sparse (s_ext f) (s_dw f) (s_order f) (s_bres f) (s_xy f) bl).

(** Assignment through a pointer obtained from an iterator. *)
Definition sptr_write (f : sparse) (p : sptr) (v : V) : res sparse :=
  match p with
  | PNull => UB
  | PEmpty id =>
      let* b := arr_get (s_blocks f) id in
      let* bl := arr_set (s_blocks f) id (Block (b_alloc b) v (b_data b)) in
      Ok (Sparse (s_ext f) (s_dw f) (s_order f) (s_bres f) (s_xy f) bl)
  | PCell id ix =>
      let* b := arr_get (s_blocks f) id in
      match b_data b with
      | None => UB
      | Some d =>
          let* d' := arr_set d ix v in
          let* bl := arr_set (s_blocks f) id (Block (b_alloc b) (b_empty b) (Some d')) in
          Ok (Sparse (s_ext f) (s_dw f) (s_order f) (s_bres f) (s_xy f) bl)
      end
  end.

(** 1129-1146 [operator*]: touches the voxel and sets up the block again if the block
    is empty. *)
Definition witer_deref (f : sparse) (it : siter) : res (sparse * siter) :=
  if si_empty it then
    let* f' := sparse_touch f (si_pos it) in
    let* it' := siter_setup false f' it in
    Ok (f', it')
  else Ok (f, it).

(** [for (i = begin(w); i != end(w); ++i) *i = g(i.x, i.y, i.z)]: the final field. *)
Fixpoint witer_loop (fuel : nat) (g : v3 -> V) (w : box) (f : sparse) (it : siter)
  : option (res sparse) :=
  match fuel with
  | O => None
  | S n =>
      if v3_eqb (si_pos it) (it_end w) then Some (Ok f)
      else match (let* (f1, it1) := witer_deref f it in
                  let* f2 := sptr_write f1 (si_p it1) (g (si_pos it1)) in
                  let* it2 := siter_next false f2 w it1 in Ok (f2, it2)) with
           | Ok (f2, it2) => witer_loop n g w f2 it2
           | Exn => Some Exn
           | UB => Some UB
           end
  end.

(** export/SparseField.h:1790-1833 [begin(subset)], [end(subset)]. *)
Definition sparse_fill_sub (fuel : nat) (f : sparse) (w : box) (g : v3 -> V)
  : option (res sparse) :=
  match siter_make false f (it_end w), siter_make false f (it_begin_sub w) with
  | Ok _, Ok b => witer_loop fuel g w f b
  | _, _ => Some UB
  end.

(** ** Public operations, as histories. *)
Inductive sop : Type :=
| SSize (e dw : box)
| SOrder (order : Z)
| SClear (v : V)
| SWrite (p : v3) (v : V)
| SBlockEmpty (c : v3) (v : V)
| SRelease.

Definition sparse_step (eqb : V -> V -> bool) (f : sparse) (o : sop) : res sparse :=
  match o with
  | SSize e dw => sparse_set_size f e dw
  | SOrder n => sparse_set_order f n
  | SClear v => sparse_clear f v
  | SWrite p v => sparse_write f p v
  | SBlockEmpty c v => sparse_set_block_empty f c v
  | SRelease => let* (g, _) := sparse_release f (check_all_equal eqb) in Ok g
  end.

Fixpoint sparse_run (eqb : V -> V -> bool) (f : sparse) (l : list sop) : res sparse :=
  match l with
  | [] => Ok f
  | o :: t => let* f' := sparse_step eqb f o in sparse_run eqb f' t
  end.
End Sparse.
Arguments block V : clear implicits.
Arguments sparse V : clear implicits.
Arguments sop V : clear implicits.
