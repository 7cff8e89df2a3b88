(** Model of the HDF5 side of src/DenseFieldIO.cpp, src/SparseFieldIO.cpp,
    include/MACFieldIO.h and src/MACFieldIO.cpp: what the writers put in a layer's group and what
    the readers make of a group.

    The HDF5 library is outside the model.  A group is what can be asked of it: integer
    attributes and data sets of scalars, by name.  The calls fail as documented: a name can
    be used once, the sides of a chunk are at least one and a chunk is smaller than 4 GiB.
    Attributes stored with other integer types than [int] are not modelled. *)
From Coq Require Import ZArith List Bool String.
From Verif Require Import Model.Base Model.FieldM Model.DenseM Model.SparseM.
Import ListNotations.
Open Scope Z_scope.

(** [H5T_NATIVE_CHAR], [..._SHORT], [..._FLOAT], [..._DOUBLE]: the types of
    export/Traits.h:412-480. *)
Inductive htype : Type := HChar | HShort | HFloat | HDouble.
Definition htype_size (t : htype) : Z := match t with HChar => 1 | HShort => 2 | HFloat => 4 | HDouble => 8 end.
Definition htype_eqb (a b : htype) : bool := htype_size a =? htype_size b.
(** export/Traits.h:484-530 [h5bits]. *)
Definition h5bits (t : htype) : Z := 8 * htype_size t.

Section H.
(** The scalars that data sets hold; [convert file mem] is the conversion that the library
    makes when it reads; [of_flag] and [to_flag] are the chars that stand for [bool]. *)
Context {A : Type}.
Variable convert : htype -> htype -> A -> A.
Variable of_flag : bool -> A.
Variable to_flag : A -> bool.

(** An attribute: a row of integers, or something else.  A data set: its type, its
    dimensions, its elements row by row. *)
Inductive hattr : Type := AInts (l : list Z) | AOther.
Record hset : Type := HSet { hs_type : htype; hs_dims : list Z; hs_data : list A }.
Record hgroup : Type := HGroup { hg_attrs : list (string * hattr); hg_sets : list (string * hset) }.
Fixpoint named {B} (n : string) (l : list (string * B)) : option B :=
  match l with [] => None | (m, x) :: r => if String.eqb n m then Some x else named n r end.

(** src/Hdf5Util.cpp:437-477 [writeAttribute] of [int]s; [None]: it returned false. *)
Definition put_attr (g : hgroup) (n : string) (l : list Z) : option hgroup :=
  match named n (hg_attrs g) with
  | Some _ => None
  | None => Some (HGroup (hg_attrs g ++ [(n, AInts l)]) (hg_sets g))
  end.
(** src/Hdf5Util.cpp:119-158 [readAttribute] of [k] [int]s. *)
Definition get_attr (g : hgroup) (n : string) (k : nat) : res (list Z) :=
  match named n (hg_attrs g) with
  | Some (AInts l) => if Nat.eqb (List.length l) k then Ok l else Exn
  | _ => Exn
  end.
Definition get_int (g : hgroup) (n : string) : res Z := let* l := get_attr g n 1 in Ok (hd 0 l).
(** Six [int]s read into a [Box3i], three into a [V3i]. *)
Definition box_of (l : list Z) : box :=
  Box (V3 (nth 0 l 0) (nth 1 l 0) (nth 2 l 0)) (V3 (nth 3 l 0) (nth 4 l 0) (nth 5 l 0)).
Definition of_box (b : box) : list Z :=
  [vx (bmin b); vy (bmin b); vz (bmin b); vx (bmax b); vy (bmax b); vz (bmax b)].
Definition get_box (g : hgroup) (n : string) : res box := let* l := get_attr g n 6 in Ok (box_of l).

(** [H5Dcreate] followed by [H5Dwrite] of everything; [None]: the name is taken. *)
Definition put_set (g : hgroup) (n : string) (s : hset) : option hgroup :=
  match named n (hg_sets g) with
  | Some _ => None
  | None => Some (HGroup (hg_attrs g) (hg_sets g ++ [(n, s)]))
  end.
(** [H5Pset_chunk], called only if the gzip filter is available. *)
Definition chunk_ok (gzip : bool) (t : htype) (sides : list Z) : bool :=
  negb gzip || (forallb (fun n => 0 <? n) sides && (fold_right Z.mul (htype_size t) sides <? 2 ^ 32)).
(** [H5Sget_simple_extent_dims] into an array of [k]: other ranks overrun it or leave it
    unset. *)
Definition get_dims (s : hset) (k : nat) : res (list Z) :=
  if Nat.eqb (List.length (hs_dims s)) k then Ok (hs_dims s) else UB.
(** [H5Dread] of everything, as type [t], into memory that holds [cur]. *)
Definition read_all (t : htype) (s : hset) (cur : list A) : res (list A) :=
  let l := map (convert (hs_type s) t) (hs_data s) in
  if Nat.leb (List.length l) (List.length cur) then Ok (l ++ skipn (List.length l) cur) else UB.

Definition or_throw {B} (o : option B) : res B := match o with Some x => Ok x | None => Exn end.

Section V.
(** The value type: [DataTypeTraits::h5type], [FieldTraits::dataDims] and its scalars. *)
Context {V : Type}.
Variable ty : htype.
Variable comps : nat.
Variable split : V -> list A.
Variable join : list A -> V.
Variable zero : V.
Definition split_all (l : list V) : list A := flat_map split l.
Fixpoint join_all (n : nat) (l : list A) : list V :=
  match n with O => [] | S n' => join (firstn comps l) :: join_all n' (skipn comps l) end.

(** * Dense *)

(** src/DenseFieldIO.cpp:263-316 [write], 372-473 [writeInternal] and 519-537 [writeData], into
    the group [g].  The result: the group and what was returned. *)
Definition dense_h5_write (gzip : bool) (f : dense V) (g : hgroup) : res (hgroup * bool) :=
  let* g1 := or_throw (put_attr g "version" [1]) in
  let* xy := i32 (vx (d_mem f) * vy (d_mem f)) in
  let* n := i32 (xy * vz (d_mem f)) in
  let* total := i32 (n * Z.of_nat comps) in
  let chunk := Z.min 65536 (total / 2) in
  let* g2 := or_throw (put_attr g1 "extents" (of_box (d_ext f))) in
  let* g3 := or_throw (put_attr g2 "data_window" (of_box (d_dw f))) in
  let* g4 := or_throw (put_attr g3 "components" [Z.of_nat comps]) in
  match put_attr g4 "bits_per_component" [h5bits ty] with
  | None => Ok (g4, false)
  | Some g5 =>
      if negb (chunk_ok gzip ty [chunk]) then Ok (g5, false)
      else if Z.of_nat (List.length (d_data f)) <? n then UB    (* H5Dwrite reads total scalars *)
      else
        let* g6 := or_throw (put_set g5 "data" (HSet ty [total] (split_all (firstn (Z.to_nat n) (d_data f))))) in
        Ok (g6, true)
  end.

(** src/DenseFieldIO.cpp:82-164 [read] and 541-557 [readData], for this value type.  [Ok
    None]: a null pointer. *)
Definition dense_h5_read (g : hgroup) : res (option (dense V)) :=
  let* ver := get_int g "version" in
  if negb (ver =? 1) then Exn else
  let* e := get_box g "extents" in
  let* dw := get_box g "data_window" in
  let* c := get_int g "components" in
  let* s := or_throw (named "data" (hg_sets g)) in
  let* d := get_dims s 1 in
  let* sx := i32 (vx (box_size dw) + 1) in
  let* sy := i32 (vy (box_size dw) + 1) in
  let* sz := i32 (vz (box_size dw) + 1) in
  let* xy := i32 (sx * sy) in
  let* n := i32 (xy * sz) in
  if c =? 0 then UB else                                          (* dims[0] / components *)
  if negb (n =? (hd 0 d / (c mod 2 ^ 64)) mod 2 ^ 32) then Exn else
  if negb (htype_eqb (hs_type s) ty && (c =? Z.of_nat comps)) then Ok None else
  let* (f, threw) := dense_set_size zero e dw dense_init in
  if (threw : bool) then Exn else
  let* l := read_all ty s (split_all (d_data f)) in
  Ok (Some (Dense (d_ext f) (d_dw f) (d_mem f) (d_memXY f) (join_all (List.length (d_data f)) l))).

(** * Sparse *)

(** export/Hdf5Util.h:571-606 [writeSimpleData]; [&data[0]] of an empty vector is [UB]. *)
Definition put_simple (g : hgroup) (n : string) (t : htype) (l : list A) : res hgroup :=
  let* g' := or_throw (put_set g n (HSet t [Z.of_nat (List.length l)] l)) in
  match l with [] => UB | _ => Ok g' end.
(** export/Hdf5Util.h:610-649 [readSimpleData] of values of [c] scalars: the vector is resized
    to [dims[0] / c] values. *)
Definition get_simple (g : hgroup) (n : string) (t : htype) (c : nat) : res (list A) :=
  let* s := or_throw (named n (hg_sets g)) in
  let* d := get_dims s 1 in
  let l := map (convert (hs_type s) t) (hs_data s) in
  let k := Z.to_nat (hd 0 d / Z.of_nat c) in
  if Nat.leb (List.length l) (k * c) then match k with O => UB | _ => Ok l end else UB.

(** src/SparseFieldIO.cpp:1009-1034: the loop that writes the allocated blocks, each to the
    next row. *)
Fixpoint put_rows (vpb : nat) (bl : list (block V)) (next : nat) (rows : list (list A)) : res (list (list A)) :=
  match bl with
  | [] => Ok rows
  | b :: r =>
      if b_alloc b then
        match b_data b with
        | None => Exn                                  (* H5Dwrite without a buffer fails *)
        | Some d =>
            if Nat.ltb (List.length (split_all d)) vpb then UB
            else if Nat.ltb next (List.length rows)
            then put_rows vpb r (S next) (list_set rows next (firstn vpb (split_all d)))
            else Exn                                   (* outside the data space *)
        end
      else put_rows vpb r next rows
  end.

(** src/SparseFieldIO.cpp:628-674 [write], 849-1040 [writeInternal]. *)
Definition sparse_h5_write (gzip : bool) (f : sparse V) (g : hgroup) : res (hgroup * bool) :=
  let* g1 := or_throw (put_attr g "version" [1]) in
  if 10 <? s_order f then UB else                      (* 1 << (order * 3) *)
  let* vpb := i32 (2 ^ (s_order f * 3) * Z.of_nat comps) in
  match put_attr g1 "extents" (of_box (s_ext f)) with None => Ok (g1, false) | Some g2 =>
  match put_attr g2 "data_window" (of_box (s_dw f)) with None => Ok (g2, false) | Some g3 =>
  match put_attr g3 "components" [Z.of_nat comps] with None => Ok (g3, false) | Some g4 =>
  match put_attr g4 "block_order" [s_order f] with None => Ok (g4, false) | Some g5 =>
  let* xy := i32 (vx (s_bres f) * vy (s_bres f)) in
  let* n := i32 (xy * vz (s_bres f)) in
  match put_attr g5 "num_blocks" [n] with None => Ok (g5, false) | Some g6 =>
  match put_attr g6 "block_res" [vx (s_bres f); vy (s_bres f); vz (s_bres f)] with None => Ok (g6, false) | Some g7 =>
  match put_attr g7 "bits_per_component" [h5bits ty] with None => Ok (g7, false) | Some g8 =>
  if negb (n =? Z.of_nat (List.length (s_blocks f))) then UB else     (* blocks[i] *)
  let* g9 := put_simple g8 "block_is_allocated_data" HChar (map (fun b => of_flag (b_alloc b)) (s_blocks f)) in
  let* g10 := put_simple g9 "block_empty_value_data" ty (split_all (map b_empty (s_blocks f))) in
  let occ := List.length (filter b_alloc (s_blocks f)) in
  let* g11 := or_throw (put_attr g10 "num_occupied_blocks" [Z.of_nat occ]) in
  if Nat.eqb occ 0 then Ok (g11, true) else
  if negb (chunk_ok gzip ty [1; vpb]) then Ok (g11, false) else
  let* rows := put_rows (Z.to_nat vpb) (s_blocks f) 0 (repeat [] occ) in
  let* g12 := or_throw (put_set g11 "data" (HSet ty [Z.of_nat occ; vpb] (List.concat rows))) in
  Ok (g12, true)
  end end end end end end end.

(** src/SparseFieldIO.cpp:1174-1195: the flags and empty values of the field's blocks, [k] of
    them.  [alloc] tells whether memory is wanted. *)
Fixpoint set_blocks (alloc : bool) (nvox k : nat) (bl : list (block V)) (fl : list A) (ev : list V) : res (list (block V)) :=
  match k with
  | O => Ok bl
  | S k' =>
      match bl, fl, ev with
      | b :: bl', a :: fl', e :: ev' =>
          let* r := set_blocks alloc nvox k' bl' fl' ev' in
          (* [resize] fills with the empty value of the new field, 0 *)
          let b' := if alloc && to_flag a then Block true e (Some (repeat (b_empty b) nvox))
                    else Block (to_flag a) e (b_data b) in
          Ok (b' :: r)
      | _, _, _ => UB                                  (* past the end of one of the arrays *)
      end
  end.

(** export/SparseDataReader.h:131-150, 204-221: the data set, if its dimensions are the
    expected ones. *)
Definition open_h5 (g : hgroup) (vpb occ : Z) : res hset :=
  let* s := or_throw (named "data" (hg_sets g)) in
  let* d := get_dims s 2 in
  if negb (nth 1 d 0 =? vpb) then Exn else if negb (nth 0 d 0 =? occ) then Exn else Ok s.
(** [k] rows from row [i] on, [None] if they are not there (the read fails). *)
Definition rows_at (s : hset) (vpb i k : nat) : option (list A) :=
  let l := map (convert (hs_type s) ty) (firstn (k * vpb) (skipn (i * vpb) (hs_data s))) in
  if Nat.eqb (List.length l) (k * vpb) then Some l else None.

(** src/SparseFieldIO.cpp:1221-1226: the blocks of one pass: those from the start of [bl] on
    until [limit] bytes are reached.  The number of blocks passed over, and of these the
    number that are allocated. *)
Fixpoint pass (limit bytes mem : Z) (bl : list (block V)) : nat * nat :=
  match bl with
  | [] => (O, O)
  | b :: r =>
      if mem <? limit then
        let '(n, k) := pass limit bytes (if b_alloc b then mem + bytes else mem) r in
        (S n, if b_alloc b then S k else k)
      else (O, O)
  end.
(** export/SparseDataReader.h:281-288: the rows that were read go to the allocated blocks. *)
Fixpoint deal (nvox vpb : nat) (l : list A) (bl : list (block V)) : list (block V) :=
  match bl with
  | [] => []
  | b :: r =>
      if b_alloc b then Block true (b_empty b) (Some (join_all nvox l)) :: deal nvox vpb (skipn vpb l) r
      else b :: deal nvox vpb l r
  end.
(** src/SparseFieldIO.cpp:1216-1240, the loop over passes; [bl] are the blocks from [b] on. *)
Fixpoint passes (fuel : nat) (s : hset) (limit bytes : Z) (nvox vpb next : nat) (bl : list (block V))
  : option (res (list (block V))) :=
  match fuel with
  | O => None
  | S fuel' =>
      let '(n, k) := pass limit bytes 0 bl in
      if Nat.eqb k 0 then Some (Ok bl)
      else match rows_at s vpb next k with
           | None => Some Exn
           | Some l =>
               match passes fuel' s limit bytes nvox vpb (next + k) (skipn n bl) with
               | Some (Ok r) => Some (Ok (deal nvox vpb l (firstn n bl) ++ r))
               | x => x
               end
           end
  end.

(** src/SparseFieldIO.cpp:322-456 [read] for this value type, and 1133-1208 [readData] up to the
    data.  [Ok None]: a null pointer.  The result: the field, the number of voxels and of
    scalars of a block, the number of allocated blocks. *)
Definition sparse_h5_header (dynamic : bool) (g : hgroup) : res (option (sparse V * Z * Z * Z)) :=
  let* ver := get_int g "version" in
  if negb (ver =? 1) then Exn else
  let* e := get_box g "extents" in
  let* dw := get_box g "data_window" in
  let* c := get_int g "components" in
  let* order := get_int g "block_order" in
  let* nb := get_int g "num_blocks" in
  let* br := get_attr g "block_res" 3 in
  let* xy := i32 (nth 0 br 0 * nth 1 br 0) in
  let* calc := i32 (xy * nth 2 br 0) in
  if negb (calc =? nb) then Exn else
  let* occ := get_int g "num_occupied_blocks" in
  let* bits := get_int g "bits_per_component" in
  let on_disk := if bits =? 16 then HShort else if bits =? 64 then HDouble else HFloat in
  if negb (htype_eqb on_disk ty && (c =? Z.of_nat comps)) then Ok None else
  (* the block order is 4 when the size is set *)
  let* _ := setup_blocks zero e dw 4 in
  if (order <? 0) || (10 <? order) then UB else
  let* f := setup_blocks zero e dw order in
  let nvox := 2 ^ (order * 3) in
  let* vpb := i32 (nvox * Z.of_nat comps) in
  if nb <? 0 then Exn else                             (* std::vector of negative size *)
  let* fl := get_simple g "block_is_allocated_data" HChar 1 in
  let* ev := get_simple g "block_empty_value_data" ty comps in
  let k := Z.to_nat nb in
  let* bl := set_blocks (negb dynamic) (Z.to_nat nvox) k (s_blocks f) fl
               (join_all (List.length ev / comps) ev) in
  Ok (Some (Sparse (s_ext f) (s_dw f) (s_order f) (s_bres f) (s_xy f) bl, nvox, vpb, occ)).

(** 1210-1240, without dynamic loading: 50 MB at a time. *)
Definition sparse_h5_read (limit : Z) (g : hgroup) : option (res (option (sparse V))) :=
  match sparse_h5_header false g with
  | Ok None => Some (Ok None)
  | Exn => Some Exn
  | UB => Some UB
  | Ok (Some (f, nvox, vpb, occ)) =>
      if occ <=? 0 then Some (Ok (Some f))
      else if existsb b_alloc (s_blocks f) then
        match open_h5 g vpb occ with
        | Ok s =>
            match passes (S (List.length (s_blocks f))) s limit (htype_size ty * vpb) (Z.to_nat nvox) (Z.to_nat vpb) 0 (s_blocks f) with
            | Some (Ok bl) => Some (Ok (Some (Sparse (s_ext f) (s_dw f) (s_order f) (s_bres f) (s_xy f) bl)))
            | Some Exn => Some Exn
            | Some UB => Some UB
            | None => None
            end
        | Exn => Some Exn
        | UB => Some UB
        end
      else Some (Ok (Some f))                          (* readBlockList is never called *)
  end.

(** Reading a block later: export/SparseDataReader.h:117-180 [readBlock] of row [i] into [cur]
    (the status of the read is not looked at). *)
Definition h5_block (g : hgroup) (nvox vpb occ : Z) (i : nat) (cur : list V) : res (list V) :=
  let* s := open_h5 g vpb occ in
  match rows_at s (Z.to_nat vpb) i 1 with
  | Some l => Ok (join_all (Z.to_nat nvox) l)
  | None => Ok cur
  end.

(** With dynamic loading a voxel of an allocated block is read from the block's row, numbered
    by export/SparseField.h:1413-1447 [setupReferenceBlocks]; 128-136 [fastValue] and
    src/SparseFile.cpp:498-532 [loadBlock] (the cache itself is C12/C15).  The storage of the
    block is created just before, filled with its empty value. *)
Fixpoint row_numbers (bl : list (block V)) (next : nat) : list (option nat) :=
  match bl with
  | [] => []
  | b :: r => if b_alloc b then Some next :: row_numbers r (S next) else None :: row_numbers r next
  end.
Definition lazy_h5_value (g : hgroup) (h : sparse V * Z * Z * Z) (p : v3) : res V :=
  let '(f, nvox, vpb, occ) := h in
  let* q := window_offset f p in
  let* id := block_id f (block_coord (s_order f) q) in
  let* b := arr_get (s_blocks f) id in
  if b_alloc b then
    match nth_error (row_numbers (s_blocks f) 0) (Z.to_nat id) with
    | Some (Some k) =>
        let* l := h5_block g nvox vpb occ k (repeat (b_empty b) (Z.to_nat nvox)) in
        arr_get l (cell_index (s_order f) (voxel_in_block (s_order f) q))
    | _ => UB
    end
  else Ok (b_empty b).
End V.
End H.
Arguments hset : clear implicits.
Arguments hgroup : clear implicits.
