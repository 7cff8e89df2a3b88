(** Model of the Ogawa side of src/DenseFieldIO.cpp and src/SparseFieldIO.cpp: what the
    writers put in a layer's group and what the readers make of a group.

    Voxels are stored by copying their memory: [enc v] are the [type_size ty] bytes of [v],
    [dec] the value with given bytes.  zlib is outside the model: [compress], [uncompress]
    (given the size of the target) and [compressBound] are parameters. *)
From Coq Require Import ZArith List Bool String Ascii.
From Verif Require Import Model.Base Model.FieldM Model.DenseM Model.SparseM Model.OgawaM
  Spec.OgawaSpec Model.OgM Model.BlockIOM.
Import ListNotations.
Open Scope Z_scope.

(** A string literal as bytes. *)
Definition str (s : string) : bytes := map (fun c => Z.of_nat (nat_of_ascii c)) (list_ascii_of_string s).

(** C++ [int] in memory (little endian, two's complement) and back; [V3i]. *)
Definition dec_i32 (b : bytes) : Z := let z := dec_le b in if z <? 2 ^ 31 then z else z - 2 ^ 32.
Definition enc_v3 (p : v3) : bytes := enc32 (vx p) ++ enc32 (vy p) ++ enc32 (vz p).
Definition dec_v3 (b : bytes) : v3 :=
  V3 (dec_i32 (firstn 4 b)) (dec_i32 (firstn 4 (skipn 4 b))) (dec_i32 (skipn 8 b)).
Definition enc8 (z : Z) : bytes := enc_le 1 z.

Definition zeros (n : nat) : bytes := repeat 0 n.

(** [findAttribute] and [value], throwing when the attribute is missing. *)
Definition need_attr (t : tree) (name : bytes) (ty : ogtype) : res bytes :=
  let* a := get_attr t name ty (zeros (type_size ty)) in
  match a with Some v => Ok v | None => Exn end.

(** src/OgIGroup.cpp:247-269 [datasetType], [compressedDatasetType]. *)
Definition dataset_type (t : tree) (name : bytes) (gt : Z) : res Z :=
  let* g := find_group t name gt in
  match g with
  | Some a => if Nat.ltb 2 (List.length (t_kids a)) then read_dtype a 2 else Ok INVALID_TYPE
  | None => Ok INVALID_TYPE
  end.

(** Reading [b] over the start of a buffer: [UB] if it does not fit. *)
Definition overlay (buf b : bytes) : res bytes :=
  if Nat.leb (List.length b) (List.length buf) then Ok (b ++ skipn (List.length b) buf) else UB.

Section IO.
Context {V : Type}.
Variable ty : ogtype.
Variable enc : V -> bytes.
Variable dec : bytes -> V.
(** [Data_T()]; [FieldTraits::dataDims], [DataTypeTraits::h5bits]. *)
Variable zero : V.
Variables dims bits : Z.

(** Values to memory and back: [k] values. *)
Definition enc_all (l : list V) : bytes := flat_map enc l.
Fixpoint dec_all (k : nat) (b : bytes) : list V :=
  match k with
  | O => []
  | S k' => dec (firstn (type_size ty) b) :: dec_all k' (skipn (type_size ty) b)
  end.

(** include/OgIDataset.h:187-208 [getData(0, p)] into [cur] at [p]; [None]: returned false. *)
Definition get_values (d : tree) (cur : list V) : res (option (list V)) :=
  match ds_get d 0 with
  | None => Ok None
  | Some b =>
      let* m := overlay (enc_all cur) b in
      Ok (Some (dec_all (List.length cur) m))
  end.

(** * Dense *)

(** src/DenseFieldIO.cpp:297-345 [write] (the version attribute) and 477-515
    [writeInternal]. *)
Definition dense_layer (f : dense V) : res (list tree) :=
  let* xy := i32 (vx (d_mem f) * vy (d_mem f)) in
  let* n := i32 (xy * vz (d_mem f)) in
  (* [addData(length, p)] reads [length] values at [p] *)
  if Z.of_nat (List.length (d_data f)) <? n then UB
  else Ok
    [ node_attr (str "version") TInt32 (enc32 1);
      node_attr (str "extents_min") TVecI32 (enc_v3 (bmin (d_ext f)));
      node_attr (str "extents_max") TVecI32 (enc_v3 (bmax (d_ext f)));
      node_attr (str "data_window_min") TVecI32 (enc_v3 (bmin (d_dw f)));
      node_attr (str "data_window_max") TVecI32 (enc_v3 (bmax (d_dw f)));
      node_attr (str "components") TInt32 (enc32 dims);
      node_attr (str "bits_per_component") TInt32 (enc32 bits);
      node_dataset G_DATASET (str "data") ty [enc_all (firstn (Z.to_nat n) (d_data f))] ].

(** src/DenseFieldIO.cpp:168-260 [read] and 561-583 [readData]; [want] is the type asked
    for.  [Ok None]: a null pointer. *)
Definition dense_read (t : tree) : res (option (dense V)) :=
  let* ver := need_attr t (str "version") TInt32 in
  if negb (dec_i32 ver =? 1) then Exn else
  let* emin := need_attr t (str "extents_min") TVecI32 in
  let* emax := need_attr t (str "extents_max") TVecI32 in
  let* dmin := need_attr t (str "data_window_min") TVecI32 in
  let* dmax := need_attr t (str "data_window_max") TVecI32 in
  let* _ := need_attr t (str "components") TInt32 in
  let* on_disk := dataset_type t (str "data") G_DATASET in
  if negb (type_code ty =? on_disk) then Ok None else
  let* (f, threw) := dense_set_size zero (Box (dec_v3 emin) (dec_v3 emax)) (Box (dec_v3 dmin) (dec_v3 dmax))
                                    (dense_init) in
  if (threw : bool) then Exn else
  let* d := find_typed t (str "data") G_DATASET ty in
  match d with
  | None => Exn
  | Some d =>
      let* r := get_values d (d_data f) in
      match r with
      | None => Exn
      | Some l => Ok (Some (Dense (d_ext f) (d_dw f) (d_mem f) (d_memXY f) l))
      end
  end.

(** * Sparse *)
Variable compress : bytes -> bytes.
Variable uncompress : nat -> bytes -> option bytes.
Variable compress_bound : nat -> nat.

Fixpoint mmap {A B} (g : A -> res B) (l : list A) : res (list B) :=
  match l with [] => Ok [] | a :: r => let* b := g a in let* t := mmap g r in Ok (b :: t) end.

(** The bytes [compress2] reads for block [i]; the null pointer is [UB]. *)
Definition block_bytes (f : sparse V) (i : nat) : res bytes :=
  match nth_error (s_blocks f) i with
  | Some b => match b_data b with Some d => Ok (enc_all d) | None => UB end
  | None => UB
  end.
Definition alloc_of (f : sparse V) (i : nat) : bool :=
  match nth_error (s_blocks f) i with Some b => b_alloc b | None => false end.

(** src/SparseFieldIO.cpp:673-722 [write] (the version attribute) and 1043-1129
    [writeInternal]; [out] is the list of blocks added by the writing threads, in order. *)
Definition sparse_layer (f : sparse V) (out : list nat) : res (list tree) :=
  let n := List.length (s_blocks f) in
  let* elems := mmap (block_bytes f) out in
  Ok
    [ node_attr (str "version") TInt32 (enc32 1);
      node_attr (str "extents_min") TVecI32 (enc_v3 (bmin (s_ext f)));
      node_attr (str "extents_max") TVecI32 (enc_v3 (bmax (s_ext f)));
      node_attr (str "data_window_min") TVecI32 (enc_v3 (bmin (s_dw f)));
      node_attr (str "data_window_max") TVecI32 (enc_v3 (bmax (s_dw f)));
      node_attr (str "components") TUint8 (enc8 dims);
      node_attr (str "bits_per_component") TUint8 (enc8 bits);
      node_attr (str "block_order") TUint8 (enc8 (s_order f));
      node_attr (str "num_blocks") TUint32 (enc32 (Z.of_nat n));
      node_attr (str "block_res") TVecI32 (enc_v3 (s_bres f));
      node_attr (str "data_is_compressed") TUint8 (enc8 1);
      node_dataset G_DATASET (str "block_is_allocated_data") TUint8
        [map (fun b => if b_alloc b then 1 else 0) (s_blocks f)];
      node_dataset G_DATASET (str "block_empty_value_data") ty [enc_all (map b_empty (s_blocks f))];
      node_attr (str "num_occupied_blocks") TUint32
        (enc32 (Z.of_nat (List.length (filter b_alloc (s_blocks f)))));
      node_dataset G_CDATASET (str "data") ty (map compress elems) ].

(** The writer as a whole: [sched] is what the threads do. *)
Definition sparse_write_layer (f : sparse V) (reload : bool) (sched : list nat) : res (list tree) :=
  let n := List.length (s_blocks f) in
  sparse_layer f (w_out (wrun n (alloc_of f) reload (w_init n (alloc_of f)) sched)).

(** What [readData] finds out before it reads any block, src/SparseFieldIO.cpp:460-580 and
    730-810. *)
Record header : Type := H {
  h_field : sparse V;            (* with isAllocated and emptyValue set, no data *)
  h_nblocks : nat;               (* the file's number of blocks *)
  h_occupied : Z; h_compressed : bool }.

Fixpoint set_flags (bl : list (block V)) (fl : list Z) (ev : list V) : res (list (block V)) :=
  match fl, ev with
  | a :: fl', e :: ev' =>
      match bl with
      | [] => UB                                     (* m_blocks[i] past the end *)
      | b :: bl' =>
          let* r := set_flags bl' fl' ev' in
          Ok (Block (negb (a =? 0)) e None :: r)
      end
  | _, _ => Ok bl
  end.

Definition sparse_header (t : tree) : res (option header) :=
  let* ver := need_attr t (str "version") TInt32 in
  if negb (dec_i32 ver =? 1) then Exn else
  let* emin := need_attr t (str "extents_min") TVecI32 in
  let* emax := need_attr t (str "extents_max") TVecI32 in
  let* dmin := need_attr t (str "data_window_min") TVecI32 in
  let* dmax := need_attr t (str "data_window_max") TVecI32 in
  let* _ := need_attr t (str "components") TUint8 in
  let* order := need_attr t (str "block_order") TUint8 in
  let* nb := need_attr t (str "num_blocks") TUint32 in
  let* bres := need_attr t (str "block_res") TVecI32 in
  (* 565-570; [numBlocks] is an [int] *)
  let* xy := i32 (vx (dec_v3 bres) * vy (dec_v3 bres)) in
  let* calc := i32 (xy * vz (dec_v3 bres)) in
  if negb (calc =? dec_i32 nb) then Exn else
  let* occ := need_attr t (str "num_occupied_blocks") TUint32 in
  let* comp := need_attr t (str "data_is_compressed") TUint8 in
  let compressed := negb (dec_le comp =? 0) in
  let* on_disk := dataset_type t (str "data") (if compressed then G_CDATASET else G_DATASET) in
  if negb (type_code ty =? on_disk) then Ok None else
  (* readData: the default block order is still 4 when the size is set *)
  let e := Box (dec_v3 emin) (dec_v3 emax) in
  let dw := Box (dec_v3 dmin) (dec_v3 dmax) in
  let* f0 := setup_blocks zero e dw 4 in
  let o := dec_le order in
  if 10 <? o then UB else                            (* 1 << (order * 3) *)
  let* f := setup_blocks zero e dw o in
  if dec_i32 nb <? 0 then Exn else                   (* std::vector of negative size *)
  let n := Z.to_nat (dec_i32 nb) in
  let* da := find_typed t (str "block_is_allocated_data") G_DATASET TUint8 in
  match da with
  | None => Exn
  | Some da =>
      let* fl := (match ds_get da 0 with None => Ok (zeros n) | Some b => overlay (zeros n) b end) in
      let* de := find_typed t (str "block_empty_value_data") G_DATASET ty in
      match de with
      | None => Exn
      | Some de =>
          let* ev := get_values de (repeat zero n) in
          let ev := match ev with Some l => l | None => repeat zero n end in
          let* bl := set_flags (s_blocks f) fl ev in
          Ok (Some (H (Sparse (s_ext f) (s_dw f) (s_order f) (s_bres f) (s_xy f) bl) n (dec_le occ) compressed))
      end
  end.

(** The data set of blocks, include/OgSparseDataReader.h:125-171: checked for type and number
    of elements. *)
Definition open_blocks (t : tree) (h : header) : res tree :=
  let* d := find_typed t (str "data") (if h_compressed h then G_CDATASET else G_DATASET) ty in
  match d with
  | None => Exn
  | Some d => if ds_num d =? h_occupied h then Ok d else Exn
  end.

(** include/OgSparseDataReader.h:184-214 [readBlock] into [cur]. *)
Definition read_block_data (compressed : bool) (b : bytes) (cur : list V) : res (list V) :=
  if compressed then
    if Nat.ltb (compress_bound (List.length (enc_all cur))) (List.length b) then UB   (* m_compressionCache *)
    else match uncompress (List.length (enc_all cur)) b with
         | Some u => let* m := overlay (enc_all cur) u in Ok (dec_all (List.length cur) m)
         | None => Ok cur    (* "ERROR in uncompress": what zlib wrote so far is not modelled *)
         end
  else let* m := overlay (enc_all cur) b in Ok (dec_all (List.length cur) m).

(** One block once the threads are done: [mem] is the element read into it, if any.  The
    storage was created with the empty value of the time, [Data_T(0)], line 788. *)
Definition fill_block (order : Z) (compressed : bool) (mem : option bytes) (b : block V) : res (block V) :=
  if b_alloc b then
    let fresh := repeat zero (Z.to_nat (cells_per_block order)) in
    match mem with
    | None => Ok (Block true (b_empty b) (Some fresh))
    | Some e => let* d := read_block_data compressed e fresh in Ok (Block true (b_empty b) (Some d))
    end
  else Ok b.
Fixpoint fill_blocks (order : Z) (compressed : bool) (mem : nat -> option bytes) (i : nat) (bl : list (block V))
  : res (list (block V)) :=
  match bl with
  | [] => Ok []
  | b :: r =>
      let* b' := fill_block order compressed (mem i) b in
      let* r' := fill_blocks order compressed mem (S i) r in
      Ok (b' :: r')
  end.

(** src/SparseFieldIO.cpp:815-842, without dynamic loading; [sched] is what the reading
    threads do. *)
Definition sparse_read (t : tree) (sched : list nat) : res (option (sparse V)) :=
  let* h := sparse_header t in
  match h with
  | None => Ok None
  | Some h =>
      let f := h_field h in
      let set bl := Sparse (s_ext f) (s_dw f) (s_order f) (s_bres f) (s_xy f) bl in
      if h_occupied h =? 0 then
        let* bl := fill_blocks (s_order f) (h_compressed h) (fun _ => None) 0 (s_blocks f) in Ok (Some (set bl))
      else
        let* d := open_blocks t h in
        let r := rrun (h_nblocks h) (alloc_of f) (ds_get d) r_init sched in
        if existsb (fun t => match r_pc r t with RFail => true | _ => false end) sched then UB else
        let* bl := fill_blocks (s_order f) (h_compressed h) (r_mem r) 0 (s_blocks f) in
        Ok (Some (set bl))
  end.
Definition read_threads (t : tree) (sched : list nat) : res (nat -> rpc) :=
  let* h := sparse_header t in
  match h with
  | None => Ok (fun _ => RDone)
  | Some h =>
      if h_occupied h =? 0 then Ok (fun _ => RDone)
      else
        let* d := open_blocks t h in
        Ok (r_pc (rrun (h_nblocks h) (alloc_of (h_field h)) (ds_get d) r_init sched))
  end.

(** With dynamic loading: src/SparseFieldIO.cpp:784-792, 820-822, the field has no block
    data; export/SparseField.h:1413-1447 [setupReferenceBlocks] numbers the allocated blocks;
    a voxel in an allocated block is read from that element of the file (by the block cache,
    src/SparseFile.cpp:498-532 [loadBlock]; that the cache hands out exactly the stored block
    is C12/C15). *)
Definition lazy_read (t : tree) : res (option header) := sparse_header t.
Fixpoint file_block_indices (bl : list (block V)) (next : nat) : list (option nat) :=
  match bl with
  | [] => []
  | b :: r => if b_alloc b then Some next :: file_block_indices r (S next) else None :: file_block_indices r next
  end.
Definition lazy_value (t : tree) (h : header) (p : v3) : res V :=
  let f := h_field h in
  let* q := window_offset f p in
  let* id := block_id f (block_coord (s_order f) q) in
  let* b := arr_get (s_blocks f) id in
  if b_alloc b then
    let* d := open_blocks t h in
    match nth_error (file_block_indices (s_blocks f) 0) (Z.to_nat id) with
    | Some (Some k) =>
        match ds_get d k with
        | Some e =>
            let* l := read_block_data (h_compressed h) e
                        (repeat (b_empty b) (Z.to_nat (cells_per_block (s_order f)))) in
            arr_get l (cell_index (s_order f) (voxel_in_block (s_order f) q))
        | None => UB
        end
    | _ => UB
    end
  else Ok (b_empty b).
End IO.
