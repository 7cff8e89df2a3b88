(** Model of opening an Ogawa archive of any contents as a Field3D file and reading a layer of it: src/Field3DFile.cpp.
    The archive is complete (a tree, C16); its groups need not be what this library writes.  The parts are those of the
    other models: Model/OgM.v, Model/FileM.v, Model/MetaM.v, Model/MappingIOM.v, Model/FieldIOM.v. *)
From Coq Require Import ZArith List Bool String.
From Verif Require Import Model.Base Model.FieldM Model.DenseM Model.SparseM Model.OgawaM Spec.OgawaSpec Model.OgM Model.FieldIOM Model.FileM Model.MetaM Model.CurveM Model.MappingIOM Model.MipIOM.
Import ListNotations.
Open Scope Z_scope.

(** src/Field3DFile.cpp:153-186 [isSupportedFileVersion] with export/ns.h:38-39 and [k_minFileVersion]. *)
Definition supported (major minor : Z) : bool :=
  if (1 <? major) || ((major =? 1) && (7 <? minor)) then true
  else negb ((major <? 0) || ((major =? 0) && (minor <? 0))).

Section F.
Context {T X : Type}.
Variables ltb eqb : T -> T -> bool.
Variable t_dec : bytes -> T.
Variable x_dec : bytes -> X.
Variable t0 : T.
Variables ss0 cs0 : X.

(** An open file: its metadata, its partitions and their mappings ([None]: a null pointer). *)
Record infile : Type := InFile { in_meta : meta; in_parts : list ipart; in_maps : list (option (@mapping T X)) }.

(** src/Field3DFile.cpp:714-845 [open] from line 743 on, the archive being valid.  [Ok None]: [false].  A root group
    that is not valid (src/OgIGroup.cpp:20-27) has no attributes and no groups; that there is no version is ignored. *)
Definition f_open (t : tree) : res (option infile) :=
  if negb (validate t) then Ok (Some (InFile meta_empty [] []))
  else
    let* v := get_attr t (str "version_number") TVecI32 (zeros 12) in
    if negb (match v with Some b => supported (vx (dec_v3 b)) (vy (dec_v3 b)) | None => true end) then Ok None
    else
      let* g := find_valid t k_global in
      let* m := match g with Some g => read_meta g meta_empty | None => Ok meta_empty end in
      let* l := read_info t in
      let* ms := mmap (fun p => match ip_map p with Some g => mapping_read ltb eqb t_dec x_dec t0 ss0 cs0 g | None => Ok None end) l in
      Ok (Some (InFile m l ms)).
End F.

Section R.
Context {V : Type}.
Variable ty : ogtype.
Variable enc : V -> bytes.
Variable dec : bytes -> V.
Variable zero : V.
Variable uncompress : nat -> bytes -> option bytes.
Variable compress_bound : nat -> nat.

(** src/FieldMapping.cpp:146-151 [setExtents], export/Field.h:901-902 [sizeChanged]: a field that is resized has its mapping
    compute the size of the extents, in [int]. *)
Definition map_extents (e : box) : res v3 :=
  let* x := axis_size (vx (bmin e)) (vx (bmax e)) in
  let* y := axis_size (vy (bmin e)) (vy (bmax e)) in
  let* z := axis_size (vz (bmin e)) (vz (bmax e)) in
  Ok (V3 x y z).

(** src/DenseFieldIO.cpp:168-260 up to the call of [setSize] (567): the extents it is called with, [None] if the reading
    is over before that. *)
Definition dense_sized (t : tree) : res (option box) :=
  let* ver := need_attr t (str "version") TInt32 in
  if negb (dec_i32 ver =? 1) then Exn else
  let* emin := need_attr t (str "extents_min") TVecI32 in
  let* emax := need_attr t (str "extents_max") TVecI32 in
  let* _ := need_attr t (str "data_window_min") TVecI32 in
  let* _ := need_attr t (str "data_window_max") TVecI32 in
  let* _ := need_attr t (str "components") TInt32 in
  let* on_disk := dataset_type t (str "data") G_DATASET in
  if negb (type_code ty =? on_disk) then Ok None else Ok (Some (Box (dec_v3 emin) (dec_v3 emax))).
(** src/SparseFieldIO.cpp:461-625 in the same way (742). *)
Definition sparse_sized (t : tree) : res (option box) :=
  let* ver := need_attr t (str "version") TInt32 in
  if negb (dec_i32 ver =? 1) then Exn else
  let* emin := need_attr t (str "extents_min") TVecI32 in
  let* emax := need_attr t (str "extents_max") TVecI32 in
  let* _ := need_attr t (str "data_window_min") TVecI32 in
  let* _ := need_attr t (str "data_window_max") TVecI32 in
  let* _ := need_attr t (str "components") TUint8 in
  let* _ := need_attr t (str "block_order") TUint8 in
  let* nb := need_attr t (str "num_blocks") TUint32 in
  let* bres := need_attr t (str "block_res") TVecI32 in
  let* xy := i32 (vx (dec_v3 bres) * vy (dec_v3 bres)) in
  let* calc := i32 (xy * vz (dec_v3 bres)) in
  if negb (calc =? dec_i32 nb) then Exn else
  let* _ := need_attr t (str "num_occupied_blocks") TUint32 in
  let* comp := need_attr t (str "data_is_compressed") TUint8 in
  let* on_disk := dataset_type t (str "data") (if negb (dec_le comp =? 0) then G_CDATASET else G_DATASET) in
  if negb (type_code ty =? on_disk) then Ok None else Ok (Some (Box (dec_v3 emin) (dec_v3 emax))).
(** The readers of Model/FieldIOM.v, with what [setSize] does to the mapping before anything else. *)
Definition f_dense_read (t : tree) : res (option (dense V)) :=
  let* e := dense_sized t in
  match e with
  | None => Ok None
  | Some e => let* _ := map_extents e in dense_read ty enc dec zero t
  end.
Definition f_sparse_read (t : tree) (sched : list nat) : res (option (sparse V)) :=
  let* e := sparse_sized t in
  match e with
  | None => Ok None
  | Some e => let* _ := map_extents e in sparse_read ty enc dec zero uncompress compress_bound t sched
  end.

(** include/MIPFieldIO.h:695-740: the levels of a MIP field from [i] on, [n] of them; 732: [setSize] of the proxy. *)
Fixpoint f_read_proxies (mips : tree) (i n : nat) : res (list (box * box)) :=
  match n with
  | O => Ok []
  | S n' =>
      let* g := sub_group mips (level_name i) in
      match g with
      | None => Exn
      | Some g =>
          let* emin := need_attr g (str "extents_min") TVecI32 in
          let* emax := need_attr g (str "extents_max") TVecI32 in
          let* dmin := need_attr g (str "data_window_min") TVecI32 in
          let* dmax := need_attr g (str "data_window_max") TVecI32 in
          let* _ := map_extents (Box (dec_v3 emin) (dec_v3 emax)) in
          let* r := f_read_proxies mips (S i) n' in
          Ok ((Box (dec_v3 emin) (dec_v3 emax), Box (dec_v3 dmin) (dec_v3 dmax)) :: r)
      end
  end.
(** [mip_read] (Model/MipIOM.v: src/MIPFieldIO.cpp:194-299, include/MIPFieldIO.h:608-745, export/MIPField.h:428-458) with
    these.  The sizes of [sanityChecks] and of lines 454 and 679 (export/MIPField.h) are then ints. *)
Definition f_mip_read (t : tree) : res (option mip_proxy) :=
  let* ver := need_attr t (str "version") TInt32 in
  if negb (dec_i32 ver =? 1) then Exn else
  let* _ := need_attr t (str "components") TUint8 in
  let* base := need_attr t (str "base_type") TString in
  let k := if bytes_eqb base (class_of BSparse) then Some BSparse else if bytes_eqb base (class_of BDense) then Some BDense else None in
  let* on_disk := dataset_type t (str "dummy_data") G_DATASET in
  if negb (type_code ty =? on_disk) || negb (mip_type ty) then Ok None else
  match k with
  | None => Ok None
  | Some k =>
      let* mips := sub_group t (str "mip_levels") in
      match mips with
      | None => Exn
      | Some mips =>
          let* n := need_attr mips (str "levels") TUint32 in
          let* l := f_read_proxies mips 0 (Z.to_nat (dec_i32 n)) in
          if negb (sane (map fst l)) then Exn else
          match l with
          | [] => Exn
          | (e, d) :: _ => Ok (Some (MipProxy k e d l))
          end
      end
  end.

Inductive anyfield : Type := ADense (f : dense V) | ASparse (f : sparse V) | AMip (p : mip_proxy).

(** src/Field3DFile.cpp:246-277 [readField], dense, sparse and MIP fields (include/MIPFieldIO.h:151); a class that is not
    registered gives a null pointer, and so does a MAC field (src/MACFieldIO.cpp:158-164). *)
Definition f_read_field (class : bytes) (lg : tree) (sched : list nat) : res (option anyfield) :=
  if bytes_eqb class (str "DenseField") then
    let* r := f_dense_read lg in Ok (option_map ADense r)
  else if bytes_eqb class (str "SparseField") then
    let* r := f_sparse_read lg sched in Ok (option_map ASparse r)
  else if bytes_eqb class (str "MIPField") then
    let* r := f_mip_read lg in Ok (option_map AMip r)
  else Ok None.

(** include/MIPFieldIO.h:344-367 [load] of level [i] of the MIP field at the path [layer], and export/MIPField.h:684-711
    [loadLevelFromDisk]: 706 computes the size of the data window of the MIP field, src/MIPUtil.cpp:93 [1 << level] (the
    shifts of the offset, 97-99, are taken to be defined). *)
Definition f_load_level (t : tree) (layer : bytes) (p : mip_proxy) (i : nat) (sched : list nat) : res anyfield :=
  let rd g := match mp_kind p with
    | BDense => let* r := f_dense_read g in Ok (option_map ADense r)
    | BSparse => let* r := f_sparse_read g sched in Ok (option_map ASparse r)
    end in
  let* f := load_level rd t layer i in
  let* _ := if box_empty (mp_dw p) then Ok (V3 1 1 1) else map_extents (mp_dw p) in
  if Nat.leb 31 i then UB else Ok f.

(** src/Field3DFile.cpp:1514-1602 [readLayer].  1558: [findAttribute] gives an attribute without a group if there is
    none, whose [value] (include/OgIAttribute.h:94-103) uses it. *)
Definition f_layer (t : tree) (l : list ipart) (part layer : bytes) (sched : list nat) : res (option (anyfield * meta)) :=
  let* x := read_layer t l part layer in
  match x with
  | None => Ok None
  | Some x =>
      let* a := find_typed (il_group x) (str "class_name") G_ATTR TString in
      match a with
      | None => UB
      | Some a =>
          let* c := attr_value TString [] a in
          let* f := f_read_field c (il_group x) sched in
          match f with
          | None => Ok None
          | Some f => let* m := read_layer_meta (il_group x) in Ok (Some (f, m))
          end
      end
  end.
End R.
