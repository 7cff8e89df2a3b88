(** Model of the Ogawa side of include/MIPFieldIO.h and src/MIPFieldIO.cpp: what the writer
    puts in the group of a MIP field, what the reader makes of a group, and how a level is
    loaded later. *)
From Coq Require Import ZArith List Bool String.
From Verif Require Import Model.Base Model.FieldM Model.OgawaM Spec.OgawaSpec Model.OgM Model.FieldIOM Model.FileM.
Import ListNotations.
Open Scope Z_scope.

(** The two kinds of levels there are, and [Field_T::staticClassName()]. *)
Inductive base_kind : Type := BDense | BSparse.
Definition class_of (k : base_kind) : bytes := match k with BDense => str "DenseField" | BSparse => str "SparseField" end.

(** include/MIPFieldIO.h:512-513, 697-698: the name of a level's group. *)
Definition level_name (i : nat) : bytes := str "level." ++ int_name i.

(** A MIP field, export/MIPField.h:187-275: extents, data window, [m_numLevels] and the
    levels it has (all loaded). *)
Record mip_field (F : Type) : Type := MipField { mi_ext : box; mi_dw : box; mi_num : nat; mi_levels : list F }.
Arguments MipField {F}. Arguments mi_ext {F}. Arguments mi_dw {F}. Arguments mi_num {F}. Arguments mi_levels {F}.

Section IO.
Context {F : Type}.
(** The extents and the data window of a level; the writer and the reader of its class
    ([createFieldIO]); the writer may behave differently for each level (thread schedules). *)
Variables (ext dw : F -> box) (kind : base_kind).
Variable wr : nat -> F -> res (list tree).
Variable rd : tree -> res (option F).
Variable ty : ogtype.
(** [FieldTraits::dataDims], [DataTypeTraits::h5bits]. *)
Variables dims bits : Z.

(** export/MIPField.h:714-760 [sanityChecks] (the pointers are not null; [size()] is not checked
    for int overflow). *)
Fixpoint shrinking (prev : v3) (l : list box) : bool :=
  match l with
  | [] => true
  | b :: r =>
      let s := box_size b in
      if (vx prev <? vx s) || (vy prev <? vy s) || (vz prev <? vz s) then false
      else if (vx prev <=? vx s) && (vy prev <=? vy s) && (vz prev <=? vz s) then false
      else shrinking s r
  end.
Definition sane (l : list box) : bool := match l with [] => false | b :: r => shrinking (box_size b) r end.

(** export/MIPField.h:322-329 (a new field; [m_numLevels] is 1, export/MIPBase.h:214) and
    387-424 [clear], [setup]. *)
Definition mip_new : mip_field F := MipField (Box (V3 0 0 0) (V3 (-1) (-1) (-1))) (Box (V3 0 0 0) (V3 (-1) (-1) (-1))) 1 [].
Definition mip_clear (m : mip_field F) : mip_field F := MipField (mi_ext m) (mi_dw m) 0 [].
Definition mip_setup (l : list F) (m : mip_field F) : res (mip_field F) :=
  if sane (map ext l) then match l with f :: _ => Ok (MipField (ext f) (dw f) (List.length l) l) | [] => Exn end else Exn.

(** include/MIPFieldIO.h:507-521: the groups of the levels from [i] on, [n] of them. *)
Fixpoint level_groups (i n : nat) (levels : list F) : res (list tree) :=
  match n with
  | O => Ok []
  | S n' =>
      match nth_error levels i with
      | None => UB                                   (* m_rawFields[i] past the end *)
      | Some f =>
          let* l := wr i f in
          let* r := level_groups (S i) n' levels in
          Ok (node_group (level_name i) l :: r)
      end
  end.
(** src/MIPFieldIO.cpp:390-394 (the version) and include/MIPFieldIO.h:470-524
    [writeInternal]. *)
Definition mip_layer (m : mip_field F) : res (list tree) :=
  let* gs := level_groups 0 (mi_num m) (mi_levels m) in
  Ok
    [ node_attr (str "version") TInt32 (enc32 1);
      node_attr (str "extents_min") TVecI32 (enc_v3 (bmin (mi_ext m)));
      node_attr (str "extents_max") TVecI32 (enc_v3 (bmax (mi_ext m)));
      node_attr (str "data_window_min") TVecI32 (enc_v3 (bmin (mi_dw m)));
      node_attr (str "data_window_max") TVecI32 (enc_v3 (bmax (mi_dw m)));
      node_attr (str "components") TUint8 (enc8 dims);
      node_attr (str "bits_per_component") TUint8 (enc8 bits);
      node_attr (str "base_type") TString (class_of kind);
      node_dataset G_DATASET (str "dummy_data") ty [];
      node_group (str "mip_levels") (node_attr (str "levels") TUint32 (enc32 (Z.of_nat (mi_num m))) :: gs) ].

(** [findGroup]: an invalid group is [None]; attributes of an invalid group are missing. *)
Definition sub_group (t : tree) (path : bytes) : res (option tree) :=
  let* g := find_group t path G_GROUP in
  Ok (match g with Some g => if validate g then Some g else None | None => None end).
(** include/MIPFieldIO.h:695-740: extents and data window of the levels from [i] on, [n] of
    them. *)
Fixpoint read_proxies (mips : tree) (i n : nat) : res (list (box * box)) :=
  match n with
  | O => Ok []
  | S n' =>
      let* g := sub_group mips (level_name i) in
      match g with
      | None => Exn
      | Some g =>
          let* emin := need_attr g (str "extents_min") TVecI32 in
          let* emax := need_attr g (str "extents_max") TVecI32 in
          let* dmin := need_attr g (str "data_window_min") TVecI32 in
          let* dmax := need_attr g (str "data_window_max") TVecI32 in
          let* r := read_proxies mips (S i) n' in
          Ok ((Box (dec_v3 emin) (dec_v3 emax), Box (dec_v3 dmin) (dec_v3 dmax)) :: r)
      end
  end.

(** src/MIPFieldIO.cpp:194-299 [read] of a valid group, include/MIPFieldIO.h:608-745
    [readInternal], export/MIPField.h:428-458 [setupLazyLoad].  [Ok None]: a null pointer.  Otherwise the kind
    of the field, its extents, its data window, and for each level its extents and data
    window: nothing else is read yet.  (A missing group of levels throws, although the
    [throw] of line 679 is missing: its attribute is missing too.) *)
Definition mip_type (ty : ogtype) : bool :=
  match ty with TFloat16 | TFloat32 | TFloat64 | TVec16 | TVec32 | TVec64 => true | _ => false end.
Record mip_proxy : Type := MipProxy { mp_kind : base_kind; mp_ext : box; mp_dw : box; mp_levels : list (box * box) }.
Definition mip_read (t : tree) : res (option mip_proxy) :=
  let* ver := need_attr t (str "version") TInt32 in
  if negb (dec_i32 ver =? 1) then Exn else
  let* _ := need_attr t (str "components") TUint8 in
  let* base := need_attr t (str "base_type") TString in
  let k := if bytes_eqb base (class_of BSparse) then Some BSparse else if bytes_eqb base (class_of BDense) then Some BDense else None in
  let* on_disk := dataset_type t (str "dummy_data") G_DATASET in
  if negb (type_code ty =? on_disk) || negb (mip_type ty) then Ok None else
  match k with
  | None => Ok None
  | Some k =>
      let* mips := sub_group t (str "mip_levels") in
      match mips with
      | None => Exn
      | Some mips =>
          let* n := need_attr mips (str "levels") TUint32 in
          let* l := read_proxies mips 0 (Z.to_nat (dec_i32 n)) in
          if negb (sane (map fst l)) then Exn else
          match l with
          | [] => Exn
          | (e, d) :: _ => Ok (Some (MipProxy k e d l))
          end
      end
  end.

(** include/MIPFieldIO.h:736-737: the path of a level. '/' is 47. *)
Definition level_path (layer : bytes) (i : nat) : bytes := layer ++ [47] ++ str "mip_levels" ++ [47] ++ level_name i.
(** include/MIPFieldIO.h:344-367 [load] in the file [root]. *)
Definition load_level (root : tree) (layer : bytes) (i : nat) : res F :=
  let* g := sub_group root (level_path layer i) in
  match g with
  | None => Exn
  | Some g => let* f := rd g in match f with Some f => Ok f | None => Exn end
  end.
End IO.
