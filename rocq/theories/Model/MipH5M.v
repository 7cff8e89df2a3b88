(** Model of the HDF5 side of include/MIPFieldIO.h and src/MIPFieldIO.cpp: what the writer puts
    in the group of a MIP field, what the reader makes of a group, and how a level is loaded
    later.  Groups are those of C58 ([Hdf5FileM]), levels are written and read as in C56. *)
From Coq Require Import ZArith List Bool String.
From Verif Require Import Model.Base Model.FieldM Model.OgawaM Spec.OgawaSpec Model.OgM Model.FieldIOM Model.FileM Model.MipIOM
  Model.Hdf5M Model.Hdf5FileM.
Import ListNotations.
Open Scope Z_scope.

Section H5.
Context {A F : Type}.
Notation hnode := (hnode (A := A)).
Notation hlink := (hlink (A := A)).
Variable kind : base_kind.
(** What the writer of the levels' class makes of an empty group, and what it returns; what
    the reader of that class makes of a group. *)
Variable wr : F -> res (hgroup A * bool).
Variable rd : hgroup A -> res (option F).
(** The value type: that of its scalars and how many it has. *)
Variables (ty : htype) (dims : nat).

Definition group_of (g : hgroup A) : hnode := HNode (map h5_attr (hg_attrs g)) (map h5_set (hg_sets g)).

(** include/MIPFieldIO.h:450-463: the groups of the levels from [i] on, [n] of them, in a new
    group.  What [io->write] returns is not looked at. *)
Fixpoint h5_levels (i n : nat) (levels : list F) : res (list (bytes * hlink)) :=
  match n with
  | O => Ok []
  | S n' =>
      match nth_error levels i with
      | None => UB                                   (* m_rawFields[i] past the end *)
      | Some f =>
          let* (g, _) := wr f in
          let* r := h5_levels (S i) n' levels in
          Ok ((level_name i, LGroup (group_of g)) :: r)
      end
  end.

(** src/MIPFieldIO.cpp:304-315 (the version) and include/MIPFieldIO.h:388-466 [writeInternal],
    into the group [g].  The result: the group and what was returned. *)
Definition int_attr (l : list (bytes * aval)) (n : bytes) (v : list Z) : option (list (bytes * aval)) :=
  put_num l n false 4 [List.length v] (flat_map enc32 v).
Definition mip_h5_write (m : mip_field F) (g : hnode) : res (hnode * bool) :=
  let* l := or_throw (int_attr (n_attrs g) (str "version") [1]) in
  let* l := or_throw (int_attr l (str "extents") (of_box (mi_ext m))) in
  let* l := or_throw (int_attr l (str "data_window") (of_box (mi_dw m))) in
  let* l := or_throw (int_attr l (str "components") [Z.of_nat dims]) in
  match int_attr l (str "bits_per_component") [h5bits ty] with
  | None => Ok (HNode l (n_links g), false)
  | Some l =>
      let* l := or_throw (put_str l (str "base_type") (class_of kind)) in
      match find_by (str "mip_levels") (n_links g) with
      | Some _ => Exn                                (* no group: its attribute cannot be written *)
      | None =>
          let* a := or_throw (int_attr [] (str "levels") [Z.of_nat (mi_num m)]) in
          let* gs := h5_levels 0 (mi_num m) (mi_levels m) in
          Ok (HNode l (n_links g ++ [(str "mip_levels", LGroup (HNode a gs))]), true)
      end
  end.

(** Six [int]s are read into a [Box3i]; a new one is empty. *)
Definition get_six (l : list (bytes * aval)) (n : bytes) (cur : bytes) : res bytes := get_num l n false 4 [6%nat] (Some cur).
Definition new_box : bytes := flat_map enc32 [2147483647; 2147483647; 2147483647; -2147483648; -2147483648; -2147483648].
Definition box_in (d : bytes) : box := box_of (ints 6 d).

(** include/MIPFieldIO.h:575-601: extents and data window of the levels from [i] on, [n] of
    them; [e], [d]: what the variables held before. *)
Fixpoint h5_sizes (mips : hnode) (i n : nat) (e d : bytes) : res (list (box * box)) :=
  match n with
  | O => Ok []
  | S n' =>
      match sub_group mips (level_name i) with
      | None => Exn                                  (* attributes of no group are missing *)
      | Some g =>
          let* e := get_six (n_attrs g) (str "extents") e in
          let* d := get_six (n_attrs g) (str "data_window") d in
          let* r := h5_sizes mips (S i) n' e d in
          Ok ((box_in e, box_in d) :: r)
      end
  end.

(** src/MIPFieldIO.cpp:86-190 [read], include/MIPFieldIO.h:528-606 [readInternal],
    export/MIPField.h:428-458 [setupLazyLoad].  [Ok None]: a null pointer. *)
Definition get_int1 (l : list (bytes * aval)) (n : bytes) : res Z :=
  let* d := get_num l n false 4 [1%nat] None in Ok (dec_i32 d).
Definition mip_h5_read (g : hnode) : res (option mip_proxy) :=
  let l := n_attrs g in
  let* ver := get_int1 l (str "version") in
  if negb (ver =? 1) then Exn else
  let* c := get_int1 l (str "components") in
  let* bits := get_int1 l (str "bits_per_component") in
  let* base := get_str l (str "base_type") in
  let on_disk := if bits =? 16 then HShort else if bits =? 64 then HDouble else HFloat in
  let k := if bytes_eqb base (class_of BSparse) then Some BSparse else if bytes_eqb base (class_of BDense) then Some BDense else None in
  if negb (htype_eqb on_disk ty && (c =? Z.of_nat dims)) then Ok None else
  match k with
  | None => Ok None
  | Some k =>
      let* e := get_six l (str "extents") new_box in
      let* d := get_six l (str "data_window") new_box in
      match sub_group g (str "mip_levels") with
      | None => Exn
      | Some mips =>
          let* n := get_int1 (n_attrs mips) (str "levels") in
          let* s := h5_sizes mips 0 (Z.to_nat n) e d in
          if negb (sane (map fst s)) then Exn else
          match s with
          | [] => Exn
          | (e, d) :: _ => Ok (Some (MipProxy k e d s))
          end
      end
  end.

(** include/MIPFieldIO.h:246-280 [load] in the file [root] (the same file as before); the path
    is made in 596-599. *)
Definition load_h5 (root : hnode) (layer : bytes) (i : nat) : res F :=
  match g_open root (Some []) (level_path layer i) with
  | None => Exn                                      (* read() is given no group *)
  | Some p =>
      match node_at root p with
      | None => Exn
      | Some g => let* f := rd (view g) in match f with Some f => Ok f | None => Exn end
      end
  end.
End H5.
