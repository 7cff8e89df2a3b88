(** Model of the Field3D layer on top of Ogawa: include/OgUtil.h, src/OgUtil.cpp,
    include/OgOGroup.h, include/OgOAttribute.h, include/OgODataset.h, src/OgIGroup.cpp,
    include/OgIAttribute.h, include/OgIDataset.h.

    The layer is modelled over archive contents (trees), as written and read by the model
    of the Ogawa library (C16 relates trees and files).  A [std::string] is a list of
    bytes; a C string is what precedes the first 0.  Dereferencing the null pointer that
    [getData]/[getGroup] return for a missing child is [UB]. *)
From Coq Require Import ZArith List Bool.
From Verif Require Import Model.Base Model.OgawaM Spec.OgawaSpec.
Import ListNotations.
Open Scope Z_scope.

Notation bytes := (list Z) (only parsing).
Definition bytes_eqb (a b : bytes) : bool := if list_eq_dec Z.eq_dec a b then true else false.

(** export/Traits.h:121-159 [OgDataType]. *)
Inductive ogtype : Type :=
| TInt8 | TUint8 | TInt16 | TUint16 | TInt32 | TUint32 | TInt64 | TUint64
| TFloat16 | TFloat32 | TFloat64 | TVec16 | TVec32 | TVec64 | TVecI32 | TMtx64 | TString.
Definition type_code (t : ogtype) : Z :=
  match t with
  | TInt8 => 0 | TUint8 => 1 | TInt16 => 2 | TUint16 => 3 | TInt32 => 4 | TUint32 => 5
  | TInt64 => 6 | TUint64 => 7 | TFloat16 => 8 | TFloat32 => 9 | TFloat64 => 10
  | TVec16 => 11 | TVec32 => 12 | TVec64 => 13 | TVecI32 => 14 | TMtx64 => 15 | TString => 16
  end.
(** [F3DInvalidDataType]. *)
Definition INVALID_TYPE : Z := 127.
(** [sizeof(T)]; strings have no fixed size. *)
Definition type_size (t : ogtype) : nat :=
  match t with
  | TInt8 | TUint8 => 1 | TInt16 | TUint16 | TFloat16 => 2 | TInt32 | TUint32 | TFloat32 => 4
  | TInt64 | TUint64 | TFloat64 => 8 | TVec16 => 6 | TVec32 | TVecI32 => 12 | TVec64 => 24
  | TMtx64 => 128 | TString => 0
  end.

(** include/OgUtil.h:41-46 [OgGroupType]. *)
Definition G_GROUP : Z := 0.
Definition G_ATTR : Z := 1.
Definition G_DATASET : Z := 2.
Definition G_CDATASET : Z := 3.

Definition enc32 (z : Z) : bytes := enc_le 4 z.

(** * Writing *)

(** src/OGroup.cpp:98-134 [addData]: the children it adds (two when there is nothing to
    write, see [o_add_data]). *)
Definition wdata (b : bytes) : list tree := match b with [] => [Data []; Data []] | _ => [Data b] end.

(** include/OgOGroup.h:38-83: a group; [kids] are whatever is then added to it.  A name
    containing '/' throws. *)
Definition node_group (name : bytes) (kids : list tree) : tree :=
  Group (wdata name ++ wdata (enc32 G_GROUP) ++ kids).
Definition has_slash (name : bytes) : bool := existsb (Z.eqb 47) name.

(** include/OgOAttribute.h:43-67.  No check of the name. *)
Definition node_attr (name : bytes) (ty : ogtype) (value : bytes) : tree :=
  Group (wdata name ++ wdata (enc32 G_ATTR) ++ wdata (enc32 (type_code ty)) ++ wdata value).

(** include/OgODataset.h:103-147 [OgODataset], [OgOCDataset]: [addData] once per element. *)
Definition node_dataset (gt : Z) (name : bytes) (ty : ogtype) (elems : list bytes) : tree :=
  Group (wdata name ++ wdata (enc32 gt) ++ wdata (enc32 (type_code ty)) ++ flat_map wdata elems).

(** * Reading *)

(** src/IGroup.cpp:97-167 on a group's children. *)
Definition t_kids (t : tree) : list tree := match t with Group l => l | Data _ => [] end.
Definition get_group (t : tree) (i : nat) : option (list tree) :=
  match nth_error (t_kids t) i with Some (Group l) => Some l | _ => None end.
Definition get_data (t : tree) (i : nat) : option bytes :=
  match nth_error (t_kids t) i with Some (Data b) => Some b | _ => None end.

(** A [std::string] built from a C string: up to the first NUL. *)
Fixpoint cstr (b : bytes) : bytes :=
  match b with [] => [] | x :: r => if x =? 0 then [] else x :: cstr r end.

(** src/OgUtil.cpp:36-61 [readString]. [None]: returned false. *)
Definition read_string (t : tree) (i : nat) : option bytes :=
  match get_data t i with Some b => Some (cstr b) | None => None end.

(** include/OgUtil.h:105-120 [readData<T>] with [sizeof(T) = n]. *)
Definition read_data (n : nat) (t : tree) (i : nat) : res (option bytes) :=
  match get_data t i with
  | None => UB
  | Some b => Ok (if Nat.eqb (length b) n then Some b else None)
  end.

(** src/OgUtil.cpp:65-82 [readDataType]. *)
Definition read_dtype (t : tree) (i : nat) : res Z :=
  match get_data t i with
  | None => UB
  | Some b => Ok (if Nat.eqb (length b) 4 then dec_le b else INVALID_TYPE)
  end.

(** src/OgIGroup.cpp:289-300 [validate]: [true] if the group stays valid. *)
Definition validate (t : tree) : bool :=
  match t_kids t with Data _ :: Data _ :: _ => true | _ => false end.

(** src/OgIGroup.cpp:80-132 [findGroup], the loop: the children from index 2 on.
    [Ok None]: null pointer. *)
Fixpoint find_loop (name : bytes) (gt : Z) (l : list tree) : res (option tree) :=
  match l with
  | [] => Ok None
  | Data _ :: r => find_loop name gt r
  | (Group _ as g) :: r =>
      match read_string g 0 with
      | None => Ok None
      | Some nm =>
          let* ty := read_data 4 g 1 in
          match ty with
          | None => Ok None
          | Some tb =>
              if negb (dec_le tb =? gt) then find_loop name gt r
              else if bytes_eqb nm name then Ok (Some g)
              else find_loop name gt r
          end
      end
  end.

(** The components of a path; '/' is 47. *)
Fixpoint split_path (cur : bytes) (p : bytes) : list bytes :=
  match p with
  | [] => [cur]
  | c :: r => if c =? 47 then cur :: split_path [] r else split_path (cur ++ [c]) r
  end.

(** src/OgIGroup.cpp:80-189 [findGroup] and [recursiveFindGroup]: every component but the
    last is a group, searched for in the same way. [t] is a valid group. *)
Fixpoint find_comps (t : tree) (comps : list bytes) (gt : Z) : res (option tree) :=
  match comps with
  | [] => Ok None
  | [name] => find_loop name gt (skipn 2 (t_kids t))
  | name :: rest =>
      let* g := find_loop name G_GROUP (skipn 2 (t_kids t)) in
      match g with
      | None => Ok None
      | Some g => if validate g then find_comps g rest gt else UB
      end
  end.
Definition find_group (t : tree) (path : bytes) (gt : Z) : res (option tree) :=
  find_comps t (split_path [] path) gt.

(** src/OgIGroup.cpp:194-230 [groupNames]. *)
Fixpoint names_loop (gt : Z) (l : list tree) : res (list bytes) :=
  match l with
  | [] => Ok []
  | Data _ :: r => names_loop gt r
  | (Group _ as g) :: r =>
      match read_string g 0 with
      | None => names_loop gt r
      | Some nm =>
          let* ty := read_data 4 g 1 in
          match ty with
          | None => names_loop gt r
          | Some tb =>
              if negb (dec_le tb =? gt) then names_loop gt r
              else let* rest := names_loop gt r in Ok (nm :: rest)
          end
      end
  end.
Definition group_names (t : tree) (gt : Z) : res (list bytes) := names_loop gt (skipn 2 (t_kids t)).

(** include/OgIGroup.h [findAttribute], include/OgIAttribute.h:76-92: the attribute's
    group, or null when missing or of another type. *)
Definition find_typed (t : tree) (path : bytes) (gt : Z) (ty : ogtype) : res (option tree) :=
  let* g := find_group t path gt in
  match g with
  | None => Ok None
  | Some a =>
      let* d := read_dtype a 2 in
      Ok (if d =? type_code ty then Some a else None)
  end.

(** include/OgIAttribute.h:94-103 [value] of a fixed-size type; [dflt] is
    [defaultValue()]. *)
Definition attr_value (ty : ogtype) (dflt : bytes) (a : tree) : res bytes :=
  match ty with
  | TString => Ok (match read_string a 3 with Some s => s | None => [] end)
  | _ =>
      let* v := read_data (type_size ty) a 3 in
      Ok (match v with Some b => b | None => dflt end)
  end.

(** An attribute found and read, [Ok None] when [findAttribute] gives an invalid one. *)
Definition get_attr (t : tree) (name : bytes) (ty : ogtype) (dflt : bytes) : res (option bytes) :=
  let* a := find_typed t name G_ATTR ty in
  match a with
  | None => Ok None
  | Some a => let* v := attr_value ty dflt a in Ok (Some v)
  end.

(** src/OgIGroup.cpp:234-243 [attributeType]. *)
Definition attribute_type (t : tree) (name : bytes) : res Z :=
  let* g := find_group t name G_ATTR in
  match g with
  | Some a => if Nat.ltb 2 (length (t_kids a)) then read_dtype a 2 else Ok INVALID_TYPE
  | None => Ok INVALID_TYPE
  end.

(** include/OgIDataset.h:160-208 and 240-288: number of elements, size in bytes and
    contents of an element. *)
Definition ds_num (d : tree) : Z := Z.of_nat (length (t_kids d)) - 3.
Definition ds_get (d : tree) (i : nat) : option bytes := get_data d (i + 3).
