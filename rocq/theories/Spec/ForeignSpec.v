(** What opening an archive of any contents as a Field3D file must do. *)
From Coq Require Import ZArith List Bool String.
From Verif Require Import Model.Base Model.OgawaM Spec.OgawaSpec Spec.SparseSpec Model.OgM Model.FieldIOM Model.FileM Model.MetaM.
Import ListNotations.
Open Scope Z_scope.

(** A child of a group that is named: its name, its kind (0: group, 1: attribute, 2 and 3: data sets), the rest. *)
Definition entry (c : tree) : option (list Z * Z * list tree) :=
  match c with
  | Group (Data n :: Data k :: r) => if Nat.eqb (List.length k) 4 then Some (cstr n, dec_le k, r) else None
  | _ => None
  end.
(** What can be relied on: a group that begins with data, its name, has its kind next; an attribute has a type and a value, a data set has
    a type. *)
Definition entry_ok (c : tree) : Prop :=
  match c with
  | Group (Data _ :: Data k :: r) =>
      List.length k = 4%nat ->
      (dec_le k = 1 -> exists ty v r', r = Data ty :: Data v :: r') /\
      (dec_le k = 2 \/ dec_le k = 3 -> exists ty r', r = Data ty :: r')
  | Group (Data _ :: _) => False
  | _ => True
  end.
Definition kids (t : tree) : list tree := match t with Group l => skipn 2 l | Data _ => [] end.
Inductive tidy (t : tree) : Prop :=
| Tidy : Forall entry_ok (kids t) -> (forall c n r, In c (kids t) -> entry c = Some (n, 0, r) -> tidy c) -> tidy t.

(** All named children of a kind. *)
Definition named (kind : Z) (t : tree) : list (list Z) :=
  flat_map (fun c => match entry c with Some (n, k, _) => if k =? kind then [n] else [] | None => [] end) (kids t).
(** Looking for a name stops at a group that is not named. *)
Fixpoint before_stranger (l : list tree) : list tree :=
  match l with
  | [] => []
  | Data _ :: r => before_stranger r
  | c :: r => match entry c with Some _ => c :: before_stranger r | None => [] end
  end.
Definition has (kind : Z) (name : list Z) (c : tree) : bool :=
  match entry c with Some (n, k, _) => (k =? kind) && bytes_eqb n name | None => false end.
Definition found (kind : Z) (name : list Z) (t : tree) : option tree := find (has kind name) (before_stranger (kids t)).

(** The value of an attribute of a fixed size (zeros if it has another size); the type and the elements of a data set. *)
Definition rec_attr (t : tree) (name : string) (ty : ogtype) : option (list Z) :=
  match found 1 (str name) t with
  | Some (Group (_ :: _ :: Data d :: Data v :: _)) =>
      if Nat.eqb (List.length d) 4 && (dec_le d =? type_code ty)
      then Some (if Nat.eqb (List.length v) (type_size ty) then v else repeat 0 (type_size ty)) else None
  | _ => None
  end.
Definition rec_data (t : tree) (kind : Z) (name : string) (ty : ogtype) : option (list tree) :=
  match found kind (str name) t with
  | Some (Group (_ :: _ :: Data d :: l)) => if Nat.eqb (List.length d) 4 && (dec_le d =? type_code ty) then Some l else None
  | _ => None
  end.
Definition rec_box (t : tree) (lo hi : string) : option box :=
  match rec_attr t lo TVecI32, rec_attr t hi TVecI32 with
  | Some a, Some b => Some (Box (dec_v3 a) (dec_v3 b))
  | _, _ => None
  end.

(** * Dense layers *)
Definition sides (w : box) : v3 :=
  V3 (vx (bmax w) - vx (bmin w) + 1) (vy (bmax w) - vy (bmin w) + 1) (vz (bmax w) - vz (bmin w) + 1).
Definition int_range (z : Z) : Prop := - 2 ^ 31 <= z < 2 ^ 31.
Definition no_voxels (w : box) : Prop := vx (sides w) <= 0 \/ vy (sides w) <= 0 \/ vz (sides w) <= 0.
(** Along each axis the difference and the number of voxels are [int]s. *)
Definition sized (w : box) : Prop := forall f, In f [vx; vy; vz] ->
  int_range (f (bmax w) - f (bmin w)) /\ int_range (f (bmax w) - f (bmin w) + 1).
(** So is the number of the voxels of the window if it has any. *)
Definition countable (w : box) : Prop :=
  sized w /\
  int_range (vx (sides w) * vy (sides w)) /\
  (no_voxels w \/ int_range (vx (sides w) * vy (sides w) * vz (sides w))).
(** All that is looked at before the data: version 1, the windows, the number of components, data of the type. *)
Definition dense_header (t : tree) (ty : ogtype) (w : box) : Prop :=
  (exists v, rec_attr t "version" TInt32 = Some v /\ dec_i32 v = 1) /\
  rec_box t "extents_min" "extents_max" <> None /\ rec_box t "data_window_min" "data_window_max" = Some w /\
  rec_attr t "components" TInt32 <> None /\ rec_data t 2 "data" ty <> None.
Definition rec_extents (t : tree) : option box := rec_box t "extents_min" "extents_max".
(** The first element of the data is longer than the voxels. *)
Definition too_long (t : tree) (ty : ogtype) (w : box) : Prop :=
  exists b l, rec_data t 2 "data" ty = Some (Data b :: l) /\
  vx (sides w) * vy (sides w) * vz (sides w) * Z.of_nat (type_size ty) < Z.of_nat (List.length b).

(** * Sparse layers *)
Definition element (l : list tree) (k : nat) : option (list Z) :=
  match nth_error l k with Some (Data b) => Some b | _ => None end.
Definition set_bytes (b : list Z) : nat := List.length (filter (fun x => negb (x =? 0)) b).
Definition num_of (b : v3) : Z := vx b * vy b * vz b.
Record sparse_sound (t : tree) (ty : ogtype) (bound : nat -> nat) : Prop := {
  (* the extents have a size *)
  so_extents : forall e, rec_extents t = Some e -> sized e;
  (* the number of blocks is an int *)
  so_res : forall r, rec_attr t "block_res" TVecI32 = Some r ->
    int_range (vx (dec_v3 r) * vy (dec_v3 r)) /\ int_range (num_of (dec_v3 r));
  (* the window can be had, with the block order and with the default one *)
  so_order : forall o, rec_attr t "block_order" TUint8 = Some o -> 0 <= dec_le o <= 10;
  so_window : forall w o, rec_box t "data_window_min" "data_window_max" = Some w -> rec_attr t "block_order" TUint8 = Some o ->
    window_ok w 4 /\ window_ok w (dec_le o);
  (* no more blocks than the window has *)
  so_count : forall w o n, rec_box t "data_window_min" "data_window_max" = Some w -> rec_attr t "block_order" TUint8 = Some o ->
    rec_attr t "num_blocks" TUint32 = Some n -> dec_i32 n <= num_of (blocks_of w (dec_le o));
  (* no more flags and values than blocks *)
  so_flags : forall n l b, rec_attr t "num_blocks" TUint32 = Some n -> rec_data t 2 "block_is_allocated_data" TUint8 = Some l ->
    element l 0 = Some b -> Z.of_nat (List.length b) <= dec_i32 n;
  so_values : forall n l b, rec_attr t "num_blocks" TUint32 = Some n -> rec_data t 2 "block_empty_value_data" ty = Some l ->
    element l 0 = Some b -> Z.of_nat (List.length b) <= dec_i32 n * Z.of_nat (type_size ty);
  (* an element for each block whose flag is set *)
  so_blocks : forall c lf fl l, (c = 2 \/ c = 3) -> rec_data t 2 "block_is_allocated_data" TUint8 = Some lf -> element lf 0 = Some fl ->
    rec_data t c "data" ty = Some l -> forall k, (k < set_bytes fl)%nat -> element l k <> None;
  (* no longer than a block *)
  so_lengths : forall o l k b, rec_attr t "block_order" TUint8 = Some o -> element l k = Some b ->
    (rec_data t 2 "data" ty = Some l -> Z.of_nat (List.length b) <= 8 ^ dec_le o * Z.of_nat (type_size ty)) /\
    (rec_data t 3 "data" ty = Some l -> (List.length b <= bound (Z.to_nat (8 ^ dec_le o) * type_size ty))%nat) }.
(** What zlib promises: no more than there is room for. *)
Definition keeps_room (uncompress : nat -> list Z -> option (list Z)) : Prop :=
  forall n b u, uncompress n b = Some u -> (List.length u <= n)%nat.

(** * Layers and files *)
Definition rec_string (t : tree) (name : string) : option (list Z) :=
  match found 1 (str name) t with
  | Some (Group (_ :: _ :: Data d :: Data v :: _)) =>
      if Nat.eqb (List.length d) 4 && (dec_le d =? type_code TString) then Some (cstr v) else None
  | _ => None
  end.
(** A dense layer whose data, extents or window is more than the reader can do with. *)
Definition dense_unsound (t : tree) (ty : ogtype) : Prop :=
  exists w, dense_header t ty w /\ ((exists e, rec_extents t = Some e /\ ~ sized e) \/ ~ countable w \/ (~ no_voxels w /\ too_long t ty w)).

(** * MIP layers *)
(** Version 1, a number of components, data of the type, which is a floating-point one. *)
Definition mip_header (t : tree) (ty : ogtype) : Prop :=
  (exists v, rec_attr t "version" TInt32 = Some v /\ dec_i32 v = 1) /\ rec_attr t "components" TUint8 <> None /\
  rec_data t 2 "dummy_data" ty <> None /\ In ty [TFloat16; TFloat32; TFloat64; TVec16; TVec32; TVec64].
(** The number of levels that is recorded (none if it is negative), and the extents and the data window of a level. *)
Definition rec_levels (t : tree) : option nat :=
  match found 0 (str "mip_levels") t with
  | Some m => match rec_attr m "levels" TUint32 with Some n => Some (Z.to_nat (dec_i32 n)) | None => None end
  | None => None
  end.
Definition rec_level (t : tree) (i : nat) : option (box * box) :=
  match found 0 (str "mip_levels") t with
  | Some m =>
      match found 0 (str "level." ++ int_name i) m with
      | Some g => match rec_extents g, rec_box g "data_window_min" "data_window_max" with Some e, Some d => Some (e, d) | _, _ => None end
      | None => None
      end
  | None => None
  end.
Definition is_base (t : tree) : Prop :=
  rec_string t "base_type" = Some (str "DenseField") \/ rec_string t "base_type" = Some (str "SparseField").
(** The extents of a level whose size is not an int, those of all levels before it being there. *)
Definition mip_unsound (t : tree) (ty : ogtype) : Prop :=
  mip_header t ty /\ is_base t /\ exists n i e d, rec_levels t = Some n /\ (i < n)%nat /\
  (forall j, (j < i)%nat -> rec_level t j <> None) /\ rec_level t i = Some (e, d) /\ ~ sized e.
(** The size of a box is zero if it is empty.  A level is smaller than the one before along some axis, and larger along
    none. *)
Definition extent (f : v3 -> Z) (b : box) : Z :=
  if (vx (bmax b) <? vx (bmin b)) || (vy (bmax b) <? vy (bmin b)) || (vz (bmax b) <? vz (bmin b)) then 0 else f (bmax b) - f (bmin b).
Definition smaller (b a : box) : Prop :=
  (forall f, In f [vx; vy; vz] -> extent f b <= extent f a) /\ exists f, In f [vx; vy; vz] /\ extent f b < extent f a.

Definition layer_sound (t : tree) (ty : ogtype) (bound : nat -> nat) : Prop :=
  exists c, rec_string t "class_name" = Some c /\
  (c = str "DenseField" -> ~ dense_unsound t ty) /\ (c = str "SparseField" -> sparse_sound t ty bound) /\
  (c = str "MIPField" -> ~ mip_unsound t ty).
(** The root group begins with its name and kind. *)
Definition rooted (t : tree) : Prop := exists a b l, t = Group (Data a :: Data b :: l).
(** Versions before 0.0 are refused. *)
Definition version_refused (t : tree) : Prop :=
  exists b, rec_attr t "version_number" TVecI32 = Some b /\
  (vx (dec_v3 b) < 0 \/ (vx (dec_v3 b) = 0 /\ vy (dec_v3 b) < 0)).
(** The partitions and the layers of an archive. *)
Definition partitions (t : tree) : list (list Z) :=
  filter (fun n => negb (bytes_eqb n (str "field3d_global_metadata"))) (named 0 t).
Definition layers (t : tree) (part : list Z) : list (list Z) :=
  match found 0 part t with
  | Some g => filter (fun n => negb (bytes_eqb n (str "mapping"))) (named 0 g)
  | None => []
  end.
Definition plain (n : list Z) : Prop := ~ In 47 n.

(** The metadata of a group: the first attribute of the name, if it is of the type. *)
Definition rec_meta (t : tree) (k : mkind) (n : list Z) : option (list Z) :=
  match found 1 n t with
  | Some (Group (_ :: _ :: Data d :: Data v :: _)) =>
      if Nat.eqb (List.length d) 4 && (dec_le d =? type_code (mtype k))
      then Some (match k with
                 | KStr => cstr v
                 | _ => if Nat.eqb (List.length v) (type_size (mtype k)) then v else repeat 0 (type_size (mtype k))
                 end)
      else None
  | _ => None
  end.
Definition is_meta_of (t : tree) (group : string) (m : meta) : Prop :=
  forall k n, smap_find (meta_map m k) n = match found 0 (str group) t with Some g => rec_meta g k n | None => None end.
Definition plain_meta (t : tree) (group : string) : Prop :=
  forall g, found 0 (str group) t = Some g -> Forall plain (named 1 g).

(** The place of a voxel in the data of a dense layer, x fastest. *)
Definition place (w : box) (p : v3) : Z :=
  (vx p - vx (bmin w)) + vx (sides w) * ((vy p - vy (bmin w)) + vy (sides w) * (vz p - vz (bmin w))).
