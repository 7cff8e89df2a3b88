(** Model of copying field objects: the copy constructors and assignment operators of
    export/Field.h, src/Field.cpp, export/DenseField.h and export/SparseField.h.  Mappings
    are objects that fields point to. *)
From Coq Require Import ZArith List Bool.
From Verif Require Import Model.Base Model.FieldM Model.DenseM Model.SparseM Model.OpsM
  Model.VecM Model.MapM Model.CopyM Model.MetaM.
Import ListNotations.
Open Scope Z_scope.

Section Clone.
Context {V : Type}.
Variables dflt zero : V.

(** A field object: export/Field.h:155-176 (name, attribute, metadata), 305-314 (extents,
    data window and a pointer to the mapping, an index into the objects), and the data of the
    class. *)
Record hfield (k : kind) : Type := HField {
  h_fld : fld (V := V) k; h_map : nat; h_name : list Z; h_attr : list Z; h_meta : meta }.
Arguments HField {k}. Arguments h_fld {k}. Arguments h_map {k}. Arguments h_name {k}. Arguments h_attr {k}. Arguments h_meta {k}.

(** The mapping objects ever made and the fields.  Reference counts are left out: an object
    a field points to is alive (C17). *)
Record world (k : kind) : Type := World { w_maps : list mapping; w_fields : list (hfield k) }.
Arguments World {k}. Arguments w_maps {k}. Arguments w_fields {k}.

(** export/SparseField.h:281-295 [SparseBlock::copy] into a new block that has been given
    the flag and the empty value of the other (1364-1368): [n] voxels are read. *)
Definition copy_block (n : nat) (b : block V) : res (block V) :=
  if b_alloc b then
    match b_data b with
    | Some d => if (n <=? length d)%nat then Ok (Block true (b_empty b) (Some (firstn n d))) else UB
    | None => UB
    end
  else Ok (Block false (b_empty b) None).
Fixpoint copy_blocks (n : nat) (l : list (block V)) : res (list (block V)) :=
  match l with
  | [] => Ok []
  | b :: r => let* b' := copy_block n b in let* r' := copy_blocks n r in Ok (b' :: r')
  end.
(** export/SparseField.h:1341-1374 [copySparseField] from a field that is not dynamically
    loaded, to one that is not either. *)
Definition copy_sparse (o : sparse V) : res (sparse V) :=
  let* l := copy_blocks (Z.to_nat (Z.shiftl 1 (3 * s_order o))) (s_blocks o) in
  Ok (Sparse (s_ext o) (s_dw o) (s_order o) (s_bres o) (s_xy o) l).
(** The data of a copy; the dense field copies its vector (no copy constructor is written,
    export/DenseField.h). *)
Definition copy_data {k} : fld (V := V) k -> res (fld (V := V) k) :=
  match k with KDense => fun f => Ok f | KSparse => fun f => copy_sparse f end.

Definition at_field {k} (w : world k) (i : nat) : res (hfield k) :=
  match nth_error (w_fields w) i with Some f => Ok f | None => UB end.
Definition map_of {k} (w : world k) (f : hfield k) : res mapping :=
  match nth_error (w_maps w) (h_map f) with Some m => Ok m | None => UB end.

(** A new field: export/Field.h:324-330, src/Field.cpp:54-59. *)
Definition h_new k (w : world k) : res (world k) :=
  let* f := f_new zero k in
  let* m := map_extents (MapMatrix mat_init) (f_ext f) in
  Ok (World (w_maps w ++ [m]) (w_fields w ++ [HField f (length (w_maps w)) [] [] meta_empty])).

(** [clone()] and the copy constructors: src/Field.cpp:61-68, export/Field.h:334-342 (the
    pointer the assignment of line 340 copies is overwritten by a clone of the mapping, which
    src/FieldMapping.cpp:244-247, 414-417 and 797-800 copy member by member), and the data
    (export/SparseField.h:1298-1306). *)
Definition h_clone {k} (w : world k) (j : nat) : res (world k) :=
  let* s := at_field w j in
  let* m := map_of w s in
  let* d := copy_data (h_fld s) in
  Ok (World (w_maps w ++ [m])
            (w_fields w ++ [HField d (length (w_maps w)) (h_name s) (h_attr s) (meta_assign meta_empty (h_meta s))])).

(** [a = b]: the assignment operators the compiler writes for [FieldBase], [FieldRes] and
    [DenseField], and export/SparseField.h:1326-1335: the pointer to the mapping is copied. *)
Definition h_assign {k} (w : world k) (i j : nat) : res (world k) :=
  let* a := at_field w i in
  let* s := at_field w j in
  if (i =? j)%nat then Ok w
  else
    let* d := copy_data (h_fld s) in
    Ok (World (w_maps w) (list_set (w_fields w) i (HField d (h_map s) (h_name s) (h_attr s) (meta_assign (h_meta a) (h_meta s))))).

(** export/Field.h:347-358 [setMapping] with a mapping that is not null. *)
Definition h_set_mapping {k} (w : world k) (i : nat) (m : mapping) : res (world k) :=
  let* a := at_field w i in
  let* m := map_extents m (f_ext (h_fld a)) in
  Ok (World (w_maps w ++ [m]) (list_set (w_fields w) i (HField (h_fld a) (length (w_maps w)) (h_name a) (h_attr a) (h_meta a)))).

(** export/Field.h:941-948 [setSize(extents, dataWindow)], 901-902 [sizeChanged]: tells the
    mapping object, then allocates. *)
Definition h_set_size {k} (w : world k) (i : nat) (e dw : box) : res (world k) :=
  let* a := at_field w i in
  let* m := map_of w a in
  let* m := map_extents m e in
  let* f := f_size dflt zero (h_fld a) e dw in
  Ok (World (list_set (w_maps w) (h_map a) m) (list_set (w_fields w) i (HField f (h_map a) (h_name a) (h_attr a) (h_meta a)))).

(** Writing a voxel; changing a mapping through the pointer [mapping()] returns
    (export/Field.h:260-261), in any way; setting the name, the attribute and metadata. *)
Definition h_write {k} (w : world k) (i : nat) (p : v3) (v : V) : res (world k) :=
  let* a := at_field w i in
  let* f := f_set (h_fld a) p v in
  Ok (World (w_maps w) (list_set (w_fields w) i (HField f (h_map a) (h_name a) (h_attr a) (h_meta a)))).
Definition h_change {k} (w : world k) (i : nat) (g : mapping -> mapping) : res (world k) :=
  let* a := at_field w i in
  let* m := map_of w a in
  Ok (World (list_set (w_maps w) (h_map a) (g m)) (w_fields w)).
Definition h_label {k} (w : world k) (i : nat) (n t : list Z) : res (world k) :=
  let* a := at_field w i in
  Ok (World (w_maps w) (list_set (w_fields w) i (HField (h_fld a) (h_map a) n t (h_meta a)))).
Definition h_set_meta {k} (w : world k) (i : nat) (t : mkind) (n v : list Z) : res (world k) :=
  let* a := at_field w i in
  Ok (World (w_maps w) (list_set (w_fields w) i (HField (h_fld a) (h_map a) (h_name a) (h_attr a) (meta_set (h_meta a) t n v)))).

(** Histories. *)
Inductive hop : Type :=
| HNew | HClone (j : nat) | HAssign (i j : nat) | HMapping (i : nat) (m : mapping) | HSize (i : nat) (e dw : box)
| HWrite (i : nat) (p : v3) (v : V) | HChange (i : nat) (g : mapping -> mapping) | HLabel (i : nat) (n t : list Z)
| HMeta (i : nat) (t : mkind) (n v : list Z).
Definition h_step {k} (w : world k) (o : hop) : res (world k) :=
  match o with
  | HNew => h_new k w
  | HClone j => h_clone w j
  | HAssign i j => h_assign w i j
  | HMapping i m => h_set_mapping w i m
  | HSize i e dw => h_set_size w i e dw
  | HWrite i p v => h_write w i p v
  | HChange i g => h_change w i g
  | HLabel i n t => h_label w i n t
  | HMeta i t n v => h_set_meta w i t n v
  end.
Fixpoint h_run {k} (w : world k) (l : list hop) : res (world k) :=
  match l with [] => Ok w | o :: r => let* w' := h_step w o in h_run w' r end.
End Clone.
Arguments HField {V k}. Arguments h_fld {V k}. Arguments h_map {V k}. Arguments h_name {V k}. Arguments h_attr {V k}. Arguments h_meta {V k}.
Arguments World {V k}. Arguments w_maps {V k}. Arguments w_fields {V k}.
