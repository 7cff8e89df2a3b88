(** The operations the field algorithms use, for the two kinds of resizable field
    they are instantiated with: [DenseField] and (in-memory) [SparseField]. *)
From Coq Require Import ZArith List Bool.
From Verif Require Import Model.Base Model.FieldM Model.DenseM Model.SparseM.
Import ListNotations.
Open Scope Z_scope.

Inductive kind : Type := KDense | KSparse.

Section Ops.
Context {V : Type}.
(** [Data_T()] (fill value of a resized dense field) and [static_cast<Data_T>(0)]
    (fill value of a new sparse block). *)
Variables dflt zero : V.

Definition fld (k : kind) : Type := match k with KDense => dense V | KSparse => sparse V end.

(** A default-constructed field: export/DenseField.h:446-451,
    export/SparseField.h:1287-1293. *)
Definition f_new (k : kind) : res (fld k) :=
  match k with KDense => Ok (dense_init (V := V)) | KSparse => sparse_init zero end.

(** [extents()], [dataWindow()]: export/Field.h:243-247. *)
Definition f_ext {k : kind} : fld k -> box :=
  match k with KDense => fun f => d_ext f | KSparse => fun f => s_ext f end.
Definition f_dw {k : kind} : fld k -> box :=
  match k with KDense => fun f => d_dw f | KSparse => fun f => s_dw f end.

(** [setSize(extents, dataWindow)]: export/Field.h:941-948 with the two
    [sizeChanged].  The dense one throws on an empty window
    (export/DenseField.h:651-660). *)
Definition f_size {k : kind} : fld k -> box -> box -> res (fld k) :=
  match k with
  | KDense => fun f e dw =>
      let* (g, thrown) := dense_set_size dflt e dw f in if thrown then Exn else Ok g
  | KSparse => fun f e dw => sparse_set_size zero f e dw
  end.

(** [fastValue] / [value]; assignment through [fastLValue] / [lvalue]. *)
Definition f_get {k : kind} : fld k -> v3 -> res V :=
  match k with KDense => fun f p => dense_value f p | KSparse => fun f p => sparse_value f p end.
Definition f_set {k : kind} : fld k -> v3 -> V -> res (fld k) :=
  match k with
  | KDense => fun f p v => dense_write f p v
  | KSparse => fun f p v => sparse_write f p v
  end.
End Ops.
