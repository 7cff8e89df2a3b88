(** What it means for a field to hold given values over its data window. *)
From Coq Require Import ZArith List.
From Verif Require Import Model.Base Model.DenseM Model.SparseM Model.OpsM
  Spec.VoxelSpec Spec.DenseSpec Spec.SparseSpec.
Import ListNotations.
Open Scope Z_scope.

(** Windows a field of each kind can be resized to: see [int_box] and [window_ok].
    For sparse fields it depends on the block order. *)
Definition fits {V} (k : kind) : fld (V := V) k -> box -> Prop :=
  match k with
  | KDense => fun _ b => int_box b
  | KSparse => fun f b => window_ok b (s_order f)
  end.

(** The same for a new field (block order 4). *)
Definition fits_new (k : kind) (b : box) : Prop :=
  match k with KDense => int_box b | KSparse => window_ok b 4 end.

(** Fields obtained from a default-constructed one by legal public operations. *)
Definition f_reached {V} (dflt zero : V) (eqb : V -> V -> bool) (k : kind) : fld (V := V) k -> Prop :=
  match k with
  | KDense => fun f => exists l, legal dflt (spec_init dflt) l /\ dense_run dflt (dense_init (V := V)) l = Ok f
  | KSparse => fun f => sparse_reached zero eqb f
  end.

(** The field's window is [dw] and reading voxel [p] of it yields [v p]. *)
Definition holds {V} {k : kind} (f : fld (V := V) k) (dw : box) (v : v3 -> V) : Prop :=
  f_dw f = dw /\ forall p, in_box p dw -> f_get f p = Ok (v p).
