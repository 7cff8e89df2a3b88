(** Specification vocabulary for sparse fields of floating point values. *)
From Coq Require Import ZArith.
From Flocq Require Import Core BinarySingleNaN.
From Verif Require Import Model.Base Model.SparseM Model.FloatM Spec.VoxelSpec.

(** No voxel is infinite or not a number. *)
Definition finite_field {t} (f : sparse (val t)) : Prop := forall q v, in_box q (s_dw f) -> sparse_value f q = Ok v -> is_finite v = true.
