(** Specification vocabulary for interpolation in floating point. *)
From Coq Require Import ZArith Reals.
From Flocq Require Import Core BinarySingleNaN.
From Verif Require Import Model.Base Model.VecM Model.FloatM Spec.VoxelSpec Spec.InterpSpec.
Open Scope R_scope.

(** The real position that three floating point coordinates stand for. *)
Definition at_ (x y z : f64) : r3 := R3 (B2R x) (B2R y) (B2R z).
(** No voxel of the window is infinite or not a number. *)
Definition all_finite {t} (dw : box) (value : v3 -> val t) : Prop := forall q, in_box q dw -> is_finite (value q) = true.
(** In a field of [double]: no voxel is so large that a weighted sum of eight might overflow. *)
Definition no_overflow {t} (dw : box) (value : v3 -> val t) : Prop :=
  t = VDouble -> forall q, in_box q dw -> Rabs (B2R (value q)) <= 2 ^ 1019.
(** A position whose coordinates are numbers and whose voxel has an index in [int]. *)
Definition in_int_range (x : f64) : Prop := is_finite x = true /\ - 2 ^ 31 + 1 / 2 <= B2R x < 2 ^ 31 - 1.
(** Sixteen units in the last place of a [double] of the size of [K]. *)
Definition few_ulps (K : R) : R := Rabs K / 2 ^ 49 + / 2 ^ 1071.
(** How far rounding may move a sample when no voxel is larger than [B]. *)
Definition rounding (t : vtype) (B : R) : R :=
  match t with VHalf => B / 2 ^ 10 + / 2 ^ 24 | VFloat => B / 2 ^ 23 + / 2 ^ 149 | VDouble => B / 2 ^ 48 + / 2 ^ 1070 end.
