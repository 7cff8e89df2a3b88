(** Specification vocabulary for cubic interpolation in floating point. *)
From Coq Require Import ZArith Reals.
From Flocq Require Import Core BinarySingleNaN.
From Verif Require Import Model.Base Model.VecM Model.FloatM Spec.VoxelSpec Spec.FloatSpec.
Open Scope R_scope.

(** The largest number of a type. *)
Definition largest (t : vtype) : R :=
  match t with VHalf => 65504 | VFloat => (2 ^ 24 - 1) * 2 ^ 104 | VDouble => (2 ^ 53 - 1) * 2 ^ 971 end.
(** No voxel is larger than a 64th of the largest number. *)
Definition modest {t} (dw : box) (value : v3 -> val t) : Prop := forall q, in_box q dw -> 64 * Rabs (B2R (value q)) <= largest t.
(** A coordinate at which cubic interpolation is defined: not a number, minus infinity, or a number with an index. *)
Definition cubic_coord (x : f64) : Prop := is_nan x = true \/ x = B754_infinity true \/ (is_finite x = true /\ B2R x < 2 ^ 31).
(** How far rounding may move a cubic sample along one axis when no voxel is larger than [B]: 700 times the rounding of
    one operation. *)
Definition cubic_rounding (t : vtype) (B : R) : R :=
  700 * match t with VHalf => B / 2 ^ 11 + / 2 ^ 25 | VFloat => B / 2 ^ 24 + / 2 ^ 150 | VDouble => B / 2 ^ 53 + / 2 ^ 1075 end.
