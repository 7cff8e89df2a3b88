(** Specification vocabulary for interpolation of vectors in floating point. *)
From Coq Require Import ZArith Reals.
From Flocq Require Import Core BinarySingleNaN.
From Verif Require Import Model.Base Model.VecM Model.FloatM Spec.VoxelSpec Spec.InterpSpec Spec.FloatSpec.
Open Scope R_scope.

(** A sixteenth of the range of the type. *)
Definition sixteenth (t : vtype) : R := match t with VHalf => 2 ^ 12 | VFloat => 2 ^ 124 | VDouble => 2 ^ 1020 end.
(** No component is so large that a weighted sum of eight might overflow. *)
Definition vec_small {t} (dw : box) (value : v3 -> val t) : Prop := forall q, in_box q dw -> Rabs (B2R (value q)) <= sixteenth t.
(** How far the rounding of every product and every sum may move a sample when no component is larger than [B]. *)
Definition vec_rounding (t : vtype) (B : R) : R :=
  match t with VHalf => B / 2 ^ 8 + / 2 ^ 21 | VFloat => B / 2 ^ 21 + / 2 ^ 146 | VDouble => B / 2 ^ 48 + / 2 ^ 1071 end.
