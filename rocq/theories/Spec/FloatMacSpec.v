(** Specification vocabulary for interpolation in MAC fields in floating point. *)
From Coq Require Import ZArith Reals.
From Flocq Require Import Core BinarySingleNaN.
From Verif Require Import Model.Base Model.VecM Model.MacM Model.FloatM Spec.VoxelSpec Spec.InterpSpec Spec.MacSpec Spec.FloatSpec.
Open Scope R_scope.

(** No face is infinite or not a number. *)
Definition faces_finite {t} (dw : box) (faces : component -> v3 -> val t) : Prop :=
  forall c q, is_face dw c q -> is_finite (faces c q) = true.
(** In a field of [double]: no face is so large that a weighted sum of eight might overflow. *)
Definition faces_small {t} (dw : box) (faces : component -> v3 -> val t) : Prop :=
  t = VDouble -> forall c q, is_face dw c q -> Rabs (B2R (faces c q)) <= 2 ^ 1019.
(** One component of a sample. *)
Definition part {A} (c : component) (r : A * A * A) : A :=
  match c with CompU => fst (fst r) | CompV => snd (fst r) | CompW => snd r end.
