(** Specification vocabulary for the cell values of MAC fields in floating point. *)
From Coq Require Import ZArith Reals.
From Verif Require Import Model.Base Model.VecM Model.MacM Spec.VoxelSpec Spec.MacSpec.

(** The cells of the window on the two sides of a face. *)
Definition beside (dw : box) (c : component) (p q : v3) : Prop := in_box q dw /\ (q = p \/ q = prev c p).
(** A cell of the window and its neighbours in the direction of the component. *)
Definition in_line (dw : box) (c : component) (p q : v3) : Prop := in_box q dw /\ (q = p \/ q = prev c p \/ q = next c p).
