(** Specification vocabulary for the levels of MIP fields of vectors in floating point. *)
From Coq Require Import ZArith Reals.
From Flocq Require Import Core BinarySingleNaN.
From Verif Require Import Model.Base Model.FloatM.
Open Scope R_scope.

(** A number that may be added to another such number without overflow in its own type. *)
Definition addable_in {t} (v : val t) : Prop :=
  is_finite v = true /\ Rabs (B2R v) < match t with VHalf => 2 ^ 15 | VFloat => 2 ^ 127 | VDouble => 2 ^ 1023 end.
