(** Specification vocabulary for minimum and maximum levels in floating point. *)
From Coq Require Import ZArith Reals.
From Flocq Require Import Core BinarySingleNaN.
From Verif Require Import Model.Base Model.FloatM Model.FloatMinMaxM Spec.FloatCubicSpec.
Open Scope R_scope.

(** [r] is a bound for [v] in the sense of IEEE comparison: below it, or above it. *)
Definition bounds {t} (k : extreme) (r v : val t) : Prop :=
  match k with Lowest => Bleb r v = true | Highest => Bleb v r = true end.
(** A voxel that the filter can tell from "no voxel": not NaN, and below the largest [float] when the minimum is sought,
    above its negative when the maximum is. *)
Definition tellable {t} (k : extreme) (v : val t) : Prop :=
  match v with
  | B754_nan => False
  | B754_infinity s => s = match k with Lowest => true | Highest => false end
  | _ => match k with Lowest => B2R v < largest VFloat | Highest => - largest VFloat < B2R v end
  end.
