(** What the intersection of a ray and a box in floating point may get wrong. *)
From Coq Require Import ZArith Reals List.
From Flocq Require Import Core BinarySingleNaN.
From Verif Require Import Model.FloatM Model.FloatRayM.
Local Open Scope R_scope.

(** The point of the ray at parameter [t] is between the two faces: in exact arithmetic. *)
Definition within (a : faxis) (t : R) : Prop :=
  B2R (fa_min a) <= B2R (fa_pos a) + t * B2R (fa_dir a) <= B2R (fa_max a).
Definition hits (x y z : faxis) (t : R) : Prop := within x t /\ within y t /\ within z t.

(** An ordinary dimension: no coordinate is infinite, not a number, or above [2 ^ 900]; the box is not inside out; and
    the direction is either not tiny, or nought with the ray not in the plane of a face. *)
Definition moderate (v : f64) : Prop := is_finite v = true /\ Rabs (B2R v) <= bpow radix2 900.
Definition ordinary (a : faxis) : Prop :=
  moderate (fa_pos a) /\ moderate (fa_dir a) /\ moderate (fa_min a) /\ moderate (fa_max a) /\
  B2R (fa_min a) <= B2R (fa_max a) /\
  (10 * bpow radix2 (-52) <= Rabs (B2R (fa_dir a)) \/
   B2R (fa_dir a) = 0 /\ B2R (fa_pos a) <> B2R (fa_min a) /\ B2R (fa_pos a) <> B2R (fa_max a)).

(** The error allowed at parameter [t]: four units in the sixteenth digit or so, or next to nothing. *)
Definition slack (t : R) : R := Rabs t * bpow radix2 (-51) + bpow radix2 (-1025).
Definition in_range (t : R) : Prop := Rabs t <= bpow radix2 1023.

(** [found] is the set of parameters [hit], but for the error: it reaches every such parameter, there are only such
    parameters within it, and nothing is found only if there are none, or all are at one place. *)
Definition nearly (found : option (f64 * f64)) (hit : R -> Prop) : Prop :=
  match found with
  | Some (t0, t1) =>
      is_finite t0 = true /\ is_finite t1 = true /\ B2R t0 <= B2R t1 /\ 0 <= B2R t1 /\
      (forall t, in_range t -> hit t -> B2R t0 <= t + slack t /\ t - slack t <= B2R t1) /\
      (forall t, B2R t0 <= t - slack t -> t + slack t <= B2R t1 -> hit t)
  | None => forall t t', in_range t -> in_range t' -> 0 <= t -> 0 <= t' -> hit t -> hit t' -> t' - slack t' < t + slack t
  end.
