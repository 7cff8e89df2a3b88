(** What a time curve must do in floating point. *)
From Coq Require Import ZArith Reals List Bool.
From Flocq Require Import Core BinarySingleNaN.
From Verif Require Import Model.FloatM Model.FloatMipM Model.FloatCurveM.
Import ListNotations.
Open Scope R_scope.

(** The curve that a history of calls of [addSample] makes. *)
Definition t_run {t} (h : list (time * (nat -> val t))) : list (time * (nat -> val t)) :=
  fold_left (fun l s => t_add (fst s) (snd s) l) h [].
(** A position that two of can be subtracted from each other, and a component that can be interpolated. *)
Definition time_ok (x : time) : Prop := is_finite x = true /\ Rabs (B2R x) < 2 ^ 127.
Definition comp_ok {t} (v : val t) : Prop :=
  is_finite v = true /\ match t with VHalf => False | VFloat => Rabs (B2R v) < 2 ^ 127 | VDouble => Rabs (B2R v) < 2 ^ 1023 end.
(** The last value a history gives to the position [x]. *)
Definition last_given {t} (h : list (time * (nat -> val t))) (x : R) (v : nat -> val t) : Prop :=
  exists a s b, h = a ++ (s, v) :: b /\ B2R s = x /\ forall s' v', In (s', v') b -> B2R s' <> x.
(** The number [x] lies between two samples that follow each other; the value there on the straight line. *)
Definition line (a u b w x : R) : R := u + (w - u) * ((x - a) / (b - a)).
(** How far rounding may move it: two parts in eight million of the step, and of the larger value. *)
Definition curve_rounding (u w : R) : R := Rabs (w - u) / 2 ^ 22 + Rmax (Rabs u) (Rabs w) / 2 ^ 22 + / 2 ^ 148.
