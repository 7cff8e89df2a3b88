(** What a curve must do. *)
From Coq Require Import List Bool Sorted.
From Verif Require Import Model.CurveM.
Import ListNotations.

(** Positions are totally ordered. *)
Record ordered {T} (ltb eqb : T -> T -> bool) : Prop := Ordered {
  eqb_iff : forall a b, eqb a b = true <-> a = b;
  ltb_irr : forall a, ltb a a = false;
  ltb_tr : forall a b c, ltb a b = true -> ltb b c = true -> ltb a c = true;
  ltb_tot : forall a b, ltb a b = false -> ltb b a = false -> a = b }.

(** Strictly increasing positions. *)
Definition rising {T X} (ltb : T -> T -> bool) (l : list (T * X)) : Prop :=
  StronglySorted (fun a b => ltb (fst a) (fst b) = true) l.

(** The curve a history of [addSample] calls builds. *)
Definition curve_run {T X} (ltb eqb : T -> T -> bool) (h : list (T * X)) : list (T * X) :=
  fold_left (fun l s => add_sample ltb eqb (fst s) (snd s) l) h [].
(** The last value a history gives to a position. *)
Definition last_at {T X} (eqb : T -> T -> bool) (h : list (T * X)) (t : T) : option X :=
  fold_left (fun acc s => if eqb (fst s) t then Some (snd s) else acc) h None.
