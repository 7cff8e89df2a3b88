(** Model of export/Curve.h: samples along an axis, and interpolation between them. *)
From Coq Require Import List Bool.
Import ListNotations.

Section Curve.
Context {T X : Type}.
(** [<] and [==] on sample positions (floats; no NaN). *)
Variables ltb eqb : T -> T -> bool.

(** export/Curve.h:172-182: the sample at this very position is replaced. *)
Fixpoint replace_at (t : T) (v : X) (l : list (T * X)) : list (T * X) :=
  match l with
  | [] => []
  | (u, w) :: r => if eqb u t then (u, v) :: r else (u, w) :: replace_at t v r
  end.
(** export/Curve.h:183-193: inserted before the first later sample. *)
Fixpoint insert_at (t : T) (v : X) (l : list (T * X)) : list (T * X) :=
  match l with
  | [] => [(t, v)]
  | (u, w) :: r => if ltb t u then (t, v) :: l else (u, w) :: insert_at t v r
  end.
(** export/Curve.h:168-194 [addSample]. *)
Definition add_sample (t : T) (v : X) (l : list (T * X)) : list (T * X) :=
  if existsb (fun s => eqb (fst s) t) l then replace_at t v l else insert_at t v l.

(** export/Curve.h:196-223 [linear]; [dflt] is [defaultReturnValue()], [between] the
    interpolation between two samples. *)
Variable dflt : X.
Variable between : T * X -> T * X -> T -> X.
Fixpoint linear_from (lower : T * X) (l : list (T * X)) (t : T) : X :=
  match l with
  | [] => snd lower
  | s :: r => if ltb t (fst s) then between lower s t else linear_from s r t
  end.
Definition linear (l : list (T * X)) (t : T) : X :=
  match l with
  | [] => dflt
  | s :: r => if ltb t (fst s) then snd s else linear_from s r t
  end.
End Curve.
