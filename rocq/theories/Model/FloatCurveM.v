(** Model of time curves (export/Curve.h) as they are computed: positions are [float], values have components of type
    [double] or [float] ([Curve<double>], [Curve<M44d>]).  Rounding is to nearest even; fused multiply-add is not in the
    model.  [Imath::lerp] and [Imath::lerpfactor] are taken from the documentation of Imath, which is not in the
    repository. *)
From Coq Require Import ZArith List Bool.
From Flocq Require Import Core BinarySingleNaN.
From Verif Require Import Model.Base Model.CurveM Model.FloatM Model.FloatMipM.
Import ListNotations.

Definition time : Type := val VFloat.
(** export/Curve.h:110-142 [CheckTGreaterThan], [CheckTEqual]: false if one of the positions is not a number. *)
Definition t_before (a b : time) : bool := Bltb a b.
Definition t_same (a b : time) : bool := Beqb a b.
(** [std::numeric_limits<float>::max()] *)
Definition time_max : time := vnum VFloat (2 ^ 24 - 1) 104.
(** export/Curve.h:220 [Imath::lerpfactor(m, a, b)] *)
Definition t_factor (m a b : time) : time :=
  let d := vsub b a in
  let n := vsub m a in
  if Bltb (vnum VFloat 1 0) (Babs d) || Bltb (Babs n) (vmul time_max (Babs d)) then vdiv n d else B754_zero false.
(** export/Curve.h:153-154 [Imath::lerp(a, b, t)], which is [a * (1 - t) + b * t]: [1 - t] is a [float]. *)
Definition t_lerp {t} (a b : val t) (x : time) : val t :=
  vadd (vmul a (cast t (vsub (vnum VFloat 1 0) x : time))) (vmul b (cast t x)).
(** export/Curve.h:217-221: all the components of the value *)
Definition t_between {t} (lower upper : time * (nat -> val t)) (at_ : time) : nat -> val t :=
  fun i => t_lerp (snd lower i) (snd upper i) (t_factor at_ (fst lower) (fst upper)).
(** export/Curve.h:168-194 [addSample] and 196-223 [linear] *)
Definition t_add {t} (at_ : time) (v : nat -> val t) (l : list (time * (nat -> val t))) : list (time * (nat -> val t)) :=
  add_sample t_before t_same at_ v l.
Definition t_linear {t} (dflt : nat -> val t) (l : list (time * (nat -> val t))) (at_ : time) : nat -> val t :=
  linear t_before dflt t_between l at_.
