(** The scalar functions of Imath the code calls, in exact arithmetic: coordinates and
    values are real numbers, rounding and overflow of [float] and [double] are not
    modelled. *)
From Coq Require Import ZArith Reals.
Open Scope R_scope.

Definition rltb (a b : R) : bool := if Rlt_dec a b then true else false.
Definition rleb (a b : R) : bool := if Rle_dec a b then true else false.
Definition reqb (a b : R) : bool := if Req_EM_T a b then true else false.

(** [Imath::lerp]. *)
Definition lerp (a b t : R) : R := a * (1 - t) + b * t.
(** [Imath::lerpfactor]: 0 when [a] and [b] coincide.  The guard against overflow of the
    quotient never applies to real numbers. *)
Definition lerpfactor (m a b : R) : R :=
  let d := b - a in let n := m - a in if reqb d 0 then 0 else n / d.
(** [std::floor] and [std::ceil] converted to int. *)
Definition rfloor (x : R) : Z := Int_part x.
Definition rceil (x : R) : Z := (- Int_part (- x))%Z.

(** export/Curve.h:156-157, 219-222: [Imath::lerp] at [Imath::lerpfactor].  Vectors and
    matrices are interpolated component by component, so a curve of them is a family of
    these. *)
Definition mix (lower upper : R * R) (t : R) : R :=
  lerp (snd lower) (snd upper) (lerpfactor t (fst lower) (fst upper)).
