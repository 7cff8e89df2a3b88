(** Model of the intersection of a ray and a box (export/FieldGroup.h:244-276 [detail::intersect]) as it is computed: in
    IEEE 754 binary64 arithmetic, rounded to nearest even. *)
From Coq Require Import ZArith List Bool.
From Flocq Require Import Core BinarySingleNaN.
From Verif Require Import Model.Base Model.FloatM.
Import ListNotations.

(** One dimension of the ray (Imath's [Line3d]: [pos], [dir]) and of the box ([min], [max]). *)
Record faxis : Type := FAxis { fa_pos : f64; fa_dir : f64; fa_min : f64; fa_max : f64 }.

(** Division of [double], [std::numeric_limits<double>::max()], and [epsilon() * 10.0] (exact). *)
Definition fdiv (x y : f64) : f64 := Bdiv mode_NE x y.
Definition f_max : f64 := binary_normalize 53 1024 gt_53 lt_1024 mode_NE (2 ^ 53 - 1) 971 false.
Definition f_eps : f64 := binary_normalize 53 1024 gt_53 lt_1024 mode_NE 10 (-52) false.
Definition f_zero : f64 := B754_zero false.
(** [std::max(a, b)] is [a < b ? b : a], [std::min(a, b)] is [b < a ? b : a]. *)
Definition std_max (a b : f64) : f64 := if Bltb a b then b else a.
Definition std_min (a b : f64) : f64 := if Bltb b a then b else a.

(** The loop of export/FieldGroup.h:251-272. *)
Fixpoint f_slabs (l : list faxis) (near far : f64) : option (f64 * f64) :=
  match l with
  | [] => Some (near, far)
  | a :: r =>
      if Bltb (Babs (fa_dir a)) f_eps && (Bltb (fa_pos a) (fa_min a) || Bltb (fa_max a) (fa_pos a)) then None else
      let t0 := fdiv (fsub (fa_min a) (fa_pos a)) (fa_dir a) in
      let t1 := fdiv (fsub (fa_max a) (fa_pos a)) (fa_dir a) in
      let (t0, t1) := if Bltb t1 t0 then (t1, t0) else (t0, t1) in
      let near := std_max near t0 in
      let far := std_min far t1 in
      if Bltb far near then None else
      if Bltb far f_zero then None else
      f_slabs r near far
  end.
(** export/FieldGroup.h:244-276; [None] for [false]. *)
Definition f_intersect (x y z : faxis) : option (f64 * f64) :=
  f_slabs [x; y; z] (Bopp f_max) f_max.
