(** [Imath::M44d] in exact arithmetic (Imath is a dependency, not in /repo; the meaning
    used is the documented one: row vectors, [p * M]). *)
From Coq Require Import ZArith Reals.
From Verif Require Import Model.Base Model.RealM Model.VecM.
Open Scope R_scope.

Record r4 : Type := R4 { e0 : R; e1 : R; e2 : R; e3 : R }.
Record m44 : Type := M44 { row0 : r4; row1 : r4; row2 : r4; row3 : r4 }.

Definition ident : m44 := M44 (R4 1 0 0 0) (R4 0 1 0 0) (R4 0 0 1 0) (R4 0 0 0 1).

(** A row times a matrix, and [M44::operator*]. *)
Definition rowmul (v : r4) (m : m44) : r4 :=
  R4 (e0 v * e0 (row0 m) + e1 v * e0 (row1 m) + e2 v * e0 (row2 m) + e3 v * e0 (row3 m))
     (e0 v * e1 (row0 m) + e1 v * e1 (row1 m) + e2 v * e1 (row2 m) + e3 v * e1 (row3 m))
     (e0 v * e2 (row0 m) + e1 v * e2 (row1 m) + e2 v * e2 (row2 m) + e3 v * e2 (row3 m))
     (e0 v * e3 (row0 m) + e1 v * e3 (row1 m) + e2 v * e3 (row2 m) + e3 v * e3 (row3 m)).
Definition mmul (a b : m44) : m44 := M44 (rowmul (row0 a) b) (rowmul (row1 a) b) (rowmul (row2 a) b) (rowmul (row3 a) b).

(** [M44::multVecMatrix]: the point is extended by 1, multiplied, and divided by the
    fourth component.  [None]: the fourth component is zero, the result is not finite. *)
Definition mult_vec (m : m44) (p : r3) : option r3 :=
  let q := rowmul (R4 (rx p) (ry p) (rz p) 1) m in
  if reqb (e3 q) 0 then None else Some (R3 (e0 q / e3 q) (e1 q / e3 q) (e2 q / e3 q)).

(** [M44::setScale], [M44::setTranslation]. *)
Definition scale (s : r3) : m44 := M44 (R4 (rx s) 0 0 0) (R4 0 (ry s) 0 0) (R4 0 0 (rz s) 0) (R4 0 0 0 1).
Definition translate (t : r3) : m44 := M44 (R4 1 0 0 0) (R4 0 1 0 0) (R4 0 0 1 0) (R4 (rx t) (ry t) (rz t) 1).

(** [M44::determinant] and [M44::inverse]: the adjugate divided by the determinant, and
    the identity for a singular matrix.  (Imath eliminates in one case and uses cofactors
    in the other, with guards against overflow; in exact arithmetic both give this.) *)
Definition sub2 (a b c d : R) : R := a * d - b * c.
Definition det (m : m44) : R :=
  let (a, b, c, d) := m in
  let s0 := sub2 (e0 a) (e1 a) (e0 b) (e1 b) in let s1 := sub2 (e0 a) (e2 a) (e0 b) (e2 b) in
  let s2 := sub2 (e0 a) (e3 a) (e0 b) (e3 b) in let s3 := sub2 (e1 a) (e2 a) (e1 b) (e2 b) in
  let s4 := sub2 (e1 a) (e3 a) (e1 b) (e3 b) in let s5 := sub2 (e2 a) (e3 a) (e2 b) (e3 b) in
  let c0 := sub2 (e0 c) (e1 c) (e0 d) (e1 d) in let c1 := sub2 (e0 c) (e2 c) (e0 d) (e2 d) in
  let c2 := sub2 (e0 c) (e3 c) (e0 d) (e3 d) in let c3 := sub2 (e1 c) (e2 c) (e1 d) (e2 d) in
  let c4 := sub2 (e1 c) (e3 c) (e1 d) (e3 d) in let c5 := sub2 (e2 c) (e3 c) (e2 d) (e3 d) in
  s0 * c5 - s1 * c4 + s2 * c3 + s3 * c2 - s4 * c1 + s5 * c0.
Definition adjugate (m : m44) : m44 :=
  let (a, b, c, d) := m in
  let s0 := sub2 (e0 a) (e1 a) (e0 b) (e1 b) in let s1 := sub2 (e0 a) (e2 a) (e0 b) (e2 b) in
  let s2 := sub2 (e0 a) (e3 a) (e0 b) (e3 b) in let s3 := sub2 (e1 a) (e2 a) (e1 b) (e2 b) in
  let s4 := sub2 (e1 a) (e3 a) (e1 b) (e3 b) in let s5 := sub2 (e2 a) (e3 a) (e2 b) (e3 b) in
  let c0 := sub2 (e0 c) (e1 c) (e0 d) (e1 d) in let c1 := sub2 (e0 c) (e2 c) (e0 d) (e2 d) in
  let c2 := sub2 (e0 c) (e3 c) (e0 d) (e3 d) in let c3 := sub2 (e1 c) (e2 c) (e1 d) (e2 d) in
  let c4 := sub2 (e1 c) (e3 c) (e1 d) (e3 d) in let c5 := sub2 (e2 c) (e3 c) (e2 d) (e3 d) in
  M44 (R4 (e1 b * c5 - e2 b * c4 + e3 b * c3) (- e1 a * c5 + e2 a * c4 - e3 a * c3)
          (e1 d * s5 - e2 d * s4 + e3 d * s3) (- e1 c * s5 + e2 c * s4 - e3 c * s3))
      (R4 (- e0 b * c5 + e2 b * c2 - e3 b * c1) (e0 a * c5 - e2 a * c2 + e3 a * c1)
          (- e0 d * s5 + e2 d * s2 - e3 d * s1) (e0 c * s5 - e2 c * s2 + e3 c * s1))
      (R4 (e0 b * c4 - e1 b * c2 + e3 b * c0) (- e0 a * c4 + e1 a * c2 - e3 a * c0)
          (e0 d * s4 - e1 d * s2 + e3 d * s0) (- e0 c * s4 + e1 c * s2 - e3 c * s0))
      (R4 (- e0 b * c3 + e1 b * c1 - e2 b * c0) (e0 a * c3 - e1 a * c1 + e2 a * c0)
          (- e0 d * s3 + e1 d * s1 - e2 d * s0) (e0 c * s3 - e1 c * s1 + e2 c * s0)).
Definition row_div (v : r4) (d : R) : r4 := R4 (e0 v / d) (e1 v / d) (e2 v / d) (e3 v / d).
Definition inverse (m : m44) : m44 :=
  let d := det m in
  if reqb d 0 then ident
  else let a := adjugate m in M44 (row_div (row0 a) d) (row_div (row1 a) d) (row_div (row2 a) d) (row_div (row3 a) d).

(** [Imath::lerp] of two matrices, component by component. *)
Definition row_lerp (a b : r4) (t : R) : r4 :=
  R4 (lerp (e0 a) (e0 b) t) (lerp (e1 a) (e1 b) t) (lerp (e2 a) (e2 b) t) (lerp (e3 a) (e3 b) t).
Definition mat_lerp (a b : m44) (t : R) : m44 :=
  M44 (row_lerp (row0 a) (row0 b) t) (row_lerp (row1 a) (row1 b) t) (row_lerp (row2 a) (row2 b) t) (row_lerp (row3 a) (row3 b) t).
