(** Positions through a matrix in floating point. *)
From Coq Require Import ZArith Reals.
From Flocq Require Import Core BinarySingleNaN.
From Verif Require Import Model.RealM Model.VecM Model.MatM Model.FloatM Model.FloatMatM.
Local Open Scope R_scope.

(** Finite and at most [2 ^ 400]. *)
Definition fair (v : f64) : Prop := is_finite v = true /\ Rabs (B2R v) <= bpow radix2 400.
Definition fair_point (p : f3) : Prop := fair (f3x p) /\ fair (f3y p) /\ fair (f3z p).
Definition fair_col (c : fcol) : Prop := fair (c0 c) /\ fair (c1 c) /\ fair (c2 c) /\ fair (c3 c).
(** A matrix without perspective: the last column is 0, 0, 0, 1. *)
Definition affine_matrix (m : fmat) : Prop :=
  fair_col (colx m) /\ fair_col (coly m) /\ fair_col (colz m) /\ fair_col (colw m) /\
  B2R (c0 (colw m)) = 0 /\ B2R (c1 (colw m)) = 0 /\ B2R (c2 (colw m)) = 0 /\ B2R (c3 (colw m)) = 1.

(** The same point and matrix in exact arithmetic. *)
Definition point_of (p : f3) : r3 := R3 (B2R (f3x p)) (B2R (f3y p)) (B2R (f3z p)).
Definition row_of (v : fcol -> f64) (m : fmat) : r4 := R4 (B2R (v (colx m))) (B2R (v (coly m))) (B2R (v (colz m))) (B2R (v (colw m))).
Definition matrix_of (m : fmat) : m44 := M44 (row_of c0 m) (row_of c1 m) (row_of c2 m) (row_of c3 m).

(** The error of one coordinate: [2 ^ -50] of the terms that are added, which may cancel. *)
Definition terms (p : f3) (c : fcol) : R :=
  Rabs (B2R (f3x p) * B2R (c0 c)) + Rabs (B2R (f3y p) * B2R (c1 c)) + Rabs (B2R (f3z p) * B2R (c2 c)) + Rabs (B2R (c3 c)).
Definition error (p : f3) (c : fcol) : R := bpow radix2 (-50) * terms p c + bpow radix2 (-1070).
Definition finite_point (p : f3) : Prop := is_finite (f3x p) = true /\ is_finite (f3y p) = true /\ is_finite (f3z p) = true.
