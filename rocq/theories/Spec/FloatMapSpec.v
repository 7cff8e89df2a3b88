(** Conversion between local and voxel coordinates in floating point. *)
From Coq Require Import ZArith Reals.
From Flocq Require Import Core BinarySingleNaN.
From Verif Require Import Model.FloatM.
Local Open Scope R_scope.

(** A finite number of the given range. *)
Definition between (a b : R) (x : f64) : Prop := is_finite x = true /\ a <= B2R x <= b.
(** The exact local coordinate of a voxel coordinate, and the voxel coordinate of a local one. *)
Definition exact_local (lo hi : Z) (v : R) : R := (v - IZR lo) / (IZR hi + 1 - IZR lo).
Definition exact_voxel (lo hi : Z) (l : R) : R := IZR lo + l * (IZR hi + 1 - IZR lo).
(** A bound of the coordinates of the extents. *)
Definition reach (lo hi : Z) : R := IZR (Z.abs lo + Z.abs hi + 1).
