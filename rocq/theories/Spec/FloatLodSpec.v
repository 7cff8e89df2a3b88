(** What a sample of a MIP field must be, in floating point. *)
From Coq Require Import ZArith Reals List.
From Flocq Require Import Core BinarySingleNaN.
From Verif Require Import Model.Base Model.FloatM Model.FloatMipM Model.FloatCurveM Model.FloatLodM Spec.VoxelSpec Spec.FloatSpec.
Import ListNotations.
Open Scope R_scope.

(** The side of a voxel of level [i]. *)
Definition side (size : time) (i : nat) : R := B2R size * 2 ^ i.
(** A voxel size of which those of [n] more levels are numbers. *)
Definition size_ok (size : time) (n : nat) : Prop := is_finite size = true /\ 0 < B2R size /\ side size n < 2 ^ 127.
(** Levels that have voxels, none of them infinite, not a number or so large that a weighted sum may overflow. *)
Definition voxel_ok {t} (v : val t) : Prop :=
  is_finite v = true /\ match t with VHalf => True | VFloat => Rabs (B2R v) < 2 ^ 127 | VDouble => Rabs (B2R v) <= 2 ^ 1019 end.
Definition levels_ok {t} (fs : list (lod_level t)) : Prop :=
  fs <> [] /\ (length fs <= 31)%nat /\ forall f, In f fs -> box_nonempty (fst f) /\ forall q, in_box q (fst f) -> voxel_ok (snd f q).
(** A position that is in range in every level, so that its voxel has an index in [int]. *)
Definition place_ok (x : f64) : Prop := is_finite x = true /\ Rabs (B2R x) <= 2 ^ 30.
Definition shift_ok (offset : v3) : Prop :=
  (Z.abs (vx offset) < 2 ^ 30 /\ Z.abs (vy offset) < 2 ^ 30 /\ Z.abs (vz offset) < 2 ^ 30)%Z.
(** How far a sample may leave the range of the voxels. *)
Definition lod_slack (t : vtype) (K : R) : R := match t with VHalf => 0 | _ => Rabs K / 2 ^ 22 + / 2 ^ 148 end.
(** Where the spot lies between the sides of the voxels of the levels [j] and [j + 1]: 0 at the first, 1 at the second. *)
Definition fraction (size : time) (j : nat) (spot : R) : R := (spot - side size j) / (side size (S j) - side size j).
(** The position in level [l] in real numbers: the voxels of a level are [2^l] times as large, and the corner of the level
    lies at the offset of the field rounded down to a multiple of that. *)
Definition level_position (offset : Z) (l : nat) (x : R) : R := (x + IZR (offset mod 2 ^ Z.of_nat l)) / 2 ^ l.
(** How far rounding may move the mixture of two samples [u] and [w]. *)
Definition lod_rounding (t : vtype) (u w : R) : R :=
  match t with
  | VHalf => Rmax (Rabs u) (Rabs w) / 2 ^ 10 + / 2 ^ 24
  | _ => Rabs (w - u) / 2 ^ 22 + Rmax (Rabs u) (Rabs w) / 2 ^ 22 + / 2 ^ 148
  end.
