(** Specification vocabulary for voxel coordinates. *)
From Coq Require Import ZArith Reals.
From Verif Require Import Model.Base Model.VecM.
Open Scope R_scope.

(** The cell of a voxel: the half-open unit cube above its index. *)
Definition in_cell (p : r3) (q : v3) : Prop :=
  IZR (vx q) <= rx p < IZR (vx q) + 1 /\ IZR (vy q) <= ry p < IZR (vy q) + 1 /\ IZR (vz q) <= rz p < IZR (vz q) + 1.

(** Indices that are C++ [int]s, and indices exactly representable as [float]. *)
Definition int_voxel (q : v3) : Prop :=
  (int_min <= vx q <= int_max)%Z /\ (int_min <= vy q <= int_max)%Z /\ (int_min <= vz q <= int_max)%Z.
Definition small_voxel (q : v3) : Prop :=
  (Z.abs (vx q) < 2 ^ 24)%Z /\ (Z.abs (vy q) < 2 ^ 24)%Z /\ (Z.abs (vz q) < 2 ^ 24)%Z.
