(** Specification vocabulary for MIP levels in floating point. *)
From Coq Require Import ZArith Reals.
From Flocq Require Import Core BinarySingleNaN.
From Verif Require Import Model.Base Model.FloatM Spec.VoxelSpec Spec.FilterSpec.
Open Scope R_scope.

(** Voxel [q] of a level of [old] voxels lies beneath voxel [p] of the next one, whose origin is [add] fine voxels to the
    left. *)
Definition beneath (add old p q : v3) : Prop :=
  in_box q (res_box old) /\ ((vx q + vx add) / 2 = vx p /\ (vy q + vy add) / 2 = vy p /\ (vz q + vz add) / 2 = vz p)%Z.
(** A value that two of can be added: a number, and less than half the largest one unless it is a [half]. *)
Definition addable {t} (v : val t) : Prop :=
  is_finite v = true /\ match t with VHalf => True | VFloat => Rabs (B2R v) < 2 ^ 127 | VDouble => Rabs (B2R v) < 2 ^ 1023 end.
(** Offsets are padded by nought or one. *)
Definition pad_ok (add : v3) : Prop := (0 <= vx add <= 1 /\ 0 <= vy add <= 1 /\ 0 <= vz add <= 1)%Z.
(** Coordinates of voxels whose centres a [float] can tell apart. *)
Definition tell_apart (p : v3) : Prop := (0 <= vx p < 2 ^ 23 /\ 0 <= vy p < 2 ^ 23 /\ 0 <= vz p < 2 ^ 23)%Z.
(** How far rounding may move the mean of eight values that are not larger than [B]. *)
Definition mip_rounding (t : vtype) (B : R) : R :=
  match t with VHalf => B / 2 ^ 9 + / 2 ^ 22 | VFloat => B / 2 ^ 21 + / 2 ^ 147 | VDouble => B / 2 ^ 50 + / 2 ^ 1072 end.
