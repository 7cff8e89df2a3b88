(** Specification vocabulary for interpolation. *)
From Coq Require Import ZArith Reals.
From Verif Require Import Model.Base Model.VecM Spec.VoxelSpec.
Open Scope R_scope.

(** [val] reads the map [m] at every voxel of the window. *)
Definition reads (dw : box) (val : v3 -> res R) (m : v3 -> R) : Prop :=
  forall q, in_box q dw -> val q = Ok (m q).

(** The centre of a voxel. *)
Definition centre (q : v3) : r3 := R3 (IZR (vx q) + 1 / 2) (IZR (vy q) + 1 / 2) (IZR (vz q) + 1 / 2).

(** The nearest voxel of the window. *)
Definition nearest (dw : box) (n : v3) : v3 :=
  V3 (Z.max (vx (bmin dw)) (Z.min (vx n) (vx (bmax dw))))
     (Z.max (vy (bmin dw)) (Z.min (vy n) (vy (bmax dw))))
     (Z.max (vz (bmin dw)) (Z.min (vz n) (vz (bmax dw)))).

(** The voxels around a position: those whose centre is less than one voxel away on each
    axis, moved to the nearest voxel of the window. *)
Definition around (dw : box) (p : r3) (q : v3) : Prop :=
  exists n, q = nearest dw n /\
    Rabs (rx (centre n) - rx p) < 1 /\ Rabs (ry (centre n) - ry p) < 1 /\ Rabs (rz (centre n) - rz p) < 1.

(** Positions and windows for which index arithmetic stays inside [int]. *)
Definition pos_ok (p : r3) : Prop :=
  - 2 ^ 30 < rx p < 2 ^ 30 /\ - 2 ^ 30 < ry p < 2 ^ 30 /\ - 2 ^ 30 < rz p < 2 ^ 30.
Definition win_ok (dw : box) : Prop :=
  box_nonempty dw /\
  (- 2 ^ 30 < vx (bmin dw))%Z /\ (vx (bmax dw) < 2 ^ 30 - 1)%Z /\
  (- 2 ^ 30 < vy (bmin dw))%Z /\ (vy (bmax dw) < 2 ^ 30 - 1)%Z /\
  (- 2 ^ 30 < vz (bmin dw))%Z /\ (vz (bmax dw) < 2 ^ 30 - 1)%Z.

(** The box spanned by the centres of the voxels [a] and [b]. *)
Definition between (a b : v3) (p : r3) : Prop :=
  rx (centre a) <= rx p <= rx (centre b) /\ ry (centre a) <= ry p <= ry (centre b) /\
  rz (centre a) <= rz p <= rz (centre b).

(** An affine function of the position. *)
Definition affine (c a b d : R) (p : r3) : R := c + a * rx p + b * ry p + d * rz p.

(** Adjacent voxels: one apart on exactly one axis. *)
Definition adjacent (p q : v3) : Prop :=
  (Z.abs (vx p - vx q) + Z.abs (vy p - vy q) + Z.abs (vz p - vz q) = 1)%Z.
