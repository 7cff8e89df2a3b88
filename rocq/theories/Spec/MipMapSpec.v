(** What the coordinates of MIP levels must be. *)
From Coq Require Import ZArith Reals List.
From Verif Require Import Model.Base Model.RealM Model.VecM Model.MatM Model.CurveM Model.MapM Model.OpsM
  Spec.VoxelSpec Spec.CurveSpec Spec.MapSpec Spec.OpsSpec.
Import ListNotations.
Open Scope R_scope.

(** The MIP offset of a field says where its voxels are on a grid all fields of a scene
    share: voxel 0 is grid position [offset].  Position [p] of level [l] and position [q] of
    the base are one place if they are one place on that grid, on which a voxel of level [l]
    is [2 ^ l] wide and the first one begins at the last multiple of [2 ^ l] not after the
    offset.  [o] and [b] are the first voxels of the level and of the base. *)
Definition same_place1 (offset l o b : Z) (p q : R) : Prop :=
  IZR (2 ^ l) * (p - IZR o + IZR (offset / 2 ^ l)) = q - IZR b + IZR offset.
Definition same_place (offset : v3) (l : Z) (o b : v3) (p q : r3) : Prop :=
  same_place1 (vx offset) l (vx o) (vx b) (rx p) (rx q) /\
  same_place1 (vy offset) l (vy o) (vy b) (ry p) (ry q) /\
  same_place1 (vz offset) l (vz o) (vz b) (rz p) (rz q).

Definition axis_length (a : r4) : R := sqrt (e0 a * e0 a + e1 a * e1 a + e2 a * e2 a).
(** The matrices set by a history have no perspective, and the lengths of their axes never
    change. *)
Definition steady (h : list mat_op) : Prop :=
  exists m0, interpolates h 0 m0 /\
    forall t m, In t (map fst (samples_of h)) -> interpolates h t m ->
      no_perspective m /\
      0 < axis_length (row0 m) /\ axis_length (row0 m) = axis_length (row0 m0) /\
      0 < axis_length (row1 m) /\ axis_length (row1 m) = axis_length (row1 m0) /\
      0 < axis_length (row2 m) /\ axis_length (row2 m) = axis_length (row2 m0).
(** Every number of the box, and its size, is an [int]. *)
Definition int_size (e : box) : Prop := exists f, set_frame e = Ok f.

(** A position moved by whole voxels. *)
Definition moved (d : v3) (p : r3) : r3 := R3 (rx p + IZR (vx d)) (ry p + IZR (vy d)) (rz p + IZR (vz d)).
(** The number of the voxel of a level on the shared grid. *)
Definition grid_level (offset : v3) (l : Z) : v3 := V3 (vx offset / 2 ^ l) (vy offset / 2 ^ l) (vz offset / 2 ^ l).

(** The smallest side of a voxel of level [i], where [size] is the size of a voxel of the
    base. *)
Definition width (size : r3) (i : nat) : R := 2 ^ i * Rmin (rx size) (Rmin (ry size) (rz size)).

(** Levels with voxels, all of which can be read. *)
Definition readable {k : kind} (fs : list (fld (V := R) k)) : Prop :=
  forall f, In f fs -> box_nonempty (f_dw f) /\ exists u, holds f (f_dw f) u.
