(** What coordinate systems made from world bounds must be. *)
From Coq Require Import ZArith Reals.
From Verif Require Import Model.Base Model.RealM Model.VecM Model.MatM Spec.MapSpec.
Open Scope R_scope.

(** A box with volume, a size with no side missing. *)
Definition has_volume (b : rbox) : Prop :=
  rx (rmin b) < rx (rmax b) /\ ry (rmin b) < ry (rmax b) /\ rz (rmin b) < rz (rmax b).
Definition positive_size (s : r3) : Prop := 0 < rx s /\ 0 < ry s /\ 0 < rz s.
(** The unit cube of local space, and only that, becomes the box. *)
Definition unit_cube_is (m : m44) (b : rbox) : Prop :=
  forall p, exists w, mult_vec m p = Some w /\ (inside (R3 0 0 0) (R3 1 1 1) p <-> inside (rmin b) (rmax b) w).
(** Point [g] of the grid that has a point at the world origin and spacing [s]. *)
Definition grid_point (s : r3) (g : v3) : r3 := R3 (IZR (vx g) * rx s) (IZR (vy g) * ry s) (IZR (vz g) * rz s).
Definition grid_box (s : r3) (lo hi : v3) : rbox := RBox (grid_point s lo) (grid_point s hi).
(** The centre of the grid cell that starts at [g]. *)
Definition cell_centre (s : r3) (g : v3) : r3 :=
  R3 ((IZR (vx g) + 1 / 2) * rx s) ((IZR (vy g) + 1 / 2) * ry s) ((IZR (vz g) + 1 / 2) * rz s).
Definition contains (b c : rbox) : Prop := forall p, inside (rmin c) (rmax c) p -> inside (rmin b) (rmax b) p.
(** The smallest box of the grid around the bounds. *)
Definition fits (s : r3) (b : rbox) (lo hi : v3) : Prop :=
  contains (grid_box s lo hi) b /\
  forall lo' hi', contains (grid_box s lo' hi') b -> contains (grid_box s lo' hi') (grid_box s lo hi).
(** The number of voxels of a box of voxels. *)
Definition voxels (e : box) : v3 :=
  V3 (vx (bmax e) - vx (bmin e) + 1) (vy (bmax e) - vy (bmin e) + 1) (vz (bmax e) - vz (bmin e) + 1).
Definition apart (lo hi : v3) : v3 := V3 (vx hi - vx lo) (vy hi - vy lo) (vz hi - vz lo).
