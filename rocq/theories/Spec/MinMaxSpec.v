(** What pre-filtered minimum and maximum fields must be. *)
From Coq Require Import ZArith Reals List.
From Verif Require Import Model.Base Model.RealM Model.VecM Model.MatM Model.CurveM Model.MapM Model.RayM Model.GroupM
  Spec.VoxelSpec Spec.CoordSpec Spec.MapSpec Spec.GroupSpec.
Import ListNotations.
Open Scope R_scope.

Definition natural_voxel (v : v3) : Prop := int_voxel v /\ (0 <= vx v /\ 0 <= vy v /\ 0 <= vz v)%Z.
(** [le] is <= for minima, >= for maxima.  Level [g] bounds the field [base]: at every world
    position inside a voxel of [base] there is a voxel of [g] whose value bounds the value of
    the voxel of [base], and [g] holds only values of [base]. *)
Definition level_bounds (le : R -> R -> Prop) (base g : gfield) : Prop :=
  (forall v w, in_box v (g_dw base) -> natural_voxel v -> at_voxel base v w ->
     exists u, in_box u (g_dw g) /\ natural_voxel u /\ at_voxel g u w /\ le (g_value g u) (g_value base v)) /\
  (forall u, in_box u (g_dw g) -> exists v, in_box v (g_dw base) /\ g_value g u = g_value base v).
Definition prefilters (le : R -> R -> Prop) (base : gfield) (levels : list gfield) : Prop :=
  levels <> [] /\ forall g, In g levels -> affine_field g /\ level_bounds le base g.

(** [c] bounds [a] and the values of all voxels of the fields [l] that meet the query, and is
    [a] or one of the values of the fields. *)
Definition bounds_all (le : R -> R -> Prop) (l : list gfield) (q : option rbox) (a c : R) : Prop :=
  le c a /\ (forall g v, In g l -> meets g q v -> le c (g_value g v)) /\
  (c = a \/ exists g v, In g l /\ in_box v (g_dw g) /\ c = g_value g v).

(** The last level has at most three voxels per axis. *)
Definition ends_small (levels : list gfield) : Prop := exists r g, levels = r ++ [g] /\
  (vx (bmax (g_dw g)) - vx (bmin (g_dw g)) <= 2 /\ vy (bmax (g_dw g)) - vy (bmin (g_dw g)) <= 2 /\ vz (bmax (g_dw g)) - vz (bmin (g_dw g)) <= 2)%Z.
(** [c] is [a] combined with some values, each of which one of the fields [l] holds. *)
Definition combines (op : R -> R -> R) (l : list gfield) (values : list R) (a c : R) : Prop :=
  c = fold_right op a values /\ forall x, In x values -> exists g v, In g l /\ in_box v (g_dw g) /\ x = g_value g v.

(** [new] voxels per axis, each of which is a whole number of the [old] voxels. *)
Definition whole (old new : Z) : Prop := exists c, (0 < c /\ old = c * new)%Z.
Definition whole_voxels (old new : v3) : Prop := whole (vx old) (vx new) /\ whole (vy old) (vy new) /\ whole (vz old) (vz new).
