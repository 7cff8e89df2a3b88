(** What groups of fields must do. *)
From Coq Require Import ZArith Reals List.
From Verif Require Import Model.Base Model.RealM Model.VecM Model.MatM Model.CurveM Model.CoordM Model.MapM Model.RayM Model.GroupM
  Spec.VoxelSpec Spec.CoordSpec Spec.MapSpec.
Import ListNotations.
Open Scope R_scope.

(** A mapping without perspective, with an object transform that has none either: a null
    mapping, or a matrix mapping after any calls. *)
Definition affine_map (m : any_map) : Prop :=
  match m with
  | AMatrix s => exists history a, mat_run mat_init history = Ok s /\ interpolates history 0 a /\ invertible a /\ no_perspective a /\
                   has_voxels (extents_of history)
  | ANull f => exists e, set_frame e = Ok f /\ has_voxels e
  | AFrustum _ => False
  end.
Definition affine_field (g : gfield) : Prop :=
  affine_map (w_map (g_wrap g)) /\ forall o, w_os (g_wrap g) = Some o -> invertible o /\ no_perspective o.

(** The world position [w] belongs to the cell of voxel [v]. *)
Definition at_voxel (g : gfield) (v : v3) (w : r3) : Prop := exists p, voxel_position (g_wrap g) w = Some p /\ in_cell p v.
Definition in_query (q : option rbox) (w : r3) : Prop := match q with Some b => inside (rmin b) (rmax b) w | None => True end.
(** A voxel of the field with a point inside the query, and no negative index. *)
Definition meets (g : gfield) (q : option rbox) (v : v3) : Prop :=
  in_box v (g_dw g) /\ int_voxel v /\ (0 <= vx v /\ 0 <= vy v /\ 0 <= vz v)%Z /\ exists w, in_query q w /\ at_voxel g v w.

(** The field has the world position in its data window. *)
Definition covers (g : gfield) (w v : r3) : Prop :=
  voxel_position (g_wrap g) w = Some v /\
  inside (R3 (IZR (vx (bmin (g_dw g)))) (IZR (vy (bmin (g_dw g)))) (IZR (vz (bmin (g_dw g)))))
         (R3 (IZR (vx (bmax (g_dw g)) + 1)) (IZR (vy (bmax (g_dw g)) + 1)) (IZR (vz (bmax (g_dw g)) + 1))) v.
(** What it contributes there. *)
Definition contribution (g : gfield) (v : r3) : R := match g_remap g with Some f => f (g_sample g v) | None => g_sample g v end.
(** [hits] are the contributions of the fields that have the position, in order. *)
Inductive contributions (w : r3) : list gfield -> list R -> Prop :=
| contributions_nil : contributions w [] []
| contributions_hit g v l hits : covers g w v -> contributions w l hits -> contributions w (g :: l) (contribution g v :: hits)
| contributions_miss g l hits : (forall v, ~ covers g w v) -> contributions w l hits -> contributions w (g :: l) hits.
Definition total (l : list R) : R := fold_right Rplus 0 l.
(** Constructed by [make_gfield], with indices a [float] can hold. *)
Definition made (g : gfield) : Prop := continuous_bounds (g_dw g) = Ok (g_bounds g) /\ small_voxel (bmin (g_dw g)) /\ small_voxel (bmax (g_dw g)).
(** The data window is inside the extents of the mapping (as it is after [setSize] with
    one argument). *)
Definition window_in_extents (g : gfield) : Prop :=
  let o f := fr_origin f in let r f := fr_res f in
  let within f := IZR (vx (bmin (g_dw g))) >= rx (o f) /\ IZR (vy (bmin (g_dw g))) >= ry (o f) /\ IZR (vz (bmin (g_dw g))) >= rz (o f) /\
    IZR (vx (bmax (g_dw g)) + 1) <= rx (o f) + rx (r f) /\ IZR (vy (bmax (g_dw g)) + 1) <= ry (o f) + ry (r f) /\
    IZR (vz (bmax (g_dw g)) + 1) <= rz (o f) + rz (r f) in
  match w_map (g_wrap g) with AMatrix s => within (mm_frame s) | ANull f => within f | AFrustum s => within (fm_frame s) end.
