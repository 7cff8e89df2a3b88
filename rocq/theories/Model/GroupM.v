(** Model of groups of fields: export/FieldGroup.h, export/FieldSampler.h and
    export/FieldWrapper.h.  Values are scalars ([V3f] is handled component by component). *)
From Coq Require Import ZArith Reals List Bool.
From Verif Require Import Model.Base Model.LoopM Model.RealM Model.VecM Model.MatM Model.CurveM Model.CoordM Model.MapM Model.RayM.
Import ListNotations.
Open Scope R_scope.

(** export/FieldWrapper.h:62-140: a field of a group.  [g_value] is [fastValue] (or
    [fastMipValue] of the finest level), [g_sample] the interpolator, [g_remap] the value
    remap operator. *)
Record gfield : Type := GField {
  g_wrap : wrapper; g_dw : box; g_bounds : rbox; g_value : v3 -> R; g_sample : r3 -> R; g_remap : option (R -> R) }.
(** export/FieldWrapper.h:68-77: the constructor, [vsBounds]. *)
Definition make_gfield (w : wrapper) (dw : box) (value : v3 -> R) (sample : r3 -> R) (remap : option (R -> R)) : res gfield :=
  let* b := continuous_bounds dw in Ok (GField w dw b value sample remap).

(** [worldToVoxel] and [localToWorld] without a time, for each kind of mapping. *)
Definition a_world_to_voxel (m : any_map) (p : r3) : option r3 :=
  match m with AMatrix s => m_world_to_voxel0 s p | AFrustum s => f_world_to_voxel s 0 p | ANull f => Some (n_world_to_voxel f p) end.
Definition a_local_to_world (m : any_map) (p : r3) : option r3 :=
  match m with AMatrix s => m_local_to_world0 s p | AFrustum s => f_local_to_world s 0 p | ANull _ => Some (n_local_to_world p) end.

(** ** Sampling *)

(** export/FieldSampler.h:99-108: the voxel space position of a world space point. *)
Definition voxel_position (w : wrapper) (p : r3) : option r3 :=
  match to_object w p with Some q => a_world_to_voxel (w_map w) q | None => None end.
(** [Imath::Box3d::intersects] of a point. *)
Definition rbox_has (b : rbox) (p : r3) : bool :=
  rleb (rx (rmin b)) (rx p) && rleb (rx p) (rx (rmax b)) && rleb (ry (rmin b)) (ry p) && rleb (ry p) (ry (rmax b)) &&
  rleb (rz (rmin b)) (rz p) && rleb (rz p) (rz (rmax b)).
(** export/FieldSampler.h:97-121 [sample], and 179-205 [sampleMIP] with the spot size in
    [g_sample]: one field.  (A position that is not finite is outside.) *)
Definition sample_one (p : r3) (acc : R * Z) (g : gfield) : R * Z :=
  match voxel_position (g_wrap g) p with
  | Some v =>
      if rbox_has (g_bounds g) v then
        (fst acc + match g_remap g with Some f => f (g_sample g v) | None => g_sample g v end, (snd acc + 1)%Z)
      else acc
  | None => acc
  end.
(** export/FieldGroup.h:713-743 [sample]; [add] is the composite operation [Add]. *)
Definition group_sample (add : bool) (p : r3) (l : list gfield) (result : R) : R :=
  let (v, hits) := fold_left (sample_one p) l (result, 0%Z) in
  if add then v else if (1 <? hits)%Z then v / IZR hits else v.
(** export/FieldGroup.h:1433-1452 [PointIsect].  (As it stands, the functor assigns to a
    member in a const function.) *)
Definition point_isect (p : r3) (l : list gfield) : bool :=
  fold_left (fun b g => match voxel_position (g_wrap g) p with Some v => if rbox_has (g_bounds g) v then true else b | None => b end) l false.

(** export/FieldWrapper.h:101-126 [setWsBoundsOptimization]: world to voxel space in one
    matrix, and the world space bounds.  [None]: a corner is not finite, or the mapping is
    not a matrix and nothing is set.  (The bounds are kept as [float]; here they are
    exact.) *)
Definition ws_to_vs (w : wrapper) : option m44 :=
  match w_map w with
  | AMatrix s => Some (match w_os w with Some o => mmul (inverse o) (mm_ws_vs s) | None => mm_ws_vs s end)
  | _ => None
  end.
Definition ws_bounds (g : gfield) : option (option rbox) :=
  match ws_to_vs (g_wrap g) with Some m => transform_bounds (inverse m) (g_bounds g) | None => None end.
(** export/FieldSampler.h:223-245, one sample of one field by the optimised path of
    [sampleMIPMultiple]. *)
Definition sample_optimized (p : r3) (acc : R * Z) (g : gfield) : R * Z :=
  match ws_to_vs (g_wrap g), ws_bounds g with
  | Some m, Some (Some b) =>
      if rbox_has b p then
        match mult_vec m p with
        | Some v => if rbox_has (g_bounds g) v
                    then (fst acc + match g_remap g with Some f => f (g_sample g v) | None => g_sample g v end, (snd acc + 1)%Z) else acc
        | None => acc
        end
      else acc
  | _, _ => acc
  end.

(** ** Bounds *)

(** export/FieldGroup.h:1170-1196 [GetWsBounds].  [None]: a corner is not finite. *)
Definition corner_to_world (w : wrapper) (p : r3) : option r3 :=
  match a_local_to_world (w_map w) p with
  | Some q => match w_os w with Some o => mult_vec o q | None => Some q end
  | None => None
  end.
Fixpoint group_bounds (l : list gfield) (b : option rbox) : option (option rbox) :=
  match l with
  | [] => Some b
  | g :: r => match extend_all (corner_to_world (g_wrap g)) unit_corners b with Some b' => group_bounds r b' | None => None end
  end.

(** ** Minimum and maximum *)

(** export/Field.h:1145-1155 [clipBounds]. *)
Definition clip_bounds (a b : box) : box :=
  Box (V3 (Z.max (vx (bmin a)) (vx (bmin b))) (Z.max (vy (bmin a)) (vy (bmin b))) (Z.max (vz (bmin a)) (vz (bmin b))))
      (V3 (Z.min (vx (bmax a)) (vx (bmax b))) (Z.min (vy (bmax a)) (vy (bmax b))) (Z.min (vz (bmax a)) (vz (bmax b)))).
(** [Imath::Box3i::intersects] of a box. *)
Definition box_intersects (a b : box) : bool :=
  negb ((vx (bmax b) <? vx (bmin a))%Z || (vx (bmax a) <? vx (bmin b))%Z || (vy (bmax b) <? vy (bmin a))%Z || (vy (bmax a) <? vy (bmin b))%Z ||
        (vz (bmax b) <? vz (bmin a))%Z || (vz (bmax a) <? vz (bmin b))%Z).
(** The loops over a box, in the order of the code. *)

(** export/FieldSampler.h:326-344: the voxels to visit.  The query box is [None] when it is
    infinite.  Inside the result, [None] means no intersection; the outer [None] a position
    that is not finite. *)
Definition object_bounds (w : wrapper) (b : rbox) : option (option rbox) :=
  match w_os w with Some o => transform_bounds (inverse o) b | None => Some (Some b) end.
Definition visit_box (g : gfield) (query : option rbox) : option (option box) :=
  match query with
  | None => Some (Some (g_dw g))
  | Some b =>
      match object_bounds (g_wrap g) b with
      | Some (Some ob) =>
          match map_bounds (a_world_to_voxel (w_map (g_wrap g))) ob with
          | Some (Some vb) =>
              let c := clip_bounds (discrete_bounds vb) (g_dw g) in
              Some (if box_intersects (g_dw g) c then Some c else None)
          | _ => None
          end
      | _ => None
      end
  end.
(** export/FieldSampler.h:318-357 [getMinMax], 360-398 [getMinMaxMIP]: the fields of one
    type.  The first field without an intersection ends the loop. *)
Definition min_max_one (g : gfield) (acc : R * R) (v : v3) : R * R := (Rmin (g_value g v) (fst acc), Rmax (g_value g v) (snd acc)).
Fixpoint min_max_vec (query : option rbox) (l : list gfield) (acc : R * R) : option (R * R) :=
  match l with
  | [] => Some acc
  | g :: r =>
      match visit_box g query with
      | None => None
      | Some None => Some acc
      | Some (Some b) => min_max_vec query r (fold_left (min_max_one g) (box_voxels b) acc)
      end
  end.
(** export/FieldGroup.h:853-877 [getMinMax] without pre-filtered fields: each type in
    turn. *)
Fixpoint group_min_max (query : option rbox) (l : list (list gfield)) (acc : R * R) : option (R * R) :=
  match l with
  | [] => Some acc
  | v :: r => match min_max_vec query v acc with Some a => group_min_max query r a | None => None end
  end.
