(** What ray intersection must do. *)
From Coq Require Import ZArith Reals List.
From Verif Require Import Model.Base Model.RealM Model.VecM Model.MatM Model.CurveM Model.MapM Model.RayM Spec.MapSpec.
Import ListNotations.
Open Scope R_scope.

(** The point of the ray from [p] in direction [d] at parameter [t]. *)
Definition along (p d : r3) (t : R) : r3 := R3 (rx p + t * rx d) (ry p + t * ry d) (rz p + t * rz d).

(** Neither of the two positions the code treats wrongly: outside a slab with a direction
    that is tiny but not zero, and exactly on a face with a direction of negative zero. *)
Definition regular_axis (eps lo hi p d : R) (neg : bool) : Prop :=
  eps <= Rabs d \/ (d <> 0 /\ lo <= p <= hi) \/ (d = 0 /\ (neg = false \/ (p <> lo /\ p <> hi))).
Definition regular (eps : R) (r : ray) (b : rbox) : Prop :=
  let p := ray_pos r in let d := ray_dir r in
  regular_axis eps (rx (rmin b)) (rx (rmax b)) (rx p) (rx d) (neg_x r) /\
  regular_axis eps (ry (rmin b)) (ry (rmax b)) (ry p) (ry d) (neg_y r) /\
  regular_axis eps (rz (rmin b)) (rz (rmax b)) (rz p) (rz d) (neg_z r).

(** [found] is the right answer for the set [hit] of parameters: the interval reported is
    the part of the set within the largest number, and reaches a parameter that is not
    negative; nothing is reported only if the set has no such parameter. *)
Definition right_answer (big : R) (found : option (fp * fp)) (hit : R -> Prop) : Prop :=
  match found with
  | Some (a, b) => exists t0 t1, a = Fin t0 /\ b = Fin t1 /\ t0 <= t1 /\ 0 <= t1 /\
      (forall t, t0 <= t <= t1 <-> - big <= t <= big /\ hit t)
  | None => forall t, 0 <= t <= big -> ~ hit t
  end.

Definition unit_cube (p : r3) : Prop := inside (R3 0 0 0) (R3 1 1 1) p.

(** On the inner side of a plane. *)
Definition below (p : plane) (q : r3) : Prop := dot (pl_normal p) q <= pl_distance p.
(** A projection that turns the unit cube inside out (as cameras that look down the
    negative axis do) and keeps it in front of the camera. *)
Definition weight (m : m44) (p : r3) : R := e3 (rowmul (R4 (rx p) (ry p) (rz p) 1) m).
Definition faces_camera (m : m44) : Prop := det m < 0 /\ forall p, unit_cube p -> 0 < weight m p.

(** The world position of a local point of a field, through its object transform. *)
Definition object_to_world (os : option m44) (p : r3) : option r3 := match os with Some m => mult_vec m p | None => Some p end.
Definition at_local (s : matmap) (os : option m44) (l w : r3) : Prop :=
  exists o, m_local_to_world s 0 l = Some o /\ object_to_world os o = Some w.
(** The planes of the faces of a frustum. *)
Definition frustum_planes (s : frustum) (l : list plane) : Prop :=
  exists c, all_some (map (f_local_to_world s 0) unit_corners) = Some c /\ l = face_planes c.
(** The near and far distances of a frustum are the camera depths of its near and far
    planes. *)
Definition depth_planes (s : frustum) : Prop :=
  forall l w c, mult_vec (mlinear (fm_lps s) 0) l = Some w -> mult_vec (inverse (mlinear (fm_cs s) 0)) w = Some c ->
    (rz l = 0 -> - rz c = rlinear (fm_near s) 0) /\ (rz l = 1 -> - rz c = rlinear (fm_far s) 0).
(** A frustum with uniform slices, of a camera without perspective of its own, whose slices
    are those of the camera, and that has a position for each point of the unit cube. *)
Definition proper_uniform (s : frustum) : Prop :=
  invertible (mlinear (fm_cs s) 0) /\ no_perspective (mlinear (fm_cs s) 0) /\
  depth_in_step (mlinear (fm_lps s) 0) (mlinear (fm_cs s) 0) /\ depth_planes s /\
  forall l, unit_cube l -> exists q, f_local_to_world s 0 l = Some q.
(** The world position of a local point of a frustum field, through its object transform. *)
Definition at_frustum (s : frustum) (os : option m44) (l w : r3) : Prop :=
  exists o, f_local_to_world s 0 l = Some o /\ object_to_world os o = Some w.
(** A frustum made by one call of [setTransforms]. *)
Definition one_transform (fr : frame) (ss_ws cs_ws : m44) : option frustum := set_transforms (Frustum fr false [] [] [] [] true) 0 ss_ws cs_ws.
