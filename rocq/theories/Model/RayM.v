(** Model of the ray intersection of export/FieldGroup.h.  Arithmetic is exact, but the
    infinities and NaN that a division by zero gives are kept. *)
From Coq Require Import ZArith Reals List Bool.
From Verif Require Import Model.Base Model.RealM Model.VecM Model.MatM Model.CurveM Model.MapM.
Import ListNotations.
Open Scope R_scope.

(** A [double]: comparisons with NaN are false. *)
Inductive fp : Type := Fin (r : R) | PInf | NInf | NaN.
Definition fp_lt (a b : fp) : bool :=
  match a, b with
  | Fin x, Fin y => rltb x y
  | NInf, Fin _ | NInf, PInf | Fin _, PInf => true
  | _, _ => false
  end.
(** [std::max], [std::min]. *)
Definition fp_max (a b : fp) : fp := if fp_lt a b then b else a.
Definition fp_min (a b : fp) : fp := if fp_lt b a then b else a.
(** A finite number divided by a finite number; [neg] tells which zero a zero divisor is. *)
Definition fp_div (n d : R) (neg : bool) : fp :=
  if reqb d 0 then
    if reqb n 0 then NaN else if Bool.eqb (rltb n 0) neg then PInf else NInf
  else Fin (n / d).

(** [Imath::Line3d]; [neg] for each axis: a zero direction is a negative zero. *)
Record ray : Type := Ray { ray_pos : r3; ray_dir : r3; neg_x : bool; neg_y : bool; neg_z : bool }.
(** One pass of the loop of [intersect]. *)
Record axis : Type := Axis { ax_min : R; ax_max : R; ax_pos : R; ax_dir : R; ax_neg : bool }.
Definition axes (r : ray) (b : rbox) : list axis :=
  let p := ray_pos r in let d := ray_dir r in let lo := rmin b in let hi := rmax b in
  [Axis (rx lo) (rx hi) (rx p) (rx d) (neg_x r); Axis (ry lo) (ry hi) (ry p) (ry d) (neg_y r);
   Axis (rz lo) (rz hi) (rz p) (rz d) (neg_z r)].

(** export/FieldGroup.h:251-273: the loop over the dimensions. *)
Fixpoint slabs (eps : R) (l : list axis) (near far : fp) : option (fp * fp) :=
  match l with
  | [] => Some (near, far)
  | a :: r =>
      if rltb (Rabs (ax_dir a)) eps && (rltb (ax_pos a) (ax_min a) || rltb (ax_max a) (ax_pos a)) then None else
      let t0 := fp_div (ax_min a - ax_pos a) (ax_dir a) (ax_neg a) in
      let t1 := fp_div (ax_max a - ax_pos a) (ax_dir a) (ax_neg a) in
      let (t0, t1) := if fp_lt t1 t0 then (t1, t0) else (t0, t1) in
      let near := fp_max near t0 in
      let far := fp_min far t1 in
      if fp_lt far near then None
      else if fp_lt far (Fin 0) then None
      else slabs eps r near far
  end.
(** export/FieldGroup.h:244-276 [detail::intersect]; [big] is the largest [double], [eps]
    ten times its machine epsilon. *)
Definition intersect (big eps : R) (r : ray) (b : rbox) : option (fp * fp) :=
  slabs eps (axes r b) (Fin (- big)) (Fin big).

(** [M44::multDirMatrix]. *)
Definition mult_dir (m : m44) (d : r3) : r3 :=
  R3 (rx d * e0 (row0 m) + ry d * e0 (row1 m) + rz d * e0 (row2 m))
     (rx d * e1 (row0 m) + ry d * e1 (row1 m) + rz d * e1 (row2 m))
     (rx d * e2 (row0 m) + ry d * e2 (row1 m) + rz d * e2 (row2 m)).

(** export/FieldGroup.h:1215-1238 [intersectMatrixMapping], the interval without its step
    length.  (A position that is not finite is left out.)  [n] gives the zero signs of the
    local direction. *)
Definition intersect_matrix (big eps : R) (s : matmap) (pos dir : r3) (nx ny nz : bool) : option (fp * fp) :=
  match m_world_to_local s 0 pos with
  | Some p => intersect big eps (Ray p (mult_dir (mm_ws_ls s) dir) nx ny nz) (RBox (R3 0 0 0) (R3 1 1 1))
  | None => None
  end.

(** [Imath::Plane3d]: through three points; [Plane3::intersectT]. *)
Definition sub3 (a b : r3) : r3 := R3 (rx a - rx b) (ry a - ry b) (rz a - rz b).
Definition dot (a b : r3) : R := rx a * rx b + ry a * ry b + rz a * rz b.
Definition cross (a b : r3) : r3 := R3 (ry a * rz b - rz a * ry b) (rz a * rx b - rx a * rz b) (rx a * ry b - ry a * rx b).
Definition normalized (a : r3) : r3 :=
  let l := sqrt (dot a a) in if reqb l 0 then a else R3 (rx a / l) (ry a / l) (rz a / l).
Record plane : Type := Plane { pl_normal : r3; pl_distance : R }.
Definition plane_of (p1 p2 p3 : r3) : plane :=
  let n := normalized (cross (sub3 p2 p1) (sub3 p3 p1)) in Plane n (dot n p1).
Definition intersect_t (p : plane) (pos dir : r3) : option R :=
  let d := dot (pl_normal p) dir in
  if reqb d 0 then None else Some (- (dot (pl_normal p) pos - pl_distance p) / d).

(** export/FieldGroup.h:210-224 [cornerPoints] of the unit box. *)
Definition unit_corners : list r3 :=
  [R3 0 0 0; R3 1 0 0; R3 0 1 0; R3 1 1 0; R3 0 0 1; R3 1 0 1; R3 0 1 1; R3 1 1 1].
(** export/FieldGroup.h:1250-1267: the planes of the faces, from the world positions of the
    corners. *)
Definition face_planes (c : list r3) : list plane :=
  let p i := nth i c (R3 0 0 0) in
  [plane_of (p 4%nat) (p 0%nat) (p 6%nat); plane_of (p 1%nat) (p 5%nat) (p 3%nat); plane_of (p 4%nat) (p 5%nat) (p 0%nat);
   plane_of (p 2%nat) (p 3%nat) (p 6%nat); plane_of (p 0%nat) (p 1%nat) (p 2%nat); plane_of (p 5%nat) (p 4%nat) (p 7%nat)].
(** export/FieldGroup.h:1269-1283: one plane after the other. *)
Definition clip_plane (pos dir : r3) (i : R * R) (p : plane) : R * R :=
  match intersect_t p pos dir with
  | Some t => if rltb 0 (dot dir (pl_normal p)) then (fst i, Rmin (snd i) t) else (Rmax (fst i) t, snd i)
  | None => i
  end.
Fixpoint all_some {A} (l : list (option A)) : option (list A) :=
  match l with
  | [] => Some []
  | Some a :: r => match all_some r with Some s => Some (a :: s) | None => None end
  | None :: _ => None
  end.
(** export/FieldGroup.h:1240-1291 [intersectFrustumMapping], without the step length. *)
Definition intersect_frustum (big : R) (s : frustum) (pos dir : r3) : option (R * R) :=
  match all_some (map (f_local_to_world s 0) unit_corners) with
  | Some c =>
      let (t0, t1) := fold_left (clip_plane pos dir) (face_planes c) (- big, big) in
      if rltb t0 t1 then Some (Rmax t0 0, t1) else None
  | None => None
  end.

(** export/FieldGroup.h:1294-1319, what a field of a group contributes: its mapping, and
    the inverse of its object transform if it has one (export/FieldWrapper.h:79-99
    [setOsToWs]).  Fields with other mappings contribute nothing.  [sign] gives the signs
    of the zeros among the components of a local direction. *)
Inductive any_map : Type := AMatrix (s : matmap) | AFrustum (s : frustum) | ANull (f : frame).
Record wrapper : Type := Wrapper { w_map : any_map; w_os : option m44 }.
Definition to_object (w : wrapper) (p : r3) : option r3 :=
  match w_os w with Some m => mult_vec (inverse m) p | None => Some p end.
Definition to_object_dir (w : wrapper) (d : r3) : r3 :=
  match w_os w with Some m => mult_dir (inverse m) d | None => d end.
Definition field_interval (big eps : R) (sign : r3 -> bool * bool * bool) (pos dir : r3) (w : wrapper) : option (fp * fp) :=
  match to_object w pos with
  | Some p =>
      let d := to_object_dir w dir in
      match w_map w with
      | AMatrix s => let '(nx, ny, nz) := sign (mult_dir (mm_ws_ls s) d) in intersect_matrix big eps s p d nx ny nz
      | AFrustum s => match intersect_frustum big s p d with Some (t0, t1) => Some (Fin t0, Fin t1) | None => None end
      | ANull _ => None
      end
  | None => None
  end.
(** export/FieldGroup.h:836-847 [getIntersections]: the intervals of all fields, whether
    there is one. *)
Definition get_intersections (big eps : R) (sign : r3 -> bool * bool * bool) (pos dir : r3) (l : list wrapper) : list (fp * fp) * bool :=
  let r := fold_left (fun acc w => match field_interval big eps sign pos dir w with Some i => acc ++ [i] | None => acc end) l [] in
  (r, (0 <? length r)%nat).
