(** Model of linear interpolation in a MAC field (export/FieldInterp.h:817-1075) as it is computed, in IEEE 754 binary64
    arithmetic, under the assumptions of Model/FloatM.v. *)
From Coq Require Import ZArith List Bool.
From Flocq Require Import Core BinarySingleNaN.
From Verif Require Import Model.Base Model.VecM Model.MacM Model.FloatM.

(** One axis of export/FieldInterp.h:826-842, 862-878, 898-914 and of the cases of 957-1065: along the component's own axis the
    faces lie at whole coordinates and nothing is subtracted. *)
Definition f_face_corner (own_axis : bool) (x : f64) : res (Z * Z * f64 * f64) :=
  let p := if own_axis then x else fsub x f_half in
  let* c1 := floor_int p in
  let* c2 := i32 (c1 + 1) in
  let f1 := fsub (of_int c2) p in
  Ok (c1, c2, f1, fsub f_one f1).
Definition is_u (c : component) : bool := match c with CompU => true | _ => false end.
Definition is_v (c : component) : bool := match c with CompV => true | _ => false end.
Definition is_w (c : component) : bool := match c with CompW => true | _ => false end.
(** export/FieldInterp.h:844-850: [std::min(max, std::max(min, c))], with one more face along the component's own axis. *)
Definition clamp_face (own_axis : bool) (lo hi c : Z) : Z := Z.min (if own_axis then hi + 1 else hi) (Z.max lo c).
(** export/FieldInterp.h:941-1075 [LinearMACFieldInterp::sample] of one component: a [double], whatever the field's type is.
    [faces]: the stored components ([u], [v] and [w], export/MACField.h), read at the faces of the window [dw] only.
    Simplified: the sum [dataWindow.max.x + 1] is not checked for overflow. *)
Definition f_mac_one (t : vtype) (faces : component -> v3 -> val t) (dw : box) (c : component) (x y z : f64) : res f64 :=
  let* (x1, x2, ax, bx) := f_face_corner (is_u c) x in
  let* (y1, y2, ay, by_) := f_face_corner (is_v c) y in
  let* (z1, z2, az, bz) := f_face_corner (is_w c) z in
  let cx := clamp_face (is_u c) (vx (bmin dw)) (vx (bmax dw)) in
  let cy := clamp_face (is_v c) (vy (bmin dw)) (vy (bmax dw)) in
  let cz := clamp_face (is_w c) (vz (bmin dw)) (vz (bmax dw)) in
  let v i j k := widen t (faces c (V3 i j k)) in
  Ok (f_trilinear ax bx ay by_ az bz
        (v (cx x1) (cy y1) (cz z1)) (v (cx x1) (cy y1) (cz z2)) (v (cx x1) (cy y2) (cz z1)) (v (cx x1) (cy y2) (cz z2))
        (v (cx x2) (cy y1) (cz z1)) (v (cx x2) (cy y1) (cz z2)) (v (cx x2) (cy y2) (cz z1)) (v (cx x2) (cy y2) (cz z2))).
(** export/FieldInterp.h:817-941 [LinearMACFieldInterp::sample]: the same expression for each component, each assigned to
    an element of a [Data_T], a vector of the field's type. *)
Definition f_mac (t : vtype) (faces : component -> v3 -> val t) (dw : box) (x y z : f64) : res (val t * val t * val t) :=
  let* a := f_mac_one t faces dw CompU x y z in
  let* b := f_mac_one t faces dw CompV x y z in
  let* c := f_mac_one t faces dw CompW x y z in
  Ok (narrow t a, narrow t b, narrow t c).
