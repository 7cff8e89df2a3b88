(** Model of linear interpolation (export/FieldInterp.h:605-645, 773-817) in fields of vectors, as it is computed, under the
    assumptions of Model/FloatM.v.  Every operation on vectors acts on each component alone and gives a vector of the field's
    type, so one component is followed and every product and every sum is rounded to that type. *)
From Coq Require Import ZArith List Bool.
From Flocq Require Import Core BinarySingleNaN.
From Verif Require Import Model.Base Model.FloatM Model.FloatMipM Model.FloatCubicM.

(** A component of export/FieldInterp.h:1557-1561 [operator *]: [vec.x * s] is a [double], and an element of the vector that
    is made from it has the field's type. *)
Definition v_scale (t : vtype) (s : f64) (v : val t) : val t := narrow t (fmul (widen t v) s).
(** export/FieldInterp.h:635-643 for vectors: [a * v + b * w] ([Vec3::operator+] of Imath), and the weighted sum. *)
Definition v_mix (t : vtype) (a b : f64) (v w : val t) : val t := wadd (v_scale t a v) (v_scale t b w).
Definition v_trilinear (t : vtype) (ax bx ay by_ az bz : f64) (v111 v112 v121 v122 v211 v212 v221 v222 : val t) : val t :=
  v_mix t ax bx (v_mix t ay by_ (v_mix t az bz v111 v112) (v_mix t az bz v121 v122))
                (v_mix t ay by_ (v_mix t az bz v211 v212) (v_mix t az bz v221 v222)).
(** export/FieldInterp.h:605-645 [LinearFieldInterp::sample] and 773-817 for vectors, one component.  [value]: that component
    of the voxels in the data window [dw] (C27 shows that no other is read). *)
Definition v_sample (t : vtype) (value : v3 -> val t) (dw : box) (x y z : f64) : res (val t) :=
  let* (x1, x2, ax, bx) := f_corner x in
  let* (y1, y2, ay, by_) := f_corner y in
  let* (z1, z2, az, bz) := f_corner z in
  let x1 := clamp (vx (bmin dw)) (vx (bmax dw)) x1 in let x2 := clamp (vx (bmin dw)) (vx (bmax dw)) x2 in
  let y1 := clamp (vy (bmin dw)) (vy (bmax dw)) y1 in let y2 := clamp (vy (bmin dw)) (vy (bmax dw)) y2 in
  let z1 := clamp (vz (bmin dw)) (vz (bmax dw)) z1 in let z2 := clamp (vz (bmin dw)) (vz (bmax dw)) z2 in
  let v i j k := value (V3 i j k) in
  Ok (v_trilinear t ax bx ay by_ az bz (v x1 y1 z1) (v x1 y1 z2) (v x1 y2 z1) (v x1 y2 z2)
                                       (v x2 y1 z1) (v x2 y1 z2) (v x2 y2 z1) (v x2 y2 z2)).
