(** Model of linear interpolation (export/FieldInterp.h:605-645) as it is computed: in IEEE 754 binary64 arithmetic,
    rounded to nearest even, on the values of a field of 16, 32 or 64 bits.  Not in the model: fused multiply-add, which
    a compiler may use in place of a product and a sum, and other rounding modes. *)
From Coq Require Import ZArith List Bool.
From Flocq Require Import Core BinarySingleNaN.
From Verif Require Import Model.Base.

(** [half], [float], [double]. *)
Definition f16 : Type := binary_float 11 16.
Definition f32 : Type := binary_float 24 128.
Definition f64 : Type := binary_float 53 1024.
#[global] Instance gt_11 : Prec_gt_0 11 := eq_refl.
#[global] Instance gt_24 : Prec_gt_0 24 := eq_refl.
#[global] Instance gt_53 : Prec_gt_0 53 := eq_refl.
#[global] Instance lt_16 : Prec_lt_emax 11 16 := eq_refl.
#[global] Instance lt_128 : Prec_lt_emax 24 128 := eq_refl.
#[global] Instance lt_1024 : Prec_lt_emax 53 1024 := eq_refl.

(** The arithmetic of [double], the conversion of an [int], and [static_cast<int>(floor(x))], undefined out of range. *)
Definition fadd (x y : f64) : f64 := Bplus mode_NE x y.
Definition fsub (x y : f64) : f64 := Bminus mode_NE x y.
Definition fmul (x y : f64) : f64 := Bmult mode_NE x y.
Definition of_int (z : Z) : f64 := binary_normalize 53 1024 gt_53 lt_1024 mode_NE z 0 false.
Definition floor_int (x : f64) : res Z :=
  if is_finite x then i32 (Btrunc (Bnearbyint mode_DN x)) else UB.
Definition f_half : f64 := binary_normalize 53 1024 gt_53 lt_1024 mode_NE 1 (-1) false.
Definition f_one : f64 := of_int 1.

(** Conversion from one format to another. *)
Definition convert {p e} p' e' (g : Prec_gt_0 p') (l : Prec_lt_emax p' e') (x : binary_float p e) : binary_float p' e' :=
  match x with
  | B754_zero s => B754_zero s
  | B754_infinity s => B754_infinity s
  | B754_nan => B754_nan
  | B754_finite s m x _ => binary_normalize p' e' g l mode_NE (cond_Zopp s (Zpos m)) x s
  end.

(** The value types: conversion to [double] in a product with one, and [static_cast<Data_T>] of a [double]; [half] is
    made from a [float]. *)
Inductive vtype : Type := VHalf | VFloat | VDouble.
Definition prec (t : vtype) : Z := match t with VHalf => 11 | VFloat => 24 | VDouble => 53 end.
Definition emax (t : vtype) : Z := match t with VHalf => 16 | VFloat => 128 | VDouble => 1024 end.
Definition val (t : vtype) : Type := binary_float (prec t) (emax t).
Definition widen (t : vtype) : val t -> f64 :=
  match t with VHalf => convert 53 1024 gt_53 lt_1024 | VFloat => convert 53 1024 gt_53 lt_1024 | VDouble => fun x => x end.
Definition narrow (t : vtype) : f64 -> val t :=
  match t with
  | VHalf => fun x => convert 11 16 gt_11 lt_16 (convert 24 128 gt_24 lt_128 x)
  | VFloat => convert 24 128 gt_24 lt_128
  | VDouble => fun x => x
  end.

(** One axis of export/FieldInterp.h:611-623: the two corners and the weights. *)
Definition f_corner (x : f64) : res (Z * Z * f64 * f64) :=
  let p := fsub x f_half in
  let* c1 := floor_int p in
  let* c2 := i32 (c1 + 1) in
  let f1 := fsub (of_int c2) p in
  Ok (c1, c2, f1, fsub f_one f1).
(** export/FieldInterp.h:635-643: [a * v + b * w], and the weighted sum of the eight values. *)
Definition f_mix (a b v w : f64) : f64 := fadd (fmul a v) (fmul b w).
Definition f_trilinear (ax bx ay by_ az bz : f64) (v111 v112 v121 v122 v211 v212 v221 v222 : f64) : f64 :=
  f_mix ax bx (f_mix ay by_ (f_mix az bz v111 v112) (f_mix az bz v121 v122))
              (f_mix ay by_ (f_mix az bz v211 v212) (f_mix az bz v221 v222)).
(** export/FieldInterp.h:605-645 [LinearFieldInterp::sample], and 773-817, which clamps in the other order.  [value]: the
    voxels in the data window [dw] (C27 shows that no other is read). *)
Definition clamp (lo hi c : Z) : Z := Z.max lo (Z.min c hi).
Definition f_sample (t : vtype) (value : v3 -> val t) (dw : box) (x y z : f64) : res (val t) :=
  let* (x1, x2, ax, bx) := f_corner x in
  let* (y1, y2, ay, by_) := f_corner y in
  let* (z1, z2, az, bz) := f_corner z in
  let x1 := clamp (vx (bmin dw)) (vx (bmax dw)) x1 in let x2 := clamp (vx (bmin dw)) (vx (bmax dw)) x2 in
  let y1 := clamp (vy (bmin dw)) (vy (bmax dw)) y1 in let y2 := clamp (vy (bmin dw)) (vy (bmax dw)) y2 in
  let z1 := clamp (vz (bmin dw)) (vz (bmax dw)) z1 in let z2 := clamp (vz (bmin dw)) (vz (bmax dw)) z2 in
  let v i j k := widen t (value (V3 i j k)) in
  Ok (narrow t (f_trilinear ax bx ay by_ az bz (v x1 y1 z1) (v x1 y1 z2) (v x1 y2 z1) (v x1 y2 z2)
                                               (v x2 y1 z1) (v x2 y1 z2) (v x2 y2 z1) (v x2 y2 z2))).
