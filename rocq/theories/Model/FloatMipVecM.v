(** Model of the filtering of MIP levels (export/MIPUtil.h:200-345) in fields of vectors, as it is computed, under the
    assumptions of Model/FloatM.v.  [ComputationType] (export/MIPUtil.h:97-110) is [float] for [half], but a vector of [half]
    for a vector of [half].  One component is followed. *)
From Coq Require Import ZArith List Bool.
From Flocq Require Import Core BinarySingleNaN.
From Verif Require Import Model.Base Model.VecM Model.LoopM Model.FilterM Model.MipM Model.FloatM Model.FloatMipM Model.FloatCubicM.
Open Scope Z_scope.

(** [Vec3::operator/] of Imath on one component; on [half] it is made in [float] and converted. *)
Definition wdiv {w} (x y : val w) : val w := cast w (vdiv (cast (ct w) x) (cast (ct w) y)).
(** export/MIPUtil.h:221-226 and 286-318 for vectors: [value * weight] and [accumValue / accumWeight] take a number of the
    component type, to which the [float] is converted.  Simplified: 315 asks whether the vector is zero, here the component;
    a component that is zero gives zero either way. *)
Definition fv_line t (width : val VFloat) (value : Z -> res (val t)) (tgt add lo hi : Z) : res (option (val t)) :=
  let two := vnum VFloat 2 0 in
  let coord_mult := vdiv (vnum VFloat 1 0) two in
  let cur := fm_cur tgt add in
  let* start := vfloor (vsub cur (vmul (fm_support width) two)) in
  let* e := vceil (vadd cur (vmul (fm_support width) two)) in
  let* stop := i32 (e - 1) in
  let* acc := each (fun s acc =>
      let src_p := cast VFloat (fm_centre s) in
      let weight := fm_eval width (vmul (Babs (vsub src_p cur)) coord_mult) in
      let* v := value s in
      Ok (vadd (fst acc) weight, wadd (snd acc) (wmul v (cast t weight))))
    (zrange (Z.max start lo) (Z.min stop hi)) (B754_zero false, B754_zero false) in
  let (aw, av) := acc : val VFloat * val t in
  Ok (if Bltb (B754_zero false) aw && negb (Beqb av (B754_zero false))
      then Some (wdiv av (cast t aw)) else None).
(** export/MIPUtil.h:352-416 [mipSeparable] and 420-458 [mipResample]: the values of one level, as in Model/FloatMipM.v. *)
Definition fv_pass t width (a : axis) (add n : Z) (value : v3 -> res (val t)) (p : v3) : res (val t) :=
  let* o := fv_line t width (fun s => value (vset a p s)) (vget a p) add 0 (n - 1) in
  Ok (match o with Some v => v | None => B754_zero false end).
Definition fv_level t width (add old : v3) (value : v3 -> res (val t)) : v3 -> res (val t) :=
  fv_pass t width AxZ (vz add) (vz old) (fv_pass t width AxY (vy add) (vy old) (fv_pass t width AxX (vx add) (vx old) value)).
