(** Model of cubic interpolation (export/FieldInterp.h:650-767, 1081-1200, 1565-1660) as it is computed: positions in
    binary64, values in the field's type.  Rounding is to nearest even; fused multiply-add is not in the model. *)
From Coq Require Import ZArith List Bool.
From Flocq Require Import Core BinarySingleNaN.
From Verif Require Import Model.Base Model.FloatM Model.FloatMipM.
Open Scope Z_scope.

(** What a voxel holds: a number, or a vector of which one component is followed. *)
Inductive shape : Type := Scalar | Vector.
(** The type in which expressions are evaluated.  Sums and products of [half] are of type [float] and become [half] when
    they are stored in a variable; those of vectors of [half] are vectors of [half], so every operation is stored. *)
Definition expr (s : shape) (t : vtype) : vtype := match s with Scalar => ct t | Vector => t end.
(** The operations of an expression of type [w]; on [half] they are made in [float] and converted. *)
Definition wadd {w} (x y : val w) : val w := cast w (vadd (cast (ct w) x) (cast (ct w) y)).
Definition wsub {w} (x y : val w) : val w := cast w (vsub (cast (ct w) x) (cast (ct w) y)).
Definition wmul {w} (x y : val w) : val w := cast w (vmul (cast (ct w) x) (cast (ct w) y)).

(** export/FieldInterp.h:1565-1589 [monotonicCubicInterpolant], and a component of 1597-1626
    [monotonicCubicInterpolantVec], which 1630-1660 selects for vectors. *)
Definition f_cubic (s : shape) (t : vtype) (f1 f2 f3 f4 : val t) (x : f64) : val t :=
  let w := expr s t in
  let up : val t -> val w := cast w in
  let st : val w -> val t := cast t in
  let zero : val t := B754_zero false in
  let d_k := st (wmul (vnum w 1 (-1)) (wsub (up f3) (up f1))) in
  let d_k1 := st (wmul (vnum w 1 (-1)) (wsub (up f4) (up f2))) in
  let delta := st (wsub (up f3) (up f2)) in
  let d_k := if Beqb delta zero then zero else d_k in
  let d_k1 := if Beqb delta zero then zero else d_k1 in
  let a0 := f2 in
  let a1 := d_k in
  let a2 := st (wsub (wsub (wmul (vnum w 3 0) (up delta)) (wmul (vnum w 2 0) (up d_k))) (up d_k1)) in
  let a3 := st (wsub (wadd (up d_k) (up d_k1)) (wmul (vnum w 2 0) (up delta))) in
  let t1 := narrow t x in
  let t2 := st (wmul (up t1) (up t1)) in
  let t3 := st (wmul (up t2) (up t1)) in
  st (wadd (wadd (wadd (wmul (up a3) (up t3)) (wmul (up a2) (up t2))) (wmul (up a1) (up t1))) (up a0)).

(** One axis of export/FieldInterp.h:656-688, 1089-1121; [std::max(0.5, x)] is [x] if [0.5 < x], else 0.5. *)
Definition f_cubic_axis (lo hi : Z) (x : f64) : res (Z * Z * Z * Z * f64) :=
  let clamped := if Bltb f_half x then x else f_half in
  let p := fsub clamped f_half in
  let* c := floor_int p in
  let t := fsub p (of_int c) in
  let im := clamp lo hi c in
  let* a := i32 (im - 1) in
  let* b := i32 (im + 1) in
  let* d := i32 (im + 2) in
  Ok (clamp lo hi a, im, clamp lo hi b, clamp lo hi d, t).

(** export/FieldInterp.h:650-767 [CubicFieldInterp::sample] and 1081-1200 [CubicGenericFieldInterp::sample].  [value]: the
    voxels in the data window [dw] (C29 shows that no other is read). *)
Definition f_line (s : shape) (t : vtype) (g : Z -> val t) (k : Z * Z * Z * Z * f64) : val t :=
  let '(k_1, k0, k1, k2, x) := k in f_cubic s t (g k_1) (g k0) (g k1) (g k2) x.
Definition f_cubic_sample (s : shape) (t : vtype) (value : v3 -> val t) (dw : box) (x y z : f64) : res (val t) :=
  let* i := f_cubic_axis (vx (bmin dw)) (vx (bmax dw)) x in
  let* j := f_cubic_axis (vy (bmin dw)) (vy (bmax dw)) y in
  let* k := f_cubic_axis (vz (bmin dw)) (vz (bmax dw)) z in
  Ok (f_line s t (fun a => f_line s t (fun b => f_line s t (fun c => value (V3 a b c)) k) j) i).
