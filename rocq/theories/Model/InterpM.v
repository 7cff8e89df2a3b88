(** Model of the interpolators of export/FieldInterp.h and of the sparse one of
    export/SparseField.h, in exact arithmetic.

    A field is given by its data window and its [value] / [fastValue] function, whose
    outcome can be [UB].  Values are real numbers; a vector field is interpolated
    component by component with the same weights, so it is a triple of these.  [half],
    [float] and [double] rounding is not modelled. *)
From Coq Require Import ZArith Reals List Bool.
From Verif Require Import Model.Base Model.FieldM Model.RealM Model.VecM Model.SparseM.
Import ListNotations.
Open Scope R_scope.

(** One axis of export/FieldInterp.h:611-622, 785-796 (the same code in every linear
    interpolator): [c1 = floor(p)], [c2 = c1 + 1], [f1 = c2 - p], [f2 = 1 - f1]. *)
Definition corner (p : R) : res (Z * Z * R * R) :=
  let* c1 := int_floor p in
  let* c2 := i32 (c1 + 1) in
  let f1 := IZR c2 - p in
  Ok (c1, c2, f1, 1 - f1).

(** export/FieldInterp.h:627-632, [std::max(min, std::min(c, max))]. *)
Definition clamp_in (lo hi c : Z) : Z := Z.max lo (Z.min c hi).
(** export/FieldInterp.h:801-806, [std::min(max, std::max(min, c))]. *)
Definition clamp_out (lo hi c : Z) : Z := Z.min hi (Z.max lo c).

(** export/FieldInterp.h:635-643, 808-816: the weighted sum of the eight values. *)
Definition trilinear (f1 f2 : r3) (v111 v112 v121 v122 v211 v212 v221 v222 : R) : R :=
  rx f1 * (ry f1 * (rz f1 * v111 + rz f2 * v112) + ry f2 * (rz f1 * v121 + rz f2 * v122)) +
  rx f2 * (ry f1 * (rz f1 * v211 + rz f2 * v212) + ry f2 * (rz f1 * v221 + rz f2 * v222)).

Section Interp.
Variable dw : box.
Variable val : v3 -> res R.

(** The eight lookups at corners [c1] and [c2] and the weighted sum. *)
Definition stencil (c1 c2 : v3) (f1 f2 : r3) : res R :=
  let* v111 := val (V3 (vx c1) (vy c1) (vz c1)) in
  let* v112 := val (V3 (vx c1) (vy c1) (vz c2)) in
  let* v121 := val (V3 (vx c1) (vy c2) (vz c1)) in
  let* v122 := val (V3 (vx c1) (vy c2) (vz c2)) in
  let* v211 := val (V3 (vx c2) (vy c1) (vz c1)) in
  let* v212 := val (V3 (vx c2) (vy c1) (vz c2)) in
  let* v221 := val (V3 (vx c2) (vy c2) (vz c1)) in
  let* v222 := val (V3 (vx c2) (vy c2) (vz c2)) in
  Ok (trilinear f1 f2 v111 v112 v121 v122 v211 v212 v221 v222).

(** export/FieldInterp.h:605-645 [LinearFieldInterp::sample]. *)
Definition linear_sample (vsP : r3) : res R :=
  let* (ax, bx, f1x, f2x) := corner (rx vsP - 1 / 2) in
  let* (ay, by_, f1y, f2y) := corner (ry vsP - 1 / 2) in
  let* (az, bz, f1z, f2z) := corner (rz vsP - 1 / 2) in
  let cx := clamp_in (vx (bmin dw)) (vx (bmax dw)) in
  let cy := clamp_in (vy (bmin dw)) (vy (bmax dw)) in
  let cz := clamp_in (vz (bmin dw)) (vz (bmax dw)) in
  stencil (V3 (cx ax) (cy ay) (cz az)) (V3 (cx bx) (cy by_) (cz bz))
          (R3 f1x f1y f1z) (R3 f2x f2y f2z).

(** export/FieldInterp.h:773-817 [LinearGenericFieldInterp::sample]. *)
Definition generic_sample (vsP : r3) : res R :=
  let* (ax, bx, f1x, f2x) := corner (rx vsP - 1 / 2) in
  let* (ay, by_, f1y, f2y) := corner (ry vsP - 1 / 2) in
  let* (az, bz, f1z, f2z) := corner (rz vsP - 1 / 2) in
  let cx := clamp_out (vx (bmin dw)) (vx (bmax dw)) in
  let cy := clamp_out (vy (bmin dw)) (vy (bmax dw)) in
  let cz := clamp_out (vz (bmin dw)) (vz (bmax dw)) in
  stencil (V3 (cx ax) (cy ay) (cz az)) (V3 (cx bx) (cy by_) (cz bz))
          (R3 f1x f1y f1z) (R3 f2x f2y f2z).

(** export/FieldInterp.h:1565-1589 [monotonicCubicInterpolant]; the vector version
    1597-1626 does the same in each component. *)
Definition cubic (f1 f2 f3 f4 t : R) : R :=
  let delta := f3 - f2 in
  let d_k := if reqb delta 0 then 0 else 1 / 2 * (f3 - f1) in
  let d_k1 := if reqb delta 0 then 0 else 1 / 2 * (f4 - f2) in
  let a2 := 3 * delta - 2 * d_k - d_k1 in
  let a3 := d_k + d_k1 - 2 * delta in
  a3 * (t * t * t) + a2 * (t * t) + d_k * t + f2.

(** One axis of export/FieldInterp.h:656-688, 1089-1121: the position is clamped below
    at 0.5, [c] is the sample before it and [t] the fraction; then the four sample
    indices, each clamped to the window. *)
Definition cubic_axis (lo hi : Z) (x : R) : res (Z * Z * Z * Z * R) :=
  let p := Rmax (1 / 2) x - 1 / 2 in
  let* c := int_floor p in
  let t := p - IZR c in
  let im := clamp_in lo hi c in
  let* a := i32 (im - 1) in
  let* b := i32 (im + 1) in
  let* d := i32 (im + 2) in
  Ok (clamp_in lo hi a, im, clamp_in lo hi b, clamp_in lo hi d, t).

(** export/FieldInterp.h:691-757, 1124-1190: a line in z, at column (i, j); 759-762 a
    plane, at row i. *)
Definition cubic_line (i j : Z) (k : Z * Z * Z * Z * R) : res R :=
  let '(k_1, k0, k1, k2, t) := k in
  let* a := val (V3 i j k_1) in
  let* b := val (V3 i j k0) in
  let* c := val (V3 i j k1) in
  let* d := val (V3 i j k2) in
  Ok (cubic a b c d t).
Definition cubic_plane (i : Z) (j k : Z * Z * Z * Z * R) : res R :=
  let '(j_1, j0, j1, j2, t) := j in
  let* a := cubic_line i j_1 k in
  let* b := cubic_line i j0 k in
  let* c := cubic_line i j1 k in
  let* d := cubic_line i j2 k in
  Ok (cubic a b c d t).

(** export/FieldInterp.h:650-767 [CubicFieldInterp::sample] and 1081-1200
    [CubicGenericFieldInterp::sample] (the same code with [fastValue] for [value]).  All
    64 values are looked up before the planes are combined; lookups have no effect, so
    the order does not matter. *)
Definition cubic_sample (vsP : r3) : res R :=
  let* i := cubic_axis (vx (bmin dw)) (vx (bmax dw)) (rx vsP) in
  let* j := cubic_axis (vy (bmin dw)) (vy (bmax dw)) (ry vsP) in
  let* k := cubic_axis (vz (bmin dw)) (vz (bmax dw)) (rz vsP) in
  let '(i_1, i0, i1, i2, t) := i in
  let* a := cubic_plane i_1 j k in
  let* b := cubic_plane i0 j k in
  let* c := cubic_plane i1 j k in
  let* d := cubic_plane i2 j k in
  Ok (cubic a b c d t).

End Interp.

(** export/SparseField.h:112-196 [LinearSparseFieldInterp::sample] for a field that is
    not dynamically loaded.  The pointers [c111], [c121], [c112], [c122] into the block's
    array are indices; dereferencing outside the array is [UB]. *)
Definition sparse_sample (f : sparse R) (vsP : r3) : res R :=
  let* (ax, bx, f1x, f2x) := corner (rx vsP - 1 / 2) in
  let* (ay, by_, f1y, f2y) := corner (ry vsP - 1 / 2) in
  let* (az, bz, f1z, f2z) := corner (rz vsP - 1 / 2) in
  let dw := s_dw f in
  let cx := clamp_out (vx (bmin dw)) (vx (bmax dw)) in
  let cy := clamp_out (vy (bmin dw)) (vy (bmax dw)) in
  let cz := clamp_out (vz (bmin dw)) (vz (bmax dw)) in
  let c1 := V3 (cx ax) (cy ay) (cz az) in
  let c2 := V3 (cx bx) (cy by_) (cz bz) in
  let f1 := R3 f1x f1y f1z in
  let f2 := R3 f2x f2y f2z in
  let* q := window_offset f c1 in
  let v := voxel_in_block (s_order f) q in
  let b := block_coord (s_order f) q in
  let size := Z.shiftl 1 (s_order f) in
  if ((vx v <? size - 1) && (vy v <? size - 1) && (vz v <? size - 1))%Z then
    let* id := block_id f b in
    let* blk := arr_get (s_blocks f) id in
    if b_alloc blk then
      let c111 := (vx v + vy v * size + vz v * size * size)%Z in
      let c121 := (c111 + size * (vy c2 - vy c1))%Z in
      let c112 := (c111 + size * size * (vz c2 - vz c1))%Z in
      let c122 := (c112 + size * (vy c2 - vy c1))%Z in
      let xInc := (vx c2 - vx c1)%Z in
      let* v111 := block_cell blk c111 in
      let* v112 := block_cell blk c112 in
      let* v121 := block_cell blk c121 in
      let* v122 := block_cell blk c122 in
      let* v211 := block_cell blk (c111 + xInc) in
      let* v212 := block_cell blk (c112 + xInc) in
      let* v221 := block_cell blk (c121 + xInc) in
      let* v222 := block_cell blk (c122 + xInc) in
      Ok (trilinear f1 f2 v111 v112 v121 v122 v211 v212 v221 v222)
    else Ok (b_empty blk)
  else stencil (sparse_value f) c1 c2 f1 f2.

(** export/FieldInterp.h:1545-1553 [ProceduralFieldLookup::sample]: the local-space
    position handed to [lsSample].  Dividing by a zero resolution is [UB]. *)
Definition procedural_position (dw : box) (vsP : r3) : res r3 :=
  let r := data_resolution dw in
  if ((vx r =? 0) || (vy r =? 0) || (vz r =? 0))%Z then UB
  else Ok (R3 (rx vsP * (1 / IZR (vx r))) (ry vsP * (1 / IZR (vy r))) (rz vsP * (1 / IZR (vz r)))).

(** src/FieldInterp.cpp:63-71 [isLegalVoxelCoord]. *)
Definition is_legal_voxel_coord (vsP : r3) (b : rbox) : bool :=
  rltb (rx (rmin b)) (rx vsP) && rltb (rx vsP) (rx (rmax b)) &&
  rltb (ry (rmin b)) (ry vsP) && rltb (ry vsP) (ry (rmax b)) &&
  rltb (rz (rmin b)) (rz vsP) && rltb (rz vsP) (rz (rmax b)).
