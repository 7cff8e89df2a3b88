(** Model of the sparse linear interpolator (export/SparseField.h:112-196) as it is computed, and of the generic one
    (export/FieldInterp.h:773-817) on a sparse field, in the arithmetic of [FloatM]; and of the [operator==] with which blocks
    are released.  As in [FloatM] there is no fused multiply-add and one rounding mode.  Fields are not loaded dynamically. *)
From Coq Require Import ZArith List Bool.
From Flocq Require Import Core BinarySingleNaN.
From Verif Require Import Model.Base Model.FieldM Model.SparseM Model.FloatM.
Import ListNotations.
Open Scope Z_scope.

(** [std::min(max, std::max(min, c))] *)
Definition fs_clamp (lo hi c : Z) : Z := Z.min hi (Z.max lo c).
(** export/SparseField.h:184-192, export/FieldInterp.h:808-816: the eight lookups, the weighted sum and the cast. *)
Definition fs_eight (t : vtype) (value : v3 -> res (val t)) (c1 c2 : v3) (ax bx ay by_ az bz : f64) : res (val t) :=
  let* v111 := value (V3 (vx c1) (vy c1) (vz c1)) in
  let* v112 := value (V3 (vx c1) (vy c1) (vz c2)) in
  let* v121 := value (V3 (vx c1) (vy c2) (vz c1)) in
  let* v122 := value (V3 (vx c1) (vy c2) (vz c2)) in
  let* v211 := value (V3 (vx c2) (vy c1) (vz c1)) in
  let* v212 := value (V3 (vx c2) (vy c1) (vz c2)) in
  let* v221 := value (V3 (vx c2) (vy c2) (vz c1)) in
  let* v222 := value (V3 (vx c2) (vy c2) (vz c2)) in
  Ok (narrow t (f_trilinear ax bx ay by_ az bz (widen t v111) (widen t v112) (widen t v121) (widen t v122)
                                               (widen t v211) (widen t v212) (widen t v221) (widen t v222))).

(** export/FieldInterp.h:773-817 [LinearGenericFieldInterp::sample]. *)
Definition fs_generic (t : vtype) (dw : box) (value : v3 -> res (val t)) (x y z : f64) : res (val t) :=
  let* (x1, x2, ax, bx) := f_corner x in
  let* (y1, y2, ay, by_) := f_corner y in
  let* (z1, z2, az, bz) := f_corner z in
  let cx := fs_clamp (vx (bmin dw)) (vx (bmax dw)) in
  let cy := fs_clamp (vy (bmin dw)) (vy (bmax dw)) in
  let cz := fs_clamp (vz (bmin dw)) (vz (bmax dw)) in
  fs_eight t value (V3 (cx x1) (cy y1) (cz z1)) (V3 (cx x2) (cy y2) (cz z2)) ax bx ay by_ az bz.

(** export/SparseField.h:112-196 [LinearSparseFieldInterp::sample].  The pointers into the block are indices; following one
    outside the block is [UB]. *)
Definition fs_sample (t : vtype) (f : sparse (val t)) (x y z : f64) : res (val t) :=
  let* (x1, x2, ax, bx) := f_corner x in
  let* (y1, y2, ay, by_) := f_corner y in
  let* (z1, z2, az, bz) := f_corner z in
  let dw := s_dw f in
  let cx := fs_clamp (vx (bmin dw)) (vx (bmax dw)) in
  let cy := fs_clamp (vy (bmin dw)) (vy (bmax dw)) in
  let cz := fs_clamp (vz (bmin dw)) (vz (bmax dw)) in
  let c1 := V3 (cx x1) (cy y1) (cz z1) in
  let c2 := V3 (cx x2) (cy y2) (cz z2) in
  let* q := window_offset f c1 in
  let v := voxel_in_block (s_order f) q in
  let b := block_coord (s_order f) q in
  let size := Z.shiftl 1 (s_order f) in
  if ((vx v <? size - 1) && (vy v <? size - 1) && (vz v <? size - 1))%Z then
    let* id := block_id f b in
    let* blk := arr_get (s_blocks f) id in
    if b_alloc blk then
      let c111 := vx v + vy v * size + vz v * size * size in
      let c121 := c111 + size * (vy c2 - vy c1) in
      let c112 := c111 + size * size * (vz c2 - vz c1) in
      let c122 := c112 + size * (vy c2 - vy c1) in
      let xInc := vx c2 - vx c1 in
      let* v111 := block_cell blk c111 in
      let* v112 := block_cell blk c112 in
      let* v121 := block_cell blk c121 in
      let* v122 := block_cell blk c122 in
      let* v211 := block_cell blk (c111 + xInc) in
      let* v212 := block_cell blk (c112 + xInc) in
      let* v221 := block_cell blk (c121 + xInc) in
      let* v222 := block_cell blk (c122 + xInc) in
      Ok (narrow t (f_trilinear ax bx ay by_ az bz (widen t v111) (widen t v112) (widen t v121) (widen t v122)
                                                   (widen t v211) (widen t v212) (widen t v221) (widen t v222)))
    else Ok (b_empty blk)
  else fs_eight t (sparse_value f) c1 c2 ax bx ay by_ az bz.

(** [operator==] of the value types, as export/SparseField.h:731, 751 use it (as [!=]): noughts of either sign are equal, and
    nothing is equal to what is not a number. *)
Definition fs_eq (t : vtype) (x y : val t) : bool := match Bcompare x y with Some Eq => true | _ => false end.
