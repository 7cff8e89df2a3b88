(** Model of the coordinate systems export/CoordSys.h makes from world bounds.  Positions are
    reals. *)
From Coq Require Import ZArith Reals Bool.
From Verif Require Import Model.Base Model.RealM Model.VecM Model.MatM Model.CoordM Model.MipMapM.
Open Scope R_scope.

(** export/CoordSys.h:186-196 [coordinateSystem(wsBounds)]. *)
Definition coord_box (b : rbox) : m44 :=
  coordinate_system (R3 (rx (rmax b) - rx (rmin b)) 0 0) (R3 0 (ry (rmax b) - ry (rmin b)) 0) (R3 0 0 (rz (rmax b) - rz (rmin b))) (rmin b).

(** Division, [floor] and [ceil] of vectors, component by component (105-116). *)
Definition div3 (a b : r3) : r3 := R3 (rx a / rx b) (ry a / ry b) (rz a / rz b).
Definition mul3 (a b : r3) : r3 := R3 (rx a * rx b) (ry a * ry b) (rz a * rz b).
Definition floor3 (a : r3) : r3 := R3 (IZR (rfloor (rx a))) (IZR (rfloor (ry a))) (IZR (rfloor (rz a))).
Definition ceil3 (a : r3) : r3 := R3 (IZR (rceil (rx a))) (IZR (rceil (ry a))) (IZR (rceil (rz a))).
(** [V3i(a + V3f(0.5))]: each component is converted to [int] by truncation, undefined out of
    range. *)
Definition half_int3 (a : r3) : res v3 :=
  let* x := i32 (rtrunc (rx a + 1 / 2)) in
  let* y := i32 (rtrunc (ry a + 1 / 2)) in
  let* z := i32 (rtrunc (rz a + 1 / 2)) in Ok (V3 x y z).
(** export/CoordSys.h:152-170 [coordinateSystem(wsBounds, wsVoxelSize, extents)]: the matrix
    and the extents.  A voxel size of zero makes numbers that are not finite, whose conversion
    to [int] is undefined. *)
Definition coord_aligned (b : rbox) (size : r3) : res (m44 * box) :=
  if reqb (rx size) 0 || reqb (ry size) 0 || reqb (rz size) 0 then UB
  else
    let lo := mul3 (floor3 (div3 (rmin b) size)) size in
    let hi := mul3 (ceil3 (div3 (rmax b) size)) size in
    let* e0 := half_int3 (floor3 (div3 lo size)) in
    let* e1 := half_int3 (floor3 (div3 hi size)) in
    Ok (coord_box (RBox lo hi), Box e0 e1).
