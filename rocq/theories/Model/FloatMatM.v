(** Model of a position carried through the matrix of a mapping (export/FieldMapping.h:412-458: [worldToVoxel],
    [voxelToWorld], [worldToLocal], [localToWorld] of [MatrixFieldMapping], at a time when no curve is evaluated) as it is
    computed: Imath's [M44d::multVecMatrix], in IEEE 754 binary64 arithmetic, rounded to nearest even.  Not in the model:
    how the matrices are computed and inverted, fused multiply-add. *)
From Coq Require Import ZArith List Bool.
From Flocq Require Import Core BinarySingleNaN.
From Verif Require Import Model.Base Model.FloatM Model.FloatRayM.

Record f3 : Type := F3 { f3x : f64; f3y : f64; f3z : f64 }.
(** A matrix by its columns, each of four rows. *)
Record fcol : Type := FCol { c0 : f64; c1 : f64; c2 : f64; c3 : f64 }.
Record fmat : Type := FMat { colx : fcol; coly : fcol; colz : fcol; colw : fcol }.

(** [src.x * x[0][j] + src.y * x[1][j] + src.z * x[2][j] + x[3][j]]. *)
Definition f_dot (p : f3) (c : fcol) : f64 :=
  fadd (fadd (fadd (fmul (f3x p) (c0 c)) (fmul (f3y p) (c1 c))) (fmul (f3z p) (c2 c))) (c3 c).
(** Imath's [multVecMatrix]. *)
Definition f_mult_vec (m : fmat) (p : f3) : f3 :=
  let a := f_dot p (colx m) in
  let b := f_dot p (coly m) in
  let c := f_dot p (colz m) in
  let w := f_dot p (colw m) in
  F3 (fdiv a w) (fdiv b w) (fdiv c w).
(** The matrices of [MatrixFieldMapping] that positions go through (export/FieldMapping.h:412-413, 424-425, 436-437,
    449-450), at time nought. *)
Record fmapping : Type := FMapping { f_ls_ws : fmat; f_ws_ls : fmat; f_vs_ws : fmat; f_ws_vs : fmat }.
Definition f_world_to_voxel (m : fmapping) (p : f3) : f3 := f_mult_vec (f_ws_vs m) p.
Definition f_voxel_to_world (m : fmapping) (p : f3) : f3 := f_mult_vec (f_vs_ws m) p.
Definition f_world_to_local (m : fmapping) (p : f3) : f3 := f_mult_vec (f_ws_ls m) p.
Definition f_local_to_world (m : fmapping) (p : f3) : f3 := f_mult_vec (f_ls_ws m) p.
