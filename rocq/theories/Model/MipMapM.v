(** Model of the coordinates of MIP levels: src/MIPUtil.cpp, export/MIPField.h and
    export/MIPInterp.h.  Positions are reals. *)
From Coq Require Import ZArith Reals List Bool.
From Verif Require Import Model.Base Model.RealM Model.VecM Model.MatM Model.CurveM Model.CoordM Model.MapM Model.DenseM Model.OpsM
  Model.InterpM Model.CopyM Model.RayM.
Import ListNotations.
Open Scope R_scope.

(** export/MIPField.h:605-611, src/MIPUtil.cpp:97-104: by how many voxels a level is shifted,
    on one axis.  ([>>] and [<<] of negative numbers are arithmetic shifts on the compilers
    the library supports; the language leaves them open.) *)
Definition mip_shift (offset level : Z) : Z := (Z.shiftl (Z.shiftr offset level) level - offset)%Z.
(** export/MIPField.h:599-615 [getVsMIPCoord] (the precision of [float] is left out). *)
Definition mip_coord (offset : v3) (level : Z) (p : r3) : r3 :=
  let k := / IZR (2 ^ level) in
  R3 ((rx p - IZR (mip_shift (vx offset) level)) * k) ((ry p - IZR (mip_shift (vy offset) level)) * k) ((rz p - IZR (mip_shift (vz offset) level)) * k).

(** [V3d::normalized] times a length. *)
Definition direction (p o : r3) (len : R) : r3 :=
  let n := normalized (sub3 p o) in R3 (rx n * len) (ry n * len) (rz n * len).
Definition add3 (a b : r3) : r3 := R3 (rx a + rx b) (ry a + ry b) (rz a + rz b).
(** export/CoordSys.h:127-148 [coordinateSystem] of basis vectors and an origin. *)
Definition coordinate_system (x y z o : r3) : m44 :=
  M44 (R4 (rx x) (ry x) (rz x) 0) (R4 (rx y) (ry y) (rz y) 0) (R4 (rx z) (ry z) (rz z) 0) (R4 (rx o) (ry o) (rz o) 1).
(** src/MIPUtil.cpp:119-144: the matrix of a level at the time of one sample.  [None]: a
    position that is not finite.  The voxel size is that at time 0 (110). *)
Definition level_matrix (s : matmap) (offset : v3) (res : r3) (level : Z) (t : R) : option m44 :=
  match m_local_to_world s t (R3 0 0 0), m_local_to_world s t (R3 1 0 0), m_local_to_world s t (R3 0 1 0), m_local_to_world s t (R3 0 0 (1 / 10)) with
  | Some o, Some x, Some y, Some z =>
      let size := mm_voxel s in let mult := IZR (2 ^ level) in
      let o' := add3 o (direction x o (rx size * IZR (mip_shift (vx offset) level))) in
      let o' := add3 o' (direction y o (ry size * IZR (mip_shift (vy offset) level))) in
      let o' := add3 o' (direction z o (rz size * IZR (mip_shift (vz offset) level))) in
      Some (coordinate_system (direction x o (rx size * mult * rx res)) (direction y o (ry size * mult * ry res)) (direction z o (rz size * mult * rz res)) o')
  | _, _, _, _ => None
  end.
Fixpoint level_matrices (s : matmap) (offset : v3) (res : r3) (level : Z) (l : mcurve) : option (list mat_op) :=
  match l with
  | [] => Some []
  | (t, _) :: r =>
      match level_matrix s offset res level t, level_matrices s offset res level r with
      | Some m, Some ops => Some (MSetAt t m :: ops)
      | _, _ => None
      end
  end.
Definition size_of (e : box) : r3 :=
  R3 (IZR (vx (bmax e) - vx (bmin e) + 1)) (IZR (vy (bmax e) - vy (bmin e) + 1)) (IZR (vz (bmax e) - vz (bmin e) + 1)).
(** src/MIPUtil.cpp:82-149 [adjustedMIPFieldMapping]: other mappings than matrices are
    returned as they are. *)
Definition adjusted_mapping (m : mapping) (offset : v3) (e : box) (level : Z) : option (res mapping) :=
  match m with
  | MapMatrix s =>
      match level_matrices s offset (size_of e) level (mm_curve s) with
      | Some ops => Some (let* n := mat_run mat_init ops in Ok (MapMatrix n))
      | None => None
      end
  | _ => Some (Ok m)
  end.
(** export/MIPField.h:548-566 [mappingChanged] (and 706-709, on loading a level): the mapping
    of a level above the base, which has the extents [e]. *)
Definition level_mapping (m : mapping) (offset : v3) (e : box) (level : Z) : option (res mapping) :=
  match adjusted_mapping m offset e level with
  | Some r => Some (let* n := r in map_extents n e)
  | None => None
  end.

(** src/MIPUtil.cpp:157-168 [computeOffset], from the voxel position of the world origin. *)
Definition compute_offset1 (x : R) : res Z := let* i := int_floor (x + 1 / 2) in i32 (- i).
Definition compute_offset (p : r3) : res v3 :=
  let* x := compute_offset1 (rx p) in let* y := compute_offset1 (ry p) in let* z := compute_offset1 (rz p) in Ok (V3 x y z).

(** ** Interpolation *)
(** export/MIPInterp.h:128-141, the constructor: the smallest side of a voxel of each of [n]
    levels. *)
Definition level_voxel (size : r3) (i : nat) : R := Rmin (Rmin (rx size) (ry size)) (rz size) * 2 ^ i.
Record interp_info : Type := Interp { in_lower : nat; in_upper : nat; in_t : R }.
(** export/MIPInterp.h:181-192: the loop from level [i] on, [n] levels to go. *)
Fixpoint between_levels (size : r3) (spot : R) (i n : nat) : option interp_info :=
  match n with
  | O => None
  | S m =>
      if rleb spot (level_voxel size i)
      then Some (Interp (i - 1) i (lerpfactor spot (level_voxel size (i - 1)) (level_voxel size i)))
      else between_levels size spot (S i) m
  end.
(** export/MIPInterp.h:173-195 [interpInfo], for a field of [n] levels. *)
Definition interp_info_of (size : r3) (n : nat) (spot : R) : interp_info :=
  if rleb spot (level_voxel size 0) then Interp 0 0 0
  else match between_levels size spot 1 (n - 1) with
       | Some i => i
       | None => Interp (n - 1) (n - 1) 0
       end.
(** export/MIPInterp.h:145-169 [sample] on the levels [fs].  (The interpolator of sparse
    fields gives the same as the generic one, see [C28_sparse_fast_path].) *)
Definition level_at {k : kind} (fs : list (fld (V := R) k)) (l : nat) (p : r3) : res R :=
  match nth_error fs l with Some f => generic_sample (f_dw f) (f_get f) p | None => UB end.
Definition mip_sample {k : kind} (size : r3) (offset : v3) (fs : list (fld (V := R) k)) (p : r3) (spot : R) : res R :=
  let i := interp_info_of size (length fs) spot in
  if (in_lower i =? in_upper i)%nat then
    if (in_lower i =? 0)%nat then level_at fs O p
    else level_at fs (in_lower i) (mip_coord offset (Z.of_nat (in_lower i)) p)
  else
    let* v0 := level_at fs (in_lower i) (mip_coord offset (Z.of_nat (in_lower i)) p) in
    let* v1 := level_at fs (in_upper i) (mip_coord offset (Z.of_nat (in_upper i)) p) in
    Ok (lerp v0 v1 (in_t i)).
