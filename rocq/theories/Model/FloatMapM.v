(** Model of the conversion between local and voxel coordinates (src/FieldMapping.cpp:145-168) as it is computed: in
    IEEE 754 binary64 arithmetic, rounded to nearest even.  [NullFieldMapping] (export/FieldMapping.h:274-282) and the
    last step of [FrustumFieldMapping] (src/FieldMapping.cpp:557-578) are these functions.  One dimension: the three are
    computed alike and apart. *)
From Coq Require Import ZArith List Bool.
From Flocq Require Import Core BinarySingleNaN.
From Verif Require Import Model.Base Model.FloatM Model.FloatRayM.

(** src/FieldMapping.cpp:145-151 [setExtents]: origin and resolution, subtracted in [int] and stored as [double]. *)
Definition f_extents (lo hi : Z) : res (f64 * f64) :=
  let* d := i32 (hi - lo) in
  let* r := i32 (d + 1) in
  Ok (of_int lo, of_int r).
(** Imath's [lerpfactor(m, a, b)]. *)
Definition f_lerpfactor (m a b : f64) : f64 :=
  let d := fsub b a in
  let n := fsub m a in
  if Bltb f_one (Babs d) || Bltb (Babs n) (fmul f_max (Babs d)) then fdiv n d else f_zero.
(** src/FieldMapping.cpp:155-158 [localToVoxel]. *)
Definition f_local_to_voxel (m : f64 * f64) (l : f64) : f64 := let (o, r) := m in fadd o (fmul l r).
(** src/FieldMapping.cpp:162-167 [voxelToLocal]. *)
Definition f_voxel_to_local (m : f64 * f64) (v : f64) : f64 := let (o, r) := m in f_lerpfactor v o (fadd o r).
