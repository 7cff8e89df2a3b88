(** Model of the filtering of MIP levels (export/MIPUtil.h) with the minimum and maximum filters, as it is computed:
    positions in [float], values compared in the computation type.  Threads, storage and the skipping of empty input are
    in [MipM]. *)
From Coq Require Import ZArith List Bool.
From Flocq Require Import Core BinarySingleNaN.
From Verif Require Import Model.Base Model.LoopM Model.FilterM Model.MipM Model.FloatM Model.FloatMipM.
Import ListNotations.
Open Scope Z_scope.

(** [MinFilter] or [MaxFilter] *)
Inductive extreme : Type := Lowest | Highest.
(** [std::numeric_limits<float>::max()] *)
Definition float_max : val VFloat := vnum VFloat (2 ^ 24 - 1) 104.
(** export/Resample.h:182-185, 238-241 [initialValue] *)
Definition fx_initial (k : extreme) : val VFloat := match k with Lowest => float_max | Highest => Bopp float_max end.
(** export/Resample.h:187-199, 244-256 [op], on a number or a component of a vector: [std::min(a, b)] is [b] if [b < a],
    else [a]; [std::max(a, b)] is [b] if [a < b], else [a]. *)
Definition fx_op {w} (k : extreme) (a b : val w) : val w :=
  match k with Lowest => if Bltb b a then b else a | Highest => if Bltb a b then b else a end.

(** export/MIPUtil.h:221-226 and 247-284: one target voxel, as [fm_line] for filters that are not analytic.  The filters
    share [eval] and [support] with the box filter (export/Resample.h:169-181, 225-237). *)
Definition fx_line k t (width : val VFloat) (value : Z -> res (val t)) (tgt add lo hi : Z) : res (option (val t)) :=
  let two := vnum VFloat 2 0 in
  let coord_mult := vdiv (vnum VFloat 1 0) two in
  let cur := fm_cur tgt add in
  let initial : val (ct t) := cast (ct t) (fx_initial k) in
  let* start := vfloor (vsub cur (vmul (fm_support width) two)) in
  let* e := vceil (vadd cur (vmul (fm_support width) two)) in
  let* stop := i32 (e - 1) in
  let* acc := each (fun s acc =>
      let src_p := cast VFloat (fm_centre s) in
      let weight := fm_eval width (vmul (Babs (vsub src_p cur)) coord_mult) in
      let* v := value s in
      Ok (if Bltb (B754_zero false) weight then fx_op k acc (cast (ct t) v) else acc))
    (zrange (Z.max start lo) (Z.min stop hi)) initial in
  Ok (if negb (Beqb acc initial) then Some (cast t acc) else None).

(** export/MIPUtil.h:352-416 [mipSeparable], 420-458 [mipResample] and 503-534, as in [FloatMipM]. *)
Definition fx_pass k t width (a : axis) (add n : Z) (value : v3 -> res (val t)) (p : v3) : res (val t) :=
  let* o := fx_line k t width (fun s => value (vset a p s)) (vget a p) add 0 (n - 1) in
  Ok (match o with Some v => v | None => B754_zero false end).
Definition fx_level k t width (add old : v3) (value : v3 -> res (val t)) : v3 -> res (val t) :=
  fx_pass k t width AxZ (vz add) (vz old) (fx_pass k t width AxY (vy add) (vy old) (fx_pass k t width AxX (vx add) (vx old) value)).
Fixpoint fx_levels k t width (base offset : v3) (value : v3 -> val t) (l : nat) : res (v3 * v3 * (v3 -> res (val t))) :=
  match l with
  | O => Ok (base, offset, fun p => Ok (value p))
  | S m =>
      let* s := fx_levels k t width base offset value m in
      let '(old, off, v) := s in
      let* new := mip_resolution base (Z.of_nat l) (add_of off) in
      Ok (new, half_offsets off, fx_level k t width (add_of off) old v)
  end.
