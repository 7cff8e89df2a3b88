(** Model of the filtering of MIP levels (export/MIPUtil.h) with the box filter, as it is computed: positions and weights
    in [float], values in the computation type.  Rounding is to nearest even; fused multiply-add is not in the model.
    Threads, storage and the skipping of empty input are in [MipM]. *)
From Coq Require Import ZArith List Bool.
From Flocq Require Import Core BinarySingleNaN.
From Verif Require Import Model.Base Model.LoopM Model.FilterM Model.MipM Model.FloatM.
Import ListNotations.
Open Scope Z_scope.

(** The arithmetic of a type [t]. *)
#[global] Instance gt_prec t : Prec_gt_0 (prec t).
Proof. destruct t; reflexivity. Defined.
#[global] Instance lt_emax t : Prec_lt_emax (prec t) (emax t).
Proof. destruct t; reflexivity. Defined.
Definition vadd {t} (x y : val t) : val t := Bplus mode_NE x y.
Definition vsub {t} (x y : val t) : val t := Bminus mode_NE x y.
Definition vmul {t} (x y : val t) : val t := Bmult mode_NE x y.
Definition vdiv {t} (x y : val t) : val t := Bdiv mode_NE x y.
(** The constant [m * 2^e], and the conversion of a value of type [s]. *)
Definition vnum t (m e : Z) : val t := binary_normalize (prec t) (emax t) _ _ mode_NE m e false.
Definition cast {s} t (x : val s) : val t := convert (prec t) (emax t) _ _ x.
(** [static_cast<int>] of [std::floor] and [std::ceil], undefined out of range. *)
Definition vfloor {t} (x : val t) : res Z := if is_finite x then i32 (Btrunc (Bnearbyint mode_DN x)) else UB.
Definition vceil {t} (x : val t) : res Z := if is_finite x then i32 (Btrunc (Bnearbyint mode_UP x)) else UB.

(** export/MIPUtil.h:98-110 [ComputationType] *)
Definition ct (t : vtype) : vtype := match t with VHalf => VFloat | _ => t end.
(** export/Field.h:1070-1073 [discToCont] *)
Definition fm_centre (i : Z) : val VDouble := fadd (of_int i) f_half.
(** export/MIPUtil.h:289-290 [curSrc]: computed in [double], stored in a [float] *)
Definition fm_cur (tgt add : Z) : val VFloat :=
  cast VFloat (vsub (vmul (fm_centre tgt) (cast VDouble (vnum VFloat 2 0))) (of_int add) : val VDouble).
(** export/Resample.h:129-141 [BoxFilter::eval] and [support] *)
Definition fm_eval (width x : val VFloat) : val VFloat :=
  if Bleb (vdiv x width) (vnum VFloat 1 (-1)) then vnum VFloat 1 0 else B754_zero false.
Definition fm_support (width : val VFloat) : val VFloat := vmul (vnum VFloat 1 (-1)) width.

(** export/Resample.h:121-123: the width of a default box filter *)
Definition default_width : val VFloat := vnum VFloat 1 0.

(** export/MIPUtil.h:221-226 and 286-318: one target voxel, whose coordinate along the axis is [tgt]; [value s] is the
    source voxel [s] of its row, [lo] and [hi] bound the source window.  [None]: nothing is assigned. *)
Definition fm_line t (width : val VFloat) (value : Z -> res (val t)) (tgt add lo hi : Z) : res (option (val t)) :=
  let two := vnum VFloat 2 0 in
  let coord_mult := vdiv (vnum VFloat 1 0) two in
  let cur := fm_cur tgt add in
  let* start := vfloor (vsub cur (vmul (fm_support width) two)) in
  let* e := vceil (vadd cur (vmul (fm_support width) two)) in
  let* stop := i32 (e - 1) in
  let* acc := each (fun s acc =>
      let src_p := cast VFloat (fm_centre s) in
      let weight := fm_eval width (vmul (Babs (vsub src_p cur)) coord_mult) in
      let* v := value s in
      Ok (vadd (fst acc) weight, vadd (snd acc) (vmul (cast (ct t) v) (cast (ct t) weight))))
    (zrange (Z.max start lo) (Z.min stop hi)) (B754_zero false, B754_zero false) in
  let (aw, av) := acc : val VFloat * val (ct t) in
  Ok (if Bltb (B754_zero false) aw && negb (Beqb av (B754_zero false))
      then Some (cast t (vdiv av (cast (ct t) aw))) else None).

(** export/MIPUtil.h:352-416 [mipSeparable]: the values of the resized, hence zeroed, target.  [n]: the voxels of the
    source along the axis, whose window begins at zero. *)
Definition fm_pass t width (a : axis) (add n : Z) (value : v3 -> res (val t)) (p : v3) : res (val t) :=
  let* o := fm_line t width (fun s => value (vset a p s)) (vget a p) add 0 (n - 1) in
  Ok (match o with Some v => v | None => B754_zero false end).
(** export/MIPUtil.h:420-458 [mipResample]: the values; [old]: the resolution of the source. *)
Definition fm_level t width (add old : v3) (value : v3 -> res (val t)) : v3 -> res (val t) :=
  fm_pass t width AxZ (vz add) (vz old) (fm_pass t width AxY (vy add) (vy old) (fm_pass t width AxX (vx add) (vx old) value)).
(** export/MIPUtil.h:503-534: level [l] of a base of [base] voxels: its resolution, the offset for the next level, and
    its values. *)
Fixpoint fm_levels t width (base offset : v3) (value : v3 -> val t) (l : nat) : res (v3 * v3 * (v3 -> res (val t))) :=
  match l with
  | O => Ok (base, offset, fun p => Ok (value p))
  | S m =>
      let* s := fm_levels t width base offset value m in
      let '(old, off, v) := s in
      let* new := mip_resolution base (Z.of_nat l) (add_of off) in
      Ok (new, half_offsets off, fm_level t width (add_of off) old v)
  end.
