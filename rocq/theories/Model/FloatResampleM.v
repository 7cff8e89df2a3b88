(** Model of resampling (export/Resample.h:409-549, src/Resample.cpp) with the box, minimum and maximum filters, as it is
    computed: positions and weights in [float], values in the type of the field.  Rounding is to nearest even; fused
    multiply-add is not in the model.  The fields and what is refused are in [FilterM]. *)
From Coq Require Import ZArith List Bool.
From Flocq Require Import Core BinarySingleNaN.
From Verif Require Import Model.Base Model.LoopM Model.FilterM Model.FloatM Model.FloatMipM Model.FloatMinMaxM.
Import ListNotations.
Open Scope Z_scope.

(** export/Resample.h:416-420: the number of voxels as a [float], and its inverse, divided in [double] *)
Definition fr_domain (n : Z) : val VFloat := vnum VFloat n 0.
Definition fr_size (n : Z) : val VFloat := cast VFloat (vdiv (of_int 1 : val VDouble) (cast VDouble (fr_domain n))).
(** src/Resample.cpp:82-99 [srcSupportBBox] *)
Definition fr_interval (tgt_p support : val VFloat) (upres : bool) (src_size tgt_size : val VFloat) : res (Z * Z) :=
  if upres then
    let* lo := vfloor (vsub (vdiv (vmul tgt_p tgt_size) src_size) support) in
    let* c := vceil (vadd (vdiv (vmul tgt_p tgt_size) src_size) support) in
    let* hi := i32 (c - 1) in
    Ok (lo, hi)
  else
    let* lo := vfloor (vdiv (vmul (vsub tgt_p support) tgt_size) src_size) in
    let* hi := vceil (vdiv (vmul (vadd tgt_p support) tgt_size) src_size) in
    Ok (lo, hi).
(** src/Resample.cpp:121-131 [getDist] *)
Definition fr_dist (upres : bool) (src_p tgt_p src_size tgt_size : val VFloat) : val VFloat :=
  if upres then Babs (vsub (vdiv (vmul tgt_p tgt_size) src_size) src_p)
  else Babs (vsub (vdiv (vmul src_p src_size) tgt_size) tgt_p).

(** export/Resample.h:416-447 and 460-480: the source voxels of target voxel [tgt] of [new] along an axis of [old] source
    voxels, each with its weight. *)
Definition fr_taps (old new tgt : Z) : res (list (Z * val VFloat)) :=
  let src_size := fr_size old in
  let tgt_size := fr_size new in
  let upres := new >? old in
  let tgt_p := cast VFloat (fm_centre tgt) in
  let* (lo, hi) := fr_interval tgt_p (fm_support default_width) upres src_size tgt_size in
  Ok (map (fun s => (s, fm_eval default_width (fr_dist upres (cast VFloat (fm_centre s)) tgt_p src_size tgt_size)))
          (zrange (Z.max lo 0) (Z.min hi (old - 1)))).

(** The filter. *)
Inductive fr_filter : Type := Mean | Extreme (k : extreme).
(** export/Resample.h:433 and 447-465 (analytic), 466-498 (not).  Unlike those of a MIP level, sums and results are of the
    type of the field, so a sum of [half] is rounded to [half] each time.  [None]: nothing is assigned. *)
Definition fr_line (f : fr_filter) t (value : Z -> res (val t)) (old new tgt : Z) : res (option (val t)) :=
  let* taps := fr_taps old new tgt in
  match f with
  | Extreme k =>
      let initial : val t := cast t (fx_initial k) in
      let* acc := each (fun s acc => let* v := value (fst s) in Ok (if Bltb (B754_zero false) (snd s) then fx_op k acc v else acc)) taps initial in
      Ok (if negb (Beqb acc initial) then Some acc else None)
  | Mean =>
      let up : val t -> val (ct t) := cast (ct t) in
      let* acc := each (fun s acc => let* v := value (fst s) in
          Ok (vadd (fst acc) (snd s), cast t (vadd (up (snd acc)) (vmul (up v) (cast (ct t) (snd s)))))) taps (B754_zero false, B754_zero false) in
      let (aw, av) := acc : val VFloat * val t in
      Ok (if Bltb (B754_zero false) aw && negb (Beqb av (B754_zero false)) then Some (cast t (vdiv (up av) (cast (ct t) aw))) else None)
  end.
(** export/Resample.h:409-503 [separable]: the values of the resized, hence zeroed, target. *)
Definition fr_pass f t (a : axis) (old new : Z) (value : v3 -> res (val t)) (p : v3) : res (val t) :=
  let* o := fr_line f t (fun s => value (vset a p s)) old new (vget a p) in
  Ok (match o with Some v => v | None => B754_zero false end).
(** export/Resample.h:510-549 [separableResample]: the values. *)
Definition fr_resample f t (old new : v3) (value : v3 -> res (val t)) : v3 -> res (val t) :=
  fr_pass f t AxZ (vz old) (vz new) (fr_pass f t AxY (vy old) (vy new) (fr_pass f t AxX (vx old) (vx new) value)).
