(** Model of [export/Resample.h] and [src/Resample.cpp]: filters and separable
    resampling of scalar fields.  [float] arithmetic is modelled by real numbers. *)
From Coq Require Import ZArith List Bool Reals.
From Verif Require Import Model.Base Model.RealM Model.VecM Model.FieldM Model.OpsM Model.LoopM.
Import ListNotations.
Open Scope R_scope.

(** The three axes; [V3i::operator[]] reading and writing. *)
Inductive axis : Type := AxX | AxY | AxZ.
Definition vget (a : axis) (p : v3) : Z :=
  match a with AxX => vx p | AxY => vy p | AxZ => vz p end.
Definition vset (a : axis) (p : v3) (s : Z) : v3 :=
  match a with
  | AxX => V3 s (vy p) (vz p) | AxY => V3 (vx p) s (vz p) | AxZ => V3 (vx p) (vy p) s
  end.

(** export/Resample.h:87-107 [Filter]: [eval], [support], [initialValue]; for the
    analytic filters ([isAnalytic]) also [op]. *)
Record filter : Type := Filter {
  fl_eval : R -> R; fl_support : R; fl_init : R; fl_op : option (R -> R -> R) }.

(** [std::numeric_limits<float>::max()] *)
Definition flt_max : R := IZR ((2 ^ 24 - 1) * 2 ^ 104).

(** export/Resample.h:129-137, shared by [BoxFilter], [MinFilter] (169-177) and
    [MaxFilter] (225-233). *)
Definition box_eval (w x : R) : R := if rleb (x / w) (1 / 2) then 1 else 0.

(** export/Resample.h:113-147 *)
Definition box_filter (w : R) : filter := Filter (box_eval w) (1 / 2 * w) 0 None.
(** export/Resample.h:153-203 *)
Definition min_filter (w : R) : filter := Filter (box_eval w) (1 / 2 * w) flt_max (Some Rmin).
(** export/Resample.h:209-260 *)
Definition max_filter (w : R) : filter := Filter (box_eval w) (1 / 2 * w) (- flt_max) (Some Rmax).
(** export/Resample.h:266-299 *)
Definition triangle_filter (w : R) : filter :=
  Filter (fun x => let t := x / w in if rltb 1 t then 0 else 1 - t) (1 * w) 0 None.
(** export/Resample.h:305-334 *)
Definition gaussian_filter (alpha w : R) : filter :=
  Filter (fun t => let x := t / w in Rmax 0 (exp (- alpha * x * x) - exp (- alpha * w * w)))
         (2 * w) 0 None.
(** export/Resample.h:340-378 *)
Definition mitchell_filter (w b c : R) : filter :=
  Filter (fun x =>
      let ax := Rabs (x / w) in
      if rltb ax 1 then
        ((12 - 9 * b - 6 * c) * ax * ax * ax + (-18 + 12 * b + 6 * c) * ax * ax + (6 - 2 * b)) / 6
      else if rleb 1 ax && rltb ax 2 then
        ((- b - 6 * c) * ax * ax * ax + (6 * b + 30 * c) * ax * ax +
         (-12 * b - 48 * c) * ax + (8 * b + 24 * c)) / 6
      else 0)
    (2 * w) 0 None.

(** The loop over source voxels of one target voxel and the test before the result
    is stored: export/Resample.h:447-465 and 480-498, the same code as
    export/MIPUtil.h:261-282 and 298-318.  [None]: the target voxel is not assigned.
    The analytic version does not use the weight other than to test it. *)
Definition filter_line (flt : filter) (val : Z -> res R) (weight : Z -> R) (lo hi : Z)
  : res (option R) :=
  match fl_op flt with
  | Some op =>
      let* acc := each (fun s a => let* v := val s in
                                   Ok (if rltb 0 (weight s) then op a v else a))
                       (zrange lo hi) (fl_init flt) in
      Ok (if reqb acc (fl_init flt) then None else Some acc)
  | None =>
      let* aw := each (fun s aw => let* v := val s in
                                   Ok (fst aw + v * weight s, snd aw + weight s))
                      (zrange lo hi) (fl_init flt, 0) in
      Ok (if rltb 0 (snd aw) && negb (reqb (fst aw) 0) then Some (fst aw / snd aw) else None)
  end.

(** export/Field.h [discToCont]: the centre of a voxel. *)
Definition voxel_centre (i : Z) : R := IZR i + 1 / 2.
(** [static_cast<int>(std::ceil(x))] *)
Definition int_ceil (x : R) : res Z := i32 (rceil x).

(** src/Resample.cpp:82-99 [srcSupportBBox] (scalar version). *)
Definition src_support (tgt_p support : R) (upres : bool) (src_size tgt_size : R) : res (Z * Z) :=
  if upres then
    let* lo := int_floor (tgt_p * tgt_size / src_size - support) in
    let* c := int_ceil (tgt_p * tgt_size / src_size + support) in
    let* hi := i32 (c - 1) in
    Ok (lo, hi)
  else
    let* lo := int_floor ((tgt_p - support) * tgt_size / src_size) in
    let* hi := int_ceil ((tgt_p + support) * tgt_size / src_size) in
    Ok (lo, hi).

(** src/Resample.cpp:121-131 [getDist] (scalar version). *)
Definition get_dist (upres : bool) (src_p tgt_p src_size tgt_size : R) : R :=
  if upres then Rabs (tgt_p * tgt_size / src_size - src_p)
  else Rabs (src_p * src_size / tgt_size - tgt_p).

(** export/Resample.h:414-498, the body of the voxel loop of [separable]: the value
    to store at [p], if any. *)
Definition separable_voxel {k} (flt : filter) (a : axis) (src : fld (V := R) k) (new_res : v3) (p : v3)
  : res (option R) :=
  let dw := f_dw src in
  let src_res := vget a (v3_add (box_size dw) (V3 1 1 1)) in
  let tgt_res := vget a new_res in
  let src_size := 1 / IZR src_res in
  let tgt_size := 1 / IZR tgt_res in
  let upres := (tgt_res >? src_res)%Z in
  let tgt_p := voxel_centre (vget a p) in
  let* (lo, hi) := src_support tgt_p (fl_support flt) upres src_size tgt_size in
  filter_line flt (fun s => f_get src (vset a p s))
    (fun s => fl_eval flt (get_dist upres (voxel_centre s) tgt_p src_size tgt_size))
    (Z.max lo (vget a (bmin dw))) (Z.min hi (vget a (bmax dw))).

(** export/Resample.h:409-503 [separable]. *)
Definition separable {k} (flt : filter) (a : axis) (src tgt : fld (V := R) k) (new_res : v3)
  : res (fld (V := R) k) :=
  let (e, dw) := size_v new_res in
  let* t := f_size 0 0 tgt e dw in
  each (fun p t => let* o := separable_voxel flt a src new_res p in
                   match o with Some v => f_set t p v | None => Ok t end)
       (box_voxels (Box (V3 0 0 0) (v3_sub new_res (V3 1 1 1)))) t.

(** Imath [Box::hasVolume]: strictly positive size on every axis. *)
Definition has_volume (b : box) : bool :=
  (vx (bmin b) <? vx (bmax b))%Z && (vy (bmin b) <? vy (bmax b))%Z && (vz (bmin b) <? vz (bmax b))%Z.

(** export/Resample.h:510-549 [separableResample], called by [resample] 559-564.
    [None]: the call returned [false] and left the target alone.  Name, attribute,
    mapping and metadata are not modelled. *)
Definition resample {k} (flt : filter) (src tgt : fld (V := R) k) (new_res : v3)
  : res (option (fld (V := R) k)) :=
  let dw := f_dw src in
  if negb (has_volume dw) then Ok None
  else if negb (v3_eqb (bmin dw) (V3 0 0 0)) then Ok None
  else
    let old := v3_add (box_size dw) (V3 1 1 1) in
    let* tmp := f_new 0 k in
    let* t1 := separable flt AxX src tgt (V3 (vx new_res) (vy old) (vz old)) in
    let* t2 := separable flt AxY t1 tmp (V3 (vx new_res) (vy new_res) (vz old)) in
    let* t3 := separable flt AxZ t2 t1 (V3 (vx new_res) (vy new_res) (vz new_res)) in
    Ok (Some t3).
