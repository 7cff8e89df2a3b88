(** Model of the coordinate conversions of export/Field.h and export/Types.h. *)
From Coq Require Import ZArith Reals.
From Verif Require Import Model.Base Model.RealM Model.VecM Model.SparseM.
Open Scope R_scope.

(** export/Field.h:1061-1064 [contToDisc], 1094-1098 on vectors. *)
Definition cont_to_disc (x : R) : res Z := int_floor x.
Definition cont_to_disc3 (p : r3) : res v3 :=
  let* i := cont_to_disc (rx p) in
  let* j := cont_to_disc (ry p) in
  let* k := cont_to_disc (rz p) in
  Ok (V3 i j k).
(** export/Field.h:1070-1073 [discToCont], 1103-1107 on vectors. *)
Definition disc_to_cont (i : Z) : R := IZR i + 1 / 2.
Definition disc_to_cont3 (q : v3) : r3 := R3 (disc_to_cont (vx q)) (disc_to_cont (vy q)) (disc_to_cont (vz q)).

(** Conversion of an [int] to [float]. *)
Definition to_float (z : Z) : Z := if (z <? 0)%Z then (- float_of_int (- z))%Z else float_of_int z.

(** export/Field.h:1111-1121 [continuousBounds]: through [float], [max + 1] in [int]. *)
Definition continuous_bounds (b : box) : res rbox :=
  let* x := i32 (vx (bmax b) + 1) in
  let* y := i32 (vy (bmax b) + 1) in
  let* z := i32 (vz (bmax b) + 1) in
  Ok (RBox (R3 (IZR (to_float (vx (bmin b)))) (IZR (to_float (vy (bmin b)))) (IZR (to_float (vz (bmin b)))))
           (R3 (IZR (to_float x)) (IZR (to_float y)) (IZR (to_float z)))).

(** export/Types.h:93-115 [clampForType<double, int>]: the return type is [int], so a
    value inside the range is converted by truncation towards zero. *)
Definition rtrunc (x : R) : Z := if rleb 0 x then rfloor x else rceil x.
Definition clamp_for_int (x : R) : Z :=
  if rltb x (IZR int_min) then int_min
  else if rltb (IZR int_max) x then int_max
  else rtrunc x.

(** export/Field.h:1128-1141 [discreteBounds]: [floor] and [ceil] of the clamped value,
    which is already an [int]. *)
Definition discrete_bounds (b : rbox) : box :=
  let lower x := rfloor (IZR (clamp_for_int x)) in
  let upper x := rceil (IZR (clamp_for_int x)) in
  Box (V3 (lower (rx (rmin b))) (lower (ry (rmin b))) (lower (rz (rmin b))))
      (V3 (upper (rx (rmax b))) (upper (ry (rmax b))) (upper (rz (rmax b)))).
