(** Model of interpolation in MIP fields (export/MIPInterp.h) as it is computed: sizes, factors and positions in a level
    in [float], samples of a level as in [FloatM].  Rounding is to nearest even; fused multiply-add is not in the model.
    [std::pow] of two is taken to be exact.  [Imath::lerp] and [Imath::lerpfactor] are those of [FloatCurveM]. *)
From Coq Require Import ZArith List Bool.
From Flocq Require Import Core BinarySingleNaN.
From Verif Require Import Model.Base Model.MipMapM Model.FloatM Model.FloatMipM Model.FloatCurveM.
Import ListNotations.
Open Scope Z_scope.

(** export/MIPInterp.h:132-135: the smallest side of a voxel; [std::min(a, b)] is [b < a ? b : a]. *)
Definition std_min (a b : time) : time := if Bltb b a then b else a.
Definition lod_base (x y z : val VDouble) : time := std_min (std_min (cast VFloat x) (cast VFloat y)) (cast VFloat z).
(** export/MIPInterp.h:137-140: the one of level [i]. *)
Definition lod_size (size : time) (i : nat) : time := vmul size (vnum VFloat 1 (Z.of_nat i)).
(** export/MIPInterp.h:83-105 [InterpInfo]. *)
Record lod : Type := Lod { lod_lower : nat; lod_upper : nat; lod_t : time }.
(** export/MIPInterp.h:182-189: the loop from level [i] on, [n] levels to go. *)
Fixpoint lod_between (size spot : time) (i n : nat) : option lod :=
  match n with
  | O => None
  | S m =>
      if Bleb spot (lod_size size i)
      then Some (Lod (i - 1) i (t_factor spot (lod_size size (i - 1)) (lod_size size i)))
      else lod_between size spot (S i) m
  end.
(** export/MIPInterp.h:173-192 [interpInfo], for a field of [n] levels. *)
Definition lod_info (size : time) (n : nat) (spot : time) : lod :=
  if Bleb spot (lod_size size 0) then Lod 0 0 (B754_zero false)
  else match lod_between size spot 1 (n - 1) with
       | Some i => i
       | None => Lod (n - 1) (n - 1) (B754_zero false)
       end.

(** export/MIPField.h:599-615 [getVsMIPCoord], one axis: the position and the shift are converted to [float]. *)
Definition lod_coord (offset : Z) (level : nat) (x : f64) : f64 :=
  cast VDouble (vmul (vsub (cast VFloat (x : val VDouble)) (vnum VFloat (mip_shift offset (Z.of_nat level)) 0))
                     (vnum VFloat 1 (- Z.of_nat level)) : val VFloat).
(** export/MIPInterp.h:166 [FIELD3D_LERP]: the products of a [half] and a [float] are [float]. *)
Definition lod_lerp {t} : val t -> val t -> time -> val t :=
  match t with
  | VHalf => fun a b x => cast VHalf (t_lerp (cast VFloat a) (cast VFloat b) x : val VFloat)
  | VFloat => fun a b x => t_lerp a b x
  | VDouble => fun a b x => t_lerp a b x
  end.
(** A level: its data window and its voxels. *)
Definition lod_level (t : vtype) : Type := box * (v3 -> val t).
Definition lod_at t (fs : list (lod_level t)) (l : nat) (x y z : f64) : res (val t) :=
  match nth_error fs l with Some f => f_sample t (snd f) (fst f) x y z | None => UB end.
Definition lod_in t (offset : v3) (fs : list (lod_level t)) (l : nat) (x y z : f64) : res (val t) :=
  lod_at t fs l (lod_coord (vx offset) l x) (lod_coord (vy offset) l y) (lod_coord (vz offset) l z).
(** export/MIPInterp.h:145-169 [sample]; [offset]: the offset of the MIP field. *)
Definition lod_sample t (size : time) (offset : v3) (fs : list (lod_level t)) (x y z : f64) (spot : time) : res (val t) :=
  let i := lod_info size (length fs) spot in
  if Nat.eqb (lod_lower i) (lod_upper i) then
    if Nat.eqb (lod_lower i) 0 then lod_at t fs O x y z else lod_in t offset fs (lod_lower i) x y z
  else
    let* v0 := lod_in t offset fs (lod_lower i) x y z in
    let* v1 := lod_in t offset fs (lod_upper i) x y z in
    Ok (lod_lerp v0 v1 (lod_t i)).
