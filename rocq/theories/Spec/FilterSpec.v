(** Specification of separable resampling: nested weighted means over all source
    voxels. *)
From Coq Require Import ZArith List Reals.
From Verif Require Import Model.Base Model.FilterM.
Import ListNotations.
Open Scope R_scope.

(** f 0 + ... + f (n - 1) *)
Fixpoint sum_to (n : nat) (f : Z -> R) : R :=
  match n with O => 0 | S m => sum_to m f + f (Z.of_nat m) end.

(** Distance between the centre of voxel [s] of [n] and the centre of voxel [t] of [m]
    when both rows span the same unit interval, in units of the wider voxels. *)
Definition distance (n m s t : Z) : R :=
  Rabs ((IZR s + 1 / 2) / IZR n - (IZR t + 1 / 2) / IZR m) * IZR (Z.min n m).

(** The weighted mean of v 0 .. v (n - 1); zero if there is no weight. *)
Definition weighted_mean (n : Z) (w v : Z -> R) : R :=
  let total := sum_to (Z.to_nat n) w in
  if Rlt_dec 0 total then sum_to (Z.to_nat n) (fun s => v s * w s) / total else 0.

(** Voxel [t] of a row of [n] voxels resampled to [m]. *)
Definition resampled_row (eval : R -> R) (n m : Z) (v : Z -> R) (t : Z) : R :=
  weighted_mean n (fun s => eval (distance n m s t)) v.

(** A volume resampled along x, then y, then z. *)
Definition resampled (eval : R -> R) (old new : v3) (v : v3 -> R) (p : v3) : R :=
  resampled_row eval (vz old) (vz new) (fun z =>
    resampled_row eval (vy old) (vy new) (fun y =>
      resampled_row eval (vx old) (vx new) (fun x => v (V3 x y z)) (vx p)) (vy p)) (vz p).

(** The summing filters, with the widths for which the support is the whole range of
    non-zero weights. *)
Inductive sum_filter : filter -> Prop :=
| SumBox w : 0 < w <= 100 -> sum_filter (box_filter w)
| SumTriangle w : 0 < w <= 100 -> sum_filter (triangle_filter w)
| SumGaussian a w : 0 <= a -> 0 < w <= 2 -> sum_filter (gaussian_filter a w)
| SumMitchell w b c : 0 < w <= 50 -> sum_filter (mitchell_filter w b c).

(** Those with non-negative weights, wide enough to meet a voxel centre everywhere. *)
Inductive mean_filter : filter -> Prop :=
| MeanBox w : 1 <= w <= 100 -> mean_filter (box_filter w)
| MeanTriangle w : 1 / 2 < w <= 100 -> mean_filter (triangle_filter w)
| MeanGaussian a w : 0 < a -> 1 / 2 < w * w -> 0 < w <= 2 -> mean_filter (gaussian_filter a w).

(** The resolutions the theorems range over: at least one voxel per axis, exactly
    representable in [float]. *)
Definition res_ok (r : v3) : Prop :=
  (1 <= vx r <= 2 ^ 24 /\ 1 <= vy r <= 2 ^ 24 /\ 1 <= vz r <= 2 ^ 24)%Z.
(** The data window of a field resized to [r]. *)
Definition res_box (r : v3) : box := Box (V3 0 0 0) (V3 (vx r - 1) (vy r - 1) (vz r - 1)).

(** Source voxel [q] is in the footprint of target voxel [p] of a box of width [w]. *)
Definition in_footprint (w : R) (old new : v3) (q p : v3) : Prop :=
  distance (vx old) (vx new) (vx q) (vx p) <= w / 2 /\
  distance (vy old) (vy new) (vy q) (vy p) <= w / 2 /\
  distance (vz old) (vz new) (vz q) (vz p) <= w / 2.
