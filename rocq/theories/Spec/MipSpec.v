(** Specification of MIP levels. *)
From Coq Require Import ZArith List Reals.
From Verif Require Import Model.Base Model.OpsM Model.FilterM Spec.VoxelSpec Spec.OpsSpec Spec.FilterSpec.
Import ListNotations.
Open Scope R_scope.

(** Distance between the centre of voxel [s] of a level and the centre of voxel [t] of
    the next coarser one, whose voxels are twice as wide and whose origin is [add]
    fine voxels further left; in units of coarse voxels. *)
Definition mip_distance (add s t : Z) : R := Rabs ((IZR s + 1 / 2) - (2 * (IZR t + 1 / 2) - IZR add)) / 2.

(** Voxel [t] of the next level of a row of [n] voxels. *)
Definition halved_row (eval : R -> R) (add n : Z) (v : Z -> R) (t : Z) : R :=
  weighted_mean n (fun s => eval (mip_distance add s t)) v.

(** The next level of a volume of [old] voxels. *)
Definition halved (eval : R -> R) (add old : v3) (v : v3 -> R) (p : v3) : R :=
  halved_row eval (vz add) (vz old) (fun z =>
    halved_row eval (vy add) (vy old) (fun y =>
      halved_row eval (vx add) (vx old) (fun x => v (V3 x y z)) (vx p)) (vy p)) (vz p).

(** Level [l] has ceil(base / 2^l) voxels, and one more where the offset, halved [l - 1]
    times towards minus infinity, is odd. *)
Definition level_add (offset : Z) (l : nat) : Z :=
  match l with O => 0%Z | S m => if Z.odd (offset / 2 ^ Z.of_nat m) then 1%Z else 0%Z end.
Definition level_adds (offset : v3) (l : nat) : v3 :=
  V3 (level_add (vx offset) l) (level_add (vy offset) l) (level_add (vz offset) l).
Definition level_size (base offset : Z) (l : nat) : Z :=
  ((base + 2 ^ Z.of_nat l - 1) / 2 ^ Z.of_nat l + level_add offset l)%Z.
Definition level_res (base offset : v3) (l : nat) : v3 :=
  V3 (level_size (vx base) (vx offset) l) (level_size (vy base) (vy offset) l) (level_size (vz base) (vz offset) l).

(** The values of level [l]. *)
Fixpoint level_val (eval : R -> R) (base offset : v3) (v : v3 -> R) (l : nat) : v3 -> R :=
  match l with
  | O => v
  | S m => halved eval (level_adds offset (S m)) (level_res base offset m) (level_val eval base offset v m)
  end.

(** Is a level of resolution [r] followed by another one? *)
Definition continues (r : v3) (min_size : Z) : Prop :=
  (min_size < vx r \/ min_size < vy r \/ min_size < vz r)%Z /\ (2 < vx r /\ 2 < vy r /\ 2 < vz r)%Z.

(** Filters whose footprint is covered by the test for empty input. *)
Definition narrow (flt : filter) : Prop := fl_support flt < 5 / 4.

(** Two boxes share a voxel. *)
Definition overlap (a b : box) : Prop := exists p, in_box p a /\ in_box p b.

(** [m] is the number of levels below the base. *)
Definition depth (base offset : v3) (min_size : Z) (m : nat) : Prop :=
  (forall l, (l < m)%nat -> continues (level_res base offset l) min_size) /\
  ~ continues (level_res base offset m) min_size.

(** The fields [fs] are the base and its [m] levels. *)
Definition levels_are {k} (eval : R -> R) (base offset : v3) (v : v3 -> R) (m : nat) (fs : list (fld (V := R) k)) : Prop :=
  length fs = S m /\
  forall l f, nth_error fs l = Some f ->
    f_ext f = res_box (level_res base offset l) /\
    holds f (res_box (level_res base offset l)) (level_val eval base offset v l).

(** Two levels of the same size in a row. *)
Definition stalls (base offset : v3) (m : nat) : Prop :=
  exists l, (l < m)%nat /\ level_res base offset (S l) = level_res base offset l.

(** The mean of the eight voxels from corner [q]. *)
Definition mean_of_eight (u : v3 -> R) (q : v3) : R :=
  (u q + u (v3_add q (V3 1 0 0)) + u (v3_add q (V3 0 1 0)) + u (v3_add q (V3 1 1 0)) +
   u (v3_add q (V3 0 0 1)) + u (v3_add q (V3 1 0 1)) + u (v3_add q (V3 0 1 1)) + u (v3_add q (V3 1 1 1))) / 8.

(** Two fields with the same extents, window and values. *)
Definition same_field {k} (f g : fld (V := R) k) : Prop :=
  f_ext f = f_ext g /\ f_dw f = f_dw g /\ forall p, in_box p (f_dw f) -> f_get f p = f_get g p.

(** Voxel [p] of level [l] covers voxel [q] of the base (without offset). *)
Definition covered (l : nat) (q p : v3) : Prop :=
  (vx q / 2 ^ Z.of_nat l = vx p /\ vy q / 2 ^ Z.of_nat l = vy p /\ vz q / 2 ^ Z.of_nat l = vz p)%Z.
(** Field [f] is level [l] of a field of [base] voxels with the values [v]: it has the size
    of that level, every voxel of it covers a voxel of the base, and holds the smallest
    ([le] is <=) or largest ([le] is >=) of the values it covers. *)
Definition extreme_level {k} (le : R -> R -> Prop) (base : v3) (v : v3 -> R) (l : nat) (f : fld (V := R) k) : Prop :=
  f_ext f = res_box (level_res base (V3 0 0 0) l) /\ f_dw f = f_ext f /\
  forall p, in_box p (f_dw f) -> exists x, f_get f p = Ok x /\
    (exists q, in_box q (res_box base) /\ covered l q p /\ x = v q) /\
    (forall q, in_box q (res_box base) -> covered l q p -> le x (v q)).
