(** C44: voxel coordinates. *)
From Coq Require Import ZArith Reals Lia Lra List.
From Verif Require Import Model.Base Model.RealM Model.VecM Model.SparseM Model.CoordM.
Import ListNotations.
From Verif Require Import Spec.VoxelSpec Spec.CoordSpec Proof.BaseP Proof.RealP Proof.CoordP.
Local Open Scope R_scope.

(** A voxel index converts to the centre of its cell and back to itself. *)
Theorem C44_round_trip : forall q, int_voxel q -> cont_to_disc3 (disc_to_cont3 q) = Ok q.
Proof.
  intros [i j k] (X & Y & Z0). cbn [vx vy vz] in *. unfold cont_to_disc3, disc_to_cont3, cont_to_disc, disc_to_cont, int_floor. cbn [rx ry rz vx vy vz].
  assert (F : forall n, rfloor (IZR n + 1 / 2) = n) by (intros; apply rfloor_unique; lra).
  rewrite !F, !i32_ok by lia. reflexivity.
Qed.
Print Assumptions C44_round_trip.

(** A position converts to the voxel whose cell contains it, and to no other. *)
Theorem C44_voxel_of_position : forall p q, int_voxel q -> (cont_to_disc3 p = Ok q <-> in_cell p q).
Proof.
  intros p [i j k] (X & Y & Z0). cbn [vx vy vz] in *. unfold cont_to_disc3, cont_to_disc, int_floor, in_cell. cbn [vx vy vz].
  pose proof (rfloor_spec (rx p)). pose proof (rfloor_spec (ry p)). pose proof (rfloor_spec (rz p)). split.
  - unfold i32. destruct (in_int (rfloor (rx p))); cbn [bind]; [|discriminate].
    destruct (in_int (rfloor (ry p))); cbn [bind]; [|discriminate]. destruct (in_int (rfloor (rz p))); cbn [bind]; [|discriminate].
    injection 1 as <- <- <-. auto.
  - intros (A & B & C). apply rfloor_unique in A, B, C. rewrite A, B, C, !i32_ok by lia. reflexivity.
Qed.
Print Assumptions C44_voxel_of_position.

(** The continuous bounds of a box are the union of the cells of its voxels. *)
Theorem C44_continuous_bounds : forall b, (forall q, In q [bmin b; bmax b] -> small_voxel q) ->
  exists r, continuous_bounds b = Ok r /\
    forall p, (rx (rmin r) <= rx p < rx (rmax r) /\ ry (rmin r) <= ry p < ry (rmax r) /\ rz (rmin r) <= rz p < rz (rmax r)) <->
              exists q, in_box q b /\ in_cell p q.
Proof.
  intros [[a1 a2 a3] [b1 b2 b3]] H. pose proof (H (V3 a1 a2 a3) ltac:(cbn; auto)) as (A1 & A2 & A3).
  pose proof (H (V3 b1 b2 b3) ltac:(cbn; auto)) as (B1 & B2 & B3). cbn [vx vy vz] in *.
  unfold continuous_bounds. cbn [bmin bmax vx vy vz]. rewrite !i32_ok by (unfold int_min, int_max; lia). cbn [bind].
  eexists. split; [reflexivity|]. cbn [rmin rmax rx ry rz]. rewrite !to_float_small, !plus_IZR by lia.
  intros p. unfold in_box, in_cell. cbn [bmin bmax vx vy vz]. split.
  - intros (X & Y & Z0). exists (V3 (rfloor (rx p)) (rfloor (ry p)) (rfloor (rz p))). cbn [vx vy vz].
    pose proof (rfloor_spec (rx p)). pose proof (rfloor_spec (ry p)). pose proof (rfloor_spec (rz p)).
    split; [|auto]. split; [|split]; split; apply IZR_lt_succ; lra.
  - intros ([i j k] & (X & Y & Z0) & (P & Q & R)). cbn [vx vy vz] in *.
    destruct X as [X X'], Y as [Y Y'], Z0 as [Z0 Z0']. apply IZR_le in X, X', Y, Y', Z0, Z0'. lra.
Qed.
Print Assumptions C44_continuous_bounds.
Example C44_continuous_example : forall q, In q [bmin (Box (V3 (-3) 0 2) (V3 4 5 6)); bmax (Box (V3 (-3) 0 2) (V3 4 5 6))] -> small_voxel q.
Proof. cbn. intros q [<-|[<-|[]]]; unfold small_voxel; cbn; lia. Qed.

(** For indices above 2^24 the bounds are rounded to [float] and miss cells. *)
Theorem C44_large_bounds_refuted : exists b r p q, continuous_bounds b = Ok r /\ in_box q b /\ in_cell p q /\
  ~ (rx p < rx (rmax r)).
Proof.
  exists (Box (V3 16777216 0 0) (V3 16777216 0 0)). eexists. exists (R3 16777216 0 0), (V3 16777216 0 0).
  split; [vm_compute; reflexivity|]. split; [unfold in_box; cbn; lia|]. split; [unfold in_cell; cbn; lra|]. cbn. lra.
Qed.
Print Assumptions C44_large_bounds_refuted.

(** The discrete bounds of a real box contain the voxel of every point of the box, if
    each lower coordinate is non-negative or an integer... *)
Theorem C44_discrete_bounds_partial : forall b p q,
  (forall c, In c [rx (rmin b); ry (rmin b); rz (rmin b)] -> 0 <= c \/ exists n, c = IZR n) ->
  rx (rmin b) <= rx p <= rx (rmax b) -> ry (rmin b) <= ry p <= ry (rmax b) -> rz (rmin b) <= rz p <= rz (rmax b) ->
  int_voxel q -> in_cell p q -> in_box q (discrete_bounds b).
Proof.
  intros b p [i j k] H X Y Z0 (IX & IY & IZ) (CX & CY & CZ). unfold discrete_bounds, in_box. cbn [bmin bmax vx vy vz] in *.
  rewrite !rfloor_IZR, !rceil_IZR.
  split; [|split]; split.
  - apply clamp_lower with (rx p); auto; [lra|]. apply H; cbn; auto.
  - apply clamp_upper with (rx p); auto; lra.
  - apply clamp_lower with (ry p); auto; [lra|]. apply H; cbn; auto.
  - apply clamp_upper with (ry p); auto; lra.
  - apply clamp_lower with (rz p); auto; [lra|]. apply H; cbn; auto.
  - apply clamp_upper with (rz p); auto; lra.
Qed.
Print Assumptions C44_discrete_bounds_partial.
(** ... but not in general: a lower corner between -1 and 0 is truncated to 0. *)
Theorem C44_discrete_bounds_refuted : exists b p q, rx (rmin b) <= rx p <= rx (rmax b) /\
  ry (rmin b) <= ry p <= ry (rmax b) /\ rz (rmin b) <= rz p <= rz (rmax b) /\ int_voxel q /\ in_cell p q /\
  ~ in_box q (discrete_bounds b).
Proof.
  exists (RBox (R3 (- (1 / 2)) 0 0) (R3 1 1 1)), (R3 (- (1 / 2)) 0 0), (V3 (-1) 0 0). cbn [rx ry rz rmin rmax].
  do 3 (split; [lra|]). split; [unfold int_voxel, int_min, int_max; cbn; lia|]. split; [unfold in_cell; cbn; lra|].
  intros ((A & _) & _). revert A. unfold discrete_bounds. cbn [bmin vx rmin rx].
  rewrite rfloor_IZR. unfold clamp_for_int. destruct (rltb_spec (- (1 / 2)) (IZR int_min)) as [L|_].
  { unfold int_min in L. rewrite opp_IZR in L. assert (1 <= IZR (2 ^ 31)) by (apply IZR_le; lia). lra. }
  destruct (rltb_spec (IZR int_max) (- (1 / 2))) as [L|_].
  { assert (0 <= IZR int_max) by (apply IZR_le; unfold int_max; lia). lra. }
  unfold rtrunc. destruct (rleb_spec 0 (- (1 / 2))); [lra|]. rewrite (rceil_unique _ 0) by lra. lia.
Qed.
Print Assumptions C44_discrete_bounds_refuted.

(** Going to continuous bounds and back adds one voxel on each upper side. *)
Theorem C44_there_and_back : forall b r, (forall q, In q [bmin b; bmax b] -> small_voxel q) ->
  continuous_bounds b = Ok r -> discrete_bounds r = Box (bmin b) (v3_add (bmax b) (V3 1 1 1)).
Proof.
  intros [[a1 a2 a3] [b1 b2 b3]] r H. pose proof (H (V3 a1 a2 a3) ltac:(cbn; auto)) as (A1 & A2 & A3).
  pose proof (H (V3 b1 b2 b3) ltac:(cbn; auto)) as (B1 & B2 & B3). cbn [vx vy vz] in *.
  unfold continuous_bounds. cbn [bmin bmax vx vy vz]. rewrite !i32_ok by (unfold int_min, int_max; lia). cbn [bind].
  injection 1 as <-. unfold discrete_bounds. cbn [rmin rmax rx ry rz]. rewrite !to_float_small by lia.
  rewrite !clamp_int by (unfold int_min, int_max; lia). rewrite !rfloor_IZR, !rceil_IZR. reflexivity.
Qed.
Print Assumptions C44_there_and_back.
