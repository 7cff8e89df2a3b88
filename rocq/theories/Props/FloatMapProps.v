(** C83: local and voxel coordinates in floating point. *)
From Coq Require Import ZArith Reals List Bool Lia Lra.
From Flocq Require Import Core BinarySingleNaN.
From Verif Require Import Model.Base Model.FloatM Model.FloatRayM Model.FloatMapM Spec.FloatMapSpec Proof.FloatP Proof.FloatRayP Proof.FloatMapP.
Local Open Scope R_scope.

Definition settable (lo hi : Z) (m : f64 * f64) : Prop := (- 2 ^ 31 <= lo)%Z /\ (lo <= hi < 2 ^ 31)%Z /\ f_extents lo hi = Ok m.
Lemma settable_map lo hi m : settable lo hi m -> map_of m lo (hi - lo + 1).
Proof. intros (A & B & C). apply extents_ok; auto; lia. Qed.
Lemma settable_reach lo hi : span lo (hi - lo + 1) = reach lo hi.
Proof. unfold span, reach. f_equal. replace (lo + (hi - lo + 1) - 1)%Z with hi by lia. reflexivity. Qed.
Lemma voxel_bound lo hi m v : settable lo hi m -> between (IZR lo) (IZR hi + 1) v -> Rabs (B2R v) <= IZR (2 ^ 50) /\ IZR lo <= B2R v <= IZR (lo + (hi - lo + 1)).
Proof.
  intros S (F & V). pose proof (settable_map _ _ _ S) as (O & R & _). replace (lo + (hi - lo + 1))%Z with (hi + 1)%Z by lia. rewrite plus_IZR.
  split; [|exact V]. assert (- IZR (2 ^ 50) <= IZR lo) by (rewrite <- opp_IZR; apply IZR_le; lia). assert (IZR hi + 1 <= IZR (2 ^ 50)) by (rewrite <- plus_IZR; apply IZR_le; lia). apply Rabs_le. lra.
Qed.
Lemma local_bound l : between 0 1 l -> Rabs (B2R l) <= IZR (2 ^ 20).
Proof. intros (_ & L). rewrite Rabs_pos_eq by lra. apply Rle_trans with 1; [lra|apply IZR_le; lia]. Qed.

(** Points of the extents have local coordinates between nought and one, and the other way round; without exception. *)
Theorem C83_in_range : forall lo hi m, settable lo hi m ->
  (forall v, between (IZR lo) (IZR hi + 1) v -> between 0 1 (f_voxel_to_local m v)) /\
  (forall l, between 0 1 l -> between (IZR lo) (IZR hi + 1) (f_local_to_voxel m l)).
Proof.
  intros lo hi m S. pose proof (settable_map _ _ _ S) as M. pose proof M as (O & R & _). split.
  - intros v V. destruct (voxel_bound _ _ _ _ S V) as (B & I). destruct (to_local m _ _ v M (proj1 V) B) as (F & E). split; [exact F|]. rewrite E. apply loc_in; auto.
  - intros l L. destruct (to_voxel m _ _ l M (proj1 L) (local_bound l L)) as (F & E). split; [exact F|]. rewrite E.
    destruct (vox_in lo (hi - lo + 1) (B2R l) R O (proj2 L)) as (A & B). replace (lo + (hi - lo + 1))%Z with (hi + 1)%Z in B by lia. rewrite plus_IZR in B. lra.
Qed.
Print Assumptions C83_in_range.
(** The corners of the extents are exact, in both directions. *)
Theorem C83_corners : forall lo hi m x, settable lo hi m -> is_finite x = true ->
  (B2R x = IZR lo -> B2R (f_voxel_to_local m x) = 0) /\ (B2R x = IZR hi + 1 -> B2R (f_voxel_to_local m x) = 1) /\
  (B2R x = 0 -> B2R (f_local_to_voxel m x) = IZR lo) /\ (B2R x = 1 -> B2R (f_local_to_voxel m x) = IZR hi + 1).
Proof.
  intros lo hi m x S F. pose proof (settable_map _ _ _ S) as M. pose proof M as (O & R & _). destruct (loc_ends _ _ R O) as (L0 & L1). destruct (vox_ends _ _ R O) as (V0 & V1).
  replace (lo + (hi - lo + 1))%Z with (hi + 1)%Z in L1, V1 by lia. rewrite plus_IZR in L1, V1. assert (H : IZR lo <= IZR hi) by (apply IZR_le, S).
  repeat split; intros E.
  - destruct (to_local m _ _ x M F) as (_ & X); [apply (voxel_bound _ _ _ x S); split; auto; lra|]. rewrite X, E. exact L0.
  - destruct (to_local m _ _ x M F) as (_ & X); [apply (voxel_bound _ _ _ x S); split; auto; lra|]. rewrite X, E. exact L1.
  - destruct (to_voxel m _ _ x M F) as (_ & X); [apply local_bound; split; auto; lra|]. rewrite X, E. exact V0.
  - destruct (to_voxel m _ _ x M F) as (_ & X); [apply local_bound; split; auto; lra|]. rewrite X, E. exact V1.
Qed.
Print Assumptions C83_corners.
(** Neither conversion changes the order of two points. *)
Theorem C83_monotone : forall lo hi m x y, settable lo hi m -> B2R x <= B2R y ->
  (between (IZR lo) (IZR hi + 1) x -> between (IZR lo) (IZR hi + 1) y -> B2R (f_voxel_to_local m x) <= B2R (f_voxel_to_local m y)) /\
  (between 0 1 x -> between 0 1 y -> B2R (f_local_to_voxel m x) <= B2R (f_local_to_voxel m y)).
Proof.
  intros lo hi m x y S L. pose proof (settable_map _ _ _ S) as M. pose proof M as (O & R & _). split; intros X Y.
  - destruct (to_local m _ _ x M (proj1 X)) as (_ & EX); [apply (voxel_bound _ _ _ x S X)|]. destruct (to_local m _ _ y M (proj1 Y)) as (_ & EY); [apply (voxel_bound _ _ _ y S Y)|]. rewrite EX, EY. apply loc_mono; [lia|exact L].
  - destruct (to_voxel m _ _ x M (proj1 X) (local_bound x X)) as (_ & EX). destruct (to_voxel m _ _ y M (proj1 Y) (local_bound y Y)) as (_ & EY). rewrite EX, EY. apply vox_mono; [lia|exact L].
Qed.
Print Assumptions C83_monotone.

Lemma eight_u : 8 * u = bpow radix2 (-50).
Proof. rewrite u_val. change 8 with (bpow radix2 3). rewrite <- bpow_plus. reflexivity. Qed.
(** Each is the exact one but for an error of [2 ^ -51] of one, or of [2 ^ -51] of the coordinates of the extents. *)
Theorem C83_exact : forall lo hi m, settable lo hi m ->
  (forall v, between (IZR lo) (IZR hi + 1) v -> Rabs (B2R (f_voxel_to_local m v) - exact_local lo hi (B2R v)) <= bpow radix2 (-51)) /\
  (forall l, between 0 1 l -> Rabs (B2R (f_local_to_voxel m l) - exact_voxel lo hi (B2R l)) <= bpow radix2 (-51) * reach lo hi).
Proof.
  intros lo hi m S. pose proof (settable_map _ _ _ S) as M. pose proof M as (O & R & _).
  assert (E : IZR (hi - lo + 1) = IZR hi + 1 - IZR lo) by (rewrite plus_IZR, minus_IZR; ring).
  assert (K : bpow radix2 (-51) = 4 * u) by (rewrite u_val; change 4 with (bpow radix2 2); rewrite <- bpow_plus; reflexivity). pose proof u_small. split.
  - intros v V. destruct (voxel_bound _ _ _ _ S V) as (B & I). destruct (to_local m _ _ v M (proj1 V) B) as (_ & X). rewrite X. unfold exact_local. rewrite <- E. eapply Rle_trans; [apply loc_err; auto|]. lra.
  - intros l L. destruct (to_voxel m _ _ l M (proj1 L) (local_bound l L)) as (_ & X). rewrite X. unfold exact_voxel. rewrite <- E, <- settable_reach, K. eapply Rle_trans; [apply vox_err; auto; apply L|].
    destruct (span_ok lo (hi - lo + 1)) as (_ & _ & _ & W); [lia|]. apply Rmult_le_compat_r; lra.
Qed.
Print Assumptions C83_exact.
(** To local coordinates and back: off by at most [2 ^ -50] of the coordinates of the extents. *)
Theorem C83_round_trip : forall lo hi m v, settable lo hi m -> between (IZR lo) (IZR hi + 1) v ->
  Rabs (B2R (f_local_to_voxel m (f_voxel_to_local m v)) - B2R v) <= bpow radix2 (-50) * reach lo hi.
Proof.
  intros lo hi m v S V. pose proof (settable_map _ _ _ S) as M. pose proof M as (O & R & _). destruct (voxel_bound _ _ _ _ S V) as (B & I). destruct (to_local m _ _ v M (proj1 V) B) as (LF & LV).
  pose proof (proj1 (C83_in_range lo hi m S) v V) as L. destruct (to_voxel m _ _ _ M LF (local_bound _ L)) as (_ & X). rewrite X, LV, <- settable_reach, <- eight_u.
  eapply Rle_trans; [apply there_and_back; auto|]. destruct (span_ok lo (hi - lo + 1)) as (_ & _ & _ & W); [lia|]. pose proof u_small. apply Rmult_le_compat_r; lra.
Qed.
Print Assumptions C83_round_trip.
(** So a point that is not within a [2 ^ -17]th of a voxel of a face stays in its voxel: the voxel found through local
    coordinates is the one the point is in, whatever the extents. *)
Theorem C83_same_voxel : forall lo hi m v i, settable lo hi m -> is_finite v = true -> (lo <= i <= hi)%Z ->
  IZR i + bpow radix2 (-17) <= B2R v <= IZR i + 1 - bpow radix2 (-17) -> floor_int (f_local_to_voxel m (f_voxel_to_local m v)) = Ok i.
Proof.
  intros lo hi m v i S F I H. pose proof (settable_map _ _ _ S) as M. pose proof M as (O & R & _). pose proof (bpow_gt_0 radix2 (-17)) as B0.
  assert (I1 : IZR lo <= IZR i) by (apply IZR_le; lia). assert (I2 : IZR i <= IZR hi) by (apply IZR_le; lia).
  assert (V : between (IZR lo) (IZR hi + 1) v) by (split; auto; lra). pose proof (C83_round_trip lo hi m v S V) as T.
  assert (W : bpow radix2 (-50) * reach lo hi < bpow radix2 (-17)).
  { replace (bpow radix2 (-17)) with (bpow radix2 (-50) * bpow radix2 33) by (rewrite <- bpow_plus; reflexivity). apply Rmult_lt_compat_l; [apply bpow_gt_0|]. change (bpow radix2 33) with (IZR (2 ^ 33)). unfold reach. apply IZR_lt. lia. }
  apply Rabs_le_inv in T. pose proof (proj1 (C83_in_range lo hi m S) v V) as L. pose proof (proj2 (C83_in_range lo hi m S) _ L) as (BF & _).
  assert (HI : (hi < 2 ^ 31)%Z) by apply S.
  apply floor_in; auto; [lia|lra].
Qed.
Print Assumptions C83_same_voxel.
(** Such as the centre of each voxel of the extents. *)
Theorem C83_centres : forall lo hi m i, settable lo hi m -> (lo <= i <= hi)%Z ->
  floor_int (f_local_to_voxel m (f_voxel_to_local m (fadd (of_int i) f_half))) = Ok i.
Proof.
  intros lo hi m i S I. pose proof S as (S1 & S2 & _). destruct (of_int_ok i) as (F & V); [lia|]. destruct half_ok as (HF & HV).
  assert (B : - IZR (2 ^ 31) <= IZR i <= IZR (2 ^ 31)) by (rewrite <- opp_IZR; split; apply IZR_le; lia).
  destruct (fadd_ok (of_int i) f_half F HF) as (CF & CV).
  { rewrite V, HV. apply (big_small _ (2 ^ 32)); [|lia]. assert (K : IZR (2 ^ 32) = 2 * IZR (2 ^ 31)) by (rewrite <- mult_IZR; reflexivity). assert (1 <= IZR (2 ^ 31)) by (apply IZR_le; lia). apply Rabs_le. lra. }
  assert (E : rd (IZR i + / 2) = IZR i + / 2).
  { apply round_generic; [typeclasses eauto|]. apply generic_format_FLT. exists (Float radix2 (2 * i + 1) (-1)); [|cbn [Fnum]; change (Zpower radix2 53) with (2 ^ 53)%Z; lia|cbn; lia].
    unfold F2R. cbn [Fnum Fexp]. change (bpow radix2 (-1)) with (/ 2). rewrite plus_IZR, mult_IZR. lra. }
  rewrite V, HV, E in CV. apply (C83_same_voxel lo hi m _ i S CF I). rewrite CV.
  assert (bpow radix2 (-17) <= / 4) by (change (/ 4) with (bpow radix2 (-2)); apply bpow_le; lia). lra.
Qed.
Print Assumptions C83_centres.
(** From local coordinates and back: off by at most [2 ^ -50] of the coordinates of the extents, in voxels. *)
Theorem C83_local_round_trip : forall lo hi m l, settable lo hi m -> between 0 1 l ->
  Rabs (B2R (f_voxel_to_local m (f_local_to_voxel m l)) - B2R l) * (IZR hi + 1 - IZR lo) <= bpow radix2 (-50) * reach lo hi.
Proof.
  intros lo hi m l S L. pose proof (settable_map _ _ _ S) as M. pose proof M as (O & R & _). destruct (to_voxel m _ _ l M (proj1 L) (local_bound l L)) as (VF & VV).
  pose proof (proj2 (C83_in_range lo hi m S) l L) as V. destruct (voxel_bound _ _ _ _ S V) as (B & I). destruct (to_local m _ _ _ M VF B) as (_ & X). rewrite X, VV, <- settable_reach, <- eight_u.
  pose proof (back_and_there lo (hi - lo + 1) (B2R l) R O (proj2 L)) as T. assert (E : IZR (hi - lo + 1) = IZR hi + 1 - IZR lo) by (rewrite plus_IZR, minus_IZR; ring).
  assert (P : 1 <= IZR (hi - lo + 1)) by (apply IZR_le; lia). rewrite <- E. destruct (span_ok lo (hi - lo + 1)) as (W1 & _ & _ & W); [lia|]. pose proof u_small as (U & _).
  set (r := IZR (hi - lo + 1)) in *. set (w := span lo (hi - lo + 1)) in *. apply Rmult_le_compat_r with (r := r) in T; [|lra]. eapply Rle_trans; [exact T|].
  replace ((3 * u + 3 * u * w / r) * r) with (3 * (u * r) + 3 * (u * w)) by (field; lra). assert (u * r <= u * w) by (apply Rmult_le_compat_l; lra). assert (0 <= u * w) by (apply Rmult_le_pos; lra). lra.
Qed.
Print Assumptions C83_local_round_trip.

(** A field of 39 voxels from -60 on: the hypotheses hold, for the centre of its voxel -29 among others. *)
Example C83_example : exists m, settable (-60) (-22) m /\ floor_int (f_local_to_voxel m (f_voxel_to_local m (fadd (of_int (-29)) f_half))) = Ok (-29)%Z.
Proof. exists (of_int (-60), of_int 39). assert (S : settable (-60) (-22) (of_int (-60), of_int 39)) by (repeat split; lia). split; [exact S|]. apply (C83_centres (-60) (-22)); [exact S|lia]. Qed.
(** The voxel is not kept for every point: the lower face of voxel -29 comes back in voxel -30. *)
Theorem C83_face_refuted : exists lo hi m v, settable lo hi m /\ (lo <= v <= hi)%Z /\
  floor_int (of_int v) = Ok v /\ floor_int (f_local_to_voxel m (f_voxel_to_local m (of_int v))) = Ok (v - 1)%Z.
Proof.
  exists (-60)%Z, (-22)%Z, (of_int (-60), of_int 39), (-29)%Z. split; [repeat split; lia|]. split; [lia|]. split; vm_compute; reflexivity.
Qed.
Print Assumptions C83_face_refuted.
