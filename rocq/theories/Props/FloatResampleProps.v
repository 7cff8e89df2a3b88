(** C79: resampling as it is computed. *)
From Coq Require Import ZArith Reals List Bool Lia Lra.
From Flocq Require Import Core BinarySingleNaN.
From Verif Require Import Model.Base Model.FilterM Model.FloatM Model.FloatMipM Model.FloatMinMaxM Model.FloatResampleM.
From Verif Require Import Spec.VoxelSpec Spec.FilterSpec Spec.FloatMipSpec Spec.FloatCubicSpec Spec.FloatMinMaxSpec Spec.FloatResampleSpec.
From Verif Require Import Proof.BaseP Proof.FloatP2 Proof.FloatMipP Proof.FloatMinMaxP Proof.FloatResampleP Proof.FloatResampleP2.
Open Scope R_scope.

(** Minimum and maximum, by whole factors up or down along each axis: each voxel is defined, is not NaN, and bounds all
    voxels it overlaps that are not NaN, infinite ones too. *)
Theorem C79_bounds : forall k t (value : v3 -> val t) old new p, whole3 old new -> in_box p (res_box new) ->
  exists r, fr_resample (Extreme k) t old new (fun q => Ok (value q)) p = Ok r /\ is_nan r = false /\
    forall q, under old new p q -> is_nan (value q) = false -> bounds k r (value q).
Proof.
  intros k t value old new p W P. destruct (eall k t value old new p W) as (r & (R & N) & L & _); [unfold within, in_box, res_box in *; cbn in *; lia|].
  exists r. split; auto. split; auto. intros q U Q. apply bounds_ky; auto.
Qed.
Print Assumptions C79_bounds.

(** If the filter can tell them from nothing, the bound is one of them. *)
Theorem C79_bounds_exact : forall k t (value : v3 -> val t) old new p r, whole3 old new -> in_box p (res_box new) ->
  (forall q, under old new p q -> tellable k (value q)) ->
  fr_resample (Extreme k) t old new (fun q => Ok (value q)) p = Ok r -> exists q, under old new p q /\ Beqb r (value q) = true.
Proof.
  intros k t value old new p r W P T R. destruct (eall k t value old new p W) as (v & (V & N) & _ & X); [unfold within, in_box, res_box in *; cbn in *; lia|].
  rewrite R in V. injection V as <-. destruct X as (q & U & E); [intros q U; apply tellable_ky; auto|]. exists q. split; auto. apply (same_ky k); auto. specialize (T q U). apply tellable_ky in T. apply T.
Qed.
Print Assumptions C79_bounds_exact.

(** The box filter, by whole factors that are at least one: each voxel has the value of the voxel it lies in, to the last
    bit. *)
Theorem C79_copied : forall t (value : v3 -> val t) old new p q, whole3 old new -> multiple3 old new -> in_box p (res_box new) ->
  (forall q, is_finite (value q) = true) -> under old new p q ->
  exists r, fr_resample Mean t old new (fun q => Ok (value q)) p = Ok r /\ is_finite r = true /\ B2R r = B2R (value q).
Proof.
  intros t value old new p q W M P F U. destruct (mall t value old new p W M) as (r & R & RF & RV); auto; [unfold within, in_box, res_box in *; cbn in *; lia|]. exists r. auto.
Qed.
Print Assumptions C79_copied.

(** No voxel overlaps nothing. *)
Theorem C79_covered : forall old new p, whole3 old new -> in_box p (res_box new) -> exists q, under old new p q.
Proof.
  intros old new p ((X & X' & _) & (Y & Y' & _) & (Z & Z' & _)) P. unfold in_box, res_box in P. cbn in P.
  exists (V3 (vx p * vx old / vx new) (vy p * vy old / vy new) (vz p * vz old / vz new)). unfold under. cbn [vx vy vz]. repeat split; apply some_overlap; lia.
Qed.
Print Assumptions C79_covered.

(** ** What does not hold *)
Definition sf {p e} (r : res (binary_float p e)) : SpecFloat.spec_float := match r with Ok x => B2SF x | _ => SpecFloat.S754_nan end.
(** A [half] field of 40000, halved, is infinite: the sum is a [half] too. *)
Theorem C79_half_refuted : exists (value : v3 -> val VHalf) old new p r, whole3 old new /\ in_box p (res_box new) /\ (forall q, is_finite (value q) = true /\ B2R (value q) = 40000) /\
  fr_resample Mean VHalf old new (fun q => Ok (value q)) p = Ok r /\ is_finite r = false.
Proof.
  exists (fun _ => vnum VHalf 40000 0), (V3 2 1 1), (V3 1 1 1), (V3 0 0 0), (B754_infinity false). split; [repeat split; cbn; try lia; [exists 2%Z|exists 1%Z|exists 1%Z]; lia|].
  split; [unfold in_box; cbn; lia|]. split; [intros q; split; [reflexivity|cbn; unfold F2R; cbn; lra]|]. split; [|reflexivity].
  set (e := fr_resample _ _ _ _ _ _). assert (Q : sf e = SpecFloat.S754_infinity false) by (vm_compute; reflexivity). destruct e as [r| |]; [|discriminate..]. f_equal. apply B2SF_inj. exact Q.
Qed.
Print Assumptions C79_half_refuted.

(** The next voxel is read too, with weight zero: resampled to its own size, a field with an infinite voxel has two
    voxels that are NaN or infinite. *)
Theorem C79_infinite_refuted : exists (value : v3 -> val VFloat) old p r, whole3 old old /\ multiple3 old old /\ in_box p (res_box old) /\ B2R (value p) = 5 /\ is_finite (value p) = true /\
  fr_resample Mean VFloat old old (fun q => Ok (value q)) p = Ok r /\ is_nan r = true.
Proof.
  exists (fun q => if (vx q =? 0)%Z then vnum VFloat 5 0 else B754_infinity false), (V3 2 1 1), (V3 0 0 0), B754_nan.
  split; [repeat split; cbn; try lia; exists 1%Z; lia|]. split; [exists 1%Z, 1%Z, 1%Z; cbn; lia|]. split; [unfold in_box; cbn; lia|]. split; [cbn; unfold F2R; cbn; lra|]. split; [reflexivity|]. split; [|reflexivity].
  set (e := fr_resample _ _ _ _ _ _). assert (Q : match e with Ok r => is_nan r | _ => false end = true) by (vm_compute; reflexivity). destruct e as [[]| |]; try discriminate. reflexivity.
Qed.
Print Assumptions C79_infinite_refuted.

(** From five voxels to three, the middle one overlaps the second, but is not its minimum. *)
Theorem C79_fraction_refuted : exists (value : v3 -> val VFloat) old new p q r, in_box p (res_box new) /\ under old new p q /\ (forall q, is_finite (value q) = true) /\
  fr_resample (Extreme Lowest) VFloat old new (fun q => Ok (value q)) p = Ok r /\ B2R (value q) < B2R r.
Proof.
  exists (fun q => if (vx q =? 1)%Z then vnum VFloat 4 0 else vnum VFloat 5 0), (V3 5 1 1), (V3 3 1 1), (V3 1 0 0), (V3 1 0 0), (vnum VFloat 5 0).
  split; [unfold in_box; cbn; lia|]. split; [unfold under, overlap; cbn; lia|]. split; [intros q; destruct (vx q =? 1)%Z; reflexivity|]. split; [|cbn; unfold F2R; cbn; lra].
  set (e := fr_resample _ _ _ _ _ _). assert (Q : sf e = B2SF (vnum VFloat 5 0)) by (vm_compute; reflexivity). destruct e as [r| |]; [|discriminate..]. f_equal. apply B2SF_inj. exact Q.
Qed.
Print Assumptions C79_fraction_refuted.

(** Above 2^21 voxels the positions are too coarse: three voxels become one, all are 5, but the minimum is of a fourth. *)
Theorem C79_large_refuted : exists (value : v3 -> val VFloat) old new p r, vx old = (3 * vx new)%Z /\ vy old = vy new /\ vz old = vz new /\ (vx old < 2 ^ 22)%Z /\ in_box p (res_box new) /\
  (forall q, is_finite (value q) = true) /\ (forall q, under old new p q -> B2R (value q) = 5) /\
  fr_resample (Extreme Lowest) VFloat old new (fun q => Ok (value q)) p = Ok r /\ B2R r = 4.
Proof.
  exists (fun q => if (vx q =? 4140080)%Z then vnum VFloat 4 0 else vnum VFloat 5 0), (V3 4141131 1 1), (V3 1380377 1 1), (V3 1380027 0 0), (vnum VFloat 4 0).
  split; [reflexivity|]. split; [reflexivity|]. split; [reflexivity|]. split; [cbn; lia|]. split; [unfold in_box; cbn; lia|].
  split; [intros q; destruct (vx q =? 4140080)%Z; reflexivity|]. split.
  - intros q ((A & B & C) & _). cbn [vx] in *. destruct (Z.eqb_spec (vx q) 4140080) as [E|E]; [rewrite E in *; lia|]. cbn. unfold F2R. cbn. lra.
  - split; [|cbn; unfold F2R; cbn; lra]. set (e := fr_resample _ _ _ _ _ _). assert (Q : sf e = B2SF (vnum VFloat 4 0)) by (vm_compute; reflexivity). destruct e as [r| |]; [|discriminate..]. f_equal. apply B2SF_inj. exact Q.
Qed.
Print Assumptions C79_large_refuted.

(** ** Instances *)
(** Six voxels of [half] along x and two along y; three times fewer along x and twice as many along y. *)
Definition six (q : v3) : val VHalf := match vx q with 0%Z => vnum VHalf (-3) 0 | 3%Z => B754_infinity true | _ => vnum VHalf (5 + vy q) 0 end.
Example C79_ex : sf (fr_resample (Extreme Lowest) VHalf (V3 6 2 1) (V3 2 4 1) (fun q => Ok (six q)) (V3 1 3 0)) = SpecFloat.S754_infinity true /\
  sf (fr_resample (Extreme Highest) VHalf (V3 6 2 1) (V3 2 4 1) (fun q => Ok (six q)) (V3 1 3 0)) = B2SF (vnum VHalf 6 0) /\
  sf (fr_resample (Extreme Highest) VHalf (V3 6 2 1) (V3 2 4 1) (fun q => Ok (six q)) (V3 0 1 0)) = B2SF (vnum VHalf 5 0).
Proof. repeat split; vm_compute; reflexivity. Qed.
Example C79_ex_hyps : whole3 (V3 6 2 1) (V3 2 4 1) /\ in_box (V3 1 3 0) (res_box (V3 2 4 1)) /\ under (V3 6 2 1) (V3 2 4 1) (V3 1 3 0) (V3 4 1 0) /\ ~ under (V3 6 2 1) (V3 2 4 1) (V3 1 3 0) (V3 2 1 0) /\
  (forall q, under (V3 6 2 1) (V3 2 4 1) (V3 0 1 0) q -> tellable Highest (six q)) /\ whole3 (V3 2 1 1) (V3 6 1 1) /\ multiple3 (V3 2 1 1) (V3 6 1 1) /\ under (V3 2 1 1) (V3 6 1 1) (V3 4 0 0) (V3 1 0 0).
Proof.
  split; [repeat split; cbn; try lia; [exists 3%Z|exists 2%Z|exists 1%Z]; lia|]. split; [unfold in_box; cbn; lia|]. split; [unfold under, overlap; cbn; lia|]. split; [unfold under, overlap; cbn; lia|].
  split; [|split; [repeat split; cbn; try lia; [exists 3%Z|exists 1%Z|exists 1%Z]; lia|split; [exists 3%Z, 1%Z, 1%Z; cbn; lia|unfold under, overlap; cbn; lia]]].
  assert (G : 5 < largest VFloat). { unfold largest. assert (1 <= 2 ^ 104) by (apply pow_R1_Rle; lra). simpl (2 ^ 24). nra. }
  intros [x y z] ((A & B & C) & (D & E & F) & _). cbn [vx vy vz] in *. assert (X : (x = 0 \/ x = 1 \/ x = 2)%Z) by lia. assert (Y : (y = 0)%Z) by lia. subst y.
  destruct X as [X|[X|X]]; subst x; cbn -[largest]; unfold F2R; cbn -[largest]; lra.
Qed.
(** A [double] field that is tripled. *)
Example C79_copied_ex : let value := fun q : v3 => if (vx q =? 0)%Z then of_int 7 : val VDouble else f_half in
  sf (fr_resample Mean VDouble (V3 2 1 1) (V3 6 1 1) (fun q => Ok (value q)) (V3 4 0 0)) = B2SF f_half /\ sf (fr_resample Mean VDouble (V3 2 1 1) (V3 6 1 1) (fun q => Ok (value q)) (V3 2 0 0)) = B2SF (of_int 7).
Proof. split; vm_compute; reflexivity. Qed.
