(** C78: minimum and maximum levels as they are computed. *)
From Coq Require Import ZArith Reals List Bool Lia Lra.
From Flocq Require Import Core BinarySingleNaN.
From Verif Require Import Model.Base Model.FilterM Model.FloatM Model.FloatMipM Model.FloatMinMaxM.
From Verif Require Import Spec.VoxelSpec Spec.FilterSpec Spec.MipSpec Spec.FloatMipSpec Spec.FloatCubicSpec Spec.FloatMinMaxSpec.
From Verif Require Import Proof.BaseP Proof.MipP4 Proof.FloatP2 Proof.FloatMipP Proof.FloatMipP2 Proof.FloatMipP3 Proof.FloatMipP4 Proof.FloatMinMaxP.
Open Scope R_scope.

(** One level, of any voxels: each voxel of the next level is defined, is not NaN, and bounds all voxels beneath it that
    are not NaN, infinite ones too. *)
Theorem C78_level : forall k t (value : v3 -> val t) add old p, pad_ok add -> tell_apart p ->
  exists r, fx_level k t default_width add old (fun q => Ok (value q)) p = Ok r /\ is_nan r = false /\
    forall q, beneath add old p q -> is_nan (value q) = false -> bounds k r (value q).
Proof.
  intros k t value add old p A P. change default_width with w1. destruct (xlevel_defined k t add old (fun q => Ok (value q)) p A P) as (r & (R & N) & B); [eauto|].
  exists r. split; auto. split; auto. intros q Q QN. apply bounds_ky; auto. apply (B q); auto. split; auto.
Qed.
Print Assumptions C78_level.

(** If the filter can tell them from nothing, the bound is one of them. *)
Theorem C78_level_exact : forall k t (value : v3 -> val t) add old p r, pad_ok add -> tell_apart p ->
  (exists q, beneath add old p q) -> (forall q, beneath add old p q -> tellable k (value q)) ->
  fx_level k t default_width add old (fun q => Ok (value q)) p = Ok r -> exists q, beneath add old p q /\ Beqb r (value q) = true.
Proof.
  intros k t value add old p r A P Ex T R. change default_width with w1 in R.
  destruct (xlevel_picked k t add old (fun q => Ok (value q)) p (fun x => exists q, beneath add old p q /\ x = ky k (value q)) A P) as (v & (V & N) & B & (q & Q & E)); auto.
  - intros q Q. specialize (T q Q). apply tellable_ky in T as (N & B). exists (value q). split; [split; auto|]. split; auto. exists q. auto.
  - rewrite R in V. injection V as <-. exists q. split; auto. apply (same_ky k); auto. specialize (T q Q). apply tellable_ky in T. apply T.
Qed.
Print Assumptions C78_level_exact.

(** All levels of a field without offset: no level lets a voxel of the base through. *)
Theorem C78_levels : forall k t (value : v3 -> val t) base l, res_ok base -> (l <= 25)%nat ->
  exists o v, fx_levels k t default_width base (V3 0 0 0) value l = Ok (level_res base (V3 0 0 0) l, o, v) /\
    forall p, in_box p (res_box (level_res base (V3 0 0 0) l)) -> exists r, v p = Ok r /\
      forall q, in_box q (res_box base) -> covered l q p -> is_nan (value q) = false -> bounds k r (value q).
Proof.
  intros k t value base l Rb L. change default_width with w1. change (V3 0 0 0) with zero3. destruct (xlevels_low k t base value Rb l L) as (v & E & H).
  eexists. exists v. split; [exact E|]. intros p P. destruct (H p P) as (r & R & _ & B). exists r. split; auto. intros q Q C N. destruct (B q Q C N). apply bounds_ky; auto.
Qed.
Print Assumptions C78_levels.

(** And every level is as tight as it can be, if the filter can tell the voxels from nothing. *)
Theorem C78_levels_exact : forall k t (value : v3 -> val t) base l o v p, res_ok base -> (l <= 25)%nat ->
  (forall q, in_box q (res_box base) -> tellable k (value q)) ->
  fx_levels k t default_width base (V3 0 0 0) value l = Ok (level_res base (V3 0 0 0) l, o, v) ->
  in_box p (res_box (level_res base (V3 0 0 0) l)) ->
  exists r q, v p = Ok r /\ in_box q (res_box base) /\ covered l q p /\ Beqb r (value q) = true.
Proof.
  intros k t value base l o v p Rb L T E P. change default_width with w1 in E. change (V3 0 0 0) with zero3 in *.
  assert (T' : forall q, in_box q (res_box base) -> is_nan (value q) = false /\ ky k (value q) < big) by (intros q Q; apply tellable_ky; auto).
  destruct (xlevels_picked k t base value Rb T' l L v o E p P) as (r & (R & N) & _ & (q & Q & C & K)).
  exists r, q. split; auto. split; auto. split; auto. apply (same_ky k); auto. apply T'; auto.
Qed.
Print Assumptions C78_levels_exact.

(** ** What does not hold *)
Definition sf {p e} (r : res (binary_float p e)) : SpecFloat.spec_float := match r with Ok x => B2SF x | _ => SpecFloat.S754_nan end.
(** A voxel of the largest [float] counts as none, so its row is left at zero and the minimum of it and 5 is zero. *)
Theorem C78_largest_refuted : exists (value : v3 -> val VFloat) old p r, (forall q, is_finite (value q) = true /\ 5 <= B2R (value q)) /\
  (exists q, beneath (V3 0 0 0) old p q) /\ tell_apart p /\
  fx_level Lowest VFloat default_width (V3 0 0 0) old (fun q => Ok (value q)) p = Ok r /\ B2R r = 0.
Proof.
  exists (fun q => if (vy q =? 0)%Z then float_max else vnum VFloat 5 0), (V3 1 2 1), (V3 0 0 0), (B754_zero false).
  split; [|split; [exists (V3 0 0 0); unfold beneath, in_box; cbn; lia|split; [unfold tell_apart; cbn; lia|split; [|reflexivity]]]].
  - intros q. destruct (vy q =? 0)%Z; (split; [reflexivity|]); [|cbn; unfold F2R; cbn; lra].
    assert (E : B2SF float_max = SpecFloat.S754_finite false 16777215 104) by reflexivity. rewrite <- SF2R_B2SF, E. unfold SF2R, F2R. cbn [Fnum Fexp cond_Zopp].
    assert (1 <= bpow radix2 104) by (apply (bpow_le radix2 0 104); lia). lra.
  - set (e := fx_level _ _ _ _ _ _ _). assert (Q : sf e = SpecFloat.S754_zero false) by (vm_compute; reflexivity).
    destruct e as [r| |]; [|discriminate..]. f_equal. apply B2SF_inj. exact Q.
Qed.
Print Assumptions C78_largest_refuted.

(** A NaN is passed over along x, but a row of them is left at zero: which of the two depends on the direction in which
    its neighbour lies. *)
Theorem C78_nan_refuted : exists (f g : v3 -> val VFloat) r s,
  (forall q, f q = if (vx q =? 0)%Z then B754_nan else vnum VFloat 5 0) /\ (forall q, g q = if (vy q =? 0)%Z then B754_nan else vnum VFloat 5 0) /\
  fx_level Lowest VFloat default_width (V3 0 0 0) (V3 2 2 1) (fun q => Ok (f q)) (V3 0 0 0) = Ok r /\ B2R r = 5 /\
  fx_level Lowest VFloat default_width (V3 0 0 0) (V3 2 2 1) (fun q => Ok (g q)) (V3 0 0 0) = Ok s /\ B2R s = 0.
Proof.
  exists (fun q => if (vx q =? 0)%Z then B754_nan else vnum VFloat 5 0), (fun q => if (vy q =? 0)%Z then B754_nan else vnum VFloat 5 0), (vnum VFloat 5 0), (B754_zero false).
  split; [auto|]. split; [auto|]. split; [|split; [cbn; unfold F2R; cbn; lra|split; [|reflexivity]]].
  - set (e := fx_level _ _ _ _ _ _ _). assert (Q : sf e = B2SF (vnum VFloat 5 0)) by (vm_compute; reflexivity).
    destruct e as [r| |]; [|discriminate..]. f_equal. apply B2SF_inj. exact Q.
  - set (e := fx_level _ _ _ _ _ _ _). assert (Q : sf e = SpecFloat.S754_zero false) by (vm_compute; reflexivity).
    destruct e as [r| |]; [|discriminate..]. f_equal. apply B2SF_inj. exact Q.
Qed.
Print Assumptions C78_nan_refuted.

(** From voxel 2^23 on the position is not a [float]: the voxels beneath it are -1, but the minimum is of others. *)
Theorem C78_position_refuted : exists (value : v3 -> val VFloat) old p q r, beneath (V3 0 0 0) old p q /\ (forall q, is_finite (value q) = true) /\
  fx_level Lowest VFloat default_width (V3 0 0 0) old (fun q => Ok (value q)) p = Ok r /\ B2R (value q) < B2R r.
Proof.
  exists (fun q => if (vx q <? 2 ^ 24)%Z then B754_zero false else vnum VFloat (-1) 0), (V3 (2 ^ 24 + 2) 1 1), (V3 (2 ^ 23) 0 0), (V3 (2 ^ 24) 0 0), (B754_zero false).
  split; [unfold beneath, in_box; cbn; repeat split; lia|]. split; [intros q; destruct (vx q <? 2 ^ 24)%Z; reflexivity|]. split; [|cbn; unfold F2R; cbn; lra].
  set (e := fx_level _ _ _ _ _ _ _). assert (Q : sf e = SpecFloat.S754_zero false) by (vm_compute; reflexivity).
  destruct e as [r| |]; [|discriminate..]. f_equal. apply B2SF_inj. exact Q.
Qed.
Print Assumptions C78_position_refuted.

(** ** Instances *)
(** Three voxels of [half]: -3, minus infinity and 5. *)
Definition three (q : v3) : val VHalf := match vx q with 0%Z => vnum VHalf (-3) 0 | 1%Z => B754_infinity true | _ => vnum VHalf 5 0 end.
Example C78_ex : sf (fx_level Lowest VHalf default_width (V3 0 0 0) (V3 3 1 1) (fun q => Ok (three q)) (V3 0 0 0)) = SpecFloat.S754_infinity true /\
  sf (fx_level Highest VHalf default_width (V3 0 0 0) (V3 3 1 1) (fun q => Ok (three q)) (V3 0 0 0)) = SpecFloat.S754_finite true 1536 (-9) /\
  sf (fx_level Highest VHalf default_width (V3 1 0 0) (V3 3 1 1) (fun q => Ok (three q)) (V3 1 0 0)) = SpecFloat.S754_finite false 1280 (-8).
Proof. repeat split; vm_compute; reflexivity. Qed.
Example C78_ex_hyps : pad_ok (V3 1 0 0) /\ tell_apart (V3 1 0 0) /\ res_ok (V3 3 1 1) /\ (forall q, tellable Lowest (three q)) /\
  beneath (V3 1 0 0) (V3 3 1 1) (V3 1 0 0) (V3 2 0 0) /\ covered 1 (V3 2 0 0) (V3 1 0 0).
Proof.
  split; [unfold pad_ok; cbn; lia|]. split; [unfold tell_apart; cbn; lia|]. split; [unfold res_ok; cbn; lia|].
  split; [|split; [unfold beneath, in_box; cbn; repeat split; lia|unfold covered; cbn; auto]].
  assert (G : 5 < largest VFloat). { unfold largest. assert (1 <= 2 ^ 104) by (apply pow_R1_Rle; lra). simpl (2 ^ 24). nra. }
  intros q. unfold three. destruct (vx q) as [|[]|]; try reflexivity; cbn -[largest]; unfold F2R; cbn -[largest]; lra.
Qed.
