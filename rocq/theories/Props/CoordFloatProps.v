(** C44: the conversions of voxel coordinates in IEEE arithmetic. *)
From Coq Require Import ZArith Reals Lia Lra.
From Flocq Require Import Core BinarySingleNaN.
From Verif Require Import Model.Base Model.FloatM Model.FloatMipM Proof.BaseP Proof.FloatP Proof.FloatMipP.
Open Scope R_scope.

(** A [double] converts to the voxel whose cell contains it, and is undefined exactly if that voxel has no index. *)
Theorem C44_rounding_voxel : forall (x : f64) i, is_finite x = true ->
  (floor_int x = Ok i <-> in_int i = true /\ IZR i <= B2R x < IZR i + 1).
Proof.
  intros x i F. split.
  - intros E. destruct (floor_ok x i F E) as (A & B). split; auto. unfold in_int, int_min, int_max. lia.
  - intros (I & A). unfold floor_int. rewrite F.
    destruct (Bnearbyint_correct 53 1024 _ mode_DN x) as (E & _). pose proof (Btrunc_correct 53 1024 _ (Bnearbyint mode_DN x)) as T.
    rewrite E in T. cbn [round_mode] in T. assert (Q : forall r rnd, round radix2 (FIX_exp 0) rnd r = IZR (rnd r)).
    { intros. unfold round, scaled_mantissa, cexp, FIX_exp, F2R. cbn. rewrite !Rmult_1_r. reflexivity. }
    rewrite !Q, Ztrunc_IZR in T. apply eq_IZR in T. rewrite T. rewrite (Zfloor_imp i) by (rewrite plus_IZR; lra). unfold i32. rewrite I. reflexivity.
Qed.
Print Assumptions C44_rounding_voxel.

(** The centre of a voxel is exact in [double], and converts back to the voxel. *)
Theorem C44_rounding_round_trip : forall i, in_int i = true ->
  is_finite (fm_centre i) = true /\ B2R (fm_centre i) = IZR i + 1 / 2 /\ floor_int (fm_centre i) = Ok i.
Proof.
  intros i I. assert (J := I). unfold in_int, int_min, int_max in J. destruct (centre_ok i) as (F & V); [lia|]. split; auto. split; [rewrite V; lra|].
  apply (C44_rounding_voxel (fm_centre i) i F). split; auto. change (B2R (fm_centre i : f64)) with (B2R (fm_centre i)). rewrite V. lra.
Qed.
Print Assumptions C44_rounding_round_trip.

Example C44_rounding_ex : in_int (-7) = true /\ floor_int (fm_centre (-7)) = Ok (-7)%Z /\ floor_int (of_int (2 ^ 31)) = UB.
Proof. repeat split; vm_compute; reflexivity. Qed.
