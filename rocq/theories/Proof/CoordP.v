From Coq Require Import ZArith Reals Lia Lra.
From Verif Require Import Model.Base Model.RealM Model.VecM Model.SparseM Model.CoordM.
From Verif Require Import Spec.VoxelSpec Proof.BaseP Proof.RealP Proof.SparseP.
Open Scope R_scope.

Lemma rceil_IZR z : rceil (IZR z) = z.
Proof. apply rceil_unique. lra. Qed.
Lemma to_float_small z : (Z.abs z <= 2 ^ 24)%Z -> to_float z = z.
Proof.
  intros H. unfold to_float. destruct (Z.ltb_spec z 0); rewrite float_of_int_small by lia; lia.
Qed.
Lemma clamp_int z : (int_min <= z <= int_max)%Z -> clamp_for_int (IZR z) = z.
Proof.
  intros [A B]. apply IZR_le in A, B. unfold clamp_for_int.
  destruct (rltb_spec (IZR z) (IZR int_min)); [lra|]. destruct (rltb_spec (IZR int_max) (IZR z)); [lra|].
  unfold rtrunc. destruct (rleb 0 (IZR z)); [apply rfloor_IZR|apply rceil_IZR].
Qed.
Lemma IZR_lt_succ a b : IZR a < IZR b + 1 -> (a <= b)%Z.
Proof. intros. rewrite <- plus_IZR in H. apply lt_IZR in H. lia. Qed.
(** The truncated lower corner is not above the voxel of any point above it, when the
    corner is not negative or is an integer. *)
Lemma clamp_lower lo x i : (int_min <= i <= int_max)%Z -> IZR i <= x < IZR i + 1 -> lo <= x ->
  (0 <= lo \/ exists n, lo = IZR n) -> (clamp_for_int lo <= i)%Z.
Proof.
  intros [A B] C L H. unfold clamp_for_int. destruct (rltb_spec lo (IZR int_min)); auto.
  destruct (rltb_spec (IZR int_max) lo); [apply IZR_lt_succ; lra|].
  unfold rtrunc. destruct H as [H|[m ->]].
  - destruct (rleb_spec 0 lo); [|lra]. pose proof (rfloor_spec lo). apply IZR_lt_succ. lra.
  - destruct (rleb 0 (IZR m)); rewrite ?rfloor_IZR, ?rceil_IZR; apply IZR_lt_succ; lra.
Qed.
Lemma clamp_upper hi x i : (int_min <= i <= int_max)%Z -> IZR i <= x < IZR i + 1 -> x <= hi -> (i <= clamp_for_int hi)%Z.
Proof.
  intros [A B] C H. unfold clamp_for_int. destruct (rltb_spec hi (IZR int_min)).
  - apply IZR_le in A. lra.
  - destruct (rltb_spec (IZR int_max) hi); auto. unfold rtrunc. destruct (rleb_spec 0 hi).
    + pose proof (rfloor_spec hi). apply IZR_lt_succ. lra.
    + pose proof (rceil_spec hi). apply IZR_lt_succ. lra.
Qed.
