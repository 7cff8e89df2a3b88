(** C82: the intersection of a ray and a box survives rounding. *)
From Coq Require Import ZArith Reals List Bool Lia Lra.
From Flocq Require Import Core BinarySingleNaN.
From Verif Require Import Model.Base Model.FloatM Model.FloatRayM Spec.FloatRaySpec Proof.FloatP Proof.FloatRayP.
Import ListNotations.
Local Open Scope R_scope.

(** For every ray and box with ordinary coordinates, what is reported is right but for a relative error of [2 ^ -51] in
    the parameter. *)
Theorem C82_nearly : forall x y z, ordinary x -> ordinary y -> ordinary z -> nearly (f_intersect x y z) (hits x y z).
Proof. exact intersect_nearly. Qed.
Print Assumptions C82_nearly.

(** In particular a box that is crossed ahead of the ray, however short the way through it, is found, unless the two
    ends of that way agree to about fifteen digits. *)
Theorem C82_found : forall x y z t t', ordinary x -> ordinary y -> ordinary z ->
  0 <= t -> t + slack t <= t' - slack t' -> t' <= bpow radix2 1023 -> hits x y z t -> hits x y z t' -> f_intersect x y z <> None.
Proof.
  intros x y z t t' X Y Z T L M H H' N. pose proof (C82_nearly x y z X Y Z) as Q. rewrite N in Q. cbn [nearly] in Q.
  assert (SL : forall v, 0 <= slack v) by (intros v; unfold slack; pose proof (Rabs_pos v); pose proof (bpow_gt_0 radix2 (-51)); pose proof (bpow_gt_0 radix2 (-1025)); nra).
  pose proof (SL t). pose proof (SL t'). assert (T' : t <= t') by lra. assert (R : in_range t) by (unfold in_range; rewrite Rabs_pos_eq; lra). assert (R' : in_range t') by (unfold in_range; rewrite Rabs_pos_eq; lra).
  specialize (Q t t' R R' T ltac:(lra) H H'). lra.
Qed.
Print Assumptions C82_found.

(** Literals. *)
Definition lit (m e : Z) : f64 := binary_normalize 53 1024 gt_53 lt_1024 mode_NE m e false.
Lemma lit_ok m e : (Z.abs m < 2 ^ 53)%Z -> (-1074 <= e <= 971)%Z -> is_finite (lit m e) = true /\ B2R (lit m e) = IZR m * bpow radix2 e.
Proof.
  intros M E. assert (V : F2R (Float radix2 m e) = IZR m * bpow radix2 e) by reflexivity.
  assert (G : generic_format radix2 fe64 (F2R (Float radix2 m e))) by (apply generic_format_FLT; exists (Float radix2 m e); cbn; try lia; reflexivity).
  pose proof (binary_normalize_correct 53 1024 _ _ mode_NE m e false) as N. cbv zeta in N. cbn [round_mode] in N. rewrite fexp64 in N.
  rewrite round_generic in N; [|typeclasses eauto|exact G]. rewrite Rlt_bool_true in N; [unfold lit; rewrite <- V; tauto|].
  rewrite V, Rabs_mult, <- abs_IZR, (Rabs_pos_eq (bpow radix2 e)) by apply bpow_ge_0. apply Rlt_le_trans with (bpow radix2 (53 + e)); [|apply bpow_le; lia].
  rewrite bpow_plus. apply Rmult_lt_compat_r; [apply bpow_gt_0|]. change (bpow radix2 53) with (IZR (2 ^ 53)). apply IZR_lt. exact M.
Qed.
Lemma lit_int n : (Z.abs n <= 4)%Z -> moderate (lit n 0) /\ B2R (lit n 0) = IZR n.
Proof.
  intros H. destruct (lit_ok n 0) as (F & V); try lia. cbn [bpow] in V. rewrite Rmult_1_r in V. split; [|exact V]. split; [exact F|]. rewrite V, <- abs_IZR.
  apply Rle_trans with (bpow radix2 2); [apply (IZR_le _ 4); lia|apply bpow_le; lia].
Qed.
Lemma lit_tiny n : (Z.abs n <= 4)%Z -> moderate (lit n (-53)) /\ B2R (lit n (-53)) = IZR n * bpow radix2 (-53).
Proof.
  intros H. destruct (lit_ok n (-53)) as (F & V); try lia. split; [|exact V]. split; [exact F|]. rewrite V, Rabs_mult, <- abs_IZR, (Rabs_pos_eq (bpow radix2 (-53))) by apply bpow_ge_0.
  apply Rle_trans with (bpow radix2 2 * bpow radix2 (-53)); [apply Rmult_le_compat_r; [apply bpow_ge_0|]; apply (IZR_le _ 4); lia|rewrite <- bpow_plus; apply bpow_le; lia].
Qed.
Lemma lit_half : moderate (lit 1 (-1)) /\ B2R (lit 1 (-1)) = / 2.
Proof.
  destruct (lit_ok 1 (-1)) as (F & V); try lia. change (bpow radix2 (-1)) with (/ 2) in V. rewrite Rmult_1_l in V. split; [|exact V]. split; [exact F|]. rewrite V, Rabs_pos_eq by lra.
  apply Rle_trans with (bpow radix2 0); [cbn; lra|apply bpow_le; lia].
Qed.
(** A dimension with no direction, halfway between the faces. *)
Definition still : faxis := FAxis (lit 1 (-1)) (lit 0 0) (lit 0 0) (lit 1 0).
Lemma still_ok : ordinary still /\ forall t, within still t.
Proof.
  destruct (lit_int 0) as (M0 & V0); [lia|]. destruct (lit_int 1) as (M1 & V1); [lia|]. destruct lit_half as (Mh & Vh).
  unfold ordinary, within, still. cbn [fa_pos fa_dir fa_min fa_max]. rewrite V0, V1, Vh. split; [repeat split; try apply M0; try apply M1; try apply Mh; lra|intros; lra].
Qed.
Lemma not_tiny n : (1 <= n)%Z -> 10 * bpow radix2 (-52) <= Rabs (IZR n).
Proof.
  intros H. rewrite Rabs_pos_eq by (apply IZR_le; lia). apply Rle_trans with 1; [|apply IZR_le; lia].
  assert (bpow radix2 (-52) <= / 1000) by (cbn; apply Rinv_le; [lra|]; apply IZR_le; discriminate). lra.
Qed.

(** A ray from the middle of a box of size 1 along x: found, and its way is between 0 and a half, but for the error. *)
Definition forward : faxis := FAxis (lit 1 (-1)) (lit 1 0) (lit 0 0) (lit 1 0).
Example C82_example : ordinary forward /\ ordinary still /\ hits forward still still 0 /\ hits forward still still (/ 2) /\ f_intersect forward still still <> None.
Proof.
  destruct (lit_int 0) as (M0 & V0); [lia|]. destruct (lit_int 1) as (M1 & V1); [lia|]. destruct lit_half as (Mh & Vh). destruct still_ok as (S & W).
  assert (O : ordinary forward).
  { unfold ordinary, forward. cbn [fa_pos fa_dir fa_min fa_max]. rewrite V0, V1, Vh. repeat split; try apply M0; try apply M1; try apply Mh; try lra. left. apply (not_tiny 1). lia. }
  assert (H : hits forward still still 0) by (split; [unfold within, forward; cbn [fa_pos fa_dir fa_min fa_max]; rewrite V0, V1, Vh; lra|auto]).
  assert (H' : hits forward still still (/ 2)) by (split; [unfold within, forward; cbn [fa_pos fa_dir fa_min fa_max]; rewrite V0, V1, Vh; lra|auto]).
  split; [exact O|]. split; [exact S|]. split; [exact H|]. split; [exact H'|].
  apply (C82_found forward still still 0 (/ 2) O S S); auto; try lra.
  - unfold slack. rewrite Rabs_R0, Rabs_pos_eq by lra. pose proof k_small. assert (bpow radix2 (-1025) <= bpow radix2 (-51)) by (apply bpow_le; lia). lra.
  - apply Rle_trans with (bpow radix2 0); [cbn; lra|apply bpow_le; lia].
Qed.

(** The answer is not exact: a box whose edge the ray touches ahead may be missed, ... *)
Definition touch_x : faxis := FAxis (lit (-1) (-53)) (lit 1 0) (lit 0 0) (lit 1 0).
Definition touch_y : faxis := FAxis (lit (-3) (-53)) (lit 3 0) (lit 3 0) (lit 4 0).
Theorem C82_missed_refuted : exists x y z t, ordinary x /\ ordinary y /\ ordinary z /\ 0 <= t /\ hits x y z t /\ f_intersect x y z = None.
Proof.
  exists touch_x, touch_y, still, (1 + bpow radix2 (-53)). destruct still_ok as (S & W). pose proof (bpow_gt_0 radix2 (-53)) as B0.
  destruct (lit_int 0) as (M0 & V0); [lia|]. destruct (lit_int 1) as (M1 & V1); [lia|]. destruct (lit_int 3) as (M3 & V3); [lia|]. destruct (lit_int 4) as (M4 & V4); [lia|].
  destruct (lit_tiny (-1)) as (T1 & U1); [lia|]. destruct (lit_tiny (-3)) as (T3 & U3); [lia|].
  assert (K : bpow radix2 (-53) <= / 1000) by (cbn; apply Rinv_le; [lra|]; apply IZR_le; discriminate).
  split; [|split; [|split; [exact S|split; [lra|split; [split; [|split; [|apply W]]|vm_compute; reflexivity]]]]].
  - unfold ordinary, touch_x. cbn [fa_pos fa_dir fa_min fa_max]. rewrite V0, V1, U1. repeat split; try apply M0; try apply M1; try apply T1; try lra. left. apply (not_tiny 1). lia.
  - unfold ordinary, touch_y. cbn [fa_pos fa_dir fa_min fa_max]. rewrite V3, V4, U3. repeat split; try apply M3; try apply M4; try apply T3; try lra. left. apply (not_tiny 3). lia.
  - unfold within, touch_x. cbn [fa_pos fa_dir fa_min fa_max]. rewrite V0, V1, U1. lra.
  - unfold within, touch_y. cbn [fa_pos fa_dir fa_min fa_max]. rewrite V3, V4, U3. lra.
Qed.
Print Assumptions C82_missed_refuted.
(** ... and one that the ray passes by may be found. *)
Definition past_x : faxis := FAxis (lit (-1) (-53)) (lit 1 0) (lit 1 0) (lit 2 0).
Definition past_y : faxis := FAxis (lit 0 0) (lit 1 0) (lit 0 0) (lit 1 0).
Theorem C82_found_refuted : exists x y z, ordinary x /\ ordinary y /\ ordinary z /\ (forall t, ~ hits x y z t) /\ f_intersect x y z <> None.
Proof.
  exists past_x, past_y, still. destruct still_ok as (S & W). pose proof (bpow_gt_0 radix2 (-53)) as B0.
  destruct (lit_int 0) as (M0 & V0); [lia|]. destruct (lit_int 1) as (M1 & V1); [lia|]. destruct (lit_int 2) as (M2 & V2); [lia|].
  destruct (lit_tiny (-1)) as (T1 & U1); [lia|].
  split; [|split; [|split; [exact S|split]]].
  - unfold ordinary, past_x. cbn [fa_pos fa_dir fa_min fa_max]. rewrite V1, V2, U1. repeat split; try apply M2; try apply M1; try apply T1; try lra. left. apply (not_tiny 1). lia.
  - unfold ordinary, past_y. cbn [fa_pos fa_dir fa_min fa_max]. rewrite V0, V1. repeat split; try apply M0; try apply M1; try lra. left. apply (not_tiny 1). lia.
  - intros t (A & B & _). revert A B. unfold within, past_x, past_y. cbn [fa_pos fa_dir fa_min fa_max]. rewrite V0, V1, V2, U1. lra.
  - assert (E : match f_intersect past_x past_y still with None => true | Some _ => false end = false) by (vm_compute; reflexivity).
    intros N. rewrite N in E. exact (diff_true_false E).
Qed.
Print Assumptions C82_found_refuted.
(** Coordinates near the largest number: a box in full view, finite like the ray, is missed because a difference
    overflows. *)
Definition far_x : faxis := FAxis (lit (-2 ^ 52) 971) (lit (2 ^ 52) 971) (lit (2 ^ 52) 971) (lit (3 * 2 ^ 51) 971).
Definition finite_axis (a : faxis) : Prop :=
  is_finite (fa_pos a) = true /\ is_finite (fa_dir a) = true /\ is_finite (fa_min a) = true /\ is_finite (fa_max a) = true.
Theorem C82_overflow_refuted : exists x y z, finite_axis x /\ ordinary y /\ ordinary z /\ 1 <= Rabs (B2R (fa_dir x)) /\
  (forall t, 2 <= t <= 5 / 2 -> hits x y z t) /\ f_intersect x y z = None.
Proof.
  exists far_x, still, still. destruct still_ok as (S & W).
  destruct (lit_ok (-2 ^ 52) 971) as (F1 & V1); try lia. destruct (lit_ok (2 ^ 52) 971) as (F2 & V2); try lia. destruct (lit_ok (3 * 2 ^ 51) 971) as (F3 & V3); try lia.
  assert (P : 1 <= bpow radix2 971) by (change 1 with (bpow radix2 0); apply bpow_le; lia).
  split; [repeat split; assumption|]. split; [exact S|]. split; [exact S|]. split; [|split; [|vm_compute; reflexivity]].
  - unfold far_x. cbn [fa_dir]. rewrite V2. assert (1 <= IZR (2 ^ 52)) by (apply IZR_le; lia). rewrite Rabs_pos_eq; nra.
  - intros t T. split; [|auto]. unfold within, far_x. cbn [fa_pos fa_dir fa_min fa_max]. rewrite V1, V2, V3.
    replace (3 * 2 ^ 51)%Z with (3 * (2 ^ 51))%Z by lia. change (-2 ^ 52)%Z with (- (2 * 2 ^ 51))%Z. change (2 ^ 52)%Z with (2 * 2 ^ 51)%Z. rewrite opp_IZR, !mult_IZR.
    assert (Q : 0 < IZR (2 ^ 51)) by (apply IZR_lt; lia). set (k := IZR (2 ^ 51)) in *. set (b := bpow radix2 971) in *. assert (0 < k * b) by (apply Rmult_lt_0_compat; lra).
    replace (- (2 * k) * b + t * (2 * k * b)) with ((2 * t - 2) * (k * b)) by ring. replace (2 * k * b) with (2 * (k * b)) by ring. replace (3 * k * b) with (3 * (k * b)) by ring.
    split; apply Rmult_le_compat_r; lra.
Qed.
Print Assumptions C82_overflow_refuted.
