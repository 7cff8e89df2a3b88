(** C77: cubic interpolation as it is computed, with rounding. *)
From Coq Require Import ZArith Reals List Bool Lia Lra.
From Flocq Require Import Core BinarySingleNaN.
From Verif Require Import Model.Base Model.VecM Model.RealM Model.InterpM Model.FloatM Model.FloatMipM Model.FloatCubicM.
From Verif Require Import Spec.VoxelSpec Spec.InterpSpec Spec.FloatSpec Spec.FloatCubicSpec.
From Verif Require Import Proof.BaseP Proof.RealP Proof.InterpP Proof.CubicP Proof.FloatP Proof.FloatP2 Proof.FloatMipP Proof.FloatMipP2 Proof.FloatP3.
From Verif Require Import Proof.FloatCubicP Proof.FloatCubicP2 Proof.FloatCubicP3 Proof.FloatCubicP4.
Open Scope R_scope.

(** Sampling is defined at every position that has an index in [int], whatever the voxels are, and where a coordinate is
    not a number or minus infinity. *)
Theorem C77_defined : forall s t (value : v3 -> val t) dw x y z, win_ok dw -> cubic_coord x -> cubic_coord y -> cubic_coord z ->
  exists r, f_cubic_sample s t value dw x y z = Ok r.
Proof.
  intros s t value dw x y z ((NX & NY & NZ) & A1 & A2 & A3 & A4 & A5 & A6) X Y Z.
  destruct (axis_defined _ _ x NX A1 A2 X) as (i & I). destruct (axis_defined _ _ y NY A3 A4 Y) as (j & J). destruct (axis_defined _ _ z NZ A5 A6 Z) as (k & K).
  unfold f_cubic_sample. rewrite I, J, K. cbn [bind]. eauto.
Qed.
Print Assumptions C77_defined.

(** Equal voxels give back their value, at every position and without any bound on them: unlike linear interpolation of
    [double] (C70). *)
Theorem C77_constant : forall s t (value : v3 -> val t) dw x y z r c, box_nonempty dw -> all_finite dw value ->
  (forall q, in_box q dw -> B2R (value q) = c) -> f_cubic_sample s t value dw x y z = Ok r -> is_finite r = true /\ B2R r = c.
Proof.
  intros s t value dw x y z r c (NX & NY & NZ) AF C H. destruct (sample_inv _ _ _ _ _ _ _ _ H) as (i & j & k & I & J & K & ->).
  refine (line_constant s t _ _ _ x i c NX I _). intros a A. refine (line_constant s t _ _ _ y j c NY J _). intros b B. refine (line_constant s t _ _ _ z k c NZ K _). intros d D.
  assert (Q : in_box (V3 a b d) dw) by (unfold in_box; auto). auto.
Qed.
Print Assumptions C77_constant.

(** At the centre of a voxel with coordinates that are not negative: its value, to the last bit. *)
Theorem C77_centre : forall s t (value : v3 -> val t) dw x y z q r, in_box q dw -> (0 <= vx q)%Z -> (0 <= vy q)%Z -> (0 <= vz q)%Z ->
  all_finite dw value -> modest dw value -> at_ x y z = centre q -> f_cubic_sample s t value dw x y z = Ok r -> is_finite r = true /\ B2R r = B2R (value q).
Proof.
  intros s t value dw x y z [a b c] r I X0 Y0 Z0 AF M E H. cbn [vx vy vz] in *. injection E as EX EY EZ. cbn [vx vy vz] in *.
  assert (FIN : forall (x : f64) n, (0 <= n)%Z -> B2R x = IZR n + 1 / 2 -> is_finite x = true).
  { intros u n N U. apply IZR_le in N. destruct u; auto; cbn [B2R] in U; lra. }
  assert (NE : box_nonempty dw) by (unfold box_nonempty, in_box in *; cbn [vx vy vz] in *; lia).
  destruct (modest_top t value dw NE M) as (B & B0 & TB & VB). destruct I as (IX & IY & IZ). cbn [vx vy vz] in *.
  destruct (sample_along s t value dw B NE AF B0 TB VB x y z r a b H) as (k & K & RF & RV); eauto. split; auto. rewrite RV.
  destruct (line_centre s t (vz (bmin dw)) (vz (bmax dw)) (fun c => value (V3 a b c)) z k B B c) as (_ & G); eauto.
  - pose proof (ab_pos t). lra.
  - intros n N. assert (Q : in_box (V3 a b n) dw) by (unfold in_box; auto). split; auto.
Qed.
Print Assumptions C77_centre.

(** The sample is a number, at most five times as large as the largest voxel, if no voxel is larger than a 64th of the
    largest number of its type. *)
Theorem C77_finite : forall s t (value : v3 -> val t) dw x y z r B, box_nonempty dw -> all_finite dw value ->
  0 <= B -> 64 * B <= largest t -> (forall q, in_box q dw -> Rabs (B2R (value q)) <= B) -> f_cubic_sample s t value dw x y z = Ok r ->
  is_finite r = true /\ Rabs (B2R r) <= 5 * B + 6 * cubic_rounding t 0.
Proof.
  intros s t value dw x y z r B NE AF B0 TB VB H. rewrite largest_top in TB.
  destruct (sample_good s t value dw B NE AF B0 TB VB x y z r H) as (F & G). split; auto. eapply Rle_trans; [exact G|]. apply Rplus_le_compat_l.
  unfold ab, tiny, cubic_rounding. destruct t; cbn [emax prec].
  - change (bpow radix2 (2 - 16 - 11)) with (/ 33554432). simpl pow. lra.
  - change (2 - 128 - 24)%Z with (- Z.of_nat 150)%Z. rewrite <- inv_pow_bpow. assert (0 < / 2 ^ 150) by (apply Rinv_0_lt_compat, pow_lt; lra). lra.
  - change (2 - 1024 - 53)%Z with (- Z.of_nat 1075)%Z. rewrite <- inv_pow_bpow. assert (0 < / 2 ^ 1075) by (apply Rinv_0_lt_compat, pow_lt; lra). lra.
Qed.
Print Assumptions C77_finite.

(** Along one axis of the field, through the centres of voxels, a sample is close to the exact one (C29).  Missing:
    positions between the lines; there it is false. *)
Theorem C77_error_partial : forall s t (value : v3 -> val t) dw x y z r v a b B, win_ok dw -> all_finite dw value ->
  0 <= B -> 64 * B <= largest t -> (forall q, in_box q dw -> Rabs (B2R (value q)) <= B) ->
  (vx (bmin dw) <= a <= vx (bmax dw))%Z -> (0 <= a)%Z -> B2R x = IZR a + 1 / 2 ->
  (vy (bmin dw) <= b <= vy (bmax dw))%Z -> (0 <= b)%Z -> B2R y = IZR b + 1 / 2 ->
  is_finite z = true -> pos_ok (at_ x y z) -> f_cubic_sample s t value dw x y z = Ok r ->
  cubic_sample dw (fun q => Ok (B2R (value q))) (at_ x y z) = Ok v ->
  is_finite r = true /\ Rabs (B2R r - v) <= cubic_rounding t B.
Proof.
  intros s t value dw x y z r v a b B WO AF B0 TB VB IA A0 X IB B0' Y FZ PO H E. rewrite largest_top in TB. pose proof (proj1 WO) as NE.
  assert (FIN : forall (x : f64) n, (0 <= n)%Z -> B2R x = IZR n + 1 / 2 -> is_finite x = true).
  { intros u n N U. apply IZR_le in N. destruct u; auto; cbn [B2R] in U; lra. }
  destruct (sample_err s t value dw B NE AF B0 TB VB x y z r v a b H) as (F & G); eauto. split; auto. eapply Rle_trans; [exact G|].
  unfold er, ab, unit, tiny, cubic_rounding. destruct t; cbn [emax prec].
  - change (2 - 16 - 11)%Z with (- Z.of_nat 25)%Z. change (- (11))%Z with (- Z.of_nat 11)%Z. rewrite <- !inv_pow_bpow. unfold Rdiv. lra.
  - change (2 - 128 - 24)%Z with (- Z.of_nat 150)%Z. change (- (24))%Z with (- Z.of_nat 24)%Z. rewrite <- !inv_pow_bpow. unfold Rdiv. lra.
  - change (2 - 1024 - 53)%Z with (- Z.of_nat 1075)%Z. change (- (53))%Z with (- Z.of_nat 53)%Z. rewrite <- !inv_pow_bpow. unfold Rdiv. lra.
Qed.
Print Assumptions C77_error_partial.

(** ** What does not hold *)
(** Two rows that differ by one unit in the last place are rounded to the same value between the voxels, and equal rows
    are treated in another way: the computed sample is 1, the exact one is above 2. *)
Definition steep : box := Box (V3 0 0 0) (V3 0 3 1).
Definition steep_f (q : v3) : val VFloat :=
  if ((vy q =? 0) || (vy q =? 3))%Z then vnum VFloat (-7) 0 else if ((vy q =? 2) && (vz q =? 1))%Z then vnum VFloat 8388609 (-23) else vnum VFloat 1 0.
Theorem C77_error_refuted : exists (value : v3 -> val VFloat) dw x y z r v, win_ok dw /\ all_finite dw value /\
  (forall q, in_box q dw -> Rabs (B2R (value q)) <= 7) /\ pos_ok (at_ x y z) /\ f_cubic_sample Scalar VFloat value dw x y z = Ok r /\
  cubic_sample dw (fun q => Ok (B2R (value q))) (at_ x y z) = Ok v /\ B2R r + 1 <= v.
Proof.
  exists steep_f, steep, f_half, (of_int 2), (of_int 1).
  assert (W : win_ok steep) by (unfold win_ok, box_nonempty, steep; cbn; lia).
  assert (V : forall q, is_finite (steep_f q) = true /\ B2R (steep_f q) =
    if ((vy q =? 0) || (vy q =? 3))%Z then -7 else if ((vy q =? 2) && (vz q =? 1))%Z then 1 + / 8388608 else 1).
  { intros q. unfold steep_f. destruct ((vy q =? 0) || (vy q =? 3))%Z; [split; [reflexivity|cbn; unfold F2R; cbn; lra]|].
    destruct ((vy q =? 2) && (vz q =? 1))%Z; (split; [reflexivity|cbn; unfold F2R; cbn; lra]). }
  destruct half_ok as (_ & HV). destruct (of_int_ok 2) as (_ & V2); [lia|]. destruct (of_int_ok 1) as (_ & V1); [lia|].
  assert (P : pos_ok (at_ f_half (of_int 2) (of_int 1))) by (unfold pos_ok, at_; cbn [rx ry rz]; rewrite HV, V2, V1; simpl pow; lra).
  assert (R : exists r, f_cubic_sample Scalar VFloat steep_f steep f_half (of_int 2) (of_int 1) = Ok r /\ B2SF r = SpecFloat.S754_finite false 8388608 (-23)).
  { destruct (f_cubic_sample Scalar VFloat steep_f steep f_half (of_int 2) (of_int 1)) as [r| |] eqn:E;
      [exists r; split; auto|exfalso..]; assert (Q : match f_cubic_sample Scalar VFloat steep_f steep f_half (of_int 2) (of_int 1) with Ok x => B2SF x | _ => SpecFloat.S754_nan end = SpecFloat.S754_finite false 8388608 (-23)) by (vm_compute; reflexivity); rewrite E in Q; auto; discriminate. }
  destruct R as (r & R & S). exists r, (cub3 steep (fun q => B2R (steep_f q)) (at_ f_half (of_int 2) (of_int 1))).
  split; [auto|]. split; [intros q _; apply V|].
  split; [intros q _; destruct (V q) as (_ & ->); destruct ((vy q =? 0) || (vy q =? 3))%Z; [|destruct ((vy q =? 2) && (vz q =? 1))%Z]; apply Rabs_le; lra|].
  split; [auto|]. split; [auto|]. split; [apply cubic_eq; auto; intros q _; reflexivity|].
  assert (RV : B2R r = 1) by (rewrite <- SF2R_B2SF, S; unfold SF2R, F2R; cbn; lra). rewrite RV.
  unfold cub3, at_. cbn [rx ry rz]. rewrite HV, V2, V1. unfold cub1. cbv zeta. cbn [steep bmin bmax vx vy vz].
  replace (Rmax (1 / 2) (/ 2) - 1 / 2) with 0 by (rewrite Rmax_left; lra). rewrite (Rmax_right (1 / 2) 2), (Rmax_right (1 / 2) 1) by lra.
  replace (rfloor 0) with 0%Z by (symmetry; apply rfloor_unique; lra). replace (rfloor (2 - 1 / 2)) with 1%Z by (symmetry; apply rfloor_unique; lra).
  replace (rfloor (1 - 1 / 2)) with 0%Z by (symmetry; apply rfloor_unique; lra). rewrite Rminus_eq_0, cubic_zero. cbn [clamp_in Z.max Z.min Z.compare Z.add Z.sub Z.opp Z.pos_sub Pos.compare Pos.compare_cont Pos.add].
  unfold clamp_in. cbn.
  replace (F2R {| Fnum := 8388608; Fexp := -23 |}) with 1 by (unfold F2R; cbn; lra).
  replace (F2R {| Fnum := 8388609; Fexp := -23 |}) with (1 + / 8388608) by (unfold F2R; cbn; lra).
  replace (F2R {| Fnum := -14680064; Fexp := -21 |}) with (-7) by (unfold F2R; cbn; lra).
  replace (1 - 1 / 2 - 0) with (1 / 2) by lra. replace (2 - 1 / 2 - 1) with (1 / 2) by lra.
  rewrite !cubic_const. unfold cubic at 2. destruct (reqb_spec (1 + / 8388608 - 1) 0); [lra|].
  unfold cubic. match goal with |- context [reqb ?e 0] => destruct (reqb_spec e 0) end; lra.
Qed.
Print Assumptions C77_error_refuted.

(** Without the bound on the voxels: two finite voxels of different sign, sampled at the centre of one of them, are not a
    number. *)
Definition huge t (q : v3) : val t := vnum t (if (vz q =? 0)%Z then - (2 ^ prec t - 1) else 2 ^ prec t - 1) (emax t - prec t).
Theorem C77_overflow_refuted : forall s t, exists (value : v3 -> val t) dw x y z q r, in_box q dw /\ all_finite dw value /\
  at_ x y z = centre q /\ f_cubic_sample s t value dw x y z = Ok r /\ is_nan r = true.
Proof.
  intros s t. exists (huge t), (Box (V3 0 0 0) (V3 0 0 1)), f_half, f_half, f_half, (V3 0 0 0), B754_nan.
  split; [unfold in_box; cbn; lia|]. split; [intros q _; unfold huge; destruct (vz q =? 0)%Z; destruct t; reflexivity|].
  split; [unfold at_, centre; destruct half_ok as (_ & E); rewrite E; cbn [vx vy vz]; f_equal; lra|]. split; [|reflexivity].
  destruct s, t; vm_compute; reflexivity.
Qed.
Print Assumptions C77_overflow_refuted.

(** A coordinate that is not a number is taken to be 1/2, so it gives a sample; plus infinity is undefined behaviour. *)
Theorem C77_not_a_number_refuted : forall s t (value : v3 -> val t) dw y z,
  f_cubic_sample s t value dw B754_nan y z = f_cubic_sample s t value dw f_half y z /\
  f_cubic_sample s t value dw (B754_infinity true) y z = f_cubic_sample s t value dw f_half y z /\
  f_cubic_sample s t value dw (B754_infinity false) y z = UB.
Proof. intros. repeat split; reflexivity. Qed.
Print Assumptions C77_not_a_number_refuted.

(** ** Instances *)
Definition sf3 {p e} (r : res (binary_float p e)) : SpecFloat.spec_float := match r with Ok x => B2SF x | _ => SpecFloat.S754_nan end.
Definition cube : box := Box (V3 0 0 0) (V3 3 3 3).
Definition ramp t (q : v3) : val t := vnum t (vz q) 0.
Definition at_2 : f64 := of_int 2.
(** A ramp half-way between two voxels, in each type; and a constant that linear interpolation of [double] loses. *)
Example C77_ex : sf3 (f_cubic_sample Scalar VFloat (ramp VFloat) cube at_2 at_2 at_2) = SpecFloat.S754_finite false 12582912 (-23) /\
  sf3 (f_cubic_sample Scalar VHalf (ramp VHalf) cube at_2 at_2 at_2) = SpecFloat.S754_finite false 1536 (-10) /\
  sf3 (f_cubic_sample Vector VHalf (ramp VHalf) cube at_2 at_2 at_2) = SpecFloat.S754_finite false 1536 (-10) /\
  sf3 (f_cubic_sample Scalar VDouble (fun _ => of_int 3) cube (binary_normalize 53 1024 gt_53 lt_1024 mode_NE 3602879701896397 (-52) false) at_2 at_2) = B2SF (of_int 3).
Proof. repeat split; vm_compute; reflexivity. Qed.
Example C77_ex_hyps : win_ok cube /\ all_finite (t := VFloat) cube (ramp VFloat) /\ modest (t := VFloat) cube (ramp VFloat) /\ cubic_coord at_2 /\
  in_box (V3 1 1 1) cube.
Proof.
  split; [unfold win_ok, box_nonempty, cube; cbn; lia|].
  assert (V : forall q, in_box q cube -> is_finite (ramp VFloat q) = true /\ 0 <= B2R (ramp VFloat q) <= 3).
  { intros [i j k] (_ & _ & K). cbn in K. assert (C : (k = 0 \/ k = 1 \/ k = 2 \/ k = 3)%Z) by lia.
    destruct C as [C|[C|[C|C]]]; subst k; (split; [reflexivity|cbn; unfold F2R; cbn; lra]). }
  split; [intros q Q; apply V; auto|]. split.
  { intros q Q. destruct (V q Q) as (_ & A & C). rewrite Rabs_pos_eq by auto. unfold largest. assert (1 <= 2 ^ 104) by (apply pow_R1_Rle; lra). simpl (2 ^ 24). nra. }
  split; [|unfold in_box, cube; cbn; lia]. right. right. destruct (of_int_ok 2) as (F & V2); [lia|]. split; [exact F|]. unfold at_2. rewrite V2. simpl. lra.
Qed.
