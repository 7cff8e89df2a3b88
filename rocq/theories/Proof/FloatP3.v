(** Proofs about linear interpolation in floating point: voxel centres, and the distance to the exact sample. *)
From Coq Require Import ZArith Reals List Bool Lia Lra Psatz.
From Flocq Require Import Core BinarySingleNaN Relative.
From Verif Require Import Model.Base Model.VecM Model.FloatM Spec.VoxelSpec Spec.InterpSpec Spec.FloatSpec Proof.BaseP Proof.InterpP Proof.FloatP Proof.FloatP2.
Local Open Scope R_scope.

Lemma pow_bpow n : 2 ^ n = bpow radix2 (Z.of_nat n).
Proof. induction n as [|n IH]; [reflexivity|]. rewrite <- tech_pow_Rmult, IH, Nat2Z.inj_succ, <- Z.add_1_r, bpow_plus. change (bpow radix2 1) with 2. ring. Qed.
Lemma inv_pow_bpow n : / 2 ^ n = bpow radix2 (- Z.of_nat n).
Proof. rewrite pow_bpow, bpow_opp. auto. Qed.
Lemma spread_ulps K : spread K = few_ulps K.
Proof.
  unfold spread, few_ulps, Rdiv. rewrite u_val. rewrite (inv_pow_bpow 49), (inv_pow_bpow 1071).
  replace (bpow radix2 (- Z.of_nat 49)) with (bpow radix2 4 * bpow radix2 (-53)) by (rewrite <- bpow_plus; reflexivity).
  replace (bpow radix2 (- Z.of_nat 1071)) with (bpow radix2 4 * bpow radix2 (-1075)) by (rewrite <- bpow_plus; f_equal).
  unfold eta. change (bpow radix2 4) with 16. ring.
Qed.
Lemma overflow_mid t (value : v3 -> val t) dw : no_overflow dw value -> forall q, in_box q dw -> Rabs (B2R (value q)) <= bpow radix2 1019.
Proof.
  intros N q I. destruct t eqn:E; [apply (small_type VHalf); discriminate|apply (small_type VFloat); discriminate|].
  change 1019%Z with (Z.of_nat 1019). rewrite <- pow_bpow. apply N; auto.
Qed.

(** * Voxel centres *)
Lemma vtype_eq t : {t = VDouble} + {t <> VDouble}.
Proof. destruct t; auto; right; discriminate. Qed.
Lemma fmt_rd t (v : val t) : rd (B2R v) = B2R v.
Proof.
  apply round_generic; [typeclasses eauto|]. apply (incl (prec t) 53 (3 - emax t - prec t)); [destruct t; cbn; lia|destruct t; cbn; lia|]. apply generic_format_B2R.
Qed.
Lemma nround_fmt t (v : val t) : nround t (B2R v) = B2R v.
Proof.
  destruct t; cbn [nround]; auto.
  - assert (A : rd32 (B2R v) = B2R v) by (apply round_generic; [typeclasses eauto|]; apply (vfmt_32 VHalf); [discriminate|apply (fmt_val VHalf)]).
    rewrite A. apply round_generic; [typeclasses eauto|]. apply (fmt_val VHalf).
  - apply round_generic; [typeclasses eauto|]. apply (fmt_val VFloat).
Qed.
Lemma sample_centre t (value : v3 -> val t) dw x y z q r : in_box q dw -> all_finite dw value -> no_overflow dw value ->
  at_ x y z = centre q -> f_sample t value dw x y z = Ok r -> is_finite r = true /\ B2R r = B2R (value q).
Proof.
  intros I AF NO E H. assert (NE : box_nonempty dw) by (unfold in_box, box_nonempty in *; lia).
  unfold f_sample in H. unfold at_, centre in E. injection E as EX EY EZ.
  destruct (f_corner x) as [[[[x1 x2] ax] bx]| |] eqn:CX; cbn [bind] in H; try discriminate.
  destruct (f_corner y) as [[[[y1 y2] ay] by_]| |] eqn:CY; cbn [bind] in H; try discriminate.
  destruct (f_corner z) as [[[[z1 z2] az] bz]| |] eqn:CZ; cbn [bind] in H; try discriminate.
  destruct (corner_centre x x1 x2 ax bx (vx q)) as (-> & AX & BX); auto; [lra|].
  destruct (corner_centre y y1 y2 ay by_ (vy q)) as (-> & AY & BY); auto; [lra|].
  destruct (corner_centre z z1 z2 az bz (vz q)) as (-> & AZ & BZ); auto; [lra|].
  cbv zeta in H.
  assert (St : exists q2 q3 q4 q5 q6 q7 q8, stencil dw x y z ax bx ay by_ az bz q q2 q3 q4 q5 q6 q7 q8).
  { pose proof (corners_stencil dw _ _ _ _ _ _ _ _ _ _ _ _ _ _ _ CX CY CZ) as S.
    assert (Nq : nearest dw (V3 (vx q) (vy q) (vz q)) = q) by (destruct q as [i j k]; apply nearest_id; auto). rewrite Nq in S. eauto 10. }
  destruct St as (q2 & q3 & q4 & q5 & q6 & q7 & q8 & St).
  assert (Hr : f_sample t value dw x y z = Ok r) by (unfold f_sample; rewrite CX, CY, CZ; cbn [bind]; exact H).
  rewrite (st_sample _ _ _ _ _ _ _ _ _ _ _ _ _ _ _ _ _ _ St) in Hr. injection Hr as <-.
  destruct (st_tri t value dw x y z _ _ _ _ _ _ _ _ _ _ _ _ _ _ St NE AF (overflow_mid t value dw NO)) as (F & V).
  assert (TV : TR t value ax bx ay by_ az bz q q2 q3 q4 q5 q6 q7 q8 = B2R (value q)).
  { unfold TR, tri. rewrite AX, BX, AY, BY, AZ, BZ. pose proof (fmt_rd t (value q)) as R. rewrite !mixr_one; auto; rewrite ?mixr_one; auto; rewrite ?mixr_one; auto. }
  destruct (vtype_eq t) as [->|N].
  - cbn [narrow]. split; auto. rewrite <- TV. exact V.
  - destruct (st_narrow t value dw x y z _ _ _ _ _ _ _ _ _ _ _ _ _ _ St NE AF N) as (P & Q). split; auto. rewrite Q, TV. apply nround_fmt.
Qed.

(** * Against the exact sample *)
Lemma level a b a0 b0 v w v0 w0 B d d' : weights a b -> Rabs (B2R a - a0) <= 2 * u -> Rabs (B2R b - b0) <= 4 * u ->
  Rabs (v - v0) <= d -> Rabs (w - w0) <= d -> Rabs v0 <= B -> Rabs w0 <= B -> d + 10 * u * B + 5 * u * d + 4 * eta <= d' ->
  Rabs (mixr (B2R a) (B2R b) v w - (a0 * v0 + b0 * w0)) <= d'.
Proof. intros W EA EB V Ww V0 W0 D. destruct (wr a b W) as (A & Bb & S). eapply Rle_trans; [|exact D]. apply mixr_err; auto. Qed.
Lemma exact_le a0 v0 w0 B : 0 <= a0 <= 1 -> Rabs v0 <= B -> Rabs w0 <= B -> Rabs (a0 * v0 + (1 - a0) * w0) <= B.
Proof.
  intros A V W. apply Rabs_le_inv in V, W. apply Rabs_le. split; nra.
Qed.
Lemma levels B : 0 <= B -> exists d1 d2 d3, 0 + 10 * u * B + 5 * u * 0 + 4 * eta <= d1 /\ d1 + 10 * u * B + 5 * u * d1 + 4 * eta <= d2 /\
  d2 + 10 * u * B + 5 * u * d2 + 4 * eta <= d3 /\ d3 <= 31 * u * B + 15 * eta.
Proof.
  intros B0. pose proof u_small as U. pose proof eta_pos as E. assert (uB : 0 <= u * B) by (apply Rmult_le_pos; lra).
  assert (uuB : u * (u * B) <= / 1000000 * (u * B)) by (apply Rmult_le_compat_r; lra). assert (ue : u * eta <= / 1000000 * eta) by (apply Rmult_le_compat_r; lra).
  exists (10 * u * B + 4 * eta), (201 / 10 * u * B + 81 / 10 * eta), (31 * u * B + 15 * eta). repeat split; lra.
Qed.
Definition slack (x : f64) : R := u * Rabs (B2R x - / 2) + eta.
Lemma sample_exact t (value : v3 -> val t) dw x y z r B : box_nonempty dw -> all_finite dw value -> no_overflow dw value ->
  (forall q, in_box q dw -> Rabs (B2R (value q)) <= B) -> f_sample t value dw x y z = Ok r ->
  exists p T, Rabs (rx p - B2R x) <= slack x /\ Rabs (ry p - B2R y) <= slack y /\ Rabs (rz p - B2R z) <= slack z /\
    Rabs (T - mix3 dw (fun q => B2R (value q)) p) <= 31 * u * B + 15 * eta /\ Rabs T <= B + spread B /\ is_finite r = true /\ B2R r = nround t T.
Proof.
  intros NE AF NO BB H. destruct (sample_stencil t value dw x y z r H) as (ax' & bx' & ay' & by' & az' & bz' & q1 & q2 & q3 & q4 & q5 & q6 & q7 & q8 & St).
  pose proof H as H0. unfold f_sample in H0.
  destruct (f_corner x) as [[[[x1 x2] ax] bx]| |] eqn:CX; cbn [bind] in H0; try discriminate.
  destruct (f_corner y) as [[[[y1 y2] ay] by_]| |] eqn:CY; cbn [bind] in H0; try discriminate.
  destruct (f_corner z) as [[[[z1 z2] az] bz]| |] eqn:CZ; cbn [bind] in H0; try discriminate. clear H0 St ax' bx' ay' by' az' bz' q1 q2 q3 q4 q5 q6 q7 q8.
  assert (St : stencil dw x y z ax bx ay by_ az bz
    (nearest dw (V3 x1 y1 z1)) (nearest dw (V3 x1 y1 z2)) (nearest dw (V3 x1 y2 z1)) (nearest dw (V3 x1 y2 z2))
    (nearest dw (V3 x2 y1 z1)) (nearest dw (V3 x2 y1 z2)) (nearest dw (V3 x2 y2 z1)) (nearest dw (V3 x2 y2 z2))) by (apply corners_stencil; auto).
  rewrite (st_sample _ _ _ _ _ _ _ _ _ _ _ _ _ _ _ _ _ _ St) in H. injection H as <-.
  pose proof (st_x _ _ _ _ _ _ _ _ _ _ _ _ _ _ _ _ _ _ St) as WX. pose proof (st_y _ _ _ _ _ _ _ _ _ _ _ _ _ _ _ _ _ _ St) as WY. pose proof (st_z _ _ _ _ _ _ _ _ _ _ _ _ _ _ _ _ _ _ St) as WZ.
  destruct (corner_err _ _ _ _ _ CX) as (px & PX & SX & EAX & EBX). destruct (corner_err _ _ _ _ _ CY) as (py & PY & SY & EAY & EBY). destruct (corner_err _ _ _ _ _ CZ) as (pz & PZ & SZ & EAZ & EBZ).
  destruct (corner_ok _ _ _ _ _ CX) as (_ & _ & X2 & _). destruct (corner_ok _ _ _ _ _ CY) as (_ & _ & Y2 & _). destruct (corner_ok _ _ _ _ _ CZ) as (_ & _ & Z2 & _). subst x2 y2 z2.
  set (m := fun q => B2R (value q)).
  assert (M : forall i j k, Rabs (field3 dw m i j k) <= B).
  { intros i j k. unfold field3, m. apply BB. destruct NE as (N1 & N2 & N3). repeat split; cbn [nearest vx vy vz]; lia. }
  exists (R3 (px + / 2) (py + / 2) (pz + / 2)).
  exists (TR t value ax bx ay by_ az bz
    (nearest dw (V3 x1 y1 z1)) (nearest dw (V3 x1 y1 (z1 + 1))) (nearest dw (V3 x1 (y1 + 1) z1)) (nearest dw (V3 x1 (y1 + 1) (z1 + 1)))
    (nearest dw (V3 (x1 + 1) y1 z1)) (nearest dw (V3 (x1 + 1) y1 (z1 + 1))) (nearest dw (V3 (x1 + 1) (y1 + 1) z1)) (nearest dw (V3 (x1 + 1) (y1 + 1) (z1 + 1)))).
  cbn [rx ry rz]. unfold slack.
  split; [replace (px + / 2 - B2R x) with (px - (B2R x - / 2)) by ring; auto|]. split; [replace (py + / 2 - B2R y) with (py - (B2R y - / 2)) by ring; auto|].
  split; [replace (pz + / 2 - B2R z) with (pz - (B2R z - / 2)) by ring; auto|].
  assert (B0 : 0 <= B) by (eapply Rle_trans; [apply Rabs_pos|apply (M 0 0 0)%Z]).
  assert (N : forall q, around dw (at_ x y z) q -> - B <= B2R (value q) <= B).
  { intros q (n & -> & _). apply Rabs_le_inv, BB. destruct NE as (N1 & N2 & N3). repeat split; cbn [nearest vx vy vz]; lia. }
  split; [|split].
  - destruct (levels B B0) as (d1 & d2 & d3 & D1 & D2 & D3 & D4). eapply Rle_trans; [|exact D4].
    unfold mix3. cbn [rx ry rz]. replace (px + / 2 - 1 / 2) with px by lra. replace (py + / 2 - 1 / 2) with py by lra. replace (pz + / 2 - 1 / 2) with pz by lra.
    assert (LZ : forall i j, Rabs (mixr (B2R az) (B2R bz) (field3 dw m i j z1) (field3 dw m i j (z1 + 1)) - mix1 (fun k => field3 dw m i j k) pz) <= d1 /\
                             Rabs (mix1 (fun k => field3 dw m i j k) pz) <= B).
    { intros i j. rewrite (mix1_on _ pz z1) by lra. split.
      - apply (level az bz _ _ _ _ _ _ B 0); auto; rewrite Rminus_diag_eq, Rabs_R0 by auto; lra.
      - replace (pz - IZR z1) with (1 - (IZR z1 + 1 - pz)) by ring. apply exact_le; auto; lra. }
    assert (LY : forall i, Rabs (mixr (B2R ay) (B2R by_) (mixr (B2R az) (B2R bz) (field3 dw m i y1 z1) (field3 dw m i y1 (z1 + 1)))
                                     (mixr (B2R az) (B2R bz) (field3 dw m i (y1 + 1) z1) (field3 dw m i (y1 + 1) (z1 + 1)))
                              - mix1 (fun j => mix1 (fun k => field3 dw m i j k) pz) py) <= d2 /\
                           Rabs (mix1 (fun j => mix1 (fun k => field3 dw m i j k) pz) py) <= B).
    { intros i. rewrite (mix1_on _ py y1) by lra. split.
      - apply (level ay by_ _ _ _ _ _ _ B d1); auto; apply LZ.
      - replace (py - IZR y1) with (1 - (IZR y1 + 1 - py)) by ring. apply exact_le; try apply LZ; lra. }
    rewrite (mix1_on _ px x1) by lra. unfold TR, tri.
    apply (level ax bx _ _ _ _ _ _ B d2); auto; apply LY.
  - apply Rabs_le. split.
    + replace (- (B + spread B)) with (- B - spread (- B)) by (unfold spread; rewrite Rabs_Ropp; ring). eapply st_lower; eauto. intros q Q. apply N; auto.
    + eapply st_upper; eauto. intros q Q. apply N; auto.
  - destruct (st_tri t value dw x y z _ _ _ _ _ _ _ _ _ _ _ _ _ _ St NE AF (overflow_mid t value dw NO)) as (F & V).
    destruct (vtype_eq t) as [->|Nd]; [split; auto|].
    apply (st_narrow t value dw x y z _ _ _ _ _ _ _ _ _ _ _ _ _ _ St NE AF Nd).
Qed.
Lemma err32 x : Rabs (rd32 x - x) <= / 2 ^ 24 * Rabs x + / 2 ^ 150.
Proof.
  destruct (error_N_FLT radix2 (-149) 24 eq_refl (fun x => negb (Z.even x)) x) as (e & h & A & B & _ & E).
  rewrite E. replace (x * (1 + e) + h - x) with (e * x + h) by ring.
  eapply Rle_trans; [apply Rabs_triang|]. rewrite Rabs_mult. apply Rplus_le_compat.
  - apply Rmult_le_compat_r; [apply Rabs_pos|]. eapply Rle_trans; [exact A|]. rewrite inv_pow_bpow. replace (bpow radix2 (- Z.of_nat 24)) with (bpow radix2 (-1) * bpow radix2 (- (24) + 1)) by (rewrite <- bpow_plus; reflexivity). apply Req_le. reflexivity.
  - eapply Rle_trans; [exact B|]. rewrite inv_pow_bpow. replace (bpow radix2 (- Z.of_nat 150)) with (bpow radix2 (-1) * bpow radix2 (-149)) by (rewrite <- bpow_plus; reflexivity). apply Req_le. reflexivity.
Qed.
Lemma err16 x : Rabs (rd16 x - x) <= / 2 ^ 11 * Rabs x + / 2 ^ 25.
Proof.
  destruct (error_N_FLT radix2 (-24) 11 eq_refl (fun x => negb (Z.even x)) x) as (e & h & A & B & _ & E).
  rewrite E. replace (x * (1 + e) + h - x) with (e * x + h) by ring.
  eapply Rle_trans; [apply Rabs_triang|]. rewrite Rabs_mult. apply Rplus_le_compat.
  - apply Rmult_le_compat_r; [apply Rabs_pos|]. eapply Rle_trans; [exact A|]. rewrite inv_pow_bpow. replace (bpow radix2 (- Z.of_nat 11)) with (bpow radix2 (-1) * bpow radix2 (- (11) + 1)) by (rewrite <- bpow_plus; reflexivity). apply Req_le. reflexivity.
  - eapply Rle_trans; [exact B|]. rewrite inv_pow_bpow. replace (bpow radix2 (- Z.of_nat 25)) with (bpow radix2 (-1) * bpow radix2 (-24)) by (rewrite <- bpow_plus; reflexivity). apply Req_le. reflexivity.
Qed.
Lemma nround_err t T B : 0 <= B -> Rabs T <= B + spread B -> Rabs (nround t T - T) + (31 * u * B + 15 * eta) <= rounding t B.
Proof.
  intros B0 H. pose proof u_small as U. pose proof eta_pos as E.
  assert (Eu : u = / 2 ^ 53) by (rewrite u_val, inv_pow_bpow; reflexivity). assert (Ee : eta = / 2 ^ 1075) by (unfold eta; rewrite inv_pow_bpow; reflexivity).
  assert (He : 32 * eta <= / 2 ^ 1070).
  { rewrite Ee, !inv_pow_bpow. apply Req_le. change 32 with (bpow radix2 5). rewrite <- bpow_plus. f_equal. }
  assert (Sb : Rabs T <= B + 16 * u * B + 16 * eta) by (unfold spread in H; rewrite (Rabs_pos_eq B) in H by auto; lra).
  assert (Small : forall n, (n <= 150)%nat -> eta <= / 1000 * / 2 ^ n).
  { intros n Hn. rewrite !inv_pow_bpow. unfold eta. apply Rle_trans with (bpow radix2 (-10) * bpow radix2 (- Z.of_nat n)).
    - rewrite <- bpow_plus. apply bpow_le. lia.
    - apply Rmult_le_compat_r; [apply bpow_ge_0|]. cbn. lra. }
  destruct t; cbn [nround rounding].
  - pose proof (err32 T) as E1. pose proof (err16 (rd32 T)) as E2.
    assert (S1 : Rabs (rd32 T) <= Rabs T + (/ 2 ^ 24 * Rabs T + / 2 ^ 150)).
    { replace (rd32 T) with (T + (rd32 T - T)) by ring. eapply Rle_trans; [apply Rabs_triang|]. lra. }
    replace (rd16 (rd32 T) - T) with ((rd16 (rd32 T) - rd32 T) + (rd32 T - T)) by ring.
    pose proof (Small 24%nat ltac:(lia)) as S2.
    assert (S3 : / 2 ^ 150 <= / 1000 * / 2 ^ 24).
    { rewrite !inv_pow_bpow. apply Rle_trans with (bpow radix2 (-10) * bpow radix2 (- Z.of_nat 24)); [rewrite <- bpow_plus; apply bpow_le; lia|]. apply Rmult_le_compat_r; [apply bpow_ge_0|]. cbn. lra. }
    apply Rle_trans with ((/ 2 ^ 11 * Rabs (rd32 T) + / 2 ^ 25) + (/ 2 ^ 24 * Rabs T + / 2 ^ 150) + (31 * u * B + 15 * eta)).
    { apply Rplus_le_compat_r. eapply Rle_trans; [apply Rabs_triang|]. lra. }
    clear Small Ee He H. rewrite Eu in *. clear Eu. set (tiny := / 2 ^ 150) in *. clearbody tiny.
    assert (0 <= Rabs T) by apply Rabs_pos. simpl pow in *. lra.
  - pose proof (err32 T) as E1. pose proof (Small 149%nat ltac:(lia)) as S2.
    assert (S3 : / 2 ^ 150 = / 2 * / 2 ^ 149) by (rewrite <- (tech_pow_Rmult 2 149), Rinv_mult; auto).
    rewrite S3 in E1. clear Small Ee He H S3. rewrite Eu in *. clear Eu. set (tiny := / 2 ^ 149) in *. clearbody tiny. simpl pow in *. lra.
  - replace (T - T) with 0 by ring. rewrite Rabs_R0. rewrite Eu. set (tiny := / 2 ^ 1070) in *. clearbody tiny. simpl pow. lra.
Qed.
