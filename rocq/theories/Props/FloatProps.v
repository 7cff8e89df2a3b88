(** C70: linear interpolation as it is computed, with rounding. *)
From Coq Require Import ZArith Reals List Bool Lia Lra.
From Flocq Require Import Core BinarySingleNaN.
From Verif Require Import Model.Base Model.VecM Model.RealM Model.InterpM Model.FloatM Spec.VoxelSpec Spec.InterpSpec Spec.FloatSpec.
From Verif Require Import Proof.BaseP Proof.InterpP Proof.FloatP Proof.FloatP2 Proof.FloatP3.
Open Scope R_scope.

(** Sampling is defined at every position that has an index in [int], whatever the voxels are. *)
Theorem C70_defined : forall t (value : v3 -> val t) dw x y z, in_int_range x -> in_int_range y -> in_int_range z ->
  exists r, f_sample t value dw x y z = Ok r.
Proof.
  intros t value dw x y z (FX & X) (FY & Y) (FZ & Z).
  assert (E : 2 ^ 31 = IZR (2 ^ 31)) by (rewrite pow_IZR; reflexivity). rewrite E in X, Y, Z.
  destruct (corner_defined x FX) as ([[[x1 x2] ax] bx] & CX); [lra|]. destruct (corner_defined y FY) as ([[[y1 y2] ay] by_] & CY); [lra|].
  destruct (corner_defined z FZ) as ([[[z1 z2] az] bz] & CZ); [lra|].
  unfold f_sample. rewrite CX, CY, CZ. cbn [bind]. eauto.
Qed.
Print Assumptions C70_defined.

(** In a field of [half] or [float] no rounding ever takes a sample outside the range of the voxels around the position,
    so it never overflows; the voxels have only to be finite. *)
Theorem C70_bounded : forall t (value : v3 -> val t) dw x y z r, t <> VDouble -> box_nonempty dw -> all_finite dw value ->
  f_sample t value dw x y z = Ok r ->
  is_finite r = true /\ forall lo hi : R, (forall q, around dw (at_ x y z) q -> lo <= B2R (value q) <= hi) -> lo <= B2R r <= hi.
Proof.
  intros t value dw x y z r N NE AF H.
  destruct (sample_stencil t value dw x y z r H) as (ax & bx & ay & by_ & az & bz & q1 & q2 & q3 & q4 & q5 & q6 & q7 & q8 & St).
  rewrite (st_sample _ _ _ _ _ _ _ _ _ _ _ _ _ _ _ _ _ _ St) in H. injection H as <-.
  destruct (st_narrow t value dw x y z _ _ _ _ _ _ _ _ _ _ _ _ _ _ St NE AF N) as (P & Q). split; auto. intros lo hi B. rewrite Q.
  assert (V : Valid_exp (SpecFloat.fexp (prec t) (emax t))) by (apply FLT_exp_valid; destruct t; reflexivity).
  split.
  - set (k := round radix2 (SpecFloat.fexp (prec t) (emax t)) Zceil lo).
    apply Rle_trans with k; [apply round_UP_pt; auto|]. apply nround_ge; auto; [apply generic_format_round; auto; typeclasses eauto|].
    eapply st_lower; eauto. intros q A. apply round_UP_pt; auto; [apply fmt_val|apply B; auto].
  - set (k := round radix2 (SpecFloat.fexp (prec t) (emax t)) Zfloor hi).
    apply Rle_trans with k; [|apply round_DN_pt; auto]. apply nround_le; auto; [apply generic_format_round; auto; typeclasses eauto|].
    eapply st_upper; eauto. intros q A. apply round_DN_pt; auto; [apply fmt_val|apply B; auto].
Qed.
Print Assumptions C70_bounded.

(** So equal voxels give back their value. *)
Theorem C70_constant : forall t (value : v3 -> val t) dw x y z r c, t <> VDouble -> box_nonempty dw -> all_finite dw value ->
  (forall q, around dw (at_ x y z) q -> B2R (value q) = c) -> f_sample t value dw x y z = Ok r -> B2R r = c.
Proof.
  intros t value dw x y z r c N NE AF C H. destruct (C70_bounded t value dw x y z r N NE AF H) as (_ & B).
  destruct (B c c); [intros q A; rewrite C; auto; lra|lra].
Qed.
Print Assumptions C70_constant.

(** In a field of [double] a sample may leave the range, by a few units in the last place; but voxels that are not
    negative do not give a negative sample. *)
Theorem C70_double : forall (value : v3 -> val VDouble) dw x y z r, box_nonempty dw -> all_finite dw value -> no_overflow dw value ->
  f_sample VDouble value dw x y z = Ok r ->
  is_finite r = true /\
  (forall lo hi : R, (forall q, around dw (at_ x y z) q -> lo <= B2R (value q) <= hi) -> lo - few_ulps lo <= B2R r <= hi + few_ulps hi) /\
  ((forall q, around dw (at_ x y z) q -> 0 <= B2R (value q)) -> 0 <= B2R r).
Proof.
  intros value dw x y z r NE AF NO H.
  destruct (sample_stencil VDouble value dw x y z r H) as (ax & bx & ay & by_ & az & bz & q1 & q2 & q3 & q4 & q5 & q6 & q7 & q8 & St).
  rewrite (st_sample _ _ _ _ _ _ _ _ _ _ _ _ _ _ _ _ _ _ St) in H. injection H as <-.
  destruct (st_tri VDouble value dw x y z _ _ _ _ _ _ _ _ _ _ _ _ _ _ St NE AF (overflow_mid VDouble value dw NO)) as (P & Q). split; [exact P|].
  cbn [narrow]. change (prec VDouble) with 53%Z. change (emax VDouble) with 1024%Z.
  split.
  - intros lo hi B. rewrite <- !spread_ulps. split; (eapply Rle_trans; [|apply Req_le; symmetry; exact Q]) || (eapply Rle_trans; [apply Req_le; exact Q|]).
    + eapply st_lower; eauto. intros q A. apply B. auto.
    + eapply st_upper; eauto. intros q A. apply B. auto.
  - intros B. eapply Rle_trans; [|apply Req_le; symmetry; exact Q]. eapply st_pos; eauto.
Qed.
Print Assumptions C70_double.

(** At the centre of a voxel: its value, to the last bit. *)
Theorem C70_centre : forall t (value : v3 -> val t) dw x y z q r, in_box q dw -> all_finite dw value -> no_overflow dw value ->
  at_ x y z = centre q -> f_sample t value dw x y z = Ok r -> is_finite r = true /\ B2R r = B2R (value q).
Proof. apply sample_centre. Qed.
Print Assumptions C70_centre.

(** Raising voxels never lowers a sample. *)
Theorem C70_monotone : forall t (v w : v3 -> val t) dw x y z r s, box_nonempty dw -> all_finite dw v -> no_overflow dw v ->
  all_finite dw w -> no_overflow dw w -> (forall q, around dw (at_ x y z) q -> B2R (v q) <= B2R (w q)) ->
  f_sample t v dw x y z = Ok r -> f_sample t w dw x y z = Ok s -> B2R r <= B2R s.
Proof.
  intros t v w dw x y z r s NE AV OV AW OW L HV HW.
  destruct (sample_stencil t v dw x y z r HV) as (ax & bx & ay & by_ & az & bz & q1 & q2 & q3 & q4 & q5 & q6 & q7 & q8 & St).
  rewrite (st_sample _ _ _ _ _ _ _ _ _ _ _ _ _ _ _ _ _ _ St) in HV, HW. injection HV as <-. injection HW as <-.
  pose proof (st_mono t v w dw x y z _ _ _ _ _ _ _ _ _ _ _ _ _ _ St L) as M.
  destruct (vtype_eq t) as [->|N].
  - destruct (st_tri VDouble v dw x y z _ _ _ _ _ _ _ _ _ _ _ _ _ _ St NE AV (overflow_mid VDouble v dw OV)) as (_ & Q1).
    destruct (st_tri VDouble w dw x y z _ _ _ _ _ _ _ _ _ _ _ _ _ _ St NE AW (overflow_mid VDouble w dw OW)) as (_ & Q2).
    rewrite <- Q1, <- Q2 in M. exact M.
  - destruct (st_narrow t v dw x y z _ _ _ _ _ _ _ _ _ _ _ _ _ _ St NE AV N) as (_ & Q1).
    destruct (st_narrow t w dw x y z _ _ _ _ _ _ _ _ _ _ _ _ _ _ St NE AW N) as (_ & Q2).
    rewrite Q1, Q2. apply nround_mono. exact M.
Qed.
Print Assumptions C70_monotone.

(** How far a computed sample is from the exact one (C27): rounding of the size of the type, and the change of the field
    over the rounding error of the position. *)
Theorem C70_error : forall t (value : v3 -> val t) dw x y z r v B L, box_nonempty dw -> all_finite dw value -> no_overflow dw value ->
  (forall q, in_box q dw -> Rabs (B2R (value q)) <= B) -> 0 <= L ->
  (forall q q', in_box q dw -> in_box q' dw -> adjacent q q' -> Rabs (B2R (value q) - B2R (value q')) <= L) ->
  pos_ok (at_ x y z) -> f_sample t value dw x y z = Ok r ->
  linear_sample dw (fun q => Ok (B2R (value q))) (at_ x y z) = Ok v ->
  is_finite r = true /\ Rabs (B2R r - v) <= rounding t B + L * (Rabs (B2R x) + Rabs (B2R y) + Rabs (B2R z) + 3) / 2 ^ 53.
Proof.
  intros t value dw x y z r v B L NE AF NO BB L0 LL PO H E.
  destruct (sample_exact t value dw x y z r B NE AF NO BB H) as (p & T & PX & PY & PZ & D & TB & F & V). split; auto.
  rewrite (linear_eq dw _ (fun q => B2R (value q))) in E; auto; [|intros q _; reflexivity]. injection E as <-.
  pose proof (mix3_lip dw (fun q => B2R (value q)) L p (at_ x y z) NE L0 LL) as Lp. cbn [at_ rx ry rz] in Lp.
  assert (B0 : 0 <= B).
  { destruct NE as (N1 & N2 & N3). eapply Rle_trans; [apply Rabs_pos|apply (BB (bmin dw))]. repeat split; lia. }
  pose proof (nround_err t T B B0 TB) as Er. rewrite <- V in Er.
  set (m := mix3 dw (fun q => B2R (value q))) in *.
  replace (B2R r - m (at_ x y z)) with ((B2R r - T) + ((T - m p) + (m p - m (at_ x y z)))) by ring.
  eapply Rle_trans; [apply Rabs_triang|]. eapply Rle_trans; [apply Rplus_le_compat_l, Rabs_triang|].
  assert (SL : forall a, slack a <= (Rabs (B2R a) + 1) / 2 ^ 53).
  { intros a. unfold slack. pose proof eta_u as Eu. assert (Ev : u = / 2 ^ 53) by (rewrite u_val, inv_pow_bpow; reflexivity).
    assert (Rabs (B2R a - / 2) <= Rabs (B2R a) + / 2) by (unfold Rminus; eapply Rle_trans; [apply Rabs_triang|]; rewrite Rabs_Ropp, (Rabs_pos_eq (/ 2)) by lra; lra).
    assert (U := u_small). assert (eta <= u / 2).
    { rewrite u_val. unfold eta. replace (bpow radix2 (-53)) with (2 * bpow radix2 (-54)) by (change 2 with (bpow radix2 1); rewrite <- bpow_plus; reflexivity).
      assert (bpow radix2 (-1075) <= bpow radix2 (-54)) by (apply bpow_le; lia). lra. }
    unfold Rdiv. rewrite <- Ev. nra. }
  pose proof (SL x). pose proof (SL y). pose proof (SL z).
  assert (L * (Rabs (rx p - B2R x) + Rabs (ry p - B2R y) + Rabs (rz p - B2R z)) <= L * ((Rabs (B2R x) + Rabs (B2R y) + Rabs (B2R z) + 3) / 2 ^ 53)).
  { apply Rmult_le_compat_l; auto. unfold Rdiv in *. lra. }
  unfold Rdiv in *. lra.
Qed.
Print Assumptions C70_error.

(** ** What does not hold *)
Definition cell1 : box := Box (V3 0 0 0) (V3 1 0 0).
Definition c3 : f64 := of_int 3.
Definition at_02 : f64 := binary_normalize 53 1024 gt_53 lt_1024 mode_NE 3602879701896397 (-54) false.
Definition at_03 : f64 := binary_normalize 53 1024 gt_53 lt_1024 mode_NE 5404319552844595 (-54) false.
Definition sf {p e} (r : res (binary_float p e)) : SpecFloat.spec_float := match r with Ok x => B2SF x | _ => SpecFloat.S754_nan end.

(** A field of [double] that is 3 everywhere is sampled as 2.9999999999999996 at 0.2 and as 3.0000000000000004 at 0.3. *)
Theorem C70_double_constant_refuted : exists (value : v3 -> val VDouble) dw x x' y z r r', box_nonempty dw /\ all_finite dw value /\ no_overflow dw value /\
  (forall q, B2R (value q) = 3) /\ f_sample VDouble value dw x y z = Ok r /\ f_sample VDouble value dw x' y z = Ok r' /\ B2R r < 3 < B2R r'.
Proof.
  exists (fun _ => c3), cell1, at_02, at_03, f_half, f_half. destruct (of_int_ok 3) as (F3 & V3'); [discriminate|].
  assert (A : exists r, f_sample VDouble (fun _ => c3) cell1 at_02 f_half f_half = Ok r /\ B2SF r = SpecFloat.S754_finite false 6755399441055743 (-51)).
  { destruct (f_sample VDouble (fun _ => c3) cell1 at_02 f_half f_half) as [r| |] eqn:E;
      [exists r; split; auto|exfalso..]; assert (Q : sf (f_sample VDouble (fun _ => c3) cell1 at_02 f_half f_half) = SpecFloat.S754_finite false 6755399441055743 (-51)) by (vm_compute; reflexivity); rewrite E in Q; auto; discriminate. }
  assert (A' : exists r, f_sample VDouble (fun _ => c3) cell1 at_03 f_half f_half = Ok r /\ B2SF r = SpecFloat.S754_finite false 6755399441055745 (-51)).
  { destruct (f_sample VDouble (fun _ => c3) cell1 at_03 f_half f_half) as [r| |] eqn:E;
      [exists r; split; auto|exfalso..]; assert (Q : sf (f_sample VDouble (fun _ => c3) cell1 at_03 f_half f_half) = SpecFloat.S754_finite false 6755399441055745 (-51)) by (vm_compute; reflexivity); rewrite E in Q; auto; discriminate. }
  destruct A as (r & R & S). destruct A' as (r' & R' & S'). exists r, r'.
  split; [unfold box_nonempty; cbn; lia|]. split; [intros q _; exact F3|].
  split; [intros _ q _; change (B2R (c3 : val VDouble)) with (B2R c3); unfold c3; rewrite V3', Rabs_pos_eq by lra; apply Rle_trans with (2 ^ 2); [simpl; lra|]; apply Rle_pow; [lra|lia]|].
  split; [intros q; exact V3'|]. split; [exact R|]. split; [exact R'|].
  rewrite <- !SF2R_B2SF. change (B2SF r) with (B2SF (r : f64)) in S. unfold val in *. cbn [prec emax] in *.
  change (B2SF (r : f64) = SpecFloat.S754_finite false 6755399441055743 (-51)) in S. rewrite S, S'. unfold SF2R, F2R. cbn. lra.
Qed.
Print Assumptions C70_double_constant_refuted.

(** One infinite voxel makes its finite neighbours' centres not a number: it is multiplied by a weight of nought. *)
Theorem C70_infinite_neighbour_refuted : forall t, exists (value : v3 -> val t) dw x y z q r, in_box q dw /\ is_finite (value q) = true /\
  at_ x y z = centre q /\ f_sample t value dw x y z = Ok r /\ is_nan r = true.
Proof.
  intros t. exists (fun q => if (vx q =? 0)%Z then B754_zero false else B754_infinity false), cell1, f_half, f_half, f_half, (V3 0 0 0), B754_nan.
  split; [unfold in_box; cbn; lia|]. split; [reflexivity|]. split; [unfold at_, centre; destruct half_ok as (_ & E); rewrite E; cbn [vx vy vz]; f_equal; lra|].
  split; [destruct t; reflexivity|reflexivity].
Qed.
Print Assumptions C70_infinite_neighbour_refuted.

(** A position that is not a number, or too far away, is undefined behaviour. *)
Theorem C70_undefined_refuted : forall t (value : v3 -> val t) dw y z,
  f_sample t value dw B754_nan y z = UB /\ f_sample t value dw (B754_infinity false) y z = UB /\ f_sample t value dw (of_int (2 ^ 31)) y z = UB.
Proof. intros. repeat split; reflexivity. Qed.
Print Assumptions C70_undefined_refuted.

(** ** Instances *)
(** The same two samples in a field of [float] are 3; between 1 and 2 a quarter of the way is 1.25. *)
Definition c3f : f32 := binary_normalize 24 128 gt_24 lt_128 mode_NE 3 0 false.
Definition ramp_f (q : v3) : f32 := binary_normalize 24 128 gt_24 lt_128 mode_NE (vx q + 1) 0 false.
Definition at_34 : f64 := binary_normalize 53 1024 gt_53 lt_1024 mode_NE 3 (-2) false.
Example C70_ex : sf (f_sample VFloat (fun _ => c3f) cell1 at_02 f_half f_half) = B2SF c3f /\ sf (f_sample VFloat (fun _ => c3f) cell1 at_03 f_half f_half) = B2SF c3f /\
  sf (f_sample VFloat ramp_f cell1 at_34 f_half f_half) = SpecFloat.S754_finite false 10485760 (-23).
Proof. repeat split; vm_compute; reflexivity. Qed.
Example C70_ex_hyps : VFloat <> VDouble /\ box_nonempty cell1 /\ all_finite (t := VFloat) cell1 ramp_f /\ no_overflow (t := VFloat) cell1 ramp_f /\ in_int_range at_34 /\
  exists q q', around cell1 (at_ at_34 f_half f_half) q /\ around cell1 (at_ at_34 f_half f_half) q' /\ q <> q'.
Proof.
  split; [discriminate|]. split; [unfold box_nonempty; cbn; lia|].
  split; [intros [i j k] (I & _); cbn in I; assert (C : (i = 0 \/ i = 1)%Z) by lia; destruct C as [-> | ->]; reflexivity|]. split; [discriminate|].
  assert (E : B2R at_34 = 3 / 4) by (rewrite <- SF2R_B2SF; replace (B2SF at_34) with (SpecFloat.S754_finite false 6755399441055744 (-53)) by (vm_compute; reflexivity); unfold SF2R, F2R; cbn; lra).
  split; [split; [reflexivity|rewrite E; simpl; lra]|].
  destruct half_ok as (_ & H). exists (V3 0 0 0), (V3 1 0 0). split; [|split; [|discriminate]].
  - exists (V3 0 0 0). split; [reflexivity|]. unfold centre, at_. cbn [rx ry rz vx vy vz]. rewrite E, H. repeat split; apply Rabs_def1; lra.
  - exists (V3 1 0 0). split; [reflexivity|]. unfold centre, at_. cbn [rx ry rz vx vy vz]. rewrite E, H. repeat split; apply Rabs_def1; lra.
Qed.
