(** C87: linear interpolation in fields of vectors as it is computed, with rounding. *)
From Coq Require Import ZArith Reals List Bool Lia Lra.
From Flocq Require Import Core BinarySingleNaN.
From Verif Require Import Model.Base Model.VecM Model.RealM Model.InterpM Model.FloatM Model.FloatMipM Model.FloatCubicM Model.FloatVecM.
From Verif Require Import Spec.VoxelSpec Spec.InterpSpec Spec.FloatSpec Spec.FloatVecSpec.
From Verif Require Import Proof.BaseP Proof.InterpP Proof.FloatP Proof.FloatP2 Proof.FloatP3 Proof.FloatMacP Proof.FloatVecP.
Open Scope R_scope.

(** Sampling is defined at every position that has an index in [int], whatever the voxels are. *)
Theorem C87_defined : forall t (value : v3 -> val t) dw x y z, in_int_range x -> in_int_range y -> in_int_range z ->
  exists r, v_sample t value dw x y z = Ok r.
Proof.
  intros t value dw x y z (FX & X) (FY & Y) (FZ & Z).
  assert (E : 2 ^ 31 = IZR (2 ^ 31)) by (rewrite pow_IZR; reflexivity). rewrite E in X, Y, Z.
  destruct (corner_defined x FX) as ([[[x1 x2] ax] bx] & CX); [lra|]. destruct (corner_defined y FY) as ([[[y1 y2] ay] by_] & CY); [lra|].
  destruct (corner_defined z FZ) as ([[[z1 z2] az] bz] & CZ); [lra|].
  unfold v_sample. rewrite CX, CY, CZ. cbn [bind]. eauto.
Qed.
Print Assumptions C87_defined.

(** A component may leave the range of the voxels around the position, but only by the rounding of a few operations, and
    never across zero. *)
Theorem C87_bounded : forall t (value : v3 -> val t) dw x y z r lo hi, box_nonempty dw -> all_finite dw value -> vec_small dw value ->
  (forall q, around dw (at_ x y z) q -> lo <= B2R (value q) <= hi) -> v_sample t value dw x y z = Ok r ->
  is_finite r = true /\ lo - vec_rounding t (Rabs lo) <= B2R r <= hi + vec_rounding t (Rabs hi) /\
  (0 <= lo -> 0 <= B2R r) /\ (hi <= 0 -> B2R r <= 0).
Proof. apply vec_range. Qed.
Print Assumptions C87_bounded.

(** At the centre of a voxel: its value, to the last bit, however large the voxels are. *)
Theorem C87_centre : forall t (value : v3 -> val t) dw x y z q r, in_box q dw -> all_finite dw value ->
  at_ x y z = centre q -> v_sample t value dw x y z = Ok r -> is_finite r = true /\ B2R r = B2R (value q).
Proof. apply vec_centre. Qed.
Print Assumptions C87_centre.

(** Raising voxels never lowers a sample. *)
Theorem C87_monotone : forall t (v w : v3 -> val t) dw x y z r s, box_nonempty dw -> all_finite dw v -> vec_small dw v ->
  all_finite dw w -> vec_small dw w -> (forall q, around dw (at_ x y z) q -> B2R (v q) <= B2R (w q)) ->
  v_sample t v dw x y z = Ok r -> v_sample t w dw x y z = Ok s -> B2R r <= B2R s.
Proof. apply vec_mono. Qed.
Print Assumptions C87_monotone.

(** How far a computed component is from the exact one (C27): the rounding of every product and every sum to the field's
    type, and the change of the field over the rounding error of the position. *)
Theorem C87_error : forall t (value : v3 -> val t) dw x y z r v B L, box_nonempty dw -> all_finite dw value -> vec_small dw value ->
  (forall q, in_box q dw -> Rabs (B2R (value q)) <= B) -> 0 <= L ->
  (forall q q', in_box q dw -> in_box q' dw -> adjacent q q' -> Rabs (B2R (value q) - B2R (value q')) <= L) ->
  pos_ok (at_ x y z) -> v_sample t value dw x y z = Ok r ->
  linear_sample dw (fun q => Ok (B2R (value q))) (at_ x y z) = Ok v ->
  is_finite r = true /\ Rabs (B2R r - v) <= vec_rounding t B + L * (Rabs (B2R x) + Rabs (B2R y) + Rabs (B2R z) + 3) / 2 ^ 53.
Proof.
  intros t value dw x y z r v B L NE AF SM BB L0 LL PO H E.
  destruct (vec_exact t value dw x y z r B NE AF SM BB H) as (p & PX & PY & PZ & D & F). split; auto.
  rewrite (linear_eq dw _ (fun q => B2R (value q))) in E; auto; [|intros q _; reflexivity]. injection E as <-.
  pose proof (mix3_lip dw (fun q => B2R (value q)) L p (at_ x y z) NE L0 LL) as Lp. cbn [at_ rx ry rz] in Lp.
  set (m := mix3 dw (fun q => B2R (value q))) in *.
  replace (B2R r - m (at_ x y z)) with ((B2R r - m p) + (m p - m (at_ x y z))) by ring. eapply Rle_trans; [apply Rabs_triang|].
  pose proof (slack_le x). pose proof (slack_le y). pose proof (slack_le z).
  assert (L * (Rabs (rx p - B2R x) + Rabs (ry p - B2R y) + Rabs (rz p - B2R z)) <= L * ((Rabs (B2R x) + Rabs (B2R y) + Rabs (B2R z) + 3) / 2 ^ 53)).
  { apply Rmult_le_compat_l; auto. unfold Rdiv in *. lra. }
  unfold Rdiv in *. lra.
Qed.
Print Assumptions C87_error.

(** Vectors of [double] are interpolated as scalars of [double] are, component by component and bit by bit, whatever the
    voxels hold: C70 says the rest. *)
Theorem C87_double : forall (value : v3 -> val VDouble) dw x y z, v_sample VDouble value dw x y z = f_sample VDouble value dw x y z.
Proof. apply vec_double. Qed.
Print Assumptions C87_double.

(** ** What does not hold *)
Definition vcell : box := Box (V3 0 0 0) (V3 1 0 0).
Definition tenth : val VFloat := vnum VFloat 13421773 (-27).
Definition at_516 : f64 := binary_normalize 53 1024 gt_53 lt_1024 mode_NE 5 (-4) false.
Definition at_310 : f64 := binary_normalize 53 1024 gt_53 lt_1024 mode_NE 5404319552844595 (-54) false.
Definition vsf {p e} (r : res (binary_float p e)) : SpecFloat.spec_float := match r with Ok x => B2SF x | _ => SpecFloat.S754_nan end.
Lemma vsf_ok {p e} (r : res (binary_float p e)) s m x : vsf r = SpecFloat.S754_finite s m x -> exists v, r = Ok v /\ B2R v = F2R (Float radix2 (cond_Zopp s (Zpos m)) x).
Proof. destruct r as [v| |]; cbn; try congruence. intros H. exists v. split; auto. rewrite <- SF2R_B2SF, H. reflexivity. Qed.

(** A field of vectors of [float], all equal to the [float] nearest 0.1, is sampled above that value at 5/16 and below it at
    0.3; a field of scalars never is ([C70_constant]). *)
Theorem C87_constant_refuted : exists (value : v3 -> val VFloat) dw x x' y z r r' c, box_nonempty dw /\ all_finite dw value /\ vec_small dw value /\
  (forall q, B2R (value q) = c) /\ v_sample VFloat value dw x y z = Ok r /\ v_sample VFloat value dw x' y z = Ok r' /\ B2R r' < c < B2R r.
Proof.
  assert (A : vsf (v_sample VFloat (fun _ => tenth) vcell at_516 f_half f_half) = SpecFloat.S754_finite false 13421774 (-27)) by (vm_compute; reflexivity).
  assert (B : vsf (v_sample VFloat (fun _ => tenth) vcell at_310 f_half f_half) = SpecFloat.S754_finite false 13421772 (-27)) by (vm_compute; reflexivity).
  assert (C : vsf (Ok tenth) = SpecFloat.S754_finite false 13421773 (-27)) by (vm_compute; reflexivity).
  destruct (vsf_ok _ _ _ _ A) as (r & R & V). destruct (vsf_ok _ _ _ _ B) as (r' & R' & V'). destruct (vsf_ok _ _ _ _ C) as (t & T & VT). injection T as <-.
  pose proof (bpow_gt_0 radix2 (-27)) as P. unfold F2R in V, V', VT. cbn [Fnum Fexp cond_Zopp] in V, V', VT.
  exists (fun _ => tenth), vcell, at_516, at_310, f_half, f_half, r, r', (B2R tenth).
  split; [unfold box_nonempty; cbn; lia|]. split; [intros q _; reflexivity|].
  split.
  - intros q _. unfold sixteenth. eapply Rle_trans; [apply Req_le, f_equal, VT|]. rewrite Rabs_pos_eq by lra.
    apply Rle_trans with 1; [change (bpow radix2 (-27)) with (/ 134217728); lra|]. apply pow_R1_Rle. lra.
  - split; [auto|]. split; [exact R|]. split; [exact R'|]. rewrite V, V'. pose proof VT as VT'. rewrite VT. lra.
Qed.
Print Assumptions C87_constant_refuted.

(** Finite voxels are not enough: a field of vectors all equal to the largest [float] is sampled as infinite at 0.6, where a
    field of scalars is not ([C70_bounded]). *)
Definition largest : val VFloat := vnum VFloat 16777215 104.
Definition at_610 : f64 := binary_normalize 53 1024 gt_53 lt_1024 mode_NE 5404319552844595 (-53) false.
Lemma vsf_inf {p e} (r : res (binary_float p e)) s : vsf r = SpecFloat.S754_infinity s -> exists v, r = Ok v /\ is_finite v = false.
Proof. destruct r as [v| |]; cbn; try congruence. intros H. exists v. split; auto. destruct v; cbn in *; congruence. Qed.
Theorem C87_overflow_refuted : exists (value : v3 -> val VFloat) dw x y z r, box_nonempty dw /\ all_finite dw value /\
  in_int_range x /\ in_int_range y /\ in_int_range z /\ v_sample VFloat value dw x y z = Ok r /\ is_finite r = false.
Proof.
  assert (A : vsf (v_sample VFloat (fun _ => largest) vcell at_610 f_half f_half) = SpecFloat.S754_infinity false) by (vm_compute; reflexivity).
  destruct half_ok as (HF & H).
  assert (E : B2R at_610 = 5404319552844595 * bpow radix2 (-53)) by (rewrite <- SF2R_B2SF; replace (B2SF at_610) with (SpecFloat.S754_finite false 5404319552844595 (-53)) by (vm_compute; reflexivity); reflexivity).
  assert (I : in_int_range f_half) by (split; [exact HF|rewrite H; simpl; lra]).
  destruct (vsf_inf _ _ A) as (r & R & N). clear A.
  assert (L : is_finite largest = true) by (vm_compute; reflexivity). assert (X : is_finite at_610 = true) by (vm_compute; reflexivity).
  exists (fun _ => largest), vcell, at_610, f_half, f_half, r.
  split; [unfold box_nonempty; cbn; lia|]. split; [intros q _; exact L|].
  split; [split; [exact X|rewrite E; change (bpow radix2 (-53)) with (/ 9007199254740992); simpl; lra]|]. split; [exact I|]. split; [exact I|]. split; [exact R|exact N].
Qed.
Print Assumptions C87_overflow_refuted.

(** ** Examples *)
Definition ramp_v (q : v3) : val VFloat := if Z.eqb (vx q) 0 then vnum VFloat 1 0 else vnum VFloat 2 0.
Definition at_75 : f64 := binary_normalize 53 1024 gt_53 lt_1024 mode_NE 3 (-2) false.
Example C87_ex : vsf (v_sample VFloat ramp_v vcell at_75 f_half f_half) = SpecFloat.S754_finite false 10485760 (-23) /\
  vsf (v_sample VFloat ramp_v vcell f_half f_half f_half) = vsf (Ok (vnum VFloat 1 0)).
Proof. split; vm_compute; reflexivity. Qed.
Example C87_ex_hyps : box_nonempty vcell /\ all_finite vcell ramp_v /\ vec_small vcell ramp_v /\ in_int_range at_75 /\ in_int_range f_half /\
  (forall q, 1 <= B2R (ramp_v q) <= 2) /\ exists q q', around vcell (at_ at_75 f_half f_half) q /\ around vcell (at_ at_75 f_half f_half) q' /\ q <> q'.
Proof.
  assert (R : forall q, is_finite (ramp_v q) = true /\ 1 <= B2R (ramp_v q) <= 2).
  { intros q. unfold ramp_v. destruct (Z.eqb (vx q) 0); (split; [reflexivity|]); cbn; unfold F2R; cbn; lra. }
  destruct half_ok as (HF & H).
  assert (E : B2R at_75 = 3 / 4) by (rewrite <- SF2R_B2SF; replace (B2SF at_75) with (SpecFloat.S754_finite false 6755399441055744 (-53)) by (vm_compute; reflexivity); unfold SF2R, F2R; cbn; lra).
  split; [unfold box_nonempty; cbn; lia|]. split; [intros q _; apply R|].
  split; [intros q _; destruct (R q) as (_ & B); rewrite Rabs_pos_eq by lra; unfold sixteenth; apply Rle_trans with (2 ^ 1); [lra|apply Rle_pow; [lra|lia]]|].
  split; [split; [reflexivity|rewrite E; simpl; lra]|]. split; [split; [exact HF|rewrite H; simpl; lra]|]. split; [apply R|].
  exists (V3 0 0 0), (V3 1 0 0). split; [|split; [|discriminate]].
  - exists (V3 0 0 0). split; [reflexivity|]. unfold centre, at_. cbn [rx ry rz vx vy vz]. rewrite E, H. repeat split; apply Rabs_def1; lra.
  - exists (V3 1 0 0). split; [reflexivity|]. unfold centre, at_. cbn [rx ry rz vx vy vz]. rewrite E, H. repeat split; apply Rabs_def1; lra.
Qed.
Example C87_ex_error : exists r v, v_sample VFloat ramp_v vcell at_75 f_half f_half = Ok r /\ pos_ok (at_ at_75 f_half f_half) /\
  linear_sample vcell (fun q => Ok (B2R (ramp_v q))) (at_ at_75 f_half f_half) = Ok v /\
  Rabs (B2R r - v) <= vec_rounding VFloat 2 + 1 * (Rabs (B2R at_75) + Rabs (B2R f_half) + Rabs (B2R f_half) + 3) / 2 ^ 53.
Proof.
  destruct C87_ex_hyps as (NE & AF & SM & I1 & I2 & B & _). destruct (C87_defined VFloat ramp_v vcell at_75 f_half f_half I1 I2 I2) as (r & R).
  assert (P : pos_ok (at_ at_75 f_half f_half)).
  { destruct half_ok as (_ & H).
    assert (E : B2R at_75 = 3 / 4) by (rewrite <- SF2R_B2SF; replace (B2SF at_75) with (SpecFloat.S754_finite false 6755399441055744 (-53)) by (vm_compute; reflexivity); unfold SF2R, F2R; cbn; lra).
    unfold pos_ok, at_. cbn [rx ry rz]. rewrite E, H. assert (1 <= 2 ^ 30) by (apply pow_R1_Rle; lra). repeat split; lra. }
  assert (V : exists v, linear_sample vcell (fun q => Ok (B2R (ramp_v q))) (at_ at_75 f_half f_half) = Ok v).
  { eexists. apply (linear_eq vcell _ (fun q => B2R (ramp_v q))); auto. intros q _. reflexivity. }
  destruct V as (v & V). exists r, v. split; [exact R|]. split; [exact P|]. split; [exact V|].
  apply (C87_error VFloat ramp_v vcell at_75 f_half f_half r v 2 1); auto.
  - intros q _. pose proof (B q). rewrite Rabs_pos_eq; lra.
  - lra.
  - intros q q' _ _ _. pose proof (B q). pose proof (B q'). apply Rabs_le. lra.
Qed.
