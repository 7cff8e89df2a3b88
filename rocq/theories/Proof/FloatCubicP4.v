(** Rounding in cubic interpolation: positions, and samples in three dimensions. *)
From Coq Require Import ZArith Reals List Bool Lia Lra Psatz.
From Flocq Require Import Core BinarySingleNaN Relative Sterbenz.
From Verif Require Import Model.Base Model.VecM Model.RealM Model.InterpM Model.FloatM Model.FloatMipM Model.FloatCubicM.
From Verif Require Import Spec.VoxelSpec Spec.InterpSpec Spec.FloatSpec Spec.FloatCubicSpec.
From Verif Require Import Proof.BaseP Proof.RealP Proof.InterpP Proof.CubicP Proof.FloatP Proof.FloatP2 Proof.FloatMipP Proof.FloatMipP2 Proof.FloatCubicP Proof.FloatCubicP2 Proof.FloatCubicP3.
Open Scope R_scope.

(** * Positions: nothing is rounded *)
Lemma fmt64_dyadic x : generic_format radix2 fe64 x -> exists m e, x = IZR m * bpow radix2 e /\ (Z.abs m < 2 ^ 53)%Z /\ (-1074 <= e)%Z.
Proof. intros H. apply FLT_format_generic in H; [|reflexivity]. destruct H as [[m e] V M E]. exists m, e. auto. Qed.
Lemma dyadic64 m e : (Z.abs m <= 2 ^ 53)%Z -> (-1074 <= e)%Z -> generic_format radix2 fe64 (IZR m * bpow radix2 e).
Proof. apply (dyadic VDouble m e). Qed.
Lemma minus_dyadic x k : generic_format radix2 fe64 x -> 0 <= IZR k / 2 <= x -> x <= 2 ^ 50 -> generic_format radix2 fe64 (x - IZR k / 2).
Proof.
  intros F K X. destruct (fmt64_dyadic x F) as (m & e & E & M & L). destruct (Z_le_gt_dec e (-1)) as [N|P].
  - set (h := (2 ^ (-1 - e))%Z). assert (H : IZR k / 2 = IZR (k * h) * bpow radix2 e).
    { rewrite mult_IZR. unfold h. change (2 ^ (-1 - e))%Z with (Zpower radix2 (-1 - e)). rewrite IZR_Zpower by lia. rewrite Rmult_assoc, <- bpow_plus. replace (-1 - e + e)%Z with (-1)%Z by lia. reflexivity. }
    rewrite H in *. rewrite E in *. rewrite <- Rmult_minus_distr_r, <- minus_IZR. assert (G : 0 < bpow radix2 e) by apply bpow_gt_0.
    assert (A : (0 <= k * h)%Z) by (apply le_IZR; nra). assert (C : (k * h <= m)%Z) by (apply le_IZR; nra). apply dyadic64; auto. lia.
  - assert (I : exists n, x = IZR n). { exists (m * 2 ^ e)%Z. rewrite mult_IZR. change (2 ^ e)%Z with (Zpower radix2 e). rewrite IZR_Zpower by lia. auto. }
    destruct I as (n & ->). replace (IZR n - IZR k / 2) with (IZR (2 * n - k) * bpow radix2 (-1)) by (rewrite minus_IZR, mult_IZR; change (bpow radix2 (-1)) with (/ 2); field).
    assert (A : (0 <= k)%Z) by (apply le_IZR; lra). assert (C : (k <= 2 * n)%Z) by (apply le_IZR; rewrite mult_IZR; lra).
    assert (D : (n <= 2 ^ 50)%Z) by (apply le_IZR; rewrite <- pow_IZR with (n := 50%nat) in *; lra). apply dyadic64; lia.
Qed.
Lemma half_lt x : is_finite x = true -> Bltb f_half x = true <-> / 2 < B2R x.
Proof.
  intros F. destruct half_ok as (HF & HV). rewrite (Bltb_correct 53 1024 f_half x HF F). rewrite HV. destruct (Rlt_bool_spec (/ 2) (B2R x)); split; auto; try discriminate; lra.
Qed.
(** The position that a coordinate is taken to be. *)
Definition placed (x : f64) : f64 := if Bltb f_half x then x else f_half.
Lemma placed_real x : is_finite x = true -> is_finite (placed x) = true /\ B2R (placed x) = Rmax (1 / 2) (B2R x).
Proof.
  intros F. destruct half_ok as (HF & HV). pose proof (half_lt x F) as H. unfold placed. destruct (Bltb f_half x).
  - split; auto. rewrite Rmax_right; auto. assert (/ 2 < B2R x) by (apply H; auto). lra.
  - split; auto. rewrite HV, Rmax_left; [lra|]. destruct (Rlt_le_dec (/ 2) (B2R x)) as [L|L]; [apply H in L; discriminate|lra].
Qed.
Lemma placed_not_nan x : is_nan x = true \/ x = B754_infinity true -> placed x = f_half.
Proof. intros [N|N]; [|subst; reflexivity]. destruct x; try discriminate. reflexivity. Qed.
Lemma axis_inv lo hi x a b c d tt : f_cubic_axis lo hi x = Ok (a, b, c, d, tt) ->
  is_finite (placed x) = true /\ / 2 <= B2R (placed x) /\
  cubic_axis lo hi (B2R (placed x)) = Ok (a, b, c, d, B2R tt) /\ is_finite tt = true /\ 0 <= B2R tt < 1.
Proof.
  intros H. unfold f_cubic_axis in H. fold (placed x) in H. destruct half_ok as (HF & HV).
  destruct (floor_int (fsub (placed x) f_half)) as [n| |] eqn:EN; cbn [bind] in H; try discriminate.
  assert (PF : is_finite (fsub (placed x) f_half) = true) by (unfold floor_int in EN; destruct (is_finite (fsub (placed x) f_half)); congruence).
  destruct (fsub_half_fin _ PF) as (YF & PV). assert (YB : / 2 <= B2R (placed x)).
  { unfold placed in *. destruct (Bltb f_half x) eqn:T; [|lra]. apply half_lt in T; auto. lra. }
  set (y := placed x) in *. destruct (floor_ok _ _ PF EN) as (FL & NR).
  assert (YU : B2R y <= 2 ^ 50).
  { destruct (Rlt_le_dec (2 ^ 50) (B2R y)) as [G|]; auto. exfalso. assert (K : 2 ^ 40 <= rd (B2R y - / 2)).
    { replace (2 ^ 40) with (IZR (2 ^ 40)) by (rewrite pow_IZR; reflexivity). rewrite <- (rd_int (2 ^ 40)) by (vm_compute; discriminate). apply rd_le.
      rewrite (pow_IZR 2 50) in G. assert (IZR (2 ^ 40) + 1 <= IZR (2 ^ Z.of_nat 50)) by (rewrite <- plus_IZR; apply IZR_le; vm_compute; discriminate). lra. }
    rewrite PV in FL. assert (2 ^ 40 < IZR n + 1) by lra. rewrite pow_IZR, <- plus_IZR in H0. apply lt_IZR in H0. lia. }
  assert (E : B2R (fsub y f_half) = B2R y - / 2).
  { rewrite PV. apply round_generic; [typeclasses eauto|]. replace (/ 2) with (IZR 1 / 2) by lra. apply minus_dyadic; [|lra|auto]. rewrite <- fexp64. apply generic_format_B2R. }
  rewrite E in FL. assert (N0 : (0 <= n)%Z) by (assert (-1 < n)%Z by (apply lt_IZR; lra); lia).
  destruct (of_int_ok n) as (NF & NV); [lia|].
  destruct (fsub_ok _ (of_int n) PF NF) as (TF & TV); [rewrite NV, E; apply (big_small _ 1); [apply Rabs_le; lra|lia]|]. rewrite NV, E in TV.
  assert (TE : rd (B2R y - / 2 - IZR n) = B2R y - / 2 - IZR n).
  { apply round_generic; [typeclasses eauto|]. replace (B2R y - / 2 - IZR n) with (B2R y - IZR (2 * n + 1) / 2) by (rewrite plus_IZR, mult_IZR; field).
    apply minus_dyadic; auto; [rewrite <- fexp64; apply generic_format_B2R|]. rewrite plus_IZR, mult_IZR. assert (0 <= IZR n) by (apply IZR_le; auto). lra. }
  rewrite TE in TV.
  assert (RF : rfloor (Rmax (1 / 2) (B2R y) - 1 / 2) = n) by (rewrite Rmax_right by lra; apply rfloor_unique; lra).
  split; [auto|]. split; [auto|]. unfold cubic_axis, int_floor. cbv zeta. rewrite RF. rewrite i32_ok by (unfold int_min, int_max; lia). cbn [bind].
  change (clamp_in lo hi n) with (clamp lo hi n).
  destruct (i32 (clamp lo hi n - 1)) as [a'| |]; cbn [bind] in *; try discriminate. destruct (i32 (clamp lo hi n + 1)) as [b'| |]; cbn [bind] in *; try discriminate.
  destruct (i32 (clamp lo hi n + 2)) as [d'| |]; cbn [bind] in *; try discriminate. injection H as <- <- <- <- <-. rewrite TV. rewrite Rmax_right by lra.
  split; [|split; [auto|lra]]. unfold clamp_in, clamp. do 2 f_equal. lra.
Qed.
Lemma axis_range lo hi x a b c d t : (lo <= hi)%Z -> cubic_axis lo hi x = Ok (a, b, c, d, t) ->
  (lo <= a <= hi)%Z /\ (lo <= b <= hi)%Z /\ (lo <= c <= hi)%Z /\ (lo <= d <= hi)%Z.
Proof.
  intros NE H. unfold cubic_axis in H. destruct (int_floor _) as [n| |]; cbn [bind] in H; try discriminate.
  destruct (i32 _) as [a'| |]; cbn [bind] in H; try discriminate. destruct (i32 _) as [b'| |]; cbn [bind] in H; try discriminate.
  destruct (i32 _) as [d'| |]; cbn [bind] in H; try discriminate. injection H as <- <- <- <- _. repeat split; apply clamp_in_range; auto.
Qed.
Lemma axis_defined lo hi x : (lo <= hi)%Z -> (- 2 ^ 30 < lo)%Z -> (hi < 2 ^ 30 - 1)%Z -> cubic_coord x -> exists k, f_cubic_axis lo hi x = Ok k.
Proof.
  intros NE L H C. assert (P : is_finite (placed x) = true /\ / 2 <= B2R (placed x) < 2 ^ 31).
  { destruct half_ok as (HF & HV). destruct C as [C|[C|(F & U)]]; try (rewrite placed_not_nan by auto; rewrite HV; split; auto; simpl; lra).
    destruct (placed_real x F) as (A & E). split; auto. rewrite E. split; [eapply Rle_trans; [|apply Rmax_l]; lra|]. apply Rmax_lub_lt; auto. simpl; lra. }
  unfold f_cubic_axis. fold (placed x). set (y := placed x) in *. destruct P as (F & Y0 & Y1). destruct half_ok as (HF & HV).
  assert (E31 : 2 ^ 31 = IZR (2 ^ 31)) by (rewrite pow_IZR; reflexivity). rewrite E31 in Y1.
  destruct (fsub_ok y f_half F HF) as (PF & PV); [rewrite HV; apply (big_small _ (2 ^ 31)); [apply Rabs_le; lra|lia]|].
  assert (PE : B2R (fsub y f_half) = B2R y - / 2).
  { rewrite PV, HV. apply round_generic; [typeclasses eauto|]. replace (/ 2) with (IZR 1 / 2) by lra. apply minus_dyadic; [rewrite <- fexp64; apply generic_format_B2R|lra|].
    apply Rle_trans with (IZR (2 ^ 31)); [lra|]. rewrite pow_IZR. apply IZR_le. vm_compute. discriminate. }
  assert (FI : exists n, floor_int (fsub y f_half) = Ok n).
  { unfold floor_int. rewrite PF. destruct (Bnearbyint_correct 53 1024 _ mode_DN (fsub y f_half)) as (A & _). pose proof (Btrunc_correct 53 1024 _ (Bnearbyint mode_DN (fsub y f_half))) as T.
    rewrite A in T. cbn [round_mode] in T. assert (Q : forall r rnd, round radix2 (FIX_exp 0) rnd r = IZR (rnd r)).
    { intros. unfold round, scaled_mantissa, cexp, FIX_exp, F2R. cbn. rewrite !Rmult_1_r. reflexivity. }
    rewrite !Q, Ztrunc_IZR in T. apply eq_IZR in T. rewrite T, PE.
    pose proof (Zfloor_lb (B2R y - / 2)) as LB. pose proof (Zfloor_ub (B2R y - / 2)) as UB'.
    assert (-1 < Zfloor (B2R y - / 2))%Z by (apply lt_IZR; lra). assert (Zfloor (B2R y - / 2) < 2 ^ 31)%Z by (apply lt_IZR; lra).
    eexists. apply i32_ok. unfold int_min, int_max. lia. }
  destruct FI as (n & ->). cbn [bind]. pose proof (FloatP2.clamp_in_range lo hi n NE) as R. rewrite !i32_ok by (unfold int_min, int_max; lia). cbn [bind]. eauto.
Qed.

(** * Lines *)
Lemma largest_top t : largest t = top t.
Proof.
  unfold top. destruct t; cbn [prec emax largest].
  - cbn. lra.
  - rewrite Rmult_minus_distr_r. change (128 - 24)%Z with 104%Z. rewrite <- pow_add, Rmult_1_l. rewrite !pow_IZR. reflexivity.
  - rewrite Rmult_minus_distr_r. change (1024 - 53)%Z with 971%Z. rewrite <- pow_add, Rmult_1_l. rewrite !pow_IZR. reflexivity.
Qed.
Lemma enough_room t B B1 : 64 * B <= top t -> 0 <= B1 <= 64 / 25 * B + 910 * ab t -> 17 * B1 + 512 * (er t * B1 + ab t) <= top t.
Proof.
  intros H (P & Q). destruct (er_pos t) as (E1 & E2). destruct (ab_pos t) as (A1 & A2).
  assert (T : 65504 <= top t).
  { eapply Rle_trans; [|apply (top_up VHalf)]; [|destruct t; unfold wider; cbn; lia]. unfold top. cbn. lra. }
  assert (er t * B1 <= / 1024 * B1) by (apply Rmult_le_compat_r; lra). lra.
Qed.
Definition good {t} (B : R) (v : val t) : Prop := is_finite v = true /\ Rabs (B2R v) <= B.
Lemma line_good s t lo hi (g : Z -> val t) x k B B1 : (lo <= hi)%Z -> f_cubic_axis lo hi x = Ok k -> 64 * B <= top t ->
  0 <= B1 <= 64 / 25 * B + 910 * ab t -> (forall n, (lo <= n <= hi)%Z -> good B1 (g n)) -> good (8 / 5 * B1 + 350 * ab t) (f_line s t g k).
Proof.
  intros NE H TB BB G. destruct k as [[[[a b] c] d] tt]. destruct (axis_inv _ _ _ _ _ _ _ _ H) as (_ & _ & AX & TF & T0).
  destruct (axis_range _ _ _ _ _ _ _ _ NE AX) as (A & B' & C & D'). destruct (G a A) as (FA & GA). destruct (G b B') as (FB & GB). destruct (G c C) as (FC & GC). destruct (G d D') as (FD & GD).
  destruct (line_err s t B1 (proj1 BB) (enough_room t B B1 TB BB) (g a) (g b) (g c) (g d) tt FA FB FC FD GA GB GC GD) as (F & E & _); [split; auto; lra|].
  cbn [f_line]. split; auto. destruct (er_pos t) as (E1 & E2). assert (er t * B1 <= / 1024 * B1) by (apply Rmult_le_compat_r; lra).
  assert (CB : Rabs (cubic (B2R (g a)) (B2R (g b)) (B2R (g c)) (B2R (g d)) (B2R tt)) <= 5 / 4 * B1).
  { apply Rabs_le. pose proof (cubic_bound (- B1) B1 (B2R (g a)) (B2R (g b)) (B2R (g c)) (B2R (g d)) (B2R tt)) as Q.
    assert (IN : forall r, Rabs r <= B1 -> - B1 <= r <= B1) by (intros r Hr; apply Rabs_le_inv; auto).
    specialize (Q ltac:(lra) (IN _ GA) (IN _ GB) (IN _ GC) (IN _ GD)). lra. }
  set (r := B2R (f_cubic s t (g a) (g b) (g c) (g d) tt)) in *. set (v := cubic _ _ _ _ _) in *.
  replace r with (v + (r - v)) by ring. eapply Rle_trans; [apply Rabs_triang|]. lra.
Qed.
(** A coordinate at the centre of a voxel of the window. *)
Lemma line_centre s t lo hi (g : Z -> val t) x k B B1 n : (lo <= n <= hi)%Z -> (0 <= n)%Z -> B2R x = IZR n + 1 / 2 -> is_finite x = true ->
  f_cubic_axis lo hi x = Ok k -> 64 * B <= top t ->
  0 <= B1 <= 64 / 25 * B + 910 * ab t -> (forall n, (lo <= n <= hi)%Z -> good B1 (g n)) -> is_finite (f_line s t g k) = true /\ B2R (f_line s t g k) = B2R (g n).
Proof.
  intros N N0 X XF H TB BB G. destruct k as [[[[a b] c] d] tt]. destruct (axis_inv _ _ _ _ _ _ _ _ H) as (_ & _ & AX & TF & T0).
  assert (NE : (lo <= hi)%Z) by lia. destruct (axis_range _ _ _ _ _ _ _ _ NE AX) as (A & B' & C & D'). destruct (G a A) as (FA & GA). destruct (G b B') as (FB & GB). destruct (G c C) as (FC & GC). destruct (G d D') as (FD & GD).
  destruct (line_err s t B1 (proj1 BB) (enough_room t B B1 TB BB) (g a) (g b) (g c) (g d) tt FA FB FC FD GA GB GC GD) as (F & _ & E); [split; auto; lra|].
  cbn [f_line]. destruct (placed_real x XF) as (_ & PV). apply IZR_le in N0. rewrite PV, X, Rmax_right in AX by lra.
  unfold cubic_axis in AX. rewrite Rmax_right in AX by lra. replace (IZR n + 1 / 2 - 1 / 2) with (IZR n) in AX by lra. unfold int_floor in AX. rewrite rfloor_IZR in AX.
  destruct (i32 n) as [n'| |] eqn:In; cbn [bind] in AX; try discriminate. apply i32_inv in In. destruct In as (-> & _).
  destruct (i32 _) as [a'| |]; cbn [bind] in AX; try discriminate. destruct (i32 _) as [b'| |]; cbn [bind] in AX; try discriminate.
  destruct (i32 _) as [d'| |]; cbn [bind] in AX; try discriminate. injection AX as _ Eb _ _ Et. rewrite (clamp_in_id lo hi n N) in Eb. subst b.
  split; auto. apply E. lra.
Qed.

Lemma line_constant s t lo hi (g : Z -> val t) x k v : (lo <= hi)%Z -> f_cubic_axis lo hi x = Ok k ->
  (forall n, (lo <= n <= hi)%Z -> is_finite (g n) = true /\ B2R (g n) = v) -> is_finite (f_line s t g k) = true /\ B2R (f_line s t g k) = v.
Proof.
  intros NE H G. destruct k as [[[[a b] c] d] tt]. destruct (axis_inv _ _ _ _ _ _ _ _ H) as (_ & _ & AX & TF & T0).
  destruct (axis_range _ _ _ _ _ _ _ _ NE AX) as (A & B' & C & D'). destruct (G a A). destruct (G b B'). destruct (G c C). destruct (G d D').
  cbn [f_line]. apply line_const; auto. split; auto. lra.
Qed.

(** * Samples *)
Lemma sample_inv s t (value : v3 -> val t) dw x y z r : f_cubic_sample s t value dw x y z = Ok r ->
  exists i j k, f_cubic_axis (vx (bmin dw)) (vx (bmax dw)) x = Ok i /\ f_cubic_axis (vy (bmin dw)) (vy (bmax dw)) y = Ok j /\
    f_cubic_axis (vz (bmin dw)) (vz (bmax dw)) z = Ok k /\
    r = f_line s t (fun a => f_line s t (fun b => f_line s t (fun c => value (V3 a b c)) k) j) i.
Proof.
  unfold f_cubic_sample. destruct (f_cubic_axis _ _ x) as [i| |]; cbn [bind]; try discriminate. destruct (f_cubic_axis _ _ y) as [j| |]; cbn [bind]; try discriminate.
  destruct (f_cubic_axis _ _ z) as [k| |]; cbn [bind]; try discriminate. intros H. injection H as <-. exists i, j, k. auto.
Qed.
Lemma modest_top t (value : v3 -> val t) dw : box_nonempty dw -> modest dw value -> exists B, 0 <= B /\ 64 * B <= top t /\ forall q, in_box q dw -> Rabs (B2R (value q)) <= B.
Proof.
  intros NE M. exists (top t / 64). rewrite <- largest_top. unfold modest in M.
  assert (0 <= largest t) by (rewrite largest_top; eapply Rle_trans; [apply Rabs_pos|apply (top_ge t (B754_zero false))]).
  split; [lra|]. split; [lra|]. intros q I. specialize (M q I). lra.
Qed.
Section Samples.
Variables (s : shape) (t : vtype) (value : v3 -> val t) (dw : box) (B : R).
Hypothesis NE : box_nonempty dw.
Hypothesis AF : all_finite dw value.
Hypothesis B0 : 0 <= B.
Hypothesis TB : 64 * B <= top t.
Hypothesis VB : forall q, in_box q dw -> Rabs (B2R (value q)) <= B.
Let lx := vx (bmin dw). Let hx := vx (bmax dw). Let ly := vy (bmin dw). Let hy := vy (bmax dw). Let lz := vz (bmin dw). Let hz := vz (bmax dw).
Let Bz := 8 / 5 * B + 350 * ab t.
Let By := 8 / 5 * Bz + 350 * ab t.
Let LX : (lx <= hx)%Z. Proof. apply NE. Qed.
Let LY : (ly <= hy)%Z. Proof. apply NE. Qed.
Let LZ : (lz <= hz)%Z. Proof. apply NE. Qed.
Lemma vox_good a b c : (lx <= a <= hx)%Z -> (ly <= b <= hy)%Z -> (lz <= c <= hz)%Z -> good B (value (V3 a b c)).
Proof. intros A C D. assert (I : in_box (V3 a b c) dw) by (unfold in_box; auto). split; [apply AF|apply VB]; auto. Qed.
Lemma steps : (0 <= B <= 64 / 25 * B + 910 * ab t) /\ (0 <= Bz <= 64 / 25 * B + 910 * ab t) /\ (0 <= By <= 64 / 25 * B + 910 * ab t).
Proof. unfold By, Bz. pose proof (ab_pos t). lra. Qed.
Lemma zline_good z k a b : f_cubic_axis lz hz z = Ok k -> (lx <= a <= hx)%Z -> (ly <= b <= hy)%Z -> good Bz (f_line s t (fun c => value (V3 a b c)) k).
Proof. intros K A C. destruct steps as (S1 & _). apply (line_good s t lz hz _ z k B B); auto. intros n N. apply vox_good; auto. Qed.
Lemma yline_good y z j k a : f_cubic_axis ly hy y = Ok j -> f_cubic_axis lz hz z = Ok k -> (lx <= a <= hx)%Z ->
  good By (f_line s t (fun b => f_line s t (fun c => value (V3 a b c)) k) j).
Proof. intros J K A. destruct steps as (_ & S2 & _). apply (line_good s t ly hy _ y j B Bz); auto. intros n N. apply (zline_good z); auto. Qed.
Lemma sample_good x y z r : f_cubic_sample s t value dw x y z = Ok r -> is_finite r = true /\ Rabs (B2R r) <= 5 * B + 2000 * ab t.
Proof.
  intros H. destruct (sample_inv _ _ _ _ _ _ _ _ H) as (i & j & k & I & J & K & ->). destruct steps as (_ & _ & S3).
  destruct (line_good s t lx hx (fun a => f_line s t (fun b => f_line s t (fun c => value (V3 a b c)) k) j) x i B By) as (F & G); auto.
  { intros n N. apply (yline_good y z); auto. }
  split; auto. eapply Rle_trans; [exact G|]. unfold By, Bz. pose proof (ab_pos t). lra.
Qed.
Lemma sample_along x y z r q1 q2 : f_cubic_sample s t value dw x y z = Ok r -> is_finite x = true -> is_finite y = true ->
  (lx <= q1 <= hx)%Z -> (0 <= q1)%Z -> B2R x = IZR q1 + 1 / 2 -> (ly <= q2 <= hy)%Z -> (0 <= q2)%Z -> B2R y = IZR q2 + 1 / 2 ->
  exists k, f_cubic_axis lz hz z = Ok k /\ is_finite r = true /\ B2R r = B2R (f_line s t (fun c => value (V3 q1 q2 c)) k).
Proof.
  intros H FX FY I1 P1 X I2 P2 Y. destruct (sample_inv _ _ _ _ _ _ _ _ H) as (i & j & k & I & J & K & ->). destruct steps as (S1 & S2 & S3).
  destruct (line_centre s t lx hx (fun a => f_line s t (fun b => f_line s t (fun c => value (V3 a b c)) k) j) x i B By q1) as (F & G); auto.
  { intros n N. apply (yline_good y z); auto. }
  destruct (line_centre s t ly hy (fun b => f_line s t (fun c => value (V3 q1 b c)) k) y j B Bz q2) as (F' & G'); auto.
  { intros n N. apply (zline_good z); auto. }
  exists k. split; auto. split; auto. rewrite G. exact G'.
Qed.
Lemma sample_err x y z r v q1 q2 : f_cubic_sample s t value dw x y z = Ok r -> is_finite x = true -> is_finite y = true -> is_finite z = true ->
  (lx <= q1 <= hx)%Z -> (0 <= q1)%Z -> B2R x = IZR q1 + 1 / 2 -> (ly <= q2 <= hy)%Z -> (0 <= q2)%Z -> B2R y = IZR q2 + 1 / 2 ->
  win_ok dw -> pos_ok (at_ x y z) -> cubic_sample dw (fun q => Ok (B2R (value q))) (at_ x y z) = Ok v ->
  is_finite r = true /\ Rabs (B2R r - v) <= 350 * (er t * B + ab t).
Proof.
  intros H FX FY FZ I1 P1 X I2 P2 Y WO PO E. destruct (sample_along x y z r q1 q2 H) as (k & K & RF & RV); auto. split; auto. rewrite RV.
  rewrite (cubic_eq dw _ (fun q => B2R (value q))) in E; auto; [|intros q _; reflexivity]. injection E as <-.
  unfold cub3, at_. cbn [rx ry rz]. rewrite X, Y, !cub1_centre by auto.
  destruct k as [[[[a b] c] d] tt]. destruct (axis_inv _ _ _ _ _ _ _ _ K) as (_ & _ & AX & TF & T0).
  destruct (placed_real z FZ) as (_ & PV). destruct (axis_range _ _ _ _ _ _ _ _ LZ AX) as (A & B' & C & D').
  destruct (vox_good q1 q2 a I1 I2 A) as (FA & GA). destruct (vox_good q1 q2 b I1 I2 B') as (FB & GB).
  destruct (vox_good q1 q2 c I1 I2 C) as (FC & GC). destruct (vox_good q1 q2 d I1 I2 D') as (FD & GD). destruct steps as (S1 & _).
  destruct (line_err s t B B0 (enough_room t B B TB S1) _ _ _ _ tt FA FB FC FD GA GB GC GD) as (_ & Er & _); [split; auto; lra|].
  cbn [f_line]. destruct WO as (_ & _ & _ & _ & _ & W5 & W6). destruct PO as (_ & _ & P3). cbn [at_ rz] in P3.
  rewrite cubic_axis_ok in AX; auto.
  2: { rewrite PV. split; [eapply Rlt_le_trans; [|apply Rmax_l]; simpl; lra|apply Rmax_lub_lt; [simpl; lra|apply P3]]. }
  cbv zeta in AX. rewrite PV in AX. rewrite (Rmax_right (1 / 2) (Rmax (1 / 2) (B2R z))) in AX by apply Rmax_l. injection AX as E1 E2 E3 E4 E5.
  unfold cub1. cbv zeta. fold lz hz. rewrite E1, E3, E4, E2, E5. exact Er.
Qed.
End Samples.
