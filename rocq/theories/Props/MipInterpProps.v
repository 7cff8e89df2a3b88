(** C51: interpolation in MIP fields. *)
From Coq Require Import ZArith Reals List Bool Lra Lia.
From Verif Require Import Model.Base Model.RealM Proof.RealP Model.VecM Model.OpsM Model.InterpM Model.FilterM Model.MipM Model.MipMapM
  Spec.VoxelSpec Spec.OpsSpec Spec.InterpSpec Spec.FilterSpec Spec.MipSpec Spec.MipMapSpec
  Proof.ResampleP2 Props.InterpProps Props.MipProps Props.MipMapProps.
Import ListNotations.
Open Scope R_scope.

Section Info.
Variable size : r3.
Hypothesis POS : 0 < rx size /\ 0 < ry size /\ 0 < rz size.
Lemma voxel_width i : level_voxel size i = width size i.
Proof. unfold level_voxel, width. rewrite Rmin_assoc. ring. Qed.
Lemma width_pos i : 0 < width size i.
Proof.
  destruct POS as (A & B & C). unfold width. apply Rmult_lt_0_compat; [apply pow_lt; lra|].
  repeat apply Rmin_glb_lt; auto.
Qed.
Lemma width_S i : width size (S i) = 2 * width size i.
Proof. unfold width. cbn [pow]. ring. Qed.
Lemma width_mono i j : (i <= j)%nat -> width size i <= width size j.
Proof. induction 1 as [|j _ IH]; [lra|]. rewrite width_S. pose proof (width_pos j). lra. Qed.
Lemma between_find spot n : forall i, width size (i - 1) < spot -> (1 <= i)%nat ->
  (exists j, (i <= j < i + n)%nat /\ width size (j - 1) < spot <= width size j /\
     between_levels size spot i n = Some (Interp (j - 1) j ((spot - width size (j - 1)) / (width size j - width size (j - 1))))) \/
  (between_levels size spot i n = None /\ forall j, (i <= j < i + n)%nat -> width size j < spot).
Proof.
  induction n as [|n IH]; intros i H L; [right; split; [reflexivity|intros; lia]|]. cbn [between_levels]. rewrite !voxel_width.
  destruct (rleb_spec spot (width size i)) as [E|E].
  - left. exists i. split; [lia|]. split; auto. do 2 f_equal. apply lerpfactor_ne. lra.
  - destruct (IH (S i)) as [(j & J & K & Q)|(Q & K)]; [replace (S i - 1)%nat with i by lia; lra|lia| |].
    + left. exists j. split; [lia|]. auto.
    + right. split; auto. intros j J. destruct (Nat.eq_dec j i) as [->|]; [lra|]. apply K. lia.
Qed.
End Info.

Lemma coord_0 offset p : mip_coord offset 0 p = p.
Proof.
  symmetry. apply (C46_coord offset 0 p p); [lia|]. unfold same_place, same_place1. change (2 ^ 0)%Z with 1%Z. rewrite !Z.div_1_r. repeat split; ring.
Qed.
(** Positions keep in range. *)
Lemma coord_ok offset l p : pos_ok p -> pos_ok (mip_coord offset (Z.of_nat l) p).
Proof.
  intros P. destruct l as [|l]; [change (Z.of_nat 0) with 0%Z; rewrite coord_0; auto|]. set (z := Z.of_nat (S l)).
  assert (L : (1 <= z)%Z) by lia. assert (L2 : (0 <= z)%Z) by lia.
  assert (K : 2 <= IZR (2 ^ z)).
  { apply IZR_le. change 2%Z with (2 ^ 1)%Z at 1. apply Z.pow_le_mono_r; lia. }
  assert (A : forall o x, - 2 ^ 30 < x < 2 ^ 30 -> - 2 ^ 30 < (x - IZR (mip_shift o z)) * / IZR (2 ^ z) < 2 ^ 30).
  { intros o x X. rewrite shift_eq by auto.
    assert (M : 0 <= IZR o - IZR (o / 2 ^ z) * IZR (2 ^ z) < IZR (2 ^ z)).
    { rewrite <- mult_IZR, <- minus_IZR. pose proof (Z.div_mod o (2 ^ z)). pose proof (Z.mod_pos_bound o (2 ^ z)).
      assert (0 < 2 ^ z)%Z by (apply Z.pow_pos_nonneg; lia). split; [apply IZR_le; lia|apply IZR_lt; lia]. }
    set (m := IZR o - IZR (o / 2 ^ z) * IZR (2 ^ z)) in *. set (t := IZR (2 ^ z)) in *.
    replace ((x - (IZR (o / 2 ^ z) * t - IZR o)) * / t) with ((x + m) / t) by (unfold m; field; lra).
    split.
    - apply (Rmult_lt_reg_r t); [lra|]. replace ((x + m) / t * t) with (x + m) by (field; lra). nra.
    - apply (Rmult_lt_reg_r t); [lra|]. replace ((x + m) / t * t) with (x + m) by (field; lra). nra. }
  destruct P as (X & Y & Z). unfold mip_coord. split; [|split]; cbn [rx ry rz]; apply A; auto.
Qed.

Section Sample.
Context {k : kind}.
Variables (size : r3) (offset : v3) (fs : list (fld (V := R) k)) (p : r3) (spot : R).
Hypothesis POS : 0 < rx size /\ 0 < ry size /\ 0 < rz size.

Lemma readable_at l f : readable fs -> pos_ok p -> nth_error fs l = Some f -> exists x, level_at fs l (mip_coord offset (Z.of_nat l) p) = Ok x.
Proof.
  intros RD P E. unfold level_at. rewrite E. destruct (RD f) as (NE & u & H & Hu); [apply (nth_error_In _ _ E)|].
  destruct (C27_bounded (f_dw f) (f_get f) u (mip_coord offset (Z.of_nat l) p)) as (x & _ & G & _); eauto using coord_ok.
Qed.

(** A spot not larger than a voxel: the base. *)
Lemma finest : spot <= width size 0 -> mip_sample size offset fs p spot = level_at fs 0 p.
Proof.
  intros H. unfold mip_sample, interp_info_of. rewrite voxel_width. destruct (rleb_spec spot (width size 0)); [reflexivity|lra].
Qed.
Lemma next_level i : readable fs -> pos_ok p -> (S i < length fs)%nat -> width size i < spot <= width size (S i) ->
  exists x y, level_at fs i (mip_coord offset (Z.of_nat i) p) = Ok x /\ level_at fs (S i) (mip_coord offset (Z.of_nat (S i)) p) = Ok y /\
    mip_sample size offset fs p spot = Ok (x + (spot - width size i) / (width size (S i) - width size i) * (y - x)).
Proof.
  intros RD P I H.
  destruct (nth_error fs i) as [f|] eqn:Ef; [|apply nth_error_None in Ef; lia].
  destruct (nth_error fs (S i)) as [g|] eqn:Eg; [|apply nth_error_None in Eg; lia].
  destruct (readable_at i f RD P Ef) as (x & X). destruct (readable_at (S i) g RD P Eg) as (y & Y).
  exists x, y. split; auto. split; auto. pose proof (width_mono size POS 0 i ltac:(lia)) as M.
  unfold mip_sample, interp_info_of. rewrite voxel_width. destruct (rleb_spec spot (width size 0)) as [E|E]; [lra|].
  destruct (between_find size spot (length fs - 1) 1) as [(j & J & K & Q)|(Q & K)]; [cbn; lra|lia| |].
  2:{ specialize (K (S i) ltac:(lia)). lra. }
  assert (J' : j = S i).
  { destruct (Nat.lt_trichotomy j (S i)) as [L|[L|L]]; auto.
    - pose proof (width_mono size POS j i ltac:(lia)). lra.
    - pose proof (width_mono size POS (S i) (j - 1) ltac:(lia)). lra. }
  subst j. rewrite Q. cbn [in_lower in_upper in_t]. replace (S i - 1)%nat with i by lia.
  destruct (Nat.eqb_spec i (S i)); [lia|]. rewrite X, Y. cbn [bind]. f_equal. unfold lerp. ring.
Qed.
Lemma coarsest n : length fs = S n -> width size n < spot ->
  mip_sample size offset fs p spot = level_at fs n (mip_coord offset (Z.of_nat n) p).
Proof.
  intros L H. pose proof (width_mono size POS 0 n ltac:(lia)) as M.
  unfold mip_sample, interp_info_of. rewrite voxel_width, L. replace (S n - 1)%nat with n by lia.
  destruct (rleb_spec spot (width size 0)) as [E|E]; [lra|].
  destruct (between_find size spot n 1) as [(j & J & K & Q)|(Q & K)]; [cbn; lra|lia| |]; rewrite Q.
  - pose proof (width_mono size POS j n ltac:(lia)). lra.
  - cbn [in_lower in_upper]. rewrite Nat.eqb_refl. destruct (Nat.eqb_spec n 0) as [->|]; [|reflexivity].
    change (Z.of_nat 0) with 0%Z. rewrite coord_0. reflexivity.
Qed.
End Sample.

(** Interpolation in a field with levels [0 .. n]: the value of each level is its linear
    interpolation at the same place; the result is the base up to the size of its voxels,
    the last level from the size of its voxels on, and in between changes linearly from each
    level to the next. *)
Theorem C51_sample : forall (k : kind) size offset (fs : list (fld (V := R) k)) n p,
  0 < rx size /\ 0 < ry size /\ 0 < rz size -> length fs = S n -> readable fs -> pos_ok p ->
  exists val : nat -> R,
    (forall i f q, nth_error fs i = Some f -> same_place offset (Z.of_nat i) (V3 0 0 0) (V3 0 0 0) q p ->
       linear_sample (f_dw f) (f_get f) q = Ok (val i)) /\
    (forall spot, spot <= width size 0 -> mip_sample size offset fs p spot = Ok (val 0%nat)) /\
    (forall spot, width size n <= spot -> mip_sample size offset fs p spot = Ok (val n)) /\
    (forall spot i, (i < n)%nat -> width size i <= spot <= width size (S i) ->
       mip_sample size offset fs p spot =
         Ok (val i + (spot - width size i) / (width size (S i) - width size i) * (val (S i) - val i))).
Proof.
  intros k size offset fs n p POS L RD P.
  set (val := fun i => match level_at fs i (mip_coord offset (Z.of_nat i) p) with Ok x => x | _ => 0 end).
  assert (VO : forall i, (i <= n)%nat -> level_at fs i (mip_coord offset (Z.of_nat i) p) = Ok (val i)).
  { intros i I. destruct (nth_error fs i) as [f|] eqn:E; [|apply nth_error_None in E; lia].
    destruct (readable_at offset fs p i f RD P E) as (x & X). unfold val. rewrite X. reflexivity. }
  assert (V0 : level_at fs 0 p = Ok (val 0%nat)) by (rewrite <- (VO 0%nat) by lia; change (Z.of_nat 0) with 0%Z; rewrite coord_0; reflexivity).
  assert (LO : forall spot i, (i < n)%nat -> width size i < spot <= width size (S i) ->
       mip_sample size offset fs p spot =
         Ok (val i + (spot - width size i) / (width size (S i) - width size i) * (val (S i) - val i))).
  { intros spot i I H. destruct (next_level size offset fs p spot POS i RD P) as (x & y & X & Y & E); [lia|auto|].
    rewrite VO in X, Y by lia. injection X as <-. injection Y as <-. exact E. }
  assert (EX : forall i, (i <= n)%nat -> mip_sample size offset fs p (width size i) = Ok (val i)).
  { intros [|i] I; [rewrite finest by lra; exact V0|]. pose proof (width_pos size POS i).
    rewrite (LO _ i) by (try lia; rewrite width_S; lra). f_equal. rewrite width_S. field. lra. }
  exists val. split; [|split; [|split]].
  - intros i f q E S. apply C46_coord in S; [|lia]. subst q.
    assert (I : (i <= n)%nat) by (assert (i < length fs)%nat by (apply nth_error_Some; congruence); lia).
    specialize (VO i I). unfold level_at in VO. rewrite E in VO.
    destruct (RD f) as (NE & u & H & Hu); [apply (nth_error_In _ _ E)|].
    destruct (C27_bounded (f_dw f) (f_get f) u (mip_coord offset (Z.of_nat i) p)) as (x & A & G & _); auto using coord_ok. congruence.
  - intros spot H. rewrite finest by auto. exact V0.
  - intros spot H. destruct (Req_dec spot (width size n)) as [->|N]; [apply EX; lia|]. rewrite (coarsest size offset fs p spot POS n) by (auto; lra). apply VO. lia.
  - intros spot i I H. destruct (Req_dec spot (width size i)) as [->|N]; [|apply LO; auto; lra].
    rewrite EX by lia. f_equal. pose proof (width_pos size POS i). rewrite width_S. field. lra.
Qed.
Print Assumptions C51_sample.

(** The result is never outside the range of the voxels. *)
Theorem C51_bounds : forall (k : kind) size offset (fs : list (fld (V := R) k)) p spot lo hi,
  0 < rx size /\ 0 < ry size /\ 0 < rz size -> fs <> [] -> readable fs -> pos_ok p ->
  (forall f q x, In f fs -> in_box q (f_dw f) -> f_get f q = Ok x -> lo <= x <= hi) ->
  exists x, mip_sample size offset fs p spot = Ok x /\ lo <= x <= hi.
Proof.
  intros k size offset fs p spot lo hi POS NE RD P B. destruct (length fs) as [|n] eqn:L; [destruct fs; [congruence|discriminate]|].
  destruct (C51_sample k size offset fs n p POS L RD P) as (val & V & A1 & A2 & A3).
  assert (BV : forall i, (i <= n)%nat -> lo <= val i <= hi).
  { intros i I. destruct (nth_error fs i) as [f|] eqn:E; [|apply nth_error_None in E; lia].
    destruct (RD f) as (NF & u & H & Hu); [apply (nth_error_In _ _ E)|].
    destruct (C27_bounded (f_dw f) (f_get f) u (mip_coord offset (Z.of_nat i) p)) as (x & X & _ & G); auto using coord_ok.
    rewrite (V i f (mip_coord offset (Z.of_nat i) p) E) in X by (apply C46_coord; auto; lia). injection X as <-. apply G.
    intros q (m & -> & _). assert (IB : in_box (nearest (f_dw f) m) (f_dw f)) by (unfold in_box, nearest, box_nonempty in *; cbn; lia).
    apply (B f _ _ (nth_error_In _ _ E) IB). apply Hu; auto. }
  destruct (Rle_dec spot (width size 0)) as [C|C]; [exists (val 0%nat); rewrite A1 by auto; split; auto; apply BV; lia|].
  destruct (Rle_dec (width size n) spot) as [D|D]; [exists (val n); rewrite A2 by auto; split; auto|].
  assert (F : exists i, (i < n)%nat /\ width size i <= spot <= width size (S i)).
  { clear - C D POS. induction n as [|n IH]; [lra|]. destruct (Rle_dec (width size n) spot).
    - exists n. split; [lia|]. lra.
    - destruct IH as (i & I & J); auto. exists i. split; [lia|auto]. }
  destruct F as (i & I & J). rewrite (A3 spot i I J). eexists. split; [reflexivity|].
  pose proof (BV i ltac:(lia)) as B0. pose proof (BV (S i) ltac:(lia)) as B1. pose proof (width_pos size POS i).
  set (t := (spot - width size i) / (width size (S i) - width size i)).
  assert (T : 0 <= t <= 1).
  { unfold t. rewrite width_S in *. split.
    - apply Rmult_le_pos; [lra|]. apply Rlt_le, Rinv_0_lt_compat. lra.
    - apply (Rmult_le_reg_r (2 * width size i - width size i)); [lra|]. unfold Rdiv. rewrite Rmult_assoc, Rinv_l by lra. lra. }
  clearbody t. nra.
Qed.
Print Assumptions C51_bounds.

(** With the levels [makeMIP] makes with a filter of means: never outside the range of the
    base. *)
Theorem C51_mip : forall (k : kind) flt (base : fld (V := R) k) b v lo hi min_size n sched fuel size p spot,
  mean_filter flt -> (k = KSparse -> narrow flt) -> (0 < n)%nat -> f_reached 0 0 reqb k base ->
  f_ext base = res_box b -> holds base (res_box b) v -> (forall q, in_box q (res_box b) -> lo <= v q <= hi) ->
  res_ok b -> fits_new k (res_box b) -> (25 <= fuel)%nat ->
  0 < rx size /\ 0 < ry size /\ 0 < rz size -> pos_ok p ->
  exists fs x, make_mip fuel flt base min_size (V3 0 0 0) n sched = Some (Ok (Some fs)) /\
    mip_sample size (V3 0 0 0) fs p spot = Ok x /\ lo <= x <= hi.
Proof.
  intros k flt base b v lo hi ms n sched fuel size p spot MF NR N Rb X H B Ro Fb L POS P.
  destruct (C34_bounds k flt base b v lo hi ms n sched fuel) as (fs & E & BF); auto.
  destruct (C34_zero_offset k flt base b v ms n sched fuel) as (fs' & m & E' & _ & [LF A] & R0 & SZ); auto.
  { apply mean_filter_ok; auto. }
  assert (fs' = fs) by congruence. subst fs'. exists fs.
  destruct (C51_bounds k size (V3 0 0 0) fs p spot lo hi) as (x & S & I); auto.
  - intros ->. discriminate LF.
  - intros f F. apply In_nth_error in F as (l & F). destruct (A l f F) as [_ [D V]]. split; [|rewrite D; eexists; split; eauto].
    assert (G : forall l, let r := level_res b (V3 0 0 0) l in (1 <= vx r /\ 1 <= vy r /\ 1 <= vz r)%Z).
    { intros j. induction j as [|j IH]; [rewrite R0; unfold res_ok in Ro; cbn; lia|].
      rewrite SZ. cbn [vx vy vz] in *. repeat split; apply Z.div_le_lower_bound; lia. }
    specialize (G l). rewrite D. unfold box_nonempty, res_box. cbn [bmin bmax vx vy vz] in *. lia.
  - intros f q x F Q G. destruct (BF f q F Q) as (y & Y & I). congruence.
  - exists x. auto.
Qed.
Print Assumptions C51_mip.

(** A base of 1 and a level of 3, half way between their sizes. *)
Example C51_example : exists fs : list (fld (V := R) KDense), length fs = 2%nat /\ readable fs /\
  pos_ok (R3 1 2 3) /\ mip_sample (R3 1 2 2) (V3 1 0 0) fs (R3 1 2 3) (3 / 2) = Ok 2 /\
  mip_sample (R3 1 2 2) (V3 1 0 0) fs (R3 1 2 3) 1 = Ok 1 /\ mip_sample (R3 1 2 2) (V3 1 0 0) fs (R3 1 2 3) 5 = Ok 3.
Proof.
  destruct (base_field 4 (fun _ => 1)) as (f & _ & _ & Hf); auto. destruct (base_field 3 (fun _ => 3)) as (g & _ & _ & Hg); auto.
  exists [f; g].
  assert (NE : box_nonempty (f_dw f) /\ box_nonempty (f_dw g)).
  { destruct Hf as [-> _]. destruct Hg as [-> _]. unfold box_nonempty, res_box, cube. cbn. lia. }
  assert (RD : readable [f; g]).
  { intros x [<-|[<-|[]]]; (split; [tauto|]); [exists (fun _ => 1); destruct Hf as [D V]; rewrite D; split; auto
      |exists (fun _ => 3); destruct Hg as [D V]; rewrite D; split; auto]. }
  assert (P : pos_ok (R3 1 2 3)) by (unfold pos_ok; cbn [rx ry rz]; repeat split; lra).
  assert (POS : 0 < rx (R3 1 2 2) /\ 0 < ry (R3 1 2 2) /\ 0 < rz (R3 1 2 2)) by (cbn; lra).
  split; [reflexivity|]. split; auto. split; auto.
  destruct (C51_sample KDense (R3 1 2 2) (V3 1 0 0) [f; g] 1 (R3 1 2 3) POS eq_refl RD P) as (val & V & A1 & A2 & A3).
  assert (PL : forall i, exists q, same_place (V3 1 0 0) (Z.of_nat i) (V3 0 0 0) (V3 0 0 0) q (R3 1 2 3) /\ pos_ok q).
  { intros i. exists (mip_coord (V3 1 0 0) (Z.of_nat i) (R3 1 2 3)). split; [apply C46_coord; auto; lia|apply coord_ok; auto]. }
  assert (V0 : val 0%nat = 1).
  { destruct (PL 0%nat) as (q & S & Q). specialize (V 0%nat f q eq_refl S). destruct Hf as [D Hf].
    destruct (C27_constant (f_dw f) (f_get f) (fun _ => 1) q 1) as (C & _); try tauto; [intros x Hx; apply Hf; rewrite <- D; auto|congruence]. }
  assert (V1 : val 1%nat = 3).
  { destruct (PL 1%nat) as (q & S & Q). specialize (V 1%nat g q eq_refl S). destruct Hg as [D Hg].
    destruct (C27_constant (f_dw g) (f_get g) (fun _ => 3) q 3) as (C & _); try tauto; [intros x Hx; apply Hg; rewrite <- D; auto|congruence]. }
  assert (W : width (R3 1 2 2) 0 = 1 /\ width (R3 1 2 2) 1 = 2).
  { unfold width. cbn [rx ry rz pow]. rewrite (Rmin_left 2 2), (Rmin_left 1 2) by lra. lra. }
  destruct W as (W0 & W1). split; [|split].
  - rewrite (A3 (3 / 2) 0%nat) by (try lia; rewrite W0, W1; lra). rewrite W0, W1, V0, V1. f_equal. field.
  - rewrite A1 by lra. rewrite V0. reflexivity.
  - rewrite A2 by lra. rewrite V1. reflexivity.
Qed.
