(** Proofs about samples of MIP fields in floating point. *)
From Coq Require Import ZArith Reals List Bool Lia Lra Psatz.
From Flocq Require Import Core BinarySingleNaN Relative Sterbenz.
From Verif Require Import Model.Base Model.MipMapM Model.VecM Model.FloatM Model.FloatMipM Model.FloatCurveM Model.FloatLodM.
From Verif Require Import Spec.VoxelSpec Spec.InterpSpec Spec.FloatSpec Spec.FloatCurveSpec Spec.FloatLodSpec.
From Verif Require Import Proof.BaseP Proof.FloatP Proof.FloatP2 Proof.FloatP3 Proof.FloatMipP Proof.FloatMipP2 Proof.FloatCurveP Proof.FloatLodP.
From Verif Require Import Props.FloatProps.
Import ListNotations.
Open Scope R_scope.

Lemma around_in dw p q : box_nonempty dw -> around dw p q -> in_box q dw.
Proof. intros (A & B & C) (n & -> & _). unfold nearest, in_box. cbn [vx vy vz]. lia. Qed.
Lemma place_range x : place_ok x -> in_int_range x.
Proof.
  intros (F & X). split; [exact F|]. apply Rabs_le_inv in X. assert (E : 2 ^ 31 = 2 * 2 ^ 30) by reflexivity. rewrite E. assert (4 <= 2 ^ 30) by (replace 4 with (2 ^ 2) by ring; apply Rle_pow; [lra|lia]). lra.
Qed.
Definition level_slack (t : vtype) (K : R) : R := match t with VDouble => few_ulps K | _ => 0 end.
Lemma voxels_ok t (f : lod_level t) : (forall q, in_box q (fst f) -> voxel_ok (snd f q)) -> all_finite (fst f) (snd f) /\ no_overflow (fst f) (snd f).
Proof.
  intros V. split; [intros q Q; apply (V q Q)|]. intros -> q Q. destruct (V q Q) as (_ & B). exact B.
Qed.
Lemma level_sample t (f : lod_level t) x y z : box_nonempty (fst f) -> (forall q, in_box q (fst f) -> voxel_ok (snd f q)) -> place_ok x -> place_ok y -> place_ok z ->
  exists r, f_sample t (snd f) (fst f) x y z = Ok r /\ level_ok r /\
    (forall lo hi, (forall q, in_box q (fst f) -> lo <= B2R (snd f q) <= hi) -> lo - level_slack t lo <= B2R r <= hi + level_slack t hi) /\
    ((forall q, in_box q (fst f) -> 0 <= B2R (snd f q)) -> 0 <= B2R r).
Proof.
  intros NE V X Y Z. destruct (voxels_ok t f V) as (AF & NO).
  destruct (C70_defined t (snd f) (fst f) x y z (place_range x X) (place_range y Y) (place_range z Z)) as (r & R). exists r. split; [exact R|].
  assert (IN : forall q, around (fst f) (at_ x y z) q -> in_box q (fst f)) by (intros q; apply around_in; exact NE).
  destruct t.
  - destruct (C70_bounded VHalf (snd f) (fst f) x y z r ltac:(discriminate) NE AF R) as (RF & RB). split; [split; [exact RF|exact I]|]. cbn [level_slack]. split.
    + intros lo hi B. rewrite Rminus_0_r, Rplus_0_r. apply RB. intros q Q. apply B. auto.
    + intros P. apply (RB 0 (top VHalf)). intros q Q. split; [apply P; auto|]. apply (Rabs_le_inv _ _ (top_ge VHalf (snd f q))).
  - destruct (C70_bounded VFloat (snd f) (fst f) x y z r ltac:(discriminate) NE AF R) as (RF & RB). split.
    + split; [exact RF|]. rewrite pow_127. assert (H : - (bpow radix2 127 - bpow radix2 103) <= B2R r <= bpow radix2 127 - bpow radix2 103).
      { apply RB. intros q Q. apply Rabs_le_inv. apply (time_le (snd f q)). exact (V q (IN q Q)). }
      pose proof (bpow_gt_0 radix2 103). apply Rabs_lt. lra.
    + cbn [level_slack]. split.
      * intros lo hi B. rewrite Rminus_0_r, Rplus_0_r. apply RB. intros q Q. apply B. auto.
      * intros P. apply (RB 0 (top VFloat)). intros q Q. split; [apply P; auto|]. apply (Rabs_le_inv _ _ (top_ge VFloat (snd f q))).
  - destruct (C70_double (snd f) (fst f) x y z r NE AF NO R) as (RF & RB & RP). split.
    + split; [exact RF|]. assert (H : - 2 ^ 1019 - few_ulps (- 2 ^ 1019) <= B2R r <= 2 ^ 1019 + few_ulps (2 ^ 1019)).
      { apply RB. intros q Q. apply Rabs_le_inv. apply (V q (IN q Q)). }
      unfold few_ulps in H. rewrite Rabs_Ropp, Rabs_pos_eq in H by (apply pow_le; lra).
      assert (E : 2 ^ 1023 = 16 * 2 ^ 1019) by (replace 16 with (2 ^ 4) by ring; rewrite <- pow_add; reflexivity). rewrite E.
      assert (P1 : 1 <= 2 ^ 1019) by (apply pow_R1_Rle; lra). assert (P2 : / 2 ^ 1071 <= 1) by (rewrite <- Rinv_1; apply Rinv_le; [lra|apply pow_R1_Rle; lra]).
      assert (P3 : 2 ^ 1019 / 2 ^ 49 <= 2 ^ 1019).
      { apply Rmult_le_reg_r with (2 ^ 49); [apply pow_lt; lra|]. unfold Rdiv. rewrite Rmult_assoc, Rinv_l by (apply pow_nonzero; lra).
        apply Rmult_le_compat_l; [lra|]. apply pow_R1_Rle. lra. }
      apply Rabs_lt. set (p := 2 ^ 1019) in *. set (i := / 2 ^ 1071) in *. set (h := p / 2 ^ 49) in *. clearbody p i h. lra.
    + cbn [level_slack]. split.
      * intros lo hi B. apply RB. intros q Q. apply B. auto.
      * intros P. apply RP. intros q Q. apply P. auto.
Qed.
Lemma coord_place off l x : place_ok x -> (Z.abs off < 2 ^ 30)%Z -> (l <= 30)%nat -> place_ok (lod_coord off l x).
Proof. intros X O L. destruct (coord_val off l x X O L) as (F & B & _). split; auto. Qed.
Lemma slack_half K : lod_slack VHalf K = 0.
Proof. reflexivity. Qed.
Lemma slack_eq t K : t <> VHalf -> lod_slack t K = 4 * c24 * Rabs K + 4 * bpow radix2 (-150).
Proof.
  intros N. assert (E : lod_slack t K = Rabs K / 2 ^ 22 + / 2 ^ 148) by (destruct t; congruence || reflexivity). rewrite E. f_equal; [unfold c24; field|].
  rewrite inv_pow_bpow. change 4 with (bpow radix2 2). rewrite <- bpow_plus. reflexivity.
Qed.
Lemma few_small K : 0 <= few_ulps K <= c24 / 1000000 * Rabs K + bpow radix2 (-150) / 1000000.
Proof.
  unfold few_ulps. pose proof (Rabs_pos K) as P.
  assert (A : 0 < / 2 ^ 49 <= c24 / 1000000) by (unfold c24; split; [apply Rinv_0_lt_compat, pow_lt; lra|simpl; lra]).
  assert (B : 0 < / 2 ^ 1071 <= bpow radix2 (-150) / 1000000).
  { rewrite inv_pow_bpow. split; [apply bpow_gt_0|]. apply Rle_trans with (bpow radix2 (-20 + -150)); [apply bpow_le; cbn; lia|]. rewrite bpow_plus.
    change (bpow radix2 (-20)) with (/ 1048576). pose proof (bpow_gt_0 radix2 (-150)). lra. }
  unfold Rdiv at 1 3. nra.
Qed.
Lemma slack_level t K : 0 <= level_slack t K <= lod_slack t K.
Proof.
  destruct t; cbn [level_slack]; [rewrite slack_half; lra|rewrite slack_eq by discriminate|rewrite slack_eq by discriminate].
  - pose proof (Rabs_pos K). pose proof (bpow_gt_0 radix2 (-150)). unfold c24. lra.
  - pose proof (few_small K). pose proof (Rabs_pos K). pose proof (bpow_gt_0 radix2 (-150)). unfold c24 in *. lra.
Qed.
(** Between two levels. *)
Lemma lerp_upper t (a b : val t) x hi : level_ok a -> level_ok b -> is_finite x = true -> 0 <= B2R x <= 1 ->
  B2R a <= hi + level_slack t hi -> B2R b <= hi + level_slack t hi -> B2R (lod_lerp a b x) <= hi + lod_slack t hi.
Proof.
  intros A B F X LA LB. destruct (lod_lerp_ok t a b x A B F X) as (S1 & S2 & _ & _ & ->). set (s := rnd VFloat (1 - B2R x)) in *. destruct t.
  - cbn [level_slack] in *. rewrite slack_half. set (M := round radix2 (fx VHalf) Zfloor hi).
    assert (FM : vfmt VHalf M) by (apply generic_format_round; typeclasses eauto). assert (MH : M <= hi) by (apply round_DN_pt; typeclasses eauto).
    assert (D : forall v : val VHalf, B2R v <= hi + 0 -> B2R v <= M) by (intros v L; apply round_DN_pt; [typeclasses eauto|apply (vfmt_B2R VHalf)|lra]).
    apply Rle_trans with M; [|lra]. apply half_le; [exact FM|]. apply mix_le; auto; discriminate.
  - cbn [level_slack] in *. rewrite slack_eq by discriminate. cbn [ct]. rewrite rnd_fmt by apply rnd_is. eapply Rle_trans; [apply (mix_le VFloat s (B2R x) _ _ hi); auto; [discriminate|lra|lra]|].
    unfold wander. pose proof (Rabs_pos hi). pose proof (bpow_gt_0 radix2 (-150)). unfold c24. lra.
  - cbn [level_slack] in *. rewrite slack_eq by discriminate. cbn [ct]. rewrite rnd_fmt by apply rnd_is. eapply Rle_trans; [apply (mix_le VDouble s (B2R x) _ _ (hi + few_ulps hi)); auto; discriminate|].
    unfold wander. pose proof (few_small hi) as (P & Q). pose proof (Rabs_triang hi (few_ulps hi)) as T. rewrite (Rabs_pos_eq (few_ulps hi)) in T by auto.
    pose proof (Rabs_pos hi). pose proof (bpow_gt_0 radix2 (-150)). unfold c24 in *. lra.
Qed.
Lemma lerp_floor t (a b : val t) x lo : level_ok a -> level_ok b -> is_finite x = true -> 0 <= B2R x <= 1 ->
  lo - level_slack t lo <= B2R a -> lo - level_slack t lo <= B2R b -> lo - lod_slack t lo <= B2R (lod_lerp a b x).
Proof.
  intros A B F X LA LB. destruct (lod_lerp_ok t a b x A B F X) as (S1 & S2 & _ & _ & ->). set (s := rnd VFloat (1 - B2R x)) in *. destruct t.
  - cbn [level_slack] in *. rewrite slack_half. set (M := round radix2 (fx VHalf) Zceil lo).
    assert (FM : vfmt VHalf M) by (apply generic_format_round; typeclasses eauto). assert (MH : lo <= M) by (apply round_UP_pt; typeclasses eauto).
    assert (D : forall v : val VHalf, lo - 0 <= B2R v -> M <= B2R v) by (intros v L; apply round_UP_pt; [typeclasses eauto|apply (vfmt_B2R VHalf)|lra]).
    apply Rle_trans with M; [lra|]. apply half_ge; [exact FM|]. apply mix_ge; auto; discriminate.
  - cbn [level_slack] in *. rewrite slack_eq by discriminate. cbn [ct]. rewrite rnd_fmt by apply rnd_is. eapply Rle_trans; [|apply (mix_ge VFloat s (B2R x) _ _ lo); auto; [discriminate|lra|lra]].
    unfold wander. pose proof (Rabs_pos lo). pose proof (bpow_gt_0 radix2 (-150)). unfold c24. lra.
  - cbn [level_slack] in *. rewrite slack_eq by discriminate. cbn [ct]. rewrite rnd_fmt by apply rnd_is. eapply Rle_trans; [|apply (mix_ge VDouble s (B2R x) _ _ (lo - few_ulps lo)); auto; discriminate].
    unfold wander. pose proof (few_small lo) as (P & Q). pose proof (Rabs_triang lo (- few_ulps lo)) as T. rewrite Rabs_Ropp, (Rabs_pos_eq (few_ulps lo)) in T by auto. fold (lo - few_ulps lo) in T.
    pose proof (Rabs_pos lo). pose proof (bpow_gt_0 radix2 (-150)). unfold c24 in *. lra.
Qed.
Lemma lerp_pos t (a b : val t) x : level_ok a -> level_ok b -> is_finite x = true -> 0 <= B2R x <= 1 -> 0 <= B2R a -> 0 <= B2R b -> 0 <= B2R (lod_lerp a b x).
Proof.
  intros A B F X LA LB. destruct (lod_lerp_ok t a b x A B F X) as (S1 & S2 & _ & _ & ->). rewrite <- (rnd_0 t). apply rnd_le.
  apply Rle_trans with (mix (ct t) (rnd VFloat (1 - B2R x)) (B2R x) 0 0); [unfold mix; rewrite !Rmult_0_l, !rnd_0, Rplus_0_l, rnd_0; lra|]. apply mix_mono; lra.
Qed.
Lemma lerp_mono t (a b a' b' : val t) x : level_ok a -> level_ok b -> level_ok a' -> level_ok b' -> is_finite x = true -> 0 <= B2R x <= 1 ->
  B2R a <= B2R a' -> B2R b <= B2R b' -> B2R (lod_lerp a b x) <= B2R (lod_lerp a' b' x).
Proof.
  intros A B A' B' F X LA LB. destruct (lod_lerp_ok t a b x A B F X) as (S1 & _ & _ & _ & ->). destruct (lod_lerp_ok t a' b' x A' B' F X) as (_ & _ & _ & _ & ->).
  apply rnd_le, mix_mono; auto; lra.
Qed.
Lemma lerp_near t (a b : val t) x tau : level_ok a -> level_ok b -> is_finite x = true -> 0 <= B2R x <= 1 -> Rabs (B2R x - tau) <= 4 * c24 ->
  Rabs (B2R (lod_lerp a b x) - (B2R a + (B2R b - B2R a) * tau)) <= lod_rounding t (B2R a) (B2R b) \/ ~ 0 <= tau <= 1.
Proof.
  intros A B F X T. destruct (Rle_lt_dec 0 tau) as [T0|T0]; [|right; lra]. destruct (Rle_lt_dec tau 1) as [T1|T1]; [left|right; lra]. destruct t.
  - destruct A as (FA & _), B as (FB & _). destruct (up_ok VHalf a FA) as (UA & VA). destruct (up_ok VHalf b FB) as (UB & VB). cbn [ct] in UA, VA, UB, VB.
    assert (CO : forall v : val VHalf, is_finite (cast VFloat v) = true -> B2R (cast VFloat v) = B2R v -> comp_ok (cast VFloat v)).
    { intros v P Q. split; [exact P|]. rewrite Q, pow_127. eapply Rle_lt_trans; [apply top_ge|]. eapply Rlt_le_trans; [apply top_lt|]. apply bpow_le. cbn. lia. }
    destruct (lerp_err VFloat (cast VFloat a) (cast VFloat b) x tau (CO a UA VA) (CO b UB VB) F X T) as (LF & LE). rewrite VA, VB in LE.
    destruct (lerp_val VFloat (cast VFloat a) (cast VFloat b) x (CO a UA VA) (CO b UB VB) F X) as (_ & _ & _ & _ & LV). rewrite VA, VB in LV.
    destruct (lod_lerp_ok VHalf a b x (conj FA I) (conj FB I) F X) as (_ & _ & _ & _ & V). rewrite V. unfold mix. cbn [ct]. rewrite <- LV.
    set (y := B2R (t_lerp (cast VFloat a) (cast VFloat b) x)) in *. set (u := B2R a) in *. set (w := B2R b) in *.
    set (g := Rmax (Rabs u) (Rabs w)) in *. pose proof (Rmax_l (Rabs u) (Rabs w)) as GU. pose proof (Rmax_r (Rabs u) (Rabs w)) as GW. fold g in GU, GW.
    pose proof (rnd_err VHalf y) as E. change (unit VHalf) with (/ 2048) in E. change (tiny VHalf) with (/ 33554432) in E.
    unfold curve_rounding in LE. fold g in LE. cbn [lod_rounding]. fold g.
    assert (W : Rabs (w - u) <= 2 * g) by (eapply Rle_trans; [apply Rabs_triang|]; rewrite Rabs_Ropp; lra).
    assert (K : / 2 ^ 148 <= / 1000000000000) by (apply Rinv_le; [lra|]; apply Rle_trans with (2 ^ 40); [simpl; lra|apply Rle_pow; [lra|lia]]).
    set (k := / 2 ^ 148) in *. set (v := u + (w - u) * tau) in *.
    assert (V0 : Rabs v <= g).
    { unfold v. replace (u + (w - u) * tau) with (u * (1 - tau) + w * tau) by ring. eapply Rle_trans; [apply Rabs_triang|]. rewrite !Rabs_mult, (Rabs_pos_eq (1 - tau)), (Rabs_pos_eq tau) by lra.
      pose proof (Rmult_le_compat_r (1 - tau) _ _ ltac:(lra) GU). pose proof (Rmult_le_compat_r tau _ _ T0 GW). lra. }
    assert (Y0 : Rabs y <= Rabs v + Rabs (y - v)) by (replace y with (v + (y - v)) at 1 by ring; apply Rabs_triang).
    assert (G0 : 0 <= g) by (eapply Rle_trans; [apply Rabs_pos|exact GU]).
    replace (rnd VHalf y - v) with ((rnd VHalf y - y) + (y - v)) by ring. eapply Rle_trans; [apply Rabs_triang|].
    replace (g / 2 ^ 10) with (g * / 1024) by (simpl; field). replace (/ 2 ^ 24) with (/ 16777216) by (simpl; lra).
    assert (LE' : Rabs (y - v) <= 3 * g * / 4194304 + k) by (eapply Rle_trans; [exact LE|]; assert (Q : forall q, q / 2 ^ 22 = q * / 4194304) by (intros; simpl; field); rewrite !Q; lra).
    lra.
  - destruct (lerp_err VFloat a b x tau A B F X T) as (_ & LE). exact LE.
  - destruct (lerp_err VDouble a b x tau A B F X T) as (_ & LE). exact LE.
Qed.

(** * Which levels *)
Section Levels.
  Variables (t : vtype) (size : time) (off : v3) (m : nat) (fs : list (lod_level t)).
  Hypotheses (SO : size_ok size m) (LM : length fs = S m) (M30 : (m <= 30)%nat).
  Lemma sample_low spot x y z : is_finite spot = true -> B2R spot <= side size 0 -> lod_sample t size off fs x y z spot = lod_at t fs 0 x y z.
  Proof.
    intros F L. unfold lod_sample. rewrite LM. destruct (info_low size m spot F SO ltac:(lia) L) as (A & B). rewrite A, B. reflexivity.
  Qed.
  Lemma sample_last spot x y z : lod_lower (lod_info size (S m) spot) = m -> lod_upper (lod_info size (S m) spot) = m ->
    lod_sample t size off fs x y z spot = match m with O => lod_at t fs 0 x y z | _ => lod_in t off fs m x y z end.
  Proof. intros A B. unfold lod_sample. rewrite LM, A, B, Nat.eqb_refl. destruct m; reflexivity. Qed.
  Lemma sample_high spot x y z : is_finite spot = true -> side size m < B2R spot ->
    lod_sample t size off fs x y z spot = match m with O => lod_at t fs 0 x y z | _ => lod_in t off fs m x y z end.
  Proof. intros F L. destruct (info_high size m spot F SO ltac:(lia) L). apply sample_last; auto. Qed.
  Lemma sample_mid spot j x y z : is_finite spot = true -> (j < m)%nat -> side size j < B2R spot <= side size (S j) ->
    exists f : time, is_finite f = true /\ B2R f = rnd VFloat ((B2R spot - side size j) / side size j) /\
    lod_sample t size off fs x y z spot = (let* v0 := lod_in t off fs j x y z in let* v1 := lod_in t off fs (S j) x y z in Ok (lod_lerp v0 v1 f)).
  Proof.
    intros F J L. destruct (info_mid size m spot j F SO ltac:(lia) J L) as (A & B & C & D). eexists. split; [exact C|]. split; [exact D|].
    unfold lod_sample. rewrite LM, A, B. destruct (Nat.eqb_spec j (S j)) as [E|_]; [lia|]. reflexivity.
  Qed.
  Lemma sample_nan spot x y z : is_nan spot = true -> lod_sample t size off fs x y z spot = match m with O => lod_at t fs 0 x y z | _ => lod_in t off fs m x y z end.
  Proof.
    intros N. destruct spot; try discriminate. apply sample_last.
    - unfold lod_info. assert (E : forall s : time, Bleb (B754_nan : time) s = false) by (intros s; destruct s as [| | |]; reflexivity). rewrite E.
      assert (G : forall k i, lod_between size B754_nan i k = None) by (induction k as [|k IH]; intros i; cbn [lod_between]; [reflexivity|rewrite E; apply IH]).
      rewrite G. cbn. lia.
    - unfold lod_info. assert (E : forall s : time, Bleb (B754_nan : time) s = false) by (intros s; destruct s as [| | |]; reflexivity). rewrite E.
      assert (G : forall k i, lod_between size B754_nan i k = None) by (induction k as [|k IH]; intros i; cbn [lod_between]; [reflexivity|rewrite E; apply IH]).
      rewrite G. cbn. lia.
  Qed.
  Lemma sample_inf s x y z : lod_sample t size off fs x y z (B754_infinity s) =
    if s then lod_at t fs 0 x y z else match m with O => lod_at t fs 0 x y z | _ => lod_in t off fs m x y z end.
  Proof.
    assert (Z0 : forall i, (i <= m)%nat -> is_finite (lod_size size i) = true) by (intros i I; apply (lod_size_ok size i m SO I); lia).
    assert (E : forall s' i, (i <= m)%nat -> Bleb (B754_infinity s' : time) (lod_size size i) = s').
    { intros s' i I. specialize (Z0 i I). destruct (lod_size size i) as [| | |]; try discriminate; destruct s'; reflexivity. }
    destruct s.
    - unfold lod_sample. rewrite LM. unfold lod_info. rewrite E by lia. reflexivity.
    - assert (G : forall k i, (i + k <= S m)%nat -> lod_between size (B754_infinity false) i k = None).
      { induction k as [|k IH]; intros i I; cbn [lod_between]; [reflexivity|]. rewrite E by lia. apply IH. lia. }
      apply sample_last; unfold lod_info; rewrite E, G by lia; cbn; lia.
  Qed.
  Lemma between_sides s : side size 0 < s -> s <= side size m -> exists j, (j < m)%nat /\ side size j < s <= side size (S j).
  Proof.
    intros L. clear LM M30. clear SO. induction m as [|k IH]; intros U; [lra|]. destruct (Rle_lt_dec s (side size k)) as [H|H].
    - destruct (IH H) as (j & J & P). exists j. split; [lia|exact P].
    - exists k. split; [lia|lra].
  Qed.
End Levels.

(** Every spot. *)
Lemma sample_shape t size off m spot x y z : size_ok size m -> (m <= 30)%nat ->
  (forall fs : list (lod_level t), length fs = S m -> lod_sample t size off fs x y z spot = lod_at t fs 0 x y z) \/
  (forall fs : list (lod_level t), length fs = S m -> lod_sample t size off fs x y z spot = lod_in t off fs m x y z) \/
  exists j (f : time), (j < m)%nat /\ is_finite f = true /\ 0 <= B2R f <= 1 /\
    forall fs : list (lod_level t), length fs = S m ->
      lod_sample t size off fs x y z spot = (let* v0 := lod_in t off fs j x y z in let* v1 := lod_in t off fs (S j) x y z in Ok (lod_lerp v0 v1 f)).
Proof.
  intros SO M30.
  assert (LAST : (forall fs : list (lod_level t), length fs = S m -> lod_sample t size off fs x y z spot = match m with O => lod_at t fs 0 x y z | _ => lod_in t off fs m x y z end) ->
    (forall fs : list (lod_level t), length fs = S m -> lod_sample t size off fs x y z spot = lod_at t fs 0 x y z) \/
    (forall fs : list (lod_level t), length fs = S m -> lod_sample t size off fs x y z spot = lod_in t off fs m x y z)).
  { destruct m; [left|right]; auto. }
  destruct (is_finite spot) eqn:F.
  - destruct (Rle_lt_dec (B2R spot) (side size 0)) as [L|L]; [left; intros; eapply sample_low; eauto|].
    destruct (Rle_lt_dec (B2R spot) (side size m)) as [H|H].
    + right; right. destruct (between_sides size m (B2R spot) L H) as (j & J & P).
      destruct (info_mid size m spot j F SO ltac:(lia) J P) as (A & B & C & D). exists j, (lod_t (lod_info size (S m) spot)). split; [exact J|]. split; [exact C|].
      split. { rewrite D. apply factor_range; [apply (side_le size j m SO); lia|]. unfold side in P |- *. cbn [pow] in P. lra. }
      intros fs LM. unfold lod_sample. rewrite LM, A, B. destruct (Nat.eqb_spec j (S j)) as [E|_]; [lia|]. reflexivity.
    + destruct LAST as [G|G]; auto. intros fs LM. apply sample_high; auto.
  - destruct spot as [b|b| |b mm e H]; try discriminate.
    + destruct b; [left; intros fs LM; apply (sample_inf t size off m fs SO LM M30 true)|].
      destruct LAST as [G|G]; auto. intros fs LM. apply (sample_inf t size off m fs SO LM M30 false).
    + destruct LAST as [G|G]; auto. intros fs LM. apply sample_nan; auto.
Qed.
(** The levels of a field. *)
Lemma levels_nth t (fs : list (lod_level t)) l : levels_ok fs -> (l < length fs)%nat ->
  exists f, nth_error fs l = Some f /\ In f fs /\ box_nonempty (fst f) /\ forall q, in_box q (fst f) -> voxel_ok (snd f q).
Proof.
  intros (_ & _ & V) L. destruct (nth_error fs l) as [f|] eqn:E; [|apply nth_error_None in E; lia]. exists f. split; auto. apply nth_error_In in E. split; auto.
Qed.
Lemma at_ok t (fs : list (lod_level t)) l x y z : levels_ok fs -> (l < length fs)%nat -> place_ok x -> place_ok y -> place_ok z ->
  exists r, lod_at t fs l x y z = Ok r /\ level_ok r /\
    (forall lo hi, (forall f q, In f fs -> in_box q (fst f) -> lo <= B2R (snd f q) <= hi) -> lo - level_slack t lo <= B2R r <= hi + level_slack t hi) /\
    ((forall f q, In f fs -> in_box q (fst f) -> 0 <= B2R (snd f q)) -> 0 <= B2R r).
Proof.
  intros LO L X Y Z. destruct (levels_nth t fs l LO L) as (f & N & I & NE & V). destruct (level_sample t f x y z NE V X Y Z) as (r & R & P & Q & S).
  exists r. unfold lod_at. rewrite N. split; [exact R|]. split; [exact P|]. split; [intros lo hi B; apply Q; intros q; apply B; auto|intros B; apply S; intros q; apply B; auto].
Qed.
Lemma in_ok t off (fs : list (lod_level t)) l x y z : levels_ok fs -> shift_ok off -> (l < length fs)%nat -> place_ok x -> place_ok y -> place_ok z ->
  exists r, lod_in t off fs l x y z = Ok r /\ level_ok r /\
    (forall lo hi, (forall f q, In f fs -> in_box q (fst f) -> lo <= B2R (snd f q) <= hi) -> lo - level_slack t lo <= B2R r <= hi + level_slack t hi) /\
    ((forall f q, In f fs -> in_box q (fst f) -> 0 <= B2R (snd f q)) -> 0 <= B2R r).
Proof.
  intros LO (OX & OY & OZ) L X Y Z. assert (L30 : (l <= 30)%nat) by (destruct LO as (_ & G & _); lia). unfold lod_in. apply at_ok; auto; apply coord_place; auto.
Qed.
Lemma at_mono t (fs gs : list (lod_level t)) l x y z r s : levels_ok fs -> levels_ok gs -> Forall2 (fun f g => fst f = fst g /\ forall q, in_box q (fst f) -> B2R (snd f q) <= B2R (snd g q)) fs gs ->
  lod_at t fs l x y z = Ok r -> lod_at t gs l x y z = Ok s -> B2R r <= B2R s.
Proof.
  intros LF LG FG R S. unfold lod_at in R, S. destruct (nth_error fs l) as [f|] eqn:Ef; [|discriminate]. destruct (nth_error gs l) as [g|] eqn:Eg; [|discriminate].
  assert (P : fst f = fst g /\ forall q, in_box q (fst f) -> B2R (snd f q) <= B2R (snd g q)).
  { clear R S LF LG. revert l Ef Eg. induction FG as [|f' g' fs gs H FG IH]; intros [|l] Ef Eg; cbn in Ef, Eg; try discriminate; [injection Ef as <-; injection Eg as <-; exact H|eauto]. }
  destruct P as (E & P). apply nth_error_In in Ef, Eg. destruct LF as (_ & _ & VF), LG as (_ & _ & VG). destruct (VF f Ef) as (NE & V), (VG g Eg) as (_ & W).
  destruct (voxels_ok t f V) as (A & B). destruct (voxels_ok t g W) as (C & D). rewrite <- E in S, C, D.
  eapply (C70_monotone t (snd f) (snd g) (fst f)); eauto. intros q Q. apply P. eapply around_in; eauto.
Qed.
