From Coq Require Import ZArith Reals List Bool Lia Lra.
From Flocq Require Import Core BinarySingleNaN.
From Verif Require Import Model.Base Model.VecM Model.RealM Model.InterpM Model.FloatM Model.FloatMipM Model.FloatCubicM Model.FloatVecM.
From Verif Require Import Spec.VoxelSpec Spec.InterpSpec Spec.FloatSpec Spec.FloatVecSpec.
From Verif Require Import Proof.BaseP Proof.InterpP Proof.FloatP Proof.FloatP2 Proof.FloatP3 Proof.FloatMipP Proof.FloatMipP2 Proof.FloatMipP4 Proof.FloatCubicP.
Open Scope R_scope.

Definition s3 (t : vtype) (x : R) : R := nround t (rd x).
Definition vmixr (t : vtype) (a b v w : R) : R := r2 t (s3 t (a * v) + s3 t (b * w)).
Definition vtri (t : vtype) (ax bx ay by_ az bz v1 v2 v3 v4 v5 v6 v7 v8 : R) : R :=
  vmixr t ax bx (vmixr t ay by_ (vmixr t az bz v1 v2) (vmixr t az bz v3 v4)) (vmixr t ay by_ (vmixr t az bz v5 v6) (vmixr t az bz v7 v8)).
Lemma s3_mono t x y : x <= y -> s3 t x <= s3 t y.
Proof. intros H. apply nround_mono, rd_le. auto. Qed.
Lemma r2_mono t x y : x <= y -> r2 t x <= r2 t y.
Proof. intros H. apply rnd_le, rnd_le. auto. Qed.
Lemma vfmt_rd t x : vfmt t x -> rd x = x.
Proof. intros H. apply (fmt_up t VDouble) in H; [|destruct t; unfold wider; cbn; lia]. apply (rnd_fmt VDouble) in H. exact H. Qed.
Lemma vfmt_nround t x : vfmt t x -> nround t x = x.
Proof.
  intros H. destruct t; cbn [nround]; auto.
  - assert (A : rd32 x = x) by (apply (rnd_fmt VFloat), (fmt_up VHalf); auto; unfold wider; cbn; lia). rewrite A. apply (rnd_fmt VHalf). auto.
  - apply (rnd_fmt VFloat). auto.
Qed.
Lemma s3_fmt t x : vfmt t x -> s3 t x = x.
Proof. intros H. unfold s3. rewrite (vfmt_rd t); auto. apply vfmt_nround. auto. Qed.
Lemma fmt_0 t : vfmt t 0.
Proof. apply generic_format_0. Qed.
Lemma s3_0 t : s3 t 0 = 0.
Proof. apply s3_fmt, fmt_0. Qed.
Lemma s3_abs t x K : vfmt t K -> Rabs x <= K -> Rabs (s3 t x) <= K.
Proof.
  intros F H. apply Rabs_le_inv in H. apply Rabs_le. split.
  - rewrite <- (s3_fmt t (- K)) by (apply generic_format_opp; auto). apply s3_mono. tauto.
  - rewrite <- (s3_fmt t K) by auto. apply s3_mono. tauto.
Qed.
Lemma r2_abs t x K : vfmt t K -> Rabs x <= K -> Rabs (r2 t x) <= K.
Proof.
  intros F H. apply Rabs_le_inv in H. apply Rabs_le. split.
  - rewrite <- (fmt_r2 t (- K)) by (apply generic_format_opp; auto). apply r2_mono. tauto.
  - rewrite <- (fmt_r2 t K) by auto. apply r2_mono. tauto.
Qed.
Lemma weight_abs (a : f64) v K : weight a -> Rabs v <= K -> Rabs (B2R a * v) <= K.
Proof. intros (_ & A) H. rewrite Rabs_mult, (Rabs_pos_eq (B2R a)) by lra. pose proof (Rabs_pos v). nra. Qed.
Lemma scale_ok t a (v : val t) : weight a -> is_finite v = true ->
  is_finite (v_scale t a v) = true /\ B2R (v_scale t a v) = s3 t (B2R a * B2R v).
Proof.
  intros W F. destruct (widen_ok t v F) as (P & Q). unfold v_scale, s3.
  assert (T : Rabs (B2R a * B2R v) <= top t) by (apply weight_abs; auto; apply top_ge).
  destruct (vmul_ok VDouble (widen t v) a) as (A & B); [exact P|apply W| |].
  { unfold fits. eapply Rle_trans; [|apply (top_up t VDouble); destruct t; unfold wider; cbn; lia].
    replace (B2R (widen t v : val VDouble)) with (B2R v) by (symmetry; exact Q). change (B2R (a : val VDouble)) with (B2R a). rewrite Rmult_comm. exact T. }
  assert (B' : B2R (fmul (widen t v) a) = rd (B2R a * B2R v)).
  { eapply eq_trans; [exact B|]. replace (B2R (widen t v : val VDouble)) with (B2R v) by (symmetry; exact Q). change (B2R (a : val VDouble)) with (B2R a). rewrite Rmult_comm. reflexivity. }
  assert (R : Rabs (rd (B2R a * B2R v)) <= top t).
  { apply Rabs_le_inv in T. pose proof (vfmt_rd t (top t) (top_fmt t)) as E. assert (E' : rd (- top t) = - top t) by (rewrite rd_opp, E; auto).
    apply Rabs_le. split; [rewrite <- E'|rewrite <- E]; apply rd_le; tauto. }
  destruct (vtype_eq t) as [->|N].
  - cbn [narrow nround]. split; [exact A|exact B'].
  - destruct (narrow_ok t (fmul (widen t v) a) N A) as (C & D).
    { rewrite B'. apply Rabs_le_inv in R. assert (0 <= spread (top t)) by (unfold spread; pose proof u_small; pose proof eta_pos; pose proof (Rabs_pos (top t)); nra). lra. }
    split; [exact C|]. rewrite D, B'. reflexivity.
Qed.
Lemma vmix_ok t a b (v w : val t) : weights a b -> is_finite v = true -> is_finite w = true ->
  fits t (s3 t (B2R a * B2R v) + s3 t (B2R b * B2R w)) ->
  is_finite (v_mix t a b v w) = true /\ B2R (v_mix t a b v w) = vmixr t (B2R a) (B2R b) (B2R v) (B2R w).
Proof.
  intros (A & B & _) V W F. destruct (scale_ok t a v A V) as (P & Q). destruct (scale_ok t b w B W) as (P' & Q'). unfold v_mix, vmixr. rewrite <- Q, <- Q' in *.
  apply wadd_ok; auto.
Qed.
Lemma fmt_pow t k : (0 <= k < emax t)%Z -> vfmt t (bpow radix2 k).
Proof. intros K. apply generic_format_bpow. unfold SpecFloat.fexp, SpecFloat.emin. destruct t; cbn [prec emax] in *; lia. Qed.
Lemma pow_fits t k x : (k < emax t)%Z -> Rabs x <= bpow radix2 k -> fits t x.
Proof.
  intros K H. unfold fits, top. eapply Rle_trans; [exact H|]. assert (A : bpow radix2 k <= bpow radix2 (emax t - 1)) by (apply bpow_le; lia).
  assert (B : bpow radix2 (emax t - prec t) <= bpow radix2 (emax t - 1)) by (apply bpow_le; destruct t; cbn; lia).
  replace (bpow radix2 (emax t)) with (2 * bpow radix2 (emax t - 1)); [lra|]. change 2 with (bpow radix2 1). rewrite <- bpow_plus. f_equal. lia.
Qed.
Lemma vmix_pow t a b (v w : val t) k : weights a b -> is_finite v = true -> is_finite w = true -> (0 <= k < emax t - 1)%Z ->
  Rabs (B2R v) <= bpow radix2 k -> Rabs (B2R w) <= bpow radix2 k ->
  is_finite (v_mix t a b v w) = true /\ B2R (v_mix t a b v w) = vmixr t (B2R a) (B2R b) (B2R v) (B2R w) /\ Rabs (B2R (v_mix t a b v w)) <= bpow radix2 (k + 1).
Proof.
  intros W V Ww K HV HW. pose proof W as (A & B & _).
  assert (F : vfmt t (bpow radix2 k)) by (apply fmt_pow; lia).
  assert (S : Rabs (s3 t (B2R a * B2R v) + s3 t (B2R b * B2R w)) <= bpow radix2 (k + 1)).
  { rewrite bpow_plus. change (bpow radix2 1) with 2. eapply Rle_trans; [apply Rabs_triang|].
    pose proof (s3_abs t (B2R a * B2R v) _ F (weight_abs _ _ _ A HV)). pose proof (s3_abs t (B2R b * B2R w) _ F (weight_abs _ _ _ B HW)). lra. }
  destruct (vmix_ok t a b v w W V Ww) as (P & Q); [apply (pow_fits t (k + 1)); [lia|exact S]|]. split; auto. split; auto. rewrite Q.
  apply r2_abs; auto. apply fmt_pow. lia.
Qed.
Definition K4 (t : vtype) : Z := (emax t - 4)%Z.
Lemma sixteenth_val t : sixteenth t = bpow radix2 (K4 t).
Proof. destruct t; unfold sixteenth; rewrite pow_bpow; reflexivity. Qed.
Lemma vtri_ok t ax bx ay by_ az bz (v1 v2 v3 v4 v5 v6 v7 v8 : val t) : weights ax bx -> weights ay by_ -> weights az bz ->
  (forall v, In v (v1 :: v2 :: v3 :: v4 :: v5 :: v6 :: v7 :: v8 :: nil) -> is_finite v = true /\ Rabs (B2R v) <= sixteenth t) ->
  is_finite (v_trilinear t ax bx ay by_ az bz v1 v2 v3 v4 v5 v6 v7 v8) = true /\
  B2R (v_trilinear t ax bx ay by_ az bz v1 v2 v3 v4 v5 v6 v7 v8) =
  vtri t (B2R ax) (B2R bx) (B2R ay) (B2R by_) (B2R az) (B2R bz) (B2R v1) (B2R v2) (B2R v3) (B2R v4) (B2R v5) (B2R v6) (B2R v7) (B2R v8).
Proof.
  intros X Y Z H. rewrite sixteenth_val in H. unfold v_trilinear, vtri.
  assert (E : (0 <= K4 t)%Z /\ (K4 t + 1 + 1 + 1 <= emax t - 1)%Z) by (destruct t; cbn; lia). destruct E as (E0 & E1).
  assert (L : forall v w, In v (v1 :: v2 :: v3 :: v4 :: v5 :: v6 :: v7 :: v8 :: nil) -> In w (v1 :: v2 :: v3 :: v4 :: v5 :: v6 :: v7 :: v8 :: nil) ->
    is_finite (v_mix t az bz v w) = true /\ B2R (v_mix t az bz v w) = vmixr t (B2R az) (B2R bz) (B2R v) (B2R w) /\ Rabs (B2R (v_mix t az bz v w)) <= bpow radix2 (K4 t + 1)).
  { intros v w I J. destruct (H v I), (H w J). apply vmix_pow; auto. lia. }
  destruct (L v1 v2) as (F1 & V1 & B1); [cbn; tauto..|]. destruct (L v3 v4) as (F2 & V2 & B2); [cbn; tauto..|].
  destruct (L v5 v6) as (F3 & V3' & B3); [cbn; tauto..|]. destruct (L v7 v8) as (F4 & V4 & B4); [cbn; tauto..|].
  destruct (vmix_pow t ay by_ _ _ (K4 t + 1) Y F1 F2) as (G1 & U1 & C1); auto; [lia|]. destruct (vmix_pow t ay by_ _ _ (K4 t + 1) Y F3 F4) as (G2 & U2 & C2); auto; [lia|].
  destruct (vmix_pow t ax bx _ _ (K4 t + 1 + 1) X G1 G2) as (G & U & C); auto; [lia|].
  split; auto. rewrite U, U1, U2, V1, V2, V3', V4. reflexivity.
Qed.
(** Monotony. *)
Lemma vmixr_mono0 t a b v w v' w' : 0 <= a -> 0 <= b -> (a = 0 \/ v <= v') -> (b = 0 \/ w <= w') -> vmixr t a b v w <= vmixr t a b v' w'.
Proof.
  intros A B V W. apply r2_mono, Rplus_le_compat; apply s3_mono.
  - destruct V as [->|V]; [rewrite !Rmult_0_l; lra|apply Rmult_le_compat_l; auto].
  - destruct W as [->|W]; [rewrite !Rmult_0_l; lra|apply Rmult_le_compat_l; auto].
Qed.
Ltac zero := match goal with |- ?a = 0 \/ _ => destruct (Req_dec a 0); [left; assumption|right] end.
Lemma vtri_mono t ax bx ay by_ az bz v1 v2 v3 v4 v5 v6 v7 v8 w1 w2 w3 w4 w5 w6 w7 w8 : 0 <= ax -> 0 <= bx -> 0 <= ay -> 0 <= by_ -> 0 <= az -> 0 <= bz ->
  weighed ax bx ay by_ az bz v1 v2 v3 v4 v5 v6 v7 v8 Rle w1 w2 w3 w4 w5 w6 w7 w8 ->
  vtri t ax bx ay by_ az bz v1 v2 v3 v4 v5 v6 v7 v8 <= vtri t ax bx ay by_ az bz w1 w2 w3 w4 w5 w6 w7 w8.
Proof.
  intros X1 X2 Y1 Y2 Z1 Z2 (H1 & H2 & H3 & H4 & H5 & H6 & H7 & H8). unfold vtri.
  apply vmixr_mono0; auto; zero; apply vmixr_mono0; auto; zero; apply vmixr_mono0; auto; zero; auto.
Qed.
Lemma vmixr_0 t a b : vmixr t a b 0 0 = 0.
Proof. unfold vmixr. rewrite !Rmult_0_r, s3_0, Rplus_0_r. apply r2_0. Qed.
Lemma vmixr_one t v w : vfmt t v -> vmixr t 1 0 v w = v.
Proof. intros F. unfold vmixr. rewrite Rmult_1_l, Rmult_0_l, s3_0, Rplus_0_r, s3_fmt; auto. apply fmt_r2. auto. Qed.

(** Errors. *)
Definition rel (f : R -> R) (e h : R) : Prop := forall x, Rabs (f x - x) <= e * Rabs x + h.
Lemma rel_comp f g e1 h1 e2 h2 : rel f e1 h1 -> rel g e2 h2 -> 0 <= e1 <= e2 / 400 -> 0 <= h1 <= h2 / 400 -> 0 <= e2 <= / 900 ->
  rel (fun x => g (f x)) (e2 * (1 + / 200)) (h2 * (1 + / 200)).
Proof.
  intros F G E H S x. specialize (F x). specialize (G (f x)). pose proof (Rabs_pos x) as X.
  assert (Y : Rabs (f x) <= Rabs x + (e1 * Rabs x + h1)).
  { replace (f x) with (x + (f x - x)) at 1 by ring. eapply Rle_trans; [apply Rabs_triang|]. lra. }
  replace (g (f x) - x) with ((g (f x) - f x) + (f x - x)) by ring. eapply Rle_trans; [apply Rabs_triang|].
  assert (A : e2 * Rabs (f x) <= e2 * (Rabs x + (e1 * Rabs x + h1))) by (apply Rmult_le_compat_l; lra).
  assert (B : e1 * Rabs x <= e2 / 400 * Rabs x) by (apply Rmult_le_compat_r; lra).
  assert (C : 0 <= e2 * Rabs x) by (apply Rmult_le_pos; lra).
  assert (D : e2 * (e1 * Rabs x) <= / 900 * (e1 * Rabs x)) by (apply Rmult_le_compat_r; [apply Rmult_le_pos; lra|lra]).
  assert (D' : e2 * h1 <= / 900 * h1) by (apply Rmult_le_compat_r; lra).
  replace (e2 * (Rabs x + (e1 * Rabs x + h1))) with (e2 * Rabs x + e2 * (e1 * Rabs x) + e2 * h1) in A by ring.
  replace (e2 / 400 * Rabs x) with (e2 * Rabs x / 400) in B by field. replace (e2 * (1 + / 200) * Rabs x) with (e2 * Rabs x + e2 * Rabs x / 200) by field. lra.
Qed.
Lemma rel_le f e h e' h' : rel f e h -> e <= e' -> h <= h' -> rel f e' h'.
Proof. intros F E H x. specialize (F x). pose proof (Rabs_pos x). nra. Qed.
Definition eu (t : vtype) : R := unit t * (1 + / 200).
Definition hu (t : vtype) : R := tiny t * (1 + / 200).
Lemma rel_rnd t : rel (rnd t) (unit t) (tiny t).
Proof. intros x. apply rnd_err. Qed.
Lemma unit_gap s t : (prec t + 10 <= prec s)%Z -> unit s <= unit t / 1024.
Proof.
  intros H. unfold unit. replace (bpow radix2 (- prec t) / 1024) with (bpow radix2 (- prec t + -10)); [apply bpow_le; lia|]. rewrite bpow_plus. change (bpow radix2 (-10)) with (/ 1024). field.
Qed.
Lemma tiny_gap s t : (prec t + emax t + 10 <= prec s + emax s)%Z -> tiny s <= tiny t / 1024.
Proof.
  intros H. unfold tiny. replace (bpow radix2 (2 - emax t - prec t) / 1024) with (bpow radix2 (2 - emax t - prec t + -10)); [apply bpow_le; lia|]. rewrite bpow_plus. change (bpow radix2 (-10)) with (/ 1024). field.
Qed.
Lemma rel_two s t : (prec t + 10 <= prec s)%Z -> (emax t <= emax s)%Z -> rel (fun x => rnd t (rnd s x)) (eu t) (hu t).
Proof.
  intros P M. pose proof (unit_pos s). pose proof (unit_pos t). pose proof (tiny_pos s). pose proof (tiny_pos t). pose proof (unit_gap s t P). pose proof (tiny_gap s t ltac:(lia)).
  apply (rel_comp (rnd s) (rnd t) (unit s) (tiny s) (unit t) (tiny t)); try apply rel_rnd; lra.
Qed.
Lemma r2_rel t : rel (r2 t) (eu t) (hu t).
Proof.
  pose proof (unit_pos t). pose proof (tiny_pos t).
  destruct t; [apply (rel_two VFloat VHalf); cbn; lia|..].
  - apply (rel_le _ (unit VFloat) (tiny VFloat)); unfold eu, hu; try lra. intros x. unfold r2. cbn [ct]. rewrite (rnd_fmt _ (rnd _ x)) by apply rnd_is. apply rnd_err.
  - apply (rel_le _ (unit VDouble) (tiny VDouble)); unfold eu, hu; try lra. intros x. unfold r2. cbn [ct]. rewrite (rnd_fmt _ (rnd _ x)) by apply rnd_is. apply rnd_err.
Qed.
Lemma s3_rel t : rel (s3 t) (eu t) (hu t).
Proof.
  pose proof (unit_pos t). pose proof (tiny_pos t). pose proof (unit_pos VFloat). pose proof (tiny_pos VFloat).
  destruct t.
  - pose proof (unit_gap VFloat VHalf ltac:(cbn; lia)). pose proof (tiny_gap VFloat VHalf ltac:(cbn; lia)).
    apply (rel_comp (fun x => rnd VFloat (rnd VDouble x)) (rnd VHalf) (eu VFloat) (hu VFloat) (unit VHalf) (tiny VHalf)); try apply rel_rnd; try (unfold eu, hu; lra).
    apply (rel_two VDouble VFloat); cbn; lia.
  - apply (rel_two VDouble VFloat); cbn; lia.
  - apply (rel_le _ (unit VDouble) (tiny VDouble)); unfold eu, hu; try lra. apply (rel_rnd VDouble).
Qed.
Lemma u_unit t : u <= unit t.
Proof. rewrite u_val. apply bpow_le. destruct t; cbn; lia. Qed.
(** One level: [e] and [h] bound the rounding of one operation. *)
Lemma vlevel t a b a0 b0 v w v0 w0 B d : 0 <= a <= 1 -> 0 <= b <= 1 -> Rabs (a + b - 1) <= 2 * u -> Rabs (a - a0) <= 2 * u -> Rabs (b - b0) <= 4 * u ->
  Rabs (v - v0) <= d -> Rabs (w - w0) <= d -> Rabs v0 <= B -> Rabs w0 <= B ->
  Rabs (vmixr t a b v w - (a0 * v0 + b0 * w0)) <= d + (2 + / 20) * unit t * (B + d) + 6 * u * B + 2 * u * d + (3 + / 20) * tiny t.
Proof.
  intros A Bb S EA EB V W V0 W0. pose proof u_small as U. pose proof (unit_pos t) as E. pose proof (tiny_pos t) as H.
  assert (B0 : 0 <= B) by (eapply Rle_trans; [apply Rabs_pos|exact V0]). assert (D0 : 0 <= d) by (eapply Rle_trans; [apply Rabs_pos|exact V]).
  apply Rabs_le_inv in S.
  assert (Vb : Rabs v <= B + d) by (replace v with (v0 + (v - v0)) by ring; eapply Rle_trans; [apply Rabs_triang|lra]).
  assert (Wb : Rabs w <= B + d) by (replace w with (w0 + (w - w0)) by ring; eapply Rle_trans; [apply Rabs_triang|lra]).
  pose proof (s3_rel t (a * v)) as P. pose proof (s3_rel t (b * w)) as Q. rewrite Rabs_mult, (Rabs_pos_eq a) in P by lra. rewrite Rabs_mult, (Rabs_pos_eq b) in Q by lra.
  unfold vmixr. pose proof (r2_rel t (s3 t (a * v) + s3 t (b * w))) as T. set (pv := s3 t (a * v)) in *. set (pw := s3 t (b * w)) in *. set (r := r2 t (pv + pw)) in *.
  set (M := B + d) in *. unfold eu, hu in *. set (e := unit t) in *. set (h := tiny t) in *. assert (M0 : 0 <= M) by (unfold M; lra).
  assert (a * Rabs v <= a * M) by (apply Rmult_le_compat_l; lra). assert (b * Rabs w <= b * M) by (apply Rmult_le_compat_l; lra).
  assert (ab1 : (a + b) * M <= M + M / 1000) by (assert ((a + b) * M <= (1 + 2 * u) * M) by (apply Rmult_le_compat_r; lra); assert (u * M <= / 1000000 * M) by (apply Rmult_le_compat_r; lra); lra).
  set (c := 1 + / 200) in *.
  assert (P2 : e * c * (a * Rabs v) + e * c * (b * Rabs w) <= e * c * (M + M / 1000)).
  { rewrite <- Rmult_plus_distr_l. apply Rmult_le_compat_l; [unfold c; nra|lra]. }
  assert (D1 : Rabs (pv + pw - (a * v + b * w)) <= e * c * (M + M / 1000) + 2 * (h * c)).
  { replace (pv + pw - (a * v + b * w)) with ((pv - a * v) + (pw - b * w)) by ring. eapply Rle_trans; [apply Rabs_triang|]. lra. }
  assert (N1 : Rabs (a * v + b * w) <= M + M / 1000).
  { eapply Rle_trans; [apply Rabs_triang|]. rewrite !Rabs_mult, (Rabs_pos_eq a), (Rabs_pos_eq b) by lra. lra. }
  assert (eM : 0 <= e * M) by (apply Rmult_le_pos; lra). assert (eeM : e * (e * M) <= / 1000 * (e * M)) by (apply Rmult_le_compat_r; lra). assert (eh : e * h <= / 1000 * h) by (apply Rmult_le_compat_r; lra).
  assert (N2 : Rabs (pv + pw) <= M + M / 1000 + (e * c * (M + M / 1000) + 2 * (h * c))).
  { replace (pv + pw) with ((a * v + b * w) + (pv + pw - (a * v + b * w))) by ring. eapply Rle_trans; [apply Rabs_triang|]. lra. }
  assert (D2 : Rabs (r - (pv + pw)) <= e * c * (M + M / 1000 + (e * c * (M + M / 1000) + 2 * (h * c))) + h * c).
  { eapply Rle_trans; [exact T|]. apply Rplus_le_compat_r, Rmult_le_compat_l; [unfold c; nra|exact N2]. }
  assert (D3 : Rabs (a * v + b * w - (a0 * v0 + b0 * w0)) <= d + 2 * u * d + 6 * u * B).
  { replace (a * v + b * w - (a0 * v0 + b0 * w0)) with ((a * (v - v0) + b * (w - w0)) + ((a - a0) * v0 + (b - b0) * w0)) by ring.
    eapply Rle_trans; [apply Rabs_triang|]. apply Rle_trans with ((a + b) * d + 6 * u * B).
    - apply Rplus_le_compat; (eapply Rle_trans; [apply Rabs_triang|]); rewrite !Rabs_mult.
      + rewrite (Rabs_pos_eq a), (Rabs_pos_eq b) by lra. pose proof (Rmult_le_compat_l a _ _ (proj1 A) V). pose proof (Rmult_le_compat_l b _ _ (proj1 Bb) W). lra.
      + pose proof (Rmult_le_compat _ _ _ _ (Rabs_pos (a - a0)) (Rabs_pos v0) EA V0). pose proof (Rmult_le_compat _ _ _ _ (Rabs_pos (b - b0)) (Rabs_pos w0) EB W0). lra.
    - assert ((a + b) * d <= (1 + 2 * u) * d) by (apply Rmult_le_compat_r; lra). lra. }
  replace (r - (a0 * v0 + b0 * w0)) with ((r - (pv + pw)) + ((pv + pw - (a * v + b * w)) + (a * v + b * w - (a0 * v0 + b0 * w0)))) by ring.
  eapply Rle_trans; [apply Rabs_triang|]. eapply Rle_trans; [apply Rplus_le_compat_l, Rabs_triang|].
  assert (X1 : e * c * (M + M / 1000 + (e * c * (M + M / 1000) + 2 * (h * c))) = c * (e * M) * (1 + / 1000) + c * c * (1 + / 1000) * (e * (e * M)) + 2 * c * c * (e * h)) by field.
  assert (X2 : e * c * (M + M / 1000) = c * (1 + / 1000) * (e * M)) by field. rewrite X1 in D2. rewrite X2 in D1.
  replace ((2 + / 20) * e * M) with ((2 + / 20) * (e * M)) by ring. unfold c in *. lra.
Qed.

Definition vgrow (t : vtype) (B d : R) : R := d + (2 + / 20) * unit t * (B + d) + 6 * u * B + 2 * u * d + (3 + / 20) * tiny t.
Lemma vgrow_3 t B : 0 <= B -> vgrow t B (vgrow t B (vgrow t B 0)) <= vec_rounding t B.
Proof.
  intros B0. pose proof u_small as U. pose proof (unit_pos t) as E. pose proof (tiny_pos t) as H. pose proof (u_unit t) as UE.
  assert (F : vgrow t B (vgrow t B (vgrow t B 0)) <= (6 + / 4) * (unit t * B) + (18 + / 4) * (u * B) + (9 + / 4) * tiny t).
  { set (m := (2 + / 20) * (unit t * B) + 6 * (u * B) + (3 + / 20) * tiny t).
    assert (G : forall d, 0 <= d -> vgrow t B d <= d * (1 + / 400) + m).
    { intros d D. unfold vgrow, m. assert (unit t * d <= / 1000 * d) by (apply Rmult_le_compat_r; lra). assert (u * d <= / 1000000 * d) by (apply Rmult_le_compat_r; lra). lra. }
    assert (eB : 0 <= unit t * B) by (apply Rmult_le_pos; lra). assert (uB : 0 <= u * B) by (apply Rmult_le_pos; lra). assert (M0 : 0 <= m) by (unfold m; lra).
    assert (Gp : forall d, 0 <= d -> 0 <= vgrow t B d).
    { intros d D. unfold vgrow. assert (0 <= unit t * d) by (apply Rmult_le_pos; lra). assert (0 <= u * d) by (apply Rmult_le_pos; lra). lra. }
    pose proof (G 0 ltac:(lra)) as G1. pose proof (Gp 0 ltac:(lra)) as P1. set (d1 := vgrow t B 0) in *.
    pose proof (G d1 P1) as G2. pose proof (Gp d1 P1) as P2. set (d2 := vgrow t B d1) in *. pose proof (G d2 P2) as G3.
    assert (L : vgrow t B d2 <= (3 + / 90) * m) by lra. unfold m in L. lra. }
  eapply Rle_trans; [exact F|].
  assert (eB : 0 <= unit t * B) by (apply Rmult_le_pos; lra). assert (uB : u * B <= unit t * B) by (apply Rmult_le_compat_r; lra).
  assert (C : forall k s x, bpow radix2 k = s -> bpow radix2 (k + x) = s * bpow radix2 x) by (intros k s x <-; apply bpow_plus).
  unfold vec_rounding. destruct t; unfold Rdiv; rewrite !inv_pow.
  - assert (u <= unit VHalf / 1024) by (pose proof (unit_gap VDouble VHalf ltac:(cbn; lia)); unfold unit in *; rewrite u_val; auto).
    assert (u * B <= unit VHalf * B / 1024) by (unfold Rdiv in *; replace (unit VHalf * B * / 1024) with (unit VHalf * / 1024 * B) by ring; apply Rmult_le_compat_r; lra).
    change (- Z.of_nat 8)%Z with (3 + - prec VHalf)%Z. change (- Z.of_nat 21)%Z with (4 + (2 - emax VHalf - prec VHalf))%Z. rewrite (C 3%Z 8), (C 4%Z 16) by reflexivity. fold (unit VHalf) (tiny VHalf). lra.
  - assert (u <= unit VFloat / 1024) by (pose proof (unit_gap VDouble VFloat ltac:(cbn; lia)); unfold unit in *; rewrite u_val; auto).
    assert (u * B <= unit VFloat * B / 1024) by (unfold Rdiv in *; replace (unit VFloat * B * / 1024) with (unit VFloat * / 1024 * B) by ring; apply Rmult_le_compat_r; lra).
    change (- Z.of_nat 21)%Z with (3 + - prec VFloat)%Z. change (- Z.of_nat 146)%Z with (4 + (2 - emax VFloat - prec VFloat))%Z. rewrite (C 3%Z 8), (C 4%Z 16) by reflexivity. fold (unit VFloat) (tiny VFloat). lra.
  - change (- Z.of_nat 48)%Z with (5 + - prec VDouble)%Z. change (- Z.of_nat 1071)%Z with (4 + (2 - emax VDouble - prec VDouble))%Z. rewrite (C 5%Z 32), (C 4%Z 16) by reflexivity. fold (unit VDouble) (tiny VDouble). lra.
Qed.
Lemma vlevel' t a b a0 b0 v w v0 w0 B d : weights a b -> Rabs (B2R a - a0) <= 2 * u -> Rabs (B2R b - b0) <= 4 * u ->
  Rabs (v - v0) <= d -> Rabs (w - w0) <= d -> Rabs v0 <= B -> Rabs w0 <= B ->
  Rabs (vmixr t (B2R a) (B2R b) v w - (a0 * v0 + b0 * w0)) <= vgrow t B d.
Proof. intros W EA EB V Ww V0 W0. destruct (wr a b W) as (A & Bb & S). apply vlevel; auto. Qed.
(** Equal values. *)
Lemma vtri_const t ax bx ay by_ az bz K : weights ax bx -> weights ay by_ -> weights az bz ->
  Rabs (vtri t (B2R ax) (B2R bx) (B2R ay) (B2R by_) (B2R az) (B2R bz) K K K K K K K K - K) <= vec_rounding t (Rabs K).
Proof.
  intros X Y Z. eapply Rle_trans; [|apply vgrow_3, Rabs_pos]. pose proof u_small as U.
  assert (L : forall a b v d, weights a b -> Rabs (v - K) <= d -> Rabs (vmixr t (B2R a) (B2R b) v v - K) <= vgrow t (Rabs K) d).
  { intros a b v d W V. replace K with (B2R a * K + (1 - B2R a) * K) at 1 by ring. destruct (wr a b W) as (A & Bb & S).
    apply vlevel'; auto; try lra; [rewrite Rminus_diag_eq, Rabs_R0 by auto; lra|]. replace (B2R b - (1 - B2R a)) with (B2R a + B2R b - 1) by ring. lra. }
  unfold vtri. apply L; auto. apply L; auto. apply L; auto. rewrite Rminus_diag_eq, Rabs_R0 by auto. lra.
Qed.
(** The sample. *)
Record vstencil (dw : box) (x y z ax bx ay by_ az bz : f64) (q1 q2 q3 q4 q5 q6 q7 q8 : v3) : Prop := VStencil {
  vs_st : stencil dw x y z ax bx ay by_ az bz q1 q2 q3 q4 q5 q6 q7 q8;
  vs_sample : forall t (value : v3 -> val t), v_sample t value dw x y z =
    Ok (v_trilinear t ax bx ay by_ az bz (value q1) (value q2) (value q3) (value q4) (value q5) (value q6) (value q7) (value q8)) }.
Lemma corners_vstencil dw x y z x1 x2 y1 y2 z1 z2 ax bx ay by_ az bz :
  f_corner x = Ok (x1, x2, ax, bx) -> f_corner y = Ok (y1, y2, ay, by_) -> f_corner z = Ok (z1, z2, az, bz) ->
  vstencil dw x y z ax bx ay by_ az bz
    (nearest dw (V3 x1 y1 z1)) (nearest dw (V3 x1 y1 z2)) (nearest dw (V3 x1 y2 z1)) (nearest dw (V3 x1 y2 z2))
    (nearest dw (V3 x2 y1 z1)) (nearest dw (V3 x2 y1 z2)) (nearest dw (V3 x2 y2 z1)) (nearest dw (V3 x2 y2 z2)).
Proof.
  intros X Y Z. split; [apply corners_stencil; auto|]. intros t value. unfold v_sample. rewrite X, Y, Z. cbn [bind]. reflexivity.
Qed.
Lemma sample_vstencil t (value : v3 -> val t) dw x y z r : v_sample t value dw x y z = Ok r ->
  exists ax bx ay by_ az bz q1 q2 q3 q4 q5 q6 q7 q8, vstencil dw x y z ax bx ay by_ az bz q1 q2 q3 q4 q5 q6 q7 q8.
Proof.
  intros H. unfold v_sample in H.
  destruct (f_corner x) as [[[[x1 x2] ax] bx]| |] eqn:EX; cbn [bind] in H; try discriminate.
  destruct (f_corner y) as [[[[y1 y2] ay] by_]| |] eqn:EY; cbn [bind] in H; try discriminate.
  destruct (f_corner z) as [[[[z1 z2] az] bz]| |] eqn:EZ; cbn [bind] in H; try discriminate.
  do 14 eexists. eapply corners_vstencil; eauto.
Qed.
Lemma vs_val t (value : v3 -> val t) dw x y z ax bx ay by_ az bz q1 q2 q3 q4 q5 q6 q7 q8 r : vstencil dw x y z ax bx ay by_ az bz q1 q2 q3 q4 q5 q6 q7 q8 ->
  box_nonempty dw -> all_finite dw value -> vec_small dw value -> v_sample t value dw x y z = Ok r ->
  is_finite r = true /\ B2R r = vtri t (B2R ax) (B2R bx) (B2R ay) (B2R by_) (B2R az) (B2R bz)
    (B2R (value q1)) (B2R (value q2)) (B2R (value q3)) (B2R (value q4)) (B2R (value q5)) (B2R (value q6)) (B2R (value q7)) (B2R (value q8)).
Proof.
  intros St NE AF SM H. rewrite (vs_sample _ _ _ _ _ _ _ _ _ _ _ _ _ _ _ _ _ _ St) in H. injection H as <-. destruct St as [[WX WY WZ I _ _] _].
  destruct (I NE) as (I1 & I2 & I3 & I4 & I5 & I6 & I7 & I8). apply vtri_ok; auto.
  intros v J. cbn in J. repeat (destruct J as [<-|J]; [split; [apply AF; assumption|apply SM; assumption]|]). destruct J.
Qed.
Lemma vec_mono t (v w : v3 -> val t) dw x y z r s : box_nonempty dw -> all_finite dw v -> vec_small dw v -> all_finite dw w -> vec_small dw w ->
  (forall q, around dw (at_ x y z) q -> B2R (v q) <= B2R (w q)) -> v_sample t v dw x y z = Ok r -> v_sample t w dw x y z = Ok s -> B2R r <= B2R s.
Proof.
  intros NE AV SV AW SW L HV HW. destruct (sample_vstencil t v dw x y z r HV) as (ax & bx & ay & by_ & az & bz & q1 & q2 & q3 & q4 & q5 & q6 & q7 & q8 & St).
  destruct (vs_val t v _ _ _ _ _ _ _ _ _ _ _ _ _ _ _ _ _ _ r St NE AV SV HV) as (_ & ->). destruct (vs_val t w _ _ _ _ _ _ _ _ _ _ _ _ _ _ _ _ _ _ s St NE AW SW HW) as (_ & ->).
  destruct St as [[((_ & ?) & (_ & ?) & _) ((_ & ?) & (_ & ?) & _) ((_ & ?) & (_ & ?) & _) _ N _] _].
  apply vtri_mono; try lra. unfold weighed. apply (N (fun q => B2R (v q) <= B2R (w q))). auto.
Qed.
Lemma vec_range t (value : v3 -> val t) dw x y z r lo hi : box_nonempty dw -> all_finite dw value -> vec_small dw value ->
  (forall q, around dw (at_ x y z) q -> lo <= B2R (value q) <= hi) -> v_sample t value dw x y z = Ok r ->
  is_finite r = true /\ lo - vec_rounding t (Rabs lo) <= B2R r <= hi + vec_rounding t (Rabs hi) /\ (0 <= lo -> 0 <= B2R r) /\ (hi <= 0 -> B2R r <= 0).
Proof.
  intros NE AV SV L HV. destruct (sample_vstencil t value dw x y z r HV) as (ax & bx & ay & by_ & az & bz & q1 & q2 & q3 & q4 & q5 & q6 & q7 & q8 & St).
  destruct (vs_val t value _ _ _ _ _ _ _ _ _ _ _ _ _ _ _ _ _ _ r St NE AV SV HV) as (F & ->). split; auto.
  destruct St as [[WX WY WZ _ N _] _]. pose proof WX as ((_ & ?) & (_ & ?) & _). pose proof WY as ((_ & ?) & (_ & ?) & _). pose proof WZ as ((_ & ?) & (_ & ?) & _).
  set (s := vtri t _ _ _ _ _ _ _ _ _ _ _ _ _ _).
  assert (UP : forall K, hi <= K -> s <= vtri t (B2R ax) (B2R bx) (B2R ay) (B2R by_) (B2R az) (B2R bz) K K K K K K K K).
  { intros K HK. apply vtri_mono; try lra. unfold weighed. apply (N (fun q => B2R (value q) <= K)). intros q Q. destruct (L q Q). lra. }
  assert (DN : forall K, K <= lo -> vtri t (B2R ax) (B2R bx) (B2R ay) (B2R by_) (B2R az) (B2R bz) K K K K K K K K <= s).
  { intros K HK. apply vtri_mono; try lra. unfold weighed. apply (N (fun q => K <= B2R (value q))). intros q Q. destruct (L q Q). lra. }
  assert (Z : vtri t (B2R ax) (B2R bx) (B2R ay) (B2R by_) (B2R az) (B2R bz) 0 0 0 0 0 0 0 0 = 0) by (unfold vtri; rewrite !vmixr_0; auto).
  pose proof (vtri_const t ax bx ay by_ az bz lo WX WY WZ) as CL. pose proof (vtri_const t ax bx ay by_ az bz hi WX WY WZ) as CH. apply Rabs_le_inv in CL, CH.
  pose proof (UP hi ltac:(lra)). pose proof (DN lo ltac:(lra)).
  split; [lra|]. split; intros C; [rewrite <- Z; apply DN|rewrite <- Z; apply UP]; auto.
Qed.
Lemma vmix_one t a b (v w : val t) : weights a b -> B2R a = 1 -> B2R b = 0 -> is_finite v = true -> is_finite w = true ->
  is_finite (v_mix t a b v w) = true /\ B2R (v_mix t a b v w) = B2R v.
Proof.
  intros W A B V Ww. pose proof (fmt_val t v) as F. destruct (vmix_ok t a b v w W V Ww) as (P & Q).
  - rewrite A, B, Rmult_1_l, Rmult_0_l, s3_0, Rplus_0_r, s3_fmt by auto. apply top_ge.
  - split; auto. rewrite Q, A, B. apply vmixr_one. auto.
Qed.
Lemma vec_centre t (value : v3 -> val t) dw x y z q r : in_box q dw -> all_finite dw value ->
  at_ x y z = centre q -> v_sample t value dw x y z = Ok r -> is_finite r = true /\ B2R r = B2R (value q).
Proof.
  intros I AF E H. assert (NE : box_nonempty dw) by (unfold in_box, box_nonempty in *; lia). pose proof H as Hr.
  unfold v_sample in H. unfold at_, centre in E. injection E as EX EY EZ.
  destruct (f_corner x) as [[[[x1 x2] ax] bx]| |] eqn:CX; cbn [bind] in H; try discriminate.
  destruct (f_corner y) as [[[[y1 y2] ay] by_]| |] eqn:CY; cbn [bind] in H; try discriminate.
  destruct (f_corner z) as [[[[z1 z2] az] bz]| |] eqn:CZ; cbn [bind] in H; try discriminate.
  destruct (corner_centre x x1 x2 ax bx (vx q)) as (-> & AX & BX); auto; [lra|].
  destruct (corner_centre y y1 y2 ay by_ (vy q)) as (-> & AY & BY); auto; [lra|].
  destruct (corner_centre z z1 z2 az bz (vz q)) as (-> & AZ & BZ); auto; [lra|].
  pose proof (corners_vstencil dw _ _ _ _ _ _ _ _ _ _ _ _ _ _ _ CX CY CZ) as St.
  assert (Nq : nearest dw (V3 (vx q) (vy q) (vz q)) = q) by (destruct q as [i j k]; apply nearest_id; auto). rewrite Nq in St.
  rewrite (vs_sample _ _ _ _ _ _ _ _ _ _ _ _ _ _ _ _ _ _ St) in Hr. injection Hr as <-. destruct St as [[WX WY WZ IN _ _] _].
  destruct (IN NE) as (I1 & I2 & I3 & I4 & I5 & I6 & I7 & I8). unfold v_trilinear.
  destruct (vmix_one t az bz _ _ WZ AZ BZ (AF _ I1) (AF _ I2)) as (F1 & V1). destruct (vmix_one t az bz _ _ WZ AZ BZ (AF _ I3) (AF _ I4)) as (F2 & V2).
  destruct (vmix_one t az bz _ _ WZ AZ BZ (AF _ I5) (AF _ I6)) as (F3 & V3'). destruct (vmix_one t az bz _ _ WZ AZ BZ (AF _ I7) (AF _ I8)) as (F4 & V4).
  destruct (vmix_one t ay by_ _ _ WY AY BY F1 F2) as (G1 & U1). destruct (vmix_one t ay by_ _ _ WY AY BY F3 F4) as (G2 & U2).
  destruct (vmix_one t ax bx _ _ WX AX BX G1 G2) as (K & U). split; auto. rewrite U, U1, V1. reflexivity.
Qed.
Lemma vec_exact t (value : v3 -> val t) dw x y z r B : box_nonempty dw -> all_finite dw value -> vec_small dw value ->
  (forall q, in_box q dw -> Rabs (B2R (value q)) <= B) -> v_sample t value dw x y z = Ok r ->
  exists p, Rabs (rx p - B2R x) <= slack x /\ Rabs (ry p - B2R y) <= slack y /\ Rabs (rz p - B2R z) <= slack z /\
    Rabs (B2R r - mix3 dw (fun q => B2R (value q)) p) <= vec_rounding t B /\ is_finite r = true.
Proof.
  intros NE AF SM BB H. pose proof H as H0. unfold v_sample in H0.
  destruct (f_corner x) as [[[[x1 x2] ax] bx]| |] eqn:CX; cbn [bind] in H0; try discriminate.
  destruct (f_corner y) as [[[[y1 y2] ay] by_]| |] eqn:CY; cbn [bind] in H0; try discriminate.
  destruct (f_corner z) as [[[[z1 z2] az] bz]| |] eqn:CZ; cbn [bind] in H0; try discriminate. clear H0.
  pose proof (corners_vstencil dw _ _ _ _ _ _ _ _ _ _ _ _ _ _ _ CX CY CZ) as St.
  destruct (vs_val t value _ _ _ _ _ _ _ _ _ _ _ _ _ _ _ _ _ _ r St NE AF SM H) as (F & V). destruct St as [[WX WY WZ _ _ _] _].
  destruct (corner_err _ _ _ _ _ CX) as (px & PX & SX & EAX & EBX). destruct (corner_err _ _ _ _ _ CY) as (py & PY & SY & EAY & EBY). destruct (corner_err _ _ _ _ _ CZ) as (pz & PZ & SZ & EAZ & EBZ).
  destruct (corner_ok _ _ _ _ _ CX) as (_ & _ & X2 & _). destruct (corner_ok _ _ _ _ _ CY) as (_ & _ & Y2 & _). destruct (corner_ok _ _ _ _ _ CZ) as (_ & _ & Z2 & _). subst x2 y2 z2.
  set (m := fun q => B2R (value q)) in *.
  assert (M : forall i j k, Rabs (field3 dw m i j k) <= B).
  { intros i j k. unfold field3, m. apply BB. destruct NE as (N1 & N2 & N3). repeat split; cbn [nearest vx vy vz]; lia. }
  assert (B0 : 0 <= B) by (eapply Rle_trans; [apply Rabs_pos|apply (M 0 0 0)%Z]).
  exists (R3 (px + / 2) (py + / 2) (pz + / 2)). cbn [rx ry rz]. unfold slack.
  split; [replace (px + / 2 - B2R x) with (px - (B2R x - / 2)) by ring; auto|]. split; [replace (py + / 2 - B2R y) with (py - (B2R y - / 2)) by ring; auto|].
  split; [replace (pz + / 2 - B2R z) with (pz - (B2R z - / 2)) by ring; auto|]. split; auto. eapply Rle_trans; [|apply (vgrow_3 t B B0)]. rewrite V.
  unfold mix3. cbn [rx ry rz]. replace (px + / 2 - 1 / 2) with px by lra. replace (py + / 2 - 1 / 2) with py by lra. replace (pz + / 2 - 1 / 2) with pz by lra.
  set (d1 := vgrow t B 0). set (d2 := vgrow t B d1).
  assert (LZ : forall i j, Rabs (vmixr t (B2R az) (B2R bz) (field3 dw m i j z1) (field3 dw m i j (z1 + 1)) - mix1 (fun k => field3 dw m i j k) pz) <= d1 /\
                           Rabs (mix1 (fun k => field3 dw m i j k) pz) <= B).
  { intros i j. rewrite (mix1_on _ pz z1) by lra. split.
    - apply vlevel'; auto; rewrite Rminus_diag_eq, Rabs_R0 by auto; lra.
    - replace (pz - IZR z1) with (1 - (IZR z1 + 1 - pz)) by ring. apply exact_le; auto; lra. }
  assert (LY : forall i, Rabs (vmixr t (B2R ay) (B2R by_) (vmixr t (B2R az) (B2R bz) (field3 dw m i y1 z1) (field3 dw m i y1 (z1 + 1)))
                                   (vmixr t (B2R az) (B2R bz) (field3 dw m i (y1 + 1) z1) (field3 dw m i (y1 + 1) (z1 + 1)))
                            - mix1 (fun j => mix1 (fun k => field3 dw m i j k) pz) py) <= d2 /\
                         Rabs (mix1 (fun j => mix1 (fun k => field3 dw m i j k) pz) py) <= B).
  { intros i. rewrite (mix1_on _ py y1) by lra. split.
    - apply vlevel'; auto; apply LZ.
    - replace (py - IZR y1) with (1 - (IZR y1 + 1 - py)) by ring. apply exact_le; try apply LZ; lra. }
  rewrite (mix1_on _ px x1) by lra. unfold vtri.
  apply (vlevel' t ax bx _ _ _ _ _ _ B d2); auto; apply LY.
Qed.
(** Vectors of [double]. *)
Lemma cast_same t (x : val t) : cast t x = x.
Proof.
  unfold cast. destruct x as [s|s| |s m e H] eqn:X; try reflexivity. rewrite <- X.
  assert (F : is_finite x = true) by (rewrite X; reflexivity). pose proof (fmt_val t x) as FM.
  assert (B : Rlt_bool (Rabs (round radix2 (SpecFloat.fexp (prec t) (emax t)) (round_mode mode_NE) (B2R x))) (bpow radix2 (emax t)) = true).
  { apply fits_bool. apply top_ge. }
  pose proof (binary_normalize_correct (prec t) (emax t) (gt_prec t) (lt_emax t) mode_NE (cond_Zopp s (Zpos m)) e s) as N. cbv zeta in N.
  assert (V : F2R (Float radix2 (cond_Zopp s (Zpos m)) e) = B2R x) by (rewrite X; reflexivity). rewrite V in N. rewrite B in N. destruct N as (N1 & N2 & N3).
  assert (C : convert (prec t) (emax t) (gt_prec t) (lt_emax t) x = binary_normalize (prec t) (emax t) (gt_prec t) (lt_emax t) mode_NE (cond_Zopp s (Zpos m)) e s) by (rewrite X; reflexivity).
  rewrite C. apply B2R_Bsign_inj; auto.
  - rewrite N1. apply round_generic; [typeclasses eauto|exact FM].
  - assert (S : Bsign x = s) by (rewrite X; reflexivity). rewrite N3, S, <- V. clear - s. destruct s; cbn [cond_Zopp].
    + rewrite Rcompare_Lt; auto. apply F2R_lt_0. reflexivity.
    + rewrite Rcompare_Gt; auto. apply F2R_gt_0. reflexivity.
Qed.
Lemma fmul_comm x y : fmul x y = fmul y x.
Proof.
  unfold fmul. apply B2SF_inj. destruct x as [s|s| |s m e H], y as [s'|s'| |s' m' e' H']; try reflexivity; try (cbn; rewrite xorb_comm; reflexivity).
  unfold Bmult. rewrite !B2SF_SF2B. rewrite xorb_comm, Pos.mul_comm, Z.add_comm. reflexivity.
Qed.
Lemma vmix_double a b (v w : val VDouble) : v_mix VDouble a b v w = f_mix a b v w.
Proof.
  unfold v_mix, wadd, f_mix, v_scale. cbn [narrow widen ct]. rewrite !cast_same. unfold vadd, fadd. rewrite (fmul_comm v a), (fmul_comm w b). reflexivity.
Qed.
Lemma vec_double (value : v3 -> val VDouble) dw x y z : v_sample VDouble value dw x y z = f_sample VDouble value dw x y z.
Proof.
  unfold v_sample, f_sample. destruct (f_corner x) as [[[[x1 x2] ax] bx]| |]; cbn [bind]; auto. destruct (f_corner y) as [[[[y1 y2] ay] by_]| |]; cbn [bind]; auto.
  destruct (f_corner z) as [[[[z1 z2] az] bz]| |]; cbn [bind]; auto. unfold v_trilinear, f_trilinear. cbn [narrow widen]. rewrite !vmix_double. reflexivity.
Qed.
