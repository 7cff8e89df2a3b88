From Coq Require Import ZArith Reals List Bool Lia Lra Psatz.
From Verif Require Import Model.Base Model.FieldM Model.RealM Model.VecM Model.InterpM.
From Verif Require Import Spec.VoxelSpec Spec.InterpSpec Proof.BaseP Proof.RealP Proof.DenseP Proof.InterpP.
Import ListNotations.
Open Scope R_scope.

(** * The interpolant *)
Lemma cubic_zero a b c d : cubic a b c d 0 = b.
Proof. unfold cubic. ring. Qed.
Lemma cubic_one a b c d : cubic a b c d 1 = c.
Proof. unfold cubic. destruct (reqb_spec (c - b) 0); lra. Qed.
Lemma cubic_const v t : cubic v v v v t = v.
Proof. unfold cubic. destruct (reqb_spec (v - v) 0); lra. Qed.
Lemma cubic_line_affine a b t n : cubic (a + b * (n - 1)) (a + b * n) (a + b * (n + 1)) (a + b * (n + 2)) t = a + b * (n + t).
Proof.
  unfold cubic. destruct (reqb_spec (a + b * (n + 1) - (a + b * n)) 0); [|field].
  assert (b = 0) by lra. subst b. ring.
Qed.
Lemma cubic_weights a b c d t : c - b <> 0 -> cubic a b c d t =
  (- (1 / 2) * t * ((1 - t) * (1 - t))) * a + ((1 - t) * (1 + t - 3 / 2 * (t * t))) * b +
  (1 / 2 * t * (1 + 4 * t - 3 * (t * t))) * c + (- (1 / 2) * (t * t) * (1 - t)) * d.
Proof. intros N. unfold cubic. destruct (reqb_spec (c - b) 0); [tauto|]. field. Qed.
Lemma cubic_bound lo hi a b c d t : 0 <= t <= 1 -> lo <= a <= hi -> lo <= b <= hi -> lo <= c <= hi -> lo <= d <= hi ->
  lo - (hi - lo) / 8 <= cubic a b c d t <= hi + (hi - lo) / 8.
Proof.
  intros T A B C D. destruct (Req_EM_T (c - b) 0) as [Z0|N].
  - unfold cubic. destruct (reqb_spec (c - b) 0); [|tauto]. replace c with b by lra.
    replace (_ + b) with b by ring. lra.
  - rewrite cubic_weights by auto.
    set (w0 := - (1 / 2) * t * ((1 - t) * (1 - t))). set (w1 := (1 - t) * (1 + t - 3 / 2 * (t * t))).
    set (w2 := 1 / 2 * t * (1 + 4 * t - 3 * (t * t))). set (w3 := - (1 / 2) * (t * t) * (1 - t)).
    assert (T2 : 0 <= t * t <= t) by nra.
    assert (W0 : w0 <= 0).
    { unfold w0. assert (0 <= t * ((1 - t) * (1 - t))) by (repeat apply Rmult_le_pos; lra). lra. }
    assert (W3 : w3 <= 0). { unfold w3. assert (0 <= (t * t) * (1 - t)) by (apply Rmult_le_pos; lra). lra. }
    assert (W1 : 0 <= w1) by (unfold w1; apply Rmult_le_pos; nra).
    assert (W2 : 0 <= w2) by (unfold w2; apply Rmult_le_pos; nra).
    assert (S1 : w1 + w2 = 1 + 1 / 2 * (t * (1 - t))) by (unfold w1, w2; field).
    assert (S2 : w0 + w3 = - (1 / 2 * (t * (1 - t)))) by (unfold w0, w3; field).
    assert (QQ : 0 <= t * (1 - t) <= 1 / 4) by (split; [apply Rmult_le_pos; lra|pose proof (Rle_0_sqr (t - 1 / 2)) as SQ; unfold Rsqr in SQ; lra]).
    set (q := t * (1 - t)) in *. clearbody q w0 w1 w2 w3. clear T2.
    assert (P0 : w0 * hi <= w0 * a <= w0 * lo) by nra. assert (P3 : w3 * hi <= w3 * d <= w3 * lo) by nra.
    assert (P1 : w1 * lo <= w1 * b <= w1 * hi) by nra. assert (P2 : w2 * lo <= w2 * c <= w2 * hi) by nra.
    assert (E1 : (w0 + w3) * lo + (w1 + w2) * hi = hi + 1 / 2 * q * (hi - lo)) by (rewrite S1, S2; ring).
    assert (E2 : (w0 + w3) * hi + (w1 + w2) * lo = lo - 1 / 2 * q * (hi - lo)) by (rewrite S1, S2; ring).
    assert (K : 1 / 2 * q * (hi - lo) <= (hi - lo) / 8) by nra. lra.
Qed.
(** Bernstein form: between the two middle samples when the slopes are at most three
    times the step. *)
Lemma cubic_hull a b c d t : 0 <= t <= 1 -> a <= b -> b <= c -> c <= d -> c - a <= 6 * (c - b) -> d - b <= 6 * (c - b) ->
  b <= cubic a b c d t <= c.
Proof.
  intros T AB BC CD HA HD. destruct (Req_EM_T (c - b) 0) as [Z0|N].
  - unfold cubic. destruct (reqb_spec (c - b) 0); [|tauto]. replace c with b by lra. replace (_ + b) with b by ring. lra.
  - rewrite cubic_weights by auto. set (u := (c - a) / 6). set (v := (d - b) / 6).
    replace (_ + _) with (b + u * (3 * t * ((1 - t) * (1 - t))) + ((c - b) - v) * (3 * (t * t) * (1 - t)) + (c - b) * (t * t * t)) by (unfold u, v; field).
    assert (0 <= u <= c - b) by (unfold u; lra). assert (0 <= v <= c - b) by (unfold v; lra).
    set (B1 := 3 * t * ((1 - t) * (1 - t))). set (B2 := 3 * (t * t) * (1 - t)). set (B3 := t * t * t).
    assert (0 <= B1) by (unfold B1; repeat apply Rmult_le_pos; lra). assert (0 <= B2) by (unfold B2; repeat apply Rmult_le_pos; lra).
    assert (0 <= B3) by (unfold B3; repeat apply Rmult_le_pos; lra).
    assert (SUM : B1 + B2 + B3 = 1 - (1 - t) * ((1 - t) * (1 - t))) by (unfold B1, B2, B3; ring).
    assert (0 <= (1 - t) * ((1 - t) * (1 - t))) by (repeat apply Rmult_le_pos; lra).
    clearbody B1 B2 B3 u v. assert (0 <= u * B1 <= (c - b) * B1) by (split; nra).
    assert (0 <= ((c - b) - v) * B2 <= (c - b) * B2) by (split; nra). assert (0 <= (c - b) * B3) by nra.
    assert ((c - b) * B1 + (c - b) * B2 + (c - b) * B3 <= c - b) by nra. lra.
Qed.

(** * One axis *)
Definition cub1 (lo hi : Z) (g : Z -> R) (x : R) : R :=
  let p := Rmax (1 / 2) x - 1 / 2 in
  let c := rfloor p in
  let im := clamp_in lo hi c in
  cubic (g (clamp_in lo hi (im - 1))) (g im) (g (clamp_in lo hi (im + 1))) (g (clamp_in lo hi (im + 2))) (p - IZR c).
Definition cub3 (dw : box) (m : v3 -> R) (p : r3) : R :=
  cub1 (vx (bmin dw)) (vx (bmax dw)) (fun i =>
    cub1 (vy (bmin dw)) (vy (bmax dw)) (fun j =>
      cub1 (vz (bmin dw)) (vz (bmax dw)) (fun k => m (V3 i j k)) (rz p)) (ry p)) (rx p).

Lemma clamp_in_range lo hi c : (lo <= hi)%Z -> (lo <= clamp_in lo hi c <= hi)%Z.
Proof. unfold clamp_in. lia. Qed.
Lemma clamp_in_id lo hi c : (lo <= c <= hi)%Z -> clamp_in lo hi c = c.
Proof. unfold clamp_in. lia. Qed.
Lemma cubic_axis_ok lo hi x : (lo <= hi)%Z -> (- 2 ^ 30 < lo)%Z -> (hi < 2 ^ 30 - 1)%Z -> - 2 ^ 30 < x < 2 ^ 30 ->
  cubic_axis lo hi x =
  let p := Rmax (1 / 2) x - 1 / 2 in let c := rfloor p in let im := clamp_in lo hi c in
  Ok (clamp_in lo hi (im - 1), im, clamp_in lo hi (im + 1), clamp_in lo hi (im + 2), p - IZR c).
Proof.
  intros NE L H X. unfold cubic_axis, int_floor. set (p := Rmax (1 / 2) x - 1 / 2).
  pose proof (rfloor_spec p) as F. assert (P : 0 <= p <= 2 ^ 30).
  { unfold p, Rmax. destruct (Rle_dec (1 / 2) x); simpl pow in *; lra. }
  assert (A : IZR (rfloor p) < IZR (2 ^ 30 + 1)) by (rewrite plus_IZR, <- pow_IZR with (n := 30%nat); simpl pow in *; lra).
  assert (B : IZR (-1) < IZR (rfloor p)) by lra.
  apply lt_IZR in A. apply lt_IZR in B.
  rewrite i32_ok by (unfold int_min, int_max; lia). cbn [bind].
  pose proof (clamp_in_range lo hi (rfloor p) NE) as C. set (im := clamp_in lo hi (rfloor p)) in *.
  rewrite !i32_ok by (unfold int_min, int_max; lia). reflexivity.
Qed.
Lemma cubic_eq dw val m p : win_ok dw -> reads dw val m -> pos_ok p -> cubic_sample dw val p = Ok (cub3 dw m p).
Proof.
  intros (NE & AX & BX & AY & BY & AZ & BZ) RD (PX & PY & PZ). destruct NE as (NX & NY & NZ).
  unfold cubic_sample. rewrite !cubic_axis_ok by auto. cbv zeta. cbn [bind].
  unfold cub3, cub1. cbv zeta. set (ci := fun x => clamp_in (vx (bmin dw)) (vx (bmax dw)) x).
  unfold cubic_plane, cubic_line.
  assert (G : forall i j k, val (V3 (clamp_in (vx (bmin dw)) (vx (bmax dw)) i) (clamp_in (vy (bmin dw)) (vy (bmax dw)) j)
      (clamp_in (vz (bmin dw)) (vz (bmax dw)) k)) = Ok (m (V3 (clamp_in (vx (bmin dw)) (vx (bmax dw)) i) (clamp_in (vy (bmin dw)) (vy (bmax dw)) j)
      (clamp_in (vz (bmin dw)) (vz (bmax dw)) k)))).
  { intros. apply RD. unfold in_box. cbn [vx vy vz]. pose proof (clamp_in_range _ _ i NX). pose proof (clamp_in_range _ _ j NY).
    pose proof (clamp_in_range _ _ k NZ). lia. }
  rewrite !G. cbn [bind]. reflexivity.
Qed.

Lemma cub1_bound lo hi g x a b : (lo <= hi)%Z -> (forall n, (lo <= n <= hi)%Z -> a <= g n <= b) ->
  a - (b - a) / 8 <= cub1 lo hi g x <= b + (b - a) / 8.
Proof.
  intros NE H. unfold cub1. cbv zeta. pose proof (rfloor_spec (Rmax (1 / 2) x - 1 / 2)) as F.
  apply cubic_bound; [lra| | | |]; apply H, clamp_in_range; auto.
Qed.
Lemma cub1_const lo hi g x v : (lo <= hi)%Z -> (forall n, (lo <= n <= hi)%Z -> g n = v) -> cub1 lo hi g x = v.
Proof. intros NE H. unfold cub1. cbv zeta. rewrite !H by (apply clamp_in_range; auto). apply cubic_const. Qed.
Lemma cub1_centre lo hi g n : (lo <= n <= hi)%Z -> (0 <= n)%Z -> cub1 lo hi g (IZR n + 1 / 2) = g n.
Proof.
  intros I P. unfold cub1. apply IZR_le in P. rewrite Rmax_right by lra.
  replace (IZR n + 1 / 2 - 1 / 2) with (IZR n) by lra. cbv zeta. rewrite rfloor_IZR, Rminus_eq_0, cubic_zero, clamp_in_id by auto. reflexivity.
Qed.
Lemma cub1_affine lo hi g x a b : IZR lo + 1 + 1 / 2 <= x <= IZR hi - 1 + 1 / 2 -> 1 / 2 <= x ->
  (forall n, (lo <= n <= hi)%Z -> g n = a + b * (IZR n + 1 / 2)) -> cub1 lo hi g x = a + b * x.
Proof.
  intros B P H. unfold cub1. rewrite Rmax_right by lra. set (p := x - 1 / 2). cbv zeta.
  pose proof (rfloor_spec p) as F. set (c := rfloor p) in *. assert (E : x = IZR c + (p - IZR c) + 1 / 2) by (unfold p; lra).
  assert (L1 : IZR (lo + 1) < IZR (c + 1)) by (rewrite !plus_IZR; unfold p in *; lra).
  assert (L2 : IZR c <= IZR (hi - 1)) by (rewrite minus_IZR; unfold p in *; lra).
  apply lt_IZR in L1. apply le_IZR in L2. rewrite (clamp_in_id lo hi c) by lia.
  rewrite (clamp_in_id lo hi (c - 1)), (clamp_in_id lo hi (c + 1)) by lia.
  destruct (Z.eq_dec (c + 1) hi) as [Q|Q].
  - assert (T : p - IZR c = 0).
    { assert (IZR c = IZR hi - 1) by (rewrite <- Q, plus_IZR; lra). unfold p in *; lra. }
    rewrite T, cubic_zero, H by lia. rewrite E, T. lra.
  - rewrite (clamp_in_id lo hi (c + 2)) by lia. rewrite !H by lia. rewrite !plus_IZR, minus_IZR.
    replace (a + b * (IZR c - 1 + 1 / 2)) with ((a + b * (1 / 2)) + b * (IZR c - 1)) by ring.
    replace (a + b * (IZR c + 1 / 2)) with ((a + b * (1 / 2)) + b * IZR c) by ring.
    replace (a + b * (IZR c + 1 + 1 / 2)) with ((a + b * (1 / 2)) + b * (IZR c + 1)) by ring.
    replace (a + b * (IZR c + 2 + 1 / 2)) with ((a + b * (1 / 2)) + b * (IZR c + 2)) by ring.
    rewrite cubic_line_affine. unfold p. lra.
Qed.

(** * Three axes *)
Lemma cub3_centre dw m q : in_box q dw -> (0 <= vx q)%Z -> (0 <= vy q)%Z -> (0 <= vz q)%Z -> cub3 dw m (centre q) = m q.
Proof.
  intros (IX & IY & IZ) X Y Z0. unfold cub3, centre. cbn [rx ry rz]. rewrite !cub1_centre by auto. destruct q; reflexivity.
Qed.
Lemma cub3_const dw m p v : box_nonempty dw -> (forall q, in_box q dw -> m q = v) -> cub3 dw m p = v.
Proof.
  intros (NX & NY & NZ) H. unfold cub3. apply cub1_const; auto. intros i I. apply cub1_const; auto. intros j J.
  apply cub1_const; auto. intros k K. apply H. unfold in_box. cbn [vx vy vz]. auto.
Qed.
Lemma cub3_bound dw m p lo hi : box_nonempty dw -> (forall q, in_box q dw -> lo <= m q <= hi) ->
  lo - 61 / 128 * (hi - lo) <= cub3 dw m p <= hi + 61 / 128 * (hi - lo).
Proof.
  intros (NX & NY & NZ) H. unfold cub3.
  set (l1 := lo - (hi - lo) / 8). set (h1 := hi + (hi - lo) / 8). set (l2 := l1 - (h1 - l1) / 8). set (h2 := h1 + (h1 - l1) / 8).
  match goal with |- _ <= ?e <= _ => assert (B : l2 - (h2 - l2) / 8 <= e <= h2 + (h2 - l2) / 8) end.
  { apply cub1_bound; auto. intros i I. apply cub1_bound; auto. intros j J. apply cub1_bound; auto. intros k K.
    apply H. unfold in_box. cbn [vx vy vz]. auto. }
  unfold l2, h2, l1, h1 in B. lra.
Qed.
Lemma cub3_affine dw m p c a b d :
  between (v3_add (bmin dw) (V3 1 1 1)) (v3_sub (bmax dw) (V3 1 1 1)) p ->
  1 / 2 <= rx p -> 1 / 2 <= ry p -> 1 / 2 <= rz p ->
  (forall q, in_box q dw -> m q = affine c a b d (centre q)) -> cub3 dw m p = affine c a b d p.
Proof.
  unfold between, centre, v3_add, v3_sub. cbn [rx ry rz vx vy vz]. rewrite !plus_IZR, !minus_IZR.
  intros (BX & BY & BZ) PX PY PZ H. unfold cub3, affine.
  rewrite cub1_affine with (a := c + b * ry p + d * rz p) (b := a); [lra|lra|auto|]. intros i I.
  rewrite cub1_affine with (a := c + a * (IZR i + 1 / 2) + d * rz p) (b := b); [lra|lra|auto|]. intros j J.
  rewrite cub1_affine with (a := c + a * (IZR i + 1 / 2) + b * (IZR j + 1 / 2)) (b := d); [lra|lra|auto|]. intros k K.
  rewrite H by (unfold in_box; cbn [vx vy vz]; auto). unfold affine. cbn [rx ry rz vx vy vz]. lra.
Qed.
