(** Proofs about interpolation in MAC fields. *)
From Coq Require Import ZArith Reals List Bool Lia Lra.
From Verif Require Import Model.Base Model.FieldM Model.RealM Model.VecM Model.InterpM Model.MacM
  Spec.VoxelSpec Spec.InterpSpec Spec.MacSpec Proof.BaseP Proof.RealP Proof.InterpP Proof.CubicP Proof.MacP.
Import ListNotations.
Open Scope R_scope.

(** * Linear *)
Definition shift (c : component) (p : r3) : r3 :=
  R3 (rx p - rx (own c) + 1 / 2) (ry p - ry (own c) + 1 / 2) (rz p - rz (own c) + 1 / 2).
Lemma linear_shift m c p : mac_linear_one m c p = generic_sample (component_window (m_dw m) c) (face m c) (shift c p).
Proof.
  unfold mac_linear_one, generic_sample, shift. cbn [rx ry rz].
  replace (rx p - rx (own c) + 1 / 2 - 1 / 2) with (rx p - rx (own c)) by ring.
  replace (ry p - ry (own c) + 1 / 2 - 1 / 2) with (ry p - ry (own c)) by ring.
  replace (rz p - rz (own c) + 1 / 2 - 1 / 2) with (rz p - rz (own c)) by ring. reflexivity.
Qed.
Lemma shift_centre c q : shift c (face_centre c q) = centre q.
Proof. destruct c; unfold shift, face_centre, centre, own; cbn [rx ry rz]; f_equal; lra. Qed.
Lemma shift_ok c p : mac_pos_ok p -> pos_ok (shift c p).
Proof. unfold mac_pos_ok, pos_ok, shift. intros (X & Y & Z0). destruct c; cbn [own rx ry rz]; simpl pow in *; lra. Qed.
Lemma window_next dw c : component_window dw c = Box (bmin dw) (next c (bmax dw)).
Proof. destruct c; unfold component_window, comp_axis, v3_add; cbn; rewrite ?Z.add_0_r; reflexivity. Qed.
Lemma around_near dw c p q : around (component_window dw c) (shift c p) q -> near_face dw c p q.
Proof.
  rewrite window_next. intros (n & E & X & Y & Z0). exists n. split; [exact E|]. unfold centre, shift, face_centre in *.
  destruct c; cbn [own rx ry rz] in *; (split; [|split]); match goal with H : Rabs ?a < 1 |- Rabs ?b < 1 => replace b with a by lra; exact H end.
Qed.

(** Every face of a field that satisfies the invariant can be read. *)
Definition face_val (m : mac) (c : component) (q : v3) : R := match face m c q with Ok x => x | _ => 0 end.
Lemma face_reads m c : minv m -> reads (component_window (m_dw m) c) (face m c) (face_val m c).
Proof. intros I q Q. apply window_face in Q. destruct (face_ok m c q I Q) as (x & E). unfold face_val. rewrite E. reflexivity. Qed.
Lemma window_nonempty dw c : box_nonempty dw -> box_nonempty (component_window dw c).
Proof. rewrite window_next. unfold box_nonempty. intros (X & Y & Z0). destruct c; cbn; lia. Qed.

Lemma mac_linear_ok m p : minv m -> box_nonempty (m_dw m) -> mac_pos_ok p ->
  mac_linear m p = Ok (R3 (mix3 (component_window (m_dw m) CompU) (face_val m CompU) (shift CompU p))
                          (mix3 (component_window (m_dw m) CompV) (face_val m CompV) (shift CompV p))
                          (mix3 (component_window (m_dw m) CompW) (face_val m CompW) (shift CompW p))).
Proof.
  intros I N P.
  assert (A : forall c, mac_linear_one m c p = Ok (mix3 (component_window (m_dw m) c) (face_val m c) (shift c p))).
  { intros c. pose proof (window_nonempty _ c N). rewrite linear_shift, generic_linear by auto.
    apply linear_eq; auto; [apply face_reads; auto|apply shift_ok; auto]. }
  unfold mac_linear. rewrite !A. reflexivity.
Qed.
Lemma between_shift dw c p : between_faces c (bmin dw) (next c (bmax dw)) p ->
  between (bmin (component_window dw c)) (bmax (component_window dw c)) (shift c p).
Proof.
  rewrite window_next. unfold between_faces, between, centre, shift, face_centre. destruct c; cbn [own rx ry rz next vx vy vz bmin bmax]; lra.
Qed.
(** An affine function moved with the position. *)
Lemma affine_shift c k a b d p :
  affine k a b d p = affine (k + a * (rx (own c) - 1 / 2) + b * (ry (own c) - 1 / 2) + d * (rz (own c) - 1 / 2)) a b d (shift c p).
Proof. unfold affine, shift. cbn [rx ry rz]. ring. Qed.

(** * Cubic *)
Definition cubp (lo hi : Z) (g : Z -> R) (p : R) : R :=
  let c := rfloor p in let im := clamp_in lo hi c in
  cubic (g (clamp_in lo hi (im - 1))) (g im) (g (clamp_in lo hi (im + 1))) (g (clamp_in lo hi (im + 2))) (p - IZR c).
Definition apos (o : bool) (x : R) : R := if o then x else Rmax (1 / 2) x - 1 / 2.
Definition is_own (c d : component) : bool := if comp_dec c d then true else false.
Definition mcub3 (dw : box) (c : component) (m : v3 -> R) (p : r3) : R :=
  cubp (vx (bmin dw)) (vx (bmax dw)) (fun i =>
    cubp (vy (bmin dw)) (vy (bmax dw)) (fun j =>
      cubp (vz (bmin dw)) (vz (bmax dw)) (fun k => m (V3 i j k)) (apos (is_own c CompW) (rz p))) (apos (is_own c CompV) (ry p)))
    (apos (is_own c CompU) (rx p)).

Lemma cubp_ext lo hi g h x : (forall n, g n = h n) -> cubp lo hi g x = cubp lo hi h x.
Proof. intros H. unfold cubp. cbv zeta. rewrite !H. reflexivity. Qed.
Lemma cubp_bound lo hi g x a b : (lo <= hi)%Z -> (forall n, (lo <= n <= hi)%Z -> a <= g n <= b) ->
  a - (b - a) / 8 <= cubp lo hi g x <= b + (b - a) / 8.
Proof.
  intros NE H. unfold cubp. cbv zeta. pose proof (rfloor_spec x) as F.
  apply cubic_bound; [lra| | | |]; apply H, clamp_in_range; auto.
Qed.
Lemma cubp_const lo hi g x v : (lo <= hi)%Z -> (forall n, (lo <= n <= hi)%Z -> g n = v) -> cubp lo hi g x = v.
Proof. intros NE H. unfold cubp. cbv zeta. rewrite !H by (apply clamp_in_range; auto). apply cubic_const. Qed.
Lemma cubp_int lo hi g n : (lo <= n <= hi)%Z -> cubp lo hi g (IZR n) = g n.
Proof. intros I. unfold cubp. cbv zeta. rewrite rfloor_IZR, Rminus_eq_0, cubic_zero, clamp_in_id by auto. reflexivity. Qed.
Lemma apos_int o n : o = true \/ (0 <= n)%Z -> apos o (if o then IZR n else IZR n + 1 / 2) = IZR n.
Proof. intros P. destruct o; cbn [apos]; auto. destruct P as [P|P]; [discriminate|]. apply IZR_le in P. rewrite Rmax_right; lra. Qed.
Lemma cubp_affine lo hi g x a b : IZR lo + 1 <= x <= IZR hi - 1 ->
  (forall n, (lo <= n <= hi)%Z -> g n = a + b * IZR n) -> cubp lo hi g x = a + b * x.
Proof.
  intros B H. unfold cubp. cbv zeta. pose proof (rfloor_spec x) as F. set (c := rfloor x) in *.
  assert (L1 : IZR (lo + 1) < IZR (c + 1)) by (rewrite !plus_IZR; lra).
  assert (L2 : IZR c <= IZR (hi - 1)) by (rewrite minus_IZR; lra).
  apply lt_IZR in L1. apply le_IZR in L2. rewrite (clamp_in_id lo hi c) by lia.
  rewrite (clamp_in_id lo hi (c - 1)), (clamp_in_id lo hi (c + 1)) by lia.
  destruct (Z.eq_dec (c + 1) hi) as [Q|Q].
  - assert (T : x = IZR c) by (assert (IZR c = IZR hi - 1) by (rewrite <- Q, plus_IZR; lra); lra).
    replace (x - IZR c) with 0 by lra. rewrite cubic_zero, H, T by lia. auto.
  - rewrite (clamp_in_id lo hi (c + 2)), !H by lia. rewrite !plus_IZR, minus_IZR, cubic_line_affine. f_equal. f_equal. lra.
Qed.

Lemma mcub3_centre dw c m q : in_box q dw -> across_from c 0 (R3 (IZR (vx q)) (IZR (vy q)) (IZR (vz q))) -> mcub3 dw c m (face_centre c q) = m q.
Proof.
  intros (IX & IY & IZ) A.
  assert (EX : apos (is_own c CompU) (rx (face_centre c q)) = IZR (vx q)).
  { destruct c; cbn [is_own face_centre rx across_from ry rz] in *; [apply (apos_int true); auto|apply (apos_int false)..]; right; apply le_IZR; lra. }
  assert (EY : apos (is_own c CompV) (ry (face_centre c q)) = IZR (vy q)).
  { destruct c; cbn [is_own face_centre rx across_from ry rz] in *; [apply (apos_int false)|apply (apos_int true); auto|apply (apos_int false)]; right; apply le_IZR; lra. }
  assert (EZ : apos (is_own c CompW) (rz (face_centre c q)) = IZR (vz q)).
  { destruct c; cbn [is_own face_centre rx across_from ry rz] in *; [apply (apos_int false)..|apply (apos_int true); auto]; right; apply le_IZR; lra. }
  unfold mcub3. rewrite EX, EY, EZ, !cubp_int by auto. destruct q; reflexivity.
Qed.
Lemma mcub3_const dw c m p v : box_nonempty dw -> (forall q, in_box q dw -> m q = v) -> mcub3 dw c m p = v.
Proof.
  intros (NX & NY & NZ) H. unfold mcub3. apply cubp_const; auto. intros i I. apply cubp_const; auto. intros j J.
  apply cubp_const; auto. intros k K. apply H. unfold in_box. cbn [vx vy vz]. auto.
Qed.
Lemma mcub3_bound dw c m p lo hi : box_nonempty dw -> (forall q, in_box q dw -> lo <= m q <= hi) ->
  lo - 61 / 128 * (hi - lo) <= mcub3 dw c m p <= hi + 61 / 128 * (hi - lo).
Proof.
  intros (NX & NY & NZ) H. unfold mcub3.
  set (l1 := lo - (hi - lo) / 8). set (h1 := hi + (hi - lo) / 8). set (l2 := l1 - (h1 - l1) / 8). set (h2 := h1 + (h1 - l1) / 8).
  match goal with |- _ <= ?e <= _ => assert (B : l2 - (h2 - l2) / 8 <= e <= h2 + (h2 - l2) / 8) end.
  { apply cubp_bound; auto. intros i I. apply cubp_bound; auto. intros j J. apply cubp_bound; auto. intros k K.
    apply H. unfold in_box. cbn [vx vy vz]. auto. }
  unfold l2, h2, l1, h1 in B. lra.
Qed.

Lemma mac_cubic_axis_ok o lo hi x : (lo <= hi)%Z -> (- 2 ^ 30 < lo)%Z -> (hi < 2 ^ 30 - 1)%Z -> - 2 ^ 29 < x < 2 ^ 29 ->
  mac_cubic_axis o lo hi x =
  let p := apos o x in let c := rfloor p in let im := clamp_in lo hi c in
  Ok (clamp_in lo hi (im - 1), im, clamp_in lo hi (im + 1), clamp_in lo hi (im + 2), p - IZR c).
Proof.
  intros NE L H X. unfold mac_cubic_axis, int_floor. fold (apos o x). set (p := apos o x).
  pose proof (rfloor_spec p) as F. assert (P : - 2 ^ 29 <= p <= 2 ^ 29).
  { unfold p, apos, Rmax. destruct o, (Rle_dec (1 / 2) x); simpl pow in *; lra. }
  assert (A : IZR (rfloor p) < IZR (2 ^ 29 + 1)) by (rewrite plus_IZR, <- pow_IZR with (n := 29%nat); simpl pow in *; lra).
  assert (B : IZR (- 2 ^ 29 - 1) < IZR (rfloor p)) by (rewrite minus_IZR, opp_IZR, <- pow_IZR with (n := 29%nat); simpl pow in *; lra).
  apply lt_IZR in A. apply lt_IZR in B.
  rewrite i32_ok by (unfold int_min, int_max; lia). cbn [bind].
  pose proof (clamp_in_range lo hi (rfloor p) NE) as C. set (im := clamp_in lo hi (rfloor p)) in *.
  rewrite !i32_ok by (unfold int_min, int_max; lia). reflexivity.
Qed.
Lemma mac_cubic_one_ok m c p : minv m -> win_ok (component_window (m_dw m) c) -> mac_pos_ok p ->
  mac_cubic_one m c p = Ok (mcub3 (component_window (m_dw m) c) c (face_val m c) p).
Proof.
  intros I (NE & AX & BX & AY & BY & AZ & BZ) (PX & PY & PZ). destruct NE as (NX & NY & NZ).
  pose proof (face_reads m c I) as RD. unfold mac_cubic_one. set (dw := component_window (m_dw m) c) in *. clearbody dw.
  rewrite !mac_cubic_axis_ok by auto. cbv zeta. cbn [bind].
  replace (match c with CompU => true | _ => false end) with (is_own c CompU) by (destruct c; reflexivity).
  replace (match c with CompV => true | _ => false end) with (is_own c CompV) by (destruct c; reflexivity).
  replace (match c with CompW => true | _ => false end) with (is_own c CompW) by (destruct c; reflexivity).
  unfold mcub3, cubp. cbv zeta. unfold cubic_plane, cubic_line.
  assert (G : forall i j k, face m c (V3 (clamp_in (vx (bmin dw)) (vx (bmax dw)) i) (clamp_in (vy (bmin dw)) (vy (bmax dw)) j)
      (clamp_in (vz (bmin dw)) (vz (bmax dw)) k)) = Ok (face_val m c (V3 (clamp_in (vx (bmin dw)) (vx (bmax dw)) i) (clamp_in (vy (bmin dw)) (vy (bmax dw)) j)
      (clamp_in (vz (bmin dw)) (vz (bmax dw)) k)))).
  { intros. apply RD. unfold in_box. cbn [vx vy vz]. pose proof (clamp_in_range _ _ i NX). pose proof (clamp_in_range _ _ j NY).
    pose proof (clamp_in_range _ _ k NZ). lia. }
  rewrite !G. cbn [bind]. reflexivity.
Qed.
Lemma mac_cubic_ok m p : minv m -> (forall c, win_ok (component_window (m_dw m) c)) -> mac_pos_ok p ->
  mac_cubic m p = Ok (R3 (mcub3 (component_window (m_dw m) CompU) CompU (face_val m CompU) p)
                         (mcub3 (component_window (m_dw m) CompV) CompV (face_val m CompV) p)
                         (mcub3 (component_window (m_dw m) CompW) CompW (face_val m CompW) p)).
Proof. intros I W P. unfold mac_cubic. rewrite !mac_cubic_one_ok by auto. reflexivity. Qed.

Lemma apos_across o x : (o = false -> 1 / 2 <= x) -> apos o x = x - (if o then 0 else 1 / 2).
Proof. intros P. destruct o; cbn [apos]; [lra|]. rewrite Rmax_right by auto. lra. Qed.
Lemma mcub3_affine dw c m p k a b d :
  between_faces c (v3_add (bmin dw) (V3 1 1 1)) (v3_sub (bmax dw) (V3 1 1 1)) p -> across_from c (1 / 2) p ->
  (forall q, in_box q dw -> m q = affine k a b d (face_centre c q)) -> mcub3 dw c m p = affine k a b d p.
Proof.
  intros B A H. unfold mcub3.
  rewrite (apos_across (is_own c CompU)) by (destruct c; cbn in *; [discriminate|intros _; apply A..]).
  rewrite (apos_across (is_own c CompV)) by (destruct c; cbn in *; [intros _; apply A|discriminate|intros _; apply A]).
  rewrite (apos_across (is_own c CompW)) by (destruct c; cbn in *; [intros _; apply A|intros _; apply A|discriminate]).
  set (ox := if is_own c CompU then 0 else 1 / 2). set (oy := if is_own c CompV then 0 else 1 / 2). set (oz := if is_own c CompW then 0 else 1 / 2).
  assert (FC : forall q, face_centre c q = R3 (IZR (vx q) + ox) (IZR (vy q) + oy) (IZR (vz q) + oz)).
  { intros q. unfold ox, oy, oz. destruct c; cbn; f_equal; lra. }
  unfold between_faces in B. rewrite !FC in B. unfold v3_add, v3_sub in B. cbn [rx ry rz vx vy vz] in B. rewrite !plus_IZR, !minus_IZR in B.
  destruct B as (BX & BY & BZ). unfold affine.
  rewrite cubp_affine with (a := k + a * ox + b * ry p + d * rz p) (b := a); [lra|lra|]. intros i I.
  rewrite cubp_affine with (a := k + a * (IZR i + ox) + b * oy + d * rz p) (b := b); [lra|lra|]. intros j J.
  rewrite cubp_affine with (a := k + a * (IZR i + ox) + b * (IZR j + oy) + d * oz) (b := d); [lra|lra|]. intros l K.
  rewrite H by (unfold in_box; cbn [vx vy vz]; auto). rewrite FC. unfold affine. cbn [rx ry rz vx vy vz]. lra.
Qed.
