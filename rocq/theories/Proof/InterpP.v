From Coq Require Import ZArith Reals List Bool Lia Lra Psatz.
From Verif Require Import Model.Base Model.FieldM Model.RealM Model.VecM Model.SparseM Model.InterpM.
From Verif Require Import Spec.VoxelSpec Spec.SparseSpec Spec.InterpSpec Proof.BaseP Proof.RealP Proof.DenseP Proof.SparseP.
Import ListNotations.
Open Scope R_scope.

(** * One axis of linear interpolation *)
Definition mix1 (g : Z -> R) (x : R) : R :=
  (IZR (rfloor x) + 1 - x) * g (rfloor x) + (x - IZR (rfloor x)) * g (rfloor x + 1)%Z.

Lemma mix1_ext g h x : (forall n, g n = h n) -> mix1 g x = mix1 h x.
Proof. intros H. unfold mix1. rewrite !H. reflexivity. Qed.
Lemma mix1_int g n : mix1 g (IZR n) = g n.
Proof. unfold mix1. rewrite rfloor_IZR. ring. Qed.
Lemma near_floor x : Rabs (IZR (rfloor x) - x) < 1.
Proof. pose proof (rfloor_spec x). apply Rabs_def1; lra. Qed.
Lemma near_next x : 0 < x - IZR (rfloor x) -> Rabs (IZR (rfloor x + 1) - x) < 1.
Proof. intros. pose proof (rfloor_spec x). rewrite plus_IZR. apply Rabs_def1; lra. Qed.
Lemma mix1_bound g x lo hi : (forall n, Rabs (IZR n - x) < 1 -> lo <= g n <= hi) -> lo <= mix1 g x <= hi.
Proof.
  intros H. unfold mix1. pose proof (rfloor_spec x) as F. pose proof (H _ (near_floor x)) as A.
  destruct (Rle_lt_dec (x - IZR (rfloor x)) 0) as [Z0|P].
  - replace (x - IZR (rfloor x)) with 0 by lra. replace (IZR (rfloor x) + 1 - x) with 1 by lra. lra.
  - pose proof (H _ (near_next x P)) as B. split; nra.
Qed.
Lemma mix1_affine g x a b : (forall n, Rabs (IZR n - x) < 1 -> g n = a + b * IZR n) -> mix1 g x = a + b * x.
Proof.
  intros H. unfold mix1. pose proof (rfloor_spec x) as F. rewrite (H _ (near_floor x)).
  destruct (Rle_lt_dec (x - IZR (rfloor x)) 0) as [Z0|P].
  - replace x with (IZR (rfloor x)) by lra. rewrite rfloor_IZR. ring.
  - rewrite (H _ (near_next x P)), plus_IZR. ring.
Qed.
Lemma mix1_const g x v : (forall n, g n = v) -> mix1 g x = v.
Proof. intros H. unfold mix1. rewrite !H. ring. Qed.
Lemma mix1_on g x n : IZR n <= x <= IZR n + 1 -> mix1 g x = (IZR n + 1 - x) * g n + (x - IZR n) * g (n + 1)%Z.
Proof.
  intros [A B]. destruct (Rle_lt_dec (IZR n + 1) x) as [C|C].
  - replace x with (IZR (n + 1)) by (rewrite plus_IZR; lra). rewrite mix1_int, plus_IZR. ring.
  - unfold mix1. rewrite (rfloor_unique x n) by lra. reflexivity.
Qed.
Lemma mix1_cell g x y n L : Rabs (g (n + 1)%Z - g n) <= L -> IZR n <= x -> x <= y -> y <= IZR n + 1 ->
  Rabs (mix1 g y - mix1 g x) <= L * (y - x).
Proof.
  intros HL A B C. rewrite (mix1_on g x n), (mix1_on g y n) by lra.
  replace (_ - _) with ((g (n + 1)%Z - g n) * (y - x)) by ring.
  rewrite Rabs_mult, (Rabs_pos_eq (y - x)) by lra. apply Rmult_le_compat_r; lra.
Qed.
Lemma mix1_lip_le g L : (forall n, Rabs (g (n + 1)%Z - g n) <= L) -> forall k x y, x <= y ->
  (rfloor y - rfloor x <= Z.of_nat k)%Z -> Rabs (mix1 g y - mix1 g x) <= L * (y - x).
Proof.
  intros H. induction k as [|k IH]; intros x y LE K.
  - pose proof (rfloor_mono x y LE). assert (E : rfloor y = rfloor x) by lia.
    pose proof (rfloor_spec x). pose proof (rfloor_spec y). rewrite E in *. apply (mix1_cell g x y (rfloor x)); auto; lra.
  - pose proof (rfloor_spec x) as X. pose proof (rfloor_spec y) as Y.
    destruct (Rle_lt_dec y (IZR (rfloor x) + 1)) as [C|C]; [apply (mix1_cell g x y (rfloor x)); auto; lra|].
    set (z := IZR (rfloor x + 1)). assert (Ez : z = IZR (rfloor x) + 1) by (unfold z; rewrite plus_IZR; lra).
    assert (A : Rabs (mix1 g z - mix1 g x) <= L * (z - x)) by (apply (mix1_cell g x z (rfloor x)); auto; lra).
    assert (B : Rabs (mix1 g y - mix1 g z) <= L * (y - z)).
    { apply IH; [lra|]. unfold z. rewrite rfloor_IZR. lia. }
    replace (mix1 g y - mix1 g x) with ((mix1 g y - mix1 g z) + (mix1 g z - mix1 g x)) by ring.
    eapply Rle_trans; [apply Rabs_triang|]. lra.
Qed.
Lemma mix1_lip g L x y : (forall n, Rabs (g (n + 1)%Z - g n) <= L) -> Rabs (mix1 g x - mix1 g y) <= L * Rabs (x - y).
Proof.
  intros H. destruct (Rle_lt_dec x y) as [C|C].
  - rewrite Rabs_minus_sym, (Rabs_minus_sym x). rewrite (Rabs_pos_eq (y - x)) by lra.
    apply (mix1_lip_le g L H (Z.to_nat (rfloor y - rfloor x))); auto. lia.
  - rewrite (Rabs_pos_eq (x - y)) by lra.
    apply (mix1_lip_le g L H (Z.to_nat (rfloor x - rfloor y))); [lra|]. lia.
Qed.
Lemma mix1_near g h x d : (forall n, Rabs (g n - h n) <= d) -> Rabs (mix1 g x - mix1 h x) <= d.
Proof.
  intros H. replace (mix1 g x - mix1 h x) with (mix1 (fun n => g n - h n) x) by (unfold mix1; ring).
  assert (B : - d <= mix1 (fun n => g n - h n) x <= d).
  { apply mix1_bound. intros n _. specialize (H n). pose proof (Rle_abs (g n - h n)). pose proof (Rle_abs (- (g n - h n))) as A. rewrite Rabs_Ropp in A. lra. }
  apply Rabs_le. lra.
Qed.

(** * The sampled function *)
Definition field3 (dw : box) (m : v3 -> R) (i j k : Z) : R := m (nearest dw (V3 i j k)).
Definition mix3 (dw : box) (m : v3 -> R) (p : r3) : R :=
  mix1 (fun i => mix1 (fun j => mix1 (fun k => field3 dw m i j k) (rz p - 1 / 2)) (ry p - 1 / 2)) (rx p - 1 / 2).

Lemma corner_eq x : corner x =
  let* c1 := int_floor x in let* c2 := i32 (c1 + 1) in Ok (c1, c2, IZR c2 - x, 1 - (IZR c2 - x)).
Proof. reflexivity. Qed.
Lemma corner_ok x : - 2 ^ 30 < x < 2 ^ 30 ->
  corner (x - 1 / 2) = Ok (rfloor (x - 1 / 2), (rfloor (x - 1 / 2) + 1)%Z,
    IZR (rfloor (x - 1 / 2)) + 1 - (x - 1 / 2), x - 1 / 2 - IZR (rfloor (x - 1 / 2))).
Proof.
  intros H. rewrite corner_eq. unfold int_floor. pose proof (rfloor_spec (x - 1 / 2)) as F. set (y := x - 1 / 2) in *. set (c := rfloor y) in *.
  assert (A : IZR c < IZR (2 ^ 30)) by (rewrite <- pow_IZR with (n := 30%nat); unfold y in F; simpl pow in *; lra).
  assert (B : IZR (- 2 ^ 30 - 2) < IZR c) by (rewrite minus_IZR, opp_IZR, <- pow_IZR with (n := 30%nat); unfold y in F; simpl pow in *; lra).
  apply lt_IZR in A. apply lt_IZR in B.
  rewrite i32_ok by (unfold int_min, int_max; lia). cbn [bind]. rewrite i32_ok by (unfold int_min, int_max; lia). cbn [bind].
  rewrite plus_IZR. do 2 f_equal; ring.
Qed.

Lemma nearest_in dw n : box_nonempty dw -> in_box (nearest dw n) dw.
Proof. unfold box_nonempty, in_box, nearest. cbn [vx vy vz]. lia. Qed.
Lemma nearest_id dw n : in_box n dw -> nearest dw n = n.
Proof. unfold in_box, nearest. destruct n as [a b c]. cbn [vx vy vz]. intros. f_equal; lia. Qed.

Lemma stencil_ok dw val m a b c a' b' c' f1 f2 : box_nonempty dw -> reads dw val m ->
  stencil val (nearest dw (V3 a b c)) (nearest dw (V3 a' b' c')) f1 f2 =
  Ok (trilinear f1 f2 (field3 dw m a b c) (field3 dw m a b c') (field3 dw m a b' c) (field3 dw m a b' c')
        (field3 dw m a' b c) (field3 dw m a' b c') (field3 dw m a' b' c) (field3 dw m a' b' c')).
Proof.
  intros NE RD. unfold stencil, field3.
  assert (G : forall x y z, val (nearest dw (V3 x y z)) = Ok (m (nearest dw (V3 x y z)))) by (intros; apply RD, nearest_in; auto).
  unfold nearest in *. cbn [vx vy vz] in *. rewrite !G. reflexivity.
Qed.

Lemma linear_eq dw val m p : box_nonempty dw -> reads dw val m -> pos_ok p ->
  linear_sample dw val p = Ok (mix3 dw m p).
Proof.
  intros NE RD (PX & PY & PZ). unfold linear_sample. rewrite !corner_ok by auto. cbn [bind].
  unfold clamp_in.
  match goal with |- stencil _ (V3 (Z.max _ (Z.min ?a _)) (Z.max _ (Z.min ?b _)) (Z.max _ (Z.min ?c _)))
                              (V3 (Z.max _ (Z.min ?a' _)) (Z.max _ (Z.min ?b' _)) (Z.max _ (Z.min ?c' _))) ?f1 ?f2 = _ =>
    change (stencil val (nearest dw (V3 a b c)) (nearest dw (V3 a' b' c')) f1 f2 = Ok (mix3 dw m p)) end.
  rewrite (stencil_ok dw val m) by auto. f_equal.
Qed.
Lemma clamp_same lo hi c : (lo <= hi)%Z -> clamp_out lo hi c = clamp_in lo hi c.
Proof. unfold clamp_out, clamp_in. lia. Qed.
Lemma generic_linear dw val p : box_nonempty dw -> generic_sample dw val p = linear_sample dw val p.
Proof.
  intros (A & B & C). unfold generic_sample, linear_sample.
  destruct (corner (rx p - 1 / 2)) as [[[[? ?] ?] ?]| |]; auto. cbn [bind].
  destruct (corner (ry p - 1 / 2)) as [[[[? ?] ?] ?]| |]; auto. cbn [bind].
  destruct (corner (rz p - 1 / 2)) as [[[[? ?] ?] ?]| |]; auto. cbn [bind].
  rewrite !clamp_same by auto. reflexivity.
Qed.

(** * Facts about [mix3] *)
Lemma mix3_centre dw m q : in_box q dw -> mix3 dw m (centre q) = m q.
Proof.
  intros I. unfold mix3, centre. cbn [rx ry rz].
  assert (S : forall n, IZR n + 1 / 2 - 1 / 2 = IZR n) by (intros; lra). rewrite !S, !mix1_int. unfold field3.
  rewrite nearest_id; destruct q; auto.
Qed.
Lemma mix3_bound dw m p lo hi : (forall q, around dw p q -> lo <= m q <= hi) -> lo <= mix3 dw m p <= hi.
Proof.
  intros H. unfold mix3. apply mix1_bound; intros i I. apply mix1_bound; intros j J. apply mix1_bound; intros k K.
  apply H. exists (V3 i j k). unfold centre. cbn [rx ry rz vx vy vz].
  split; [reflexivity|]. split; [|split].
  - replace (_ - _) with (IZR i - (rx p - 1 / 2)) by lra; auto.
  - replace (_ - _) with (IZR j - (ry p - 1 / 2)) by lra; auto.
  - replace (_ - _) with (IZR k - (rz p - 1 / 2)) by lra; auto.
Qed.
Lemma in_range x lo hi n : IZR lo <= x <= IZR hi -> Rabs (IZR n - x) < 1 -> (lo <= n <= hi)%Z.
Proof.
  intros B N. apply Rabs_def2 in N.
  assert (IZR (lo - 1) < IZR n) by (rewrite minus_IZR; lra). assert (IZR n < IZR (hi + 1)) by (rewrite plus_IZR; lra).
  apply lt_IZR in H. apply lt_IZR in H0. lia.
Qed.
Lemma mix3_affine dw m p c a b d : between (bmin dw) (bmax dw) p ->
  (forall q, in_box q dw -> m q = affine c a b d (centre q)) -> mix3 dw m p = affine c a b d p.
Proof.
  unfold between, centre. cbn [rx ry rz]. intros (BX & BY & BZ) H. unfold mix3, affine.
  rewrite mix1_affine with (a := c + a * (1 / 2) + b * ry p + d * rz p) (b := a); [lra|]. intros i I.
  rewrite mix1_affine with (a := c + a * IZR i + a * (1 / 2) + b * (1 / 2) + d * rz p) (b := b); [lra|]. intros j J.
  rewrite mix1_affine with (a := c + a * IZR i + a * (1 / 2) + b * IZR j + b * (1 / 2) + d * (1 / 2)) (b := d); [lra|]. intros k K.
  assert (IN : in_box (V3 i j k) dw).
  { unfold in_box. cbn [vx vy vz]. split; [|split].
    - apply (in_range (rx p - 1 / 2)); auto; lra.
    - apply (in_range (ry p - 1 / 2)); auto; lra.
    - apply (in_range (rz p - 1 / 2)); auto; lra. }
  unfold field3. rewrite nearest_id, H by auto. unfold affine, centre. cbn [rx ry rz vx vy vz]. lra.
Qed.
Lemma mix3_const dw m p v : box_nonempty dw -> (forall q, in_box q dw -> m q = v) -> mix3 dw m p = v.
Proof.
  intros NE H. unfold mix3. apply mix1_const; intros i. apply mix1_const; intros j. apply mix1_const; intros k.
  apply H, nearest_in; auto.
Qed.

Lemma clamp_near lo hi x y : (Z.abs (Z.max lo (Z.min x hi) - Z.max lo (Z.min y hi)) <= Z.abs (x - y))%Z.
Proof. lia. Qed.
Lemma nearest_step dw a b L (m : v3 -> R) : box_nonempty dw -> 0 <= L ->
  (forall q q', in_box q dw -> in_box q' dw -> adjacent q q' -> Rabs (m q - m q') <= L) ->
  adjacent a b -> Rabs (m (nearest dw a) - m (nearest dw b)) <= L.
Proof.
  intros NE L0 H A. destruct (v3_dec (nearest dw a) (nearest dw b)) as [E|N].
  - rewrite E. unfold Rminus. rewrite Rplus_opp_r, Rabs_R0. auto.
  - apply H; try (apply nearest_in; auto). unfold adjacent, nearest in *. destruct a as [a1 a2 a3], b as [b1 b2 b3]. cbn [vx vy vz] in *.
    assert (G : forall x y z x' y' z', V3 x y z <> V3 x' y' z' -> x <> x' \/ y <> y' \/ z <> z').
    { intros x y z x' y' z' NN. destruct (Z.eq_dec x x'), (Z.eq_dec y y'), (Z.eq_dec z z'); auto. subst. tauto. }
    apply G in N. clear G H.
    pose proof (clamp_near (vx (bmin dw)) (vx (bmax dw)) a1 b1) as K1. pose proof (clamp_near (vy (bmin dw)) (vy (bmax dw)) a2 b2) as K2.
    pose proof (clamp_near (vz (bmin dw)) (vz (bmax dw)) a3 b3) as K3. clear NE L0.
    repeat match goal with |- context[Z.max ?u ?v] => generalize dependent (Z.max u v); intros end. lia.
Qed.
Lemma mix3_lip dw m L p p' : box_nonempty dw -> 0 <= L ->
  (forall q q', in_box q dw -> in_box q' dw -> adjacent q q' -> Rabs (m q - m q') <= L) ->
  Rabs (mix3 dw m p - mix3 dw m p') <= L * (Rabs (rx p - rx p') + Rabs (ry p - ry p') + Rabs (rz p - rz p')).
Proof.
  intros NE L0 H. pose proof (fun a b => nearest_step dw a b L m NE L0 H) as N.
  set (q1 := R3 (rx p') (ry p) (rz p)). set (q2 := R3 (rx p') (ry p') (rz p)).
  assert (A : Rabs (mix3 dw m p - mix3 dw m q1) <= L * Rabs (rx p - rx p')).
  { unfold mix3, q1. cbn [rx ry rz]. replace (rx p - rx p') with (rx p - 1 / 2 - (rx p' - 1 / 2)) by lra.
    apply mix1_lip. intros n. apply mix1_near. intros j. apply mix1_near. intros k. apply N. unfold adjacent. cbn [vx vy vz]. lia. }
  assert (B : Rabs (mix3 dw m q1 - mix3 dw m q2) <= L * Rabs (ry p - ry p')).
  { unfold mix3, q1, q2. cbn [rx ry rz]. replace (ry p - ry p') with (ry p - 1 / 2 - (ry p' - 1 / 2)) by lra.
    apply mix1_near. intros i. apply mix1_lip. intros n. apply mix1_near. intros k. apply N. unfold adjacent. cbn [vx vy vz]. lia. }
  assert (C : Rabs (mix3 dw m q2 - mix3 dw m p') <= L * Rabs (rz p - rz p')).
  { unfold mix3, q2. cbn [rx ry rz]. replace (rz p - rz p') with (rz p - 1 / 2 - (rz p' - 1 / 2)) by lra.
    apply mix1_near. intros i. apply mix1_near. intros j. apply mix1_lip. intros n. apply N. unfold adjacent. cbn [vx vy vz]. lia. }
  replace (mix3 dw m p - mix3 dw m p') with
    ((mix3 dw m p - mix3 dw m q1) + ((mix3 dw m q1 - mix3 dw m q2) + (mix3 dw m q2 - mix3 dw m p'))) by ring.
  eapply Rle_trans; [apply Rabs_triang|]. pose proof (Rabs_triang (mix3 dw m q1 - mix3 dw m q2) (mix3 dw m q2 - mix3 dw m p')). lra.
Qed.

(** * The sparse fast path *)
Lemma trilinear_const f1 f2 v : rx f1 + rx f2 = 1 -> ry f1 + ry f2 = 1 -> rz f1 + rz f2 = 1 ->
  trilinear f1 f2 v v v v v v v v = v.
Proof.
  intros A B C. unfold trilinear. replace (rx f2) with (1 - rx f1) by lra. replace (ry f2) with (1 - ry f1) by lra.
  replace (rz f2) with (1 - rz f1) by lra. ring.
Qed.
Lemma corner_sum x c1 c2 f1 f2 : corner x = Ok (c1, c2, f1, f2) -> f1 + f2 = 1 /\ c2 = (c1 + 1)%Z.
Proof.
  rewrite corner_eq. destruct (int_floor x); cbn [bind]; try discriminate. unfold i32. destruct (in_int (a + 1)); cbn [bind]; try discriminate.
  injection 1 as <- <- <- <-. split; [lra|auto].
Qed.
Lemma div_stay s x d : (0 < s)%Z -> (x mod s < s - 1)%Z -> (0 <= d <= 1)%Z -> ((x + d) / s = x / s /\ (x + d) mod s = x mod s + d)%Z.
Proof.
  intros S B D. pose proof (Z.mod_pos_bound x s S). pose proof (Z.div_mod x s ltac:(lia)) as E.
  assert (Q : ((x + d) / s = x / s)%Z).
  { symmetry. apply Z.div_unique with (r := (x mod s + d)%Z); [left; lia|lia]. }
  split; auto. rewrite Zmod_eq by lia. rewrite Q, Zmod_eq by lia. lia.
Qed.
Lemma clamp_step lo hi c : (lo <= hi)%Z ->
  (lo <= clamp_out lo hi c <= hi /\ lo <= clamp_out lo hi (c + 1) <= hi /\ 0 <= clamp_out lo hi (c + 1) - clamp_out lo hi c <= 1)%Z.
Proof. unfold clamp_out. lia. Qed.

Lemma sparse_sample_eq f p : sshape f -> box_nonempty (s_dw f) -> sparse_sample f p = generic_sample (s_dw f) (sparse_value f) p.
Proof.
  intros SH NE. unfold sparse_sample, generic_sample.
  destruct (corner (rx p - 1 / 2)) as [[[[ax bx] f1x] f2x]| |] eqn:CX; auto. cbn [bind].
  destruct (corner (ry p - 1 / 2)) as [[[[ay by_] f1y] f2y]| |] eqn:CY; auto. cbn [bind].
  destruct (corner (rz p - 1 / 2)) as [[[[az bz] f1z] f2z]| |] eqn:CZ; auto. cbn [bind].
  apply corner_sum in CX. apply corner_sum in CY. apply corner_sum in CZ.
  destruct CX as [SX ->], CY as [SY ->], CZ as [SZ ->].
  set (dw := s_dw f) in *. destruct NE as (NX & NY & NZ).
  destruct (clamp_step _ _ ax NX) as (X1 & X2 & XD). destruct (clamp_step _ _ ay NY) as (Y1 & Y2 & YD).
  destruct (clamp_step _ _ az NZ) as (Z1 & Z2 & ZD).
  set (x1 := clamp_out _ _ ax) in *. set (x2 := clamp_out _ _ (ax + 1)) in *.
  set (y1 := clamp_out _ _ ay) in *. set (y2 := clamp_out _ _ (ay + 1)) in *.
  set (z1 := clamp_out _ _ az) in *. set (z2 := clamp_out _ _ (az + 1)) in *.
  clearbody x1 x2 y1 y2 z1 z2.
  assert (I1 : in_box (V3 x1 y1 z1) (s_dw f)) by (unfold in_box; cbn [vx vy vz]; fold dw; lia).
  assert (O : order_ok (s_order f)) by apply SH. unfold order_ok in O.
  rewrite window_offset_ok; [|apply SH|auto]. cbn [bind].
  rewrite voxel_in_block_eq, block_coord_eq by lia. cbn [vx vy vz].
  rewrite Z.shiftl_mul_pow2, Z.mul_1_l by lia. set (s := (2 ^ s_order f)%Z).
  assert (S0 : (0 < s)%Z) by (apply pow2_pos; lia).
  destruct (_ && _ && _)%bool eqn:FAST; [|reflexivity].
  apply andb_prop in FAST. destruct FAST as [FAST VZ]. apply andb_prop in FAST. destruct FAST as [VX VY].
  apply Z.ltb_lt in VX, VY, VZ.
  set (blk := V3 _ _ _). assert (EB : blk = bc f (V3 x1 y1 z1)) by reflexivity. rewrite EB. clear blk EB.
  destruct (block_id_ok f _ SH (bc_in_grid f _ SH I1)) as [-> LID]. cbn [bind].
  destruct (arr_get_ok _ _ LID) as [b GB]. rewrite GB. cbn [bind].
  assert (RD : forall x y z, (0 <= x - x1 <= 1)%Z -> (0 <= y - y1 <= 1)%Z -> (0 <= z - z1 <= 1)%Z ->
     in_box (V3 x y z) (s_dw f) ->
     sparse_value f (V3 x y z) =
       if b_alloc b then block_cell b ((x1 - vx (bmin dw)) mod s + (y1 - vy (bmin dw)) mod s * s + (z1 - vz (bmin dw)) mod s * s * s
                            + s * (y - y1) + s * s * (z - z1) + (x - x1)) else Ok (b_empty b)).
  { intros x y z DX DY DZ IN. rewrite sparse_value_eq by auto.
    assert (E : bc f (V3 x y z) = bc f (V3 x1 y1 z1) /\ cid s (vc f (V3 x y z)) =
       ((x1 - vx (bmin dw)) mod s + (y1 - vy (bmin dw)) mod s * s + (z1 - vz (bmin dw)) mod s * s * s
                            + s * (y - y1) + s * s * (z - z1) + (x - x1))%Z).
    { unfold bc, vc, cid. cbn [vx vy vz]. fold s. fold dw.
      destruct (div_stay s (x1 - vx (bmin dw)) (x - x1) S0 VX DX) as [QX MX].
      destruct (div_stay s (y1 - vy (bmin dw)) (y - y1) S0 VY DY) as [QY MY].
      destruct (div_stay s (z1 - vz (bmin dw)) (z - z1) S0 VZ DZ) as [QZ MZ].
      replace (x1 - vx (bmin dw) + (x - x1))%Z with (x - vx (bmin dw))%Z in * by lia.
      replace (y1 - vy (bmin dw) + (y - y1))%Z with (y - vy (bmin dw))%Z in * by lia.
      replace (z1 - vz (bmin dw) + (z - z1))%Z with (z - vz (bmin dw))%Z in * by lia.
      rewrite QX, QY, QZ, MX, MY, MZ. split; [reflexivity|ring]. }
    destruct E as [-> E]. rewrite GB. cbn [bind]. unfold read_block. fold s. rewrite E. reflexivity. }
  assert (IN : forall x y z, (x = x1 \/ x = x2) -> (y = y1 \/ y = y2) -> (z = z1 \/ z = z2) -> in_box (V3 x y z) (s_dw f))
    by (intros; unfold in_box; cbn [vx vy vz]; fold dw; lia).
  unfold stencil. cbn [vx vy vz].
  rewrite !RD by (first [apply IN; auto|lia]).
  destruct (b_alloc b).
  - rewrite !Z.sub_diag, !Z.mul_0_r, !Z.add_0_r.
    set (A := (_ + _ * s + _ * s * s)%Z). set (dy := (s * (y2 - y1))%Z). set (dz := (s * s * (z2 - z1))%Z).
    replace (A + dz + dy)%Z with (A + dy + dz)%Z by ring. reflexivity.
  - cbn [bind]. rewrite trilinear_const by (cbn [rx ry rz]; auto). reflexivity.
Qed.
