From Coq Require Import ZArith Reals List Bool Lia Lra.
From Flocq Require Import Core BinarySingleNaN.
From Verif Require Import Model.Base Model.FieldM Model.VecM Model.SparseM Model.FloatM Model.FloatSparseM.
From Verif Require Import Spec.VoxelSpec Spec.SparseSpec Spec.InterpSpec Spec.FloatSpec.
From Verif Require Import Proof.BaseP Proof.DenseP Proof.SparseP Proof.SparseP2 Proof.SparseP3 Proof.SparseP4 Proof.InterpP Proof.FloatP Proof.FloatP2.
Import ListNotations.
Open Scope Z_scope.

(** * Shape, whatever [operator==] does *)
Section S.
Context {V : Type}.
Record srel (f : sparse V) (a : smap V) : Prop := SRel { sr_shape : sshape f; sr_ext : s_ext f = sm_ext a; sr_dw : s_dw f = sm_dw a; sr_order : s_order f = sm_order a }.
Lemma srel_of f a : srefines f a -> srel f a.
Proof. intros [S X W O D]. constructor; auto. Qed.
Lemma srel_step zero eqb (f : sparse V) a o f' : srel f a -> slegal zero a [o] -> sparse_step zero eqb f o = Ok f' -> srel f' (sspec_step zero a o).
Proof.
  intros [S X W O] [L _] H. destruct o; simpl in L, H |- *.
  - unfold sparse_set_size in H. rewrite O in H. destruct (setup_refines zero e dw (sm_order a)) as (g & E & R); auto. { rewrite <- O. apply (ss_order _ S). } rewrite H in E. injection E as <-. apply srel_of in R. auto.
  - unfold sparse_set_order in H. destruct L as [H0 H1]. rewrite X, W in H. destruct (setup_refines zero (sm_ext a) (sm_dw a) _ H0 H1) as (g & E & R); auto. rewrite H in E. injection E as <-. apply srel_of in R. auto.
  - destruct (clear_refines zero f v S) as (g & E & R). rewrite H in E. injection E as <-. rewrite X, W, O in R. apply srel_of in R. auto.
  - assert (B : in_box p (s_dw f)) by congruence. destruct (sparse_write_ok f p v S B) as (g & b & b' & Eg & Sg & X1 & X2 & X3 & X4 & _). rewrite H in Eg. injection Eg as <-.
    constructor; auto; [exact (eq_trans X1 X)|exact (eq_trans X2 W)|exact (eq_trans X3 O)].
  - rewrite <- W, <- O in L. destruct (set_block_empty_ok f c v S L) as (g & E & Sg & X1 & X2 & X3 & X4 & _ & K). rewrite H in E. injection E as <-.
    constructor; auto; [exact (eq_trans X1 X)|exact (eq_trans X2 W)|exact (eq_trans X3 O)].
  - destruct (release_shape f (check_all_equal eqb) S) as (g & n & E & Sg & X1 & X2 & X3 & X4 & _). rewrite E in H. cbn [bind] in H. injection H as <-. constructor; auto; congruence.
Qed.
Lemma srel_run zero eqb l : forall (f : sparse V) a f', srel f a -> slegal zero a l -> sparse_run zero eqb f l = Ok f' -> srel f' (sspec_run zero a l).
Proof.
  induction l as [|o l IH]; intros f a f' R L H; cbn [sparse_run] in H; [injection H as <-; auto|]. apply slegal_cons in L. destruct L as [L1 L2].
  destruct (sparse_step zero eqb f o) as [f1| |] eqn:E; cbn [bind] in H; try discriminate. apply (IH f1 _ f'); auto. eapply srel_step; eauto.
Qed.
Lemma any_shape zero eqb (f : sparse V) : sparse_reached zero eqb f -> sshape f.
Proof.
  intros (l & f0 & L & E0 & E). destruct (srefines_init zero) as (g & G & R). rewrite E0 in G. injection G as <-. eapply sr_shape, (srel_run zero eqb l); eauto. apply srel_of; auto.
Qed.
End S.
(** * The fast path *)
Lemma fcorner_next x c1 c2 a b : f_corner x = Ok (c1, c2, a, b) -> c2 = c1 + 1.
Proof. intros H. apply corner_ok in H. tauto. Qed.
Lemma fs_clamp_step lo hi c : lo <= hi -> lo <= fs_clamp lo hi c <= hi /\ lo <= fs_clamp lo hi (c + 1) <= hi /\ 0 <= fs_clamp lo hi (c + 1) - fs_clamp lo hi c <= 1.
Proof. unfold fs_clamp. lia. Qed.
Lemma fs_clamp_same lo hi c : lo <= hi -> fs_clamp lo hi c = clamp lo hi c.
Proof. unfold fs_clamp, clamp. lia. Qed.
Lemma generic_value t dw (value : v3 -> res (val t)) (m : v3 -> val t) x y z : box_nonempty dw -> (forall q, in_box q dw -> value q = Ok (m q)) ->
  fs_generic t dw value x y z = f_sample t m dw x y z.
Proof.
  intros (NX & NY & NZ) H. unfold fs_generic, f_sample, fs_eight.
  destruct (f_corner x) as [[[[x1 x2] ax] bx]| |] eqn:CX; auto. cbn [bind]. destruct (f_corner y) as [[[[y1 y2] ay] by_]| |] eqn:CY; auto. cbn [bind].
  destruct (f_corner z) as [[[[z1 z2] az] bz]| |] eqn:CZ; auto. cbn [bind vx vy vz]. rewrite !fs_clamp_same by auto.
  rewrite !H by (unfold in_box; cbn [vx vy vz]; unfold clamp; lia). reflexivity.
Qed.
(** Either the generic path, or the whole stencil is in one block that is not allocated. *)
Definition in_empty {t} (f : sparse (val t)) (x y z : f64) (e : val t) : Prop :=
  exists q b, around (s_dw f) (at_ x y z) q /\ in_box q (s_dw f) /\ arr_get (s_blocks f) (lid (s_bres f) (bc f q)) = Ok b /\ b_alloc b = false /\ b_empty b = e.
Lemma fast_path t (f : sparse (val t)) x y z : sshape f -> box_nonempty (s_dw f) ->
  fs_sample t f x y z = fs_generic t (s_dw f) (sparse_value f) x y z \/
  exists e, fs_sample t f x y z = Ok e /\ fs_generic t (s_dw f) (sparse_value f) x y z = f_sample t (fun _ => e) (s_dw f) x y z /\ in_empty f x y z e.
Proof.
  intros SH NE. unfold fs_sample, fs_generic, f_sample.
  destruct (f_corner x) as [[[[ax bx] f1x] f2x]| |] eqn:CX; auto. cbn [bind].
  destruct (f_corner y) as [[[[ay by_] f1y] f2y]| |] eqn:CY; auto. cbn [bind].
  destruct (f_corner z) as [[[[az bz] f1z] f2z]| |] eqn:CZ; auto. cbn [bind].
  pose proof (corner_ok _ _ _ _ _ CX) as (_ & _ & _ & KX & _). pose proof (corner_ok _ _ _ _ _ CY) as (_ & _ & _ & KY & _). pose proof (corner_ok _ _ _ _ _ CZ) as (_ & _ & _ & KZ & _).
  apply fcorner_next in CX, CY, CZ. subst bx by_ bz.
  set (dw := s_dw f) in *. pose proof NE as (NX & NY & NZ).
  destruct (fs_clamp_step _ _ ax NX) as (X1 & X2 & XD). destruct (fs_clamp_step _ _ ay NY) as (Y1 & Y2 & YD).
  destruct (fs_clamp_step _ _ az NZ) as (Z1 & Z2 & ZD).
  assert (Q1 : around dw (at_ x y z) (V3 (fs_clamp (vx (bmin dw)) (vx (bmax dw)) ax) (fs_clamp (vy (bmin dw)) (vy (bmax dw)) ay) (fs_clamp (vz (bmin dw)) (vz (bmax dw)) az))).
  { exists (V3 ax ay az). rewrite !fs_clamp_same by auto. split; [reflexivity|]. unfold close in *. unfold centre, at_. cbn [rx ry rz vx vy vz]. replace (1 / 2)%R with (/ 2)%R by lra. auto. }
  set (x1 := fs_clamp _ _ ax) in *. set (x2 := fs_clamp _ _ (ax + 1)) in *.
  set (y1 := fs_clamp _ _ ay) in *. set (y2 := fs_clamp _ _ (ay + 1)) in *.
  set (z1 := fs_clamp _ _ az) in *. set (z2 := fs_clamp _ _ (az + 1)) in *.
  clearbody x1 x2 y1 y2 z1 z2.
  assert (I1 : in_box (V3 x1 y1 z1) (s_dw f)) by (unfold in_box; cbn [vx vy vz]; fold dw; lia).
  assert (O : order_ok (s_order f)) by apply SH. unfold order_ok in O.
  rewrite window_offset_ok; [|apply SH|auto]. cbn [bind].
  rewrite voxel_in_block_eq, block_coord_eq by lia. cbn [vx vy vz].
  rewrite Z.shiftl_mul_pow2, Z.mul_1_l by lia. set (s := (2 ^ s_order f)%Z).
  assert (S0 : (0 < s)%Z) by (apply pow2_pos; lia).
  destruct (_ && _ && _)%bool eqn:FAST; [|left; reflexivity].
  apply andb_prop in FAST. destruct FAST as [FAST VZ]. apply andb_prop in FAST. destruct FAST as [VX VY].
  apply Z.ltb_lt in VX, VY, VZ.
  set (blk := V3 (_ / _) _ _). assert (EB : blk = bc f (V3 x1 y1 z1)) by reflexivity. rewrite EB. clear blk EB.
  pose proof (bc_in_grid f _ SH I1) as BG.
  destruct (block_id_ok f _ SH BG) as [-> LID]. cbn [bind].
  destruct (arr_get_ok _ _ LID) as [b GB]. rewrite GB. cbn [bind].
  assert (RD : forall x y z, (0 <= x - x1 <= 1)%Z -> (0 <= y - y1 <= 1)%Z -> (0 <= z - z1 <= 1)%Z ->
     in_box (V3 x y z) (s_dw f) ->
     sparse_value f (V3 x y z) =
       if b_alloc b then block_cell b ((x1 - vx (bmin dw)) mod s + (y1 - vy (bmin dw)) mod s * s + (z1 - vz (bmin dw)) mod s * s * s
                            + s * (y - y1) + s * s * (z - z1) + (x - x1)) else Ok (b_empty b)).
  { clear - SH I1 S0 VX VY VZ GB. intros x y z DX DY DZ IN. rewrite sparse_value_eq by auto.
    assert (E : bc f (V3 x y z) = bc f (V3 x1 y1 z1) /\ cid s (vc f (V3 x y z)) =
       ((x1 - vx (bmin dw)) mod s + (y1 - vy (bmin dw)) mod s * s + (z1 - vz (bmin dw)) mod s * s * s
                            + s * (y - y1) + s * s * (z - z1) + (x - x1))%Z).
    { unfold bc, vc, cid. cbn [vx vy vz]. fold s. fold dw.
      destruct (div_stay s (x1 - vx (bmin dw)) (x - x1) S0 VX DX) as [QX MX].
      destruct (div_stay s (y1 - vy (bmin dw)) (y - y1) S0 VY DY) as [QY MY].
      destruct (div_stay s (z1 - vz (bmin dw)) (z - z1) S0 VZ DZ) as [QZ MZ].
      replace (x1 - vx (bmin dw) + (x - x1))%Z with (x - vx (bmin dw))%Z in * by lia.
      replace (y1 - vy (bmin dw) + (y - y1))%Z with (y - vy (bmin dw))%Z in * by lia.
      replace (z1 - vz (bmin dw) + (z - z1))%Z with (z - vz (bmin dw))%Z in * by lia.
      rewrite QX, QY, QZ, MX, MY, MZ. split; [reflexivity|ring]. }
    destruct E as [-> E]. rewrite GB. cbn [bind]. unfold read_block. fold s. rewrite E. reflexivity. }
  assert (IN : forall x y z, (x = x1 \/ x = x2) -> (y = y1 \/ y = y2) -> (z = z1 \/ z = z2) -> in_box (V3 x y z) (s_dw f))
    by (intros; unfold in_box; cbn [vx vy vz]; fold dw; lia).
  unfold fs_eight. cbn [vx vy vz].
  rewrite !RD by (first [apply IN; auto|lia]).
  destruct (b_alloc b) eqn:AL.
  - left. rewrite !Z.sub_diag, !Z.mul_0_r, !Z.add_0_r.
    set (A := (_ + _ * s + _ * s * s)%Z). set (dy := (s * (y2 - y1))%Z). set (dz := (s * s * (z2 - z1))%Z).
    replace (A + dz + dy)%Z with (A + dy + dz)%Z by ring. reflexivity.
  - right. exists (b_empty b). cbn [bind]. split; [reflexivity|]. split; [reflexivity|]. exists (V3 x1 y1 z1), b. auto.
Qed.

(** * A field of one value *)
Lemma fsub_sign x y : is_finite x = true -> is_finite y = true -> small (B2R x - B2R y)%R ->
  (0 < B2R x - B2R y)%R \/ (0 <= B2R x - B2R y)%R /\ Bsign x = false -> Bsign (fsub x y) = false.
Proof.
  intros FX FY S P. pose proof (Bminus_correct 53 1024 gt_53 lt_1024 mode_NE x y FX FY) as C.
  change (round radix2 (SpecFloat.fexp 53 1024) (round_mode mode_NE) (B2R x - B2R y)) with (rd (B2R x - B2R y)) in C. rewrite small_round in C by auto. destruct C as (_ & _ & C).
  unfold fsub. rewrite C. destruct (Rcompare_spec (B2R x - B2R y) 0) as [L|L|L]; [lra| |reflexivity]. destruct P as [P|(_ & P)]; [lra|]. rewrite P. reflexivity.
Qed.
Lemma corner_signs x c1 c2 a b : f_corner x = Ok (c1, c2, a, b) -> is_finite a = true /\ Bsign a = false /\ is_finite b = true /\ Bsign b = false.
Proof.
  intros H. pose proof (corner_val _ _ _ _ _ H) as (F & Ed & C & B & AF & AV & A1 & BF & BV & B1).
  unfold f_corner in H. destruct one_ok as (OF & OV). cbv zeta in H.
  destruct (floor_int (fsub x f_half)) as [c| |] eqn:E; cbn [bind] in H; try discriminate.
  assert (PF : is_finite (fsub x f_half) = true) by (unfold floor_int in E; destruct (is_finite (fsub x f_half)); auto; discriminate).
  destruct (fsub_half_fin x PF) as (_ & PV). destruct (i32 (c + 1)) as [d| |] eqn:D; cbn [bind] in H; try discriminate. cbv zeta in H.
  remember (fsub (of_int d) (fsub x f_half)) as g1 eqn:G1. remember (fsub f_one g1) as g2 eqn:G2. injection H as -> -> -> ->.
  rename G1 into EA, G2 into EB. symmetry in EA, EB. destruct (of_int_ok c2) as (IF & IV); [lia|]. rewrite Ed, plus_IZR in IV.
  split; auto. split; [|split; auto].
  - rewrite <- EA. rewrite Ed in *. apply fsub_sign; auto; rewrite IV, PV; [apply (big_small _ 1); [rewrite Rabs_pos_eq; lra|lia]|left; lra].
  - rewrite <- EB. apply fsub_sign; auto; rewrite OV; [apply (big_small _ 1); [rewrite Rabs_pos_eq; lra|lia]|]. right. split; [lra|reflexivity].
Qed.
Lemma mix_zero a b s : is_finite a = true -> Bsign a = false -> is_finite b = true -> Bsign b = false -> f_mix a b (B754_zero s) (B754_zero s) = B754_zero s.
Proof.
  intros A SA B SB. unfold f_mix, fadd, fmul.
  assert (M : forall w : f64, is_finite w = true -> Bsign w = false -> Bmult mode_NE w (B754_zero s) = B754_zero s) by (intros [w|w| |w m e H] F G; try discriminate; cbn in G |- *; subst w; destruct s; reflexivity).
  rewrite !M by auto. destruct s; reflexivity.
Qed.
Lemma constant_zero t s dw x y z r : f_sample t (fun _ => B754_zero s) dw x y z = Ok r -> r = B754_zero s.
Proof.
  unfold f_sample. destruct (f_corner x) as [[[[x1 x2] ax] bx]| |] eqn:EX; cbn [bind]; try discriminate.
  destruct (f_corner y) as [[[[y1 y2] ay] by_]| |] eqn:EY; cbn [bind]; try discriminate.
  destruct (f_corner z) as [[[[z1 z2] az] bz]| |] eqn:EZ; cbn [bind]; try discriminate.
  intros H. injection H as <-. apply corner_signs in EX, EY, EZ. replace (widen t (B754_zero s)) with (B754_zero s : f64) by (destruct t; reflexivity).
  unfold f_trilinear. rewrite !mix_zero by tauto. destruct t; reflexivity.
Qed.
Lemma same_bits {p e} (x y : binary_float p e) : is_finite x = true -> is_finite y = true -> B2R x = B2R y -> B2R x <> 0%R -> x = y.
Proof.
  intros FX FY E N. destruct x as [s|s| |s m ex H], y as [s'|s'| |s' m' ex' H']; try discriminate; try (exfalso; apply N; reflexivity); try (exfalso; apply N; exact E). apply B2R_inj; auto.
Qed.
(** * Blocks released by [operator==] *)
Lemma release_eq t (f g : sparse (val t)) n : sshape f -> box_nonempty (s_dw f) -> sparse_release f (check_all_equal (fs_eq t)) = Ok (g, n) ->
  s_dw g = s_dw f /\ forall p, in_box p (s_dw f) -> exists v w, sparse_value f p = Ok v /\ sparse_value g p = Ok w /\ (w = v \/ fs_eq t v w = true).
Proof.
  intros S N E. destruct (release_blocks f (check_all_equal (fs_eq t)) S N) as (g' & n' & E' & Sg & X1 & X2 & X3 & X4 & Cn & K).
  rewrite E in E'. injection E' as <- <-. split; auto. intros p B.
  destruct (K (bc f p) (bc_in_grid f p S B)) as (b & b' & Eb & Eb' & IC & BC & R).
  assert (BCg : bc g p = bc f p) by (unfold bc; rewrite X2, X3; auto).
  assert (VCg : vc g p = vc f p) by (unfold vc; rewrite X2, X3; auto).
  destruct (sparse_value_ok f p S B) as [v Ev]. exists v. assert (Ev' := Ev). rewrite (value_in_block f p (bc f p) b) in Ev by auto.
  rewrite (value_in_block g p (bc f p) b') by (auto; congruence).
  destruct R as [[A ->]|(first & A & Ef & [[-> H]|[-> _]])].
  - exists v. split; auto. split; auto. rewrite <- Ev. unfold read_block. rewrite A. auto.
  - exists first. split; auto. unfold read_block at 1, dealloc_block. cbn [b_alloc b_empty]. split; auto. right.
    specialize (H p v B eq_refl Ev'). unfold check_all_equal in H. apply negb_false_iff in H. auto.
  - exists v. split; auto. split; auto. rewrite <- Ev. unfold read_block. rewrite X3, VCg. auto.
Qed.
Lemma fs_eq_zero t (v w : val t) : fs_eq t v w = true -> v = w \/ (is_finite v = true /\ is_finite w = true /\ B2R v = 0%R /\ B2R w = 0%R).
Proof.
  unfold fs_eq. destruct (is_finite v && is_finite w)%bool eqn:F.
  - apply andb_prop in F. destruct F as [FV FW]. rewrite Bcompare_correct by auto. destruct (Rcompare_spec (B2R v) (B2R w)) as [L|L|L]; try discriminate. intros _.
    destruct (Req_dec (B2R v) 0) as [Z|Z]; [right; repeat split; auto; congruence|left; apply same_bits; auto].
  - destruct v as [s|s| |s m e H], w as [s'|s'| |s' m' e' H']; try discriminate F; cbn; try discriminate; destruct s; try discriminate; try (destruct s'; try discriminate; auto).
Qed.
