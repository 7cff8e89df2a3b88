(** Proofs about linear interpolation in MAC fields in floating point. *)
From Coq Require Import ZArith Reals List Bool Lia Lra.
From Flocq Require Import Core BinarySingleNaN.
From Verif Require Import Model.Base Model.VecM Model.RealM Model.InterpM Model.MacM Model.FloatM Model.FloatMacM.
From Verif Require Import Spec.VoxelSpec Spec.InterpSpec Spec.MacSpec Spec.FloatSpec Spec.FloatMacSpec.
From Verif Require Import Proof.BaseP Proof.InterpP Proof.MacP Proof.MacInterpP Proof.FloatP Proof.FloatP2 Proof.FloatP3.
Open Scope R_scope.

(** * One axis *)
Lemma face_corner_across x : f_face_corner false x = f_corner x.
Proof. reflexivity. Qed.
Definition off (own_axis : bool) : R := if own_axis then 0 else 1 / 2.
Definition fclose (own_axis : bool) (x : f64) (c : Z) : Prop := Rabs (IZR c + off own_axis - B2R x) < 1.
Lemma own_val x c1 c2 a b : f_face_corner true x = Ok (c1, c2, a, b) ->
  is_finite x = true /\ c2 = (c1 + 1)%Z /\ (- 2 ^ 31 <= c1 < 2 ^ 31)%Z /\ IZR c1 <= B2R x < IZR c1 + 1 /\
  is_finite a = true /\ B2R a = rd (IZR c1 + 1 - B2R x) /\ 0 <= B2R a <= 1 /\
  is_finite b = true /\ B2R b = rd (1 - B2R a) /\ 0 <= B2R b <= 1.
Proof.
  intros H. unfold f_face_corner in H. destruct one_ok as (OF & OV). cbv zeta in H.
  destruct (floor_int x) as [c| |] eqn:E; cbn [bind] in H; try discriminate.
  assert (PF : is_finite x = true) by (unfold floor_int in E; destruct (is_finite x); auto; discriminate).
  split; auto. destruct (floor_ok x c PF E) as (B & C).
  destruct (i32 (c + 1)) as [d| |] eqn:D; cbn [bind] in H; try discriminate. cbv zeta in H.
  remember (fsub (of_int d) x) as g1 eqn:G1. remember (fsub f_one g1) as g2 eqn:G2. injection H as <- <- <- <-.
  assert (Ed : d = (c + 1)%Z) by (apply i32_inv in D; tauto). subst d g1 g2.
  destruct (of_int_ok (c + 1)) as (IF & IV); [lia|]. rewrite plus_IZR in IV.
  destruct (fsub_ok (of_int (c + 1)) x IF PF) as (AF & AV); [rewrite IV; apply (big_small _ 1); [rewrite Rabs_pos_eq; lra|lia]|].
  rewrite IV in AV. set (a := fsub (of_int (c + 1)) x) in *.
  assert (A1 : 0 <= B2R a <= 1) by (rewrite AV; apply rd_01; lra).
  destruct (fsub_ok f_one a OF AF) as (BF & BV); [rewrite OV; apply (big_small _ 1); [rewrite Rabs_pos_eq; lra|lia]|]. rewrite OV in BV.
  set (b := fsub f_one a) in *.
  assert (B1 : 0 <= B2R b <= 1) by (rewrite BV; apply rd_01; lra).
  auto 12.
Qed.
Lemma face_corner_ok o x c1 c2 a b : f_face_corner o x = Ok (c1, c2, a, b) ->
  weights a b /\ fclose o x c1 /\ (B2R b = 0 \/ fclose o x c2).
Proof.
  destruct o; intros H.
  - destruct (own_val _ _ _ _ _ H) as (F & -> & C & B & AF & AV & A1 & BF & BV & B1). unfold fclose, off. split; [|split].
    + split; [split; auto|]. split; [split; auto|]. rewrite BV.
      replace (B2R a + rd (1 - B2R a) - 1) with (rd (1 - B2R a) - (1 - B2R a)) by ring.
      eapply Rle_trans; [apply rd_err|]. rewrite Rabs_pos_eq by lra. pose proof eta_u. pose proof u_small. nra.
    + apply Rabs_def1; lra.
    + rewrite plus_IZR. destruct (Rlt_le_dec (IZR c1) (B2R x)) as [L|L]; [right; apply Rabs_def1; lra|left].
      assert (Q : B2R a = 1) by (rewrite AV; replace (IZR c1 + 1 - B2R x) with 1 by lra; apply (rd_int 1); discriminate).
      rewrite BV, Q, Rminus_diag_eq by auto. apply rd_0.
  - rewrite face_corner_across in H. destruct (corner_ok _ _ _ _ _ H) as (_ & W & _ & X1 & X2).
    unfold fclose, off, close in *. replace (1 / 2) with (/ 2) by lra. auto.
Qed.
Lemma face_corner_at o x c1 c2 a b i : f_face_corner o x = Ok (c1, c2, a, b) -> B2R x = IZR i + off o -> c1 = i /\ B2R a = 1 /\ B2R b = 0.
Proof.
  destruct o; intros H E; unfold off in E.
  - destruct (own_val _ _ _ _ _ H) as (F & -> & C & B & AF & AV & A1 & BF & BV & B1).
    assert (Q : c1 = i).
    { assert (IZR c1 < IZR (i + 1)) by (rewrite plus_IZR; lra). assert (IZR i < IZR (c1 + 1)) by (rewrite plus_IZR; lra). apply lt_IZR in H0, H1. lia. }
    subst i. split; auto.
    assert (A : B2R a = 1) by (rewrite AV, E; replace (IZR c1 + 1 - (IZR c1 + 0)) with 1 by ring; apply (rd_int 1); discriminate).
    split; auto. rewrite BV, A, Rminus_diag_eq by auto. apply rd_0.
  - apply (corner_centre x c1 c2 a b i); auto. lra.
Qed.
Lemma face_corner_defined o x : in_int_range x -> exists c, f_face_corner o x = Ok c.
Proof.
  intros (F & X). assert (E : 2 ^ 31 = IZR (2 ^ 31)) by (rewrite pow_IZR; reflexivity). rewrite E in X. destruct o; [|apply corner_defined; auto; lra].
  unfold f_face_corner, floor_int. rewrite F.
  destruct (Bnearbyint_correct 53 1024 _ mode_DN x) as (N & _). pose proof (Btrunc_correct 53 1024 _ (Bnearbyint mode_DN x)) as T.
  rewrite N in T. cbn [round_mode] in T.
  assert (Q : forall r rnd, round radix2 (FIX_exp 0) rnd r = IZR (rnd r)).
  { intros. unfold round, scaled_mantissa, cexp, FIX_exp, F2R. cbn. rewrite !Rmult_1_r. reflexivity. }
  rewrite !Q, Ztrunc_IZR in T. apply eq_IZR in T. rewrite T. set (c := Zfloor (B2R x)).
  assert (C1 : (- 2 ^ 31 <= c)%Z) by (apply Zfloor_lub; rewrite opp_IZR; lra).
  assert (C2 : (c < 2 ^ 31 - 1)%Z) by (apply lt_IZR; eapply Rle_lt_trans; [apply Zfloor_lb|rewrite minus_IZR; lra]).
  rewrite i32_ok by (unfold int_min, int_max; lia). cbn [bind]. rewrite i32_ok by (unfold int_min, int_max; lia). cbn [bind]. eauto.
Qed.

(** * The eight faces and their weights *)
Definition fbox (dw : box) (c : component) : box := Box (bmin dw) (next c (bmax dw)).
Lemma fbox_face dw c q : in_box q (fbox dw c) <-> is_face dw c q.
Proof. unfold in_box, fbox, is_face. destruct c; cbn; lia. Qed.
Record mstencil (dw : box) (c : component) (x y z ax bx ay by_ az bz : f64) (q1 q2 q3 q4 q5 q6 q7 q8 : v3) : Prop := MStencil {
  ms_x : weights ax bx; ms_y : weights ay by_; ms_z : weights az bz;
  ms_in : box_nonempty dw -> is_face dw c q1 /\ is_face dw c q2 /\ is_face dw c q3 /\ is_face dw c q4 /\ is_face dw c q5 /\ is_face dw c q6 /\ is_face dw c q7 /\ is_face dw c q8;
  ms_near : forall P : v3 -> Prop, (forall q, near_face dw c (at_ x y z) q -> P q) ->
    (B2R ax <> 0 -> B2R ay <> 0 -> B2R az <> 0 -> P q1) /\ (B2R ax <> 0 -> B2R ay <> 0 -> B2R bz <> 0 -> P q2) /\
    (B2R ax <> 0 -> B2R by_ <> 0 -> B2R az <> 0 -> P q3) /\ (B2R ax <> 0 -> B2R by_ <> 0 -> B2R bz <> 0 -> P q4) /\
    (B2R bx <> 0 -> B2R ay <> 0 -> B2R az <> 0 -> P q5) /\ (B2R bx <> 0 -> B2R ay <> 0 -> B2R bz <> 0 -> P q6) /\
    (B2R bx <> 0 -> B2R by_ <> 0 -> B2R az <> 0 -> P q7) /\ (B2R bx <> 0 -> B2R by_ <> 0 -> B2R bz <> 0 -> P q8);
  ms_sample : forall t (faces : component -> v3 -> val t), f_mac_one t faces dw c x y z =
    Ok (f_trilinear ax bx ay by_ az bz (widen t (faces c q1)) (widen t (faces c q2)) (widen t (faces c q3)) (widen t (faces c q4))
                                       (widen t (faces c q5)) (widen t (faces c q6)) (widen t (faces c q7)) (widen t (faces c q8))) }.
Definition put (dw : box) (c : component) (i j k : Z) : v3 :=
  V3 (clamp_face (is_u c) (vx (bmin dw)) (vx (bmax dw)) i) (clamp_face (is_v c) (vy (bmin dw)) (vy (bmax dw)) j)
     (clamp_face (is_w c) (vz (bmin dw)) (vz (bmax dw)) k).
Lemma put_face dw c i j k : box_nonempty dw -> is_face dw c (put dw c i j k).
Proof. intros (X & Y & Z0). unfold is_face, put, clamp_face. destruct c; cbn [is_u is_v is_w vx vy vz]; lia. Qed.
Lemma put_id dw c q : is_face dw c q -> put dw c (vx q) (vy q) (vz q) = q.
Proof. destruct q as [i j k]. unfold is_face, put, clamp_face. destruct c; cbn [is_u is_v is_w vx vy vz]; intros; f_equal; lia. Qed.
Lemma put_nearest dw c i j k : box_nonempty dw -> put dw c i j k = nearest (fbox dw c) (V3 i j k).
Proof.
  intros (X & Y & Z0). unfold put, clamp_face, nearest, fbox. destruct c; cbn [is_u is_v is_w vx vy vz bmin bmax next]; f_equal; lia.
Qed.
Lemma corners_mstencil dw c x y z x1 x2 y1 y2 z1 z2 ax bx ay by_ az bz : box_nonempty dw ->
  f_face_corner (is_u c) x = Ok (x1, x2, ax, bx) -> f_face_corner (is_v c) y = Ok (y1, y2, ay, by_) -> f_face_corner (is_w c) z = Ok (z1, z2, az, bz) ->
  mstencil dw c x y z ax bx ay by_ az bz
    (put dw c x1 y1 z1) (put dw c x1 y1 z2) (put dw c x1 y2 z1) (put dw c x1 y2 z2)
    (put dw c x2 y1 z1) (put dw c x2 y1 z2) (put dw c x2 y2 z1) (put dw c x2 y2 z2).
Proof.
  intros NE EX EY EZ.
  destruct (face_corner_ok _ _ _ _ _ _ EX) as (WX & X1 & X2). destruct (face_corner_ok _ _ _ _ _ _ EY) as (WY & Y1 & Y2). destruct (face_corner_ok _ _ _ _ _ _ EZ) as (WZ & Z1 & Z2).
  constructor; auto.
  - intros _. repeat (split; [apply put_face; auto|]). apply put_face; auto.
  - intros P Hn.
    assert (G : forall i j k, fclose (is_u c) x i -> fclose (is_v c) y j -> fclose (is_w c) z k -> P (put dw c i j k)).
    { intros i j k I J K. apply Hn. exists (V3 i j k). split; [apply put_nearest; auto|].
      unfold fclose, off, face_centre, at_ in *. destruct c; cbn [is_u is_v is_w rx ry rz vx vy vz] in *; rewrite ?Rplus_0_r in *; auto. }
    assert (O : forall (b : f64) (Q : Prop), B2R b = 0 \/ Q -> B2R b <> 0 -> Q) by (intros b Q [E|E] Nz; [congruence|auto]).
    repeat split; intros; apply G; auto; eapply O; eauto.
  - intros t' value'. unfold f_mac_one. rewrite EX, EY, EZ. cbn [bind]. reflexivity.
Qed.
Lemma mac_mstencil t (faces : component -> v3 -> val t) dw c x y z r : box_nonempty dw -> f_mac_one t faces dw c x y z = Ok r ->
  exists ax bx ay by_ az bz q1 q2 q3 q4 q5 q6 q7 q8, mstencil dw c x y z ax bx ay by_ az bz q1 q2 q3 q4 q5 q6 q7 q8.
Proof.
  intros NE H. unfold f_mac_one in H.
  destruct (f_face_corner (is_u c) x) as [[[[x1 x2] ax] bx]| |] eqn:EX; cbn [bind] in H; try discriminate.
  destruct (f_face_corner (is_v c) y) as [[[[y1 y2] ay] by_]| |] eqn:EY; cbn [bind] in H; try discriminate.
  destruct (f_face_corner (is_w c) z) as [[[[z1 z2] az] bz]| |] eqn:EZ; cbn [bind] in H; try discriminate.
  do 14 eexists. eapply corners_mstencil; eauto.
Qed.
Lemma faces_mid t (faces : component -> v3 -> val t) dw c q : faces_small dw faces -> is_face dw c q -> Rabs (B2R (faces c q)) <= bpow radix2 1019.
Proof.
  intros N I. destruct t eqn:E; [apply (small_type VHalf); discriminate|apply (small_type VFloat); discriminate|].
  change 1019%Z with (Z.of_nat 1019). rewrite <- pow_bpow. apply N; auto.
Qed.
Section Faces.
Context (t : vtype) (faces : component -> v3 -> val t) (dw : box) (c : component) (x y z ax bx ay by_ az bz : f64) (q1 q2 q3 q4 q5 q6 q7 q8 : v3)
  (St : mstencil dw c x y z ax bx ay by_ az bz q1 q2 q3 q4 q5 q6 q7 q8) (NE : box_nonempty dw) (AF : faces_finite dw faces) (NO : faces_small dw faces).
Let T : f64 := f_trilinear ax bx ay by_ az bz (widen t (faces c q1)) (widen t (faces c q2)) (widen t (faces c q3)) (widen t (faces c q4))
                                              (widen t (faces c q5)) (widen t (faces c q6)) (widen t (faces c q7)) (widen t (faces c q8)).
Let TR' : R := TR t (faces c) ax bx ay by_ az bz q1 q2 q3 q4 q5 q6 q7 q8.
Lemma ms_tri : is_finite T = true /\ B2R T = TR'.
Proof.
  assert (M : forall q, is_face dw c q -> mid (widen t (faces c q)) /\ B2R (widen t (faces c q)) = B2R (faces c q)).
  { intros q I. apply mid_widen; [apply AF; auto|eapply faces_mid; eauto]. }
  destruct (ms_in _ _ _ _ _ _ _ _ _ _ _ _ _ _ _ _ _ _ _ St NE) as (I1 & I2 & I3 & I4 & I5 & I6 & I7 & I8).
  destruct (M _ I1) as (M1 & E1). destruct (M _ I2) as (M2 & E2). destruct (M _ I3) as (M3 & E3). destruct (M _ I4) as (M4 & E4).
  destruct (M _ I5) as (M5 & E5). destruct (M _ I6) as (M6 & E6). destruct (M _ I7) as (M7 & E7). destruct (M _ I8) as (M8 & E8).
  destruct (trilinear_ok ax bx ay by_ az bz _ _ _ _ _ _ _ _ (ms_x _ _ _ _ _ _ _ _ _ _ _ _ _ _ _ _ _ _ _ St) (ms_y _ _ _ _ _ _ _ _ _ _ _ _ _ _ _ _ _ _ _ St) (ms_z _ _ _ _ _ _ _ _ _ _ _ _ _ _ _ _ _ _ _ St) M1 M2 M3 M4 M5 M6 M7 M8) as (P & Q).
  unfold T, TR', TR. split; [exact P|]. rewrite Q, E1, E2, E3, E4, E5, E6, E7, E8. reflexivity.
Qed.
Lemma ms_upper K : (forall q, near_face dw c (at_ x y z) q -> B2R (faces c q) <= K) -> TR' <= K + spread K.
Proof.
  intros H. destruct St as [WX WY WZ _ N _]. unfold TR', TR. apply tri_le; try (apply wr; auto). unfold weighed.
  apply (N (fun q => B2R (faces c q) <= K)). auto.
Qed.
Lemma ms_lower K : (forall q, near_face dw c (at_ x y z) q -> K <= B2R (faces c q)) -> K - spread K <= TR'.
Proof.
  intros H. destruct St as [WX WY WZ _ N _]. unfold TR', TR. apply tri_ge; try (apply wr; auto). unfold weighed.
  apply (N (fun q => B2R (faces c q) >= K)). intros q Q. apply Rle_ge. auto.
Qed.
Lemma ms_pos : (forall q, near_face dw c (at_ x y z) q -> 0 <= B2R (faces c q)) -> 0 <= TR'.
Proof.
  intros H. destruct St as [WX WY WZ _ N _]. unfold TR', TR. apply tri_pos; try (apply wr; auto). unfold weighed.
  apply (N (fun q => B2R (faces c q) >= 0)). intros q Q. apply Rle_ge. auto.
Qed.
Lemma ms_narrow : t <> VDouble -> is_finite (narrow t T) = true /\ B2R (narrow t T) = nround t TR'.
Proof.
  intros N. destruct ms_tri as (F & E).
  destruct (narrow_ok t T N F) as (P & Q); [|rewrite E in Q; auto]. rewrite E. split.
  - replace (- top t - spread (top t)) with (- top t - spread (- top t)) by (unfold spread; rewrite Rabs_Ropp; auto).
    apply ms_lower. intros q _. pose proof (top_ge t (faces c q)) as B. apply Rabs_le_inv in B. tauto.
  - apply ms_upper. intros q _. pose proof (top_ge t (faces c q)) as B. apply Rabs_le_inv in B. tauto.
Qed.
End Faces.
Lemma ms_mono t (v w : component -> v3 -> val t) dw c x y z ax bx ay by_ az bz q1 q2 q3 q4 q5 q6 q7 q8 :
  mstencil dw c x y z ax bx ay by_ az bz q1 q2 q3 q4 q5 q6 q7 q8 -> (forall q, near_face dw c (at_ x y z) q -> B2R (v c q) <= B2R (w c q)) ->
  TR t (v c) ax bx ay by_ az bz q1 q2 q3 q4 q5 q6 q7 q8 <= TR t (w c) ax bx ay by_ az bz q1 q2 q3 q4 q5 q6 q7 q8.
Proof.
  intros [WX WY WZ _ N _] H. unfold TR. apply tri_mono; try (apply wr; auto). unfold weighed.
  apply (N (fun q => B2R (v c q) <= B2R (w c q))). auto.
Qed.

(** * A component of the vector is the component alone, narrowed *)
Lemma mac_part t (faces : component -> v3 -> val t) dw x y z r c : f_mac t faces dw x y z = Ok r ->
  exists s, f_mac_one t faces dw c x y z = Ok s /\ part c r = narrow t s.
Proof.
  intros H. unfold f_mac in H.
  destruct (f_mac_one t faces dw CompU x y z) as [a| |] eqn:EU; cbn [bind] in H; try discriminate.
  destruct (f_mac_one t faces dw CompV x y z) as [b| |] eqn:EV; cbn [bind] in H; try discriminate.
  destruct (f_mac_one t faces dw CompW x y z) as [d| |] eqn:EW; cbn [bind] in H; try discriminate.
  injection H as <-. destruct c; [exists a|exists b|exists d]; auto.
Qed.
Lemma one_face t (faces : component -> v3 -> val t) dw c q x y z s : faces_finite dw faces -> faces_small dw faces -> box_nonempty dw ->
  is_face dw c q -> at_ x y z = face_centre c q -> f_mac_one t faces dw c x y z = Ok s ->
  is_finite s = true /\ B2R s = B2R (faces c q) /\ is_finite (narrow t s) = true /\ B2R (narrow t s) = B2R (faces c q).
Proof.
  intros AF NO NE I E H. pose proof H as Hr. unfold f_mac_one in H.
  destruct (f_face_corner (is_u c) x) as [[[[x1 x2] ax] bx]| |] eqn:CX; cbn [bind] in H; try discriminate.
  destruct (f_face_corner (is_v c) y) as [[[[y1 y2] ay] by_]| |] eqn:CY; cbn [bind] in H; try discriminate.
  destruct (f_face_corner (is_w c) z) as [[[[z1 z2] az] bz]| |] eqn:CZ; cbn [bind] in H; try discriminate. clear H.
  assert (EE : B2R x = IZR (vx q) + off (is_u c) /\ B2R y = IZR (vy q) + off (is_v c) /\ B2R z = IZR (vz q) + off (is_w c)).
  { unfold at_, face_centre in E. destruct c; injection E as EX EY EZ; unfold off; cbn [is_u is_v is_w]; lra. }
  destruct EE as (EX & EY & EZ).
  destruct (face_corner_at _ x x1 x2 ax bx (vx q) CX EX) as (-> & AX & BX).
  destruct (face_corner_at _ y y1 y2 ay by_ (vy q) CY EY) as (-> & AY & BY).
  destruct (face_corner_at _ z z1 z2 az bz (vz q) CZ EZ) as (-> & AZ & BZ).
  assert (St : exists q2 q3 q4 q5 q6 q7 q8, mstencil dw c x y z ax bx ay by_ az bz q q2 q3 q4 q5 q6 q7 q8).
  { pose proof (corners_mstencil dw c _ _ _ _ _ _ _ _ _ _ _ _ _ _ _ NE CX CY CZ) as S. rewrite (put_id dw c q I) in S. eauto 10. }
  destruct St as (q2 & q3 & q4 & q5 & q6 & q7 & q8 & St).
  rewrite (ms_sample _ _ _ _ _ _ _ _ _ _ _ _ _ _ _ _ _ _ _ St) in Hr. injection Hr as <-.
  destruct (ms_tri t faces dw c x y z _ _ _ _ _ _ _ _ _ _ _ _ _ _ St NE AF NO) as (F & V).
  assert (TV : TR t (faces c) ax bx ay by_ az bz q q2 q3 q4 q5 q6 q7 q8 = B2R (faces c q)).
  { unfold TR, tri. rewrite AX, BX, AY, BY, AZ, BZ. pose proof (fmt_rd t (faces c q)) as R. rewrite !mixr_one; auto; rewrite ?mixr_one; auto; rewrite ?mixr_one; auto. }
  split; [exact F|]. split; [rewrite <- TV; exact V|].
  destruct (vtype_eq t) as [->|N].
  - cbn [narrow]. split; auto. rewrite <- TV. exact V.
  - destruct (ms_narrow t faces dw c x y z _ _ _ _ _ _ _ _ _ _ _ _ _ _ St NE AF NO N) as (P & Q). split; auto. rewrite Q, TV. apply nround_fmt.
Qed.
Lemma one_const t (faces : component -> v3 -> val t) dw c x y z s K : t <> VDouble -> box_nonempty dw -> faces_finite dw faces ->
  f_mac_one t faces dw c x y z = Ok s -> (forall q, B2R (faces c q) = K) -> B2R (narrow t s) = K.
Proof.
  intros N NE AF H C. assert (NO : faces_small dw faces) by (intros E; congruence).
  destruct (mac_mstencil t faces dw c x y z s NE H) as (ax & bx & ay & by_ & az & bz & q1 & q2 & q3 & q4 & q5 & q6 & q7 & q8 & St).
  rewrite (ms_sample _ _ _ _ _ _ _ _ _ _ _ _ _ _ _ _ _ _ _ St) in H. injection H as <-.
  destruct (ms_narrow t faces dw c x y z _ _ _ _ _ _ _ _ _ _ _ _ _ _ St NE AF NO N) as (_ & Q). rewrite Q.
  assert (F : vfmt t K) by (rewrite <- (C q1); apply fmt_val).
  apply Rle_antisym.
  - apply nround_le; auto. eapply ms_upper; eauto. intros q _. apply Req_le. auto.
  - apply nround_ge; auto. eapply ms_lower; eauto. intros q _. apply Req_le. symmetry. auto.
Qed.

(** * Against the exact sample *)
Definition fslack (o : bool) (x : f64) : R := if o then 0 else slack x.
Lemma face_corner_err o x c1 c2 a b : f_face_corner o x = Ok (c1, c2, a, b) -> c2 = (c1 + 1)%Z /\ exists p, IZR c1 <= p < IZR c1 + 1 /\
  Rabs (p + off o - B2R x) <= fslack o x /\ Rabs (B2R a - (IZR c1 + 1 - p)) <= 2 * u /\ Rabs (B2R b - (p - IZR c1)) <= 4 * u.
Proof.
  destruct o; intros H; unfold off, fslack.
  - destruct (own_val _ _ _ _ _ H) as (F & -> & C & B & AF & AV & A1 & BF & BV & B1). split; auto. exists (B2R x). split; auto.
    pose proof u_small. pose proof eta_u. split; [rewrite Rplus_0_r, Rminus_diag_eq, Rabs_R0 by auto; lra|].
    assert (EA : Rabs (B2R a - (IZR c1 + 1 - B2R x)) <= 2 * u).
    { rewrite AV. eapply Rle_trans; [apply rd_err|]. rewrite Rabs_pos_eq by lra. nra. }
    split; auto. assert (EB : Rabs (B2R b - (1 - B2R a)) <= 2 * u).
    { rewrite BV. eapply Rle_trans; [apply rd_err|]. rewrite Rabs_pos_eq by lra. nra. }
    apply Rabs_le_inv in EA, EB. apply Rabs_le. lra.
  - rewrite face_corner_across in H. destruct (corner_ok _ _ _ _ _ H) as (_ & _ & X2 & _). split; auto.
    destruct (corner_err _ _ _ _ _ H) as (p & P & S & EA & EB). exists p. split; auto. split; auto. unfold slack.
    replace (p + 1 / 2 - B2R x) with (p - (B2R x - / 2)) by lra. auto.
Qed.
Lemma mac_exact t (faces : component -> v3 -> val t) dw c x y z s B : box_nonempty dw -> faces_finite dw faces -> faces_small dw faces ->
  (forall q, is_face dw c q -> Rabs (B2R (faces c q)) <= B) -> f_mac_one t faces dw c x y z = Ok s ->
  exists p, Rabs (rx p - rx (shift c (at_ x y z))) <= slack x /\ Rabs (ry p - ry (shift c (at_ x y z))) <= slack y /\ Rabs (rz p - rz (shift c (at_ x y z))) <= slack z /\
    Rabs (B2R s - mix3 (fbox dw c) (fun q => B2R (faces c q)) p) <= 31 * u * B + 15 * eta /\ Rabs (B2R s) <= B + spread B /\
    is_finite s = true /\ is_finite (narrow t s) = true /\ B2R (narrow t s) = nround t (B2R s).
Proof.
  intros NE AF NO BB H. pose proof H as H0. unfold f_mac_one in H0.
  destruct (f_face_corner (is_u c) x) as [[[[x1 x2] ax] bx]| |] eqn:CX; cbn [bind] in H0; try discriminate.
  destruct (f_face_corner (is_v c) y) as [[[[y1 y2] ay] by_]| |] eqn:CY; cbn [bind] in H0; try discriminate.
  destruct (f_face_corner (is_w c) z) as [[[[z1 z2] az] bz]| |] eqn:CZ; cbn [bind] in H0; try discriminate. clear H0.
  pose proof (corners_mstencil dw c _ _ _ _ _ _ _ _ _ _ _ _ _ _ _ NE CX CY CZ) as St.
  destruct (face_corner_err _ _ _ _ _ _ CX) as (-> & px & PX & SX & EAX & EBX). destruct (face_corner_err _ _ _ _ _ _ CY) as (-> & py & PY & SY & EAY & EBY).
  destruct (face_corner_err _ _ _ _ _ _ CZ) as (-> & pz & PZ & SZ & EAZ & EBZ). rewrite !put_nearest in St by auto.
  rewrite (ms_sample _ _ _ _ _ _ _ _ _ _ _ _ _ _ _ _ _ _ _ St) in H. injection H as <-.
  pose proof (ms_x _ _ _ _ _ _ _ _ _ _ _ _ _ _ _ _ _ _ _ St) as WX. pose proof (ms_y _ _ _ _ _ _ _ _ _ _ _ _ _ _ _ _ _ _ _ St) as WY. pose proof (ms_z _ _ _ _ _ _ _ _ _ _ _ _ _ _ _ _ _ _ _ St) as WZ.
  destruct (ms_tri t faces dw c x y z _ _ _ _ _ _ _ _ _ _ _ _ _ _ St NE AF NO) as (F & V).
  set (m := fun q => B2R (faces c q)).
  assert (I : forall i j k, is_face dw c (nearest (fbox dw c) (V3 i j k))) by (intros; rewrite <- put_nearest by auto; apply put_face; auto).
  assert (M : forall i j k, Rabs (field3 (fbox dw c) m i j k) <= B) by (intros i j k; unfold field3, m; apply BB; auto).
  assert (S0 : forall o a, fslack o a <= slack a).
  { intros o a. unfold fslack. destruct o; [|lra]. unfold slack. pose proof eta_pos. pose proof u_small. pose proof (Rabs_pos (B2R a - / 2)). nra. }
  exists (R3 (px + / 2) (py + / 2) (pz + / 2)).
  assert (Sh : rx (shift c (at_ x y z)) = B2R x - off (is_u c) + / 2 /\ ry (shift c (at_ x y z)) = B2R y - off (is_v c) + / 2 /\ rz (shift c (at_ x y z)) = B2R z - off (is_w c) + / 2).
  { unfold shift, at_, off. destruct c; cbn [own is_u is_v is_w rx ry rz]; lra. }
  destruct Sh as (-> & -> & ->). cbn [rx ry rz].
  split; [eapply Rle_trans; [|apply (S0 (is_u c))]; replace (px + / 2 - (B2R x - off (is_u c) + / 2)) with (px + off (is_u c) - B2R x) by ring; exact SX|].
  split; [eapply Rle_trans; [|apply (S0 (is_v c))]; replace (py + / 2 - (B2R y - off (is_v c) + / 2)) with (py + off (is_v c) - B2R y) by ring; exact SY|].
  split; [eapply Rle_trans; [|apply (S0 (is_w c))]; replace (pz + / 2 - (B2R z - off (is_w c) + / 2)) with (pz + off (is_w c) - B2R z) by ring; exact SZ|].
  assert (B0 : 0 <= B) by (eapply Rle_trans; [apply Rabs_pos|apply (M 0 0 0)%Z]).
  assert (N : forall q, near_face dw c (at_ x y z) q -> - B <= B2R (faces c q) <= B).
  { intros q ([i j k] & -> & _). apply Rabs_le_inv, BB. apply I. }
  rewrite V. split; [|split; [|split; [exact F|]]].
  - destruct (levels B B0) as (d1 & d2 & d3 & D1 & D2 & D3 & D4). eapply Rle_trans; [|exact D4].
    unfold mix3. cbn [rx ry rz]. replace (px + / 2 - 1 / 2) with px by lra. replace (py + / 2 - 1 / 2) with py by lra. replace (pz + / 2 - 1 / 2) with pz by lra.
    set (dw' := fbox dw c) in *.
    assert (LZ : forall i j, Rabs (mixr (B2R az) (B2R bz) (field3 dw' m i j z1) (field3 dw' m i j (z1 + 1)) - mix1 (fun k => field3 dw' m i j k) pz) <= d1 /\
                             Rabs (mix1 (fun k => field3 dw' m i j k) pz) <= B).
    { intros i j. rewrite (mix1_on _ pz z1) by lra. split.
      - apply (level az bz _ _ _ _ _ _ B 0); auto; rewrite Rminus_diag_eq, Rabs_R0 by auto; lra.
      - replace (pz - IZR z1) with (1 - (IZR z1 + 1 - pz)) by ring. apply exact_le; auto; lra. }
    assert (LY : forall i, Rabs (mixr (B2R ay) (B2R by_) (mixr (B2R az) (B2R bz) (field3 dw' m i y1 z1) (field3 dw' m i y1 (z1 + 1)))
                                     (mixr (B2R az) (B2R bz) (field3 dw' m i (y1 + 1) z1) (field3 dw' m i (y1 + 1) (z1 + 1)))
                              - mix1 (fun j => mix1 (fun k => field3 dw' m i j k) pz) py) <= d2 /\
                           Rabs (mix1 (fun j => mix1 (fun k => field3 dw' m i j k) pz) py) <= B).
    { intros i. rewrite (mix1_on _ py y1) by lra. split.
      - apply (level ay by_ _ _ _ _ _ _ B d1); auto; apply LZ.
      - replace (py - IZR y1) with (1 - (IZR y1 + 1 - py)) by ring. apply exact_le; try apply LZ; lra. }
    rewrite (mix1_on _ px x1) by lra. unfold TR, tri.
    apply (level ax bx _ _ _ _ _ _ B d2); auto; apply LY.
  - apply Rabs_le. split.
    + replace (- (B + spread B)) with (- B - spread (- B)) by (unfold spread; rewrite Rabs_Ropp; ring). eapply ms_lower; eauto. intros q Q. apply N; auto.
    + eapply ms_upper; eauto. intros q Q. apply N; auto.
  - destruct (vtype_eq t) as [->|Nd]; [split; [exact F|exact V]|].
    apply (ms_narrow t faces dw c x y z _ _ _ _ _ _ _ _ _ _ _ _ _ _ St NE AF NO Nd).
Qed.
Lemma slack_le a : slack a <= (Rabs (B2R a) + 1) / 2 ^ 53.
Proof.
  unfold slack. pose proof eta_u as Eu. assert (Ev : u = / 2 ^ 53) by (rewrite u_val, inv_pow_bpow; reflexivity).
  assert (Rabs (B2R a - / 2) <= Rabs (B2R a) + / 2) by (unfold Rminus; eapply Rle_trans; [apply Rabs_triang|]; rewrite Rabs_Ropp, (Rabs_pos_eq (/ 2)) by lra; lra).
  assert (U := u_small). assert (eta <= u / 2).
  { rewrite u_val. unfold eta. replace (bpow radix2 (-53)) with (2 * bpow radix2 (-54)) by (change 2 with (bpow radix2 1); rewrite <- bpow_plus; reflexivity).
    assert (bpow radix2 (-1075) <= bpow radix2 (-54)) by (apply bpow_le; lia). lra. }
  unfold Rdiv. rewrite <- Ev. nra.
Qed.
Lemma exact_one m (f : component -> v3 -> R) c p v : (forall q, is_face (m_dw m) c q -> face m c q = Ok (f c q)) -> box_nonempty (m_dw m) -> mac_pos_ok p ->
  mac_linear m p = Ok v -> coord c v = mix3 (fbox (m_dw m) c) (f c) (shift c p).
Proof.
  intros E N P H.
  assert (O : mac_linear_one m c p = Ok (coord c v)).
  { unfold mac_linear in H. destruct (mac_linear_one m CompU p) as [a| |] eqn:EU; cbn [bind] in H; try discriminate.
    destruct (mac_linear_one m CompV p) as [b| |] eqn:EV; cbn [bind] in H; try discriminate.
    destruct (mac_linear_one m CompW p) as [d| |] eqn:EW; cbn [bind] in H; try discriminate. injection H as <-. destruct c; auto. }
  pose proof (window_nonempty _ c N) as NW. rewrite linear_shift, generic_linear, (linear_eq _ _ (f c)) in O; auto.
  - rewrite window_next in O. injection O as <-. reflexivity.
  - intros q Q. apply window_face in Q. auto.
  - apply shift_ok; auto.
Qed.
Lemma mac_error t (faces : component -> v3 -> val t) m c x y z s v B L : box_nonempty (m_dw m) -> faces_finite (m_dw m) faces -> faces_small (m_dw m) faces ->
  (forall q, is_face (m_dw m) c q -> face m c q = Ok (B2R (faces c q))) -> (forall q, is_face (m_dw m) c q -> Rabs (B2R (faces c q)) <= B) -> 0 <= L ->
  (forall q q', is_face (m_dw m) c q -> is_face (m_dw m) c q' -> adjacent q q' -> Rabs (B2R (faces c q) - B2R (faces c q')) <= L) ->
  mac_pos_ok (at_ x y z) -> mac_linear m (at_ x y z) = Ok v -> f_mac_one t faces (m_dw m) c x y z = Ok s ->
  let d := L * (Rabs (B2R x) + Rabs (B2R y) + Rabs (B2R z) + 3) / 2 ^ 53 in
  is_finite s = true /\ Rabs (B2R s - coord c v) <= rounding VDouble B + d /\
  is_finite (narrow t s) = true /\ Rabs (B2R (narrow t s) - coord c v) <= rounding t B + d.
Proof.
  intros NE AF NO EF BB L0 LL PO EV H d.
  destruct (mac_exact t faces (m_dw m) c x y z s B NE AF NO BB H) as (p & PX & PY & PZ & D & TB & F & FN & VN).
  rewrite (exact_one m (fun c q => B2R (faces c q)) c (at_ x y z) v EF NE PO EV).
  assert (NB : box_nonempty (fbox (m_dw m) c)) by (unfold fbox; rewrite <- window_next; apply window_nonempty; auto).
  assert (LL' : forall q q', in_box q (fbox (m_dw m) c) -> in_box q' (fbox (m_dw m) c) -> adjacent q q' -> Rabs (B2R (faces c q) - B2R (faces c q')) <= L).
  { intros q q' Q Q' A. apply LL; auto; apply fbox_face; auto. }
  pose proof (mix3_lip (fbox (m_dw m) c) (fun q => B2R (faces c q)) L p (shift c (at_ x y z)) NB L0 LL') as Lp.
  assert (B0 : 0 <= B).
  { eapply Rle_trans; [apply Rabs_pos|apply (BB (bmin (m_dw m)))]. destruct NE as (N1 & N2 & N3). unfold is_face. destruct c; lia. }
  pose proof (nround_err t (B2R s) B B0 TB) as Er. rewrite <- VN in Er.
  pose proof (nround_err VDouble (B2R s) B B0 TB) as Er'. cbn [nround] in Er'. rewrite Rminus_diag_eq, Rabs_R0 in Er' by auto.
  set (f := mix3 (fbox (m_dw m) c) (fun q => B2R (faces c q))) in *. set (sh := shift c (at_ x y z)) in *.
  assert (Dd : L * (Rabs (rx p - rx sh) + Rabs (ry p - ry sh) + Rabs (rz p - rz sh)) <= d).
  { unfold d. replace (L * (Rabs (B2R x) + Rabs (B2R y) + Rabs (B2R z) + 3) / 2 ^ 53) with (L * ((Rabs (B2R x) + Rabs (B2R y) + Rabs (B2R z) + 3) / 2 ^ 53)) by (unfold Rdiv; ring).
    apply Rmult_le_compat_l; auto. pose proof (slack_le x). pose proof (slack_le y). pose proof (slack_le z). unfold Rdiv in *. lra. }
  assert (A : Rabs (B2R s - f sh) <= (31 * u * B + 15 * eta) + d).
  { replace (B2R s - f sh) with ((B2R s - f p) + (f p - f sh)) by ring. eapply Rle_trans; [apply Rabs_triang|]. lra. }
  split; [exact F|]. split; [lra|]. split; [exact FN|].
  replace (B2R (narrow t s) - f sh) with ((B2R (narrow t s) - B2R s) + (B2R s - f sh)) by ring. eapply Rle_trans; [apply Rabs_triang|]. lra.
Qed.
