(** Proofs about linear interpolation in floating point: the sample. *)
From Coq Require Import ZArith Reals List Bool Lia Lra Psatz.
From Flocq Require Import Core BinarySingleNaN Relative.
From Verif Require Import Model.Base Model.VecM Model.FloatM Spec.VoxelSpec Spec.InterpSpec Spec.FloatSpec Proof.BaseP Proof.FloatP.
Local Open Scope R_scope.

(** * Rounding to the type of the field does not leave the range of the voxels *)
Notation rd32 := (round radix2 (FLT_exp (-149) 24) ZnearestE).
Notation rd16 := (round radix2 (FLT_exp (-24) 11) ZnearestE).
#[global] Instance valid32 : Valid_exp (FLT_exp (-149) 24).
Proof. apply FLT_exp_valid. reflexivity. Qed.
#[global] Instance valid16 : Valid_exp (FLT_exp (-24) 11).
Proof. apply FLT_exp_valid. reflexivity. Qed.
Lemma gap32 M : generic_format radix2 (FLT_exp (-149) 24) M -> spread M < (succ radix2 (FLT_exp (-149) 24) M - M) / 2.
Proof.
  intros F. set (fx := FLT_exp (-149) 24) in *. set (g := succ radix2 fx M - M). set (e := bpow radix2 (-24)). set (h := bpow radix2 (-149)).
  assert (He : e = / 16777216) by (unfold e; cbn; lra).
  assert (G : h <= g /\ (Rabs M - g) * e < g).
  { assert (U : forall y, h <= ulp radix2 fx y /\ Rabs y * e < ulp radix2 fx y).
    { intros y. split; [|apply (ulp_FLT_gt radix2 (-149) 24)]. unfold h. rewrite <- (ulp_FLT_0 radix2 (-149) 24). apply ulp_ge_ulp_0; typeclasses eauto. }
    destruct (Rle_lt_dec 0 M) as [P|N].
    - unfold g. rewrite succ_eq_pos by auto. replace (M + ulp radix2 fx M - M) with (ulp radix2 fx M) by ring. destruct (U M) as (U1 & U2). split; auto.
      assert (0 < h) by apply bpow_gt_0. assert (0 < e) by apply bpow_gt_0. nra.
    - set (y := - M). assert (Y : 0 < y) by (unfold y; lra). assert (FY : generic_format radix2 fx y) by (apply generic_format_opp; auto).
      pose proof (pred_plus_ulp radix2 fx y Y FY) as Q. pose proof (pred_ge_0 radix2 fx y Y FY) as Q0. destruct (U (pred radix2 fx y)) as (U1 & U2).
      assert (Eg : g = ulp radix2 fx (pred radix2 fx y)).
      { unfold g. replace M with (- y) by (unfold y; ring). rewrite succ_opp. lra. }
      rewrite Rabs_pos_eq in U2 by auto. rewrite Eg, Rabs_left by auto. split; auto. fold y.
      replace (y - ulp radix2 fx (pred radix2 fx y)) with (pred radix2 fx y) by lra. auto. }
  destruct G as (G1 & G2). unfold spread. pose proof u_val as Hu.
  assert (Eu : u = e * bpow radix2 (-29)) by (rewrite Hu; unfold e; rewrite <- bpow_plus; reflexivity).
  assert (E29 : bpow radix2 (-29) <= / 500000000) by (cbn; lra).
  assert (Ee : eta = h * bpow radix2 (-926)) by (unfold eta, h; rewrite <- bpow_plus; reflexivity).
  assert (E926 : 0 < bpow radix2 (-926) <= bpow radix2 (-29)) by (split; [apply bpow_gt_0|apply bpow_le; lia]).
  assert (0 < h) by apply bpow_gt_0. assert (M0 : 0 <= Rabs M) by apply Rabs_pos. rewrite Eu, Ee.
  set (b29 := bpow radix2 (-29)) in *. set (b926 := bpow radix2 (-926)) in *. clearbody b29 b926 h g.
  assert (A : Rabs M * e * b29 <= Rabs M * e * / 500000000) by (apply Rmult_le_compat_l; [apply Rmult_le_pos; lra|auto]).
  assert (B : h * b926 <= h * / 500000000) by (apply Rmult_le_compat_l; lra).
  rewrite He in *. lra.
Qed.
Lemma below32 M x : generic_format radix2 (FLT_exp (-149) 24) M -> x <= M + spread M -> rd32 x <= M.
Proof.
  intros F H. apply round_N_le_midp; auto; [typeclasses eauto|]. pose proof (gap32 M F). lra.
Qed.
Definition nround (t : vtype) (x : R) : R := match t with VHalf => rd16 (rd32 x) | VFloat => rd32 x | VDouble => x end.
Definition vfmt (t : vtype) (x : R) : Prop := generic_format radix2 (SpecFloat.fexp (prec t) (emax t)) x.
Lemma vfmt_32 t x : t <> VDouble -> vfmt t x -> generic_format radix2 (FLT_exp (-149) 24) x.
Proof. intros N. destruct t; [|auto|congruence]. apply (incl 11 24 (-24) (-149)); lia. Qed.
Lemma nround_mono t x y : x <= y -> nround t x <= nround t y.
Proof. intros H. destruct t; cbn [nround]; auto; repeat apply round_le; auto; typeclasses eauto. Qed.
Lemma nround_opp t x : nround t (- x) = - nround t x.
Proof. destruct t; cbn [nround]; rewrite ?round_NE_opp; auto. Qed.
Lemma nround_le t M x : t <> VDouble -> vfmt t M -> x <= M + spread M -> nround t x <= M.
Proof.
  intros N F H. pose proof (below32 M x (vfmt_32 t M N F) H) as B. destruct t; [|auto|congruence].
  cbn [nround]. rewrite <- (round_generic radix2 (FLT_exp (-24) 11) ZnearestE M) by exact F. apply round_le; auto; typeclasses eauto.
Qed.
Lemma nround_ge t M x : t <> VDouble -> vfmt t M -> M - spread M <= x -> M <= nround t x.
Proof.
  intros N F H. assert (L : nround t (- x) <= - M).
  { apply nround_le; auto; [apply generic_format_opp; auto|]. unfold spread in *. rewrite Rabs_Ropp. lra. }
  rewrite nround_opp in L. lra.
Qed.
(** The largest number of a type. *)
Definition top (t : vtype) : R := bpow radix2 (emax t) - bpow radix2 (emax t - prec t).
Lemma top_fmt t : vfmt t (top t).
Proof.
  unfold vfmt, top. replace (bpow radix2 (emax t)) with (IZR (2 ^ prec t) * bpow radix2 (emax t - prec t)).
  2: { replace (IZR (2 ^ prec t)) with (bpow radix2 (prec t)) by (destruct t; reflexivity). rewrite <- bpow_plus. f_equal. lia. }
  replace (_ - _) with (F2R (Float radix2 (2 ^ prec t - 1) (emax t - prec t))) by (unfold F2R; cbn [Fnum Fexp]; rewrite minus_IZR; ring).
  change (SpecFloat.fexp (prec t) (emax t)) with (FLT_exp (3 - emax t - prec t) (prec t)). apply generic_format_FLT. eexists; [reflexivity| |]; destruct t; cbn; lia.
Qed.
Lemma top_lt t : top t < bpow radix2 (emax t).
Proof. unfold top. pose proof (bpow_gt_0 radix2 (emax t - prec t)). lra. Qed.
Lemma top_ge t (x : val t) : Rabs (B2R x) <= top t.
Proof. apply (abs_B2R_le_emax_minus_prec (prec t) (emax t)). destruct t; reflexivity. Qed.
Lemma narrow_ok t (T : f64) : t <> VDouble -> is_finite T = true -> - top t - spread (top t) <= B2R T <= top t + spread (top t) ->
  is_finite (narrow t T) = true /\ B2R (narrow t T) = nround t (B2R T).
Proof.
  intros N F (L & U).
  assert (B : forall t', t' <> VDouble -> top t <= top t' -> Rabs (nround t' (B2R T)) <= top t').
  { intros t' N' TT. assert (SS : spread (top t) <= spread (top t')).
    { assert (P : forall s, 0 <= top s) by (intros s; unfold top; pose proof (bpow_le radix2 (emax s - prec s) (emax s)) as Q; destruct s; cbn [emax prec] in *; specialize (Q ltac:(lia)); lra).
      unfold spread. rewrite !Rabs_pos_eq by auto. pose proof u_small. nra. }
    apply Rabs_le. split.
    - apply nround_ge; auto; [apply generic_format_opp, top_fmt|]. unfold spread in *. rewrite Rabs_Ropp. lra.
    - apply nround_le; auto; [apply top_fmt|]. lra. }
  assert (TT : top VHalf <= top VFloat).
  { unfold top. cbn [emax prec]. pose proof (bpow_gt_0 radix2 (16 - 11)). assert (bpow radix2 16 + bpow radix2 104 <= bpow radix2 128).
    { replace (bpow radix2 128) with (bpow radix2 24 * bpow radix2 104) by (rewrite <- bpow_plus; reflexivity). assert (bpow radix2 16 <= bpow radix2 104) by (apply bpow_le; lia).
      change (bpow radix2 24) with 16777216. pose proof (bpow_gt_0 radix2 104). lra. }
    change (128 - 24)%Z with 104%Z. lra. }
  destruct t; [| |congruence].
  - assert (B1 : Rabs (rd32 (B2R T)) < bpow radix2 128) by (eapply Rle_lt_trans; [apply (B VFloat); [discriminate|auto]|apply (top_lt VFloat)]).
    assert (B2 : Rabs (rd16 (rd32 (B2R T))) < bpow radix2 16) by (eapply Rle_lt_trans; [apply (B VHalf); [discriminate|lra]|apply (top_lt VHalf)]).
    destruct (convert_ok 53 1024 24 128 gt_24 lt_128 T F) as (P & Q); [exact B1|].
    destruct (convert_ok 24 128 11 16 gt_11 lt_16 _ P) as (P' & Q'); [rewrite Q; exact B2|]. rewrite Q in Q'. auto.
  - assert (B1 : Rabs (rd32 (B2R T)) < bpow radix2 128) by (eapply Rle_lt_trans; [apply (B VFloat); [discriminate|lra]|apply (top_lt VFloat)]).
    apply (convert_ok 53 1024 24 128 gt_24 lt_128 T F B1).
Qed.

(** * The eight voxels and their weights *)
Record stencil (dw : box) (x y z ax bx ay by_ az bz : f64) (q1 q2 q3 q4 q5 q6 q7 q8 : v3) : Prop := Stencil {
  st_x : weights ax bx; st_y : weights ay by_; st_z : weights az bz;
  st_in : box_nonempty dw -> in_box q1 dw /\ in_box q2 dw /\ in_box q3 dw /\ in_box q4 dw /\ in_box q5 dw /\ in_box q6 dw /\ in_box q7 dw /\ in_box q8 dw;
  st_near : forall P : v3 -> Prop, (forall q, around dw (at_ x y z) q -> P q) ->
    (B2R ax <> 0 -> B2R ay <> 0 -> B2R az <> 0 -> P q1) /\ (B2R ax <> 0 -> B2R ay <> 0 -> B2R bz <> 0 -> P q2) /\
    (B2R ax <> 0 -> B2R by_ <> 0 -> B2R az <> 0 -> P q3) /\ (B2R ax <> 0 -> B2R by_ <> 0 -> B2R bz <> 0 -> P q4) /\
    (B2R bx <> 0 -> B2R ay <> 0 -> B2R az <> 0 -> P q5) /\ (B2R bx <> 0 -> B2R ay <> 0 -> B2R bz <> 0 -> P q6) /\
    (B2R bx <> 0 -> B2R by_ <> 0 -> B2R az <> 0 -> P q7) /\ (B2R bx <> 0 -> B2R by_ <> 0 -> B2R bz <> 0 -> P q8);
  st_sample : forall t (value : v3 -> val t), f_sample t value dw x y z =
    Ok (narrow t (f_trilinear ax bx ay by_ az bz (widen t (value q1)) (widen t (value q2)) (widen t (value q3)) (widen t (value q4))
                                                 (widen t (value q5)) (widen t (value q6)) (widen t (value q7)) (widen t (value q8)))) }.
Lemma clamp_in_range lo hi c : (lo <= hi)%Z -> (lo <= clamp lo hi c <= hi)%Z.
Proof. unfold clamp. lia. Qed.
Lemma corners_stencil dw x y z x1 x2 y1 y2 z1 z2 ax bx ay by_ az bz :
  f_corner x = Ok (x1, x2, ax, bx) -> f_corner y = Ok (y1, y2, ay, by_) -> f_corner z = Ok (z1, z2, az, bz) ->
  stencil dw x y z ax bx ay by_ az bz
    (nearest dw (V3 x1 y1 z1)) (nearest dw (V3 x1 y1 z2)) (nearest dw (V3 x1 y2 z1)) (nearest dw (V3 x1 y2 z2))
    (nearest dw (V3 x2 y1 z1)) (nearest dw (V3 x2 y1 z2)) (nearest dw (V3 x2 y2 z1)) (nearest dw (V3 x2 y2 z2)).
Proof.
  intros EX EY EZ.
  destruct (corner_ok _ _ _ _ _ EX) as (_ & WX & _ & X1 & X2). destruct (corner_ok _ _ _ _ _ EY) as (_ & WY & _ & Y1 & Y2). destruct (corner_ok _ _ _ _ _ EZ) as (_ & WZ & _ & Z1 & Z2).
  constructor; auto.
  - intros (N1 & N2 & N3). repeat split; cbn [nearest vx vy vz]; lia.
  - intros P Hn.
    assert (G : forall i j k, close x i -> close y j -> close z k -> P (nearest dw (V3 i j k))).
    { intros i j k I J K. apply Hn. exists (V3 i j k). split; auto. unfold close in *. unfold centre, at_. cbn [rx ry rz vx vy vz].
      replace (1 / 2) with (/ 2) by lra. auto. }
    assert (O : forall (b : f64) (Q : Prop), B2R b = 0 \/ Q -> B2R b <> 0 -> Q) by (intros b Q [E|E] Nz; [congruence|auto]).
    repeat split; intros; apply G; auto; eapply O; eauto.
  - intros t' value'. unfold f_sample. rewrite EX, EY, EZ. cbn [bind]. reflexivity.
Qed.
Lemma sample_stencil t (value : v3 -> val t) dw x y z r : f_sample t value dw x y z = Ok r ->
  exists ax bx ay by_ az bz q1 q2 q3 q4 q5 q6 q7 q8, stencil dw x y z ax bx ay by_ az bz q1 q2 q3 q4 q5 q6 q7 q8.
Proof.
  intros H. unfold f_sample in H.
  destruct (f_corner x) as [[[[x1 x2] ax] bx]| |] eqn:EX; cbn [bind] in H; try discriminate.
  destruct (f_corner y) as [[[[y1 y2] ay] by_]| |] eqn:EY; cbn [bind] in H; try discriminate.
  destruct (f_corner z) as [[[[z1 z2] az] bz]| |] eqn:EZ; cbn [bind] in H; try discriminate.
  do 14 eexists. eapply corners_stencil; eauto.
Qed.
Lemma fmt_val t (v : val t) : vfmt t (B2R v).
Proof. apply generic_format_B2R. Qed.
Lemma mid_widen t (v : val t) : is_finite v = true -> Rabs (B2R v) <= bpow radix2 1019 -> mid (widen t v) /\ B2R (widen t v) = B2R v.
Proof. intros F B. destruct (widen_ok t v F) as (P & Q). split; [split|]; auto. rewrite Q. auto. Qed.
Lemma small_type t (v : val t) : t <> VDouble -> Rabs (B2R v) <= bpow radix2 1019.
Proof.
  intros N. apply Rlt_le. eapply Rlt_le_trans; [apply abs_B2R_lt_emax|]. apply bpow_le. destruct t; [cbn; lia|cbn; lia|congruence].
Qed.
Section Sample.
Context (t : vtype) (value : v3 -> val t) (dw : box) (x y z ax bx ay by_ az bz : f64) (q1 q2 q3 q4 q5 q6 q7 q8 : v3)
  (St : stencil dw x y z ax bx ay by_ az bz q1 q2 q3 q4 q5 q6 q7 q8) (NE : box_nonempty dw) (AF : all_finite dw value).
Let T : f64 := f_trilinear ax bx ay by_ az bz (widen t (value q1)) (widen t (value q2)) (widen t (value q3)) (widen t (value q4))
                                              (widen t (value q5)) (widen t (value q6)) (widen t (value q7)) (widen t (value q8)).
Definition TR : R := tri (B2R ax) (B2R bx) (B2R ay) (B2R by_) (B2R az) (B2R bz)
  (B2R (value q1)) (B2R (value q2)) (B2R (value q3)) (B2R (value q4)) (B2R (value q5)) (B2R (value q6)) (B2R (value q7)) (B2R (value q8)).
Lemma st_tri : (forall q, in_box q dw -> Rabs (B2R (value q)) <= bpow radix2 1019) -> is_finite T = true /\ B2R T = TR.
Proof.
  intros NO. destruct (st_in _ _ _ _ _ _ _ _ _ _ _ _ _ _ _ _ _ _ St NE) as (I1 & I2 & I3 & I4 & I5 & I6 & I7 & I8).
  destruct (mid_widen t _ (AF _ I1) (NO _ I1)) as (M1 & E1). destruct (mid_widen t _ (AF _ I2) (NO _ I2)) as (M2 & E2).
  destruct (mid_widen t _ (AF _ I3) (NO _ I3)) as (M3 & E3). destruct (mid_widen t _ (AF _ I4) (NO _ I4)) as (M4 & E4).
  destruct (mid_widen t _ (AF _ I5) (NO _ I5)) as (M5 & E5). destruct (mid_widen t _ (AF _ I6) (NO _ I6)) as (M6 & E6).
  destruct (mid_widen t _ (AF _ I7) (NO _ I7)) as (M7 & E7). destruct (mid_widen t _ (AF _ I8) (NO _ I8)) as (M8 & E8).
  destruct (trilinear_ok ax bx ay by_ az bz _ _ _ _ _ _ _ _ (st_x _ _ _ _ _ _ _ _ _ _ _ _ _ _ _ _ _ _ St) (st_y _ _ _ _ _ _ _ _ _ _ _ _ _ _ _ _ _ _ St) (st_z _ _ _ _ _ _ _ _ _ _ _ _ _ _ _ _ _ _ St) M1 M2 M3 M4 M5 M6 M7 M8) as (P & Q).
  unfold T, TR. split; [exact P|]. rewrite Q, E1, E2, E3, E4, E5, E6, E7, E8. reflexivity.
Qed.
Lemma wr a b : weights a b -> 0 <= B2R a <= 1 /\ 0 <= B2R b <= 1 /\ Rabs (B2R a + B2R b - 1) <= 2 * u.
Proof. intros ((_ & A) & (_ & B) & C). auto. Qed.
Lemma st_upper K : (forall q, around dw (at_ x y z) q -> B2R (value q) <= K) -> TR <= K + spread K.
Proof.
  intros H. destruct St as [WX WY WZ _ N _]. unfold TR. apply tri_le; try (apply wr; auto). unfold weighed.
  apply (N (fun q => B2R (value q) <= K)). auto.
Qed.
Lemma st_lower K : (forall q, around dw (at_ x y z) q -> K <= B2R (value q)) -> K - spread K <= TR.
Proof.
  intros H. destruct St as [WX WY WZ _ N _]. unfold TR. apply tri_ge; try (apply wr; auto). unfold weighed.
  apply (N (fun q => B2R (value q) >= K)). intros q Q. apply Rle_ge. auto.
Qed.
Lemma st_pos : (forall q, around dw (at_ x y z) q -> 0 <= B2R (value q)) -> 0 <= TR.
Proof.
  intros H. destruct St as [WX WY WZ _ N _]. unfold TR. apply tri_pos; try (apply wr; auto). unfold weighed.
  apply (N (fun q => B2R (value q) >= 0)). intros q Q. apply Rle_ge. auto.
Qed.
Lemma st_narrow : t <> VDouble -> is_finite (narrow t T) = true /\ B2R (narrow t T) = nround t TR.
Proof.
  intros N. destruct st_tri as (F & E); [intros; apply small_type; auto|].
  destruct (narrow_ok t T N F) as (P & Q); [|rewrite E in Q; auto]. rewrite E. split.
  - replace (- top t - spread (top t)) with (- top t - spread (- top t)) by (unfold spread; rewrite Rabs_Ropp; auto).
    apply st_lower. intros q _. pose proof (top_ge t (value q)) as B. apply Rabs_le_inv in B. tauto.
  - apply st_upper. intros q _. pose proof (top_ge t (value q)) as B. apply Rabs_le_inv in B. tauto.
Qed.
End Sample.
Lemma st_mono t (v w : v3 -> val t) dw x y z ax bx ay by_ az bz q1 q2 q3 q4 q5 q6 q7 q8 :
  stencil dw x y z ax bx ay by_ az bz q1 q2 q3 q4 q5 q6 q7 q8 -> (forall q, around dw (at_ x y z) q -> B2R (v q) <= B2R (w q)) ->
  TR t v ax bx ay by_ az bz q1 q2 q3 q4 q5 q6 q7 q8 <= TR t w ax bx ay by_ az bz q1 q2 q3 q4 q5 q6 q7 q8.
Proof.
  intros [WX WY WZ _ N _] H. unfold TR. apply tri_mono; try (apply wr; auto). unfold weighed.
  apply (N (fun q => B2R (v q) <= B2R (w q))). auto.
Qed.
