(** Proofs about rays and frustums. *)
From Coq Require Import ZArith Reals List Bool Lra Lia.
From Verif Require Import Model.Base Model.RealM Model.VecM Model.MatM Model.CurveM Model.MapM Model.RayM
  Spec.MapSpec Spec.RaySpec Proof.MatP Proof.PointP Proof.RayP.
Import ListNotations.
Open Scope R_scope.

Lemma clip_right pos dir l : forall a b t0 t1, fold_left (clip_plane pos dir) l (a, b) = (t0, t1) ->
  Forall (fun p => dot (pl_normal p) dir <> 0 \/ below p pos) l ->
  forall t, t0 <= t <= t1 <-> a <= t <= b /\ Forall (fun p => below p (along pos dir t)) l.
Proof.
  induction l as [|p l IH]; intros a b t0 t1 H F t; cbn [fold_left] in H.
  - injection H as <- <-. split; [auto|tauto].
  - pose proof (Forall_inv F) as P. apply Forall_inv_tail in F. rewrite Forall_cons_iff.
    destruct p as [n d]. unfold clip_plane, intersect_t in H. unfold below in *. cbn [pl_normal pl_distance] in *.
    assert (DA : dot n (along pos dir t) = dot n pos + t * dot n dir) by (unfold dot, along; cbn; ring).
    assert (DC : dot dir n = dot n dir) by (unfold dot; ring). rewrite DC in H. rewrite DA.
    set (x := dot n pos) in *. set (y := dot n dir) in *.
    unfold reqb in H. destruct (Req_EM_T y 0) as [Z|N].
    + rewrite (IH _ _ _ _ H F t). rewrite Z, Rmult_0_r, Rplus_0_r. assert (x <= d) by (destruct P; [lra|auto]). tauto.
    + cbn [fst snd] in H. destruct (rltb 0 y) eqn:L; rewrite (IH _ _ _ _ H F t).
      * apply rltb_t in L. assert (Q : t <= - (x - d) / y <-> x + t * y <= d) by (rewrite le_div by auto; split; lra).
        rewrite <- Q. clear Q.
        pose proof (Rmin_l b (- (x - d) / y)). pose proof (Rmin_r b (- (x - d) / y)).
        split; [intros ((A & B) & C); repeat split; auto; lra|intros ((A & B) & C & D); repeat split; auto; apply Rmin_glb; auto].
      * apply rltb_f in L. assert (Y : 0 < - y) by lra.
        assert (Q : - (x - d) / y <= t <-> x + t * y <= d) by (rewrite div_opp, div_le by auto; split; lra).
        rewrite <- Q. clear Q.
        pose proof (Rmax_l a (- (x - d) / y)). pose proof (Rmax_r a (- (x - d) / y)).
        split; [intros ((A & B) & C); repeat split; auto; lra|intros ((A & B) & C & D); repeat split; auto; apply Rmax_lub; auto].
Qed.

(** The plane through three points. *)
Definition side (p1 p2 p3 q : r3) : R := dot (cross (sub3 p2 p1) (sub3 p3 p1)) (sub3 q p1).
Lemma below_plane p1 p2 p3 q : below (plane_of p1 p2 p3) q <-> side p1 p2 p3 q <= 0.
Proof.
  unfold below, plane_of, side. cbn [pl_normal pl_distance]. set (n := cross (sub3 p2 p1) (sub3 p3 p1)). clearbody n.
  assert (D : forall a, dot a (sub3 q p1) = dot a q - dot a p1) by (intros; unfold dot, sub3; cbn; ring).
  rewrite D. unfold normalized. unfold reqb. destruct (Req_EM_T (sqrt (dot n n)) 0) as [Z|Z]; [lra|].
  assert (P : 0 < sqrt (dot n n)) by (pose proof (sqrt_pos (dot n n)); lra).
  set (l := sqrt (dot n n)) in *. clearbody l.
  assert (V : forall a, dot (R3 (rx n / l) (ry n / l) (rz n / l)) a = dot n a / l) by (intros; unfold dot; cbn; field; auto).
  rewrite !V, div_le by auto. unfold Rdiv. rewrite Rmult_assoc, Rinv_l by auto. lra.
Qed.

Definition rows4 (a b c d : r4) : m44 := M44 a b c d.
Lemma side_det p1 p2 p3 q : side p1 p2 p3 q = det (rows4 (hom q) (hom p1) (hom p2) (hom p3)).
Proof. unfold side, det, sub2, rows4, hom, cross, sub3, dot. cbn. ring. Qed.
Lemma det_scale a b c d u v w : det (rows4 a (rscale u b) (rscale v c) (rscale w d)) = u * v * w * det (rows4 a b c d).
Proof. unfold det, sub2, rows4, rscale. cbn. ring. Qed.

Section Face.
Variable m : m44.
Hypothesis M : det m < 0.
Variables (l1 l2 l3 p1 p2 p3 q : r3) (h : r4).
Hypothesis W1 : 0 < weight m l1.
Hypothesis W2 : 0 < weight m l2.
Hypothesis W3 : 0 < weight m l3.
Hypothesis P1 : mult_vec m l1 = Some p1.
Hypothesis P2 : mult_vec m l2 = Some p2.
Hypothesis P3 : mult_vec m l3 = Some p3.
Hypothesis HQ : rowmul h m = hom q.

Lemma mult_weight l p : mult_vec m l = Some p -> rowmul (hom l) m = rscale (weight m l) (hom p).
Proof.
  intros H. apply mult_vec_iff in H as (w & W & H). rewrite H. unfold weight. fold (hom l). rewrite H. unfold rscale, hom. cbn. f_equal; ring.
Qed.
Lemma face_side : side p1 p2 p3 q <= 0 <-> 0 <= det (rows4 h (hom l1) (hom l2) (hom l3)).
Proof.
  assert (D : det (mmul (rows4 h (hom l1) (hom l2) (hom l3)) m) = weight m l1 * weight m l2 * weight m l3 * side p1 p2 p3 q).
  { unfold mmul, rows4. cbn [row0 row1 row2 row3]. rewrite HQ, (mult_weight l1 p1), (mult_weight l2 p2), (mult_weight l3 p3) by auto.
    fold (rows4 (hom q) (rscale (weight m l1) (hom p1)) (rscale (weight m l2) (hom p2)) (rscale (weight m l3) (hom p3))).
    rewrite det_scale, side_det. ring. }
  rewrite det_mul in D.
  assert (K : 0 < weight m l1 * weight m l2 * weight m l3) by (repeat apply Rmult_lt_0_compat; auto).
  set (k := weight m l1 * weight m l2 * weight m l3) in *. clearbody k.
  set (x := side p1 p2 p3 q) in *. set (y := det (rows4 h (hom l1) (hom l2) (hom l3))) in *. clearbody x y.
  split; intros L.
  - destruct (Rle_dec 0 y) as [|N]; auto. exfalso. apply Rnot_le_lt in N.
    assert (0 < (- y) * - det m) by (apply Rmult_lt_0_compat; lra).
    assert (0 <= k * - x) by (apply Rmult_le_pos; lra). lra.
  - destruct (Rle_dec x 0) as [|N]; auto. exfalso. apply Rnot_le_lt in N.
    assert (0 < k * x) by (apply Rmult_lt_0_compat; lra).
    assert (0 <= y * - det m) by (apply Rmult_le_pos; lra). lra.
Qed.
End Face.

Definition corner_list (m : m44) (c : list r3) : Prop := all_some (map (mult_vec m) unit_corners) = Some c.
Lemma corners_cube : Forall unit_cube unit_corners.
Proof. repeat (apply Forall_cons; [unfold unit_cube, inside; cbn; lra|]). constructor. Qed.
Lemma corners_map m c : corner_list m c -> exists c0 c1 c2 c3 c4 c5 c6 c7, c = [c0; c1; c2; c3; c4; c5; c6; c7] /\
  mult_vec m (R3 0 0 0) = Some c0 /\ mult_vec m (R3 1 0 0) = Some c1 /\ mult_vec m (R3 0 1 0) = Some c2 /\ mult_vec m (R3 1 1 0) = Some c3 /\
  mult_vec m (R3 0 0 1) = Some c4 /\ mult_vec m (R3 1 0 1) = Some c5 /\ mult_vec m (R3 0 1 1) = Some c6 /\ mult_vec m (R3 1 1 1) = Some c7.
Proof.
  unfold corner_list, unit_corners. cbn [map all_some].
  destruct (mult_vec m (R3 0 0 0)) as [c0|]; [|discriminate]. destruct (mult_vec m (R3 1 0 0)) as [c1|]; [|discriminate].
  destruct (mult_vec m (R3 0 1 0)) as [c2|]; [|discriminate]. destruct (mult_vec m (R3 1 1 0)) as [c3|]; [|discriminate].
  destruct (mult_vec m (R3 0 0 1)) as [c4|]; [|discriminate]. destruct (mult_vec m (R3 1 0 1)) as [c5|]; [|discriminate].
  destruct (mult_vec m (R3 0 1 1)) as [c6|]; [|discriminate]. destruct (mult_vec m (R3 1 1 1)) as [c7|]; [|discriminate].
  intros H. injection H as <-. exists c0, c1, c2, c3, c4, c5, c6, c7. repeat split.
Qed.

Lemma faces_cube m c q h : det m < 0 -> (forall p, unit_cube p -> 0 < weight m p) -> corner_list m c -> rowmul h m = hom q ->
  Forall (fun p => below p q) (face_planes c) <->
  (0 <= e0 h <= e3 h /\ 0 <= e1 h <= e3 h /\ 0 <= e2 h <= e3 h).
Proof.
  intros M W C H. destruct (corners_map m c C) as (c0 & c1 & c2 & c3 & c4 & c5 & c6 & c7 & -> & C0 & C1 & C2 & C3 & C4 & C5 & C6 & C7).
  assert (WC : forall l, In l unit_corners -> 0 < weight m l).
  { intros l L. apply W. apply (proj1 (Forall_forall _ _) corners_cube); auto. }
  unfold unit_corners in WC.
  unfold face_planes. cbn [nth]. rewrite !Forall_cons_iff, !below_plane.
  rewrite (face_side m M (R3 0 0 1) (R3 0 0 0) (R3 0 1 1) c4 c0 c6 q h) by (auto; apply WC; cbn; tauto).
  rewrite (face_side m M (R3 1 0 0) (R3 1 0 1) (R3 1 1 0) c1 c5 c3 q h) by (auto; apply WC; cbn; tauto).
  rewrite (face_side m M (R3 0 0 1) (R3 1 0 1) (R3 0 0 0) c4 c5 c0 q h) by (auto; apply WC; cbn; tauto).
  rewrite (face_side m M (R3 0 1 0) (R3 1 1 0) (R3 0 1 1) c2 c3 c6 q h) by (auto; apply WC; cbn; tauto).
  rewrite (face_side m M (R3 0 0 0) (R3 1 0 0) (R3 0 1 0) c0 c1 c2 q h) by (auto; apply WC; cbn; tauto).
  rewrite (face_side m M (R3 1 0 1) (R3 0 0 1) (R3 1 1 1) c5 c4 c7 q h) by (auto; apply WC; cbn; tauto).
  unfold det, sub2, rows4, hom. cbn. split.
  - intros (A & B & C' & D & F & G & _). lra.
  - intros (A & B & C'). repeat split; auto; lra.
Qed.

Lemma cube_image m c q : faces_camera m -> corner_list m c ->
  Forall (fun p => below p q) (face_planes c) <-> exists l, unit_cube l /\ mult_vec m l = Some q.
Proof.
  intros (M & W) C. assert (D : det m <> 0) by lra.
  set (h := rowmul (hom q) (inverse m)).
  assert (H : rowmul h m = hom q) by (unfold h; rewrite rowmul_assoc, inverse_l by auto; apply rowmul_ident).
  rewrite (faces_cube m c q h) by auto. split.
  - intros (A & B & C'). destruct (Req_dec (e3 h) 0) as [Z|N].
    + exfalso. assert (h = R4 0 0 0 0) as E by (destruct h as [h0 h1 h2 h3]; cbn in *; f_equal; lra).
      rewrite E in H. unfold rowmul, hom in H. cbn in H. injection H as _ _ _ H. lra.
    + assert (P : 0 < e3 h) by lra. exists (R3 (e0 h / e3 h) (e1 h / e3 h) (e2 h / e3 h)). split.
      * unfold unit_cube, inside. cbn [rx ry rz]. rewrite !le_div, !div_le by auto. lra.
      * apply mult_vec_iff. exists (/ e3 h). split; [apply Rinv_neq_0_compat; auto|].
        rewrite <- H, <- rowmul_scale. f_equal. destruct h as [h0 h1 h2 h3]. unfold hom, rscale. cbn in *. f_equal; field; auto.
  - intros (l & L & E). pose proof (W l L) as WL. apply mult_weight in E. set (w := weight m l) in *. clearbody w.
    assert (HE : h = rscale (/ w) (hom l)).
    { unfold h. assert (X : hom q = rscale (/ w) (rowmul (hom l) m)).
      { rewrite E. destruct (hom q) as [a b x y]. unfold rscale. cbn. f_equal; field; lra. }
      rewrite X, rowmul_scale, rowmul_assoc, inverse_r, rowmul_ident by auto. reflexivity. }
    assert (I : 0 < / w) by (apply Rinv_0_lt_compat; auto).
    unfold unit_cube, inside in L. cbn [rx ry rz] in L. rewrite HE. unfold rscale, hom. cbn. set (i := / w) in *. clearbody i.
    destruct L as (L1 & L2 & L3).
    assert (Z : forall x, 0 <= x <= 1 -> 0 <= i * x <= i * 1) by (intros; split; [apply Rmult_le_pos; lra|apply Rmult_le_compat_l; lra]).
    auto.
Qed.
