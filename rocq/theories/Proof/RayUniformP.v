(** Frustums with uniformly distributed slices fill the same space as those with perspective
    slices. *)
From Coq Require Import ZArith Reals List Bool Lra Lia.
From Verif Require Import Model.Base Model.RealM Model.VecM Model.MatM Model.CurveM Model.MapM Model.RayM
  Spec.MapSpec Spec.RaySpec Proof.MatP Proof.PointP Proof.MapP Proof.RayP Proof.RayFrustumP.
Import ListNotations.
Open Scope R_scope.
Local Notation weight := RaySpec.weight.

Section U.
Variables (s : frustum).
Let M := mlinear (fm_lps s) 0.
Let C := mlinear (fm_cs s) 0.
Let near := rlinear (fm_near s) 0.
Let far := rlinear (fm_far s) 0.
Hypothesis U : fm_uniform s = true.
Hypothesis FC : faces_camera M.
Hypothesis VC : det C <> 0.
Hypothesis NP : no_perspective C.
Hypothesis ST : depth_in_step M C.
Hypothesis PL : depth_planes s.
Hypothesis DEF : forall l, unit_cube l -> exists q, f_local_to_world s 0 l = Some q.

Lemma m_def l : unit_cube l -> exists q, mult_vec M l = Some q.
Proof.
  intros L. destruct FC as (_ & W). specialize (W l L). unfold RaySpec.weight in W. unfold mult_vec, reqb. cbv zeta.
  match goal with |- context [Req_EM_T ?x 0] => destruct (Req_EM_T x 0) as [Z|] end; [|eauto]. rewrite Z in W. lra.
Qed.
Lemma c_def q : exists c, mult_vec (inverse C) q = Some c.
Proof. rewrite affine_def by (apply affine_inverse; auto). eauto. Qed.
(** The depth at a point of the cube between the planes. *)
Lemma depth_between x y z l0 l1 l q0 q1 q c0 c1 c : 0 <= x <= 1 -> 0 <= y <= 1 -> 0 <= z <= 1 ->
  l0 = R3 x y 0 -> l1 = R3 x y 1 -> l = R3 x y z ->
  mult_vec M l0 = Some q0 -> mult_vec M l1 = Some q1 -> mult_vec M l = Some q ->
  mult_vec (inverse C) q0 = Some c0 -> mult_vec (inverse C) q1 = Some c1 -> mult_vec (inverse C) q = Some c ->
  rz c * ((1 - z) * weight M l0 + z * weight M l1) = (1 - z) * weight M l0 * rz c0 + z * weight M l1 * rz c1.
Proof.
  intros X Y Z -> -> -> Q0 Q1 Q.
  assert (K : forall p, rowmul (hom p) M = rowmul (hom p) M) by auto.
  apply mult_weight in Q0, Q1, Q. rewrite !affine_def by (apply affine_inverse; auto).
  intros E0 E1 E. injection E0 as <-. injection E1 as <-. injection E as <-. cbn [rz].
  set (w0 := weight M (R3 x y 0)) in *. set (w1 := weight M (R3 x y 1)) in *. set (w := weight M (R3 x y z)) in *.
  assert (Ew : w = (1 - z) * w0 + z * w1) by (unfold w, w0, w1, RaySpec.weight, rowmul; cbn; ring). clearbody w0 w1 w. rewrite <- Ew.
  assert (H : rowmul (hom (R3 x y z)) M = R4 ((1 - z) * e0 (rowmul (hom (R3 x y 0)) M) + z * e0 (rowmul (hom (R3 x y 1)) M)) ((1 - z) * e1 (rowmul (hom (R3 x y 0)) M) + z * e1 (rowmul (hom (R3 x y 1)) M))
    ((1 - z) * e2 (rowmul (hom (R3 x y 0)) M) + z * e2 (rowmul (hom (R3 x y 1)) M)) ((1 - z) * e3 (rowmul (hom (R3 x y 0)) M) + z * e3 (rowmul (hom (R3 x y 1)) M))).
  { unfold rowmul, hom. cbn. f_equal; ring. }
  rewrite Q, Q0, Q1 in H. unfold rscale, hom in H. cbn in H. injection H as H0 H1 H2 H3.
  set (a := e2 (row0 (inverse C))) in *. set (b := e2 (row1 (inverse C))) in *. set (g := e2 (row2 (inverse C))) in *. set (d := e2 (row3 (inverse C))) in *.
  transitivity ((w * rx q) * a + (w * ry q) * b + (w * rz q) * g + w * d); [ring|]. rewrite H0, H1, H2, Ew. ring.
Qed.
Lemma planes l0 q0 c0 : mult_vec M l0 = Some q0 -> mult_vec (inverse C) q0 = Some c0 -> (rz l0 = 0 -> - rz c0 = near) /\ (rz l0 = 1 -> - rz c0 = far).
Proof. intros H G. apply (PL l0 q0 c0); auto. Qed.
(** The depth at a point of the cube. *)
Lemma cube_depth l q c : unit_cube l -> mult_vec M l = Some q -> mult_vec (inverse C) q = Some c ->
  exists w0 w1, 0 < w0 /\ 0 < w1 /\ w0 = weight M (R3 (rx l) (ry l) 0) /\ w1 = weight M (R3 (rx l) (ry l) 1) /\
    - rz c * ((1 - rz l) * w0 + rz l * w1) = (1 - rz l) * w0 * near + rz l * w1 * far.
Proof.
  intros L Q Ec. destruct l as [x y z]. destruct L as (X & Y & Z). cbn in X, Y, Z. cbn [rx ry rz].
  assert (L0 : unit_cube (R3 x y 0)) by (unfold unit_cube, inside; cbn; lra). assert (L1 : unit_cube (R3 x y 1)) by (unfold unit_cube, inside; cbn; lra).
  destruct (m_def _ L0) as (q0 & Q0). destruct (m_def _ L1) as (q1 & Q1). destruct (c_def q0) as (c0 & C0). destruct (c_def q1) as (c1 & C1).
  pose proof (proj2 FC _ L0) as W0. pose proof (proj2 FC _ L1) as W1. eexists _, _. split; [exact W0|]. split; [exact W1|]. split; auto. split; auto.
  pose proof (depth_between x y z _ _ _ q0 q1 q c0 c1 c X Y Z eq_refl eq_refl eq_refl Q0 Q1 Q C0 C1 Ec) as D.
  rewrite <- (proj1 (planes _ _ _ Q0 C0) eq_refl), <- (proj2 (planes _ _ _ Q1 C1) eq_refl). lra.
Qed.
Lemma fraction a b z : 0 < a -> 0 < b -> 0 <= z <= 1 -> 0 < (1 - z) * a + z * b.
Proof.
  intros A B Z. destruct (Req_dec z 0) as [->|N]; [lra|]. assert (0 < z * b) by (apply Rmult_lt_0_compat; lra). assert (0 <= (1 - z) * a) by (apply Rmult_le_pos; lra). lra.
Qed.
Lemma ratio a b : 0 <= a <= b -> 0 < b -> 0 <= a / b <= 1.
Proof.
  intros A B. split; [apply Rmult_le_pos; [lra|left; apply Rinv_0_lt_compat; auto]|]. apply (Rmult_le_reg_r b); auto. unfold Rdiv. rewrite Rmult_assoc, Rinv_l by lra. lra.
Qed.

Lemma same_space q : (exists l, unit_cube l /\ f_local_to_world s 0 l = Some q) <-> (exists l, unit_cube l /\ mult_vec M l = Some q).
Proof.
  assert (DM : det M <> 0) by (destruct FC; lra).
  assert (UD : forall p w, f_local_to_world s 0 p = Some w -> forall c, mult_vec (inverse C) w = Some c -> - rz c = lerp near far (rz p)).
  { intros p w H c Hc. apply (u_depth s 0 U DM VC ST p w H c Hc). }
  assert (SH : forall p w, f_local_to_world s 0 p = Some w -> exists z, mult_vec M (R3 (rx p) (ry p) z) = Some w).
  { intros p w. unfold f_local_to_world. rewrite U. fold M C near far. destruct (mult_vec C (R3 0 0 (- lerp near far (rz p)))) as [wc|]; [|discriminate].
    destruct (mult_vec (inverse M) wc) as [c|]; [|discriminate]. eauto. }
  split.
  - intros (l & L & E). destruct (SH l q E) as (z & Ez). exists (R3 (rx l) (ry l) z). split; auto.
    destruct (c_def q) as (c & Ec). pose proof (UD l q E c Ec) as D.
    destruct l as [x y u]. pose proof L as (X & Y & Zu). cbn in X, Y, Zu. cbn [rx ry rz] in *.
    assert (L0 : unit_cube (R3 x y 0)) by (unfold unit_cube, inside; cbn; lra). assert (L1 : unit_cube (R3 x y 1)) by (unfold unit_cube, inside; cbn; lra).
    pose proof (proj2 FC _ L0) as W0. pose proof (proj2 FC _ L1) as W1. set (w0 := weight M (R3 x y 0)) in *. set (w1 := weight M (R3 x y 1)) in *.
    pose proof (fraction w1 w0 u W1 W0 Zu) as Fr. set (k := (1 - u) * w1 + u * w0) in *.
    set (z' := u * w0 / k).
    assert (Z' : 0 <= z' <= 1). { apply ratio; auto. assert (0 <= u * w0) by (apply Rmult_le_pos; lra). assert (0 <= (1 - u) * w1) by (apply Rmult_le_pos; lra). unfold k. lra. }
    assert (L' : unit_cube (R3 x y z')) by (unfold unit_cube, inside; cbn; auto). destruct (m_def _ L') as (q' & Q'). destruct (c_def q') as (c' & C').
    destruct (cube_depth _ _ _ L' Q' C') as (v0 & v1 & _ & _ & -> & -> & D'). cbn [rx ry rz] in D'. fold w0 w1 in D'.
    pose proof (fraction w0 w1 z' W0 W1 Z') as Fr'.
    assert (X1 : z' * k = u * w0) by (unfold z', Rdiv; rewrite Rmult_assoc, Rinv_l by lra; ring).
    assert (X2 : (1 - z') * k = (1 - u) * w1) by (replace ((1 - z') * k) with (k - z' * k) by ring; rewrite X1; unfold k; ring).
    assert (E' : - rz c' = lerp near far u).
    { apply (Rmult_eq_reg_r ((1 - z') * w0 + z' * w1)); [|lra]. rewrite D'. apply (Rmult_eq_reg_r k); [|lra]. unfold lerp.
      transitivity (((1 - z') * k) * w0 * near + (z' * k) * w1 * far); [ring|].
      transitivity ((near + (far - near) * u) * (((1 - z') * k) * w0 + (z' * k) * w1)); [rewrite X1, X2; ring|ring]. }
    assert (Hz : z = z') by (apply (proj2 (ST _ _ _ _ _ _ Ez Q' Ec C')); lra). rewrite Hz. auto.
  - intros (l & L & E). destruct (c_def q) as (c & Ec). destruct (cube_depth l q c L E Ec) as (w0 & w1 & W0 & W1 & _ & _ & D).
    destruct l as [x y z]. pose proof L as (X & Y & Z). cbn in X, Y, Z. cbn [rx ry rz] in *.
    pose proof (fraction w0 w1 z W0 W1 Z) as Fr. set (k := (1 - z) * w0 + z * w1) in *. set (u := z * w1 / k).
    assert (Zu : 0 <= u <= 1). { apply ratio; auto. assert (0 <= z * w1) by (apply Rmult_le_pos; lra). assert (0 <= (1 - z) * w0) by (apply Rmult_le_pos; lra). unfold k. lra. }
    assert (L' : unit_cube (R3 x y u)) by (unfold unit_cube, inside; cbn; auto). exists (R3 x y u). split; auto.
    destruct (DEF _ L') as (q' & Q'). rewrite Q'. destruct (SH _ _ Q') as (z' & Ez). cbn [rx ry] in Ez. destruct (c_def q') as (c' & C').
    pose proof (UD _ _ Q' c' C') as D'. cbn [rz] in D'.
    assert (X1 : u * k = z * w1) by (unfold u, Rdiv; rewrite Rmult_assoc, Rinv_l by lra; ring).
    assert (E' : - rz c = lerp near far u).
    { apply (Rmult_eq_reg_r k); [|lra]. rewrite D. unfold lerp. transitivity (near * k + (far - near) * (u * k)); [rewrite X1; unfold k; ring|ring]. }
    assert (Hz : z' = z) by (apply (proj2 (ST _ _ _ _ _ _ Ez E C' Ec)); lra). rewrite Hz in Ez. congruence.
Qed.
Lemma corner_same l : unit_cube l -> rz l = 0 \/ rz l = 1 -> f_local_to_world s 0 l = mult_vec M l.
Proof.
  intros L Z. assert (DM : det M <> 0) by (destruct FC; lra). destruct (DEF l L) as (q & Q). rewrite Q. destruct (m_def l L) as (q' & Q'). rewrite Q'.
  destruct (c_def q) as (c & Ec). destruct (c_def q') as (c' & Ec'). pose proof (u_depth s 0 U DM VC ST l q Q c Ec) as D. fold near far in D. unfold lerp in D.
  assert (S : exists z, mult_vec M (R3 (rx l) (ry l) z) = Some q).
  { unfold f_local_to_world in Q. rewrite U in Q. fold M C near far in Q. destruct (mult_vec C (R3 0 0 (- lerp near far (rz l)))) as [wc|]; [|discriminate].
    destruct (mult_vec (inverse M) wc) as [x|]; [|discriminate]. eauto. }
  destruct S as (z & Ez). destruct (planes _ _ _ Q' Ec') as [P0 P1].
  assert (Hz : z = rz l). { apply (proj2 (ST _ _ _ _ _ _ Ez Q' Ec Ec')). destruct Z as [Z|Z]; [specialize (P0 Z)|specialize (P1 Z)]; rewrite Z in D; lra. }
  rewrite Hz in Ez. destruct l as [x y u]. cbn [rx ry rz] in Ez. congruence.
Qed.
End U.
