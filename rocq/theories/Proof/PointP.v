(** Inverses, and matrices applied to points. *)
From Coq Require Import ZArith Reals Lra.
From Verif Require Import Model.Base Model.RealM Model.VecM Model.MatM Proof.MatP.
Open Scope R_scope.

Lemma det_ident : det ident = 1.
Proof. unfold det, sub2, ident. cbn. ring. Qed.
Lemma det_ne m n : mmul m n = ident -> det m <> 0 /\ det n <> 0.
Proof. intros H. assert (D : det m * det n = 1) by (rewrite <- det_mul, H; apply det_ident). split; intros Z; rewrite Z in D; lra. Qed.
Lemma inverse_unique m n : mmul m n = ident -> inverse m = n.
Proof.
  intros H. destruct (det_ne m n H) as (D & _).
  rewrite <- (mmul_ident_r (inverse m)), <- H, <- mmul_assoc, inverse_l, mmul_ident_l by auto. reflexivity.
Qed.
Lemma inverse_mul a b : det a <> 0 -> det b <> 0 -> inverse (mmul a b) = mmul (inverse b) (inverse a).
Proof.
  intros A B. apply inverse_unique.
  rewrite mmul_assoc, <- (mmul_assoc b), inverse_r, mmul_ident_l, inverse_r by auto. reflexivity.
Qed.
Lemma inverse_inverse m : det m <> 0 -> inverse (inverse m) = m.
Proof. intros H. apply inverse_unique, inverse_l, H. Qed.

(** Points. *)
Definition hom (p : r3) : r4 := R4 (rx p) (ry p) (rz p) 1.
Definition rscale (k : R) (v : r4) : r4 := R4 (k * e0 v) (k * e1 v) (k * e2 v) (k * e3 v).
Lemma rowmul_scale k v m : rowmul (rscale k v) m = rscale k (rowmul v m).
Proof. mats. unfold rowmul, rscale. cbn. f_equal; ring. Qed.
Lemma mult_vec_iff m p q : mult_vec m p = Some q <-> exists w, w <> 0 /\ rowmul (hom p) m = rscale w (hom q).
Proof.
  unfold mult_vec. fold (hom p). set (v := rowmul (hom p) m). clearbody v. unfold reqb. destruct q as [q1 q2 q3]. split.
  - destruct (Req_EM_T (e3 v) 0) as [|N]; [discriminate|]. intros H. injection H as <- <- <-.
    exists (e3 v). split; auto. destruct v as [v0 v1 v2 v3]. unfold rscale, hom. cbn in *. f_equal; field; auto.
  - intros (w & W & E). rewrite E. unfold rscale, hom. cbn. destruct (Req_EM_T (w * 1) 0); [lra|]. do 2 f_equal; field; auto.
Qed.
Lemma mult_vec_mul a b p q r : mult_vec a p = Some q -> mult_vec (mmul a b) p = Some r <-> mult_vec b q = Some r.
Proof.
  intros H. apply mult_vec_iff in H as (w & W & E). rewrite !mult_vec_iff. split; intros (u & U & F).
  - exists (u / w). split. { unfold Rdiv. apply Rmult_integral_contrapositive. split; auto. apply Rinv_neq_0_compat; auto. }
    rewrite <- rowmul_assoc, E, rowmul_scale in F.
    assert (G : rscale (/ w) (rscale w (rowmul (hom q) b)) = rscale (/ w) (rscale u (hom r))) by (f_equal; auto).
    transitivity (rscale (/ w) (rscale w (rowmul (hom q) b))).
    + destruct (rowmul (hom q) b) as [v0 v1 v2 v3]. unfold rscale. cbn. f_equal; field; auto.
    + rewrite G. destruct (hom r) as [v0 v1 v2 v3]. unfold rscale. cbn. f_equal; field; auto.
  - exists (w * u). split. { apply Rmult_integral_contrapositive; auto. }
    rewrite <- rowmul_assoc, E, rowmul_scale, F. destruct (hom r) as [v0 v1 v2 v3]. unfold rscale. cbn. f_equal; ring.
Qed.
Lemma mult_vec_mul_none a b p q : mult_vec a p = Some q -> mult_vec (mmul a b) p = mult_vec b q.
Proof.
  intros H. destruct (mult_vec b q) as [r|] eqn:E; [apply (mult_vec_mul a b p q r H); auto|].
  destruct (mult_vec (mmul a b) p) as [r|] eqn:F; auto. apply (mult_vec_mul a b p q r H) in F. congruence.
Qed.
Lemma mult_vec_ident p : mult_vec ident p = Some p.
Proof.
  apply mult_vec_iff. exists 1. split; [lra|]. rewrite rowmul_ident. destruct p as [x y z]. unfold rscale, hom. cbn. f_equal; ring.
Qed.
Lemma mult_vec_inverse m p q : det m <> 0 -> mult_vec m p = Some q -> mult_vec (inverse m) q = Some p.
Proof. intros D H. rewrite <- (mult_vec_mul_none m (inverse m) p q H), inverse_r by auto. apply mult_vec_ident. Qed.
Lemma mult_vec_inverse' m p q : det m <> 0 -> mult_vec (inverse m) p = Some q -> mult_vec m q = Some p.
Proof. intros D H. rewrite <- (mult_vec_mul_none (inverse m) m p q H), inverse_l by auto. apply mult_vec_ident. Qed.
