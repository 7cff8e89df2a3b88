(** Voxel sizes and the default camera of frustum mappings. *)
From Coq Require Import ZArith Reals List Bool Lra Lia.
From Verif Require Import Model.Base Model.RealM Proof.RealP Model.VecM Model.MatM Model.CurveM Model.CoordM Model.MapM
  Spec.CurveSpec Spec.MapSpec Proof.CoordP Proof.MatP Proof.PointP Proof.MapP.
Import ListNotations.
Open Scope R_scope.

Lemma rtrunc_IZR z : rtrunc (IZR z) = z.
Proof. unfold rtrunc. destruct (rleb 0 (IZR z)); [apply rfloor_IZR|apply rceil_IZR]. Qed.
Lemma set_nth_length l : forall n v, length (set_nth_size l n v) = length l.
Proof. induction l as [|a l IH]; intros [|n] v; cbn; auto. Qed.
Lemma set_nth_same l : forall n v, (n < length l)%nat -> nth_error (set_nth_size l n v) n = Some v.
Proof. induction l as [|a l IH]; intros [|n] v H; cbn in *; try lia; auto. apply IH. lia. Qed.
Lemma set_nth_other l : forall n m v, n <> m -> nth_error (set_nth_size l n v) m = nth_error l m.
Proof. induction l as [|a l IH]; intros [|n] [|m] v H; cbn; try congruence; auto. Qed.
Lemma resize_length old n : length (resize_sizes old n) = n.
Proof. unfold resize_sizes. rewrite app_length, firstn_length, repeat_length. lia. Qed.
Lemma fill_spec s i j n : forall k idx l l', fill_sizes s i j k idx n l = Some l' -> (idx + n <= length l)%nat ->
  length l' = length l /\
  (forall m, (m < n)%nat -> exists v, slice_size s i j (k + Z.of_nat m) = Some v /\ nth_error l' (idx + m) = Some v) /\
  (forall m, (m < idx \/ idx + n <= m)%nat -> nth_error l' m = nth_error l m).
Proof.
  induction n as [|n IH]; intros k idx l l' H L; cbn in H.
  - injection H as <-. repeat split; auto. intros; lia.
  - destruct (slice_size s i j k) as [v|] eqn:E; [|discriminate].
    destruct (IH _ _ _ _ H) as (A & B & C); [rewrite set_nth_length; lia|]. rewrite set_nth_length in A.
    split; [auto|]. split.
    + intros [|m] M.
      * exists v. rewrite Z.add_0_r, Nat.add_0_r. split; auto. rewrite C by lia. apply set_nth_same. lia.
      * destruct (B m) as (u & U & V); [lia|]. exists u. split; [rewrite <- U; f_equal; lia|rewrite <- V; f_equal; lia].
    + intros m M. rewrite C by lia. apply set_nth_other. lia.
Qed.
Lemma sizes_spec e s old sizes : set_frame e = Ok (fm_frame s) -> (vz (bmin e) < vz (bmax e))%Z ->
  compute_voxel_size s old = Some sizes ->
  let i := rtrunc (IZR (vx (bmin e)) + IZR (vx (bmax e) - vx (bmin e) + 1) / 2) in
  let j := rtrunc (IZR (vy (bmin e)) + IZR (vy (bmax e) - vy (bmin e) + 1) / 2) in
  (forall k, (vz (bmin e) <= k < vz (bmax e))%Z -> exists v, slice_size s i j k = Some v /\ f_voxel_size s sizes k = Ok v) /\
  (forall k, (vz (bmax e) <= k)%Z -> f_voxel_size s sizes k = f_voxel_size s sizes (vz (bmax e) - 1)) /\
  (forall k, (k < vz (bmin e))%Z -> f_voxel_size s sizes k = f_voxel_size s sizes (vz (bmin e))).
Proof.
  intros F Z H i j. apply set_frame_ok in F. unfold compute_voxel_size in H. unfold f_voxel_size. rewrite F in *. cbn [fr_origin fr_res rx ry rz] in *.
  fold i j in H. clearbody i j. set (z0 := vz (bmin e)) in *. set (z1 := vz (bmax e)) in *. clearbody z0 z1.
  replace (IZR z0 + IZR (z1 - z0 + 1) - 1) with (IZR z1) in * by (rewrite plus_IZR, minus_IZR; lra).
  replace (IZR (z1 - z0 + 1) - 1) with (IZR (z1 - z0)) in H by (rewrite plus_IZR, minus_IZR; lra).
  replace (IZR (z1 - z0 + 1) - 2) with (IZR (z1 - z0 - 1)) in H by (rewrite plus_IZR, !minus_IZR; lra).
  rewrite !rtrunc_IZR in *. destruct (Z.ltb_spec (z1 - z0 + 1) 0); [lia|].
  destruct (rleb_spec 2 (IZR (z1 - z0 + 1))) as [T|T].
  2:{ exfalso. apply T. apply IZR_le. lia. }
  destruct (fill_sizes s i j z0 0 (Z.to_nat (z1 - z0)) (resize_sizes old (Z.to_nat (z1 - z0 + 1)))) as [l|] eqn:E; [|discriminate].
  injection H as <-. destruct (fill_spec _ _ _ _ _ _ _ _ E) as (A & B & C); [rewrite resize_length; lia|].
  rewrite resize_length in A.
  assert (G : forall k, (z0 <= k < z1)%Z -> exists v, slice_size s i j k = Some v /\
     nth_error (set_nth_size l (Z.to_nat (z1 - z0)) (nth (Z.to_nat (z1 - z0 - 1)) l (R3 0 0 0))) (Z.to_nat (k - z0)) = Some v).
  { intros k K. destruct (B (Z.to_nat (k - z0))) as (v & U & V); [lia|]. exists v. split.
    - rewrite <- U. f_equal. lia.
    - rewrite set_nth_other by lia. exact V. }
  repeat split.
  - intros k K. destruct (G k K) as (v & U & V). exists v. split; auto.
    replace (Z.min (Z.max k z0) z1) with k by lia. destruct (Z.ltb_spec (k - z0) 0); [lia|]. rewrite V. auto.
  - intros k K. replace (Z.min (Z.max k z0) z1) with z1 by lia. replace (Z.min (Z.max (z1 - 1) z0) z1) with (z1 - 1)%Z by lia.
    destruct (Z.ltb_spec (z1 - z0) 0); [lia|]. destruct (Z.ltb_spec (z1 - 1 - z0) 0); [lia|].
    rewrite set_nth_same by lia. destruct (G (z1 - 1)%Z) as (v & U & V); [lia|]. rewrite V.
    rewrite set_nth_other in V by lia. replace (z1 - z0 - 1)%Z with (z1 - 1 - z0)%Z by lia. rewrite (nth_error_nth _ _ _ V). auto.
  - intros k K. replace (Z.min (Z.max k z0) z1) with z0 by lia. replace (Z.min (Z.max z0 z0) z1) with z0 by lia. reflexivity.
Qed.

(** The default camera. *)
Definition default_lps (k : R) : m44 :=
  M44 (R4 (2 / k) 0 0 0) (R4 0 (2 / k) 0 0) (R4 0 0 0 (- (1 / 2))) (R4 (- / k) (- / k) (-1) 1).
Lemma m44_eq a b c d a' b' c' d' : a = a' -> b = b' -> c = c' -> d = d' -> M44 a b c d = M44 a' b' c' d'.
Proof. congruence. Qed.
Lemma r4_eq a b c d a' b' c' d' : a = a' -> b = b' -> c = c' -> d = d' -> R4 a b c d = R4 a' b' c' d'.
Proof. congruence. Qed.
Lemma row_simpl a b c d m : rowmul (R4 a b c d) m =
  R4 (a * e0 (row0 m) + b * e0 (row1 m) + c * e0 (row2 m) + d * e0 (row3 m))
     (a * e1 (row0 m) + b * e1 (row1 m) + c * e1 (row2 m) + d * e1 (row3 m))
     (a * e2 (row0 m) + b * e2 (row1 m) + c * e2 (row2 m) + d * e2 (row3 m))
     (a * e3 (row0 m) + b * e3 (row1 m) + c * e3 (row2 m) + d * e3 (row3 m)).
Proof. reflexivity. Qed.
Lemma mul_simpl a b c d m : mmul (M44 a b c d) m = M44 (rowmul a m) (rowmul b m) (rowmul c m) (rowmul d m).
Proof. reflexivity. Qed.
Lemma default_cs_eq k : default_cs_ss k = M44 (R4 k 0 0 0) (R4 0 k 0 0) (R4 0 0 (-2) (-1)) (R4 0 0 (-2) 0).
Proof.
  unfold default_cs_ss.
  replace (mmul (scale (R3 1 1 (-1))) (M44 (R4 1 0 0 0) (R4 0 1 0 0) (R4 0 0 (2 / (2 - 1)) 1) (R4 0 0 (- 2 * 1 / (2 - 1)) 0)))
    with (M44 (R4 1 0 0 0) (R4 0 1 0 0) (R4 0 0 (-2) (-1)) (R4 0 0 (-2) 0)).
  - unfold scale. cbn [rx ry rz]. rewrite mul_simpl, !row_simpl. cbn [row0 row1 row2 row3 e0 e1 e2 e3]. apply m44_eq; apply r4_eq; field.
  - unfold scale. cbn [rx ry rz]. rewrite mul_simpl, !row_simpl. cbn [row0 row1 row2 row3 e0 e1 e2 e3]. apply m44_eq; apply r4_eq; field.
Qed.
Lemma default_inverse k : k <> 0 -> default_ss_ws k = M44 (R4 (/ k) 0 0 0) (R4 0 (/ k) 0 0) (R4 0 0 0 (- (1 / 2))) (R4 0 0 (-1) 1).
Proof.
  intros K. unfold default_ss_ws. rewrite mmul_ident_r. apply inverse_unique.
  rewrite default_cs_eq. unfold ident. rewrite mul_simpl, !row_simpl. cbn [row0 row1 row2 row3 e0 e1 e2 e3]. apply m44_eq; apply r4_eq; field; auto.
Qed.
Lemma default_lps_eq k : k <> 0 -> mmul ls_to_ss (default_ss_ws k) = default_lps k.
Proof.
  intros K. rewrite default_inverse by auto. unfold ls_to_ss, default_lps, mmul, rowmul, scale, translate. cbn.
  f_equal; f_equal; field; auto.
Qed.
Lemma default_det k : k <> 0 -> det (default_lps k) <> 0.
Proof.
  intros K. replace (det (default_lps k)) with (- (2 / k * (2 / k)) / 2).
  2:{ unfold det, sub2, default_lps. cbn. field. auto. }
  intros Z. assert (2 / k <> 0). { intros Y. apply (f_equal (fun x => x * k)) in Y. unfold Rdiv in Y. rewrite Rmult_assoc, Rinv_l in Y by auto. lra. }
  assert (2 / k * (2 / k) <> 0) by (apply Rmult_integral_contrapositive_currified; auto). lra.
Qed.
Lemma inverse_ident : inverse ident = ident.
Proof. apply inverse_unique. apply mmul_ident_l. Qed.
Lemma inv_tan_pos : inv_tan <> 0.
Proof.
  unfold inv_tan. assert (0 < tan (45 * PI / 180 / 2)). { apply tan_gt_0; pose proof PI_RGT_0; lra. }
  unfold Rdiv. rewrite Rmult_1_l. apply Rinv_neq_0_compat. lra.
Qed.
Lemma default_near k : k <> 0 -> mult_vec (default_lps k) (R3 (1 / 2) (1 / 2) 0) = Some (R3 0 0 (-1)).
Proof. intros K. apply mult_vec_iff. exists 1. split; [lra|]. unfold default_lps, rowmul, hom, rscale. cbn. f_equal; field; auto. Qed.
Lemma default_far k : k <> 0 -> mult_vec (default_lps k) (R3 (1 / 2) (1 / 2) 1) = Some (R3 0 0 (-2)).
Proof. intros K. apply mult_vec_iff. exists (1 / 2). split; [lra|]. unfold default_lps, rowmul, hom, rscale. cbn. f_equal; field; auto. Qed.
Lemma reset_eq fr u : frustum_reset fr u = Some (Frustum fr u [(0, default_lps inv_tan)] [(0, ident)] [(0, - -1)] [(0, - -2)] true).
Proof.
  unfold frustum_reset, set_transforms. cbn [fm_default fm_frame fm_uniform fm_lps fm_cs fm_near fm_far].
  rewrite default_lps_eq, inverse_ident, default_near, default_far by apply inv_tan_pos. rewrite !mult_vec_ident. cbn [rz].
  reflexivity.
Qed.
