(** C84: positions through the matrices of a mapping in floating point. *)
From Coq Require Import ZArith Reals List Bool Lia Lra.
From Flocq Require Import Core BinarySingleNaN.
From Verif Require Import Model.Base Model.RealM Model.VecM Model.MatM Model.FloatM Model.FloatRayM Model.FloatMatM Spec.FloatMatSpec Proof.FloatP Proof.FloatRayP Proof.FloatMatP.
Local Open Scope R_scope.

(** [r] is the image of [p] by [m], but for the error of each coordinate. *)
Definition near_image (m : fmat) (p r : f3) : Prop :=
  finite_point r /\ exists q, mult_vec (matrix_of m) (point_of p) = Some q /\
    Rabs (B2R (f3x r) - rx q) <= error p (colx m) /\ Rabs (B2R (f3y r) - ry q) <= error p (coly m) /\ Rabs (B2R (f3z r) - rz q) <= error p (colz m).
(** For every position and every matrix without perspective. *)
Theorem C84_affine : forall m p, affine_matrix m -> fair_point p -> near_image m p (f_mult_vec m p).
Proof.
  intros m p A P. destruct (mult_ok p m P A) as (F & X & Y & Z). split; [exact F|]. eexists. split; [apply exact_image; exact A|]. cbn [rx ry rz]. rewrite X, Y, Z.
  destruct A as (CX & CY & CZ & _). repeat split; apply dot_error; auto.
Qed.
Print Assumptions C84_affine.
Definition affine_mapping (m : fmapping) : Prop := affine_matrix (f_ls_ws m) /\ affine_matrix (f_ws_ls m) /\ affine_matrix (f_vs_ws m) /\ affine_matrix (f_ws_vs m).
(** Each of the four conversions goes through its own matrix. *)
Theorem C84_conversions : forall m p, affine_mapping m -> fair_point p ->
  near_image (f_ws_vs m) p (f_world_to_voxel m p) /\ near_image (f_vs_ws m) p (f_voxel_to_world m p) /\
  near_image (f_ws_ls m) p (f_world_to_local m p) /\ near_image (f_ls_ws m) p (f_local_to_world m p).
Proof. intros m p (A & B & C & D) P. repeat split; try apply C84_affine; auto. Qed.
Print Assumptions C84_conversions.

Lemma dot_move q c x y z ex ey ez : Rabs (B2R (f3x q) - x) <= ex -> Rabs (B2R (f3y q) - y) <= ey -> Rabs (B2R (f3z q) - z) <= ez ->
  Rabs (exact_dot q c - (x * B2R (c0 c) + y * B2R (c1 c) + z * B2R (c2 c) + B2R (c3 c))) <= ex * Rabs (B2R (c0 c)) + ey * Rabs (B2R (c1 c)) + ez * Rabs (B2R (c2 c)).
Proof.
  intros X Y Z. unfold exact_dot.
  replace (B2R (f3x q) * B2R (c0 c) + B2R (f3y q) * B2R (c1 c) + B2R (f3z q) * B2R (c2 c) + B2R (c3 c) - (x * B2R (c0 c) + y * B2R (c1 c) + z * B2R (c2 c) + B2R (c3 c)))
    with ((B2R (f3x q) - x) * B2R (c0 c) + (B2R (f3y q) - y) * B2R (c1 c) + (B2R (f3z q) - z) * B2R (c2 c)) by ring.
  eapply Rle_trans; [apply Rabs_triang|]. apply Rplus_le_compat; [eapply Rle_trans; [apply Rabs_triang|]; apply Rplus_le_compat|]; rewrite Rabs_mult; apply Rmult_le_compat_r; auto; apply Rabs_pos.
Qed.
(** The error of going through [a] and then, from [q], through the column [c] of another matrix. *)
Definition carried (a : fmat) (p q : f3) (c : fcol) : R :=
  error p (colx a) * Rabs (B2R (c0 c)) + error p (coly a) * Rabs (B2R (c1 c)) + error p (colz a) * Rabs (B2R (c2 c)) + error q c.
(** From voxel to world and back.  The matrices stored need not be exact inverses: the result is compared with where
    they take the point in exact arithmetic, which is the point itself if they are. *)
Theorem C84_round_trip : forall m p, affine_mapping m -> fair_point p -> let q := f_voxel_to_world m p in fair_point q ->
  finite_point (f_world_to_voxel m q) /\
  exists w e, mult_vec (matrix_of (f_vs_ws m)) (point_of p) = Some w /\ mult_vec (matrix_of (f_ws_vs m)) w = Some e /\
    Rabs (B2R (f3x (f_world_to_voxel m q)) - rx e) <= carried (f_vs_ws m) p q (colx (f_ws_vs m)) /\
    Rabs (B2R (f3y (f_world_to_voxel m q)) - ry e) <= carried (f_vs_ws m) p q (coly (f_ws_vs m)) /\
    Rabs (B2R (f3z (f_world_to_voxel m q)) - rz e) <= carried (f_vs_ws m) p q (colz (f_ws_vs m)).
Proof.
  intros m p (_ & _ & A & B) P q Q. destruct (C84_affine _ _ A P) as (_ & w & EW & WX & WY & WZ). fold (f_voxel_to_world m p) in WX, WY, WZ. fold q in WX, WY, WZ.
  destruct (mult_ok q _ Q B) as (F & X & Y & Z). split; [exact F|]. exists w.
  set (e := fun c => rx w * B2R (c0 c) + ry w * B2R (c1 c) + rz w * B2R (c2 c) + B2R (c3 c)).
  exists (R3 (e (colx (f_ws_vs m))) (e (coly (f_ws_vs m))) (e (colz (f_ws_vs m)))). split; [exact EW|].
  assert (G : forall c, fair_col c -> Rabs (B2R (f_dot q c) - e c) <= carried (f_vs_ws m) p q c).
  { intros c C. pose proof (dot_error q c Q C) as D. pose proof (dot_move q c _ _ _ _ _ _ WX WY WZ) as M. fold (e c) in M. unfold carried.
    replace (B2R (f_dot q c) - e c) with ((exact_dot q c - e c) + (B2R (f_dot q c) - exact_dot q c)) by ring. eapply Rle_trans; [apply Rabs_triang|]. apply Rplus_le_compat; auto. }
  pose proof B as (CX & CY & CZ & _ & E0 & E1 & E2 & E3). split.
  - unfold mult_vec, matrix_of, rowmul, row_of. cbn [e0 e1 e2 e3 row0 row1 row2 row3]. rewrite E0, E1, E2, E3.
    assert (N : reqb (rx w * 0 + ry w * 0 + rz w * 0 + 1 * 1) 0 = false) by (unfold reqb; destruct (Req_EM_T _ _); auto; exfalso; lra).
    rewrite N. f_equal. unfold e. f_equal; field.
  - cbn [rx ry rz]. unfold f_world_to_voxel. rewrite X, Y, Z. auto.
Qed.
Print Assumptions C84_round_trip.

(** The identity is exact. *)
Theorem C84_identity : forall m p, affine_matrix m -> matrix_of m = ident -> fair_point p -> point_of (f_mult_vec m p) = point_of p.
Proof.
  intros m p A I P. destruct (mult_ok p m P A) as (_ & X & Y & Z). pose proof A as (CX & CY & CZ & _).
  destruct (dot_ok p _ P CX) as (_ & VX & _). destruct (dot_ok p _ P CY) as (_ & VY & _). destruct (dot_ok p _ P CZ) as (_ & VZ & _).
  unfold matrix_of, row_of, ident in I. injection I as I00 I01 I02 _ I10 I11 I12 _ I20 I21 I22 _ I30 I31 I32 _.
  assert (G : forall v : f64, rd (B2R v) = B2R v) by (intros v; apply round_generic; [typeclasses eauto|apply generic_format_B2R]).
  unfold point_of. rewrite X, Y, Z, VX, VY, VZ. unfold r_dot. rewrite I00, I01, I02, I10, I11, I12, I20, I21, I22, I30, I31, I32.
  rewrite !Rmult_0_r, !Rmult_1_r. repeat (first [rewrite rd_0|rewrite Rplus_0_r|rewrite Rplus_0_l|rewrite G]). reflexivity.
Qed.
Print Assumptions C84_identity.
(** If each coordinate of a position moves the way that, in exact arithmetic, a coordinate of the image does not fall,
    then it does not fall in floating point. *)
Definition uphill (p p' : f3) (c : fcol) : Prop :=
  0 <= (B2R (f3x p') - B2R (f3x p)) * B2R (c0 c) /\ 0 <= (B2R (f3y p') - B2R (f3y p)) * B2R (c1 c) /\ 0 <= (B2R (f3z p') - B2R (f3z p)) * B2R (c2 c).
Lemma dot_mono p p' c : fair_point p -> fair_point p' -> fair_col c -> uphill p p' c -> B2R (f_dot p c) <= B2R (f_dot p' c).
Proof.
  intros P P' C (X & Y & Z). destruct (dot_ok p c P C) as (_ & V & _). destruct (dot_ok p' c P' C) as (_ & V' & _). rewrite V, V'. unfold r_dot.
  apply rd_le. apply Rplus_le_compat_r. apply rd_le. apply Rplus_le_compat; [|apply rd_le; lra]. apply rd_le. apply Rplus_le_compat; apply rd_le; lra.
Qed.
Theorem C84_monotone : forall m p p', affine_matrix m -> fair_point p -> fair_point p' ->
  (uphill p p' (colx m) -> B2R (f3x (f_mult_vec m p)) <= B2R (f3x (f_mult_vec m p'))) /\
  (uphill p p' (coly m) -> B2R (f3y (f_mult_vec m p)) <= B2R (f3y (f_mult_vec m p'))) /\
  (uphill p p' (colz m) -> B2R (f3z (f_mult_vec m p)) <= B2R (f3z (f_mult_vec m p'))).
Proof.
  intros m p p' A P P'. destruct (mult_ok p m P A) as (_ & X & Y & Z). destruct (mult_ok p' m P' A) as (_ & X' & Y' & Z'). pose proof A as (CX & CY & CZ & _).
  rewrite X, X', Y, Y', Z, Z'. repeat split; apply dot_mono; auto.
Qed.
Print Assumptions C84_monotone.

(** A field of voxels of size two that starts at -3: its matrices, and a position. *)
Definition n (z : Z) : f64 := of_int z.
Lemma n_ok z : (Z.abs z <= 8)%Z -> fair (n z) /\ B2R (n z) = IZR z.
Proof.
  intros H. destruct (of_int_ok z) as (F & V); [lia|]. fold (n z) in F, V. split; [|exact V]. split; [exact F|]. rewrite V, <- abs_IZR.
  apply Rle_trans with (bpow radix2 3); [apply (IZR_le _ 8); lia|apply bpow_le; lia].
Qed.
Definition grid : fmat := FMat (FCol (n 2) (n 0) (n 0) (n (-3))) (FCol (n 0) (n 2) (n 0) (n (-3))) (FCol (n 0) (n 0) (n 2) (n (-3))) (FCol (n 0) (n 0) (n 0) (n 1)).
Definition same : fmat := FMat (FCol (n 1) (n 0) (n 0) (n 0)) (FCol (n 0) (n 1) (n 0) (n 0)) (FCol (n 0) (n 0) (n 1) (n 0)) (FCol (n 0) (n 0) (n 0) (n 1)).
Example C84_example : affine_matrix grid /\ affine_matrix same /\ matrix_of same = ident /\ fair_point (F3 (n 1) (n 5) (n 7)) /\
  mult_vec (matrix_of grid) (point_of (F3 (n 1) (n 5) (n 7))) = Some (R3 (-1) 7 11).
Proof.
  destruct (n_ok 0) as (F0 & V0); [lia|]. destruct (n_ok 1) as (F1 & V1); [lia|]. destruct (n_ok 2) as (F2 & V2); [lia|]. destruct (n_ok (-3)) as (F3' & V3); [lia|].
  destruct (n_ok 5) as (F5 & V5); [lia|]. destruct (n_ok 7) as (F7 & V7); [lia|].
  assert (G : affine_matrix grid) by (unfold affine_matrix, fair_col, grid; cbn [colx coly colz colw c0 c1 c2 c3]; auto 20).
  split; [exact G|]. split; [unfold affine_matrix, fair_col, same; cbn [colx coly colz colw c0 c1 c2 c3]; auto 20|].
  split; [unfold matrix_of, row_of, same, ident; cbn [colx coly colz colw c0 c1 c2 c3]; rewrite V0, V1; reflexivity|].
  split; [unfold fair_point; cbn [f3x f3y f3z]; auto|]. rewrite (exact_image _ _ G). unfold exact_dot, grid. cbn [colx coly colz colw c0 c1 c2 c3 f3x f3y f3z]. rewrite V0, V2, V3, V1, V5, V7.
  f_equal. f_equal; lra.
Qed.
(** Coordinates that are infinite are not kept apart: through the identity, one of them makes the others not a number. *)
Theorem C84_infinite_refuted : exists m p, affine_matrix m /\ matrix_of m = ident /\ is_finite (f3x p) = true /\ f3x (f_mult_vec m p) = B754_nan.
Proof.
  exists same, (F3 (n 1) (B754_infinity false) (n 1)). destruct C84_example as (_ & S & I & _). split; [exact S|]. split; [exact I|]. split; [reflexivity|].
  assert (E : is_nan (f3x (f_mult_vec same (F3 (n 1) (B754_infinity false) (n 1)))) = true) by (vm_compute; reflexivity).
  destruct (f3x (f_mult_vec same (F3 (n 1) (B754_infinity false) (n 1)))); try discriminate E. reflexivity.
Qed.
Print Assumptions C84_infinite_refuted.
