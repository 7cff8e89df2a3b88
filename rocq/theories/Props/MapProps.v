(** C30: transforms between voxel, local and world space.  C31: transformed bounds. *)
From Coq Require Import ZArith Reals List Bool Lra Lia.
From Verif Require Import Model.Base Model.RealM Proof.RealP Model.VecM Model.MatM Model.CurveM Model.CoordM Model.MapM Model.FieldM Model.InterpM
  Spec.CurveSpec Spec.MapSpec Proof.MatP Proof.PointP Proof.MapP Proof.FrustumP.
Import ListNotations.
Open Scope R_scope.

(** Local space is the unit cube over the voxels of the extents. *)
Theorem C30_local_voxel : forall e f, has_voxels e -> set_frame e = Ok f ->
  (forall p, voxel_to_local f (local_to_voxel f p) = p) /\
  (forall p, local_to_voxel f (voxel_to_local f p) = p) /\
  (forall p, inside (R3 0 0 0) (R3 1 1 1) p <->
     inside (R3 (IZR (vx (bmin e))) (IZR (vy (bmin e))) (IZR (vz (bmin e))))
            (R3 (IZR (vx (bmax e) + 1)) (IZR (vy (bmax e) + 1)) (IZR (vz (bmax e) + 1))) (local_to_voxel f p)).
Proof.
  intros e f (A & B & C) H. apply set_frame_ok in H.
  assert (F : full f) by (rewrite H; repeat split; cbn; apply not_0_IZR; lia).
  split; [intros; apply vl_inv; auto|]. split; [intros; apply lv_inv; auto|]. intros p. rewrite H. unfold inside, local_to_voxel. cbn [rx ry rz fr_origin fr_res].
  assert (G : forall a b x, (a <= b)%Z -> (0 <= x <= 1 <-> IZR a <= IZR a + x * IZR (b - a + 1) <= IZR (b + 1))).
  { intros a b x L. rewrite !plus_IZR, minus_IZR. apply IZR_le in L. split; intros; nra. }
  rewrite (G _ _ (rx p) A), (G _ _ (ry p) B), (G _ _ (rz p) C). tauto.
Qed.
Print Assumptions C30_local_voxel.

(** After any history of calls, the local-to-world transform at a time is the matrix
    interpolated between the samples of the history, and world-to-local its inverse. *)
Theorem C30_matrix_in_force : forall history s t m, mat_run mat_init history = Ok s -> interpolates history t m ->
  forall p, m_local_to_world s t p = mult_vec m p /\ m_world_to_local s t p = mult_vec (inverse m) p.
Proof.
  intros h s t m H I p. destruct (run_init h s H) as (G & _). rewrite ls_ws, ws_ls by auto.
  rewrite (interpolates_unique h t m (world_at s t) I (history_matrix h s t H)). auto.
Qed.
Print Assumptions C30_matrix_in_force.
Theorem C30_matrix_exists : forall history s t, mat_run mat_init history = Ok s -> exists m, interpolates history t m.
Proof. intros h s t H. exists (world_at s t). apply history_matrix; auto. Qed.
Print Assumptions C30_matrix_exists.

(** World and local space: each transform undoes the other, at every time. *)
Theorem C30_world_local : forall history s t m, mat_run mat_init history = Ok s -> interpolates history t m -> invertible m ->
  forall l w, m_local_to_world s t l = Some w <-> m_world_to_local s t w = Some l.
Proof.
  intros h s t m H I V l w. apply invertible_det in V.
  destruct (C30_matrix_in_force h s t m H I l) as (-> & _). destruct (C30_matrix_in_force h s t m H I w) as (_ & ->).
  split; [apply mult_vec_inverse|apply mult_vec_inverse']; auto.
Qed.
Print Assumptions C30_world_local.

(** World and voxel space: the same, and both go through local space. *)
Theorem C30_world_voxel : forall history s t m, mat_run mat_init history = Ok s -> interpolates history t m -> invertible m ->
  has_voxels (extents_of history) ->
  (forall v w, m_voxel_to_world s t v = Some w <-> m_world_to_voxel s t w = Some v) /\
  (forall v, m_voxel_to_world s t v = m_local_to_world s t (voxel_to_local (mm_frame s) v)) /\
  (forall w, m_world_to_voxel s t w = option_map (local_to_voxel (mm_frame s)) (m_world_to_local s t w)) /\
  set_frame (extents_of history) = Ok (mm_frame s).
Proof.
  intros h s t m H I V E. apply invertible_det in V. destruct (run_init h s H) as (G & _ & F).
  pose proof (full_extents h s H E) as FL. pose proof (full_det' _ FL) as D'.
  assert (D : det (mmul (vs_ls (mm_frame s)) (world_at s t)) <> 0).
  { rewrite det_mul. apply Rmult_integral_contrapositive_currified; auto.
    rewrite <- (interpolates_unique h t m (world_at s t) I (history_matrix h s t H)). auto. }
  assert (DW : det (world_at s t) <> 0) by (rewrite <- (interpolates_unique h t m (world_at s t) I (history_matrix h s t H)); auto).
  assert (T : forall v, m_voxel_to_world s t v = m_local_to_world s t (voxel_to_local (mm_frame s) v)).
  { intros v. rewrite vs_ws, ls_ws by auto. apply mult_vec_mul_none. apply vl_matrix; auto. }
  split; [|split; [|split]]; auto.
  - intros v w. rewrite vs_ws, ws_vs by auto. split; [apply mult_vec_inverse|apply mult_vec_inverse']; auto.
  - intros w. rewrite ws_vs, ws_ls by auto. rewrite inverse_mul by auto. unfold vs_ls. rewrite inverse_inverse by (apply full_det; auto).
    destruct (mult_vec (inverse (world_at s t)) w) as [l|] eqn:EL; cbn [option_map].
    + rewrite (mult_vec_mul_none _ _ _ _ EL). apply lv_matrix.
    + destruct (mult_vec (mmul (inverse (world_at s t)) (local_to_voxel_matrix (mm_frame s))) w) as [q|] eqn:EQ; auto. exfalso.
      assert (X : mult_vec (inverse (mmul (inverse (world_at s t)) (local_to_voxel_matrix (mm_frame s)))) q = Some w).
      { apply mult_vec_inverse; auto. rewrite det_mul. apply Rmult_integral_contrapositive_currified; [|apply full_det; auto].
        apply (det_ne _ _ (inverse_l _ DW)). }
      rewrite inverse_mul in X; [|apply (det_ne _ _ (inverse_l _ DW))|apply full_det; auto].
      rewrite inverse_inverse in X by auto. fold (vs_ls (mm_frame s)) in X.
      rewrite (mult_vec_mul_none _ _ _ _ (vl_matrix _ q FL)) in X.
      rewrite (mult_vec_inverse _ _ _ DW X) in EL. discriminate.
Qed.
Print Assumptions C30_world_voxel.

(** Without perspective every transform is defined everywhere. *)
Theorem C30_defined : forall history s t m p, mat_run mat_init history = Ok s -> interpolates history t m -> invertible m ->
  has_voxels (extents_of history) -> no_perspective m ->
  m_voxel_to_world s t p <> None /\ m_world_to_voxel s t p <> None /\ m_local_to_world s t p <> None /\ m_world_to_local s t p <> None.
Proof.
  intros h s t m p H I V E N. destruct (C30_world_voxel h s t m H I V E) as (_ & A & B & _). rewrite A, B.
  apply invertible_det in V.
  assert (X : forall p, m_local_to_world s t p <> None /\ m_world_to_local s t p <> None).
  { intros q. destruct (C30_matrix_in_force h s t m H I q) as (-> & ->). rewrite !affine_def by (auto using affine_inverse). split; congruence. }
  destruct (X p) as (X1 & X2). destruct (X (voxel_to_local (mm_frame s) p)) as (X3 & _).
  repeat split; auto. destruct (m_world_to_local s t p); cbn; congruence.
Qed.
Print Assumptions C30_defined.

(** The transforms without a time are those at time 0. *)
Theorem C30_time_zero : forall history s p, mat_run mat_init history = Ok s ->
  m_world_to_voxel0 s p = m_world_to_voxel s 0 p /\ m_voxel_to_world0 s p = m_voxel_to_world s 0 p /\
  m_world_to_local0 s p = m_world_to_local s 0 p /\ m_local_to_world0 s p = m_local_to_world s 0 p.
Proof. intros h s p H. apply at_zero. apply (run_init h s H). Qed.
Print Assumptions C30_time_zero.

(** Without perspective the voxel size is the distance between the positions of adjacent
    voxels, anywhere in the field. *)
Theorem C30_voxel_size : forall history s m, mat_run mat_init history = Ok s -> interpolates history 0 m -> no_perspective m ->
  has_voxels (extents_of history) -> forall p a b,
  m_voxel_to_world0 s p = Some a ->
  (m_voxel_to_world0 s (R3 (rx p + 1) (ry p) (rz p)) = Some b -> rx (mm_voxel s) = distance b a) /\
  (m_voxel_to_world0 s (R3 (rx p) (ry p + 1) (rz p)) = Some b -> ry (mm_voxel s) = distance b a) /\
  (m_voxel_to_world0 s (R3 (rx p) (ry p) (rz p + 1)) = Some b -> rz (mm_voxel s) = distance b a).
Proof.
  intros h s m H I N E p a b. destruct (run_init h s H) as (G & _). pose proof (full_extents h s H E) as FL.
  rewrite (interpolates_unique h 0 m (world_at s 0) I (history_matrix h s 0 H)) in N.
  assert (Q : no_perspective (mmul (vs_ls (mm_frame s)) (world_at s 0))) by (apply affine_mul; auto; apply vs_ls_affine; auto).
  assert (MV : mm_voxel s = R3 (step_length (mmul (vs_ls (mm_frame s)) (world_at s 0)) (R3 1 0 0))
     (step_length (mmul (vs_ls (mm_frame s)) (world_at s 0)) (R3 0 1 0)) (step_length (mmul (vs_ls (mm_frame s)) (world_at s 0)) (R3 0 0 1))).
  { rewrite (good_eq s G) at 1. reflexivity. }
  rewrite MV. clear MV. unfold step_length. set (k := mmul (vs_ls (mm_frame s)) (world_at s 0)) in *. cbn [rx ry rz].
  assert (VW : forall q, m_voxel_to_world0 s q = mult_vec k q).
  { intros q. destruct (at_zero s q G) as (_ & -> & _). apply vs_ws; auto. }
  rewrite !VW, !affine_def by auto. intros X. injection X as <-.
  repeat split; intros Y; injection Y as <-; unfold distance; cbn; f_equal; ring.
Qed.
Print Assumptions C30_voxel_size.
(** With perspective it is not: the size is that of the voxel at the origin. *)
Theorem C30_voxel_size_perspective_refuted : exists history s a b, mat_run mat_init history = Ok s /\
  m_voxel_to_world0 s (R3 1 0 0) = Some a /\ m_voxel_to_world0 s (R3 2 0 0) = Some b /\ rx (mm_voxel s) <> distance b a.
Proof.
  set (k := M44 (R4 1 0 0 1) (R4 0 1 0 0) (R4 0 0 1 0) (R4 0 0 0 1)).
  exists [MSet k], (update_transform frame_init [(0, k)]), (R3 (1 / 2) 0 0), (R3 (2 / 3) 0 0).
  split; [reflexivity|].
  assert (I : inverse (local_to_voxel_matrix frame_init) = ident).
  { apply inverse_unique. unfold local_to_voxel_matrix, frame_init, mmul, rowmul, scale, translate, ident. cbn. f_equal; f_equal; ring. }
  assert (VW : mm_vs_ws (update_transform frame_init [(0, k)]) = k).
  { cbn [mm_vs_ws update_transform]. rewrite I, mmul_ident_l. cbn. destruct (rltb 0 0); reflexivity. }
  assert (MVX : mult_vec k (R3 1 0 0) = Some (R3 (1 / 2) 0 0)).
  { apply mult_vec_iff. exists 2. split; [lra|]. unfold k, rowmul, hom, rscale. cbn. f_equal; field. }
  assert (MV0 : mult_vec k (R3 0 0 0) = Some (R3 0 0 0)).
  { apply mult_vec_iff. exists 1. split; [lra|]. unfold k, rowmul, hom, rscale. cbn. f_equal; field. }
  split; [|split].
  - unfold m_voxel_to_world0. rewrite VW. auto.
  - unfold m_voxel_to_world0. rewrite VW. apply mult_vec_iff. exists 3. split; [lra|]. unfold k, rowmul, hom, rscale. cbn. f_equal; field.
  - assert (SZ : rx (mm_voxel (update_transform frame_init [(0, k)])) = 1 / 2).
    { change (step_length (mm_vs_ws (update_transform frame_init [(0, k)])) (R3 1 0 0) = 1 / 2). rewrite VW.
      unfold step_length. rewrite MV0, MVX. unfold distance. cbn.
      replace ((1 / 2 - 0) * (1 / 2 - 0) + (0 - 0) * (0 - 0) + (0 - 0) * (0 - 0)) with (1 / 2 * (1 / 2)) by ring. apply sqrt_square. lra. }
    change (rx (mm_voxel (update_transform frame_init [(0, k)])) <> distance (R3 (2 / 3) 0 0) (R3 (1 / 2) 0 0)). rewrite SZ.
    unfold distance. cbn.
    replace ((2 / 3 - 1 / 2) * (2 / 3 - 1 / 2) + (0 - 0) * (0 - 0) + (0 - 0) * (0 - 0)) with (1 / 6 * (1 / 6)) by field.
    rewrite sqrt_square by lra. lra.
Qed.
Print Assumptions C30_voxel_size_perspective_refuted.

(** A point is in the field when its voxel position is above the lower and not above the
    upper corner of the extents. *)
Theorem C30_point_in_field : forall history s m w, mat_run mat_init history = Ok s -> interpolates history 0 m -> invertible m ->
  has_voxels (extents_of history) ->
  is_point_in_field s w = true <-> exists v, m_world_to_voxel0 s w = Some v /\
    let e := extents_of history in
    IZR (vx (bmin e)) < rx v <= IZR (vx (bmax e)) + 1 /\ IZR (vy (bmin e)) < ry v <= IZR (vy (bmax e)) + 1 /\
    IZR (vz (bmin e)) < rz v <= IZR (vz (bmax e)) + 1.
Proof.
  intros h s m w H I V E. destruct (C30_world_voxel h s 0 m H I V E) as (_ & _ & B & F).
  destruct (C30_time_zero h s w H) as (-> & _ & Z & _). rewrite B. unfold is_point_in_field. rewrite Z.
  destruct (m_world_to_local s 0 w) as [l|]; cbn [option_map].
  2:{ split; [discriminate|]. intros (v & X & _). discriminate. }
  apply set_frame_ok in F. destruct E as (E1 & E2 & E3).
  assert (G : forall a b x, (a <= b)%Z -> ((0 < x <-> IZR a < IZR a + x * IZR (b - a + 1)) /\ (x <= 1 <-> IZR a + x * IZR (b - a + 1) <= IZR b + 1))).
  { intros a b x L. rewrite plus_IZR, minus_IZR. apply IZR_le in L. split; split; intros; nra. }
  destruct (G _ _ (rx l) E1) as (X1 & X2), (G _ _ (ry l) E2) as (Y1 & Y2), (G _ _ (rz l) E3) as (Z1 & Z2).
  rewrite !andb_true_iff. split.
  - intros K. exists (local_to_voxel (mm_frame s) l). split; auto. rewrite F. unfold local_to_voxel. cbn.
    rewrite <- X1, <- X2, <- Y1, <- Y2, <- Z1, <- Z2.
    repeat match type of K with context [rltb ?a ?b] => destruct (rltb_spec a b) | context [rleb ?a ?b] => destruct (rleb_spec a b) end;
      try (exfalso; intuition discriminate). auto.
  - intros (v & Y & K). injection Y as <-. rewrite F in K. unfold local_to_voxel in K. cbn in K.
    rewrite <- X1, <- X2, <- Y1, <- Y2, <- Z1, <- Z2 in K.
    repeat match goal with |- context [rltb ?a ?b] => destruct (rltb_spec a b) | |- context [rleb ?a ?b] => destruct (rleb_spec a b) end;
      try (exfalso; lra). auto 10.
Qed.
Print Assumptions C30_point_in_field.

(** A moving, scaled and shifted field over extents that do not start at the origin: its
    matrix half way is invertible and without perspective. *)
Example C30_example :
  let e := Box (V3 (-2) 3 5) (V3 7 3 9) in
  let m z := M44 (R4 2 0 0 0) (R4 0 3 0 0) (R4 0 0 4 0) (R4 1 z (-1) 1) in
  exists s, mat_run mat_init [MSet (m 9); MExtents e; MIdentity; MSetAt 1 (m 10); MSetAt 0 (m 0)] = Ok s /\
    has_voxels (extents_of [MSet (m 9); MExtents e; MIdentity; MSetAt 1 (m 10); MSetAt 0 (m 0)]) /\
    interpolates [MSet (m 9); MExtents e; MIdentity; MSetAt 1 (m 10); MSetAt 0 (m 0)] (1 / 2) (m 5) /\
    invertible (m 5) /\ no_perspective (m 5).
Proof.
  intros e m. eexists. split; [reflexivity|]. split; [unfold has_voxels; cbn; lia|]. split; [|split].
  - intros i j I J. cbn [samples_of fold_left map app fst snd].
    replace (curve_run rltb reqb [(1, entry i j (m 10)); (0, entry i j (m 0))]) with [(0, entry i j (m 0)); (1, entry i j (m 10))].
    2:{ unfold curve_run. cbn. unfold add_sample. cbn. destruct (reqb_spec 1 0); [lra|]. cbn. destruct (rltb_spec 0 1); [reflexivity|lra]. }
    cbn. destruct (rltb_spec (1 / 2) 0); [lra|]. destruct (rltb_spec (1 / 2) 1); [|lra].
    unfold mix, lerp. cbn [fst snd]. rewrite lerpfactor_ne by lra.
    do 4 (destruct i; [do 4 (destruct j; [cbn; field|]); lia|]); lia.
  - apply invertible_det. unfold det, sub2, m. cbn. lra.
  - repeat split.
Qed.

(** The null mapping: world space is local space. *)
Theorem C30_null : forall e f, has_voxels e -> set_frame e = Ok f -> forall p,
  n_voxel_to_world f (n_world_to_voxel f p) = p /\ n_world_to_voxel f (n_voxel_to_world f p) = p /\
  n_local_to_world (n_world_to_local p) = p /\
  rx (n_voxel_size f) = distance (n_voxel_to_world f (R3 (rx p + 1) (ry p) (rz p))) (n_voxel_to_world f p) /\
  ry (n_voxel_size f) = distance (n_voxel_to_world f (R3 (rx p) (ry p + 1) (rz p))) (n_voxel_to_world f p) /\
  rz (n_voxel_size f) = distance (n_voxel_to_world f (R3 (rx p) (ry p) (rz p + 1))) (n_voxel_to_world f p).
Proof.
  intros e f V H p. destruct (C30_local_voxel e f V H) as (A & B & _).
  split; [apply A|]. split; [apply B|]. split; [reflexivity|].
  apply set_frame_ok in H. destruct V as (V1 & V2 & V3). unfold n_voxel_to_world, voxel_to_local, n_voxel_size, distance. rewrite H. cbn [rx ry rz fr_origin fr_res].
  assert (L : forall a b, (a <= b)%Z -> 0 < IZR (b - a + 1)) by (intros; apply IZR_lt; lia).
  apply L in V1, V2, V3. rewrite !lerpfactor_res by lra.
  assert (G : forall x o r, 0 < r -> (x + 1 - o) / r - (x - o) / r = 1 / r) by (intros; field; lra).
  assert (S1 : forall r, 0 < r -> sqrt (1 / r * (1 / r)) = 1 / r).
  { intros r R0. apply sqrt_square. unfold Rdiv. rewrite Rmult_1_l. apply Rlt_le, Rinv_0_lt_compat, R0. }
  rewrite !G, !Rminus_diag_eq by auto. rewrite !Rmult_0_l, !Rplus_0_l, !Rplus_0_r. rewrite !S1 by auto. auto.
Qed.
Print Assumptions C30_null.

(** The position a procedural lookup hands on is the local position only in windows that
    start at the origin. *)
Theorem C30_procedural_partial : forall dw f p q, set_frame dw = Ok f -> procedural_position dw p = Ok q -> bmin dw = V3 0 0 0 ->
  q = voxel_to_local f p.
Proof.
  intros dw f p q F H Z. apply set_frame_ok in F. unfold procedural_position, data_resolution in H. rewrite F. unfold voxel_to_local.
  destruct dw as [lo hi]. cbn [bmin bmax] in *. subst lo. cbn [vx vy vz] in *. cbn [fr_origin fr_res rx ry rz vx vy vz] in *.
  destruct hi as [x y z]. cbn in H. rewrite !Z.sub_0_r in *.
  repeat match type of H with context [(?a =? ?b)%Z] => destruct (Z.eqb_spec a b); cbn [orb] in H; try discriminate end.
  injection H as <-. rewrite !lerpfactor_res by (apply not_0_IZR; cbn; lia). assert (G : forall u r, r <> 0 -> u * (1 / r) = (u - 0) / r) by (intros; field; auto).
  f_equal; apply G; apply not_0_IZR; auto.
Qed.
Print Assumptions C30_procedural_partial.
Theorem C30_procedural_refuted : exists dw f p q, set_frame dw = Ok f /\ procedural_position dw p = Ok q /\ q <> voxel_to_local f p.
Proof.
  exists (Box (V3 1 0 0) (V3 1 0 0)). eexists. exists (R3 1 0 0). eexists. split; [reflexivity|]. split; [reflexivity|].
  intros H. apply (f_equal rx) in H. unfold voxel_to_local in H. cbn in H. rewrite lerpfactor_res in H; lra.
Qed.
Print Assumptions C30_procedural_refuted.

(** ** Frustums *)

(** Slices distributed by perspective: local and world space are inverse to each other at
    every time the matrix can be inverted, and so are voxel and world space. *)
Theorem C30_frustum_perspective : forall s t, fm_uniform s = false -> invertible (mlinear (fm_lps s) t) ->
  (forall l w, f_local_to_world s t l = Some w <-> f_world_to_local s t w = Some l) /\
  (forall e v w, has_voxels e -> set_frame e = Ok (fm_frame s) -> (f_voxel_to_world s t v = Some w <-> f_world_to_voxel s t w = Some v)).
Proof.
  intros s t U V. apply invertible_det in V. pose proof (fun l w => f_round s t l w V U) as R. split; [auto|].
  intros e v w E F. destruct (C30_local_voxel e _ E F) as (A & B & _). unfold f_voxel_to_world, f_world_to_voxel. rewrite R.
  destruct (f_world_to_local s t w) as [l|]; split; intros H; try discriminate.
  - injection H as ->. now rewrite B.
  - injection H as <-. now rewrite A.
Qed.
Print Assumptions C30_frustum_perspective.

(** Uniformly distributed slices: going there and back gives the starting point, in both
    directions, and the camera depth of a local position is interpolated linearly
    between the near and far planes. *)
Theorem C30_frustum_uniform : forall s t, fm_uniform s = true ->
  invertible (mlinear (fm_lps s) t) -> invertible (mlinear (fm_cs s) t) ->
  depth_in_step (mlinear (fm_lps s) t) (mlinear (fm_cs s) t) ->
  rlinear (fm_near s) t <> rlinear (fm_far s) t ->
  (forall l w l', f_local_to_world s t l = Some w -> f_world_to_local s t w = Some l' -> l' = l) /\
  (forall w l w', f_world_to_local s t w = Some l -> f_local_to_world s t l = Some w' -> w' = w) /\
  (forall l w c, f_local_to_world s t l = Some w -> mult_vec (inverse (mlinear (fm_cs s) t)) w = Some c ->
     - rz c = rlinear (fm_near s) t + (rlinear (fm_far s) t - rlinear (fm_near s) t) * rz l).
Proof.
  intros s t U VP VC ST NF. apply invertible_det in VP, VC. split; [|split].
  - intros l w l' H G. apply (u_round s t U VP VC NF ST l w l' H G).
  - intros w l w' H G. apply (u_round' s t U VP VC NF ST w l w' H G).
  - intros l w c H G. rewrite (u_depth s t U VP VC ST l w H c G). unfold lerp. ring.
Qed.
Print Assumptions C30_frustum_uniform.

(** The condition holds for every camera that is a projection seen from a camera matrix:
    a screen-to-world matrix that is the inverse of a projection, times camera to world,
    where the projection's depth does not depend on the position across the screen. *)
Theorem C30_depth_in_step : forall projection camera, invertible projection -> invertible camera ->
  e2 (row0 projection) = 0 -> e2 (row1 projection) = 0 -> e3 (row0 projection) = 0 -> e3 (row1 projection) = 0 ->
  depth_in_step (mmul ls_to_ss (mmul (inverse projection) camera)) camera.
Proof.
  intros k c VK VC A B C D. apply invertible_det in VK, VC.
  assert (DL : det ls_to_ss <> 0) by (unfold det, sub2, ls_to_ss, mmul, rowmul, scale, translate; cbn; lra).
  apply block_in_step; auto.
  - rewrite !det_mul. repeat apply Rmult_integral_contrapositive_currified; auto. apply (det_ne _ _ (inverse_l _ VK)).
  - rewrite !mmul_assoc, inverse_r, mmul_ident_r by auto.
    assert (X : depth_block (inverse k)).
    { unfold inverse, reqb. destruct (Req_EM_T (det k) 0); [easy|].
      destruct k as [[a0 a1 a2 a3] [b0 b1 b2 b3] [c0 c1 c2 c3] [d0 d1 d2 d3]]. cbn in A, B, C, D. subst.
      unfold depth_block, row_div, adjugate, sub2. cbn. repeat split; apply Rmult_eq_0_compat_r; ring. }
    destruct X as (X1 & X2 & X3 & X4). unfold depth_block, ls_to_ss, mmul, rowmul, scale, translate. cbn. rewrite X1, X2, X3, X4. repeat split; ring.
Qed.
Print Assumptions C30_depth_in_step.

(** The default frustum: near plane 1, far plane 2, and it meets all the conditions, so
    both distributions round trip. *)
Theorem C30_frustum_default : forall fr uniform t, exists s, frustum_reset fr uniform = Some s /\
  rlinear (fm_near s) t = 1 /\ rlinear (fm_far s) t = 2 /\
  invertible (mlinear (fm_lps s) t) /\ invertible (mlinear (fm_cs s) t) /\ depth_in_step (mlinear (fm_lps s) t) (mlinear (fm_cs s) t).
Proof.
  intros fr u t. rewrite reset_eq. eexists. split; [reflexivity|]. cbn [fm_near fm_far fm_lps fm_cs].
  assert (L : forall m, mlinear [(0, m)] t = m) by (intros; cbn; destruct (rltb t 0); auto).
  assert (LR : forall r, rlinear [(0, r)] t = r) by (intros; cbn; destruct (rltb t 0); auto).
  rewrite !L, !LR. split; [lra|]. split; [lra|].
  assert (I : invertible ident) by (apply invertible_det; rewrite det_ident; lra).
  split; [apply invertible_det, default_det, inv_tan_pos|]. split; [auto|].
  rewrite <- default_lps_eq by apply inv_tan_pos. apply C30_depth_in_step; auto.
  - apply invertible_det. unfold default_cs_ss. rewrite !det_mul.
    repeat apply Rmult_integral_contrapositive_currified; unfold det, sub2, scale; cbn; try lra.
    pose proof inv_tan_pos as K. replace (inv_tan / 1) with inv_tan by field. intros Z.
    assert (inv_tan * inv_tan <> 0) by (apply Rmult_integral_contrapositive_currified; auto). lra.
  - unfold default_cs_ss, mmul, rowmul, scale. cbn. ring.
  - unfold default_cs_ss, mmul, rowmul, scale. cbn. ring.
  - unfold default_cs_ss, mmul, rowmul, scale. cbn. ring.
  - unfold default_cs_ss, mmul, rowmul, scale. cbn. ring.
Qed.
Print Assumptions C30_frustum_default.
(** In the default frustum the centre half way between the planes, with uniform slices. *)
Example C30_frustum_example : forall fr, exists s, frustum_reset fr true = Some s /\
  f_local_to_world s 0 (R3 (1 / 2) (1 / 2) (1 / 2)) = Some (R3 0 0 (- (3 / 2))).
Proof.
  intros fr. rewrite reset_eq. eexists. split; [reflexivity|]. pose proof inv_tan_pos as K.
  unfold f_local_to_world. cbn [fm_uniform fm_near fm_far fm_lps fm_cs].
  assert (L : forall m, mlinear [(0, m)] 0 = m) by (intros; cbn; destruct (rltb 0 0); auto).
  assert (LR : forall r, rlinear [(0, r)] 0 = r) by (intros; cbn; destruct (rltb 0 0); auto).
  rewrite !L, !LR, mult_vec_ident. cbn [rz].
  assert (X : mult_vec (default_lps inv_tan) (R3 (1 / 2) (1 / 2) (2 / 3)) = Some (R3 0 0 (- lerp (- -1) (- -2) (1 / 2)))).
  { apply mult_vec_iff. exists (2 / 3). split; [lra|]. unfold default_lps, rowmul, hom, rscale, lerp. cbn. f_equal; field; auto. }
  rewrite (mult_vec_inverse _ _ _ (default_det _ K) X). cbn [rx ry rz]. rewrite X. do 2 f_equal. unfold lerp. field.
Qed.

(** The stored voxel sizes of a frustum with at least two slices: those of the centre
    column of each slice, the last slice having the size of the one before it. *)
Theorem C30_frustum_voxel_size : forall e s old sizes, set_frame e = Ok (fm_frame s) -> (vz (bmin e) < vz (bmax e))%Z ->
  compute_voxel_size s old = Some sizes ->
  let i := rtrunc (IZR (vx (bmin e)) + IZR (vx (bmax e) - vx (bmin e) + 1) / 2) in
  let j := rtrunc (IZR (vy (bmin e)) + IZR (vy (bmax e) - vy (bmin e) + 1) / 2) in
  (forall k, (vz (bmin e) <= k < vz (bmax e))%Z -> exists p px py pz,
     f_voxel_to_world s 0 (R3 (IZR i + 1 / 2) (IZR j + 1 / 2) (IZR k + 1 / 2)) = Some p /\
     f_voxel_to_world s 0 (R3 (IZR (i + 1) + 1 / 2) (IZR j + 1 / 2) (IZR k + 1 / 2)) = Some px /\
     f_voxel_to_world s 0 (R3 (IZR i + 1 / 2) (IZR (j + 1) + 1 / 2) (IZR k + 1 / 2)) = Some py /\
     f_voxel_to_world s 0 (R3 (IZR i + 1 / 2) (IZR j + 1 / 2) (IZR (k + 1) + 1 / 2)) = Some pz /\
     f_voxel_size s sizes k = Ok (R3 (distance px p) (distance py p) (distance pz p))) /\
  (forall k, (vz (bmax e) <= k)%Z -> f_voxel_size s sizes k = f_voxel_size s sizes (vz (bmax e) - 1)) /\
  (forall k, (k < vz (bmin e))%Z -> f_voxel_size s sizes k = f_voxel_size s sizes (vz (bmin e))).
Proof.
  intros e s old sizes F Z H i j. destruct (sizes_spec e s old sizes F Z H) as (A & B). fold i j in A. split; [|exact B].
  intros k K. destruct (A k K) as (v & E & ->). unfold slice_size in E. clear A B.
  change (disc_to_cont3 (V3 i j k)) with (R3 (IZR i + 1 / 2) (IZR j + 1 / 2) (IZR k + 1 / 2)) in E.
  change (disc_to_cont3 (V3 (i + 1) j k)) with (R3 (IZR (i + 1) + 1 / 2) (IZR j + 1 / 2) (IZR k + 1 / 2)) in E.
  change (disc_to_cont3 (V3 i (j + 1) k)) with (R3 (IZR i + 1 / 2) (IZR (j + 1) + 1 / 2) (IZR k + 1 / 2)) in E.
  change (disc_to_cont3 (V3 i j (k + 1))) with (R3 (IZR i + 1 / 2) (IZR j + 1 / 2) (IZR (k + 1) + 1 / 2)) in E.
  repeat match type of E with context [f_voxel_to_world s 0 ?p] => destruct (f_voxel_to_world s 0 p); [|discriminate] end.
  injection E as <-. eauto 10.
Qed.
Print Assumptions C30_frustum_voxel_size.
(** With a single slice the size is never computed: a new frustum reports zero, and with
    no slice at all asking for it reads outside the vector. *)
Theorem C30_frustum_single_slice_refuted : exists s sizes, frustum_reset frame_init false = Some s /\
  compute_voxel_size s [] = Some sizes /\ f_voxel_size s sizes 0 = Ok (R3 0 0 0) /\
  exists a b, f_voxel_to_world s 0 (R3 0 (1 / 2) 0) = Some a /\ f_voxel_to_world s 0 (R3 1 (1 / 2) 0) = Some b /\ a <> b.
Proof.
  rewrite reset_eq. eexists. exists [R3 0 0 0]. split; [reflexivity|].
  assert (T0 : rtrunc 0 = 0%Z) by apply rtrunc_IZR. assert (T1 : rtrunc 1 = 1%Z) by apply rtrunc_IZR.
  assert (T2 : rtrunc (0 + 1 - 1) = 0%Z) by (replace (0 + 1 - 1) with 0 by ring; auto).
  split; [|split].
  - unfold compute_voxel_size. cbn [fm_frame frame_init fr_origin fr_res rx ry rz]. rewrite T0, T1, T2. cbn.
    destruct (rleb_spec 2 1); [lra|]. reflexivity.
  - unfold f_voxel_size. cbn [fm_frame frame_init fr_origin fr_res rx ry rz]. rewrite T0, T2. reflexivity.
  - pose proof inv_tan_pos as K. exists (R3 (- / inv_tan) 0 (-1)), (R3 (/ inv_tan) 0 (-1)).
    unfold f_voxel_to_world, f_local_to_world, voxel_to_local. cbn [fm_uniform fm_frame fm_lps frame_init fr_origin fr_res rx ry rz].
    rewrite !lerpfactor_res by lra.
    assert (L : forall m, mlinear [(0, m)] 0 = m) by (intros; cbn; destruct (rltb 0 0); auto). rewrite !L.
    split; [|split].
    + apply mult_vec_iff. exists 1. split; [lra|]. unfold default_lps, rowmul, hom, rscale. cbn. f_equal; field; auto.
    + apply mult_vec_iff. exists 1. split; [lra|]. unfold default_lps, rowmul, hom, rscale. cbn. f_equal; field; auto.
    + intros E. injection E as E. assert (X : / inv_tan = 0) by lra. apply (Rinv_neq_0_compat _ K). auto.
Qed.
Print Assumptions C30_frustum_single_slice_refuted.

(** ** C31 *)

(** A box and a matrix that gives every corner a positive weight (any matrix without
    perspective, and any camera the whole box is in front of): the transformed bounds
    contain the image of every point of the box, and every box that does contains them. *)
Theorem C31_contains : forall m b, (forall v, In v (vertices b) -> 0 < weight m v) ->
  exists c, transform_bounds m b = Some (Some c) /\
  (forall p q, inside (rmin b) (rmax b) p -> mult_vec m p = Some q -> inside (rmin c) (rmax c) q) /\
  (forall d, rx (rmin b) <= rx (rmax b) -> ry (rmin b) <= ry (rmax b) -> rz (rmin b) <= rz (rmax b) ->
     (forall p q, inside (rmin b) (rmax b) p -> mult_vec m p = Some q -> inside (rmin d) (rmax d) q) ->
     inside (rmin d) (rmax d) (rmin c) /\ inside (rmin d) (rmax d) (rmax c)).
Proof.
  intros m [lo hi] W. destruct (extend_all_spec (mult_vec m) (vertices (RBox lo hi)) None) as (c & E & A & _ & M).
  { left. discriminate. }
  { intros v V. rewrite mult_vec_weight by auto. discriminate. }
  exists c. split; [exact E|]. split.
  - intros p q I H. apply (image_inside m lo hi p q c I W); auto.
  - cbn [rmin rmax]. intros d X Y Z H. apply M; [discriminate|]. intros v q V Q. apply (H v q); auto.
    destruct lo as [x0 y0 z0], hi as [x1 y1 z1]. cbn in X, Y, Z, V. unfold inside. cbn.
    repeat (destruct V as [<-|V]; [cbn; lra|]). destruct V.
Qed.
Print Assumptions C31_contains.
Theorem C31_affine : forall m b, no_perspective m ->
  exists c, transform_bounds m b = Some (Some c) /\
  (forall p, inside (rmin b) (rmax b) p -> exists q, mult_vec m p = Some q /\ inside (rmin c) (rmax c) q) /\
  (forall d, rx (rmin b) <= rx (rmax b) -> ry (rmin b) <= ry (rmax b) -> rz (rmin b) <= rz (rmax b) ->
     (forall p q, inside (rmin b) (rmax b) p -> mult_vec m p = Some q -> inside (rmin d) (rmax d) q) ->
     inside (rmin d) (rmax d) (rmin c) /\ inside (rmin d) (rmax d) (rmax c)).
Proof.
  intros m b (A & B & C & D). destruct (C31_contains m b) as (c & E & F & G).
  { intros v _. unfold weight. rewrite A, B, C, D. lra. }
  exists c. split; [auto|]. split; [|auto]. intros p I. rewrite (affine_def m p) by (repeat split; auto).
  eexists. split; [reflexivity|]. apply (F p); auto. apply affine_def. repeat split; auto.
Qed.
Print Assumptions C31_affine.

(** The same for [worldToVoxel] of a box, through a matrix mapping without perspective. *)
Theorem C31_world_to_voxel : forall history s m b, mat_run mat_init history = Ok s -> interpolates history 0 m ->
  invertible m -> has_voxels (extents_of history) -> no_perspective m ->
  exists c, world_to_voxel_bounds s b = Some (Some c) /\
  (forall p, inside (rmin b) (rmax b) p -> exists q, m_world_to_voxel0 s p = Some q /\ inside (rmin c) (rmax c) q) /\
  (forall d, rx (rmin b) <= rx (rmax b) -> ry (rmin b) <= ry (rmax b) -> rz (rmin b) <= rz (rmax b) ->
     (forall p q, inside (rmin b) (rmax b) p -> m_world_to_voxel0 s p = Some q -> inside (rmin d) (rmax d) q) ->
     inside (rmin d) (rmax d) (rmin c) /\ inside (rmin d) (rmax d) (rmax c)).
Proof.
  intros h s m b H I V E N. destruct (run_init h s H) as (G & _). pose proof (full_extents h s H E) as FL.
  apply invertible_det in V. rewrite (interpolates_unique h 0 m (world_at s 0) I (history_matrix h s 0 H)) in N, V.
  unfold world_to_voxel_bounds, m_world_to_voxel0. apply C31_affine.
  assert (X : mm_ws_vs s = inverse (mmul (vs_ls (mm_frame s)) (world_at s 0))) by (rewrite (good_eq s G) at 1; reflexivity).
  rewrite X. apply affine_inverse.
  - rewrite det_mul. apply Rmult_integral_contrapositive_currified; auto. apply full_det'; auto.
  - apply affine_mul; auto. apply vs_ls_affine; auto.
Qed.
Print Assumptions C31_world_to_voxel.

(** A rotation by a quarter turn with a scale and a shift. *)
Example C31_example :
  transform_bounds (M44 (R4 0 2 0 0) (R4 (-1) 0 0 0) (R4 0 0 1 0) (R4 5 0 0 1)) (RBox (R3 0 0 0) (R3 1 2 3)) =
  Some (Some (RBox (R3 3 0 0) (R3 5 2 3))).
Proof.
  unfold transform_bounds, map_bounds. cbn [vertices rmin rmax rx ry rz extend_all].
  assert (V : forall x y z a b c, a = 5 - y -> b = 2 * x -> c = z ->
    mult_vec (M44 (R4 0 2 0 0) (R4 (-1) 0 0 0) (R4 0 0 1 0) (R4 5 0 0 1)) (R3 x y z) = Some (R3 a b c)).
  { intros x y z a b c -> -> ->. rewrite affine_def by (repeat split). cbn. do 2 f_equal; ring. }
  rewrite (V 0 0 0 5 0 0), (V 1 0 0 5 2 0), (V 0 2 0 3 0 0), (V 1 2 0 3 2 0), (V 0 0 3 5 0 3), (V 1 0 3 5 2 3), (V 0 2 3 3 0 3), (V 1 2 3 3 2 3) by lra.
  assert (L : forall a b : Z, rltb (IZR a) (IZR b) = (a <? b)%Z).
  { intros a b. destruct (rltb_spec (IZR a) (IZR b)) as [H|H], (Z.ltb_spec a b); auto; exfalso.
    - apply lt_IZR in H. lia.
    - apply H, IZR_lt. auto. }
  repeat (cbn [extend_by rmin rmax rx ry rz Z.ltb Z.compare Pos.compare Pos.compare_cont]; rewrite ?L). reflexivity.
Qed.

(** With perspective, a box that reaches behind the camera is not contained. *)
Theorem C31_projective_refuted : exists m b c p q, invertible m /\ transform_bounds m b = Some (Some c) /\
  inside (rmin b) (rmax b) p /\ mult_vec m p = Some q /\ ~ inside (rmin c) (rmax c) q.
Proof.
  exists (M44 (R4 1 0 0 1) (R4 0 1 0 0) (R4 0 0 1 0) (R4 0 0 0 1)), (RBox (R3 (-2) 0 0) (R3 1 0 0)).
  set (m := M44 (R4 1 0 0 1) (R4 0 1 0 0) (R4 0 0 1 0) (R4 0 0 0 1)).
  exists (RBox (R3 (1 / 2) 0 0) (R3 2 0 0)), (R3 0 0 0), (R3 0 0 0).
  assert (A : mult_vec m (R3 (-2) 0 0) = Some (R3 2 0 0)).
  { apply mult_vec_iff. exists (-1). split; [lra|]. unfold m, rowmul, hom, rscale. cbn. f_equal; ring. }
  assert (B : mult_vec m (R3 1 0 0) = Some (R3 (1 / 2) 0 0)).
  { apply mult_vec_iff. exists 2. split; [lra|]. unfold m, rowmul, hom, rscale. cbn. f_equal; field. }
  assert (C : mult_vec m (R3 0 0 0) = Some (R3 0 0 0)).
  { apply mult_vec_iff. exists 1. split; [lra|]. unfold m, rowmul, hom, rscale. cbn. f_equal; field. }
  split; [apply invertible_det; unfold det, sub2, m; cbn; lra|]. split.
  - unfold transform_bounds, map_bounds. cbn [vertices rmin rmax rx ry rz extend_all]. rewrite !A, !B.
    assert (L1 : rltb (1 / 2) 2 = true) by (destruct (rltb_spec (1 / 2) 2); [auto|lra]).
    assert (L2 : rltb 2 (1 / 2) = false) by (destruct (rltb_spec 2 (1 / 2)); [lra|auto]).
    assert (L3 : forall x, rltb x x = false) by (intros x; destruct (rltb_spec x x); [lra|auto]).
    repeat (cbn [extend_by rmin rmax rx ry rz]; rewrite ?L1, ?L2, ?L3). reflexivity.
  - unfold inside. cbn. split; [lra|]. split; [exact C|lra].
Qed.
Print Assumptions C31_projective_refuted.
