(** C40: the intervals along a ray. *)
From Coq Require Import ZArith Reals List Bool Lra Lia.
From Verif Require Import Model.Base Model.RealM Model.VecM Model.MatM Model.CurveM Model.CoordM Model.MapM Model.RayM
  Spec.CurveSpec Spec.MapSpec Spec.RaySpec Proof.MatP Proof.PointP Proof.MapP Proof.FrustumP Proof.RayP Proof.RayFrustumP Proof.RayUniformP.
Import ListNotations.
Open Scope R_scope.

(** A ray and a box. *)
Theorem C40_box : forall big eps r b, 0 < big -> 0 < eps ->
  rx (rmin b) <= rx (rmax b) -> ry (rmin b) <= ry (rmax b) -> rz (rmin b) <= rz (rmax b) -> regular eps r b ->
  right_answer big (intersect big eps r b) (fun t => inside (rmin b) (rmax b) (along (ray_pos r) (ray_dir r) t)).
Proof. exact intersect_right. Qed.
Print Assumptions C40_box.

(** A ray in the diagonal plane of the unit box, parallel to two faces. *)
Example C40_box_example : forall eps, 0 < eps <= 1 ->
  let r := Ray (R3 (-1) 0 (1 / 2)) (R3 1 0 (- (1 / 4))) false false false in
  regular eps r (RBox (R3 0 0 0) (R3 1 1 1)) /\
  inside (R3 0 0 0) (R3 1 1 1) (along (ray_pos r) (ray_dir r) 2) /\ ~ inside (R3 0 0 0) (R3 1 1 1) (along (ray_pos r) (ray_dir r) (9 / 4)).
Proof.
  intros eps E r. unfold r, regular, regular_axis, inside, along. cbn. split; [|lra].
  assert (Rabs 1 = 1) by (apply Rabs_right; lra). repeat split; [left; lra|right; right; auto|right; left; lra].
Qed.

(** A direction that is tiny but not zero: the box is missed when the ray starts outside
    its slab, however soon it enters. *)
Theorem C40_tiny_direction_refuted : forall big eps, 1 <= big -> 0 < eps -> exists r,
  inside (R3 0 0 0) (R3 1 1 1) (along (ray_pos r) (ray_dir r) 1) /\ intersect big eps r (RBox (R3 0 0 0) (R3 1 1 1)) = None.
Proof.
  intros big eps B E. exists (Ray (R3 (- (eps / 2)) (1 / 2) (1 / 2)) (R3 (eps / 2) 0 0) false false false). split.
  - unfold inside, along. cbn. lra.
  - unfold intersect, axes. cbn [slabs rmin rmax rx ry rz ray_pos ray_dir ax_dir ax_pos ax_min ax_max].
    assert (Rabs (eps / 2) = eps / 2) as -> by (apply Rabs_right; lra).
    assert (rltb (eps / 2) eps = true) as -> by (apply rltb_t; lra). assert (rltb (- (eps / 2)) 0 = true) as -> by (apply rltb_t; lra).
    reflexivity.
Qed.
Print Assumptions C40_tiny_direction_refuted.

(** A direction of negative zero: a ray that starts on the lower face of the box is said
    to miss it, and with positive zero it is not. *)
Theorem C40_negative_zero_refuted : forall big eps, 1 <= big -> 0 < eps ->
  let r neg := Ray (R3 0 (1 / 2) (1 / 2)) (R3 0 0 1) neg false false in let b := RBox (R3 0 0 0) (R3 1 1 1) in
  inside (R3 0 0 0) (R3 1 1 1) (R3 0 (1 / 2) (1 / 2)) /\ intersect big eps (r true) b = None /\ intersect big eps (r false) b <> None.
Proof.
  intros big eps B E r b. split; [unfold inside; cbn; lra|]. split.
  - unfold intersect, axes, r, b. cbn [slabs rmin rmax rx ry rz ray_pos ray_dir ax_dir ax_pos ax_min ax_max ax_neg neg_x].
    rewrite Rabs_R0. assert (rltb 0 eps = true) as -> by (apply rltb_t; lra). assert (rltb 0 0 = false) as -> by (apply rltb_f; lra).
    assert (rltb 1 0 = false) as -> by (apply rltb_f; lra). cbn [andb orb]. unfold fp_div.
    assert (reqb 0 0 = true) as -> by (apply reqb_t; auto). assert (reqb (0 - 0) 0 = true) as -> by (apply reqb_t; lra).
    assert (reqb (1 - 0) 0 = false) as -> by (unfold reqb; destruct (Req_EM_T (1 - 0) 0); auto; lra).
    assert (rltb (1 - 0) 0 = false) as -> by (apply rltb_f; lra). reflexivity.
  - intros H. pose proof (C40_box big eps (r false) b ltac:(lra) E ltac:(cbn; lra) ltac:(cbn; lra) ltac:(cbn; lra)) as R.
    rewrite H in R. apply (R ltac:(unfold regular, regular_axis, r, b; cbn; repeat split; [right; right; auto|right; right; auto|right; left; lra]) 0); [lra|].
    unfold inside, along, r, b. cbn. lra.
Qed.
Print Assumptions C40_negative_zero_refuted.

(** A field with a matrix mapping (with or without an object transform): the parameters
    at which the ray is at the position of a point of the field's unit cube. *)

Lemma along_affine m p d t q : no_perspective m -> mult_vec m p = Some q -> mult_vec m (along p d t) = Some (along q (mult_dir m d) t).
Proof. intros N. rewrite !affine_def by auto. intros H. injection H as <-. f_equal. unfold along, mult_dir. cbn. f_equal; ring. Qed.

Theorem C40_matrix : forall big eps sign history s m os pos dir, 0 < big -> 0 < eps ->
  mat_run mat_init history = Ok s -> interpolates history 0 m -> invertible m -> no_perspective m ->
  (forall o, os = Some o -> invertible o /\ no_perspective o) ->
  (forall l0 l1, at_local s os l0 pos -> at_local s os l1 (along pos dir 1) ->
     let '(nx, ny, nz) := sign (sub3 l1 l0) in regular eps (Ray l0 (sub3 l1 l0) nx ny nz) (RBox (R3 0 0 0) (R3 1 1 1))) ->
  right_answer big (field_interval big eps sign pos dir (Wrapper (AMatrix s) os))
    (fun t => exists l, unit_cube l /\ at_local s os l (along pos dir t)).
Proof.
  intros big eps sign h s m os pos dir B E H I V N OS RG.
  destruct (run_init h s H) as (G & _). pose proof (history_matrix h s 0 H) as I'. pose proof (interpolates_unique h 0 _ _ I I') as M.
  apply invertible_det in V.
  assert (LW : forall l, m_local_to_world s 0 l = mult_vec m l) by (intros; rewrite ls_ws, M by auto; reflexivity).
  assert (WL : forall l, m_world_to_local s 0 l = mult_vec (inverse m) l) by (intros; rewrite ws_ls, M by auto; reflexivity).
  assert (WS : mm_ws_ls s = inverse m) by (rewrite M, (good_eq s G); reflexivity).
  set (o := match os with Some o => o | None => ident end).
  assert (OD : det o <> 0 /\ no_perspective o).
  { unfold o. destruct os as [o'|]; [destruct (OS o' eq_refl) as (X & Y); split; auto; apply invertible_det; auto|].
    split; [rewrite det_ident; lra|]. repeat split. }
  destruct OD as (OD & ON).
  assert (OW : forall p, object_to_world os p = mult_vec o p) by (intros; unfold object_to_world, o; destruct os; auto; rewrite mult_vec_ident; auto).
  assert (TO : forall p, to_object (Wrapper (AMatrix s) os) p = mult_vec (inverse o) p).
  { intros. unfold to_object, o. cbn. destruct os; auto. rewrite (inverse_unique ident ident), mult_vec_ident by apply mmul_ident_l. auto. }
  assert (TD : forall d, to_object_dir (Wrapper (AMatrix s) os) d = mult_dir (inverse o) d).
  { intros. unfold to_object_dir, o. cbn. destruct os; auto. rewrite (inverse_unique ident ident) by apply mmul_ident_l.
    destruct d as [x y z]. unfold mult_dir. cbn. f_equal; ring. }
  pose proof (affine_inverse o OD ON) as OI. pose proof (affine_inverse m V N) as MI.
  unfold field_interval. rewrite TO, TD. cbn [w_map].
  destruct (mult_vec (inverse o) pos) as [p|] eqn:EP; [|rewrite affine_def in EP by auto; discriminate].
  set (d := mult_dir (inverse o) dir). rewrite WS. unfold intersect_matrix. rewrite WL, WS.
  destruct (mult_vec (inverse m) p) as [q|] eqn:EQ; [|rewrite affine_def in EQ by auto; discriminate].
  set (e := mult_dir (inverse m) d).
  assert (AL : forall l t, at_local s os l (along pos dir t) <-> l = along q e t).
  { intros l t. unfold at_local. split.
    - intros (x & X & Y). rewrite LW in X. rewrite OW in Y. apply mult_vec_inverse in X, Y; auto.
      pose proof (along_affine _ _ dir t _ OI EP) as Z. rewrite Y in Z. injection Z as ->.
      pose proof (along_affine _ _ d t _ MI EQ) as Z. fold d in X. rewrite X in Z. injection Z as ->. reflexivity.
    - intros ->. exists (along p d t). rewrite LW, OW. split.
      + apply mult_vec_inverse'; auto. apply along_affine; auto.
      + apply mult_vec_inverse'; auto. apply along_affine; auto. }
  assert (A0 : along pos dir 0 = pos) by (destruct pos; unfold along; cbn; f_equal; ring).
  assert (Q0 : along q e 0 = q) by (destruct q; unfold along; cbn; f_equal; ring).
  specialize (RG q (along q e 1)).
  assert (SE : sub3 (along q e 1) q = e) by (destruct q, e; unfold sub3, along; cbn; f_equal; ring).
  rewrite SE in RG.
  assert (RG' : let '(nx, ny, nz) := sign e in regular eps (Ray q e nx ny nz) (RBox (R3 0 0 0) (R3 1 1 1))).
  { apply RG. - rewrite <- A0. apply AL. auto. - apply AL. auto. }
  destruct (sign e) as ((nx, ny), nz).
  pose proof (C40_box big eps (Ray q e nx ny nz) (RBox (R3 0 0 0) (R3 1 1 1)) B E ltac:(cbn; lra) ltac:(cbn; lra) ltac:(cbn; lra) RG') as R.
  cbn [ray_pos ray_dir rmin rmax] in R. unfold right_answer in *.
  assert (HIT : forall t, inside (R3 0 0 0) (R3 1 1 1) (along q e t) <-> exists l, unit_cube l /\ at_local s os l (along pos dir t)).
  { intros t. split; [intros X; exists (along q e t); split; auto; apply AL; auto|intros (l & L & X); apply AL in X; subst; auto]. }
  destruct (intersect big eps _ _) as [(a, b)|].
  - destruct R as (t0 & t1 & R1 & R2 & R3 & R4 & R5). exists t0, t1. do 4 (split; [auto|]). intros t. rewrite R5, HIT. tauto.
  - intros t T X. apply HIT in X. apply (R t); auto.
Qed.
Print Assumptions C40_matrix.

(** All fields of a group, in turn. *)
Theorem C40_group : forall big eps sign pos dir l, exists il, get_intersections big eps sign pos dir l = (il, negb (match il with [] => true | _ => false end)) /\
  il = flat_map (fun w => match field_interval big eps sign pos dir w with Some i => [i] | None => [] end) l.
Proof.
  intros. unfold get_intersections.
  set (f := fun acc w => match field_interval big eps sign pos dir w with Some i => acc ++ [i] | None => acc end).
  assert (X : forall l acc, fold_left f l acc = acc ++ flat_map (fun w => match field_interval big eps sign pos dir w with Some i => [i] | None => [] end) l).
  { clear. induction l as [|w l IH]; intros acc; cbn [fold_left flat_map]; [rewrite app_nil_r; auto|].
    rewrite IH. unfold f. destruct (field_interval big eps sign pos dir w); [rewrite <- app_assoc|]; auto. }
  eexists. split; [|reflexivity]. rewrite X. cbn [app].
  destruct (flat_map _ l); reflexivity.
Qed.
Print Assumptions C40_group.

(** A frustum mapping, with perspective slices or with uniform ones: no face is parallel to
    the ray, or the ray is on the inner side of it. *)
Theorem C40_frustum : forall big s pos dir planes, 0 < big -> fm_uniform s = false \/ proper_uniform s -> faces_camera (mlinear (fm_lps s) 0) ->
  frustum_planes s planes -> Forall (fun p => dot (pl_normal p) dir <> 0 \/ below p pos) planes ->
  let hit t := exists l, unit_cube l /\ f_local_to_world s 0 l = Some (along pos dir t) in
  match intersect_frustum big s pos dir with
  | Some (t0, t1) => forall t, t0 <= t <= t1 <-> 0 <= t <= big /\ hit t
  | None => forall t u, - big <= t <= big -> - big <= u <= big -> hit t -> hit u -> t = u
  end.
Proof.
  intros big s pos dir planes B U F (c & C & ->) G hit. unfold intersect_frustum. rewrite C.
  assert (LW : (forall q, (exists l, unit_cube l /\ f_local_to_world s 0 l = Some q) <-> (exists l, unit_cube l /\ mult_vec (mlinear (fm_lps s) 0) l = Some q)) /\
               forall l, In l unit_corners -> f_local_to_world s 0 l = mult_vec (mlinear (fm_lps s) 0) l).
  { destruct (fm_uniform s) eqn:UE.
    - destruct U as [U|U]; [discriminate|]. destruct U as (V & N & ST & PL & DEF). apply invertible_det in V. split.
      + intros q. apply same_space; auto.
      + intros l L. apply corner_same; auto; cbn in L; intuition subst; cbn; auto; unfold unit_cube, inside; cbn; lra.
    - assert (X : forall l, f_local_to_world s 0 l = mult_vec (mlinear (fm_lps s) 0) l) by (intros; unfold f_local_to_world; rewrite UE; auto).
      split; auto. intros q. split; intros (l & L & E); exists l; split; auto; rewrite X in *; auto. }
  destruct LW as [LW CW].
  assert (C' : corner_list (mlinear (fm_lps s) 0) c) by (unfold corner_list; rewrite <- C; f_equal; apply map_ext_in; intros; symmetry; auto).
  destruct (fold_left (clip_plane pos dir) (face_planes c) (- big, big)) as (t0, t1) eqn:K.
  pose proof (clip_right pos dir _ _ _ _ _ K G) as R.
  assert (HIT : forall t, t0 <= t <= t1 <-> - big <= t <= big /\ hit t).
  { intros t. rewrite R, (cube_image _ c _ F C'). unfold hit. rewrite LW. tauto. }
  destruct (rltb t0 t1) eqn:L.
  - intros t. pose proof (Rmax_l t0 0). pose proof (Rmax_r t0 0). split.
    + intros (X & Y). destruct (proj1 (HIT t)); [lra|]. split; auto; lra.
    + intros (X & Y). destruct (proj2 (HIT t)); [split; auto; lra|]. split; auto. apply Rmax_lub; lra.
  - apply rltb_f in L. intros t u T V HT HU.
    assert (t0 <= t <= t1) by (apply HIT; auto). assert (t0 <= u <= t1) by (apply HIT; auto). lra.
Qed.
Print Assumptions C40_frustum.

(** A field with a frustum mapping, with or without an object transform.  The position and
    the direction the planes are compared with are those of the ray in the object's space:
    the points the object transform takes to the ray. *)
Theorem C40_frustum_field : forall big eps sign s os pos dir pos' dir' planes, 0 < big -> fm_uniform s = false \/ proper_uniform s -> faces_camera (mlinear (fm_lps s) 0) ->
  (forall o, os = Some o -> invertible o /\ no_perspective o) ->
  (forall t, object_to_world os (along pos' dir' t) = Some (along pos dir t)) ->
  frustum_planes s planes -> Forall (fun p => dot (pl_normal p) dir' <> 0 \/ below p pos') planes ->
  let hit t := exists l, unit_cube l /\ at_frustum s os l (along pos dir t) in
  match field_interval big eps sign pos dir (Wrapper (AFrustum s) os) with
  | Some (a, b) => exists t0 t1, a = Fin t0 /\ b = Fin t1 /\ forall t, t0 <= t <= t1 <-> 0 <= t <= big /\ hit t
  | None => forall t u, - big <= t <= big -> - big <= u <= big -> hit t -> hit u -> t = u
  end.
Proof.
  intros big eps sign s os pos dir pos' dir' planes B U F OS OW P G hit.
  assert (A0 : forall p d, along p d 0 = p) by (intros [a b c] d; unfold along; cbn; f_equal; ring).
  assert (T : to_object (Wrapper (AFrustum s) os) pos = Some pos' /\ to_object_dir (Wrapper (AFrustum s) os) dir = dir' /\
    forall q t, object_to_world os q = Some (along pos dir t) -> q = along pos' dir' t).
  { pose proof (OW 0) as W0. pose proof (OW 1) as W1. rewrite !A0 in W0. unfold to_object, to_object_dir, object_to_world in *. cbn [w_os] in *. destruct os as [o|].
    - destruct (OS o eq_refl) as [V N]. apply invertible_det in V. pose proof (affine_inverse o V N) as I.
      pose proof (mult_vec_inverse o _ _ V W0) as E0. split; auto. split.
      + apply (mult_vec_inverse o _ _ V) in W1. rewrite (along_affine _ _ dir 1 _ I E0) in W1. set (e := mult_dir (inverse o) dir) in *. clearbody e. injection W1 as Wx Wy Wz.
        destruct e as [x y z], dir' as [x' y' z']. cbn in Wx, Wy, Wz. f_equal; lra.
      + intros q t Q. apply (mult_vec_inverse o _ _ V) in Q. pose proof (OW t) as Wt. apply (mult_vec_inverse o _ _ V) in Wt. congruence.
    - injection W0 as <-. split; auto. injection W1 as Wx Wy Wz. assert (dir = dir') as <- by (destruct dir as [x y z], dir' as [x' y' z']; cbn in *; f_equal; lra).
      split; auto. intros q t Q. congruence. }
  destruct T as (T1 & T2 & T3). unfold field_interval. rewrite T1, T2. cbn [w_map].
  pose proof (C40_frustum big s pos' dir' planes B U F P G) as R.
  assert (HIT : forall t, (exists l, unit_cube l /\ f_local_to_world s 0 l = Some (along pos' dir' t)) <-> hit t).
  { intros t. unfold hit, at_frustum. split.
    - intros (l & L & E). exists l. split; auto. exists (along pos' dir' t). auto.
    - intros (l & L & q & E & Q). exists l. split; auto. rewrite E. f_equal. auto. }
  destruct (intersect_frustum big s pos' dir') as [(t0, t1)|].
  - exists t0, t1. split; auto. split; auto. intros t. rewrite (R t), HIT. tauto.
  - intros t u Ht Hu X Y. apply R; auto; apply HIT; auto.
Qed.
Print Assumptions C40_frustum_field.

(** The near and far distances of a frustum made by one call of [setTransforms] are those of
    its planes. *)
Theorem C40_depth_planes : forall fr u ss_ws cs_ws s, set_transforms (Frustum fr u [] [] [] [] true) 0 ss_ws cs_ws = Some s ->
  depth_in_step (mmul ls_to_ss ss_ws) cs_ws -> depth_planes s.
Proof.
  intros fr u ss cs s H ST. unfold set_transforms in H. cbn [fm_default fm_frame fm_uniform fm_lps fm_cs fm_near fm_far] in H.
  destruct (mult_vec (mmul ls_to_ss ss) (R3 (1 / 2) (1 / 2) 0)) as [n|] eqn:N; [|discriminate].
  destruct (mult_vec (mmul ls_to_ss ss) (R3 (1 / 2) (1 / 2) 1)) as [f|] eqn:F; [|discriminate].
  destruct (mult_vec (inverse cs) n) as [n'|] eqn:N'; [|discriminate]. destruct (mult_vec (inverse cs) f) as [f'|] eqn:F'; [|discriminate]. injection H as <-.
  assert (MA : forall m, madd [] 0 m = [(0, m)]) by reflexivity. assert (MR : forall r : R, add_sample rltb reqb 0 r [] = [(0, r)]) by reflexivity.
  unfold depth_planes. cbn [fm_lps fm_cs fm_near fm_far]. rewrite !MA, !MR.
  assert (L : forall m, mlinear [(0, m)] 0 = m) by (intros; cbn; destruct (rltb 0 0); auto).
  assert (LR : forall r, rlinear [(0, r)] 0 = r) by (intros; cbn; destruct (rltb 0 0); auto).
  rewrite !L, !LR. intros l w c W C. split; intros Z.
  - f_equal. apply (proj1 (ST _ _ _ _ _ _ W N C N')). cbn. auto.
  - f_equal. apply (proj1 (ST _ _ _ _ _ _ W F C F')). cbn. auto.
Qed.
Print Assumptions C40_depth_planes.

(** The default camera is one of these, with either distribution, and a ray along its axis
    meets it. *)
Lemma default_corner k x y z : k <> 0 -> 1 - z / 2 <> 0 ->
  mult_vec (default_lps k) (R3 x y z) = Some (R3 ((2 * x - 1) / k / (1 - z / 2)) ((2 * y - 1) / k / (1 - z / 2)) (- 1 / (1 - z / 2))).
Proof.
  intros K Z. apply mult_vec_iff. exists (1 - z / 2). split; auto. unfold rowmul, hom, rscale, default_lps. cbn. f_equal; field; auto; lra.
Qed.
Lemma normal_nonzero p1 p2 p3 d : dot (cross (sub3 p2 p1) (sub3 p3 p1)) d <> 0 -> dot (pl_normal (plane_of p1 p2 p3)) d <> 0.
Proof.
  unfold plane_of. cbn [pl_normal]. set (n := cross _ _). clearbody n. unfold normalized, reqb. intros N.
  destruct (Req_EM_T (sqrt (dot n n)) 0) as [|Z]; auto. intros Y. apply N.
  apply (f_equal (fun q => q * sqrt (dot n n))) in Y. set (l := sqrt (dot n n)) in *. clearbody l. unfold dot in *. cbn in *.
  rewrite Rmult_0_l in Y. rewrite <- Y. field. auto.
Qed.
Definition default_corners (k : R) : list r3 :=
  map (fun p => R3 ((2 * rx p - 1) / k / (1 - rz p / 2)) ((2 * ry p - 1) / k / (1 - rz p / 2)) (- 1 / (1 - rz p / 2))) unit_corners.
Lemma default_uniform fr k : k <> 0 ->
  let s := Frustum fr true [(0, default_lps k)] [(0, ident)] [(0, - -1)] [(0, - -2)] true in proper_uniform s.
Proof.
  intros K s.
  assert (L : forall m, mlinear [(0, m)] 0 = m) by (intros; cbn; destruct (rltb 0 0); auto).
  assert (LR : forall r, rlinear [(0, r)] 0 = r) by (intros; cbn; destruct (rltb 0 0); auto).
  assert (IC : forall q, mult_vec (inverse ident) q = Some q) by (intros; rewrite (inverse_unique ident ident) by apply mmul_ident_l; apply mult_vec_ident).
  assert (DC : forall x y z w, mult_vec (default_lps k) (R3 x y z) = Some w -> 1 - z / 2 <> 0 /\ rz w = - 1 / (1 - z / 2)).
  { intros x y z w H. assert (Z : 1 - z / 2 <> 0).
    { intros Z. unfold mult_vec, default_lps, rowmul in H. cbn in H. unfold reqb in H. destruct (Req_EM_T _ 0) as [|N]; [discriminate|]. apply N. lra. }
    split; auto. rewrite default_corner in H by auto. injection H as <-. reflexivity. }
  unfold s, proper_uniform, depth_planes. cbn [fm_lps fm_cs fm_near fm_far]. rewrite !L, !LR. split; [|split; [|split; [|split]]].
  - apply invertible_det. rewrite det_ident. lra.
  - repeat split.
  - intros [x y z] [x' y' z'] wp wq cp cq H H'. apply DC in H as [Z H]. apply DC in H' as [Z' H']. rewrite !IC. intros E E'. injection E as <-. injection E' as <-. cbn [rz]. rewrite H, H'.
    split; [intros ->; auto|]. intros E. apply (f_equal (fun v => - / v)) in E. replace (- / (-1 / (1 - z / 2))) with (1 - z / 2) in E by (field; lra). replace (- / (-1 / (1 - z' / 2))) with (1 - z' / 2) in E by (field; lra). lra.
  - intros [x y z] w c H. apply DC in H as [Z H]. rewrite IC. intros E. injection E as <-. cbn [rz]. rewrite H. split; intros ->; field.
  - intros [x y u] (X & Y & Zu). cbn in X, Y, Zu. unfold f_local_to_world. cbn [fm_uniform fm_lps fm_cs fm_near fm_far rx ry rz]. rewrite !L, !LR, mult_vec_ident.
    set (d := lerp (- -1) (- -2) u). assert (D : 1 <= d <= 2) by (unfold d, lerp; lra). clearbody d.
    assert (W : 1 - (2 - 2 / d) / 2 = / d) by (field; lra). assert (I : 0 < / d) by (apply Rinv_0_lt_compat; lra).
    assert (E : mult_vec (default_lps k) (R3 (1 / 2) (1 / 2) (2 - 2 / d)) = Some (R3 0 0 (- d))).
    { rewrite default_corner by (auto; rewrite W; lra). rewrite W. do 2 f_equal; field; lra. }
    rewrite (mult_vec_inverse _ _ _ (default_det k K) E). cbn [rz]. rewrite default_corner by (auto; rewrite W; lra). eauto.
Qed.
Theorem C40_default_camera : forall fr u, exists s planes, frustum_reset fr u = Some s /\ fm_uniform s = u /\ (fm_uniform s = false \/ proper_uniform s) /\
  faces_camera (mlinear (fm_lps s) 0) /\ frustum_planes s planes /\
  Forall (fun p => dot (pl_normal p) (R3 0 0 (-1)) <> 0 \/ below p (R3 0 0 0)) planes /\
  exists z, 0 < z < 1 /\ f_local_to_world s 0 (R3 (1 / 2) (1 / 2) z) = Some (along (R3 0 0 0) (R3 0 0 (-1)) (3 / 2)).
Proof.
  intros fr u. pose proof inv_tan_pos as K. rewrite reset_eq. eexists. exists (face_planes (default_corners inv_tan)). split; [reflexivity|]. split; [reflexivity|].
  set (k := inv_tan) in *. clearbody k. cbn [fm_lps fm_uniform].
  assert (L : forall m, mlinear [(0, m)] 0 = m) by (intros; cbn; destruct (rltb 0 0); auto). rewrite L.
  assert (LR : forall r, rlinear [(0, r)] 0 = r) by (intros; cbn; destruct (rltb 0 0); auto).
  set (s := Frustum fr u [(0, default_lps k)] [(0, ident)] [(0, - -1)] [(0, - -2)] true).
  assert (PU : u = false \/ proper_uniform s) by (destruct u; auto; right; apply default_uniform; auto).
  assert (KK : 0 < / k * / k) by (assert (0 < Rsqr (/ k)) by (apply Rlt_0_sqr; apply Rinv_neq_0_compat; auto); unfold Rsqr in *; auto).
  assert (FC : faces_camera (default_lps k)).
  { split.
    + replace (det (default_lps k)) with (- 2 * (/ k * / k)) by (unfold det, sub2, default_lps; cbn; field; auto). lra.
    + intros p (_ & _ & Z). unfold weight, default_lps, rowmul. cbn in *. lra. }
  assert (CW : forall l, In l unit_corners -> f_local_to_world s 0 l = mult_vec (default_lps k) l).
  { intros l Il. destruct u; [|unfold f_local_to_world, s; cbn [fm_uniform fm_lps]; rewrite L; auto].
    destruct PU as [|(V & N & ST & PL & DEF)]; [discriminate|]. apply invertible_det in V. transitivity (mult_vec (mlinear (fm_lps s) 0) l); [|unfold s; cbn [fm_lps]; rewrite L; auto].
    apply corner_same; auto; try (unfold s; cbn [fm_lps]; rewrite L; auto; fail); cbn in Il; intuition subst; cbn; auto; unfold unit_cube, inside; cbn; lra. }
  split; [exact PU|]. split; [exact FC|]. split; [|split].
  - exists (default_corners k). split; [|reflexivity]. rewrite (map_ext_in _ (mult_vec (default_lps k))) by auto.
    unfold unit_corners. cbn [map]. rewrite !default_corner by (auto; lra). cbn [all_some]. reflexivity.
  - unfold default_corners, unit_corners. cbn [map rx ry rz]. unfold face_planes. cbn [nth]. rewrite !Forall_cons_iff.
    split; [right|split; [right|split; [right|split; [right|split; [left|split; [left|constructor]]]]]].
    1-4: apply below_plane; unfold side, dot, cross, sub3; cbn; apply Req_le; field; auto.
    + apply normal_nonzero. unfold dot, cross, sub3. cbn. match goal with |- ?x <> 0 => replace x with (-4 * (/ k * / k)) by (field; auto) end. lra.
    + apply normal_nonzero. unfold dot, cross, sub3. cbn. match goal with |- ?x <> 0 => replace x with (16 * (/ k * / k)) by (field; auto) end. lra.
  - assert (E : mult_vec (default_lps k) (R3 (1 / 2) (1 / 2) (2 / 3)) = Some (along (R3 0 0 0) (R3 0 0 (-1)) (3 / 2))).
    { rewrite default_corner by (auto; lra). unfold along. cbn. do 2 f_equal; field; auto; lra. }
    destruct u; [exists (1 / 2)|exists (2 / 3)]; (split; [lra|]); unfold f_local_to_world, s; cbn [fm_uniform fm_lps fm_cs fm_near fm_far rx ry rz]; rewrite !L; auto.
    rewrite !LR, mult_vec_ident. replace (R3 0 0 (- lerp (- -1) (- -2) (1 / 2))) with (along (R3 0 0 0) (R3 0 0 (-1)) (3 / 2)).
    2:{ unfold along, lerp. cbn. f_equal; field. }
    rewrite (mult_vec_inverse _ _ _ (default_det k K) E). cbn [rz]. exact E.
Qed.
Print Assumptions C40_default_camera.

(** ** Where frustums are wrong *)
Definition ss_box (e : R) : m44 := M44 (R4 (1 / 2) 0 0 0) (R4 0 (1 / 2) 0 0) (R4 0 0 e 0) (R4 (1 / 2) (1 / 2) 0 1).
Definition diag (e : R) : m44 := M44 (R4 1 0 0 0) (R4 0 1 0 0) (R4 0 0 e 0) (R4 0 0 0 1).
Lemma box_transform fr e : one_transform fr (ss_box e) ident = Some (Frustum fr false [(0, diag e)] [(0, ident)] [(0, - 0)] [(0, - e)] false).
Proof.
  unfold one_transform, set_transforms. cbn [fm_default fm_frame fm_uniform fm_lps fm_cs fm_near fm_far].
  assert (mmul ls_to_ss (ss_box e) = diag e) as ->.
  { unfold ls_to_ss, ss_box, diag, mmul, rowmul, scale, translate. cbn. f_equal; f_equal; field. }
  assert (D : forall x y z, mult_vec (diag e) (R3 x y z) = Some (R3 x y (e * z))).
  { intros. apply mult_vec_iff. exists 1. split; [lra|]. unfold rowmul, hom, rscale, diag. cbn. f_equal; ring. }
  rewrite !D, inverse_ident, !mult_vec_ident. cbn [rz].
  unfold madd, add_sample. cbn. rewrite Rmult_0_r, Rmult_1_r. reflexivity.
Qed.
Lemma diag_at fr e x y z : f_local_to_world (Frustum fr false [(0, diag e)] [(0, ident)] [(0, - 0)] [(0, - e)] false) 0 (R3 x y z) = Some (R3 x y (e * z)).
Proof.
  unfold f_local_to_world. cbn [fm_uniform fm_lps].
  assert (mlinear [(0, diag e)] 0 = diag e) as -> by (cbn; destruct (rltb 0 0); auto).
  apply mult_vec_iff. exists 1. split; [lra|]. unfold rowmul, hom, rscale, diag. cbn. f_equal; ring.
Qed.
Lemma plane_eq p1 p2 p3 n d : cross (sub3 p2 p1) (sub3 p3 p1) = n -> dot n n = 1 -> dot n p1 = d -> plane_of p1 p2 p3 = Plane n d.
Proof.
  intros <- U <-. unfold plane_of, normalized. rewrite U, sqrt_1. unfold reqb. destruct (Req_EM_T 1 0); [lra|].
  assert (X : forall v, R3 (rx v / 1) (ry v / 1) (rz v / 1) = v) by (intros [x y z]; cbn; f_equal; field). rewrite !X. reflexivity.
Qed.
Lemma diag_planes e : e * e = 1 -> face_planes [R3 0 0 (e * 0); R3 1 0 (e * 0); R3 0 1 (e * 0); R3 1 1 (e * 0); R3 0 0 (e * 1); R3 1 0 (e * 1); R3 0 1 (e * 1); R3 1 1 (e * 1)]
  = [Plane (R3 e 0 0) 0; Plane (R3 (- e) 0 0) (- e); Plane (R3 0 e 0) 0; Plane (R3 0 (- e) 0) (- e); Plane (R3 0 0 1) 0; Plane (R3 0 0 (-1)) (- e)].
Proof.
  intros U. unfold face_planes. cbn [nth].
  do 6 (apply (f_equal2 cons); [apply plane_eq; [unfold cross, sub3; cbn; f_equal; ring|unfold dot; cbn; lra|unfold dot; cbn; lra]|]). reflexivity.
Qed.
Ltac decide_r := repeat match goal with
  | |- context [reqb ?a ?b] => first [assert (reqb a b = true) as -> by (apply reqb_t; lra)
      | assert (reqb a b = false) as -> by (unfold reqb; destruct (Req_EM_T a b); auto; lra)]
  | |- context [rltb ?a ?b] => first [assert (rltb a b = true) as -> by (apply rltb_t; lra) | assert (rltb a b = false) as -> by (apply rltb_f; lra)]
  end.
Lemma all_corners s e : (forall x y z, f_local_to_world s 0 (R3 x y z) = Some (R3 x y (e * z))) ->
  all_some (map (f_local_to_world s 0) unit_corners) =
  Some [R3 0 0 (e * 0); R3 1 0 (e * 0); R3 0 1 (e * 0); R3 1 1 (e * 0); R3 0 0 (e * 1); R3 1 0 (e * 1); R3 0 1 (e * 1); R3 1 1 (e * 1)].
Proof. intros H. unfold unit_corners. cbn [map]. rewrite !H. reflexivity. Qed.
Ltac clip_r := unfold clip_plane, intersect_t, dot; cbn [fold_left pl_normal pl_distance rx ry rz fst snd]; decide_r; cbn [fst snd].
Ltac some_r := unfold Rmax, Rmin; repeat match goal with |- context [Rle_dec ?a ?b] => destruct (Rle_dec a b); try lra end; decide_r.

(** A ray beside the frustum, parallel to a face, is reported to enter it. *)
Theorem C40_parallel_refuted : forall big fr, 10 <= big -> exists s ss_ws pos dir, one_transform fr ss_ws ident = Some s /\ faces_camera (mlinear (fm_lps s) 0) /\
  intersect_frustum big s pos dir <> None /\ forall t l, unit_cube l -> f_local_to_world s 0 l <> Some (along pos dir t).
Proof.
  intros big fr B. eexists. exists (ss_box (-1)), (R3 2 (1 / 2) (1 / 2)), (R3 0 0 (-1)). split; [apply box_transform|]. cbn [fm_lps]. split; [|split].
  - assert (mlinear [(0, diag (-1))] 0 = diag (-1)) as -> by (cbn; destruct (rltb 0 0); auto).
    split; [unfold det, sub2, diag; cbn; lra|]. intros p _. unfold weight, rowmul, diag. cbn. lra.
  - unfold intersect_frustum. rewrite (all_corners _ (-1)) by (intros; apply diag_at). rewrite diag_planes by lra. clip_r. some_r; discriminate.
  - intros t [x y z] ((_ & X) & _). rewrite diag_at. unfold along. cbn in *. intros H. injection H. intros. lra.
Qed.
Print Assumptions C40_parallel_refuted.

(** A frustum that lies behind the start of the ray is reported, with an interval that
    ends before it begins. *)
Theorem C40_behind_refuted : forall big fr, 10 <= big -> exists s ss_ws pos dir t0 t1, one_transform fr ss_ws ident = Some s /\ faces_camera (mlinear (fm_lps s) 0) /\
  intersect_frustum big s pos dir = Some (t0, t1) /\ t1 < t0 /\ forall t l, 0 <= t -> unit_cube l -> f_local_to_world s 0 l <> Some (along pos dir t).
Proof.
  intros big fr B. eexists. exists (ss_box (-1)), (R3 (1 / 2) (1 / 2) (-5)), (R3 0 0 (-1)), 0, (-4). split; [apply box_transform|]. cbn [fm_lps]. split; [|split; [|split]].
  - assert (mlinear [(0, diag (-1))] 0 = diag (-1)) as -> by (cbn; destruct (rltb 0 0); auto).
    split; [unfold det, sub2, diag; cbn; lra|]. intros p _. unfold weight, rowmul, diag. cbn. lra.
  - unfold intersect_frustum. rewrite (all_corners _ (-1)) by (intros; apply diag_at). rewrite diag_planes by lra. clip_r. some_r. do 2 f_equal; field.
  - lra.
  - intros t [x y z] T (_ & _ & Z). rewrite diag_at. unfold along. cbn in *. intros H. injection H. intros. lra.
Qed.
Print Assumptions C40_behind_refuted.

(** A frustum whose local axes are not mirrored (its planes then face inwards) is missed
    by a ray through its middle. *)
Theorem C40_mirrored_refuted : forall big fr, 10 <= big -> exists s ss_ws pos dir, one_transform fr ss_ws ident = Some s /\
  intersect_frustum big s pos dir = None /\
  forall t, 1 <= t <= 2 -> exists l, unit_cube l /\ f_local_to_world s 0 l = Some (along pos dir t).
Proof.
  intros big fr B. eexists. exists (ss_box 1), (R3 (1 / 2) (1 / 2) (-1)), (R3 0 0 1). split; [apply box_transform|]. split.
  - unfold intersect_frustum. rewrite (all_corners _ 1) by (intros; apply diag_at). rewrite diag_planes by lra. clip_r. some_r; reflexivity.
  - intros t T. exists (R3 (1 / 2) (1 / 2) (t - 1)). rewrite diag_at. unfold unit_cube, inside, along. cbn. split; [lra|]. do 2 f_equal; ring.
Qed.
Print Assumptions C40_mirrored_refuted.

(** A field whose object transform moves it, and a ray that meets it. *)
Example C40_matrix_example : forall eps, 0 < eps <= 1 ->
  let m := M44 (R4 2 0 0 0) (R4 0 2 0 0) (R4 0 0 2 0) (R4 0 0 0 1) in
  let o := M44 (R4 1 0 0 0) (R4 0 1 0 0) (R4 0 0 1 0) (R4 10 0 0 1) in
  exists s, mat_run mat_init [MSet m] = Ok s /\ interpolates [MSet m] 0 m /\ invertible m /\ no_perspective m /\ invertible o /\ no_perspective o /\
  (forall l0 l1, at_local s (Some o) l0 (R3 0 1 1) -> at_local s (Some o) l1 (along (R3 0 1 1) (R3 4 0 0) 1) ->
     regular eps (Ray l0 (sub3 l1 l0) false true true) (RBox (R3 0 0 0) (R3 1 1 1))) /\
  at_local s (Some o) (R3 (1 / 2) (1 / 2) (1 / 2)) (along (R3 0 1 1) (R3 4 0 0) (11 / 4)).
Proof.
  intros eps E m o. eexists. split; [reflexivity|].
  assert (I : interpolates [MSet m] 0 m).
  { intros i j Hi Hj. cbn. unfold rltb. destruct (Rlt_dec 0 0); auto. }
  split; [auto|]. split; [|split; [repeat split|]].
  { exists (M44 (R4 (1/2) 0 0 0) (R4 0 (1/2) 0 0) (R4 0 0 (1/2) 0) (R4 0 0 0 1)). split; unfold m, ident, mmul, rowmul; cbn; f_equal; f_equal; field. }
  split; [|split; [repeat split|]].
  { exists (M44 (R4 1 0 0 0) (R4 0 1 0 0) (R4 0 0 1 0) (R4 (-10) 0 0 1)). split; unfold o, ident, mmul, rowmul; cbn; f_equal; f_equal; ring. }
  assert (LW : forall s, mat_run mat_init [MSet m] = Ok s -> forall x y z w, at_local s (Some o) (R3 x y z) w <-> w = R3 (2 * x + 10) (2 * y) (2 * z)).
  { intros s H x y z w. destruct (run_init _ s H) as (G & _). pose proof (history_matrix _ s 0 H) as I'.
    pose proof (interpolates_unique _ 0 _ _ I I') as M. unfold at_local. rewrite ls_ws by auto. rewrite <- M.
    assert (N : no_perspective m) by repeat split. assert (N' : no_perspective o) by repeat split.
    unfold object_to_world. rewrite affine_def by auto. split.
    - intros (q & Q & W). injection Q as <-. rewrite affine_def in W by auto. injection W as <-. unfold m, o. cbn. f_equal; ring.
    - intros ->. eexists. split; [reflexivity|]. rewrite affine_def by auto. unfold m, o. cbn. do 2 f_equal; ring. }
  specialize (LW _ eq_refl). split.
  - intros [x y z] [x' y' z'] H H'. apply LW in H, H'. unfold along in H'. cbn in H'. injection H as HX HY HZ. injection H' as HX' HY' HZ'.
    unfold regular, regular_axis, sub3. cbn. assert (x' - x = 2) as -> by lra. assert (y' - y = 0) as -> by lra. assert (z' - z = 0) as -> by lra.
    rewrite (Rabs_right 2) by lra. repeat split; [left; lra|right; right; split; [lra|right; lra]|right; right; split; [lra|right; lra]].
  - apply LW. unfold along. cbn. f_equal; field.
Qed.
