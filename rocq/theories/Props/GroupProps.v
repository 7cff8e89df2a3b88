(** C41, C47, C48: groups of fields. *)
From Coq Require Import ZArith Reals List Bool Lra Lia.
From Verif Require Import Model.Base Model.LoopM Model.RealM Model.VecM Model.MatM Model.CurveM Model.CoordM Model.MapM Model.RayM Model.GroupM
  Spec.VoxelSpec Spec.CoordSpec Spec.MapSpec Spec.RaySpec Spec.GroupSpec Proof.BaseP Proof.MatP Proof.PointP Proof.MapP Proof.RealP Proof.CoordP Proof.GroupP Proof.RayFrustumP
  Props.MapProps Props.CoordProps.
Import ListNotations.
Open Scope R_scope.

(** ** C41 *)
(** If every field has a voxel in the query, minimum and maximum bound the values of all
    voxels that have a point in the query and no negative index, and are values of voxels
    or what the caller passed. *)
Theorem C41_min_max_partial : forall query groups a b,
  (forall g, In g (concat groups) -> affine_field g /\ exists v, meets g query v) ->
  exists mn mx, group_min_max query groups (a, b) = Some (mn, mx) /\ mn <= a /\ b <= mx /\
  (forall g v, In g (concat groups) -> meets g query v -> mn <= g_value g v <= mx) /\
  (mn = a \/ exists g v, In g (concat groups) /\ in_box v (g_dw g) /\ mn = g_value g v) /\
  (mx = b \/ exists g v, In g (concat groups) /\ in_box v (g_dw g) /\ mx = g_value g v).
Proof. intros q l a b H. destruct (group_bounds_ok q l a b H) as (c & d & E & R). exists c, d. split; auto. Qed.
Print Assumptions C41_min_max_partial.

Definition null_field (dw : box) (value : v3 -> R) : gfield :=
  GField (Wrapper (ANull (Frame (R3 0 0 0) (R3 1 1 1))) None) dw (RBox (R3 0 0 0) (R3 1 1 1)) value (fun _ => 0) None.
Definition unit_query : option rbox := Some (RBox (R3 0 0 0) (R3 1 1 1)).
Lemma null_affine dw value : affine_field (null_field dw value).
Proof.
  split; [|discriminate]. exists (Box (V3 0 0 0) (V3 0 0 0)). split; [reflexivity|]. unfold has_voxels. cbn. lia.
Qed.
Lemma null_position dw value p : voxel_position (g_wrap (null_field dw value)) p = Some p.
Proof. unfold voxel_position, to_object. cbn. unfold n_world_to_voxel, local_to_voxel. cbn. destruct p as [x y z]. cbn. do 2 f_equal; ring. Qed.
Example C41_example : let g := null_field (Box (V3 0 0 0) (V3 3 3 3)) (fun v => IZR (vx v)) in
  affine_field g /\ meets g unit_query (V3 1 0 0) /\ meets g unit_query (V3 0 0 0).
Proof.
  intros g. split; [apply null_affine|]. split.
  - split; [unfold in_box; cbn; lia|]. split; [unfold int_voxel, int_min, int_max; cbn; lia|]. split; [cbn; lia|].
    exists (R3 1 (1 / 2) (1 / 2)). split; [unfold in_query, unit_query, inside; cbn; lra|]. exists (R3 1 (1 / 2) (1 / 2)).
    split; [apply null_position|unfold in_cell; cbn; lra].
  - split; [unfold in_box; cbn; lia|]. split; [unfold int_voxel, int_min, int_max; cbn; lia|]. split; [cbn; lia|].
    exists (R3 (1 / 2) (1 / 2) (1 / 2)). split; [unfold in_query, unit_query, inside; cbn; lra|]. exists (R3 (1 / 2) (1 / 2) (1 / 2)).
    split; [apply null_position|unfold in_cell; cbn; lra].
Qed.

(** The query box of a null mapping. *)
Lemma null_visit dw value lo hi a1 a2 a3 b1 b2 b3 :
  rx lo <= rx hi -> ry lo <= ry hi -> rz lo <= rz hi ->
  clamp_for_int (rx lo) = a1 -> clamp_for_int (ry lo) = a2 -> clamp_for_int (rz lo) = a3 ->
  clamp_for_int (rx hi) = b1 -> clamp_for_int (ry hi) = b2 -> clamp_for_int (rz hi) = b3 ->
  visit_box (null_field dw value) (Some (RBox lo hi)) =
  let c := clip_bounds (Box (V3 a1 a2 a3) (V3 b1 b2 b3)) dw in Some (if box_intersects dw c then Some c else None).
Proof.
  intros X Y Z <- <- <- <- <- <-. unfold visit_box, object_bounds. cbn [g_wrap null_field w_os w_map].
  assert (map_bounds (a_world_to_voxel (ANull (Frame (R3 0 0 0) (R3 1 1 1)))) (RBox lo hi) = Some (Some (RBox lo hi))) as ->.
  { rewrite (map_bounds_ext _ (fun p => Some p)).
    2:{ intros [x y z]. cbn. unfold n_world_to_voxel, local_to_voxel. cbn. do 2 f_equal; ring. }
    destruct lo as [x y z], hi as [x' y' z']. cbn in X, Y, Z. unfold map_bounds, vertices. cbn [extend_all rmin rmax rx ry rz extend_by].
    assert (F : forall u, rltb u u = false) by (intros; unfold rltb; destruct (Rlt_dec u u); auto; lra).
    assert (NX : rltb x' x = false) by (unfold rltb; destruct (Rlt_dec x' x); auto; lra).
    assert (NY : rltb y' y = false) by (unfold rltb; destruct (Rlt_dec y' y); auto; lra).
    assert (NZ : rltb z' z = false) by (unfold rltb; destruct (Rlt_dec z' z); auto; lra).
    rewrite ?F, ?NX, ?NY, ?NZ.
    assert (GX : (if rltb x x' then x' else x) = x') by (unfold rltb; destruct (Rlt_dec x x'); auto; lra).
    assert (GY : (if rltb y y' then y' else y) = y') by (unfold rltb; destruct (Rlt_dec y y'); auto; lra).
    assert (GZ : (if rltb z z' then z' else z) = z') by (unfold rltb; destruct (Rlt_dec z z'); auto; lra).
    repeat (rewrite ?GX, ?GY, ?GZ, ?F, ?NX, ?NY, ?NZ; cbn [rx ry rz]). reflexivity. }
  unfold discrete_bounds. cbn [rmin rmax g_dw null_field]. rewrite !rfloor_IZR, !rceil_IZR. reflexivity.
Qed.

(** A first field outside the query, in any direction, ends the loop: the second, with a
    voxel inside, is not looked at. *)
Theorem C41_early_return_refuted : forall o, In o [V3 5 0 0; V3 0 5 0; V3 0 0 5; V3 (-5) 0 0; V3 0 (-5) 0; V3 0 0 (-5)] ->
  exists far near v, affine_field far /\ affine_field near /\ g_dw far = Box o o /\ meets near unit_query v /\
  group_min_max unit_query [[far; near]] (0, 0) = Some (0, 0) /\ g_value near v = 5.
Proof.
  intros o O. exists (null_field (Box o o) (fun _ => 7)), (null_field (Box (V3 0 0 0) (V3 1 1 1)) (fun _ => 5)), (V3 0 0 0).
  split; [apply null_affine|]. split; [apply null_affine|]. split; [reflexivity|]. split; [|split; [|reflexivity]].
  - split; [unfold in_box; cbn; lia|]. split; [unfold int_voxel, int_min, int_max; cbn; lia|]. split; [cbn; lia|].
    exists (R3 (1 / 2) (1 / 2) (1 / 2)). split; [unfold in_query, unit_query, inside; cbn; lra|]. exists (R3 (1 / 2) (1 / 2) (1 / 2)).
    split; [apply null_position|unfold in_cell; cbn; lra].
  - assert (C0 : clamp_for_int 0 = 0%Z) by (apply clamp_int; unfold int_min, int_max; lia).
    assert (C1 : clamp_for_int 1 = 1%Z) by (apply clamp_int; unfold int_min, int_max; lia).
    unfold group_min_max, min_max_vec, unit_query. rewrite (null_visit _ _ _ _ 0 0 0 1 1 1); cbn [rx ry rz]; auto; try lra.
    cbn in O. intuition subst; reflexivity.
Qed.
Print Assumptions C41_early_return_refuted.

(** Voxels with negative indices can be missed: the bounds are truncated towards zero. *)
Theorem C41_negative_refuted : exists g q v w mn mx, affine_field g /\ in_box v (g_dw g) /\ in_query q w /\ at_voxel g v w /\
  group_min_max q [[g]] (0, 0) = Some (mn, mx) /\ ~ mn <= g_value g v <= mx.
Proof.
  set (g := null_field (Box (V3 (-2) 0 0) (V3 0 0 0)) (fun v => if (vx v =? -1)%Z then 5 else 0)).
  exists g, (Some (RBox (R3 (- (1 / 2)) 0 0) (R3 0 0 0))), (V3 (-1) 0 0), (R3 (- (1 / 2)) 0 0), 0, 0.
  split; [apply null_affine|]. split; [unfold in_box; cbn; lia|]. split; [unfold in_query, inside; cbn; lra|]. split.
  { exists (R3 (- (1 / 2)) 0 0). split; [apply null_position|unfold in_cell; cbn; lra]. }
  assert (C0 : clamp_for_int 0 = 0%Z) by (apply clamp_int; unfold int_min, int_max; lia).
  assert (C1 : clamp_for_int (- (1 / 2)) = 0%Z).
  { unfold clamp_for_int. destruct (rltb_spec (- (1 / 2)) (IZR int_min)) as [L|_].
    { unfold int_min in L. rewrite opp_IZR in L. assert (1 <= IZR (2 ^ 31)) by (apply IZR_le; lia). lra. }
    destruct (rltb_spec (IZR int_max) (- (1 / 2))) as [L|_].
    { assert (0 <= IZR int_max) by (apply IZR_le; unfold int_max; lia). lra. }
    unfold rtrunc. destruct (rleb_spec 0 (- (1 / 2))); [lra|]. apply rceil_unique. lra. }
  split; [|cbn; lra]. unfold group_min_max, min_max_vec, g. rewrite (null_visit _ _ _ _ 0 0 0 0 0 0); cbn [rx ry rz]; auto; try lra.
  assert (M : min_max_one (null_field (Box (V3 (-2) 0 0) (V3 0 0 0)) (fun v => if (vx v =? -1)%Z then 5 else 0)) (0, 0) (V3 0 0 0) = (0, 0)).
  { unfold min_max_one. cbn [g_value null_field vx fst snd Z.eqb]. rewrite Rmin_left, Rmax_left by lra. reflexivity. }
  match goal with |- context [clip_bounds ?a ?b] => change (clip_bounds a b) with (Box (V3 0 0 0) (V3 0 0 0)) end.
  cbv zeta. match goal with |- context [box_intersects ?a ?b] => change (box_intersects a b) with true end. cbv iota beta.
  change (box_voxels (Box (V3 0 0 0) (V3 0 0 0))) with [V3 0 0 0]. cbn [fold_left]. rewrite M. reflexivity.
Qed.
Print Assumptions C41_negative_refuted.

(** ** C47 *)
Lemma rbox_has_iff b p : rbox_has b p = true <-> inside (rmin b) (rmax b) p.
Proof.
  unfold rbox_has, inside, rleb. rewrite !andb_true_iff.
  repeat match goal with |- context [Rle_dec ?a ?b] => destruct (Rle_dec a b) end; split; intros; try tauto;
    repeat match goal with H : _ /\ _ |- _ => destruct H end; try discriminate; try contradiction.
Qed.
Lemma made_bounds g v : made g -> (rbox_has (g_bounds g) v = true <->
  inside (R3 (IZR (vx (bmin (g_dw g)))) (IZR (vy (bmin (g_dw g)))) (IZR (vz (bmin (g_dw g)))))
         (R3 (IZR (vx (bmax (g_dw g)) + 1)) (IZR (vy (bmax (g_dw g)) + 1)) (IZR (vz (bmax (g_dw g)) + 1))) v).
Proof.
  intros (C & (A1 & A2 & A3) & (B1 & B2 & B3)). rewrite rbox_has_iff. unfold continuous_bounds in C.
  rewrite !i32_ok in C by (unfold int_min, int_max; lia). cbn [bind] in C. injection C as C. rewrite <- C. cbn [rmin rmax].
  rewrite !to_float_small by lia. reflexivity.
Qed.
Lemma sample_fold p l hits : Forall made l -> contributions p l hits -> forall r n,
  fold_left (sample_one p) l (r, n) = (r + total hits, (n + Z.of_nat (length hits))%Z).
Proof.
  intros F C. induction C as [|g v l hits V C IH|g l hits V C IH]; intros r n; cbn [fold_left].
  - cbn. f_equal; [ring|lia].
  - pose proof (Forall_inv F) as M. apply Forall_inv_tail in F. unfold sample_one at 2. destruct V as (P & I). rewrite P.
    apply (made_bounds g v M) in I. rewrite I. cbn [fst snd]. rewrite IH by auto. fold (contribution g v). cbn [total fold_right length].
    fold (total hits). f_equal; [ring|lia].
  - pose proof (Forall_inv F) as M. apply Forall_inv_tail in F. unfold sample_one at 2.
    destruct (voxel_position (g_wrap g) p) as [v|] eqn:P; [|auto]. destruct (rbox_has (g_bounds g) v) eqn:B; [|auto].
    exfalso. apply (V v). split; auto. apply made_bounds; auto.
Qed.
(** Sampling a group adds up the values of the fields that have the point in their data
    window; the other composite operation is their mean. *)
Theorem C47_sample : forall p l hits, Forall made l -> contributions p l hits ->
  (forall r, group_sample true p l r = r + total hits) /\
  group_sample false p l 0 = match hits with [] => 0 | _ => total hits / INR (length hits) end.
Proof.
  intros p l hits F C. unfold group_sample. split; [intros r|]; rewrite (sample_fold p l hits F C); auto.
  destruct hits as [|a [|b hits]].
  - cbn. ring.
  - cbn. field.
  - destruct (Z.ltb_spec 1 (0 + Z.of_nat (length (a :: b :: hits)))) as [_|L]; [|cbn [length] in L; lia].
    rewrite Z.add_0_l, <- INR_IZR_INZ, Rplus_0_l. reflexivity.
Qed.
Print Assumptions C47_sample.
Theorem C47_contributions : forall p l, exists hits, contributions p l hits /\ forall hits', contributions p l hits' -> hits' = hits.
Proof.
  intros p. induction l as [|g l (hits & C & U)].
  - exists []. split; [constructor|]. intros h H. inversion H. auto.
  - assert (D : (exists v, covers g p v) \/ forall v, ~ covers g p v).
    { unfold covers. destruct (voxel_position (g_wrap g) p) as [v|]; [|right; intros v (X & _); discriminate].
      match goal with |- context [inside ?a ?b] => destruct (rbox_has (RBox a b) v) eqn:B end.
      - left. exists v. split; auto. apply rbox_has_iff in B. exact B.
      - right. intros v' (X & I). injection X as <-. rewrite (proj2 (rbox_has_iff (RBox _ _) v) I) in B. discriminate. }
    destruct D as [(v & V)|N].
    + exists (contribution g v :: hits). split; [constructor; auto|]. intros h H. inversion H as [|g' v' l' h' V' C'|g' l' h' V' C']; subst.
      * assert (v' = v) as -> by (destruct V, V'; congruence). f_equal. auto.
      * exfalso. apply (V' v V).
    + exists hits. split; [apply contributions_miss; auto|]. intros h H. inversion H as [|g' v' l' h' V' C'|g' l' h' V' C']; subst; auto.
      exfalso. apply (N v' V').
Qed.
Print Assumptions C47_contributions.
(** A group reports a point as inside exactly when a field has it. *)
Theorem C47_inside : forall p l, Forall made l -> point_isect p l = true <-> exists g v, In g l /\ covers g p v.
Proof.
  intros p l F. unfold point_isect.
  set (f := fun b g => match voxel_position (g_wrap g) p with Some v => if rbox_has (g_bounds g) v then true else b | None => b end).
  assert (X : forall b, fold_left f l b = true <-> b = true \/ exists g v, In g l /\ covers g p v).
  { induction l as [|g l IH]; intros b; cbn [fold_left].
    - split; [auto|]. intros [H|(g & v & [] & _)]. auto.
    - pose proof (Forall_inv F) as M. apply Forall_inv_tail in F. rewrite (IH F). unfold f. split.
      + destruct (voxel_position (g_wrap g) p) as [v|] eqn:P; [destruct (rbox_has (g_bounds g) v) eqn:B|].
        * intros _. right. exists g, v. split; [left; auto|]. split; auto. apply made_bounds; auto.
        * intros [H|(g' & v' & I & V)]; [auto|right; exists g', v'; split; [right|]; auto].
        * intros [H|(g' & v' & I & V)]; [auto|right; exists g', v'; split; [right|]; auto].
      + intros [->|(g' & v' & [<-|I] & V)].
        * left. destruct (voxel_position (g_wrap g) p) as [v|]; auto. destruct (rbox_has (g_bounds g) v); auto.
        * left. destruct V as (P & I). rewrite P. apply (made_bounds g v' M) in I. rewrite I. auto.
        * right. exists g', v'. auto. }
  rewrite X. split; [intros [H|H]; [discriminate|auto]|auto].
Qed.
Print Assumptions C47_inside.
(** The world space bounds test does not change any sample. *)
Theorem C47_bounds_optimization : forall p acc g s, affine_field g -> w_map (g_wrap g) = AMatrix s ->
  sample_optimized p acc g = sample_one p acc g.
Proof.
  intros p acc g s A S. pose proof (object_affine g A) as (OA & OI). destruct A as (A & O). destruct (voxel_matrix _ A) as (m & M & E & MS).
  rewrite S in MS. subst m.
  set (t := mmul (inverse (object_matrix (g_wrap g))) (mm_ws_vs s)).
  assert (T : affine t).
  { destruct M as (MD & MN), OI as (OD & ON). split; [|apply affine_mul; auto]. unfold t. rewrite det_mul. apply Rmult_integral_contrapositive_currified; auto. }
  assert (W : ws_to_vs (g_wrap g) = Some t).
  { unfold ws_to_vs, t, object_matrix. rewrite S. destruct (w_os (g_wrap g)); auto.
    rewrite (inverse_unique ident ident), mmul_ident_l by apply mmul_ident_l. auto. }
  assert (V : voxel_position (g_wrap g) p = mult_vec t p).
  { unfold voxel_position. rewrite to_object_eq. destruct (affine_image _ p OI) as (q & Q). rewrite Q, E. unfold t.
    symmetry. apply mult_vec_mul_none; auto. }
  unfold sample_optimized, sample_one, ws_bounds. rewrite W, V.
  destruct (C31_affine (inverse t) (g_bounds g)) as (c & -> & C & _). { apply affine_inverse; apply T. }
  destruct (rbox_has c p) eqn:B; [reflexivity|].
  destruct (mult_vec t p) as [v|] eqn:Q; [|reflexivity]. destruct (rbox_has (g_bounds g) v) eqn:I; [|reflexivity].
  apply rbox_has_iff in I. destruct (C v I) as (q & X & Y). apply mult_vec_inverse in Q; [|apply T]. rewrite Q in X. injection X as <-.
  apply rbox_has_iff in Y. congruence.
Qed.
Print Assumptions C47_bounds_optimization.

Example C47_example : let g value := GField (Wrapper (ANull (Frame (R3 0 0 0) (R3 1 1 1))) None) (Box (V3 0 0 0) (V3 1 0 0))
    (RBox (R3 0 0 0) (R3 2 1 1)) value (fun p => rx p) None in
  made (g (fun _ => 0)) /\ contributions (R3 (1 / 2) 0 0) [g (fun _ => 0); g (fun _ => 0)] [1 / 2; 1 / 2] /\
  group_sample false (R3 (1 / 2) 0 0) [g (fun _ => 0); g (fun _ => 0)] 0 = 1 / 2.
Proof.
  intros g. assert (M : made (g (fun _ => 0))).
  { split; [reflexivity|]. unfold small_voxel. cbn. lia. }
  assert (C : contributions (R3 (1 / 2) 0 0) [g (fun _ => 0); g (fun _ => 0)] [1 / 2; 1 / 2]).
  { assert (V : covers (g (fun _ => 0)) (R3 (1 / 2) 0 0) (R3 (1 / 2) 0 0)).
    { split; [apply (null_position (Box (V3 0 0 0) (V3 0 0 0)) (fun _ => 0))|]. unfold inside. cbn. lra. }
    apply (contributions_hit _ (g (fun _ => 0)) (R3 (1 / 2) 0 0) _ [1 / 2]); auto.
    apply (contributions_hit _ (g (fun _ => 0)) (R3 (1 / 2) 0 0) _ []); auto. constructor. }
  split; auto. split; auto. destruct (C47_sample _ _ _ (Forall_cons _ M (Forall_cons _ M (Forall_nil _))) C) as (_ & ->). cbn. field.
Qed.

(** ** C48 *)
Lemma frame_unit e f v : set_frame e = Ok f -> has_voxels e ->
  rx (fr_origin f) <= rx v <= rx (fr_origin f) + rx (fr_res f) -> ry (fr_origin f) <= ry v <= ry (fr_origin f) + ry (fr_res f) ->
  rz (fr_origin f) <= rz v <= rz (fr_origin f) + rz (fr_res f) -> unit_cube (voxel_to_local f v).
Proof.
  intros F (A & B & C). apply set_frame_ok in F. subst f. cbn [fr_origin fr_res rx ry rz].
  assert (P : forall lo hi, (lo <= hi)%Z -> 0 < IZR (hi - lo + 1)) by (intros; apply IZR_lt; lia).
  apply P in A, B, C. unfold unit_cube, inside, voxel_to_local. cbn [fr_origin fr_res rx ry rz]. rewrite !lerpfactor_res by lra.
  assert (Q : forall x o r, 0 < r -> o <= x <= o + r -> 0 <= (x - o) / r <= 1).
  { intros x o r R0 H. split; [apply le_div; lra|apply div_le; lra]. }
  intros X Y Z. auto.
Qed.
(** The world bounds of a group contain every point a field has in its data window, if the
    data windows are inside the extents. *)
Theorem C48_bounds : forall l, l <> [] -> (forall g, In g l -> affine_field g) -> exists b, group_bounds l None = Some (Some b) /\
  (forall g w v, In g l -> window_in_extents g -> covers g w v -> inside (rmin b) (rmax b) w) /\
  (forall g c w, In g l -> In c unit_corners -> corner_to_world (g_wrap g) c = Some w -> inside (rmin b) (rmax b) w) /\
  (forall d, (forall g c w, In g l -> In c unit_corners -> corner_to_world (g_wrap g) c = Some w -> inside (rmin d) (rmax d) w) ->
     inside (rmin d) (rmax d) (rmin b) /\ inside (rmin d) (rmax d) (rmax b)).
Proof.
  intros l NE AF.
  assert (X : forall l b, (forall g, In g l -> affine_field g) -> l <> [] \/ b <> None -> exists c, group_bounds l b = Some (Some c) /\
    (forall d, b = Some d -> forall q, inside (rmin d) (rmax d) q -> inside (rmin c) (rmax c) q) /\
    (forall g k w, In g l -> In k unit_corners -> corner_to_world (g_wrap g) k = Some w -> inside (rmin c) (rmax c) w) /\
    (forall d, (forall c0, b = Some c0 -> inside (rmin d) (rmax d) (rmin c0) /\ inside (rmin d) (rmax d) (rmax c0)) ->
      (forall g k w, In g l -> In k unit_corners -> corner_to_world (g_wrap g) k = Some w -> inside (rmin d) (rmax d) w) ->
      inside (rmin d) (rmax d) (rmin c) /\ inside (rmin d) (rmax d) (rmax c))).
  { clear. induction l as [|g l IH]; intros b AF N.
    - destruct b as [c|]; [|destruct N; congruence]. exists c. cbn. split; [auto|]. split; [intros d D; injection D as <-; auto|].
      split; [contradiction|]. intros d H _. apply H; auto.
    - cbn [group_bounds].
      assert (DEF : forall k, In k unit_corners -> corner_to_world (g_wrap g) k <> None).
      { intros k _. destruct (AF g (or_introl eq_refl)) as (A & O). destruct (local_matrix _ A) as (m & M & E).
        unfold corner_to_world. rewrite E. destruct (affine_image m k M) as (q & ->).
        destruct (object_affine g (conj A O)) as (OA & _). unfold object_matrix in OA. destruct (w_os (g_wrap g)); [|discriminate].
        destruct (affine_image _ q OA) as (r & ->). discriminate. }
      destruct (extend_all_spec (corner_to_world (g_wrap g)) unit_corners b) as (c1 & -> & I1 & G1 & M1); [left; discriminate|auto|].
      destruct (IH (Some c1)) as (c & C & G2 & I2 & M2); [intros; apply AF; right; auto|right; discriminate|].
      exists c. split; [auto|]. split; [|split].
      + intros d D q Q. apply (G2 c1); auto. apply (G1 d); auto.
      + intros g' k w [<-|I] K W; [|apply (I2 g' k); auto]. apply (G2 c1); auto. apply (I1 k); auto.
      + intros d D1 D2. apply M2.
        * intros c0 E. injection E as <-. apply M1; auto. intros v q V Q. apply (D2 g v); auto. left. auto.
        * intros g' k w I K W. apply (D2 g' k w); auto. right. auto. }
  destruct (X l None AF (or_introl NE)) as (b & B & _ & I & M). exists b. split; auto. split; [|split; [exact I|]].
  2:{ intros d D. apply M; [discriminate|auto]. }
  intros g w v G WI (P & V).
  (* the local position *)
  destruct (AF g G) as (A & O). destruct (local_matrix _ A) as (m & MA & E).
  destruct (object_affine g (conj A O)) as (OA & OI).
  assert (CW : forall k, corner_to_world (g_wrap g) k = mult_vec (mmul m (object_matrix (g_wrap g))) k).
  { intros k. unfold corner_to_world. rewrite E. destruct (affine_image m k MA) as (q & Q). rewrite Q.
    rewrite (mult_vec_mul_none _ _ _ _ Q). unfold object_matrix. destruct (w_os (g_wrap g)); auto. rewrite mult_vec_ident. auto. }
  assert (L : exists u, unit_cube u /\ corner_to_world (g_wrap g) u = Some w).
  { unfold voxel_position in P. destruct (to_object (g_wrap g) w) as [o|] eqn:TO; [|discriminate].
    assert (OB : mult_vec (object_matrix (g_wrap g)) o = Some w) by (rewrite to_object_eq in TO; apply mult_vec_inverse'; auto; apply OA).
    assert (U : exists u, unit_cube u /\ a_local_to_world (w_map (g_wrap g)) u = Some o).
    { unfold window_in_extents in WI. destruct V as (VX & VY & VZ). cbn [rx ry rz] in VX, VY, VZ.
      destruct (w_map (g_wrap g)) as [s|s|f]; [|contradiction|]; cbn in A.
      - destruct A as (h & a & H & IP & IV & N & HV). destruct (C30_world_voxel h s 0 a H IP IV HV) as (_ & _ & WV & SF).
        destruct (C30_time_zero h s o H) as (Z1 & _). cbn in P. rewrite Z1, WV in P.
        destruct (m_world_to_local s 0 o) as [u|] eqn:WL; [|discriminate]. cbn in P. injection P as <-. exists u. split.
        + pose proof (frame_unit _ _ (local_to_voxel (mm_frame s) u) SF HV) as FU.
          destruct (C30_local_voxel _ _ HV SF) as (LV & _). rewrite LV in FU. apply FU; lra.
        + apply (C30_world_local h s 0 a H IP IV) in WL. destruct (C30_time_zero h s u H) as (_ & _ & _ & Z4). cbn. rewrite Z4. auto.
      - destruct A as (e & SF & HV). cbn in P. injection P as <-. exists o. split; [|reflexivity].
        pose proof (frame_unit _ _ (n_world_to_voxel f o) SF HV) as FU. unfold n_world_to_voxel in *.
        destruct (C30_local_voxel _ _ HV SF) as (LV & _). rewrite LV in FU. apply FU; lra. }
    destruct U as (u & UC & UW). exists u. split; auto. rewrite CW. rewrite E in UW. rewrite (mult_vec_mul_none _ _ _ _ UW). auto. }
  destruct L as (u & UC & UW). rewrite CW in UW.
  assert (NP : no_perspective (mmul m (object_matrix (g_wrap g)))) by (apply affine_mul; [apply MA|apply OA]).
  apply (image_inside (mmul m (object_matrix (g_wrap g))) (R3 0 0 0) (R3 1 1 1) u w b UC); auto.
  - intros k _. destruct NP as (N0 & N1 & N2 & N3). unfold MapP.weight. rewrite N0, N1, N2, N3. lra.
  - intros k q K Q. apply (I g k); auto. rewrite CW. auto.
Qed.
Print Assumptions C48_bounds.
Example C48_example : let g := null_field (Box (V3 0 0 0) (V3 0 0 0)) (fun _ => 0) in
  affine_field g /\ window_in_extents g /\ covers g (R3 1 (1 / 2) 0) (R3 1 (1 / 2) 0).
Proof.
  intros g. split; [apply null_affine|]. split; [unfold window_in_extents; cbn; lra|]. split; [apply null_position|unfold inside; cbn; lra].
Qed.

(** With a data window that is larger than the extents, points of the field are outside
    the bounds. *)
Theorem C48_window_refuted : exists g w v b, affine_field g /\ made g /\ covers g w v /\ group_bounds [g] None = Some (Some b) /\
  ~ inside (rmin b) (rmax b) w.
Proof.
  set (g := GField (Wrapper (ANull (Frame (R3 0 0 0) (R3 1 1 1))) None) (Box (V3 0 0 0) (V3 4 0 0)) (RBox (R3 0 0 0) (R3 5 1 1)) (fun _ => 0) (fun _ => 0) None).
  assert (A : affine_field g) by (apply (null_affine (Box (V3 0 0 0) (V3 4 0 0)) (fun _ => 0))).
  destruct (C48_bounds [g]) as (b & B & _ & _ & M); [discriminate|intros g' [<-|[]]; auto|].
  exists g, (R3 3 0 0), (R3 3 0 0), b. split; auto. split; [split; [reflexivity|unfold small_voxel; cbn; lia]|]. split.
  { split; [apply (null_position (Box (V3 0 0 0) (V3 4 0 0)) (fun _ => 0))|unfold inside; cbn; lra]. }
  split; auto. intros (X & _). destruct (M (RBox (R3 0 0 0) (R3 1 1 1))) as (_ & Y & _).
  - intros g' c w [<-|[]] C W. cbn in W. injection W as <-.
    apply (proj1 (Forall_forall _ _) corners_cube c C).
  - cbn in X, Y. lra.
Qed.
Print Assumptions C48_window_refuted.
