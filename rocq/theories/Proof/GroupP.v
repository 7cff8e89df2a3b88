(** Proofs about groups of fields. *)
From Coq Require Import ZArith Reals List Bool Lra Lia.
From Verif Require Import Model.Base Model.LoopM Model.RealM Model.VecM Model.MatM Model.CurveM Model.CoordM Model.MapM Model.RayM Model.GroupM
  Spec.VoxelSpec Spec.CoordSpec Spec.MapSpec Spec.GroupSpec Proof.LoopP Proof.MatP Proof.PointP Proof.MapP Proof.RealP Proof.CoordP Props.MapProps Props.CoordProps.
Import ListNotations.
Open Scope R_scope.

Definition affine (m : m44) : Prop := det m <> 0 /\ no_perspective m.
Lemma affine_image m p : affine m -> exists q, mult_vec m p = Some q.
Proof. intros (_ & N). rewrite affine_def by auto. eauto. Qed.
Lemma affine_ident : affine ident.
Proof. split; [rewrite det_ident; lra|repeat split]. Qed.

Definition object_matrix (w : wrapper) : m44 := match w_os w with Some o => o | None => ident end.
Lemma object_affine g : affine_field g -> affine (object_matrix (g_wrap g)) /\ affine (inverse (object_matrix (g_wrap g))).
Proof.
  intros (_ & O).
  assert (A : affine (object_matrix (g_wrap g))).
  { unfold object_matrix. destruct (w_os (g_wrap g)) as [o|]; [|apply affine_ident]. destruct (O o eq_refl) as (V & N).
    split; auto. apply invertible_det; auto. }
  split; auto. destruct A as (D & N). split; [|apply affine_inverse; auto].
  apply (det_ne _ _ (inverse_r _ D)).
Qed.
Lemma to_object_eq w p : to_object w p = mult_vec (inverse (object_matrix w)) p.
Proof.
  unfold to_object, object_matrix. destruct (w_os w); auto. rewrite (inverse_unique ident ident), mult_vec_ident by apply mmul_ident_l. auto.
Qed.

Lemma frame_full e f : set_frame e = Ok f -> has_voxels e -> full f.
Proof.
  intros F (A & B & C). apply set_frame_ok in F. rewrite F. unfold full. cbn.
  repeat split; intros X; apply (eq_IZR _ 0) in X; lia.
Qed.
(** World to voxel space, and local to world space, in one matrix. *)
Lemma voxel_matrix m : affine_map m -> exists a, affine a /\ (forall p, a_world_to_voxel m p = mult_vec a p) /\
  match m with AMatrix s => a = mm_ws_vs s | _ => True end.
Proof.
  destruct m as [s|s|f]; [|easy|].
  - intros (h & a & H & I & V & N & E). destruct (run_init h s H) as (G & _). pose proof (full_extents h s H E) as FL.
    apply invertible_det in V. rewrite (interpolates_unique h 0 a (world_at s 0) I (history_matrix h s 0 H)) in N, V.
    exists (mm_ws_vs s). split; [|split; auto].
    assert (mm_ws_vs s = inverse (mmul (vs_ls (mm_frame s)) (world_at s 0))) as ->.
    { rewrite (good_eq s G). reflexivity. }
    assert (D : det (mmul (vs_ls (mm_frame s)) (world_at s 0)) <> 0).
    { rewrite det_mul. apply Rmult_integral_contrapositive_currified; auto. apply full_det'; auto. }
    split; [apply (det_ne _ _ (inverse_r _ D))|]. apply affine_inverse; auto. apply affine_mul; auto. apply vs_ls_affine; auto.
  - intros (e & F & E). pose proof (frame_full e f F E) as FL. exists (local_to_voxel_matrix f).
    split; [|split; auto; intros; cbn; unfold n_world_to_voxel; rewrite lv_matrix; auto].
    split; [apply full_det; auto|]. unfold no_perspective, local_to_voxel_matrix, mmul, rowmul, scale, translate. cbn. lra.
Qed.
Lemma local_matrix m : affine_map m -> exists a, affine a /\ (forall p, a_local_to_world m p = mult_vec a p).
Proof.
  destruct m as [s|s|f]; [|easy|].
  - intros (h & a & H & I & V & N & E). destruct (run_init h s H) as (G & _).
    apply invertible_det in V. rewrite (interpolates_unique h 0 a (world_at s 0) I (history_matrix h s 0 H)) in N, V.
    exists (world_at s 0). split; [split; auto|]. intros p. cbn. unfold m_local_to_world0.
    rewrite (good_eq s G). reflexivity.
  - intros _. exists ident. split; [apply affine_ident|]. intros p. cbn. rewrite mult_vec_ident. auto.
Qed.
Lemma position_defined g p : affine_field g -> exists v, voxel_position (g_wrap g) p = Some v.
Proof.
  intros A. destruct (object_affine g A) as (_ & O). destruct A as (A & _). destruct (voxel_matrix _ A) as (m & M & E & _).
  unfold voxel_position. rewrite to_object_eq. destruct (affine_image _ p O) as (q & ->). rewrite E. apply affine_image; auto.
Qed.

(** Boxes. *)
Lemma map_bounds_ext f g b : (forall p, f p = g p) -> map_bounds f b = map_bounds g b.
Proof.
  intros H. unfold map_bounds. generalize (vertices b) (@None rbox). induction l as [|v l IH]; intros c; cbn; auto.
  rewrite H. destruct (g v); auto.
Qed.
Lemma query_bounds g b : affine_field g -> exists ob vb, object_bounds (g_wrap g) b = Some (Some ob) /\
  map_bounds (a_world_to_voxel (w_map (g_wrap g))) ob = Some (Some vb) /\
  forall w v, inside (rmin b) (rmax b) w -> voxel_position (g_wrap g) w = Some v -> inside (rmin vb) (rmax vb) v.
Proof.
  intros A. destruct (object_affine g A) as (_ & O). destruct A as (A & _). destruct (voxel_matrix _ A) as (m & M & E & _).
  assert (OB : exists ob, object_bounds (g_wrap g) b = Some (Some ob) /\
    forall w p, inside (rmin b) (rmax b) w -> to_object (g_wrap g) w = Some p -> inside (rmin ob) (rmax ob) p).
  { unfold object_bounds, to_object. destruct (w_os (g_wrap g)) as [o|] eqn:OS.
    - assert (N : no_perspective (inverse o)) by (unfold object_matrix in O; rewrite OS in O; apply O).
      destruct (C31_affine (inverse o) b N) as (c & C & D & _). exists c. split; auto.
      intros w p I P. destruct (D w I) as (q & Q & J). congruence.
    - exists b. split; auto. intros w p I P. injection P as <-. auto. }
  destruct OB as (ob & OB & OI). exists ob. rewrite (map_bounds_ext _ (mult_vec m)) by auto.
  destruct (C31_affine m ob (proj2 M)) as (vb & C & D & _). exists vb. split; [auto|]. split; [exact C|].
  intros w v I V. unfold voxel_position in V. destruct (to_object (g_wrap g) w) as [p|] eqn:P; [|discriminate].
  rewrite E in V. destruct (D p (OI w p I P)) as (q & Q & J). congruence.
Qed.

Lemma clamp_lower_pos lo x i : (0 <= i <= int_max)%Z -> IZR i <= x < IZR i + 1 -> lo <= x -> (clamp_for_int lo <= i)%Z.
Proof.
  intros A C L. destruct (Rle_dec 0 lo) as [P|P].
  - apply clamp_lower with x; auto. unfold int_min. lia.
  - unfold clamp_for_int. destruct (rltb_spec lo (IZR int_min)); [unfold int_min; lia|].
    destruct (rltb_spec (IZR int_max) lo); [assert (0 <= IZR int_max) by (apply IZR_le; unfold int_max; lia); lra|].
    unfold rtrunc. destruct (rleb_spec 0 lo); [lra|]. pose proof (rceil_spec lo).
    assert (rceil lo < 1)%Z by (apply lt_IZR; lra). lia.
Qed.
Lemma discrete_in vb p v : inside (rmin vb) (rmax vb) p -> in_cell p v -> int_voxel v -> (0 <= vx v /\ 0 <= vy v /\ 0 <= vz v)%Z ->
  in_box v (discrete_bounds vb).
Proof.
  intros (A & B & C) (D & E & F) (G & H & I) (J & K & L). unfold discrete_bounds, in_box. cbn [bmin bmax vx vy vz].
  rewrite !rfloor_IZR, !rceil_IZR. split; [|split]; split.
  - apply clamp_lower_pos with (rx p); auto; [lia|lra].
  - apply clamp_upper with (rx p); auto; lra.
  - apply clamp_lower_pos with (ry p); auto; [lia|lra].
  - apply clamp_upper with (ry p); auto; lra.
  - apply clamp_lower_pos with (rz p); auto; [lia|lra].
  - apply clamp_upper with (rz p); auto; lra.
Qed.
Lemma clip_in v a b : in_box v (clip_bounds a b) <-> in_box v a /\ in_box v b.
Proof. unfold in_box, clip_bounds. cbn [bmin bmax vx vy vz]. lia. Qed.
Lemma intersects_in v a b : in_box v a -> in_box v b -> box_intersects a b = true.
Proof.
  unfold in_box, box_intersects. intros H K. apply negb_true_iff. rewrite !orb_false_iff, !Z.ltb_ge. lia.
Qed.

(** What a query visits. *)
Lemma visit_ok g q v0 : affine_field g -> meets g q v0 -> exists b, visit_box g q = Some (Some b) /\
  (forall v, in_box v b -> in_box v (g_dw g)) /\ (forall v, meets g q v -> in_box v b).
Proof.
  intros A M. unfold visit_box. destruct q as [q|].
  - destruct (query_bounds g q A) as (ob & vb & -> & -> & H).
    assert (I : forall v, meets g (Some q) v -> in_box v (clip_bounds (discrete_bounds vb) (g_dw g))).
    { intros v (B & V & P & w & W & p & X & C). apply clip_in. split; auto. apply discrete_in with p; auto. apply (H w); auto. }
    rewrite (intersects_in v0); [|apply M|apply I; auto]. eexists. split; [reflexivity|]. split; auto.
    intros v B. apply clip_in in B. tauto.
  - exists (g_dw g). split; [auto|]. split; [auto|]. intros v V. apply V.
Qed.

Lemma fold_min_max g l : forall a b c d, fold_left (min_max_one g) l (a, b) = (c, d) ->
  c <= a /\ b <= d /\ (forall v, In v l -> c <= g_value g v <= d) /\
  (c = a \/ exists v, In v l /\ c = g_value g v) /\ (d = b \/ exists v, In v l /\ d = g_value g v).
Proof.
  induction l as [|v l IH]; intros a b c d H; cbn [fold_left] in H.
  - injection H as <- <-. repeat split; auto; try lra; contradiction.
  - unfold min_max_one at 2 in H. cbn [fst snd] in H. destruct (IH _ _ _ _ H) as (A & B & C & D & E).
    pose proof (Rmin_l (g_value g v) a). pose proof (Rmin_r (g_value g v) a). pose proof (Rmax_l (g_value g v) b). pose proof (Rmax_r (g_value g v) b).
    split; [lra|]. split; [lra|]. split; [intros x [<-|X]; [lra|auto]|]. split.
    + destruct D as [D|(x & X & D)]; [|right; exists x; split; [right|]; auto].
      unfold Rmin in D. destruct (Rle_dec (g_value g v) a); [right; exists v; split; [left|]; auto|left; auto].
    + destruct E as [E|(x & X & E)]; [|right; exists x; split; [right|]; auto].
      unfold Rmax in E. destruct (Rle_dec (g_value g v) b); [left; auto|right; exists v; split; [left|]; auto].
Qed.

Definition bounds_result (l : list gfield) (q : option rbox) (a b c d : R) : Prop :=
  c <= a /\ b <= d /\ (forall g v, In g l -> meets g q v -> c <= g_value g v <= d) /\
  (c = a \/ exists g v, In g l /\ in_box v (g_dw g) /\ c = g_value g v) /\
  (d = b \/ exists g v, In g l /\ in_box v (g_dw g) /\ d = g_value g v).
Lemma bounds_app l1 l2 q a b c d e f : bounds_result l1 q a b c d -> bounds_result l2 q c d e f -> bounds_result (l1 ++ l2) q a b e f.
Proof.
  intros (A & B & C & D & E) (A' & B' & C' & D' & E'). split; [lra|]. split; [lra|]. split; [|split].
  - intros g v I M. apply in_app_or in I as [I|I]; [specialize (C g v I M); lra|apply C'; auto].
  - destruct D' as [->|(g & v & I & J & K)]; [|right; exists g, v; split; auto; apply in_or_app; auto].
    destruct D as [->|(g & v & I & J & K)]; [left; auto|right; exists g, v; split; auto; apply in_or_app; auto].
  - destruct E' as [->|(g & v & I & J & K)]; [|right; exists g, v; split; auto; apply in_or_app; auto].
    destruct E as [->|(g & v & I & J & K)]; [left; auto|right; exists g, v; split; auto; apply in_or_app; auto].
Qed.
Lemma vec_bounds q l : forall a b, (forall g, In g l -> affine_field g /\ exists v, meets g q v) ->
  exists c d, min_max_vec q l (a, b) = Some (c, d) /\ bounds_result l q a b c d.
Proof.
  induction l as [|g l IH]; intros a b H.
  - exists a, b. cbn. split; auto. repeat split; auto; try lra; contradiction.
  - destruct (H g (or_introl eq_refl)) as (A & v0 & M). cbn [min_max_vec].
    destruct (visit_ok g q v0 A M) as (bx & -> & S1 & S2).
    destruct (fold_left (min_max_one g) (box_voxels bx) (a, b)) as (c, d) eqn:F. destruct (fold_min_max _ _ _ _ _ _ F) as (F1 & F2 & F3 & F4 & F5).
    destruct (IH c d) as (e & f & E & R); [intros; apply H; right; auto|]. exists e, f. split; auto.
    apply (bounds_app [g] l q a b c d); auto. split; auto. split; auto. split; [|split].
    + intros g' v [<-|[]] MV. apply F3. apply voxels_in. auto.
    + destruct F4 as [->|(v & V & ->)]; auto. right. exists g, v. split; [left; auto|]. split; auto. apply S1, voxels_in; auto.
    + destruct F5 as [->|(v & V & ->)]; auto. right. exists g, v. split; [left; auto|]. split; auto. apply S1, voxels_in; auto.
Qed.
Lemma group_bounds_ok q l : forall a b, (forall g, In g (concat l) -> affine_field g /\ exists v, meets g q v) ->
  exists c d, group_min_max q l (a, b) = Some (c, d) /\ bounds_result (concat l) q a b c d.
Proof.
  induction l as [|v l IH]; intros a b H.
  - exists a, b. cbn. split; auto. repeat split; auto; try lra; contradiction.
  - cbn [group_min_max concat]. destruct (vec_bounds q v a b) as (c & d & -> & R); [intros; apply H; cbn; apply in_or_app; auto|].
    destruct (IH c d) as (e & f & E & R'); [intros; apply H; cbn; apply in_or_app; auto|]. exists e, f. split; auto.
    apply (bounds_app v (concat l) q a b c d); auto.
Qed.
