(** Where the levels of minimum and maximum fields are. *)
From Coq Require Import ZArith Reals List Bool Lra Lia.
From Verif Require Import Model.Base Model.RealM Model.VecM Model.MatM Model.CurveM Model.CoordM Model.MapM Model.OpsM
  Model.CopyM Model.RayM Model.GroupM Model.MipMapM Model.MinMaxM
  Spec.VoxelSpec Spec.CurveSpec Spec.CoordSpec Spec.MapSpec Spec.GroupSpec Spec.MipMapSpec Spec.FilterSpec Spec.MinMaxSpec
  Proof.BaseP Proof.MatP Proof.PointP Proof.CurveP Proof.MapP Proof.RealP Proof.CoordP Proof.GroupP Proof.MipMapP Props.MipMapProps.
Import ListNotations.
Open Scope R_scope.

Lemma mat_run_app l : forall s l', mat_run s (l ++ l') = let* s' := mat_run s l in mat_run s' l'.
Proof. induction l as [|o l IH]; intros s l'; [reflexivity|]. cbn. destruct (mat_step s o); cbn; auto. Qed.
Lemma samples_extents h e : samples_of (h ++ [MExtents e]) = samples_of h.
Proof. unfold samples_of. rewrite fold_left_app. reflexivity. Qed.
Lemma extents_extents h e : extents_of (h ++ [MExtents e]) = e.
Proof. unfold extents_of. rewrite fold_left_app. reflexivity. Qed.
Lemma interpolates_extents h e t m : interpolates (h ++ [MExtents e]) t m <-> interpolates h t m.
Proof. unfold interpolates. rewrite samples_extents. reflexivity. Qed.
Lemma steady_extents h e : steady h -> steady (h ++ [MExtents e]).
Proof.
  intros (m0 & I & S). exists m0. split; [apply interpolates_extents; auto|]. rewrite samples_extents. intros t m J K. apply (S t m); auto.
  apply interpolates_extents in K. auto.
Qed.

Lemma left_ident c : left_by ident c = c.
Proof. unfold left_by. rewrite <- (map_id c) at 2. apply map_ext. intros [t m]. cbn. rewrite mmul_ident_l. reflexivity. Qed.
(** Every mapping is what some calls lead to. *)
Lemma reached n e : good n -> set_frame e = Ok (mm_frame n) ->
  exists h, mat_run mat_init h = Ok n /\ extents_of h = e.
Proof.
  intros G F. destruct (run_sets ident (mm_curve n) mat_init init_good) as (n' & R & G' & C).
  exists (map (fun a => MSetAt (fst a) (mmul ident (snd a))) (mm_curve n) ++ [MExtents e]). split; [|apply extents_extents].
  rewrite mat_run_app, R. cbn [bind mat_run mat_step]. rewrite F. cbn [bind]. 
  rewrite (good_eq n G) at 2. f_equal. f_equal. rewrite C. etransitivity; [apply rebuild; apply good_rising; auto|apply left_ident].
Qed.
Lemma reached_affine n e : good n -> set_frame e = Ok (mm_frame n) -> has_voxels e ->
  det (world_at n 0) <> 0 -> no_perspective (world_at n 0) -> affine_map (AMatrix n).
Proof.
  intros G F V D N. destruct (reached n e G F) as (h & R & E). exists h, (world_at n 0). split; auto. split; [apply history_matrix; auto|].
  split; [apply invertible_det; auto|]. split; auto. rewrite E. auto.
Qed.

Lemma res_frame r : res_ok r -> exists f, set_frame (res_box r) = Ok f.
Proof.
  intros (X & Y & Z). unfold set_frame, res_box. cbn [bmin bmax vx vy vz]. rewrite !i32_ok by (unfold int_min, int_max; lia).
  cbn [bind]. rewrite !i32_ok by (unfold int_min, int_max; lia). cbn [bind]. eauto.
Qed.
Lemma res_voxels r : res_ok r -> has_voxels (res_box r).
Proof. intros (X & Y & Z). unfold has_voxels, res_box. cbn [bmin bmax vx vy vz]. lia. Qed.
Definition part (new old : Z) (x : R) : R := x * IZR new / IZR old.
Definition part3 (new old : v3) (p : r3) : r3 := R3 (part (vx new) (vx old) (rx p)) (part (vy new) (vy old) (ry p)) (part (vz new) (vz old) (rz p)).
Lemma part_local new old fn fo p : res_ok new -> res_ok old -> set_frame (res_box new) = Ok fn -> set_frame (res_box old) = Ok fo ->
  voxel_to_local fn (part3 new old p) = voxel_to_local fo p.
Proof.
  intros (A & B & C) (A' & B' & C') F G. apply set_frame_ok in F, G. rewrite F, G. unfold voxel_to_local, res_box, part3, part.
  cbn [fr_origin fr_res bmin bmax vx vy vz rx ry rz].
  assert (N : forall n, (1 <= n)%Z -> IZR (n - 1 - 0 + 1) <> 0) by (intros n P; apply not_0_IZR; lia).
  assert (E : forall n, IZR (n - 1 - 0 + 1) = IZR n) by (intros n; f_equal; lia).
  rewrite !lerpfactor_res by (apply N; lia). rewrite !E.
  assert (M : forall n, (1 <= n)%Z -> IZR n <> 0) by (intros n P; apply not_0_IZR; lia).
  f_equal; field; split; apply M; lia.
Qed.

Section Positions.
Variables (h : list mat_op) (s : matmap) (m0 : m44) (b new : v3).
Hypotheses (H : mat_run mat_init h = Ok s) (EX : extents_of h = res_box b) (NE : samples_of h <> []) (ST : steady h)
  (I0 : interpolates h 0 m0) (IV : invertible m0) (Rb : res_ok b) (Rn : res_ok new).
Lemma world0 : world_at s 0 = m0.
Proof. apply (interpolates_unique h 0); auto. apply history_matrix; auto. Qed.
Lemma inv0 : det m0 <> 0.
Proof. apply invertible_det; auto. Qed.
Lemma affine0 : no_perspective m0.
Proof. rewrite <- world0. apply (base_affine h); auto. Qed.

Lemma finest : exists s', map_extents (MapMatrix s) (res_box new) = Ok (MapMatrix s') /\
  mat_run mat_init (h ++ [MExtents (res_box new)]) = Ok s' /\ affine_map (AMatrix s') /\
  forall w q, m_world_to_voxel0 s w = Some q -> m_world_to_voxel0 s' w = Some (part3 new b q).
Proof.
  destruct (run_init h s H) as (G & _ & Fs). rewrite EX in Fs. destruct (res_frame new Rn) as (f & F).
  exists (update_transform f (mm_curve s)). unfold map_extents. rewrite F. split; [reflexivity|].
  set (s' := update_transform f (mm_curve s)).
  assert (G' : good s') by (apply update_good; apply good_rising; auto).
  assert (W : world_at s' 0 = m0) by apply world0.
  split; [rewrite mat_run_app, H; cbn [bind mat_run mat_step]; rewrite F; reflexivity|].
  split; [apply (reached_affine s' (res_box new)); auto; [apply res_voxels; auto|rewrite W; apply inv0|rewrite W; apply affine0]|].
  pose proof (frame_full _ _ Fs (res_voxels b Rb)) as P. pose proof (frame_full _ _ F (res_voxels new Rn)) as P'.
  intros w q Q. destruct (at_zero s w G) as (Z & _). rewrite Z in Q. clear Z. destruct (at_zero s' w G') as (Z & _). rewrite Z. clear Z.
  rewrite ws_vs in * by auto. rewrite world0 in Q. rewrite W. change (mm_frame s') with f.
  assert (D : forall fr, full fr -> det (mmul (vs_ls fr) m0) <> 0).
  { intros fr Pf. rewrite det_mul. apply Rmult_integral_contrapositive_currified; [apply full_det'; auto|apply inv0]. }
  apply mult_vec_inverse; [apply D; auto|]. apply mult_vec_inverse' in Q; [|apply D; auto].
  rewrite (mult_vec_mul_none _ _ q _ (vl_matrix _ _ P)) in Q.
  rewrite (mult_vec_mul_none _ _ _ _ (vl_matrix _ _ P')). rewrite (part_local new b f (mm_frame s)); auto.
Qed.
End Positions.

Definition half3 (l : Z) (p : r3) : r3 := R3 (rx p / IZR (2 ^ l)) (ry p / IZR (2 ^ l)) (rz p / IZR (2 ^ l)).
Lemma coarser h s m0 b r l : mat_run mat_init h = Ok s -> extents_of h = res_box b -> samples_of h <> [] -> steady h ->
  interpolates h 0 m0 -> invertible m0 -> res_ok b -> res_ok r -> (0 <= l)%Z ->
  exists n, level_mapping (MapMatrix s) (V3 0 0 0) (res_box r) l = Some (Ok (MapMatrix n)) /\ affine_map (AMatrix n) /\
    forall w q, m_world_to_voxel0 s w = Some q -> m_world_to_voxel0 n w = Some (half3 l q).
Proof.
  intros H EX NE ST I0 IV Rb Rr L. assert (VX : has_voxels (extents_of h)) by (rewrite EX; apply res_voxels; auto).
  destruct (C46_level h s (V3 0 0 0) (res_box r) l H VX NE ST (res_voxels r Rr) (res_frame r Rr) L) as (n & E & F & _ & P & _).
  destruct (level_is h s (V3 0 0 0) (res_box r) l H VX NE ST (res_frame r Rr)) as (f & n' & F' & E' & G & Fn & W).
  assert (n' = n) by congruence. subst n'. exists n. split; auto.
  destruct (run_init h s H) as (Gs & _ & _). pose proof (pow_pos l L) as P2. split.
  - apply (reached_affine n (res_box r)); auto; [apply res_voxels; auto| |].
    + rewrite W, det_mul, (world0 h s m0) by auto. apply Rmult_integral_contrapositive_currified; [|apply inv0; auto].
      pose proof (base_positive h s H VX) as (Px & Py & Pz).
      assert (Q1 : 0 < rx (size_of (res_box r)) /\ 0 < ry (size_of (res_box r)) /\ 0 < rz (size_of (res_box r))).
      { destruct (res_voxels r Rr) as (? & ? & ?). unfold size_of. cbn [rx ry rz]. repeat split; apply IZR_lt; lia. }
      destruct Q1 as (Qx & Qy & Qz). set (sz := size_of (res_box r)) in *. clearbody sz.
      replace (det _) with (IZR (2 ^ l) * rx sz / rx (fr_res (mm_frame s)) * (IZR (2 ^ l) * ry sz / ry (fr_res (mm_frame s))) *
         (IZR (2 ^ l) * rz sz / rz (fr_res (mm_frame s)))) by (unfold grow, det, sub2; cbn; ring).
      repeat apply Rmult_integral_contrapositive_currified; try lra; apply Rinv_neq_0_compat; lra.
    + rewrite W. apply affine_mul; [repeat split|apply (base_affine h); auto].
  - intros w q Q. destruct (at_zero s w Gs) as (Z & _). rewrite Z in Q. clear Z. destruct (at_zero n w G) as (Z & _). rewrite Z. clear Z.
    apply (P 0 m0 I0 IV w _ q Q). rewrite EX. unfold same_place, same_place1, half3. cbn [res_box bmin vx vy vz rx ry rz].
    rewrite Z.div_0_l by lia. repeat split; field; lra.
Qed.
