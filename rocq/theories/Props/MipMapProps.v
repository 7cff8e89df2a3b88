(** C46: positions in MIP levels. *)
From Coq Require Import ZArith Reals List Bool Lra Lia.
From Verif Require Import Model.Base Model.RealM Proof.RealP Model.VecM Model.MatM Model.CurveM Model.CoordM Model.MapM Model.CopyM
  Model.MipMapM Spec.CurveSpec Spec.MapSpec Spec.MipSpec Spec.MipMapSpec Proof.MatP Proof.PointP Proof.MapP Proof.MipMapP.
Import ListNotations.
Open Scope R_scope.

Lemma pow_pos l : (0 <= l)%Z -> 0 < IZR (2 ^ l).
Proof. intros H. apply IZR_lt. apply Z.pow_pos_nonneg; lia. Qed.
Lemma shift_eq o l : (0 <= l)%Z -> IZR (mip_shift o l) = IZR (o / 2 ^ l) * IZR (2 ^ l) - IZR o.
Proof. intros H. unfold mip_shift. rewrite Z.shiftl_mul_pow2, Z.shiftr_div_pow2 by auto. rewrite minus_IZR, mult_IZR. reflexivity. Qed.

(** The position [getVsMIPCoord] gives in a level is the same place. *)
Theorem C46_coord : forall offset l p q, (0 <= l)%Z ->
  (same_place offset l (V3 0 0 0) (V3 0 0 0) p q <-> p = mip_coord offset l q).
Proof.
  intros o l [px py pz] [qx qy qz] L. pose proof (pow_pos l L) as P.
  assert (A : forall o p q, same_place1 o l 0 0 p q <-> p = (q - IZR (mip_shift o l)) * / IZR (2 ^ l)).
  { intros o' p q. unfold same_place1. rewrite shift_eq by auto. split; intros E.
    - apply (Rmult_eq_reg_l (IZR (2 ^ l))); [|lra]. field_simplify; lra.
    - subst p. field. lra. }
  unfold same_place, mip_coord. cbn [vx vy vz rx ry rz]. rewrite !A. split.
  - intros (-> & -> & ->). reflexivity.
  - intros E. injection E as -> -> ->. auto.
Qed.
Print Assumptions C46_coord.
Example C46_coord_example : mip_coord (V3 5 (-3) 0) 2 (R3 7 1 2) = R3 2 (1 / 2) (1 / 2).
Proof.
  unfold mip_coord. change (mip_shift (vx (V3 5 (-3) 0)) 2) with (-1)%Z. change (mip_shift (vy (V3 5 (-3) 0)) 2) with (-1)%Z.
  change (mip_shift (vz (V3 5 (-3) 0)) 2) with 0%Z. change (2 ^ 2)%Z with 4%Z. cbn [rx ry rz]. f_equal; field.
Qed.

(** With a matrix mapping, a level is where the base is: at every time, two positions that
    are the same place are at the same position of the world.  The size of a voxel doubles
    from level to level. *)
Theorem C46_level : forall history s offset e l, mat_run mat_init history = Ok s -> has_voxels (extents_of history) ->
  samples_of history <> [] -> steady history -> has_voxels e -> int_size e -> (0 <= l)%Z ->
  exists n, level_mapping (MapMatrix s) offset e l = Some (Ok (MapMatrix n)) /\
    set_frame e = Ok (mm_frame n) /\
    (forall t p q, same_place offset l (bmin e) (bmin (extents_of history)) p q ->
       m_voxel_to_world n t p = m_voxel_to_world s t q) /\
    (forall t m, interpolates history t m -> invertible m ->
       forall w p q, m_world_to_voxel s t w = Some q ->
       (m_world_to_voxel n t w = Some p <-> same_place offset l (bmin e) (bmin (extents_of history)) p q)) /\
    mm_voxel n = R3 (IZR (2 ^ l) * rx (mm_voxel s)) (IZR (2 ^ l) * ry (mm_voxel s)) (IZR (2 ^ l) * rz (mm_voxel s)).
Proof.
  intros h s o e l H VX NE ST VE IE L. destruct (level_is h s o e l H VX NE ST IE) as (f & n & F & E & G & Fn & W).
  destruct (run_init h s H) as (Gs & _ & F0).
  assert (PL : forall t p q, same_place o l (bmin e) (bmin (extents_of h)) p q -> m_voxel_to_world n t p = m_voxel_to_world s t q).
  { intros t p q S. rewrite !vs_ws by auto. rewrite Fn, W, <- mmul_assoc.
    rewrite (mult_vec_mul_none _ _ p (voxel_to_local (mm_frame s) q)) by (apply (local_places h o e l); auto).
    rewrite (mult_vec_mul_none _ _ q (voxel_to_local (mm_frame s) q)); auto.
    apply vl_matrix. apply positive_full. apply (base_positive h); auto. }
  exists n. split; auto. split; [rewrite Fn; auto|]. split; [exact PL|].
  pose proof (pow_pos l L) as P2. pose proof (base_positive h s H VX) as PO.
  assert (PF : positive f).
  { apply set_frame_ok in F. rewrite F. destruct VE as (? & ? & ?). repeat split; cbn [fr_res rx ry rz]; apply IZR_lt; lia. }
  split.
  - intros t m I V w p q Q. apply invertible_det in V.
    assert (Wm : world_at s t = m) by (apply (interpolates_unique h t); auto; apply history_matrix; auto).
    assert (Dn : det (mmul (vs_ls (mm_frame n)) (world_at n t)) <> 0).
    { rewrite W, !det_mul, Wm. rewrite Fn. pose proof (full_det' f (positive_full _ PF)) as X.
      assert (Y : det (grow o (size_of e) (fr_res (mm_frame s)) l) <> 0).
      { assert (Q1 : 0 < rx (size_of e) /\ 0 < ry (size_of e) /\ 0 < rz (size_of e)).
        { destruct VE as (? & ? & ?). unfold size_of. cbn [rx ry rz]. repeat split; apply IZR_lt; lia. }
        destruct Q1 as (Qx & Qy & Qz). destruct PO as (Px & Py & Pz).
        replace (det _) with (IZR (2 ^ l) * rx (size_of e) / rx (fr_res (mm_frame s)) * (IZR (2 ^ l) * ry (size_of e) / ry (fr_res (mm_frame s))) *
           (IZR (2 ^ l) * rz (size_of e) / rz (fr_res (mm_frame s)))) by (unfold grow, det, sub2; cbn; ring).
        repeat apply Rmult_integral_contrapositive_currified; try lra; apply Rinv_neq_0_compat; lra. }
      repeat apply Rmult_integral_contrapositive_currified; auto. }
    assert (Ds : det (mmul (vs_ls (mm_frame s)) (world_at s t)) <> 0).
    { rewrite det_mul, Wm. apply Rmult_integral_contrapositive_currified; auto. apply full_det'. apply positive_full; auto. }
    rewrite ws_vs in Q by auto. apply mult_vec_inverse' in Q; auto. rewrite <- vs_ws in Q by auto.
    rewrite ws_vs by auto.
    assert (UN : forall p', mult_vec (inverse (mmul (vs_ls (mm_frame n)) (world_at n t))) w = Some p' <-> m_voxel_to_world n t p' = Some w).
    { intros p'. rewrite vs_ws by auto. split; [apply mult_vec_inverse'|apply mult_vec_inverse]; auto. }
    split.
    + intros A.
      set (x1 := fun (o o' b : Z) (q : R) => (q - IZR b + IZR o) / IZR (2 ^ l) - IZR (o / 2 ^ l) + IZR o').
      set (p' := R3 (x1 (vx o) (vx (bmin e)) (vx (bmin (extents_of h))) (rx q)) (x1 (vy o) (vy (bmin e)) (vy (bmin (extents_of h))) (ry q))
                    (x1 (vz o) (vz (bmin e)) (vz (bmin (extents_of h))) (rz q))).
      assert (S' : same_place o l (bmin e) (bmin (extents_of h)) p' q).
      { unfold same_place, same_place1, p', x1. cbn [rx ry rz]. repeat split; field; lra. }
      replace p with p'; auto. rewrite <- (PL t p' q S') in Q. apply UN in Q. congruence.
    + intros S. apply UN. rewrite (PL t p q S). exact Q.
  - assert (N0 : no_perspective (world_at s 0)) by (apply (base_affine h); auto).
    assert (Nn : no_perspective (world_at n 0)) by (rewrite W; apply affine_mul; auto; repeat split).
    rewrite (voxel_affine s (world_at s 0)) by auto. rewrite (voxel_affine n (world_at n 0)) by (auto; rewrite Fn; auto).
    rewrite W, Fn. cbn [rx ry rz]. destruct (world_at s 0) as [[a0 a1 a2 a3] [b0 b1 b2 b3] [c0 c1 c2 c3] [d0 d1 d2 d3]].
    destruct PF as (Qx & Qy & Qz). destruct PO as (Px & Py & Pz).
    replace (size_of e) with (fr_res f) by (apply set_frame_ok in F; rewrite F; reflexivity).
    unfold axis_length, mmul, rowmul, grow. cbn [row0 row1 row2 row3 e0 e1 e2 e3].
    assert (SQ : forall k x y z x' y' z', 0 < k -> x' = k * x -> y' = k * y -> z' = k * z ->
       sqrt (x' * x' + y' * y' + z' * z') = k * sqrt (x * x + y * y + z * z)).
    { intros k x y z x' y' z' K -> -> ->. replace (k * x * (k * x) + k * y * (k * y) + k * z * (k * z)) with (k * k * (x * x + y * y + z * z)) by ring.
      rewrite sqrt_mult, sqrt_square by nra. reflexivity. }
    assert (PP : forall a b, 0 < a -> 0 < b -> 0 < IZR (2 ^ l) * a / b).
    { intros a b A B. apply Rdiv_lt_0_compat; auto. apply Rmult_lt_0_compat; auto. }
    f_equal.
    + rewrite (SQ (IZR (2 ^ l) * rx (fr_res f) / rx (fr_res (mm_frame s))) a0 a1 a2) by (auto; ring). field; lra.
    + rewrite (SQ (IZR (2 ^ l) * ry (fr_res f) / ry (fr_res (mm_frame s))) b0 b1 b2) by (auto; ring). field; lra.
    + rewrite (SQ (IZR (2 ^ l) * rz (fr_res f) / rz (fr_res (mm_frame s))) c0 c1 c2) by (auto; ring). field; lra.
Qed.
Print Assumptions C46_level.

(** In particular, where both begin at voxel 0, the voxel position of a point of the world
    in a level is what [getVsMIPCoord] makes of its position in the base. *)
Theorem C46_world : forall history s offset e l t m w, mat_run mat_init history = Ok s -> has_voxels (extents_of history) ->
  samples_of history <> [] -> steady history -> has_voxels e -> int_size e -> (0 <= l)%Z ->
  bmin e = V3 0 0 0 -> bmin (extents_of history) = V3 0 0 0 -> interpolates history t m -> invertible m ->
  exists n q, level_mapping (MapMatrix s) offset e l = Some (Ok (MapMatrix n)) /\
    m_world_to_voxel s t w = Some q /\ m_world_to_voxel n t w = Some (mip_coord offset l q).
Proof.
  intros h s o e l t m w H VX NE ST VE IE L O O0 I V. destruct (C46_level h s o e l H VX NE ST VE IE L) as (n & E & _ & _ & W & _).
  assert (Wm : world_at s t = m) by (apply (interpolates_unique h t); auto; apply history_matrix; auto).
  assert (N : no_perspective m) by (rewrite <- Wm; apply (base_affine h); auto).
  destruct (run_init h s H) as (G & _ & _). pose proof (positive_full _ (base_positive h s H VX)) as FL.
  destruct (m_world_to_voxel s t w) as [q|] eqn:Q.
  - exists n, q. split; auto. split; auto. apply (W t m I V w _ q Q). rewrite O, O0. apply C46_coord; auto.
  - exfalso. rewrite ws_vs, Wm in Q by auto. apply invertible_det in V. rewrite affine_def in Q; [discriminate|].
    apply affine_inverse; [rewrite det_mul; apply Rmult_integral_contrapositive_currified; auto; apply full_det'; auto|].
    apply affine_mul; auto. apply vs_ls_affine; auto.
Qed.
Print Assumptions C46_world.

(** Positions of one place in two levels in a row; and the distance that weights a voxel of
    level [l] in a voxel of the next one (see [C34_levels]) is the distance of the two voxel
    centres, in voxels of the coarser level. *)
Theorem C46_next : forall offset l p p' q, (0 <= l)%Z ->
  same_place1 offset l 0 0 p q -> same_place1 offset (l + 1) 0 0 p' q ->
  p = 2 * p' - IZR (level_add offset (S (Z.to_nat l))).
Proof.
  intros o l p p' q L A B. unfold same_place1 in *. pose proof (pow_pos l L) as P.
  assert (E : (2 ^ (l + 1) = 2 * 2 ^ l)%Z) by (rewrite Z.pow_add_r by lia; lia).
  unfold level_add. rewrite Z2Nat.id by auto.
  assert (D : (o / 2 ^ l = 2 * (o / 2 ^ (l + 1)) + (if Z.odd (o / 2 ^ l) then 1 else 0))%Z).
  { replace (o / 2 ^ (l + 1))%Z with (o / 2 ^ l / 2)%Z.
    { rewrite <- Zmod_odd. apply Z.div_mod. lia. }
    rewrite E, (Z.mul_comm 2). apply Z.div_div; [|lia]. apply Z.pow_nonzero; lia. }
  rewrite E in D. rewrite D, plus_IZR, mult_IZR in A. rewrite E, mult_IZR in B. apply (Rmult_eq_reg_l (IZR (2 ^ l))); [|lra]. lra.
Qed.
Print Assumptions C46_next.
Theorem C46_centres : forall offset l s t x q, (0 <= l)%Z ->
  same_place1 offset l 0 0 x q -> same_place1 offset (l + 1) 0 0 (IZR t + 1 / 2) q ->
  mip_distance (level_add offset (S (Z.to_nat l))) s t = Rabs (IZR s + 1 / 2 - x) / 2.
Proof. intros o l s t x q L A B. rewrite (C46_next o l x _ q L A B). reflexivity. Qed.
Print Assumptions C46_centres.

(** ** Offsets *)
(** The offset [computeOffset] gives puts the origin of the world within half a voxel of
    position 0 of the grid. *)
Lemma offset_ok x o : compute_offset1 x = Ok o -> o = (- rfloor (x + 1 / 2))%Z.
Proof.
  unfold compute_offset1, int_floor, i32. intros H.
  repeat match type of H with context [if ?c then _ else _] => destruct c; cbn [bind] in H; try discriminate end. injection H as <-. reflexivity.
Qed.
Lemma offset_axes p o : compute_offset p = Ok o ->
  compute_offset1 (rx p) = Ok (vx o) /\ compute_offset1 (ry p) = Ok (vy o) /\ compute_offset1 (rz p) = Ok (vz o).
Proof.
  unfold compute_offset. destruct (compute_offset1 (rx p)), (compute_offset1 (ry p)), (compute_offset1 (rz p)); cbn [bind]; intros H; try discriminate.
  injection H as <-. auto.
Qed.
Theorem C46_offset : forall p o, compute_offset p = Ok o ->
  inside (R3 (- (1 / 2)) (- (1 / 2)) (- (1 / 2))) (R3 (1 / 2) (1 / 2) (1 / 2)) (moved o p).
Proof.
  intros p o H. apply offset_axes in H. destruct H as (A & B & C). apply offset_ok in A, B, C.
  assert (X : forall x, - (1 / 2) <= x + IZR (- rfloor (x + 1 / 2)) <= 1 / 2).
  { intros x. rewrite opp_IZR. pose proof (rfloor_spec (x + 1 / 2)). lra. }
  unfold inside, moved. cbn [rx ry rz]. rewrite A, B, C. auto.
Qed.
Print Assumptions C46_offset.

(** Two fields whose voxels coincide (voxel [v] of one is voxel [v + d] of the other) get
    offsets that put them on one grid, and so the voxels of each of their levels coincide
    too. *)
Theorem C46_shared_grid : forall s1 s2 d x1 x2 o1 o2,
  (forall w, m_world_to_voxel0 s2 w = option_map (moved d) (m_world_to_voxel0 s1 w)) ->
  m_world_to_voxel0 s1 (R3 0 0 0) = Some x1 -> compute_offset x1 = Ok o1 ->
  m_world_to_voxel0 s2 (R3 0 0 0) = Some x2 -> compute_offset x2 = Ok o2 ->
  forall w q1 q2, m_world_to_voxel0 s1 w = Some q1 -> m_world_to_voxel0 s2 w = Some q2 ->
    moved o1 q1 = moved o2 q2 /\
    forall l, (0 <= l)%Z -> moved (grid_level o1 l) (mip_coord o1 l q1) = moved (grid_level o2 l) (mip_coord o2 l q2).
Proof.
  intros s1 s2 d x1 x2 o1 o2 M X1 C1 X2 C2 w q1 q2 Q1 Q2.
  rewrite M, X1 in X2. rewrite M, Q1 in Q2. cbn in X2, Q2. injection X2 as <-. injection Q2 as <-.
  apply offset_axes in C1, C2. destruct C1 as (A1 & B1 & D1). destruct C2 as (A2 & B2 & D2).
  apply offset_ok in A1, B1, D1, A2, B2, D2. cbn [moved rx ry rz] in A2, B2, D2.
  assert (FL : forall x z, (- rfloor (x + IZR z + 1 / 2) = - rfloor (x + 1 / 2) - z)%Z).
  { intros x z. replace (x + IZR z + 1 / 2) with (x + 1 / 2 + IZR z) by ring. rewrite rfloor_add. lia. }
  rewrite FL in A2, B2, D2. rewrite <- A1 in A2. rewrite <- B1 in B2. rewrite <- D1 in D2.
  destruct o1 as [a1 b1 c1], o2 as [a2 b2 c2], d as [d1 d2 d3]. cbn [vx vy vz] in *. subst a2 b2 c2. split.
  - unfold moved. cbn [rx ry rz vx vy vz]. rewrite !minus_IZR. f_equal; ring.
  - intros l L. pose proof (pow_pos l L) as P. unfold moved, mip_coord, grid_level. cbn [rx ry rz vx vy vz].
    rewrite !shift_eq by auto. rewrite !minus_IZR. f_equal; field; lra.
Qed.
Print Assumptions C46_shared_grid.

(** ** Examples and findings *)
Lemma two_curve A B : madd (madd [] 0 A) 1 B = [(0, A); (1, B)].
Proof.
  unfold madd, add_sample. cbn [existsb fst insert_at]. destruct (reqb_spec 0 1); [lra|]. cbn [orb].
  destruct (rltb_spec 1 0); [lra|]. reflexivity.
Qed.
Lemma two_run e f A B : set_frame e = Ok f -> mat_run mat_init [MExtents e; MSetAt 0 A; MSetAt 1 B] = Ok (update_transform f [(0, A); (1, B)]).
Proof.
  intros F. cbn [mat_run mat_step bind]. rewrite F. cbn [bind mm_frame mm_curve update_transform mat_init].
  rewrite two_curve. reflexivity.
Qed.
Lemma two_rising (A B : m44) : rising rltb [(0, A); (1, B)].
Proof.
  repeat constructor. cbn. destruct (rltb_spec 0 1); [reflexivity|lra].
Qed.
Lemma two_at0 A B : mlinear [(0, A); (1, B)] 0 = A.
Proof. apply (mthrough [(0, A); (1, B)] (0, A)); [apply two_rising|left; auto]. Qed.
Lemma two_at1 A B : mlinear [(0, A); (1, B)] 1 = B.
Proof. apply (mthrough [(0, A); (1, B)] (1, B)); [apply two_rising|right; left; auto]. Qed.
Lemma two_steady e f A B k : set_frame e = Ok f -> no_perspective A -> no_perspective B -> 0 < k ->
  (forall m, m = A \/ m = B -> axis_length (row0 m) = k /\ axis_length (row1 m) = k /\ axis_length (row2 m) = k) ->
  steady [MExtents e; MSetAt 0 A; MSetAt 1 B].
Proof.
  intros F NA NB K L. pose proof (two_run e f A B F) as R. set (h := [MExtents e; MSetAt 0 A; MSetAt 1 B]) in *.
  exists A. split. { rewrite <- (two_at0 A B). apply (history_matrix h _ 0 R). }
  intros t m T I. assert (C : m = A \/ m = B).
  { rewrite (interpolates_unique h t m _ I (history_matrix h _ t R)). unfold world_at. cbn [mm_curve update_transform].
    cbn in T. destruct T as [<-|[<-|[]]]; [left; apply two_at0|right; apply two_at1]. }
  destruct (L m C) as (-> & -> & ->). destruct (L A) as (-> & -> & ->); auto.
  split; [destruct C as [->| ->]; auto|]. repeat split; auto.
Qed.

(** A field of 5 voxels a side, 1 wide, that turns by a right angle between times 0 and 1. *)
Definition turn : m44 := M44 (R4 0 5 0 0) (R4 (-5) 0 0 0) (R4 0 0 5 0) (R4 3 1 0 1).
Definition five : box := Box (V3 0 0 0) (V3 4 4 4).
Definition three : box := Box (V3 0 0 0) (V3 2 2 2).
Definition turning : list mat_op := [MExtents five; MSetAt 0 (scale (R3 5 5 5)); MSetAt 1 turn].
Lemma sqrt_25 a b c : a * a + b * b + c * c = 25 -> sqrt (a * a + b * b + c * c) = 5.
Proof. intros ->. replace 25 with (5 * 5) by ring. apply sqrt_square. lra. Qed.
Example C46_example : exists s n, mat_run mat_init turning = Ok s /\ has_voxels (extents_of turning) /\ samples_of turning <> [] /\
  steady turning /\ has_voxels three /\ int_size three /\ invertible turn /\ interpolates turning 1 turn /\
  level_mapping (MapMatrix s) (V3 1 0 (-1)) three 1 = Some (Ok (MapMatrix n)) /\
  same_place (V3 1 0 (-1)) 1 (V3 0 0 0) (V3 0 0 0) (R3 1 1 1) (R3 1 2 1) /\
  m_voxel_to_world s 1 (R3 1 2 1) = Some (R3 1 2 1) /\ m_voxel_to_world n 1 (R3 1 1 1) = Some (R3 1 2 1).
Proof.
  destruct (set_frame five) as [f| |] eqn:F; try (vm_compute in F; discriminate).
  pose proof (two_run five f (scale (R3 5 5 5)) turn F) as R. fold turning in R.
  assert (ST : steady turning).
  { apply (two_steady five f _ _ 5); auto; try (repeat split; fail); try lra.
    intros m [->| ->]; unfold axis_length, scale, turn; cbn [row0 row1 row2 e0 e1 e2 rx ry rz]; repeat split; apply sqrt_25; ring. }
  assert (IE : int_size three) by (eexists; vm_compute; reflexivity).
  assert (V5 : has_voxels (extents_of turning)) by (repeat split; cbn; lia).
  assert (V3' : has_voxels three) by (repeat split; cbn; lia).
  assert (NE : samples_of turning <> []) by (cbn; discriminate).
  destruct (C46_level turning _ (V3 1 0 (-1)) three 1 R V5 NE ST V3' IE) as (n & E & _ & P & _); [lia|].
  assert (SP : same_place (V3 1 0 (-1)) 1 (V3 0 0 0) (V3 0 0 0) (R3 1 1 1) (R3 1 2 1)).
  { unfold same_place, same_place1. cbn [vx vy vz rx ry rz]. change (1 / 2 ^ 1)%Z with 0%Z. change (0 / 2 ^ 1)%Z with 0%Z.
    change (-1 / 2 ^ 1)%Z with (-1)%Z. change (2 ^ 1)%Z with 2%Z. repeat split; lra. }
  assert (W : m_voxel_to_world (update_transform f [(0, scale (R3 5 5 5)); (1, turn)]) 1 (R3 1 2 1) = Some (R3 1 2 1)).
  { assert (FU : full f) by (apply set_frame_ok in F; rewrite F; repeat split; cbn [fr_res rx ry rz]; apply not_0_IZR; cbn; lia).
    rewrite vs_ws by (apply update_good; apply two_rising). unfold world_at. cbn [mm_curve mm_frame update_transform]. rewrite two_at1.
    rewrite affine_def by (apply affine_mul; [apply vs_ls_affine; auto|repeat split]).
    rewrite vs_ls_eq by auto. apply set_frame_ok in F. rewrite F. cbn. f_equal. f_equal; field. }
  exists (update_transform f [(0, scale (R3 5 5 5)); (1, turn)]), n.
  split; auto. split; auto. split; auto. split; auto. split; auto. split; auto. split.
  { apply invertible_det. unfold det, sub2, turn. cbn. lra. }
  split. { rewrite <- (two_at1 (scale (R3 5 5 5)) turn). apply (history_matrix turning _ 1 R). }
  split; auto. split; auto. split; auto. rewrite (P 1 (R3 1 1 1) (R3 1 2 1) SP). exact W.
Qed.

(** Finding: the voxel size is taken at time 0 only.  If the field grows, its levels do not
    grow with it. *)
Definition two : box := Box (V3 0 0 0) (V3 1 1 1).
Definition one : box := Box (V3 0 0 0) (V3 0 0 0).
Definition growing : list mat_op := [MExtents two; MSetAt 0 (scale (R3 2 2 2)); MSetAt 1 (scale (R3 4 4 4))].
Theorem C46_growing_refuted : exists s n p q, mat_run mat_init growing = Ok s /\
  level_mapping (MapMatrix s) (V3 0 0 0) one 1 = Some (Ok (MapMatrix n)) /\ same_place (V3 0 0 0) 1 (V3 0 0 0) (V3 0 0 0) p q /\
  m_voxel_to_world s 1 q = Some (R3 4 4 4) /\ m_voxel_to_world n 1 p = Some (R3 2 2 2).
Proof.
  destruct (set_frame two) as [f| |] eqn:F; try (vm_compute in F; discriminate).
  destruct (set_frame one) as [g| |] eqn:Fg; try (vm_compute in Fg; discriminate).
  set (A := scale (R3 2 2 2)). set (B := scale (R3 4 4 4)). pose proof (two_run two f A B F) as R. fold growing in R.
  set (s := update_transform f [(0, A); (1, B)]) in *. assert (G : good s) by (apply update_good; apply two_rising).
  assert (V : has_voxels (extents_of growing)) by (repeat split; cbn; lia). pose proof (base_positive growing s R V) as P.
  assert (NA : no_perspective A) by (repeat split). assert (NB : no_perspective B) by (repeat split).
  assert (LA : axis_length (row0 A) = 2 /\ axis_length (row1 A) = 2 /\ axis_length (row2 A) = 2).
  { unfold axis_length, A, scale. cbn [row0 row1 row2 e0 e1 e2 rx ry rz]. repeat split;
      match goal with |- sqrt ?x = _ => replace x with (2 * 2) by ring end; apply sqrt_square; lra. }
  assert (LB : axis_length (row0 B) = 4 /\ axis_length (row1 B) = 4 /\ axis_length (row2 B) = 4).
  { unfold axis_length, B, scale. cbn [row0 row1 row2 e0 e1 e2 rx ry rz]. repeat split;
      match goal with |- sqrt ?x = _ => replace x with (4 * 4) by ring end; apply sqrt_square; lra. }
  destruct LA as (LA0 & LA1 & LA2). destruct LB as (LB0 & LB1 & LB2).
  assert (RES : fr_res (mm_frame s) = R3 2 2 2) by (apply set_frame_ok in F; cbn [s mm_frame update_transform]; rewrite F; reflexivity).
  assert (M0 : level_matrix s (V3 0 0 0) (size_of one) 1 0 = Some A).
  { rewrite (level_matrix_ratio s (V3 0 0 0) (size_of one) 1 0 A A) by (auto; try apply two_at0; lra).
    rewrite LA0, LA1, LA2, RES. f_equal. unfold grow, A, scale, mmul, rowmul, size_of. cbn. f_equal; f_equal; field. }
  assert (M1 : level_matrix s (V3 0 0 0) (size_of one) 1 1 = Some A).
  { rewrite (level_matrix_ratio s (V3 0 0 0) (size_of one) 1 1 B A) by (auto; try apply two_at0; try apply two_at1; lra).
    rewrite LA0, LA1, LA2, LB0, LB1, LB2, RES. f_equal. unfold grow, A, B, scale, mmul, rowmul, size_of. cbn. f_equal; f_equal; field. }
  assert (E : level_mapping (MapMatrix s) (V3 0 0 0) one 1 = Some (Ok (MapMatrix (update_transform g [(0, A); (1, A)])))).
  { unfold level_mapping, adjusted_mapping. cbn [mm_curve s update_transform level_matrices]. fold s. rewrite M0, M1.
    cbn [mat_run mat_step bind mm_frame mm_curve update_transform mat_init]. rewrite two_curve.
    unfold map_extents. rewrite Fg. reflexivity. }
  exists s, (update_transform g [(0, A); (1, A)]), (R3 1 1 1), (R3 2 2 2). split; auto. split; auto. split.
  { unfold same_place, same_place1. cbn. repeat split; lra. }
  assert (FU : full f) by (apply set_frame_ok in F; rewrite F; repeat split; cbn [fr_res rx ry rz]; apply not_0_IZR; cbn; lia).
  assert (GU : full g) by (apply set_frame_ok in Fg; rewrite Fg; repeat split; cbn [fr_res rx ry rz]; apply not_0_IZR; cbn; lia).
  split.
  - rewrite vs_ws by auto. unfold world_at. cbn [s mm_curve mm_frame update_transform]. rewrite two_at1.
    rewrite affine_def by (apply affine_mul; auto; apply vs_ls_affine; auto). rewrite vs_ls_eq by auto.
    apply set_frame_ok in F. rewrite F. unfold B. cbn. f_equal. f_equal; field.
  - rewrite vs_ws by (apply update_good; apply two_rising). unfold world_at. cbn [mm_curve mm_frame update_transform]. rewrite two_at1.
    rewrite affine_def by (apply affine_mul; auto; apply vs_ls_affine; auto). rewrite vs_ls_eq by auto.
    apply set_frame_ok in Fg. rewrite Fg. unfold A. cbn. f_equal. f_equal; field.
Qed.
Print Assumptions C46_growing_refuted.

(** Finding: a field without any sample (the identity, the mapping of a new field), and
    fields with other mappings than matrices, keep the mapping of the base in every level.
    All levels then fill the same part of the world, although they do not cover the same
    voxels: where the resolution of the base is odd, they disagree with
    [getVsMIPCoord]. *)
Theorem C46_unadjusted : forall m offset e l, match m with MapMatrix s => mm_curve s = [] | _ => True end ->
  level_mapping m offset e l = Some (map_extents (match m with MapMatrix _ => MapMatrix mat_init | _ => m end) e).
Proof. intros m o e l H. unfold level_mapping, adjusted_mapping. destruct m as [f|s|s]; [reflexivity| |reflexivity]. rewrite H. reflexivity. Qed.
Print Assumptions C46_unadjusted.
Theorem C46_identity_refuted : exists s n p q, mat_run mat_init [MExtents (Box (V3 0 0 0) (V3 2 2 2))] = Ok s /\
  level_mapping (MapMatrix s) (V3 0 0 0) two 1 = Some (Ok (MapMatrix n)) /\ same_place (V3 0 0 0) 1 (V3 0 0 0) (V3 0 0 0) p q /\
  m_voxel_to_world s 0 q = Some (R3 (2 / 3) (2 / 3) (2 / 3)) /\ m_voxel_to_world n 0 p = Some (R3 (1 / 2) (1 / 2) (1 / 2)).
Proof.
  destruct (set_frame (Box (V3 0 0 0) (V3 2 2 2))) as [f| |] eqn:F; try (vm_compute in F; discriminate).
  destruct (set_frame two) as [g| |] eqn:Fg; try (vm_compute in Fg; discriminate).
  exists (update_transform f []), (update_transform g []), (R3 1 1 1), (R3 2 2 2).
  assert (FU : full f) by (apply set_frame_ok in F; rewrite F; repeat split; cbn [fr_res rx ry rz]; apply not_0_IZR; cbn; lia).
  assert (GU : full g) by (apply set_frame_ok in Fg; rewrite Fg; repeat split; cbn [fr_res rx ry rz]; apply not_0_IZR; cbn; lia).
  split. { cbn [mat_run mat_step bind]. rewrite F. reflexivity. }
  split. { rewrite C46_unadjusted by reflexivity. unfold map_extents. rewrite Fg. reflexivity. }
  split. { unfold same_place, same_place1. cbn. repeat split; lra. }
  assert (V : forall f p, full f -> m_voxel_to_world (update_transform f []) 0 p = Some (voxel_to_local f p)).
  { intros f' p U. rewrite vs_ws by (apply update_good; constructor). unfold world_at. cbn [mm_curve mm_frame update_transform].
    change (mlinear [] 0) with ident. rewrite mmul_ident_r. apply vl_matrix; auto. }
  rewrite !V by auto. unfold voxel_to_local. rewrite !lerpfactor_res by (apply FU || apply GU).
  apply set_frame_ok in F, Fg. rewrite F, Fg. cbn. split; f_equal; f_equal; field.
Qed.
Print Assumptions C46_identity_refuted.
