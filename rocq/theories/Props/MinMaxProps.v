(** C53: minimum and maximum from pre-filtered fields. *)
From Coq Require Import ZArith Reals List Bool Lra Lia.
From Verif Require Import Model.Base Model.LoopM Model.RealM Model.VecM Model.MatM Model.CurveM Model.CoordM Model.MapM Model.DenseM Model.OpsM
  Model.FilterM Model.MipM Model.CopyM Model.RayM Model.GroupM Model.MipMapM Model.MinMaxM
  Spec.VoxelSpec Spec.OpsSpec Spec.CoordSpec Spec.CurveSpec Spec.MapSpec Spec.GroupSpec Spec.FilterSpec Spec.MipSpec Spec.MipMapSpec Spec.MinMaxSpec
  Proof.BaseP Proof.DenseP Proof.OpsP Proof.MatP Proof.PointP Proof.MapP Proof.RealP Proof.CoordP Proof.ResampleP Proof.ResampleP2 Proof.MipMapP Proof.MipP3 Proof.MipExtP Proof.GroupP
  Proof.MinMaxP Proof.MinMaxP2 Proof.MinMaxP3 Props.GroupProps Props.MipProps Props.MipMapProps.
Import ListNotations.
Open Scope R_scope.

(** If the pre-filtered fields bound the fields of the group, so do the minimum and the
    maximum of every query, whichever levels it chooses; and they are values of the
    fields, or what the caller passed. *)
Theorem C53_query : forall query bases mins maxs a b,
  Forall2 (prefilters Rle) bases mins -> Forall2 (prefilters Rge) bases maxs ->
  exists mn mx, group_prefilt query mins maxs (a, b) = Some (mn, mx) /\
    bounds_all Rle bases query a mn /\ bounds_all Rge bases query b mx.
Proof.
  intros q bases mins maxs a b A B. unfold group_prefilt. cbn [fst snd].
  destruct (prefilt_ok Rmin Rle Rle_refl Rle_trans Rmin_l Rmin_r (fun a b => ltac:(unfold Rmin; destruct (Rle_dec a b); auto)) q _ _ A a)
    as (c & -> & C).
  destruct (prefilt_ok Rmax Rge (fun a => Rge_refl a) (fun a b c => Rge_trans a b c)
    (fun a b => Rle_ge _ _ (Rmax_l a b)) (fun a b => Rle_ge _ _ (Rmax_r a b)) (fun a b => ltac:(unfold Rmax; destruct (Rle_dec a b); auto)) q _ _ B b)
    as (d & -> & D).
  exists c, d. auto.
Qed.
Print Assumptions C53_query.

(** The fields [makeMinMax] makes from a field with a matrix mapping bound it, if its voxels
    are merged by whole numbers.  For cubes they end with a small level; for fields that are
    thin along one axis they have one level, however large the other axes are. *)
Theorem C53_made : forall k (base : fld k) g b v mult n sched sched' fuel history s m0 os,
  (0 < n)%nat -> (25 <= fuel)%nat ->
  holds base (res_box b) v -> (forall q, in_box q (res_box b) -> - flt_max < v q < flt_max) ->
  res_ok b -> (2 <= vx b /\ 2 <= vy b /\ 2 <= vz b)%Z -> fits_new k (res_box b) -> whole_voxels b (min_max_res b mult) ->
  mat_run mat_init history = Ok s -> extents_of history = res_box b -> samples_of history <> [] -> steady history ->
  interpolates history 0 m0 -> invertible m0 -> (forall o, os = Some o -> invertible o /\ no_perspective o) ->
  g_wrap g = Wrapper (AMatrix s) os -> g_dw g = res_box b -> (forall q, in_box q (res_box b) -> g_value g q = v q) ->
  exists mins maxs lmin lmax,
    make_min_max fuel base mult n sched sched' = (Some (Ok (Some mins)), Some (Ok (Some maxs))) /\
    min_max_fields (MapMatrix s) os mins = Some (Ok lmin) /\ min_max_fields (MapMatrix s) os maxs = Some (Ok lmax) /\
    prefilters Rle g lmin /\ prefilters Rge g lmax /\
    (let new := min_max_res b mult in
     (vx new = vy new -> vy new = vz new -> ends_small lmin /\ ends_small lmax) /\
     (~ (2 < vx new /\ 2 < vy new /\ 2 < vz new)%Z ->
        exists g1 g2, lmin = [g1] /\ lmax = [g2] /\ g_dw g1 = res_box new /\ g_dw g2 = res_box new)).
Proof.
  intros k base g b v mult n sched sched' fuel h s m0 os N L Hb B Rb Sb Fb Wh H EX NE ST I0 IV Os Wg Dg Vg.
  destruct (make_extreme_ok Rmin Rle flt_max Rle_refl Rle_trans Rmin_l Rmin_r (fun a b => ltac:(unfold Rmin; destruct (Rle_dec a b); auto))
    (fun a => a < flt_max) ltac:(intros a A; split; [apply Rmin_right|]; lra) k (min_filter 1) base b v mult n sched fuel h s m0 os g)
    as (mins & lmin & E1 & E2 & P & P1 & P2); auto.
  { repeat split; auto; lra. } { intros q Q. apply B; auto. }
  destruct (make_extreme_ok Rmax Rge (- flt_max) (fun a => Rge_refl a) (fun a b c => Rge_trans a b c)
    (fun a b => Rle_ge _ _ (Rmax_l a b)) (fun a b => Rle_ge _ _ (Rmax_r a b)) (fun a b => ltac:(unfold Rmax; destruct (Rle_dec a b); auto))
    (fun a => - flt_max < a) ltac:(intros a A; split; [apply Rmax_right|]; lra) k (max_filter 1) base b v mult n sched' fuel h s m0 os g)
    as (maxs & lmax & F1 & F2 & Q & Q1 & Q2); auto.
  { repeat split; auto; lra. } { intros q X. apply B; auto. }
  exists mins, maxs, lmin, lmax. unfold make_min_max. rewrite E1, F1. cbv zeta in *. split; auto. split; auto. split; auto. split; auto. split; auto.
  split; auto. intros T. destruct (P2 T) as (g1 & -> & D1). destruct (Q2 T) as (g2 & -> & D2). exists g1, g2. auto.
Qed.
Print Assumptions C53_made.

(** A query reads at most 27 values for each field, however large the fields are, if the
    pre-filtered fields end with a small level.  By [C53_made] those of cubes do. *)
Theorem C53_cost : forall query bases mins maxs a b,
  Forall2 (prefilters Rle) bases mins -> Forall2 (prefilters Rge) bases maxs -> Forall ends_small mins -> Forall ends_small maxs ->
  exists mn mx low high, group_prefilt query mins maxs (a, b) = Some (mn, mx) /\
    combines Rmin (concat mins) low a mn /\ combines Rmax (concat maxs) high b mx /\
    (length low <= 27 * length bases)%nat /\ (length high <= 27 * length bases)%nat.
Proof.
  intros q bases mins maxs a b A B Sn Sx.
  assert (G : forall le l, Forall2 (prefilters le) bases l -> Forall ends_small l ->
    Forall (fun levels => ends_small levels /\ forall g, In g levels -> affine_field g) l).
  { intros le l F S. clear A B Sn Sx. induction F as [|x y xs ys (_ & P) _ IH]; [constructor|]. inversion S; subst.
    constructor; [split; auto; intros; apply P; auto|auto]. }
  destruct (prefilt_cost Rmin q mins (G _ _ A Sn) a) as (low & mn & E1 & C1 & L1).
  destruct (prefilt_cost Rmax q maxs (G _ _ B Sx) b) as (high & mx & E2 & C2 & L2).
  exists mn, mx, low, high. unfold group_prefilt. cbn [fst snd]. rewrite E1, E2.
  assert (Ln : forall le l, Forall2 (prefilters le) bases l -> length l = length bases) by (intros le l F; clear - F; induction F; cbn [length]; congruence).
  rewrite (Ln _ _ A) in L1. rewrite (Ln _ _ B) in L2. auto 6.
Qed.
Print Assumptions C53_cost.

(** Without a reduction of the resolution, voxels are not merged at all. *)
Theorem C53_unreduced : forall b mult, (2 <= vx b /\ 2 <= vy b /\ 2 <= vz b)%Z -> 1 <= mult ->
  min_max_res b mult = b /\ whole_voxels b (min_max_res b mult).
Proof.
  intros b mult (X & Y & Z) M.
  assert (A : forall n, (2 <= n)%Z -> min_max_axis n mult = n).
  { intros n N. unfold min_max_axis. rewrite Rmin_left by auto. rewrite Rmult_1_r. apply IZR_le in N as N'. unfold rtrunc.
    destruct (rleb_spec 0 (IZR n)); [|lra]. rewrite rfloor_IZR. lia. }
  assert (E : min_max_res b mult = b) by (destruct b as [x y z]; unfold min_max_res; cbn [vx vy vz] in *; rewrite !A by auto; reflexivity).
  split; auto. rewrite E. split; [|split]; exists 1%Z; lia.
Qed.
Print Assumptions C53_unreduced.

(** A mapping that does not move, where voxel space is world space. *)
Definition still (n : Z) : list mat_op := [MExtents (res_box (cube n)); MSetAt 0 (scale (R3 (IZR n) (IZR n) (IZR n)))].
Lemma cube_res n : (1 <= n <= 2 ^ 24)%Z -> res_ok (cube n).
Proof. unfold res_ok, cube. cbn [vx vy vz]. lia. Qed.
Lemma still_ok n : (1 <= n <= 2 ^ 24)%Z -> exists s, mat_run mat_init (still n) = Ok s /\ extents_of (still n) = res_box (cube n) /\
  samples_of (still n) <> [] /\ steady (still n) /\ interpolates (still n) 0 (scale (R3 (IZR n) (IZR n) (IZR n))) /\
  invertible (scale (R3 (IZR n) (IZR n) (IZR n))) /\ forall w, m_world_to_voxel0 s w = Some w.
Proof.
  intros N. destruct (res_frame (cube n) (cube_res n N)) as (f & F). assert (P : 0 < IZR n) by (apply IZR_lt; lia).
  set (A := scale (R3 (IZR n) (IZR n) (IZR n))). exists (update_transform f [(0, A)]). set (s := update_transform f [(0, A)]).
  assert (R : mat_run mat_init (still n) = Ok s) by (unfold still; cbn [mat_run mat_step bind]; rewrite F; reflexivity).
  assert (W : forall t, world_at s t = A) by (intros t; unfold world_at; cbn; destruct (rltb t 0); reflexivity).
  assert (I : forall t m, interpolates (still n) t m -> m = A).
  { intros t m I. rewrite <- (W t). apply (interpolates_unique (still n) t); auto. apply history_matrix; auto. }
  assert (LA : axis_length (row0 A) = IZR n /\ axis_length (row1 A) = IZR n /\ axis_length (row2 A) = IZR n).
  { unfold axis_length, A, scale. cbn [row0 row1 row2 e0 e1 e2 rx ry rz]. repeat split;
      match goal with |- sqrt ?x = _ => replace x with (IZR n * IZR n) by ring end; apply sqrt_square; lra. }
  destruct LA as (LX & LY & LZ).
  assert (I0 : interpolates (still n) 0 A) by (rewrite <- (W 0); apply history_matrix; auto).
  assert (D : det A <> 0).
  { replace (det A) with (IZR n * (IZR n * IZR n)) by (unfold A, det, sub2, scale; cbn; ring). repeat apply Rmult_integral_contrapositive_currified; lra. }
  split; auto. split; [reflexivity|]. split; [discriminate|]. split.
  { exists A. split; auto. intros t m _ J. apply I in J. subst m. rewrite LX, LY, LZ. repeat split; auto. }
  split; auto. split; [apply invertible_det; auto|].
  assert (G : good s) by (apply update_good; repeat constructor).
  intros w. destruct (at_zero s w G) as (-> & _). rewrite ws_vs, W by auto. change (mm_frame s) with f.
  pose proof (frame_full _ _ F (res_voxels _ (cube_res n N))) as Fu.
  apply mult_vec_inverse. { rewrite det_mul. apply Rmult_integral_contrapositive_currified; auto. apply full_det'; auto. }
  rewrite (mult_vec_mul_none _ _ w _ (vl_matrix _ _ Fu)). rewrite affine_def by (repeat split). unfold A, scale. cbn [row0 row1 row2 row3 e0 e1 e2].
  unfold voxel_to_local. rewrite !lerpfactor_res by apply Fu. apply set_frame_ok in F. rewrite F. unfold res_box, cube.
  cbn [fr_origin fr_res bmin bmax vx vy vz rx ry rz]. replace (n - 1 - 0 + 1)%Z with n by lia.
  destruct w as [x y z]. cbn [rx ry rz]. f_equal. f_equal; field; lra.
Qed.

(** A field of 4 voxels a side with a value on its right face, reduced to 2 a side. *)
Example C53_example : exists (base : fld (V := R) KDense) s g,
  let b := cube 4 in holds base (res_box b) right_face /\ (forall q, in_box q (res_box b) -> - flt_max < right_face q < flt_max) /\
  res_ok b /\ fits_new KDense (res_box b) /\ min_max_res b (1 / 2) = cube 2 /\ whole_voxels b (min_max_res b (1 / 2)) /\
  mat_run mat_init (still 4) = Ok s /\ extents_of (still 4) = res_box b /\ samples_of (still 4) <> [] /\ steady (still 4) /\
  interpolates (still 4) 0 (scale (R3 4 4 4)) /\ invertible (scale (R3 4 4 4)) /\
  g_wrap g = Wrapper (AMatrix s) None /\ g_dw g = res_box b /\ (forall q, in_box q (res_box b) -> g_value g q = right_face q) /\
  affine_field g /\ meets g (Some (RBox (R3 (7 / 2) 1 1) (R3 9 2 2))) (V3 3 1 1).
Proof.
  destruct (base_field 4 right_face) as (f & Rf & X & H); auto. destruct (cube_ok 4) as [C1 C2]; auto.
  destruct (still_ok 4) as (s & R & EX & NE & ST & I0 & IV & Wv); [lia|].
  exists f, s, (GField (Wrapper (AMatrix s) None) (res_box (cube 4)) (RBox (R3 0 0 0) (R3 4 4 4)) right_face (fun _ => 0) None). cbv zeta.
  assert (M : min_max_res (cube 4) (1 / 2) = cube 2).
  { unfold min_max_res, cube. cbn [vx vy vz]. assert (min_max_axis 4 (1 / 2) = 2%Z) as ->; [|reflexivity].
    unfold min_max_axis. rewrite Rmin_right by lra. replace (4 * (1 / 2)) with 2 by field. unfold rtrunc.
    destruct (rleb_spec 0 2); [|lra]. rewrite rfloor_IZR. reflexivity. }
  split; auto. split.
  { intros q _. assert (2 <= flt_max) by (apply IZR_le; lia). unfold right_face. destruct (vx q =? 3)%Z; lra. }
  split; auto. split; auto. split; auto. split; [rewrite M; repeat split; exists 2%Z; cbn; lia|].
  do 6 (split; auto). do 3 (split; [reflexivity || auto|]). split.
  { split; [|discriminate]. exists (still 4), (scale (R3 4 4 4)). do 3 (split; auto). split; [repeat split|]. rewrite EX. apply res_voxels; auto. }
  split; [unfold in_box; cbn; lia|]. split; [unfold int_voxel, int_min, int_max; cbn; lia|]. split; [cbn; lia|].
  exists (R3 (7 / 2) 1 1). split; [unfold in_query, inside; cbn; lra|]. exists (R3 (7 / 2) 1 1).
  split; [unfold voxel_position, to_object; cbn; apply Wv|unfold in_cell; cbn; lra].
Qed.

(** *** Findings *)
Lemma point_bounds f w v : f w = Some v -> map_bounds f (RBox w w) = Some (Some (RBox v v)).
Proof.
  intros E. unfold map_bounds, vertices. destruct w as [x y z]. cbn [rmin rmax rx ry rz extend_all]. rewrite E.
  destruct v as [a b c]. cbn [extend_by rmin rmax rx ry rz].
  assert (F : forall u, rltb u u = false) by (intros; unfold rltb; destruct (Rlt_dec u u); auto; lra).
  repeat (rewrite !F; cbn [rmin rmax rx ry rz]). reflexivity.
Qed.
Lemma clamp_unit x : 0 <= x < 1 -> clamp_for_int x = 0%Z.
Proof.
  intros X. unfold clamp_for_int. destruct (rltb_spec x (IZR int_min)) as [L|_].
  { assert (IZR int_min <= 0) by (apply IZR_le; unfold int_min; lia). lra. }
  destruct (rltb_spec (IZR int_max) x) as [L|_]. { assert (1 <= IZR int_max) by (apply IZR_le; unfold int_max; lia). lra. }
  unfold rtrunc. destruct (rleb_spec 0 x); [|lra]. apply rfloor_unique. lra.
Qed.
(** A query at one point, in the first voxel of the finest level. *)
Lemma first_voxel (base : fld (V := R) KDense) b x mult v n sched fuel s w :
  (0 < n)%nat -> (25 <= fuel)%nat -> holds base (res_box b) v -> (forall q, in_box q (res_box b) -> v q < flt_max) ->
  res_ok b -> solid b -> fits_new KDense (res_box b) -> (1 <= x <= 2 ^ 24)%Z -> mat_run mat_init (still x) = Ok s ->
  (forall w, m_world_to_voxel0 s w = Some w) ->
  (forall q, in_box q (res_box b) -> in_footprint 1 b (min_max_res b mult) q (V3 0 0 0) -> q = V3 0 0 0) ->
  let p := part3 (min_max_res b mult) (cube x) w in 0 <= rx p < 1 -> 0 <= ry p < 1 -> 0 <= rz p < 1 ->
  exists mins gs, make_extreme fuel (min_filter 1) base mult n sched = Some (Ok (Some mins)) /\
    min_max_fields (MapMatrix s) None mins = Some (Ok gs) /\
    forall acc, prefilt_vec Rmin (Some (RBox w w)) [gs] acc = Some (Rmin (v (V3 0 0 0)) acc).
Proof.
  intros N L Hb B Rb Sb Fb X Hs Ws Fp p Px Py Pz.
  destruct (still_ok x X) as (s' & Hs' & EX & NE & ST & I0 & IV & _). assert (s' = s) by congruence. subst s'.
  destruct (make_extreme_levels Rmin Rle flt_max Rle_refl Rle_trans Rmin_l Rmin_r (fun a b => ltac:(unfold Rmin; destruct (Rle_dec a b); auto))
    (fun a => a < flt_max) ltac:(intros a A; split; [apply Rmin_right|]; lra) KDense (min_filter 1) base b (cube x) v mult n sched fuel (still x) s
    (scale (R3 (IZR x) (IZR x) (IZR x))) None) as (fs & gs & u & E1 & E2 & (m & Nz & _) & U & Lv); auto.
  { repeat split; auto; lra. } { apply cube_res; auto. } { discriminate. }
  exists fs, gs. split; auto. split; auto. intros acc. destruct gs as [|g gs]; [discriminate|].
  destruct (Lv O g eq_refl) as (Ag & Og & Dg & Pg & Vg). specialize (Pg w w (Ws w)). fold p in Pg.
  set (new := min_max_res b mult) in *.
  assert (Rn : (2 <= vx new /\ 2 <= vy new /\ 2 <= vz new)%Z).
  { unfold new, min_max_res, min_max_axis. cbn [vx vy vz]. lia. }
  assert (LB : level_box g (RBox w w) = Some (Box (V3 0 0 0) (V3 0 0 0))).
  { unfold level_box, object_bounds. rewrite Og. rewrite (point_bounds _ w _ Pg). unfold discrete_bounds, half3.
    change (2 ^ Z.of_nat 0)%Z with 1%Z. cbn [rmin rmax rx ry rz]. rewrite !rfloor_IZR, !rceil_IZR.
    rewrite !clamp_unit by (unfold Rdiv; rewrite Rinv_1, Rmult_1_r; auto). rewrite Dg, level_res_0.
    unfold clip_bounds, res_box. cbn [bmin bmax vx vy vz]. f_equal. f_equal; f_equal; lia. }
  cbn [prefilt_vec choose choose_level]. rewrite LB. change (few (Box (V3 0 0 0) (V3 0 0 0))) with true. cbv iota beta.
  change (box_voxels (Box (V3 0 0 0) (V3 0 0 0))) with [V3 0 0 0]. cbn [fold_left]. unfold prefilt_one.
  destruct (Vg (V3 0 0 0)) as ((q & Q & C & ->) & _).
  { rewrite Dg, level_res_0. unfold in_box, res_box. cbn [bmin bmax vx vy vz]. lia. }
  assert (q = V3 0 0 0) as ->.
  { unfold covered in C. change (2 ^ Z.of_nat 0)%Z with 1%Z in C. rewrite !Z.div_1_r in C. destruct q as [q1 q2 q3]. cbn [vx vy vz] in C.
    destruct C as (-> & -> & ->). reflexivity. }
  destruct (U (V3 0 0 0) Q) as ((q' & Q' & F' & ->) & _). rewrite (Fp q' Q' F'). reflexivity.
Qed.

(** A reduction that does not merge whole voxels can miss values: 5 voxels reduced to 4. *)
Definition second (p : v3) : R := if (vx p =? 1)%Z then -1 else 0.
Definition field_of (s : matmap) (b : v3) (v : v3 -> R) : gfield :=
  GField (Wrapper (AMatrix s) None) (res_box b) (RBox (R3 0 0 0) (R3 0 0 0)) v (fun _ => 0) None.
Lemma second_small q : second q < flt_max.
Proof. assert (2 <= flt_max) by (apply IZR_le; lia). unfold second. destruct (vx q =? 1)%Z; lra. Qed.
Lemma meets_second s b w : (2 <= vx b /\ 1 <= vy b /\ 1 <= vz b)%Z -> (forall w, m_world_to_voxel0 s w = Some w) -> in_cell w (V3 1 0 0) ->
  meets (field_of s b second) (Some (RBox w w)) (V3 1 0 0).
Proof.
  intros B Ws C. split; [unfold in_box; cbn; lia|]. split; [unfold int_voxel, int_min, int_max; cbn; lia|]. split; [cbn; lia|].
  exists w. split; [unfold in_query, inside; cbn; lra|]. exists w. split; [unfold voxel_position, to_object; cbn; apply Ws|auto].
Qed.
Theorem C53_reduced_refuted n sched fuel : (0 < n)%nat -> (25 <= fuel)%nat ->
  exists (base : fld (V := R) KDense) s w mins gs,
    f_reached 0 0 reqb KDense base /\ f_ext base = res_box (cube 5) /\ holds base (res_box (cube 5)) second /\ mat_run mat_init (still 5) = Ok s /\
    meets (field_of s (cube 5) second) (Some (RBox w w)) (V3 1 0 0) /\ second (V3 1 0 0) = -1 /\
    make_extreme fuel (min_filter 1) base (4 / 5) n sched = Some (Ok (Some mins)) /\
    min_max_fields (MapMatrix s) None mins = Some (Ok gs) /\ prefilt_vec Rmin (Some (RBox w w)) [gs] 0 = Some 0.
Proof.
  intros N L. destruct (base_cube 5 second) as (f & Rf & X & H); [solve_int_box|].
  destruct (still_ok 5) as (s & Hs & _ & _ & _ & _ & _ & Ws); [lia|].
  assert (M : min_max_res (cube 5) (4 / 5) = cube 4).
  { unfold min_max_res, cube. cbn [vx vy vz]. assert (min_max_axis 5 (4 / 5) = 4%Z) as ->; [|reflexivity].
    unfold min_max_axis. rewrite Rmin_right by lra. replace (5 * (4 / 5)) with 4 by field. unfold rtrunc.
    destruct (rleb_spec 0 4); [|lra]. rewrite rfloor_IZR. reflexivity. }
  destruct (first_voxel f (cube 5) 5 (4 / 5) second n sched fuel s (R3 (11 / 10) (1 / 2) (1 / 2))) as (mins & gs & E1 & E2 & E3); auto.
  - intros q _. apply second_small.
  - apply cube_res. lia.
  - unfold solid, cube. cbn. lia.
  - cbn [fits_new]. solve_int_box.
  - lia.
  - rewrite M. intros q Q (Fx & Fy & Fz). unfold FilterSpec.distance, cube in *. cbn [vx vy vz] in *. change (Z.min 5 4) with 4%Z in *.
    assert (D : forall z, (0 <= z <= 4)%Z -> Rabs ((IZR z + 1 / 2) / 5 - (0 + 1 / 2) / 4) * 4 <= 1 / 2 -> z = 0%Z).
    { intros z Z Rz. destruct (Z.eq_dec z 0); auto. exfalso. assert (1 <= IZR z) by (apply IZR_le; lia).
      rewrite Rabs_right in Rz by lra. lra. }
    destruct q as [x y z]. destruct Q as (Qx & Qy & Qz). cbn in Qx, Qy, Qz. cbn [vx vy vz] in *. rewrite (D x), (D y), (D z) by (auto; lia). reflexivity.
  - rewrite M. unfold part3, part, cube. cbn. lra.
  - rewrite M. unfold part3, part, cube. cbn. lra.
  - rewrite M. unfold part3, part, cube. cbn. lra.
  - exists f, s, (R3 (11 / 10) (1 / 2) (1 / 2)), mins, gs. split; auto. split; auto. split; auto. split; auto.
    split; [apply meets_second; auto; [cbn; lia|unfold in_cell; cbn; lra]|]. split; [reflexivity|]. split; auto. split; auto.
    rewrite E3. change (second (V3 0 0 0)) with 0. f_equal. apply Rmin_left. lra.
Qed.
Print Assumptions C53_reduced_refuted.

(** If the data window is smaller than the extents, the positions are wrong: a window of 2
    voxels in extents of 4. *)
Theorem C53_cropped_refuted n sched fuel : (0 < n)%nat -> (25 <= fuel)%nat ->
  exists (base : fld (V := R) KDense) s w mins gs,
    holds base (res_box (cube 2)) second /\ mat_run mat_init (still 4) = Ok s /\ extents_of (still 4) = res_box (cube 4) /\
    meets (field_of s (cube 2) second) (Some (RBox w w)) (V3 1 0 0) /\ second (V3 1 0 0) = -1 /\
    make_extreme fuel (min_filter 1) base 1 n sched = Some (Ok (Some mins)) /\
    min_max_fields (MapMatrix s) None mins = Some (Ok gs) /\ prefilt_vec Rmin (Some (RBox w w)) [gs] 0 = Some 0.
Proof.
  intros N L. destruct (base_cube 2 second) as (f & Rf & X & H); [solve_int_box|].
  destruct (still_ok 4) as (s & Hs & _ & _ & _ & _ & _ & Ws); [lia|].
  assert (M : min_max_res (cube 2) 1 = cube 2) by (apply C53_unreduced; [cbn; lia|lra]).
  destruct (first_voxel f (cube 2) 4 1 second n sched fuel s (R3 (3 / 2) (1 / 2) (1 / 2))) as (mins & gs & E1 & E2 & E3); auto.
  - intros q _. apply second_small.
  - apply cube_res. lia.
  - unfold solid, cube. cbn. lia.
  - cbn [fits_new]. solve_int_box.
  - lia.
  - rewrite M. intros q Q (Fx & Fy & Fz). unfold FilterSpec.distance, cube in *. cbn [vx vy vz] in *. change (Z.min 2 2) with 2%Z in *.
    assert (D : forall z, (0 <= z <= 1)%Z -> Rabs ((IZR z + 1 / 2) / 2 - (0 + 1 / 2) / 2) * 2 <= 1 / 2 -> z = 0%Z).
    { intros z Z Rz. destruct (Z.eq_dec z 0); auto. exfalso. assert (1 <= IZR z) by (apply IZR_le; lia).
      rewrite Rabs_right in Rz by lra. lra. }
    destruct q as [x y z]. destruct Q as (Qx & Qy & Qz). cbn in Qx, Qy, Qz. cbn [vx vy vz] in *. rewrite (D x), (D y), (D z) by (auto; lia). reflexivity.
  - rewrite M. unfold part3, part, cube. cbn. lra.
  - rewrite M. unfold part3, part, cube. cbn. lra.
  - rewrite M. unfold part3, part, cube. cbn. lra.
  - exists f, s, (R3 (3 / 2) (1 / 2) (1 / 2)), mins, gs. split; auto. split; auto. split; auto.
    split; [apply meets_second; auto; [cbn; lia|unfold in_cell; cbn; lra]|]. split; [reflexivity|]. split; auto. split; auto.
    rewrite E3. change (second (V3 0 0 0)) with 0. f_equal. apply Rmin_left. lra.
Qed.
Print Assumptions C53_cropped_refuted.

(** Fields with one voxel along an axis, and fields whose window does not begin at voxel 0,
    get minimum and maximum fields without voxels. *)
Theorem C53_empty_refuted k (base : fld (V := R) k) flt mult n sched fuel : (0 < fuel)%nat ->
  ~ (vx (bmin (f_dw base)) < vx (bmax (f_dw base)) /\ vy (bmin (f_dw base)) < vy (bmax (f_dw base)) /\
     vz (bmin (f_dw base)) < vz (bmax (f_dw base)))%Z \/ bmin (f_dw base) <> V3 0 0 0 ->
  exists f, make_extreme fuel flt base mult n sched = Some (Ok (Some [f])) /\ forall p, ~ in_box p (f_dw f).
Proof.
  intros F H. unfold make_extreme.
  assert (Rs : forall t, resample flt base t (min_max_res (v3_add (box_size (f_dw base)) (V3 1 1 1)) mult) = Ok None).
  { intros t. unfold resample. destruct (FilterM.has_volume (f_dw base)) eqn:V; [|reflexivity]. cbn [negb].
    destruct (v3_eqb (bmin (f_dw base)) (V3 0 0 0)) eqn:E; [|reflexivity]. exfalso. apply v3_eqb_eq in E.
    destruct H as [H|H]; [apply H; unfold FilterM.has_volume in V; lia|auto]. }
  set (em := Box (V3 0 0 0) (V3 (-1) (-1) (-1))).
  assert (T : exists t : fld k, f_new 0 k = Ok t /\ f_ext t = em /\ f_dw t = em).
  { destruct k; [exists (dense_init (V := R)); auto|]. cbn [f_new]. eexists. split; [reflexivity|]. split; reflexivity. }
  destruct T as (t & -> & Te & Td). cbn [bind]. rewrite Rs. cbn [bind]. exists t. unfold make_mip. rewrite Te, Td.
  change (box_eqb em em) with true. cbn [negb]. destruct fuel as [|fuel]; [lia|]. cbn [mip_levels].
  split; [|intros p P; unfold em, in_box in P; cbn in P; lia].
  change (v3_add (box_size em) (V3 1 1 1)) with (V3 1 1 1). cbn. reflexivity.
Qed.
Print Assumptions C53_empty_refuted.
Theorem C53_ignored : forall op query levels l acc, levels <> [] ->
  (forall g, In g levels -> affine_field g /\ forall p, ~ in_box p (g_dw g)) ->
  prefilt_vec op query (levels :: l) acc = prefilt_vec op query l acc.
Proof.
  intros op q levels l acc N A. cbn [prefilt_vec].
  destruct (choose_ok q levels N) as (g & d & -> & I & S1 & _); [intros; apply A; auto|]. destruct (A g I) as (_ & Em).
  assert (E : box_voxels d = []); [|rewrite E; reflexivity].
  destruct (box_voxels d) as [|v r] eqn:E; auto. exfalso. apply (Em v). apply S1. apply LoopP.voxels_in. rewrite E. cbn. auto.
Qed.
Print Assumptions C53_ignored.

(** A group in which every field comes with its pre-filtered fields. *)
Theorem C53_group : forall setups query a b, setups <> [] ->
  (forall fields mins maxs, In (fields, mins, maxs) setups -> fields <> [] /\
     Forall2 (prefilters Rle) fields mins /\ Forall2 (prefilters Rge) fields maxs) ->
  let s := fold_left (fun s x => group_setup s (fst (fst x)) (snd (fst x)) (snd x)) setups empty_group in
  exists mn mx, group_query s query (a, b) = Some (mn, mx) /\
    bounds_all Rle (gr_fields s) query a mn /\ bounds_all Rge (gr_fields s) query b mx.
Proof.
  intros setups q a b NE H s.
  assert (G : Forall2 (prefilters Rle) (gr_fields s) (gr_mins s) /\ Forall2 (prefilters Rge) (gr_fields s) (gr_maxs s) /\ gr_fields s <> []).
  { assert (K : forall l s0, (forall x, In x l -> In x setups) -> Forall2 (prefilters Rle) (gr_fields s0) (gr_mins s0) ->
      Forall2 (prefilters Rge) (gr_fields s0) (gr_maxs s0) -> (gr_fields s0 <> [] \/ l <> []) ->
      let s' := fold_left (fun s x => group_setup s (fst (fst x)) (snd (fst x)) (snd x)) l s0 in
      Forall2 (prefilters Rle) (gr_fields s') (gr_mins s') /\ Forall2 (prefilters Rge) (gr_fields s') (gr_maxs s') /\ gr_fields s' <> []).
    { induction l as [|[[fs mins] maxs] l IH]; intros s0 S A B C; cbn [fold_left]; [cbv zeta; destruct C; [auto|congruence]|].
      destruct (H fs mins maxs (S _ (or_introl eq_refl))) as (F1 & F2 & F3). apply IH.
      - intros x X. apply S. cbn. auto.
      - cbn. apply Forall2_app; auto.
      - cbn. apply Forall2_app; auto.
      - left. cbn. intros X. apply app_eq_nil in X. destruct X. contradiction. }
    apply K; auto; constructor. }
  destruct G as (G1 & G2 & G3). destruct (C53_query q _ _ _ a b G1 G2) as (mn & mx & E & R). exists mn, mx. split; auto.
  unfold group_query, has_prefilt. inversion G1; [congruence|]. inversion G2; [congruence|]. congruence.
Qed.
Print Assumptions C53_group.

(** A group that never got pre-filtered fields answers from the fields themselves. *)
Theorem C53_unfiltered : forall setups query a b,
  (forall g, In g (concat setups) -> affine_field g /\ exists v, meets g query v) ->
  let s := fold_left (fun s fields => group_setup s fields [] []) setups empty_group in
  exists mn mx, group_query s query (a, b) = Some (mn, mx) /\
    bounds_all Rle (concat setups) query a mn /\ bounds_all Rge (concat setups) query b mx.
Proof.
  intros setups q a b H s.
  assert (E : gr_fields s = concat setups /\ gr_mins s = [] /\ gr_maxs s = []).
  { assert (K : forall l s0, gr_mins s0 = [] -> gr_maxs s0 = [] ->
      let s' := fold_left (fun s fields => group_setup s fields [] []) l s0 in
      gr_fields s' = gr_fields s0 ++ concat l /\ gr_mins s' = [] /\ gr_maxs s' = []).
    { induction l as [|x l IH]; intros s0 A B; cbn [fold_left concat].
      - cbv zeta. rewrite app_nil_r. auto.
      - destruct (IH (group_setup s0 x [] [])) as (E1 & E2 & E3).
        + cbn. rewrite A. reflexivity.
        + cbn. rewrite B. reflexivity.
        + cbv zeta. rewrite E1, E2, E3. cbn. rewrite <- app_assoc. auto. }
    apply (K setups empty_group); reflexivity. }
  destruct E as (E1 & E2 & E3). unfold group_query, has_prefilt. rewrite E1, E2, ?E3.
  destruct (group_bounds_ok q [concat setups] a b) as (c & d & E & R1 & R2 & R3 & R4 & R5).
  { cbn. rewrite app_nil_r. auto. }
  cbn [concat] in *. rewrite app_nil_r in *. exists c, d. split; auto.
  split; (split; [lra|]; split; [|auto]); intros g v I M; specialize (R3 g v I M); lra.
Qed.
Print Assumptions C53_unfiltered.

(** Fields added to a group that has pre-filtered fields are ignored. *)
Theorem C53_late_refuted : exists old late v,
  prefilters Rle old [old] /\ prefilters Rge old [old] /\ affine_field late /\ meets late None v /\ g_value late v = 5 /\
  group_query (group_setup (group_setup empty_group [old] [[old]] [[old]]) [late] [] []) None (0, 0) = Some (0, 0).
Proof.
  set (old := null_field (Box (V3 0 0 0) (V3 0 0 0)) (fun _ => 0)). set (late := null_field (Box (V3 0 0 0) (V3 0 0 0)) (fun _ => 5)).
  assert (P : forall le : R -> R -> Prop, (forall a, le a a) -> prefilters le old [old]).
  { intros le Rf. split; [discriminate|]. intros g [<-|[]]. split; [apply null_affine|]. split; [intros v w V N At; exists v; auto|].
    intros u U. exists u. auto. }
  exists old, late, (V3 0 0 0). split; [apply P; intros; lra|]. split; [apply P; intros; lra|]. split; [apply null_affine|]. split; [|split; [reflexivity|]].
  - split; [unfold in_box; cbn; lia|]. split; [unfold int_voxel, int_min, int_max; cbn; lia|]. split; [cbn; lia|].
    exists (R3 (1 / 2) (1 / 2) (1 / 2)). split; [exact I|]. exists (R3 (1 / 2) (1 / 2) (1 / 2)).
    split; [apply null_position|unfold in_cell; cbn; lra].
  - unfold group_query, group_prefilt, prefilt_vec, choose, coarsest. cbn [group_setup empty_group gr_mins gr_maxs gr_fields app has_prefilt rev g_dw old null_field fst snd].
    change (box_voxels (Box (V3 0 0 0) (V3 0 0 0))) with [V3 0 0 0]. cbn [fold_left]. unfold prefilt_one. cbn [g_value].
    change (g_value old (V3 0 0 0)) with 0. rewrite (Rmin_left 0 0), (Rmax_left 0 0) by lra. reflexivity.
Qed.
Print Assumptions C53_late_refuted.
