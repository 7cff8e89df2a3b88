(** Property C52: coordinate systems made from world bounds. *)
From Coq Require Import ZArith Reals List Bool Lra Lia.
From Verif Require Import Model.Base Model.RealM Proof.RealP Model.VecM Model.MatM Model.CoordM Model.MapM Model.MipMapM Model.CoordSysM
  Spec.MapSpec Spec.MipMapSpec Spec.CoordSysSpec Proof.MatP Proof.PointP Proof.CoordP Proof.MapP Proof.MipMapP Proof.CoordSysP.
Import ListNotations.
Open Scope R_scope.

(** The unit cube of local space is the bounds. *)
Theorem C52_box : forall b, has_volume b -> unit_cube_is (coord_box b) b.
Proof. exact unit_box. Qed.
Print Assumptions C52_box.

(** With a voxel size, it is the smallest box around the bounds whose corners are on the grid
    of whole voxels that starts at the world origin. *)
Theorem C52_aligned : forall b size m e, positive_size size -> has_volume b -> coord_aligned b size = Ok (m, e) ->
  exists lo hi, fits size b lo hi /\ unit_cube_is m (grid_box size lo hi).
Proof.
  intros b s m e P V H. apply aligned_ok in H as (-> & _); auto. exists (grid_lo s b), (grid_hi s b).
  split; [apply fits_grid; auto|]. apply unit_box, grid_volume; auto.
Qed.
Print Assumptions C52_aligned.
(** There is exactly one such box. *)
Theorem C52_one : forall b size, positive_size size -> has_volume b ->
  exists lo hi, fits size b lo hi /\ forall lo' hi', fits size b lo' hi' -> lo' = lo /\ hi' = hi.
Proof. intros b s P V. exists (grid_lo s b), (grid_hi s b). split; [apply fits_grid; auto|]. intros. apply fits_unique; auto. Qed.
Print Assumptions C52_one.
(** It is computed whenever the numbers of the grid are [int]s. *)
Theorem C52_defined : forall b size lo hi, positive_size size -> has_volume b -> fits size b lo hi ->
  (int_min <= vx lo /\ int_min <= vy lo /\ int_min <= vz lo)%Z -> (vx hi <= int_max /\ vy hi <= int_max /\ vz hi <= int_max)%Z ->
  exists m e, coord_aligned b size = Ok (m, e).
Proof.
  intros b s lo hi P V F (L1 & L2 & L3) (H1 & H2 & H3). destruct (order_grid s b P V) as (O1 & O2 & O3).
  apply fits_unique in F as (-> & ->); auto. rewrite aligned_eq, !half_grid by auto.
  assert (G : forall a c, (int_min <= a)%Z -> (a < c)%Z -> (c <= int_max)%Z -> i32 (to_extent a) = Ok (to_extent a) /\ i32 (to_extent c) = Ok (to_extent c)).
  { intros a c A B C. unfold i32, in_int, to_extent, int_min, int_max in *.
    split; match goal with |- context [(?x <? 0)%Z] => destruct (Z.ltb_spec x 0) end;
    match goal with |- context [(?x <=? ?y)%Z && (?z <=? ?w)%Z] => destruct (Z.leb_spec x y), (Z.leb_spec z w); cbn; try reflexivity; lia end. }
  destruct (G _ _ L1 O1 H1) as (-> & ->). destruct (G _ _ L2 O2 H2) as (-> & ->). destruct (G _ _ L3 O3 H3) as (-> & ->).
  cbn [bind]. eauto.
Qed.
Print Assumptions C52_defined.

(** A field that has one voxel for each grid cell of the box, at whatever origin, and this
    matrix: its voxels have the size asked for and are the cells of the grid, at all times. *)
Theorem C52_voxels : forall b size m e lo hi ex s, positive_size size -> has_volume b -> coord_aligned b size = Ok (m, e) ->
  fits size b lo hi -> voxels ex = apart lo hi -> mat_run mat_init [MExtents ex; MSet m] = Ok s ->
  mm_voxel s = size /\
  forall t q, m_voxel_to_world s t (disc_to_cont3 q) =
    Some (cell_centre size (V3 (vx lo + (vx q - vx (bmin ex))) (vy lo + (vy q - vy (bmin ex))) (vz lo + (vz q - vz (bmin ex))))).
Proof.
  intros b sz m e lo hi ex s P V H F N R. destruct (order_grid sz b P V) as (O1 & O2 & O3).
  apply fits_unique in F as (-> & ->); auto. apply aligned_ok in H as (-> & _); auto.
  set (lo := grid_lo sz b) in *. set (hi := grid_hi sz b) in *. clearbody lo hi. set (m := coord_box _) in *.
  assert (GD : good s) by (eapply run_good; [apply init_good|exact R]).
  assert (ST : set_frame ex = Ok (mm_frame s) /\ mm_curve s = [(0, m)]).
  { cbn [mat_run mat_step mat_init] in R. destruct (set_frame ex) as [f| |] eqn:SF; [|discriminate..]. cbn [bind] in R.
    change (mm_curve (update_transform frame_init [])) with (@nil (R * m44)) in R. cbn [update_transform mm_curve mm_frame length Nat.ltb Nat.leb] in R.
    injection R as <-. cbn [update_transform mm_frame mm_curve]. split; reflexivity. }
  destruct ST as (SF & SC). assert (W : forall t, world_at s t = m) by (intros t; unfold world_at; rewrite SC; cbn; destruct (rltb t 0); reflexivity).
  apply set_frame_ok in SF. unfold voxels, apart in N. injection N as N1 N2 N3.
  rewrite N1, N2, N3 in SF.
  assert (PF : positive (mm_frame s)) by (rewrite SF; repeat split; cbn [fr_res rx ry rz]; apply IZR_lt; lia).
  pose proof (positive_full _ PF) as FL.
  assert (NP : no_perspective m) by apply coord_box_affine. destruct P as (P1 & P2 & P3).
  apply IZR_lt in O1, O2, O3. split.
  - rewrite (voxel_affine s m GD PF (W 0) NP). rewrite SF. cbn [fr_res rx ry rz].
    assert (L : forall i a c, 0 < i -> c < a -> sqrt ((a * i - c * i) * (a * i - c * i) + 0 * 0 + 0 * 0) = (a - c) * i).
    { intros i a c I J. replace ((a * i - c * i) * (a * i - c * i) + 0 * 0 + 0 * 0) with (((a - c) * i) * ((a - c) * i)) by ring. apply sqrt_square. nra. }
    unfold axis_length, m, coord_box, coordinate_system. cbn [rmin rmax grid_box grid_point row0 row1 row2 e0 e1 e2 rx ry rz].
    replace (0 * 0 + (IZR (vy hi) * ry sz - IZR (vy lo) * ry sz) * (IZR (vy hi) * ry sz - IZR (vy lo) * ry sz) + 0 * 0)
      with ((IZR (vy hi) * ry sz - IZR (vy lo) * ry sz) * (IZR (vy hi) * ry sz - IZR (vy lo) * ry sz) + 0 * 0 + 0 * 0) by ring.
    replace (0 * 0 + 0 * 0 + (IZR (vz hi) * rz sz - IZR (vz lo) * rz sz) * (IZR (vz hi) * rz sz - IZR (vz lo) * rz sz))
      with ((IZR (vz hi) * rz sz - IZR (vz lo) * rz sz) * (IZR (vz hi) * rz sz - IZR (vz lo) * rz sz) + 0 * 0 + 0 * 0) by ring.
    rewrite !L by auto. rewrite !minus_IZR. destruct sz as [a c d]. cbn [rx ry rz] in *. f_equal; field; lra.
  - intros t q. rewrite vs_ws, W by auto. rewrite affine_def by (apply affine_mul; auto using vs_ls_affine).
    rewrite vs_ls_eq by auto. rewrite SF. unfold m, coord_box, coordinate_system, mmul, rowmul, cell_centre, disc_to_cont3, disc_to_cont.
    cbn [rmin rmax grid_box grid_point row0 row1 row2 row3 e0 e1 e2 e3 rx ry rz fr_res fr_origin vx vy vz].
    rewrite !plus_IZR, !minus_IZR. f_equal. f_equal; field; lra.
Qed.
Print Assumptions C52_voxels.

(** Voxels do not move as the bounds grow: fields made like this from any two bounds have
    their voxels at the same places, up to a whole number of voxels. *)
Theorem C52_stable : forall size b1 m1 e1 lo1 hi1 x1 s1 b2 m2 e2 lo2 hi2 x2 s2, positive_size size ->
  has_volume b1 -> coord_aligned b1 size = Ok (m1, e1) -> fits size b1 lo1 hi1 -> voxels x1 = apart lo1 hi1 -> mat_run mat_init [MExtents x1; MSet m1] = Ok s1 ->
  has_volume b2 -> coord_aligned b2 size = Ok (m2, e2) -> fits size b2 lo2 hi2 -> voxels x2 = apart lo2 hi2 -> mat_run mat_init [MExtents x2; MSet m2] = Ok s2 ->
  exists d, forall t q, m_voxel_to_world s1 t (disc_to_cont3 q) =
                        m_voxel_to_world s2 t (disc_to_cont3 (V3 (vx q + vx d) (vy q + vy d) (vz q + vz d))).
Proof.
  intros sz b1 m1 e1 l1 h1 x1 s1 b2 m2 e2 l2 h2 x2 s2 P V1 A1 F1 N1 R1 V2 A2 F2 N2 R2.
  destruct (C52_voxels b1 sz m1 e1 l1 h1 x1 s1 P V1 A1 F1 N1 R1) as (_ & G1).
  destruct (C52_voxels b2 sz m2 e2 l2 h2 x2 s2 P V2 A2 F2 N2 R2) as (_ & G2).
  exists (V3 (vx l1 - vx (bmin x1) - vx l2 + vx (bmin x2)) (vy l1 - vy (bmin x1) - vy l2 + vy (bmin x2)) (vz l1 - vz (bmin x1) - vz l2 + vz (bmin x2))).
  intros t q. rewrite G1, G2. cbn [vx vy vz]. f_equal. f_equal. f_equal; lia.
Qed.
Print Assumptions C52_stable.

(** The extents the call reports: a negative number of the grid is one too large, and the
    upper end is not the last voxel but the one after it. *)
Theorem C52_extents : forall b size m e lo hi, positive_size size -> has_volume b -> coord_aligned b size = Ok (m, e) -> fits size b lo hi ->
  let reported k := if (k <? 0)%Z then (k + 1)%Z else k in
  e = Box (V3 (reported (vx lo)) (reported (vy lo)) (reported (vz lo))) (V3 (reported (vx hi)) (reported (vy hi)) (reported (vz hi))).
Proof.
  intros b s m e lo hi P V H F. apply fits_unique in F as (-> & ->); auto. apply aligned_ok in H as (_ & ->); auto.
Qed.
Print Assumptions C52_extents.
(** So they have one voxel for each cell, as C52_voxels asks, for exactly those bounds that
    begin before the world origin, and do not end more than a voxel before it, on every axis. *)
Theorem C52_extents_count : forall b size m e lo hi, positive_size size -> has_volume b -> coord_aligned b size = Ok (m, e) -> fits size b lo hi ->
  voxels e = apart lo hi <-> ((vx lo < 0 <= vx hi) /\ (vy lo < 0 <= vy hi) /\ (vz lo < 0 <= vz hi))%Z.
Proof.
  intros b s m e lo hi P V H F. rewrite (C52_extents b s m e lo hi P V H F). unfold voxels, apart. cbn [bmin bmax vx vy vz].
  destruct (order_grid s b P V) as (O1 & O2 & O3). apply fits_unique in F as (-> & ->); auto.
  set (lo := grid_lo s b) in *. set (hi := grid_hi s b) in *. clearbody lo hi.
  assert (G : forall a c, (a < c)%Z -> ((if (c <? 0)%Z then (c + 1)%Z else c) - (if (a <? 0)%Z then (a + 1)%Z else a) + 1 = c - a <-> a < 0 <= c)%Z).
  { intros a c L. destruct (Z.ltb_spec c 0), (Z.ltb_spec a 0); lia. }
  rewrite <- (G _ _ O1), <- (G _ _ O2), <- (G _ _ O3). split.
  - intros E. injection E as -> -> ->. auto.
  - intros (-> & -> & ->). reflexivity.
Qed.
Print Assumptions C52_extents_count.

Definition cube (a b : R) : rbox := RBox (R3 a a a) (R3 b b b).
Lemma cube_fits a b (x y : Z) : IZR x <= a < IZR x + 1 -> IZR y - 1 < b <= IZR y -> a < b -> fits (R3 1 1 1) (cube a b) (V3 x x x) (V3 y y y).
Proof.
  intros A B C. assert (P : positive_size (R3 1 1 1)) by (repeat split; cbn; lra). assert (V : has_volume (cube a b)) by (repeat split; cbn; lra).
  pose proof (fits_grid _ _ P V) as F. unfold grid_lo, grid_hi in F. cbn [rmin rmax cube rx ry rz] in F.
  replace (a / 1) with a in F by field. replace (b / 1) with b in F by field.
  rewrite (rfloor_unique a x), (rceil_unique b y) in F by lra. exact F.
Qed.
(** Non-vacuity: bounds from -3/2 to 5/2 have five voxels of size 1 on each axis; and the
    field with the reported extents is as C52_voxels says. *)
Example C52_example : exists m e s, positive_size (R3 1 1 1) /\ has_volume (cube (-3 / 2) (5 / 2)) /\ coord_aligned (cube (-3 / 2) (5 / 2)) (R3 1 1 1) = Ok (m, e) /\
  fits (R3 1 1 1) (cube (-3 / 2) (5 / 2)) (V3 (-2) (-2) (-2)) (V3 3 3 3) /\ voxels e = apart (V3 (-2) (-2) (-2)) (V3 3 3 3) /\
  mat_run mat_init [MExtents e; MSet m] = Ok s.
Proof.
  assert (P : positive_size (R3 1 1 1)) by (repeat split; cbn; lra). assert (V : has_volume (cube (-3 / 2) (5 / 2))) by (repeat split; cbn; lra).
  assert (F : fits (R3 1 1 1) (cube (-3 / 2) (5 / 2)) (V3 (-2) (-2) (-2)) (V3 3 3 3)) by (apply cube_fits; lra).
  destruct (C52_defined _ _ _ _ P V F) as (m & e & H); try (cbn; unfold int_min, int_max; lia).
  pose proof (C52_extents _ _ _ _ _ _ P V H F) as E. cbn in E.
  eexists m, e, _. split; [exact P|]. split; [exact V|]. split; [exact H|]. split; [exact F|]. rewrite E. split; reflexivity.
Qed.
(** Elsewhere the reported extents have a voxel too many: bounds from 1 to 2 give a field of
    two voxels of half the size on each axis. *)
Theorem C52_extents_refuted : exists b size m e s, positive_size size /\ has_volume b /\ coord_aligned b size = Ok (m, e) /\
  mat_run mat_init [MExtents e; MSet m] = Ok s /\ rx size = 1 /\ rx (mm_voxel s) = 1 / 2.
Proof.
  assert (P : positive_size (R3 1 1 1)) by (repeat split; cbn; lra). assert (V : has_volume (cube 1 2)) by (repeat split; cbn; lra).
  assert (F : fits (R3 1 1 1) (cube 1 2) (V3 1 1 1) (V3 2 2 2)) by (apply cube_fits; lra).
  destruct (C52_defined _ _ _ _ P V F) as (m & e & H); try (cbn; unfold int_min, int_max; lia).
  pose proof (C52_extents _ _ _ _ _ _ P V H F) as E. cbn in E. exists (cube 1 2), (R3 1 1 1), m, e.
  destruct (fits_unique _ _ _ _ P V F) as (G1 & G2). destruct (aligned_ok _ _ _ _ P H) as (M & _). rewrite <- G1, <- G2 in M.
  eexists. split; [exact P|]. split; [exact V|]. split; [exact H|]. rewrite E. split; [reflexivity|]. split; [reflexivity|].
  match goal with |- rx (mm_voxel ?s) = _ => assert (GD : good s) by (apply (run_good [MExtents e; MSet m] mat_init); [apply init_good|rewrite E; reflexivity]);
    rewrite (voxel_affine s m GD) end.
  - rewrite M. cbn [rx mm_frame update_transform fr_res]. unfold axis_length, coord_box, coordinate_system. cbn [rmin rmax grid_box grid_point row0 e0 e1 e2 rx ry rz vx vy vz].
    replace ((2 * 1 - 1 * 1) * (2 * 1 - 1 * 1) + 0 * 0 + 0 * 0) with 1 by ring. rewrite sqrt_1. cbn. lra.
  - repeat split; cbn; lra.
  - unfold world_at. cbn. destruct (rltb 0 0); reflexivity.
  - rewrite M. apply coord_box_affine.
Qed.
Print Assumptions C52_extents_refuted.
