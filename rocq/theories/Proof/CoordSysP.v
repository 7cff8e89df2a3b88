(** Proofs about coordinate systems made from world bounds. *)
From Coq Require Import ZArith Reals List Bool Lra Lia.
From Verif Require Import Model.Base Model.RealM Proof.RealP Model.VecM Model.MatM Model.CoordM Model.MapM Model.MipMapM Model.CoordSysM
  Spec.MapSpec Spec.MipMapSpec Spec.CoordSysSpec Proof.MatP Proof.PointP Proof.CoordP Proof.MapP Proof.MipMapP.
Import ListNotations.
Open Scope R_scope.

Lemma coord_box_affine b : no_perspective (coord_box b).
Proof. repeat split. Qed.
Lemma coord_box_at b p : mult_vec (coord_box b) p = Some (R3
  (rx (rmin b) + rx p * (rx (rmax b) - rx (rmin b))) (ry (rmin b) + ry p * (ry (rmax b) - ry (rmin b)))
  (rz (rmin b) + rz p * (rz (rmax b) - rz (rmin b)))).
Proof. rewrite affine_def by apply coord_box_affine. cbn. f_equal. f_equal; ring. Qed.
Lemma unit_box b : has_volume b -> unit_cube_is (coord_box b) b.
Proof.
  intros (A & B & C) p. eexists. split; [apply coord_box_at|]. unfold inside. cbn [rx ry rz].
  assert (G : forall l h x, l < h -> (0 <= x <= 1 <-> l <= l + x * (h - l) <= h)).
  { intros l h x H. split; intros; nra. }
  rewrite (G _ _ (rx p) A), (G _ _ (ry p) B), (G _ _ (rz p) C). tauto.
Qed.

(** ** The grid *)
Definition below (a b : r3) : Prop := rx a <= rx b /\ ry a <= ry b /\ rz a <= rz b.
Lemma contains_iff b c : below (rmin c) (rmax c) -> (contains b c <-> below (rmin b) (rmin c) /\ below (rmax c) (rmax b)).
Proof.
  intros (A & B & C). unfold contains, inside, below. split.
  - intros H. destruct (H (rmin c)) as ((? & ?) & (? & ?) & ? & ?); [repeat split; lra|].
    destruct (H (rmax c)) as ((? & ?) & (? & ?) & ? & ?); [repeat split; lra|]. repeat split; lra.
  - intros ((X & Y & Z) & (U & V & W)) p ((P1 & P2) & (P3 & P4) & P5 & P6). repeat split; lra.
Qed.
Definition grid_lo (s : r3) (b : rbox) : v3 := V3 (rfloor (rx (rmin b) / rx s)) (rfloor (ry (rmin b) / ry s)) (rfloor (rz (rmin b) / rz s)).
Definition grid_hi (s : r3) (b : rbox) : v3 := V3 (rceil (rx (rmax b) / rx s)) (rceil (ry (rmax b) / ry s)) (rceil (rz (rmax b) / rz s)).
Lemma volume_below b : has_volume b -> below (rmin b) (rmax b).
Proof. intros (A & B & C). repeat split; lra. Qed.

Lemma floor_grid x s k : 0 < s -> (IZR k * s <= x <-> (k <= rfloor (x / s))%Z).
Proof.
  intros H. assert (E : x = x / s * s) by (field; lra). set (y := x / s) in *. clearbody y. subst x.
  pose proof (rfloor_spec y). split; intros G.
  - apply Rmult_le_reg_r in G; auto. assert (IZR k < IZR (rfloor y) + 1) by lra. rewrite <- plus_IZR in H1. apply lt_IZR in H1. lia.
  - apply IZR_le in G. apply Rmult_le_compat_r; lra.
Qed.
Lemma ceil_grid x s k : 0 < s -> (x <= IZR k * s <-> (rceil (x / s) <= k)%Z).
Proof.
  intros H. assert (E : x = x / s * s) by (field; lra). set (y := x / s) in *. clearbody y. subst x.
  pose proof (rceil_spec y). split; intros G.
  - apply Rmult_le_reg_r in G; auto. assert (IZR (rceil y) - 1 < IZR k) by lra. rewrite <- minus_IZR in H1. apply lt_IZR in H1. lia.
  - apply IZR_le in G. apply Rmult_le_compat_r; lra.
Qed.
Lemma grid_contains s b lo hi : positive_size s -> has_volume b ->
  (contains (grid_box s lo hi) b <->
   ((vx lo <= vx (grid_lo s b) /\ vy lo <= vy (grid_lo s b) /\ vz lo <= vz (grid_lo s b)) /\
    (vx (grid_hi s b) <= vx hi /\ vy (grid_hi s b) <= vy hi /\ vz (grid_hi s b) <= vz hi))%Z).
Proof.
  intros (A & B & C) V. rewrite contains_iff by (apply volume_below; auto). unfold below. cbn [rmin rmax grid_box grid_point rx ry rz].
  rewrite !floor_grid, !ceil_grid by auto. cbn [grid_lo grid_hi vx vy vz]. tauto.
Qed.
Lemma fits_grid s b : positive_size s -> has_volume b -> fits s b (grid_lo s b) (grid_hi s b).
Proof.
  intros P V. split; [apply grid_contains; auto; repeat split; lia|].
  intros lo hi. rewrite grid_contains by auto. intros ((A & B & C) & D & E & F) p. destruct P as (P1 & P2 & P3).
  apply IZR_le in A, B, C, D, E, F. unfold inside. cbn [rmin rmax grid_box grid_point rx ry rz]. intros ((Q1 & Q2) & (Q3 & Q4) & Q5 & Q6).
  repeat split; nra.
Qed.
Lemma order_grid s b : positive_size s -> has_volume b ->
  (vx (grid_lo s b) < vx (grid_hi s b) /\ vy (grid_lo s b) < vy (grid_hi s b) /\ vz (grid_lo s b) < vz (grid_hi s b))%Z.
Proof.
  intros (A & B & C) (X & Y & Z). cbn [grid_lo grid_hi vx vy vz].
  assert (G : forall k a c, 0 < k -> a < c -> (rfloor (a / k) < rceil (c / k))%Z).
  { intros k a c K H. assert (a / k < c / k) by (apply Rmult_lt_compat_r; auto; apply Rinv_0_lt_compat; auto).
    pose proof (rfloor_spec (a / k)). pose proof (rceil_spec (c / k)). apply lt_IZR. lra. }
  auto.
Qed.
Lemma fits_unique s b lo hi : positive_size s -> has_volume b -> fits s b lo hi -> lo = grid_lo s b /\ hi = grid_hi s b.
Proof.
  intros P V (A & B). destruct (fits_grid s b P V) as (C & _). apply B in C. rewrite grid_contains in A by auto.
  destruct (order_grid s b P V) as (O1 & O2 & O3). destruct P as (P1 & P2 & P3).
  rewrite contains_iff in C.
  2:{ destruct A as ((A1 & A2 & A3) & A4 & A5 & A6). repeat split; cbn; (apply Rmult_le_compat_r; [lra|apply IZR_le; lia]). }
  destruct C as ((C1 & C2 & C3) & C4 & C5 & C6). cbn [rmin rmax grid_box grid_point rx ry rz] in *.
  apply Rmult_le_reg_r in C1, C2, C3, C4, C5, C6; auto. apply le_IZR in C1, C2, C3, C4, C5, C6.
  destruct lo as [l1 l2 l3], hi as [h1 h2 h3], A as ((A1 & A2 & A3) & A4 & A5 & A6). cbn [vx vy vz grid_lo grid_hi] in *. split; unfold grid_lo, grid_hi; f_equal; lia.
Qed.

(** ** The aligned coordinate system *)
Definition to_extent (k : Z) : Z := if (k <? 0)%Z then (k + 1)%Z else k.
Lemma trunc_half k : rtrunc (IZR k + 1 / 2) = to_extent k.
Proof.
  unfold rtrunc, to_extent. destruct (Z.ltb_spec k 0).
  - destruct (rleb_spec 0 (IZR k + 1 / 2)) as [G|G].
    + apply Z.le_succ_l in H. apply IZR_le in H. rewrite succ_IZR in H. lra.
    + apply rceil_unique. rewrite plus_IZR. lra.
  - destruct (rleb_spec 0 (IZR k + 1 / 2)) as [G|G].
    + apply rfloor_unique. lra.
    + apply IZR_le in H. lra.
Qed.
Lemma half_grid g : half_int3 (R3 (IZR (vx g)) (IZR (vy g)) (IZR (vz g))) =
  (let* x := i32 (to_extent (vx g)) in let* y := i32 (to_extent (vy g)) in let* z := i32 (to_extent (vz g)) in Ok (V3 x y z)).
Proof. unfold half_int3. cbn [rx ry rz]. now rewrite !trunc_half. Qed.
Lemma floor_back s k : 0 < s -> rfloor (IZR k * s / s) = k.
Proof. intros H. replace (IZR k * s / s) with (IZR k) by (field; lra). apply rfloor_IZR. Qed.
Lemma aligned_eq s b : positive_size s -> coord_aligned b s =
  (let* lo := half_int3 (R3 (IZR (vx (grid_lo s b))) (IZR (vy (grid_lo s b))) (IZR (vz (grid_lo s b)))) in
   let* hi := half_int3 (R3 (IZR (vx (grid_hi s b))) (IZR (vy (grid_hi s b))) (IZR (vz (grid_hi s b)))) in
   Ok (coord_box (grid_box s (grid_lo s b) (grid_hi s b)), Box lo hi)).
Proof.
  intros (A & B & C). unfold coord_aligned.
  destruct (reqb_spec (rx s) 0); [lra|]. destruct (reqb_spec (ry s) 0); [lra|]. destruct (reqb_spec (rz s) 0); [lra|]. cbn [orb].
  unfold mul3, floor3, ceil3, div3. cbn [rx ry rz]. rewrite !floor_back by auto. reflexivity.
Qed.
Definition ext_v3 (g : v3) : v3 := V3 (to_extent (vx g)) (to_extent (vy g)) (to_extent (vz g)).
Lemma half_ok a v : half_int3 (R3 (IZR (vx a)) (IZR (vy a)) (IZR (vz a))) = Ok v -> v = ext_v3 a.
Proof.
  rewrite half_grid. unfold i32, ext_v3.
  destruct (in_int (to_extent (vx a))); [|discriminate]. cbn [bind].
  destruct (in_int (to_extent (vy a))); [|discriminate]. cbn [bind].
  destruct (in_int (to_extent (vz a))); [|discriminate]. cbn [bind]. congruence.
Qed.
Lemma aligned_ok s b m e : positive_size s -> coord_aligned b s = Ok (m, e) ->
  m = coord_box (grid_box s (grid_lo s b) (grid_hi s b)) /\ e = Box (ext_v3 (grid_lo s b)) (ext_v3 (grid_hi s b)).
Proof.
  intros P H. rewrite aligned_eq in H by auto.
  destruct (half_int3 (R3 (IZR (vx (grid_lo s b))) _ _)) eqn:E; [|discriminate..]. cbn [bind] in H.
  destruct (half_int3 (R3 (IZR (vx (grid_hi s b))) _ _)) eqn:F; [|discriminate..]. cbn [bind] in H.
  apply half_ok in E, F. subst. injection H as <- <-. auto.
Qed.
Lemma grid_volume s b : positive_size s -> has_volume b -> has_volume (grid_box s (grid_lo s b) (grid_hi s b)).
Proof.
  intros P V. destruct (order_grid s b P V) as (A & B & C). destruct P as (P1 & P2 & P3).
  repeat split; cbn [grid_box rmin rmax grid_point rx ry rz]; apply Rmult_lt_compat_r; auto; apply IZR_lt; auto.
Qed.
