(** Proofs about the coordinates of MIP levels. *)
From Coq Require Import ZArith Reals List Bool Lra Lia Sorted.
From Verif Require Import Model.Base Model.RealM Proof.RealP Model.VecM Model.MatM Model.CurveM Model.MapM Model.CopyM Model.RayM
  Model.MipMapM Spec.CurveSpec Spec.MapSpec Spec.MipMapSpec Proof.CurveP Proof.MatP Proof.PointP Proof.MapP Props.CurveProps.
Import ListNotations.
Open Scope R_scope.

(** ** Curves pass through their samples *)
Lemma mat_lerp_0 a b : mat_lerp a b 0 = a.
Proof. mats. unfold mat_lerp, row_lerp, lerp. cbn. f_equal; f_equal; ring. Qed.
Lemma mfrom_self l : forall a, rising rltb (a :: l) -> linear_from rltb mat_mix a l (fst a) = snd a.
Proof.
  intros a S. destruct l as [|b l]; [reflexivity|]. inversion S as [|? ? S1 F]; subst. inversion F as [|? ? H _]; subst.
  cbn [linear_from]. rewrite H. unfold mat_mix. destruct (rltb_spec (fst a) (fst b)) as [H'|]; [|discriminate]. rewrite lerpfactor_ne by lra.
  replace ((fst a - fst a) / (fst b - fst a)) with 0 by (field; lra). apply mat_lerp_0.
Qed.
Lemma mfrom_through l : forall s a, rising rltb (s :: l) -> In a (s :: l) -> linear_from rltb mat_mix s l (fst a) = snd a.
Proof.
  induction l as [|b l IH]; intros s a S I.
  { destruct I as [<-|[]]. apply mfrom_self; auto. }
  destruct I as [<-|I]; [apply mfrom_self; auto|]. inversion S as [|? ? S1 F]; subst. cbn [linear_from].
  replace (rltb (fst a) (fst b)) with false; [apply IH; auto|]. symmetry.
  destruct I as [<-|I]; [apply (ltb_irr _ _ ordered_R)|].
  inversion S1 as [|? ? S2 F2]; subst. rewrite Forall_forall in F2. apply (ltb_anti rltb reqb ordered_R). auto.
Qed.
Lemma mthrough c a : rising rltb c -> In a c -> mlinear c (fst a) = snd a.
Proof.
  intros S I. destruct c as [|s c]; [destruct I|]. unfold mlinear, linear.
  replace (rltb (fst a) (fst s)) with false; [apply mfrom_through; auto|]. symmetry.
  destruct I as [<-|I]; [apply (ltb_irr _ _ ordered_R)|].
  inversion S as [|? ? S1 F]; subst. rewrite Forall_forall in F. apply (ltb_anti rltb reqb ordered_R). auto.
Qed.

(** ** Curves of affine matrices *)
Lemma affine_lerp a b t : no_perspective a -> no_perspective b -> no_perspective (mat_lerp a b t).
Proof.
  intros (A & B & C & D) (A' & B' & C' & D'). unfold no_perspective, mat_lerp, row_lerp, lerp. cbn.
  rewrite A, B, C, D, A', B', C', D'. repeat split; ring.
Qed.
Lemma affine_from l : forall s t, Forall (fun a => no_perspective (snd a)) (s :: l) -> no_perspective (linear_from rltb mat_mix s l t).
Proof.
  induction l as [|b l IH]; intros s t F; inversion F as [|? ? A F1]; subst; [exact A|]. cbn [linear_from].
  destruct (rltb t (fst b)); [|apply IH; auto]. inversion F1; subst. apply affine_lerp; auto.
Qed.
Lemma affine_curve c t : c <> [] -> Forall (fun a => no_perspective (snd a)) c -> no_perspective (mlinear c t).
Proof.
  intros N F. destruct c as [|s c]; [congruence|]. unfold mlinear, linear. destruct (rltb t (fst s)); [inversion F; auto|].
  apply affine_from; auto.
Qed.

(** ** Lengths *)
Lemma normalized_scaled k x y z (a := sqrt (x * x + y * y + z * z)) : 0 < k -> 0 < a ->
  normalized (R3 (k * x) (k * y) (k * z)) = R3 (x / a) (y / a) (z / a).
Proof.
  intros K A. unfold normalized, dot. cbn [rx ry rz].
  replace (k * x * (k * x) + k * y * (k * y) + k * z * (k * z)) with (k * k * (x * x + y * y + z * z)) by ring.
  assert (P : 0 <= x * x + y * y + z * z) by nra.
  rewrite sqrt_mult, sqrt_square by nra. fold a. destruct (reqb_spec (k * a) 0); [nra|].
  f_equal; field; lra.
Qed.
Lemma axis_nonneg a : 0 <= axis_length a.
Proof. apply sqrt_pos. Qed.
Lemma distance_scaled k x y z a b c : 0 < k ->
  distance (R3 (k * x + a) (k * y + b) (k * z + c)) (R3 a b c) = k * sqrt (x * x + y * y + z * z).
Proof.
  intros K. unfold distance. cbn [rx ry rz].
  replace ((k * x + a - a) * (k * x + a - a) + (k * y + b - b) * (k * y + b - b) + (k * z + c - c) * (k * z + c - c))
    with (k * k * (x * x + y * y + z * z)) by ring.
  rewrite sqrt_mult, sqrt_square by nra. reflexivity.
Qed.

(** ** The matrix of a level *)
Definition grow (offset : v3) (res base : r3) (level : Z) : m44 :=
  let k := IZR (2 ^ level) in
  M44 (R4 (k * rx res / rx base) 0 0 0) (R4 0 (k * ry res / ry base) 0 0) (R4 0 0 (k * rz res / rz base) 0)
      (R4 (IZR (mip_shift (vx offset) level) / rx base) (IZR (mip_shift (vy offset) level) / ry base) (IZR (mip_shift (vz offset) level) / rz base) 1).
Definition positive (f : frame) : Prop := 0 < rx (fr_res f) /\ 0 < ry (fr_res f) /\ 0 < rz (fr_res f).
Lemma positive_full f : positive f -> full f.
Proof. intros (A & B & C). repeat split; lra. Qed.

Lemma voxel_affine s m0 : good s -> positive (mm_frame s) -> world_at s 0 = m0 -> no_perspective m0 ->
  mm_voxel s = R3 (axis_length (row0 m0) / rx (fr_res (mm_frame s))) (axis_length (row1 m0) / ry (fr_res (mm_frame s)))
                  (axis_length (row2 m0) / rz (fr_res (mm_frame s))).
Proof.
  intros G P E N. pose proof (positive_full _ P) as FL. rewrite (good_eq s G). cbn [mm_voxel update_transform mm_frame].
  unfold world_at in E. rewrite E. fold (vs_ls (mm_frame s)).
  assert (A : no_perspective (mmul (vs_ls (mm_frame s)) m0)) by (apply affine_mul; auto using vs_ls_affine).
  unfold step_length. rewrite !affine_def by auto. rewrite vs_ls_eq by auto. cbn [rx ry rz].
  destruct P as (Px & Py & Pz). destruct m0 as [[a0 a1 a2 a3] [b0 b1 b2 b3] [c0 c1 c2 c3] [d0 d1 d2 d3]].
  unfold mmul, rowmul. cbn [row0 row1 row2 row3 e0 e1 e2 e3]. clear A N E.
  set (r := fr_res (mm_frame s)) in *. set (o := fr_origin (mm_frame s)) in *.
  unfold axis_length. cbn [e0 e1 e2].
  f_equal;
  match goal with |- _ = sqrt ?a / ?b => change (sqrt a / b) with (sqrt a * / b) end; rewrite (Rmult_comm (sqrt _));
  rewrite <- (distance_scaled _ _ _ _
    (0 * (/ rx r * a0) + 0 * (/ ry r * b0) + 0 * (/ rz r * c0) + (- rx o / rx r * a0 + - ry o / ry r * b0 + - rz o / rz r * c0 + 1 * d0))
    (0 * (/ rx r * a1) + 0 * (/ ry r * b1) + 0 * (/ rz r * c1) + (- rx o / rx r * a1 + - ry o / ry r * b1 + - rz o / rz r * c1 + 1 * d1))
    (0 * (/ rx r * a2) + 0 * (/ ry r * b2) + 0 * (/ rz r * c2) + (- rx o / rx r * a2 + - ry o / ry r * b2 + - rz o / rz r * c2 + 1 * d2))) by (apply Rinv_0_lt_compat; auto);
  f_equal; f_equal; field; lra.
Qed.

Lemma direction_axis k (x y z a b c len : R) : 0 < k -> 0 < sqrt (x * x + y * y + z * z) ->
  direction (R3 (k * x + a) (k * y + b) (k * z + c)) (R3 a b c) len =
  R3 (x * (len / sqrt (x * x + y * y + z * z))) (y * (len / sqrt (x * x + y * y + z * z))) (z * (len / sqrt (x * x + y * y + z * z))).
Proof.
  intros K A. unfold direction, sub3. cbn [rx ry rz].
  replace (R3 (k * x + a - a) (k * y + b - b) (k * z + c - c)) with (R3 (k * x) (k * y) (k * z)) by (f_equal; ring).
  rewrite normalized_scaled by auto. cbn [rx ry rz]. f_equal; field; lra.
Qed.

Lemma level_matrix_ratio s offset res level t m m0 : good s -> positive (mm_frame s) ->
  world_at s t = m -> no_perspective m -> world_at s 0 = m0 -> no_perspective m0 ->
  0 < axis_length (row0 m) -> 0 < axis_length (row1 m) -> 0 < axis_length (row2 m) ->
  level_matrix s offset res level t = Some (mmul (mmul (grow offset res (fr_res (mm_frame s)) level)
    (scale (R3 (axis_length (row0 m0) / axis_length (row0 m)) (axis_length (row1 m0) / axis_length (row1 m)) (axis_length (row2 m0) / axis_length (row2 m))))) m).
Proof.
  intros G P E N E0 N0 X Y Z. unfold level_matrix. rewrite !ls_ws by auto. rewrite E, !affine_def by auto.
  rewrite (voxel_affine s m0) by auto. set (l0 := axis_length (row0 m0)) in *. set (l1 := axis_length (row1 m0)) in *. set (l2 := axis_length (row2 m0)) in *. destruct P as (Px & Py & Pz).
  destruct N as (N1 & N2 & N3 & N4). clearbody l0 l1 l2. clear G E E0 N0 m0.
  destruct m as [[a0 a1 a2 a3] [b0 b1 b2 b3] [c0 c1 c2 c3] [d0 d1 d2 d3]]. cbn in N1, N2, N3, N4. subst.
  unfold axis_length in *. cbn [row0 row1 row2 row3 e0 e1 e2 e3 rx ry rz] in *.
  set (r := fr_res (mm_frame s)) in *.
  set (la := sqrt (a0 * a0 + a1 * a1 + a2 * a2)) in *. set (lb := sqrt (b0 * b0 + b1 * b1 + b2 * b2)) in *.
  set (lc := sqrt (c0 * c0 + c1 * c1 + c2 * c2)) in *.
  replace (R3 (0 * a0 + 0 * b0 + 0 * c0 + d0) (0 * a1 + 0 * b1 + 0 * c1 + d1) (0 * a2 + 0 * b2 + 0 * c2 + d2)) with (R3 d0 d1 d2) by (f_equal; ring).
  replace (R3 (1 * a0 + 0 * b0 + 0 * c0 + d0) (1 * a1 + 0 * b1 + 0 * c1 + d1) (1 * a2 + 0 * b2 + 0 * c2 + d2)) with (R3 (1 * a0 + d0) (1 * a1 + d1) (1 * a2 + d2)) by (f_equal; ring).
  replace (R3 (0 * a0 + 1 * b0 + 0 * c0 + d0) (0 * a1 + 1 * b1 + 0 * c1 + d1) (0 * a2 + 1 * b2 + 0 * c2 + d2)) with (R3 (1 * b0 + d0) (1 * b1 + d1) (1 * b2 + d2)) by (f_equal; ring).
  replace (R3 (0 * a0 + 0 * b0 + 1 / 10 * c0 + d0) (0 * a1 + 0 * b1 + 1 / 10 * c1 + d1) (0 * a2 + 0 * b2 + 1 / 10 * c2 + d2)) with (R3 (1 / 10 * c0 + d0) (1 / 10 * c1 + d1) (1 / 10 * c2 + d2)) by (f_equal; ring).
  assert (L10 : 0 < 1 / 10) by lra.
  rewrite !direction_axis by (auto; lra). fold la lb lc.
  unfold coordinate_system, add3, grow, scale, mmul, rowmul. cbn [row0 row1 row2 row3 e0 e1 e2 e3 rx ry rz].
  f_equal. f_equal; f_equal; field; repeat split; lra.
Qed.

Lemma level_matrix_grow s offset res level t m m0 : good s -> positive (mm_frame s) ->
  world_at s t = m -> no_perspective m -> world_at s 0 = m0 -> no_perspective m0 ->
  0 < axis_length (row0 m) -> axis_length (row0 m) = axis_length (row0 m0) ->
  0 < axis_length (row1 m) -> axis_length (row1 m) = axis_length (row1 m0) ->
  0 < axis_length (row2 m) -> axis_length (row2 m) = axis_length (row2 m0) ->
  level_matrix s offset res level t = Some (mmul (grow offset res (fr_res (mm_frame s)) level) m).
Proof.
  intros G P E N E0 N0 X X' Y Y' Z Z'. rewrite (level_matrix_ratio s offset res level t m m0) by auto.
  rewrite <- X', <- Y', <- Z'. unfold Rdiv. rewrite !Rinv_r by lra.
  change (scale (R3 1 1 1)) with ident. rewrite mmul_ident_r. reflexivity.
Qed.

(** ** The mapping of a level *)
Lemma add_times {X} t (v : X) l u : In u (map fst (add_sample rltb reqb t v l)) -> u = t \/ In u (map fst l).
Proof.
  unfold add_sample. destruct (existsb _ l); [rewrite replace_times; auto|]. intros I. apply in_map_iff in I.
  destruct I as (x & <- & I). apply insert_in' in I. destruct I as [->|I]; auto. right. apply in_map; auto.
Qed.
Lemma run_times {X} (h : list (R * X)) : forall l u, In u (map fst (fold_left (fun l s => add_sample rltb reqb (fst s) (snd s) l) h l)) ->
  In u (map fst h) \/ In u (map fst l).
Proof.
  induction h as [|a h IH]; intros l u I; [auto|]. cbn in *. destruct (IH _ _ I) as [H|H]; [auto|].
  destruct (add_times _ _ _ _ H) as [->|H']; auto.
Qed.
Lemma level_ops s offset res level D l : (forall a, In a l -> level_matrix s offset res level (fst a) = Some (mmul D (snd a))) ->
  level_matrices s offset res level l = Some (map (fun a => MSetAt (fst a) (mmul D (snd a))) l).
Proof.
  induction l as [|[t m] l IH]; intros H; [reflexivity|]. cbn [level_matrices map fst snd].
  rewrite (H (t, m) (or_introl eq_refl) : level_matrix s offset res level t = _). rewrite IH by (intros; apply H; right; auto). reflexivity.
Qed.
Lemma run_sets D l : forall s, good s -> exists s', mat_run s (map (fun a => MSetAt (fst a) (mmul D (snd a))) l) = Ok s' /\
  good s' /\ mm_curve s' = fold_left (fun acc a => madd acc (fst a) (mmul D (snd a))) l (mm_curve s).
Proof.
  induction l as [|a l IH]; intros s G; [exists s; auto|]. cbn [map mat_run mat_step bind fold_left].
  apply IH. apply update_good. apply add_rising; [apply ordered_R|apply good_rising; auto].
Qed.
Lemma curve_ne h s : mat_run mat_init h = Ok s -> samples_of h <> [] -> mm_curve s <> [].
Proof.
  intros H N E. destruct (run_init h s H) as (_ & C & _). rewrite E in C. destruct (samples_of h) as [|a l] using rev_ind; [congruence|].
  destruct a as [t v]. rewrite curve_run_app in C. unfold add_sample in C. 
  assert (L : forall c : mcurve, insert_at rltb t v c <> []) by (intros [|[u w] c]; cbn; [congruence|destruct (rltb t u); congruence]).
  destruct (existsb _ _) eqn:X; [|symmetry in C; apply L in C; auto].
  apply (f_equal (map fst)) in C. rewrite replace_times in C. destruct (curve_run rltb reqb l); [discriminate X|discriminate C].
Qed.

Section Level.
Variables (h : list mat_op) (s : matmap) (offset : v3) (e : box) (level : Z).
Hypotheses (H : mat_run mat_init h = Ok s) (VX : has_voxels (extents_of h)) (NE : samples_of h <> []) (ST : steady h)
  (VE : has_voxels e) (IE : int_size e).
Local Notation D := (grow offset (size_of e) (fr_res (mm_frame s)) level).

Lemma base_positive : positive (mm_frame s).
Proof.
  destruct (run_init h s H) as (_ & _ & F). apply set_frame_ok in F. destruct VX as (A & B & C). rewrite F.
  repeat split; cbn [fr_res rx ry rz]; apply IZR_lt; lia.
Qed.
Lemma base_affine t : no_perspective (world_at s t).
Proof.
  destruct (run_init h s H) as (G & C & _). apply affine_curve; [apply (curve_ne h); auto|].
  rewrite Forall_forall. intros a I. destruct ST as (m0 & _ & S). destruct (S (fst a) (snd a)) as (N & _); [| |exact N].
  - rewrite C in I. apply (in_map fst) in I. destruct (run_times _ _ _ I) as [?|[]]; auto.
  - rewrite <- (mthrough (mm_curve s) a); auto; [apply (history_matrix h s _ H)|apply good_rising; auto].
Qed.
Lemma level_is : exists f n, set_frame e = Ok f /\ level_mapping (MapMatrix s) offset e level = Some (Ok (MapMatrix n)) /\
  good n /\ mm_frame n = f /\ forall t, world_at n t = mmul D (world_at s t).
Proof.
  destruct (run_init h s H) as (G & C & _). destruct IE as (f & F). exists f.
  destruct (run_sets D (mm_curve s) mat_init init_good) as (n & R & Gn & Cn).
  exists (update_transform f (mm_curve n)). split; auto. split.
  { unfold level_mapping, adjusted_mapping. rewrite (level_ops s offset (size_of e) level D).
    { rewrite R. cbn [bind]. unfold map_extents. rewrite F. reflexivity. }
    intros a I. destruct ST as (m0 & I0 & S). 
    assert (T : world_at s (fst a) = snd a) by (apply mthrough; auto; apply good_rising; auto).
    assert (E0 : world_at s 0 = m0) by (apply (interpolates_unique h 0); auto; apply history_matrix; auto).
    destruct (S (fst a) (snd a)) as (N & X & X' & Y & Y' & Z & Z').
    - rewrite C in I. apply (in_map fst) in I. destruct (run_times _ _ _ I) as [?|[]]; auto.
    - rewrite <- T. apply history_matrix; auto.
    - apply (level_matrix_grow s offset (size_of e) level (fst a) (snd a) m0); auto; [apply base_positive|rewrite <- E0; apply base_affine]. }
  assert (Rn : mm_curve n = left_by D (mm_curve s)).
  { rewrite Cn. apply rebuild. apply good_rising; auto. }
  split; [apply update_good; apply good_rising; auto|]. split; [reflexivity|].
  intros t. unfold world_at. cbn [mm_curve update_transform]. rewrite Rn. apply left_linear. apply (curve_ne h); auto.
Qed.

Lemma local_places f0 f p q : (0 <= level)%Z -> set_frame (extents_of h) = Ok f0 -> set_frame e = Ok f ->
  same_place offset level (bmin e) (bmin (extents_of h)) p q ->
  mult_vec (mmul (vs_ls f) (grow offset (size_of e) (fr_res f0) level)) p = Some (voxel_to_local f0 q).
Proof.
  intros L F0 F (Sx & Sy & Sz). apply set_frame_ok in F0, F.
  assert (P : full f) by (rewrite F; destruct VE as (? & ? & ?); repeat split; cbn [fr_res rx ry rz]; apply not_0_IZR; lia).
  assert (P0 : full f0) by (rewrite F0; destruct VX as (? & ? & ?); repeat split; cbn [fr_res rx ry rz]; apply not_0_IZR; lia).
  rewrite (mult_vec_mul_none _ _ p (voxel_to_local f p)) by (apply vl_matrix; auto).
  rewrite affine_def by (repeat split). unfold voxel_to_local, same_place1 in *. rewrite !lerpfactor_res by (apply P || apply P0).
  assert (M : forall o, IZR (mip_shift o level) = IZR (o / 2 ^ level) * IZR (2 ^ level) - IZR o).
  { intros o. unfold mip_shift. rewrite Z.shiftl_mul_pow2, Z.shiftr_div_pow2 by auto. rewrite minus_IZR, mult_IZR. reflexivity. }
  unfold grow. cbn [row0 row1 row2 row3 e0 e1 e2 rx ry rz]. rewrite !M.
  replace (size_of e) with (fr_res f) by (rewrite F; reflexivity).
  assert (O : fr_origin f = R3 (IZR (vx (bmin e))) (IZR (vy (bmin e))) (IZR (vz (bmin e)))) by (rewrite F; reflexivity).
  assert (O0 : fr_origin f0 = R3 (IZR (vx (bmin (extents_of h)))) (IZR (vy (bmin (extents_of h)))) (IZR (vz (bmin (extents_of h))))) by (rewrite F0; reflexivity).
  rewrite O, O0. cbn [rx ry rz]. clear F F0 O O0. destruct P as (Px & Py & Pz). destruct P0 as (Qx & Qy & Qz).
  replace (rx q - IZR (vx (bmin (extents_of h)))) with (IZR (2 ^ level) * (rx p - IZR (vx (bmin e)) + IZR (vx offset / 2 ^ level)) - IZR (vx offset)) by lra.
  replace (ry q - IZR (vy (bmin (extents_of h)))) with (IZR (2 ^ level) * (ry p - IZR (vy (bmin e)) + IZR (vy offset / 2 ^ level)) - IZR (vy offset)) by lra.
  replace (rz q - IZR (vz (bmin (extents_of h)))) with (IZR (2 ^ level) * (rz p - IZR (vz (bmin e)) + IZR (vz offset / 2 ^ level)) - IZR (vz offset)) by lra.
  f_equal. f_equal; field; auto.
Qed.
End Level.
