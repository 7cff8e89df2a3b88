(** Proofs about mappings. *)
From Coq Require Import ZArith Reals List Bool Lra Lia Sorted.
From Verif Require Import Model.Base Model.RealM Proof.RealP Model.VecM Model.MatM Model.CurveM Model.MapM
  Spec.CurveSpec Spec.MapSpec Proof.CurveP Proof.MatP Proof.PointP Props.CurveProps.
Import ListNotations.
Open Scope R_scope.

(** ** Local and voxel space *)
Definition full (f : frame) : Prop := rx (fr_res f) <> 0 /\ ry (fr_res f) <> 0 /\ rz (fr_res f) <> 0.
Lemma lerpfactor_res p o r : r <> 0 -> lerpfactor p o (o + r) = (p - o) / r.
Proof. intros H. rewrite lerpfactor_ne by lra. f_equal; ring. Qed.
Lemma vl_inv f p : full f -> voxel_to_local f (local_to_voxel f p) = p.
Proof.
  intros (A & B & C). destruct p as [x y z]. unfold voxel_to_local, local_to_voxel. cbn.
  rewrite !lerpfactor_res by auto. f_equal; field; auto.
Qed.
Lemma lv_inv f p : full f -> local_to_voxel f (voxel_to_local f p) = p.
Proof.
  intros (A & B & C). destruct p as [x y z]. unfold voxel_to_local, local_to_voxel. cbn.
  rewrite !lerpfactor_res by auto. f_equal; field; auto.
Qed.
Lemma set_frame_ok e f : set_frame e = Ok f ->
  f = Frame (R3 (IZR (vx (bmin e))) (IZR (vy (bmin e))) (IZR (vz (bmin e))))
            (R3 (IZR (vx (bmax e) - vx (bmin e) + 1)) (IZR (vy (bmax e) - vy (bmin e) + 1)) (IZR (vz (bmax e) - vz (bmin e) + 1))).
Proof.
  unfold set_frame, i32. intros H.
  repeat match type of H with context [if ?c then _ else _] => destruct c; cbn [bind] in H; try discriminate end.
  injection H as <-. reflexivity.
Qed.

(** ** Matrix curves *)
Definition left_by (a : m44) (c : mcurve) : mcurve := map (fun s => (fst s, mmul a (snd s))) c.
Lemma mmul_lerp a b c t : mmul a (mat_lerp b c t) = mat_lerp (mmul a b) (mmul a c) t.
Proof.
  destruct a as [a0 a1 a2 a3]. unfold mmul. cbn [row0 row1 row2 row3].
  assert (G : forall v, rowmul v (mat_lerp b c t) = row_lerp (rowmul v b) (rowmul v c) t).
  { intros v. mats. unfold rowmul, mat_lerp, row_lerp, lerp. cbn. f_equal; ring. }
  rewrite !G. reflexivity.
Qed.
Lemma left_from a c t : forall s, linear_from rltb mat_mix (fst s, mmul a (snd s)) (left_by a c) t = mmul a (linear_from rltb mat_mix s c t).
Proof.
  induction c as [|b c IH]; intros s; auto. cbn. destruct (rltb t (fst b)); auto.
  unfold mat_mix. cbn. symmetry. apply mmul_lerp.
Qed.
Lemma left_linear a c t : c <> [] -> mlinear (left_by a c) t = mmul a (mlinear c t).
Proof. intros N. destruct c as [|s c]; [congruence|]. cbn. destruct (rltb t (fst s)); auto. apply left_from. Qed.
Lemma rising_left a c : rising rltb c -> rising rltb (left_by a c).
Proof. apply rising_map. unfold left_by. rewrite map_map. reflexivity. Qed.
Lemma rebuild a c : rising rltb c -> fold_left (fun acc s => madd acc (fst s) (mmul a (snd s))) c [] = left_by a c.
Proof.
  intros S. transitivity (fold_left (fun acc s => add_sample rltb reqb (fst s) (snd s) acc) (left_by a c) []).
  { unfold left_by. generalize (@nil (R * m44)). clear. induction c as [|s c IH]; intros l; auto. cbn. rewrite IH. reflexivity. }
  apply (curve_rebuild rltb reqb ordered_R (left_by a c) []). apply rising_left; auto.
Qed.

(** ** Matrix mappings *)
Definition vs_ls (f : frame) : m44 := inverse (local_to_voxel_matrix f).
Lemma det_lv f : det (local_to_voxel_matrix f) = rx (fr_res f) * ry (fr_res f) * rz (fr_res f).
Proof. unfold local_to_voxel_matrix. rewrite det_mul. unfold det, sub2, scale, translate. cbn. ring. Qed.
Lemma full_det f : full f -> det (local_to_voxel_matrix f) <> 0.
Proof. intros (A & B & C). rewrite det_lv. repeat apply Rmult_integral_contrapositive_currified; auto. Qed.
Lemma full_det' f : full f -> det (vs_ls f) <> 0.
Proof. intros H. apply (det_ne _ _ (inverse_l _ (full_det f H))). Qed.
Lemma lv_matrix f p : mult_vec (local_to_voxel_matrix f) p = Some (local_to_voxel f p).
Proof.
  apply mult_vec_iff. exists 1. split; [lra|]. destruct p as [x y z]. unfold local_to_voxel_matrix, mmul, rowmul, scale, translate, hom, rscale, local_to_voxel.
  cbn. f_equal; ring.
Qed.
Lemma vl_matrix f p : full f -> mult_vec (vs_ls f) p = Some (voxel_to_local f p).
Proof.
  intros F. unfold vs_ls. apply mult_vec_inverse; [apply full_det; auto|]. rewrite lv_matrix, lv_inv by auto. reflexivity.
Qed.

(** What holds of a mapping after every operation. *)
Record good (s : matmap) : Prop := Good {
  good_rising : rising rltb (mm_curve s);
  good_eq : s = update_transform (mm_frame s) (mm_curve s) }.
Lemma update_good f c : rising rltb c -> good (update_transform f c).
Proof. split; auto. Qed.
Lemma step_good s o s' : good s -> mat_step s o = Ok s' -> good s'.
Proof.
  intros (G & _) H. destruct o as [m|t m| |e]; cbn in H.
  - injection H as <-. apply update_good. unfold madd. apply (add_rising rltb reqb ordered_R).
    match goal with |- context [if ?c then _ else _] => destruct c end; cbn; [constructor|auto].
  - injection H as <-. apply update_good. unfold madd. apply (add_rising rltb reqb ordered_R); auto.
  - injection H as <-. apply update_good. constructor.
  - destruct (set_frame e) as [f| |]; cbn in H; try discriminate. injection H as <-. apply update_good; auto.
Qed.
Lemma run_good l : forall s s', good s -> mat_run s l = Ok s' -> good s'.
Proof.
  induction l as [|o l IH]; intros s s' G H; cbn in H; [injection H as <-; auto|].
  destruct (mat_step s o) as [s1| |] eqn:E; cbn in H; try discriminate. apply (IH s1); auto. apply (step_good _ _ _ G E).
Qed.
Lemma init_good : good mat_init.
Proof. apply update_good. constructor. Qed.

(** The matrix in force at a time. *)
Definition world_at (s : matmap) (t : R) : m44 := mlinear (mm_curve s) t.
Lemma single c t u : (length c <= 1)%nat -> mlinear c t = mlinear c u.
Proof.
  destruct c as [|a [|b c]]; cbn [length]; intros H; [reflexivity| |exfalso; lia]. cbn.
  destruct (rltb t (fst a)), (rltb u (fst a)); auto.
Qed.
Lemma varying_false s : good s -> mm_varying s = false -> (length (mm_curve s) <= 1)%nat.
Proof. intros (_ & E) H. rewrite E in H. cbn [mm_varying update_transform] in H. apply Nat.ltb_ge in H. auto. Qed.
Lemma ls_ws s t p : good s -> m_local_to_world s t p = mult_vec (world_at s t) p.
Proof.
  intros G. unfold m_local_to_world, world_at. destruct (mm_varying s) eqn:V; auto.
  rewrite (single (mm_curve s) t 0) by (apply varying_false; auto).
  rewrite (good_eq s G) at 1. reflexivity.
Qed.
Lemma ws_ls s t p : good s -> m_world_to_local s t p = mult_vec (inverse (world_at s t)) p.
Proof.
  intros G. unfold m_world_to_local, world_at. destruct (mm_varying s) eqn:V; auto.
  rewrite (single (mm_curve s) t 0) by (apply varying_false; auto).
  rewrite (good_eq s G) at 1. reflexivity.
Qed.
Lemma vs_at s t : good s -> mm_varying s = true -> mlinear (mm_vs_curve s) t = mmul (vs_ls (mm_frame s)) (world_at s t).
Proof.
  intros G V. unfold world_at. rewrite (good_eq s G) at 1. cbn [mm_vs_curve update_transform].
  rewrite rebuild by (apply good_rising; auto). apply left_linear.
  intros N. rewrite (good_eq s G), N in V. cbn [mm_varying update_transform length] in V. discriminate.
Qed.
Lemma vs_ws s t p : good s -> m_voxel_to_world s t p = mult_vec (mmul (vs_ls (mm_frame s)) (world_at s t)) p.
Proof.
  intros G. unfold m_voxel_to_world. destruct (mm_varying s) eqn:V; [now rewrite vs_at|].
  unfold world_at. rewrite (single (mm_curve s) t 0) by (apply varying_false; auto).
  rewrite (good_eq s G) at 1. reflexivity.
Qed.
Lemma ws_vs s t p : good s -> m_world_to_voxel s t p = mult_vec (inverse (mmul (vs_ls (mm_frame s)) (world_at s t))) p.
Proof.
  intros G. unfold m_world_to_voxel. destruct (mm_varying s) eqn:V; [now rewrite vs_at|].
  unfold world_at. rewrite (single (mm_curve s) t 0) by (apply varying_false; auto).
  rewrite (good_eq s G) at 1. reflexivity.
Qed.
Lemma at_zero s p : good s ->
  m_world_to_voxel0 s p = m_world_to_voxel s 0 p /\ m_voxel_to_world0 s p = m_voxel_to_world s 0 p /\
  m_world_to_local0 s p = m_world_to_local s 0 p /\ m_local_to_world0 s p = m_local_to_world s 0 p.
Proof.
  intros G. rewrite ws_vs, vs_ws, ws_ls, ls_ws by auto. unfold world_at, vs_ls.
  assert (H : mm_ls_ws s = mlinear (mm_curve s) 0 /\ mm_ws_ls s = inverse (mlinear (mm_curve s) 0) /\
    mm_vs_ws s = mmul (inverse (local_to_voxel_matrix (mm_frame s))) (mlinear (mm_curve s) 0) /\
    mm_ws_vs s = inverse (mmul (inverse (local_to_voxel_matrix (mm_frame s))) (mlinear (mm_curve s) 0))).
  { rewrite (good_eq s G) at 1 3 5 8. auto. }
  destruct H as (A & B & C & D). unfold m_world_to_voxel0, m_voxel_to_world0, m_world_to_local0, m_local_to_world0.
  rewrite A, B, C, D. auto.
Qed.

(** ** Frustums *)
Lemma f_round s t p w : det (mlinear (fm_lps s) t) <> 0 -> fm_uniform s = false ->
  (f_local_to_world s t p = Some w <-> f_world_to_local s t w = Some p).
Proof.
  intros D U. unfold f_local_to_world, f_world_to_local. rewrite U. split; intros H.
  - apply mult_vec_inverse; auto.
  - apply mult_vec_inverse'; auto.
Qed.
Lemma lerpfactor_lerp a b t : a <> b -> lerpfactor (lerp a b t) a b = t.
Proof. intros. rewrite lerpfactor_ne by auto. unfold lerp. field. lra. Qed.
Lemma lerp_lerpfactor a b x : a <> b -> lerp a b (lerpfactor x a b) = x.
Proof. intros. rewrite lerpfactor_ne by auto. unfold lerp. field. lra. Qed.
Section Uniform.
Variables (s : frustum) (t : R).
Hypothesis U : fm_uniform s = true.
Let P := mlinear (fm_lps s) t.
Let C := mlinear (fm_cs s) t.
Let near := rlinear (fm_near s) t.
Let far := rlinear (fm_far s) t.
Hypothesis DP : det P <> 0.
Hypothesis DC : det C <> 0.
Hypothesis NF : near <> far.
Hypothesis ST : forall p q wp wq cp cq, mult_vec P p = Some wp -> mult_vec P q = Some wq ->
    mult_vec (inverse C) wp = Some cp -> mult_vec (inverse C) wq = Some cq -> (rz p = rz q <-> rz cp = rz cq).
Lemma u_depth p w : f_local_to_world s t p = Some w -> forall c, mult_vec (inverse C) w = Some c -> - rz c = lerp near far (rz p).
Proof.
  unfold f_local_to_world. rewrite U. fold P C near far. intros H c Hc.
  destruct (mult_vec C (R3 0 0 (- lerp near far (rz p)))) as [wc|] eqn:E1; [|discriminate].
  destruct (mult_vec (inverse P) wc) as [lc|] eqn:E2; [|discriminate].
  pose proof (mult_vec_inverse _ _ _ DC E1) as A. pose proof (mult_vec_inverse' _ _ _ DP E2) as B.
  pose proof (proj1 (ST _ _ _ _ _ _ H B Hc A) eq_refl) as X. cbn in X. lra.
Qed.
Lemma u_round p w l : f_local_to_world s t p = Some w -> f_world_to_local s t w = Some l -> l = p.
Proof.
  intros H G. pose proof (u_depth p w H) as Z. unfold f_world_to_local in G. rewrite U in G. fold P C near far in G.
  destruct (mult_vec (inverse P) w) as [q|] eqn:E1; [|discriminate].
  destruct (mult_vec (inverse C) w) as [c|] eqn:E2; [|discriminate]. injection G as <-.
  rewrite (Z c eq_refl), lerpfactor_lerp by auto.
  unfold f_local_to_world in H. rewrite U in H. fold P C near far in H.
  destruct (mult_vec C (R3 0 0 (- lerp near far (rz p)))) as [wc|] eqn:E3; [|discriminate].
  destruct (mult_vec (inverse P) wc) as [lc|] eqn:E4; [|discriminate].
  rewrite (mult_vec_inverse _ _ _ DP H) in E1. injection E1 as <-. destruct p; reflexivity.
Qed.
Lemma u_round' w l w' : f_world_to_local s t w = Some l -> f_local_to_world s t l = Some w' -> w' = w.
Proof.
  unfold f_world_to_local, f_local_to_world. rewrite U. fold P C near far.
  destruct (mult_vec (inverse P) w) as [q|] eqn:E1; [|discriminate].
  destruct (mult_vec (inverse C) w) as [c|] eqn:E2; [|discriminate]. intros G. injection G as <-. cbn [rx ry rz].
  rewrite lerp_lerpfactor by auto.
  destruct (mult_vec C (R3 0 0 (- - rz c))) as [wc|] eqn:E3; [|discriminate].
  destruct (mult_vec (inverse P) wc) as [lc|] eqn:E4; [|discriminate]. intros H.
  pose proof (mult_vec_inverse _ _ _ DC E3) as A. pose proof (mult_vec_inverse' _ _ _ DP E4) as B.
  pose proof (mult_vec_inverse' _ _ _ DP E1) as W.
  assert (Z : rz lc = rz q) by (apply (ST _ _ _ _ _ _ B W A E2); cbn; lra).
  rewrite Z in H. assert (Q : R3 (rx q) (ry q) (rz q) = q) by (destruct q; reflexivity). rewrite Q in H. congruence.
Qed.
End Uniform.

(** Cameras whose local depth does not depend on the position across. *)
Definition depth_block (m : m44) : Prop := e2 (row0 m) = 0 /\ e2 (row1 m) = 0 /\ e3 (row0 m) = 0 /\ e3 (row1 m) = 0.
Lemma block_depth m p q : depth_block m -> mult_vec m p = Some q ->
  let w := rz p * e3 (row2 m) + e3 (row3 m) in w <> 0 /\ rz q * w = rz p * e2 (row2 m) + e2 (row3 m).
Proof.
  intros (A & B & C & D) H. apply mult_vec_iff in H as (w & W & E).
  assert (E2 := f_equal e2 E). assert (E3 := f_equal e3 E). cbn in E2, E3. rewrite A, B in E2. rewrite C, D in E3.
  assert (X : rz p * e3 (row2 m) + e3 (row3 m) = w) by lra. cbn. rewrite X. split; [auto|lra].
Qed.
Lemma block_det m : depth_block m -> det m <> 0 -> e2 (row2 m) * e3 (row3 m) - e3 (row2 m) * e2 (row3 m) <> 0.
Proof.
  intros (A & B & C & D) N Z. apply N. destruct m as [[a0 a1 a2 a3] [b0 b1 b2 b3] [c0 c1 c2 c3] [d0 d1 d2 d3]].
  cbn in *. subst. unfold det, sub2. cbn. replace (c2 * d3) with (c3 * d2) by lra. ring.
Qed.
Lemma block_in_step lps cs : det lps <> 0 -> det cs <> 0 -> depth_block (mmul lps (inverse cs)) -> depth_in_step lps cs.
Proof.
  intros DP DC B p q wp wq cp cq H1 H2 H3 H4.
  assert (DI : det (inverse cs) <> 0) by apply (det_ne _ _ (inverse_l cs DC)).
  assert (D : det (mmul lps (inverse cs)) <> 0) by (rewrite det_mul; apply Rmult_integral_contrapositive_currified; auto).
  rewrite <- (mult_vec_mul_none _ _ _ _ H1) in H3. rewrite <- (mult_vec_mul_none _ _ _ _ H2) in H4.
  set (m := mmul lps (inverse cs)) in *. clearbody m. pose proof (block_det m B D) as N.
  destruct (block_depth _ _ _ B H3) as (W1 & E1). destruct (block_depth _ _ _ B H4) as (W2 & E2).
  set (a := e2 (row2 m)) in *. set (b := e2 (row3 m)) in *. set (c := e3 (row2 m)) in *. set (d := e3 (row3 m)) in *.
  clearbody a b c d. split; intros Z.
  - rewrite <- Z in W2, E2. apply Rmult_eq_reg_r with (rz p * c + d); auto. lra.
  - rewrite <- Z in E2. assert (X : (rz p * a + b) * (rz q * c + d) = (rz q * a + b) * (rz p * c + d)) by (rewrite <- E1, <- E2; ring).
    assert (Y : (a * d - c * b) * (rz p - rz q) = 0) by lra. apply Rmult_integral in Y as [Y|Y]; [easy|lra].
Qed.

(** ** Histories of a matrix mapping *)
Lemma curve_run_app {X} (l : list (R * X)) t v : curve_run rltb reqb (l ++ [(t, v)]) = add_sample rltb reqb t v (curve_run rltb reqb l).
Proof. unfold curve_run. rewrite fold_left_app. reflexivity. Qed.
Lemma run_samples h : forall s s' l e, good s -> mm_curve s = curve_run rltb reqb l -> set_frame e = Ok (mm_frame s) -> mat_run s h = Ok s' ->
  mm_curve s' = curve_run rltb reqb (fold_left (fun l o => match o with
    | MSet m => [(0, m)] | MSetAt t m => l ++ [(t, m)] | MIdentity => [] | MExtents _ => l end) h l) /\
  set_frame (fold_left (fun e o => match o with MExtents e' => e' | _ => e end) h e) = Ok (mm_frame s').
Proof.
  induction h as [|o h IH]; intros s s' l e G C F H; cbn in H; [injection H as <-; auto|].
  destruct (mat_step s o) as [s1| |] eqn:E1; cbn in H; try discriminate. cbn [fold_left].
  pose proof (step_good _ _ _ G E1) as G1.
  destruct o as [m|t m| |e']; cbn in E1.
  - injection E1 as <-. apply (IH _ s' _ _ G1); [|cbn|exact H].
    + cbn [mm_curve update_transform]. destruct (mm_curve s) as [|c cs] eqn:EC; cbn [length Nat.leb mm_curve update_transform]; [rewrite EC|]; reflexivity.
    + destruct (mm_curve s) as [|c cs]; cbn; auto.
  - injection E1 as <-. apply (IH _ s' _ _ G1); [|cbn; auto|exact H]. cbn [mm_curve update_transform]. unfold madd. rewrite curve_run_app, C. reflexivity.
  - injection E1 as <-. apply (IH _ s' _ _ G1); [reflexivity|cbn; auto|exact H].
  - destruct (set_frame e') as [f| |] eqn:EF; cbn in E1; try discriminate. injection E1 as <-.
    apply (IH _ s' _ _ G1); [cbn; auto|cbn; rewrite EF; auto|exact H].
Qed.
Lemma run_init h s : mat_run mat_init h = Ok s ->
  good s /\ mm_curve s = curve_run rltb reqb (samples_of h) /\ set_frame (extents_of h) = Ok (mm_frame s).
Proof.
  intros H. split; [apply (run_good h mat_init); auto; apply init_good|].
  apply (run_samples h mat_init s [] (Box (V3 0 0 0) (V3 0 0 0)) init_good); auto.
Qed.
Lemma add_map {X Y} (g : X -> Y) t v l : add_sample rltb reqb t (g v) (map (fun s => (fst s, g (snd s))) l) =
  map (fun s => (fst s, g (snd s))) (add_sample rltb reqb t v l).
Proof.
  unfold add_sample. replace (existsb (fun s => reqb (fst s) t) (map (fun s => (fst s, g (snd s))) l)) with (existsb (fun s => reqb (fst s) t) l).
  2:{ induction l as [|a l IH]; cbn; congruence. }
  destruct (existsb _ l); induction l as [|[u w] l IH]; cbn; auto.
  - destruct (reqb u t); cbn; congruence.
  - destruct (rltb t u); cbn; congruence.
Qed.
Lemma curve_map {X Y} (g : X -> Y) l : curve_run rltb reqb (map (fun s => (fst s, g (snd s))) l) = map (fun s => (fst s, g (snd s))) (curve_run rltb reqb l).
Proof.
  induction l as [|[t v] l IH] using rev_ind; auto. rewrite map_app. cbn [map fst snd]. rewrite !curve_run_app, IH. apply add_map.
Qed.
Lemma entry_lerp i j a b t : (i < 4)%nat -> (j < 4)%nat -> entry i j (mat_lerp a b t) = lerp (entry i j a) (entry i j b) t.
Proof.
  intros I J. destruct a as [a0 a1 a2 a3], b as [b0 b1 b2 b3].
  do 4 (destruct i; [do 4 (destruct j; [reflexivity|]); lia|]); lia.
Qed.
Lemma entry_linear i j c t : (i < 4)%nat -> (j < 4)%nat ->
  entry i j (mlinear c t) = linear rltb (entry i j ident) mix (map (fun s => (fst s, entry i j (snd s))) c) t.
Proof.
  intros I J. destruct c as [|s c]; auto. cbn. destruct (rltb t (fst s)); auto. revert s.
  induction c as [|b c IH]; intros s; auto. cbn. destruct (rltb t (fst b)); auto.
  unfold mat_mix, mix. rewrite entry_lerp by auto. reflexivity.
Qed.
Lemma history_matrix h s t : mat_run mat_init h = Ok s -> interpolates h t (world_at s t).
Proof.
  intros H i j I J. destruct (run_init h s H) as (_ & C & _). rewrite curve_map. unfold world_at. rewrite C. apply entry_linear; auto.
Qed.
Lemma entries_eq a b : (forall i j, (i < 4)%nat -> (j < 4)%nat -> entry i j a = entry i j b) -> a = b.
Proof.
  intros H. assert (G : forall i j, (i <? 4)%nat && (j <? 4)%nat = true -> entry i j a = entry i j b).
  { intros i j E. apply andb_true_iff in E as (I & J). apply H; apply Nat.ltb_lt; auto. }
  destruct a as [[a0 a1 a2 a3] [a4 a5 a6 a7] [a8 a9 aa ab] [ac ad ae af]], b as [[b0 b1 b2 b3] [b4 b5 b6 b7] [b8 b9 ba bb] [bc bd be bf]].
  pose proof (G 0 0 eq_refl)%nat. pose proof (G 0 1 eq_refl)%nat. pose proof (G 0 2 eq_refl)%nat. pose proof (G 0 3 eq_refl)%nat.
  pose proof (G 1 0 eq_refl)%nat. pose proof (G 1 1 eq_refl)%nat. pose proof (G 1 2 eq_refl)%nat. pose proof (G 1 3 eq_refl)%nat.
  pose proof (G 2 0 eq_refl)%nat. pose proof (G 2 1 eq_refl)%nat. pose proof (G 2 2 eq_refl)%nat. pose proof (G 2 3 eq_refl)%nat.
  pose proof (G 3 0 eq_refl)%nat. pose proof (G 3 1 eq_refl)%nat. pose proof (G 3 2 eq_refl)%nat. pose proof (G 3 3 eq_refl)%nat.
  cbn in *. congruence.
Qed.
Lemma interpolates_unique h t a b : interpolates h t a -> interpolates h t b -> a = b.
Proof. intros A B. apply entries_eq. intros i j I J. rewrite A, B by auto. reflexivity. Qed.

Lemma full_extents h s : mat_run mat_init h = Ok s -> has_voxels (extents_of h) -> full (mm_frame s).
Proof.
  intros H (A & B & C). destruct (run_init h s H) as (_ & _ & F). apply set_frame_ok in F. rewrite F.
  repeat split; cbn [fr_res rx ry rz]; apply not_0_IZR; lia.
Qed.
Lemma invertible_det m : invertible m <-> det m <> 0.
Proof.
  split. { intros (n & E & _). apply (det_ne _ _ E). }
  intros D. exists (inverse m). split; [apply inverse_r; auto|apply inverse_l; auto].
Qed.

(** ** Matrices without perspective *)
Lemma affine_def m p : no_perspective m -> mult_vec m p = Some (R3
  (rx p * e0 (row0 m) + ry p * e0 (row1 m) + rz p * e0 (row2 m) + e0 (row3 m))
  (rx p * e1 (row0 m) + ry p * e1 (row1 m) + rz p * e1 (row2 m) + e1 (row3 m))
  (rx p * e2 (row0 m) + ry p * e2 (row1 m) + rz p * e2 (row2 m) + e2 (row3 m))).
Proof.
  intros (A & B & C & D). apply mult_vec_iff. exists 1. split; [lra|]. unfold rowmul, hom, rscale. cbn.
  rewrite A, B, C, D. f_equal; ring.
Qed.
Lemma affine_mul a b : no_perspective a -> no_perspective b -> no_perspective (mmul a b).
Proof.
  intros (A & B & C & D) (A' & B' & C' & D'). unfold no_perspective, mmul, rowmul. cbn.
  rewrite A, B, C, D, A', B', C', D'. repeat split; ring.
Qed.
Lemma vs_ls_eq f : full f -> vs_ls f = M44 (R4 (/ rx (fr_res f)) 0 0 0) (R4 0 (/ ry (fr_res f)) 0 0) (R4 0 0 (/ rz (fr_res f)) 0)
  (R4 (- rx (fr_origin f) / rx (fr_res f)) (- ry (fr_origin f) / ry (fr_res f)) (- rz (fr_origin f) / rz (fr_res f)) 1).
Proof.
  intros (A & B & C). apply inverse_unique. unfold local_to_voxel_matrix, mmul, rowmul, scale, translate, ident. cbn.
  f_equal; f_equal; field; auto.
Qed.
Lemma vs_ls_affine f : full f -> no_perspective (vs_ls f).
Proof. intros H. rewrite vs_ls_eq by auto. repeat split. Qed.
Lemma affine_inverse m : det m <> 0 -> no_perspective m -> no_perspective (inverse m).
Proof.
  intros D A. unfold inverse, reqb. destruct (Req_EM_T (det m) 0); [easy|]. destruct A as (A & B & C & E).
  destruct m as [[a0 a1 a2 a3] [b0 b1 b2 b3] [c0 c1 c2 c3] [d0 d1 d2 d3]]. cbn in A, B, C, E. subst.
  unfold no_perspective, row_div, adjugate. unfold det in *. unfold sub2 in *. cbn in *. split; [|split; [|split]].
  1-3: apply Rmult_eq_0_compat_r; ring.
  match goal with |- ?n / ?d = 1 => replace n with d by ring; apply Rinv_r; exact D end.
Qed.

(** ** Boxes *)
Definition inside_box (b : rbox) (p : r3) : Prop := inside (rmin b) (rmax b) p.
Lemma extend_spec b p : exists c, extend_by b p = Some c /\ inside_box c p /\
  (forall q, (forall d, b = Some d -> inside_box d q) -> b <> None -> inside_box c q) /\
  (forall d, (forall c0, b = Some c0 -> inside_box d (rmin c0) /\ inside_box d (rmax c0)) -> inside_box d p -> inside_box d (rmin c) /\ inside_box d (rmax c)).
Proof.
  destruct b as [[[x0 y0 z0] [x1 y1 z1]]|]; cbn.
  - eexists; split; [reflexivity|]. unfold inside_box, inside. cbn. destruct p as [x y z]. cbn.
    pose proof (rltb_spec x x0). pose proof (rltb_spec y y0). pose proof (rltb_spec z z0).
    pose proof (rltb_spec x1 x). pose proof (rltb_spec y1 y). pose proof (rltb_spec z1 z).
    split; [|split].
    + repeat match goal with |- context [rltb ?a ?b] => destruct (rltb_spec a b) end; lra.
    + intros q Q _. specialize (Q _ eq_refl). cbn in Q. destruct q as [u v w]. cbn in *.
      repeat match goal with |- context [rltb ?a ?b] => destruct (rltb_spec a b) end; lra.
    + intros d Q D. specialize (Q _ eq_refl). cbn in Q.
      repeat match goal with |- context [rltb ?a ?b] => destruct (rltb_spec a b) end; lra.
  - eexists; split; [reflexivity|]. unfold inside_box, inside. cbn. split; [lra|]. split; [congruence|]. auto.
Qed.
Lemma extend_all_spec f l : forall b, l <> [] \/ b <> None -> (forall v, In v l -> f v <> None) ->
  exists c, extend_all f l b = Some (Some c) /\ (forall v q, In v l -> f v = Some q -> inside_box c q) /\
    (forall d, b = Some d -> forall q, inside_box d q -> inside_box c q) /\
    (forall d, (forall c0, b = Some c0 -> inside_box d (rmin c0) /\ inside_box d (rmax c0)) ->
       (forall v q, In v l -> f v = Some q -> inside_box d q) -> inside_box d (rmin c) /\ inside_box d (rmax c)).
Proof.
  induction l as [|v l IH]; intros b N D.
  - destruct b as [c|]; [|destruct N; congruence]. exists c. cbn. split; [auto|]. split; [easy|]. split; [intros d Ed q Q; injection Ed as <-; auto|].
    intros d H _. apply H; auto.
  - cbn. destruct (f v) as [q|] eqn:E; [|exfalso; apply (D v); [left; auto|auto]].
    destruct (extend_spec b q) as (c1 & E1 & I1 & G1 & M1). rewrite E1.
    destruct (IH (Some c1)) as (c & E2 & I2 & G2 & M2); [right; congruence|intros; apply D; right; auto|].
    exists c. split; [auto|]. split; [|split].
    + intros v' q' [<-|I] F; [|apply (I2 v'); auto]. rewrite E in F. injection F as <-. apply (G2 c1); auto.
    + intros d -> q' Q. apply (G2 c1); auto. apply G1; [|congruence]. intros d' Ed. injection Ed as <-. auto.
    + intros d H1 H2. apply M2.
      * intros c0 Ec. injection Ec as <-. apply M1; auto. apply (H2 v); [left; auto|auto].
      * intros v' q' I F. apply (H2 v'); [right; auto|auto].
Qed.

Lemma affine_corner (a b c d : R) lo hi p : inside lo hi p ->
  (forall v, In v (vertices (RBox lo hi)) -> a * rx v + b * ry v + c * rz v + d <= 0) -> a * rx p + b * ry p + c * rz p + d <= 0.
Proof.
  intros (X & Y & Z) H. destruct lo as [x0 y0 z0], hi as [x1 y1 z1], p as [x y z]. cbn in *.
  assert (G : forall k u v w, u <= w <= v -> k * w <= k * u \/ k * w <= k * v).
  { intros k u v w I. destruct (Rle_dec 0 k); [right|left]; nra. }
  pose proof (G a _ _ _ X) as A. pose proof (G b _ _ _ Y) as B. pose proof (G c _ _ _ Z) as C. clear G.
  assert (V : forall v, In v (vertices (RBox (R3 x0 y0 z0) (R3 x1 y1 z1))) -> a * rx v + b * ry v + c * rz v + d <= 0) by exact H. clear H.
  destruct A as [A|A], B as [B|B], C as [C|C];
  match goal with
  | A : a * x <= a * ?u, B : b * y <= b * ?v, C : c * z <= c * ?w |- _ =>
      let T := fresh in assert (T : a * u + b * v + c * w + d <= 0) by (apply (V (R3 u v w)); cbn; tauto); lra
  end.
Qed.
(** The weight a matrix gives to a point: what the result is divided by. *)
Definition weight (m : m44) (p : r3) : R := rx p * e3 (row0 m) + ry p * e3 (row1 m) + rz p * e3 (row2 m) + e3 (row3 m).
Lemma weight_inside m lo hi p : inside lo hi p -> (forall v, In v (vertices (RBox lo hi)) -> 0 < weight m v) -> 0 < weight m p.
Proof.
  intros I H.
  assert (K : exists k, 0 < k /\ forall v, In v (vertices (RBox lo hi)) -> k <= weight m v).
  { generalize dependent (vertices (RBox lo hi)). clear I. induction l as [|v l IH]; intros H.
    - exists 1. split; [lra|]. easy.
    - destruct IH as (k & K & L); [intros; apply H; right; auto|]. exists (Rmin k (weight m v)).
      split. { apply Rmin_pos; auto. apply H. left; auto. }
      intros u [<-|U]; [apply Rmin_r|]. eapply Rle_trans; [apply Rmin_l|]. apply L; auto. }
  destruct K as (k & K & L).
  enough (- e3 (row0 m) * rx p + - e3 (row1 m) * ry p + - e3 (row2 m) * rz p + (k - e3 (row3 m)) <= 0) by (unfold weight; lra).
  apply (affine_corner _ _ _ _ lo hi p I). intros v V. specialize (L v V). unfold weight in L. lra.
Qed.
Lemma mult_vec_weight m p : 0 < weight m p -> mult_vec m p = Some (R3
  ((rx p * e0 (row0 m) + ry p * e0 (row1 m) + rz p * e0 (row2 m) + e0 (row3 m)) / weight m p)
  ((rx p * e1 (row0 m) + ry p * e1 (row1 m) + rz p * e1 (row2 m) + e1 (row3 m)) / weight m p)
  ((rx p * e2 (row0 m) + ry p * e2 (row1 m) + rz p * e2 (row2 m) + e2 (row3 m)) / weight m p)).
Proof.
  intros H. apply mult_vec_iff. exists (weight m p). split; [lra|]. unfold rowmul, hom, rscale. cbn.
  f_equal; try (field; lra). unfold weight. ring.
Qed.
Lemma div_le a b k : 0 < b -> (a / b <= k <-> a - k * b <= 0).
Proof.
  intros H. assert (E : a / b * b = a) by (field; lra). split; intros G.
  - apply Rmult_le_compat_r with (r := b) in G; lra.
  - apply Rmult_le_reg_r with b; lra.
Qed.
Lemma le_div a b k : 0 < b -> (k <= a / b <-> k * b - a <= 0).
Proof.
  intros H. assert (E : a / b * b = a) by (field; lra). split; intros G.
  - apply Rmult_le_compat_r with (r := b) in G; lra.
  - apply Rmult_le_reg_r with b; lra.
Qed.
Lemma image_inside m lo hi p q c : inside lo hi p -> (forall v, In v (vertices (RBox lo hi)) -> 0 < weight m v) ->
  (forall v u, In v (vertices (RBox lo hi)) -> mult_vec m v = Some u -> inside_box c u) -> mult_vec m p = Some q -> inside_box c q.
Proof.
  intros I W B H. pose proof (weight_inside m lo hi p I W) as WP. rewrite (mult_vec_weight m p WP) in H. injection H as <-.
  assert (V : forall v, In v (vertices (RBox lo hi)) -> inside_box c (R3
    ((rx v * e0 (row0 m) + ry v * e0 (row1 m) + rz v * e0 (row2 m) + e0 (row3 m)) / weight m v)
    ((rx v * e1 (row0 m) + ry v * e1 (row1 m) + rz v * e1 (row2 m) + e1 (row3 m)) / weight m v)
    ((rx v * e2 (row0 m) + ry v * e2 (row1 m) + rz v * e2 (row2 m) + e2 (row3 m)) / weight m v))).
  { intros v HV. apply (B v); auto. apply mult_vec_weight; auto. }
  clear B. unfold inside_box, inside in V |- *. cbn [rx ry rz] in *.
  assert (UP : forall (f : r4 -> R) k, (forall v, In v (vertices (RBox lo hi)) ->
      (rx v * f (row0 m) + ry v * f (row1 m) + rz v * f (row2 m) + f (row3 m)) / weight m v <= k) ->
      (rx p * f (row0 m) + ry p * f (row1 m) + rz p * f (row2 m) + f (row3 m)) / weight m p <= k).
  { intros f k K. apply div_le; auto.
    enough ((f (row0 m) - k * e3 (row0 m)) * rx p + (f (row1 m) - k * e3 (row1 m)) * ry p + (f (row2 m) - k * e3 (row2 m)) * rz p + (f (row3 m) - k * e3 (row3 m)) <= 0)
      by (unfold weight; lra).
    apply (affine_corner _ _ _ _ lo hi p I). intros v HV. specialize (K v HV). apply div_le in K; auto. unfold weight in K. lra. }
  assert (LO : forall (f : r4 -> R) k, (forall v, In v (vertices (RBox lo hi)) ->
      k <= (rx v * f (row0 m) + ry v * f (row1 m) + rz v * f (row2 m) + f (row3 m)) / weight m v) ->
      k <= (rx p * f (row0 m) + ry p * f (row1 m) + rz p * f (row2 m) + f (row3 m)) / weight m p).
  { intros f k K. apply le_div; auto.
    enough ((k * e3 (row0 m) - f (row0 m)) * rx p + (k * e3 (row1 m) - f (row1 m)) * ry p + (k * e3 (row2 m) - f (row2 m)) * rz p + (k * e3 (row3 m) - f (row3 m)) <= 0)
      by (unfold weight; lra).
    apply (affine_corner _ _ _ _ lo hi p I). intros v HV. specialize (K v HV). apply le_div in K; auto. unfold weight in K. lra. }
  repeat split; first [apply UP|apply LO]; intros v HV; apply (V v HV).
Qed.
