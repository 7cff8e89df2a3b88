(** Copying and comparing fields. *)
From Coq Require Import ZArith Reals List Bool Lia Lra.
From Verif Require Import Model.Base Model.FieldM Model.DenseM Model.SparseM Model.OpsM Model.RealM Model.VecM Model.MatM Model.CurveM Model.MapM Model.CopyM
  Spec.VoxelSpec Spec.DenseSpec Spec.SparseSpec Spec.OpsSpec Spec.CopySpec
  Proof.BaseP Proof.FieldP Proof.DenseP Proof.SparseP Proof.SparseP3 Proof.OpsP Proof.RealP Proof.MapP.
Import ListNotations.
Open Scope Z_scope.

(** ** Mappings *)
Definition framed (e : box) : Prop := exists f, set_frame e = Ok f.
Lemma map_extents_total m e : framed e -> exists m', map_extents m e = Ok m'.
Proof. intros (f & E). unfold map_extents. rewrite E. cbn. eauto. Qed.
(** Only the last extents matter. *)
Lemma map_extents_again m e1 e2 m1 : map_extents m e1 = Ok m1 -> map_extents m1 e2 = map_extents m e2.
Proof.
  unfold map_extents. destruct (set_frame e1) as [f1| |]; cbn [bind]; intros H; try discriminate. injection H as <-.
  destruct (set_frame e2) as [f2| |]; cbn [bind]; auto. destruct m; reflexivity.
Qed.
Lemma extents_fitted m e m' : map_extents m e = Ok m' -> map_extents m' e = Ok m'.
Proof. intros H. rewrite (map_extents_again _ _ _ _ H). auto. Qed.

Lemma add_times {X Y} t (v : X) (w : Y) l l' : map fst l = map fst l' ->
  map fst (add_sample rltb reqb t v l) = map fst (add_sample rltb reqb t w l').
Proof.
  intros E. unfold add_sample.
  assert (H : existsb (fun s => reqb (fst s) t) l = existsb (fun s => reqb (fst s) t) l').
  { revert l' E. induction l as [|[s x] l IH]; intros [|[s' y] l'] E; cbn in E; try discriminate; [reflexivity|].
    injection E as <- E. cbn. rewrite (IH l' E). reflexivity. }
  rewrite H. destruct (existsb _ l').
  - clear H. revert l' E. induction l as [|[s x] l IH]; intros [|[s' y] l'] E; cbn in E; try discriminate; [reflexivity|].
    injection E as <- E. cbn [replace_at fst]. destruct (reqb s t); cbn; f_equal; auto.
  - clear H. revert l' E. induction l as [|[s x] l IH]; intros [|[s' y] l'] E; cbn in E; try discriminate; [reflexivity|].
    injection E as <- E. cbn [insert_at fst]. destruct (rltb _ _); cbn; [congruence|f_equal; auto].
Qed.
(** Both curves of a frustum have the same times. *)
Definition even (m : mapping) : Prop :=
  match m with
  | MapNull _ => True
  | MapMatrix s => good s
  | MapFrustum s => map fst (fm_lps s) = map fst (fm_cs s)
  end.
Lemma transforms_even s t a b s' : even (MapFrustum s) -> set_transforms s t a b = Some s' -> even (MapFrustum s').
Proof.
  intros E H. unfold set_transforms in H.
  destruct (fm_default s); cbn [fm_lps fm_cs] in H;
    destruct (mult_vec (mmul ls_to_ss a) (R3 (1 / 2) (1 / 2) 0)); try discriminate;
    destruct (mult_vec (mmul ls_to_ss a) (R3 (1 / 2) (1 / 2) 1)); try discriminate;
    destruct (mult_vec (inverse b) r); try discriminate; destruct (mult_vec (inverse b) r0); try discriminate;
    injection H as <-; cbn [even fm_lps fm_cs]; unfold madd; apply add_times; auto.
Qed.
Lemma made_even m : made m -> even m.
Proof.
  induction 1 as [f|h s H|f u s H|s t a b s' _ IH H|m e m' _ IH H]; cbn [even]; auto.
  - apply (run_good h mat_init); auto. apply init_good.
  - unfold frustum_reset in H. destruct (set_transforms _ 0 _ _) as [s1|] eqn:E; [|discriminate]. injection H as <-. cbn [fm_lps fm_cs].
    apply (transforms_even (Frustum f u [] [] [] [] false) _ _ _ s1) in E; auto. reflexivity.
  - eapply transforms_even; eauto.
  - unfold map_extents in H. destruct (set_frame e); cbn [bind] in H; try discriminate. injection H as <-. destruct m; cbn [even] in *; auto.
    apply update_good. apply IH.
Qed.

Section Euler.
Variable euler : r3 -> r3 -> r3 -> r3.
Lemma near_refl x : near_rel 0 x x = true.
Proof. unfold near_rel, rleb. destruct (Rle_dec _ _) as [|N]; auto. exfalso. apply N. replace (x - x)%R with 0%R by ring. rewrite Rabs_R0. lra. Qed.
Lemma near_eq x y : near_rel 0 x y = true -> x = y.
Proof.
  unfold near_rel, rleb. destruct (Rle_dec _ _) as [L|N]; [|discriminate]. intros _. rewrite Rmult_0_l in L.
  pose proof (Rabs_pos (x - y)). assert (Rabs (x - y) = 0)%R by lra. destruct (Req_dec (x - y) 0) as [Z|Z]; [lra|]. apply Rabs_no_R0 in Z. contradiction.
Qed.
Lemma mat_refl m : mat_near (near_rel 0) m m = true.
Proof. unfold mat_near, row_near. rewrite !near_refl. reflexivity. Qed.
Lemma same_refl m : same_matrix euler m m 0 = true.
Proof. unfold same_matrix. rewrite mat_refl. reflexivity. Qed.
Lemma samples_refl l : forall v, length v = length l -> same_samples euler l l v v 0 = Ok true.
Proof.
  induction l as [|[t a] l IH]; intros [|[t' b] v] E; cbn in E; try discriminate; [reflexivity|].
  cbn [same_samples]. destruct (reqb_spec t t) as [_|N]; [|congruence]. rewrite !same_refl. cbn [negb]. apply IH. lia.
Qed.
Lemma samples_total l1 : forall l2 v1 v2 tol, length v1 = length l1 -> length v2 = length l2 -> exists r, same_samples euler l1 l2 v1 v2 tol = Ok r.
Proof.
  induction l1 as [|[t a] l IH]; intros [|[t2 a2] l2] [|[u b] v1] [|[u2 b2] v2] tol E1 E2; cbn in E1, E2; try discriminate; cbn [same_samples]; eauto.
  destruct (negb (reqb t t2)); eauto. destruct (negb (same_matrix euler a a2 tol)); eauto. destruct (negb (same_matrix euler b b2 tol)); eauto.
Qed.
Lemma even_lengths_m s : good s -> length (mm_vs_curve s) = length (mm_curve s).
Proof.
  intros G. destruct G as [R E]. rewrite E at 1. unfold update_transform. cbn [mm_vs_curve]. rewrite rebuild by auto. apply map_length.
Qed.
Lemma even_lengths_f s : map fst (fm_lps s) = map fst (fm_cs s) -> length (fm_cs s) = length (fm_lps s).
Proof. intros H. rewrite <- (map_length fst (fm_cs s)), <- H. apply map_length. Qed.
Lemma map_identical_refl m : even m -> map_identical euler m m 0 = Ok true.
Proof.
  destruct m as [f|s|s]; cbn [even map_identical]; intros E; auto.
  - unfold same_curves. rewrite Nat.eqb_refl. cbn [negb]. apply samples_refl. apply even_lengths_m; auto.
  - rewrite eqb_reflx. cbn [negb]. unfold same_curves. rewrite Nat.eqb_refl. cbn [negb]. apply samples_refl. apply even_lengths_f; auto.
Qed.
Lemma map_identical_total a b tol : even a -> even b -> exists r, map_identical euler a b tol = Ok r.
Proof.
  destruct a as [f|s|s], b as [f'|s'|s']; cbn [even map_identical]; intros A B; eauto; unfold same_curves.
  - destruct (negb _); eauto. apply samples_total; apply even_lengths_m; auto.
  - destruct (negb _); eauto. destruct (negb _); eauto. apply samples_total; apply even_lengths_f; auto.
Qed.
End Euler.

Lemma box_eqb_eq a b : box_eqb a b = true <-> a = b.
Proof.
  unfold box_eqb, v3_eqb. destruct a as [[x y z] [x' y' z']], b as [[u v w] [u' v' w']]. cbn. rewrite !andb_true_iff, !Z.eqb_eq. split.
  - intuition congruence.
  - intros H. injection H. intuition congruence.
Qed.

(** ** Loops *)
Section Loop.
Context {V W : Type}.
Variables dflt zero : V.

Lemma copy_loop_ok k j (conv : W -> V) (b : fld (V := W) j) w : inv j b -> f_dw b = w ->
  forall l (a : fld (V := V) k) i fuel, inv k a -> f_dw a = w -> chain (it_next w) i l (it_end w) -> NoDup l ->
  (forall p, In p l -> in_box p w) -> (length l < fuel)%nat ->
  exists a', copy_loop conv fuel w a b i i = Some (Ok a') /\ inv k a' /\ f_ext a' = f_ext a /\ f_dw a' = w /\
    (forall x, fits k a' x <-> fits k a x) /\
    forall q, in_box q w -> (In q l -> exists v, f_get b q = Ok v /\ f_get a' q = Ok (conv v)) /\ (~ In q l -> f_get a' q = f_get a q).
Proof.
  intros Ib Wb. induction l as [|p l IH]; intros a i fuel Ia Wa C Nd Bx L.
  - cbn in C. subst i. destruct fuel; [cbn in L; lia|]. exists a. cbn [copy_loop].
    replace (v3_eqb (it_end w) (it_end w)) with true by (symmetry; apply v3_eqb_eq; auto).
    split; auto. split; auto. split; auto. split; auto. split; [tauto|]. intros q Q. split; [intros []|auto].
  - cbn in C. destruct C as [-> C]. destruct fuel; [cbn in L; lia|]. cbn [copy_loop].
    assert (Bp : in_box p w) by (apply Bx; left; auto).
    replace (v3_eqb p (it_end w)) with false.
    2: { symmetry. destruct (v3_eqb p (it_end w)) eqn:E; auto. apply v3_eqb_eq in E. subst p. exfalso. unfold in_box, it_end in Bp. cbn in Bp. lia. }
    destruct (get_ok j b p Ib) as (v & Ev); [congruence|]. rewrite Ev. cbn [bind].
    destruct (set_ok k a p (conv v) Ia) as (a1 & E1 & I1 & X1 & D1 & F1 & G1 & G2); [congruence|]. rewrite E1, Wb.
    inversion Nd as [|? ? Np Nl]. subst.
    destruct (IH a1 (it_next (f_dw b) p) fuel I1 ltac:(congruence) C Nl) as (a' & E' & I' & X' & D' & F' & G'); [intros q Q; apply Bx; right; auto|cbn in L; lia|].
    exists a'. split; auto. split; auto. split; [congruence|]. split; auto. split; [intros x; rewrite F', F1; tauto|].
    intros q Q. destruct (G' q Q) as [GA GB]. split.
    + intros [<-|Hq]; [|auto]. rewrite (GB Np). eauto.
    + intros N. rewrite GB by (intros Hq; apply N; right; auto). apply G2; [congruence|]. intros ->. apply N. left. auto.
Qed.

(** The loop of [isIdentical]. *)
Lemma same_loop_ok k j (eqb : V -> V -> bool) (a : fld (V := V) k) (b : fld (V := V) j) w : inv k a -> inv j b -> f_dw a = w -> f_dw b = w ->
  forall l i fuel, chain (it_next w) i l (it_end w) -> (forall p, In p l -> in_box p w) -> (length l < fuel)%nat ->
  exists r, same_loop eqb fuel a b i i = Some (Ok r) /\
    (r = true <-> forall p, In p l -> exists x y, f_get a p = Ok x /\ f_get b p = Ok y /\ eqb x y = true).
Proof.
  intros Ia Ib Wa Wb. induction l as [|p l IH]; intros i fuel C Bx L.
  - cbn in C. subst i. destruct fuel; [cbn in L; lia|]. exists true. cbn [same_loop]. rewrite Wa.
    replace (v3_eqb (it_end w) (it_end w)) with true by (symmetry; apply v3_eqb_eq; auto). split; auto. split; auto. intros _ p [].
  - cbn in C. destruct C as [-> C]. destruct fuel; [cbn in L; lia|]. cbn [same_loop]. rewrite Wa, Wb.
    assert (Bp : in_box p w) by (apply Bx; left; auto).
    replace (v3_eqb p (it_end w)) with false.
    2: { symmetry. destruct (v3_eqb p (it_end w)) eqn:E; auto. apply v3_eqb_eq in E. subst p. exfalso. unfold in_box, it_end in Bp. cbn in Bp. lia. }
    destruct (get_ok k a p Ia) as (x & Ex); [congruence|]. destruct (get_ok j b p Ib) as (y & Ey); [congruence|]. rewrite Ex, Ey. cbn [bind].
    destruct (eqb x y) eqn:Exy.
    + destruct (IH (it_next w p) fuel C) as (r & E & H); [intros q Q; apply Bx; right; auto|cbn in L; lia|]. exists r. split; auto. rewrite H. split.
      * intros A q [<-|Q]; eauto.
      * intros A q Q. apply A. right. auto.
    + exists false. split; auto. split; [discriminate|]. intros A. destruct (A p) as (x' & y' & A1 & A2 & A3); [left; auto|]. congruence.
Qed.

Lemma copy_self_ok k w : forall l (a : fld (V := V) k) i fuel, inv k a -> f_dw a = w -> chain (it_next w) i l (it_end w) ->
  (forall p, In p l -> in_box p w) -> (length l < fuel)%nat ->
  exists a', copy_self_loop fuel w a i i = Some (Ok a') /\ inv k a' /\ f_ext a' = f_ext a /\ f_dw a' = w /\
    forall q, in_box q w -> f_get a' q = f_get a q.
Proof.
  induction l as [|p l IH]; intros a i fuel Ia Wa C Bx L.
  - cbn in C. subst i. destruct fuel; [cbn in L; lia|]. exists a. cbn [copy_self_loop].
    replace (v3_eqb (it_end w) (it_end w)) with true by (symmetry; apply v3_eqb_eq; auto). auto.
  - cbn in C. destruct C as [-> C]. destruct fuel; [cbn in L; lia|]. cbn [copy_self_loop].
    assert (Bp : in_box p w) by (apply Bx; left; auto).
    replace (v3_eqb p (it_end w)) with false.
    2: { symmetry. destruct (v3_eqb p (it_end w)) eqn:E; auto. apply v3_eqb_eq in E. subst p. exfalso. unfold in_box, it_end in Bp. cbn in Bp. lia. }
    destruct (get_ok k a p Ia) as (v & Ev); [congruence|]. rewrite Ev. cbn [bind].
    destruct (set_ok k a p v Ia) as (a1 & E1 & I1 & X1 & D1 & F1 & G1 & G2); [congruence|]. rewrite E1.
    destruct (IH a1 (it_next w p) fuel I1 ltac:(congruence) C) as (a' & E' & I' & X' & D' & G'); [intros q Q; apply Bx; right; auto|cbn in L; lia|].
    exists a'. split; auto. split; auto. split; [congruence|]. split; auto. intros q Q. rewrite G' by auto.
    destruct (v3_dec q p) as [->|N]; [congruence|]. apply G2; auto. congruence.
Qed.
End Loop.

(** The windows of fields. *)
Definition walkable (dw : box) : Prop := box_nonempty dw \/ data_resolution dw = V3 0 0 0.
Lemma walk_chain dw : walkable dw -> chain (it_next dw) (it_begin dw) (enum dw) (it_end dw).
Proof.
  intros H. unfold it_begin. destruct (v3_eqb _ _) eqn:E.
  - apply v3_eqb_eq in E. rewrite enum_empty; [reflexivity|]. intros (X & _). unfold data_resolution, v3_add, v3_sub in E. cbn in E. injection E. lia.
  - destruct H as [H|H]; [apply enum_chain; auto|]. rewrite H in E. discriminate.
Qed.
Lemma nonempty_count dw fuel : box_count dw < Z.of_nat fuel -> (length (enum dw) < fuel)%nat.
Proof. intros H. rewrite <- enum_length in H. lia. Qed.

Section Built.
Context {V : Type}.
Variables dflt zero : V.

Lemma set_size_ok k (a : mfield (V := V) k) e dw : inv k (c_fld a) -> framed e -> fits k (c_fld a) dw -> box_nonempty dw ->
  exists m f, map_extents (c_map a) e = Ok m /\ f_size dflt zero (c_fld a) e dw = Ok f /\ set_size dflt zero a e dw = Ok (MField f m) /\
    inv k f /\ f_ext f = e /\ f_dw f = dw /\ (forall b, fits k f b <-> fits k (c_fld a) b) /\ forall q, in_box q dw -> f_get f q = Ok (fill dflt zero k).
Proof.
  intros I X F N. destruct (map_extents_total (c_map a) e X) as (m & Em). destruct (size_ok dflt zero k _ e dw I F N) as (f & Ef & R).
  exists m, f. split; auto. split; auto. split; [unfold set_size; rewrite Em, Ef; reflexivity|]. exact R.
Qed.

Lemma copy_from_ok {W} k j (conv : W -> V) fuel (a : mfield (V := V) k) (b : mfield (V := W) j) :
  inv k (c_fld a) -> inv j (c_fld b) -> framed (f_ext (c_fld a)) -> framed (f_ext (c_fld b)) ->
  fits k (c_fld a) (f_dw (c_fld b)) -> box_nonempty (f_dw (c_fld b)) -> box_count (f_dw (c_fld b)) < Z.of_nat fuel ->
  exists a', copy_from dflt zero conv fuel a b = Some (Ok a') /\ inv k (c_fld a') /\
    f_ext (c_fld a') = f_ext (c_fld b) /\ f_dw (c_fld a') = f_dw (c_fld b) /\ map_extents (c_map b) (f_ext (c_fld b)) = Ok (c_map a') /\
    (forall q, in_box q (f_dw (c_fld b)) -> exists v, f_get (c_fld b) q = Ok v /\ f_get (c_fld a') q = Ok (conv v)).
Proof.
  intros Ia Ib Xa Xb F N Fu. unfold copy_from, set_mapping.
  destruct (map_extents_total (c_map b) _ Xa) as (m1 & E1). rewrite E1. cbn [bind].
  destruct (set_size_ok k (MField (c_fld a) m1) (f_ext (c_fld b)) (f_dw (c_fld b)) Ia Xb F N) as (m & f & Em & Ef & Es & If & Xf & Df & Ff & Gf).
  rewrite Es. cbn [c_fld c_map] in *. rewrite Df.
  assert (Bw : forall p, In p (enum (f_dw (c_fld b))) -> in_box p (f_dw (c_fld b))) by (intros p Hp; apply enum_In; auto).
  destruct (copy_loop_ok k j conv (c_fld b) (f_dw (c_fld b)) Ib eq_refl (enum (f_dw (c_fld b))) f (it_begin (f_dw (c_fld b))) fuel If Df
    (walk_chain _ (or_introl N)) (enum_nodup _) Bw (nonempty_count _ _ Fu)) as (a' & Ea & I' & X' & D' & F' & G').
  rewrite Ea. eexists. split; [reflexivity|]. cbn [c_fld c_map]. split; auto. split; [congruence|]. split; auto.
  rewrite (map_extents_again _ _ _ _ E1) in Em. split; auto. intros q Q. apply (G' q Q). apply enum_In. auto.
Qed.

Lemma fitted_framed k (a : mfield (V := V) k) : fitted a -> framed (f_ext (c_fld a)).
Proof. unfold fitted, map_extents. destruct (set_frame (f_ext (c_fld a))) as [f| |] eqn:E; cbn [bind]; try discriminate. intros _. exists f. auto. Qed.
Lemma fitted_frame k (a : mfield (V := V) k) : fitted a -> set_frame (f_ext (c_fld a)) = Ok (frame_of (c_map a)).
Proof.
  unfold fitted, map_extents. destruct (set_frame (f_ext (c_fld a))) as [f| |] eqn:E; cbn [bind]; try discriminate. intros H. f_equal.
  injection H as H. rewrite <- H. destruct (c_map a); reflexivity.
Qed.

(** What holds of every field. *)
Record sound {k} (a : mfield (V := V) k) : Prop := {
  so_inv : inv k (c_fld a); so_fit : fitted a; so_even : made (c_map a); so_walk : walkable (f_dw (c_fld a)) }.

Lemma built_sound k a : built dflt zero k a -> sound a.
Proof.
  induction 1 as [k a H|k a m a' _ IH M H|k a e dw a' _ IH F N H|k a p v f _ IH B H|k j a b fuel a' _ IHa _ IHb F N H|k j a b a' _ IHa _ IHb F N H].
  - unfold c_new in H. destruct (inv_new dflt zero k) as (f & E & I & _). rewrite E in H. cbn [bind] in H.
    destruct (map_extents (MapMatrix mat_init) (f_ext f)) as [m| |] eqn:Em; cbn [bind] in H; try discriminate. injection H as <-.
    constructor; cbn [c_fld c_map]; auto.
    + unfold fitted. cbn [c_map c_fld]. eapply extents_fitted; eauto.
    + eapply made_extents; [|exact Em]. apply (made_matrix []). reflexivity.
    + right. destruct k; cbn [f_new] in E; [injection E as <-; reflexivity|]. destruct (srefines_init zero) as (f' & E' & R).
      rewrite E in E'. injection E' as <-. cbn [f_dw]. rewrite (sr_dw _ _ R). reflexivity.
  - unfold set_mapping in H. destruct (map_extents m (f_ext (c_fld a))) as [m'| |] eqn:E; cbn [bind] in H; try discriminate. injection H as <-.
    destruct IH as [I1 I2 I3 I4]. constructor; cbn [c_fld c_map]; auto.
    + unfold fitted. cbn. eapply extents_fitted; eauto.
    + exact (made_extents _ _ _ M E).
  - destruct IH as [I1 I2 I3 I4]. unfold set_size in H. destruct (map_extents (c_map a) e) as [m| |] eqn:Em; cbn [bind] in H; try discriminate.
    destruct (size_ok dflt zero k _ e dw I1 F N) as (f & Ef & If & Xf & Df & _). rewrite Ef in H. cbn [bind] in H. injection H as <-.
    constructor; cbn [c_fld c_map]; auto.
    + unfold fitted. cbn. rewrite Xf. eapply extents_fitted; eauto.
    + exact (made_extents _ _ _ I3 Em).
    + left. congruence.
  - destruct IH as [I1 I2 I3 I4]. destruct (set_ok k _ p v I1 B) as (f' & E & I' & X' & D' & _). rewrite E in H. injection H as <-.
    constructor; cbn [c_fld c_map]; auto; [unfold fitted; cbn; rewrite X'; auto|rewrite D'; auto].
  - destruct IHa as [A1 A2 A3 A4], IHb as [B1 B2 B3 B4]. unfold copy_from, set_mapping in H.
    destruct (map_extents (c_map b) (f_ext (c_fld a))) as [m1| |] eqn:E1; cbn [bind] in H; try discriminate.
    unfold set_size in H. cbn [c_fld c_map] in H. rewrite (map_extents_again _ _ _ _ E1) in H. unfold fitted in B2. rewrite B2 in H. cbn [bind] in H.
    destruct (size_ok dflt zero k _ (f_ext (c_fld b)) (f_dw (c_fld b)) A1 F N) as (f & Ef & If & Xf & Df & _). rewrite Ef in H. cbn [bind c_fld c_map] in H.
    destruct (Nat.leb_spec0 fuel (length (enum (f_dw (c_fld b))))) as [L|L].
    + (* cannot end *) exfalso. destruct (copy_loop _ fuel _ _ _ _ _) as [r|] eqn:Ec; [|discriminate]. rewrite Df in Ec. clear H.
      assert (G : forall l fuel (x : fld (V := V) k) i, (fuel <= length l)%nat -> chain (it_next (f_dw (c_fld b))) i l (it_end (f_dw (c_fld b))) ->
        inv k x -> f_dw x = f_dw (c_fld b) -> (forall p, In p l -> in_box p (f_dw (c_fld b))) ->
        copy_loop (fun v => v) fuel (f_dw (c_fld b)) x (c_fld b) i i = None).
      { clear - B1. intros l. induction l as [|p l IH]; intros n x i L C Ix Dx Bx; destruct n; cbn [copy_loop]; auto; [cbn in L; lia|].
        cbn in C. destruct C as [-> C]. assert (Bp : in_box p (f_dw (c_fld b))) by (apply Bx; left; auto).
        replace (v3_eqb p (it_end (f_dw (c_fld b)))) with false.
        2: { symmetry. destruct (v3_eqb p (it_end (f_dw (c_fld b)))) eqn:E; auto. apply v3_eqb_eq in E. rewrite E in Bp. exfalso. unfold in_box, it_end in Bp. cbn in Bp. lia. }
        destruct (get_ok j _ p B1 Bp) as (v & Ev). rewrite Ev. cbn [bind].
        destruct (set_ok k x p v Ix) as (x1 & Ex1 & Ix1 & _ & Dx1 & _); [congruence|]. rewrite Ex1. apply IH; auto; [cbn in L; lia|congruence|].
        intros q Q. apply Bx. right. auto. }
      rewrite (G (enum (f_dw (c_fld b))) fuel f (it_begin (f_dw (c_fld b)))) in Ec; auto; [discriminate|apply walk_chain; left; auto|].
      intros p Hp. apply enum_In. auto.
    + assert (Bw : forall p, In p (enum (f_dw (c_fld b))) -> in_box p (f_dw (c_fld b))) by (intros p Hp; apply enum_In; auto).
      destruct (copy_loop_ok k j (fun v : V => v) (c_fld b) (f_dw (c_fld b)) B1 eq_refl (enum (f_dw (c_fld b))) f (it_begin (f_dw (c_fld b))) fuel If Df
        (walk_chain _ (or_introl N)) (enum_nodup _) Bw ltac:(lia)) as (f' & Ea & I' & X' & D' & F' & G').
      rewrite Df, Ea in H. injection H as <-. constructor; cbn [c_fld c_map]; auto.
      * unfold fitted. cbn [c_fld c_map]. rewrite X', Xf. auto.
      * left. congruence.
  - destruct IHa as [A1 A2 A3 A4], IHb as [B1 B2 B3 B4]. unfold match_definition, set_size in H.
    destruct (map_extents (c_map a) (f_ext (c_fld b))) as [m1| |] eqn:E1; cbn [bind] in H; try discriminate.
    destruct (size_ok dflt zero k _ (f_ext (c_fld b)) (f_dw (c_fld b)) A1 F N) as (f & Ef & If & Xf & Df & _). rewrite Ef in H. cbn [bind] in H.
    unfold set_mapping in H. cbn [c_fld c_map] in H. rewrite Xf in H. unfold fitted in B2. rewrite B2 in H. cbn [bind] in H. injection H as <-.
    constructor; cbn [c_fld c_map]; auto; [unfold fitted; cbn; rewrite Xf; auto|left; congruence].
Qed.

Lemma is_identical_ok euler eqb k j fuel (a : mfield (V := V) k) (b : mfield (V := V) j) : sound a -> sound b ->
  box_count (f_dw (c_fld a)) < Z.of_nat fuel ->
  exists r, is_identical euler eqb fuel a b = Some (Ok r) /\
    (r = true <-> f_ext (c_fld a) = f_ext (c_fld b) /\ f_dw (c_fld a) = f_dw (c_fld b) /\ map_identical euler (c_map a) (c_map b) 0 = Ok true /\
      forall p, in_box p (f_dw (c_fld a)) -> exists x y, f_get (c_fld a) p = Ok x /\ f_get (c_fld b) p = Ok y /\ eqb x y = true).
Proof.
  intros [A1 A2 A3 A4] [B1 B2 B3 B4] Fu. unfold is_identical, same_definition.
  destruct (box_eqb (f_ext (c_fld a)) (f_ext (c_fld b))) eqn:E1; cbn [negb].
  2: { exists false. split; auto. split; [discriminate|]. intros (X & _). apply box_eqb_eq in X. congruence. }
  apply box_eqb_eq in E1.
  destruct (box_eqb (f_dw (c_fld a)) (f_dw (c_fld b))) eqn:E2; cbn [negb].
  2: { exists false. split; auto. split; [discriminate|]. intros (_ & X & _). apply box_eqb_eq in X. congruence. }
  apply box_eqb_eq in E2.
  destruct (map_identical_total euler (c_map a) (c_map b) 0 (made_even _ A3) (made_even _ B3)) as (r & Er). rewrite Er.
  destruct r.
  2: { exists false. split; auto. split; [discriminate|]. intros (_ & _ & X & _). congruence. }
  assert (Bw : forall p, In p (enum (f_dw (c_fld a))) -> in_box p (f_dw (c_fld a))) by (intros p Hp; apply enum_In; auto).
  destruct (same_loop_ok k j eqb (c_fld a) (c_fld b) (f_dw (c_fld a)) A1 B1 eq_refl (eq_sym E2) (enum (f_dw (c_fld a))) (it_begin (f_dw (c_fld a))) fuel
    (walk_chain _ A4) Bw (nonempty_count _ _ Fu)) as (r & E & H).
  rewrite <- E2. exists r. split; auto. rewrite H. split.
  - intros G. split; auto. split; auto. split; auto. intros p P. apply G. apply enum_In. auto.
  - intros (_ & _ & _ & G) p P. apply G. auto.
Qed.
End Built.
