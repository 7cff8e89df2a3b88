(** C11: copying and comparing fields. *)
From Coq Require Import ZArith Reals List Bool Lia Lra.
From Verif Require Import Model.Base Model.FieldM Model.DenseM Model.SparseM Model.OpsM Model.RealM Model.VecM Model.MatM Model.CurveM Model.MapM Model.CopyM
  Spec.VoxelSpec Spec.DenseSpec Spec.SparseSpec Spec.OpsSpec Spec.CopySpec
  Proof.BaseP Proof.FieldP Proof.DenseP Proof.SparseP Proof.SparseP3 Proof.OpsP Proof.RealP Proof.MatP Proof.MapP Proof.CopyP Proof.ShrtP.
Import ListNotations.
Open Scope Z_scope.

(** After [copyFrom], from a field of any kind and data type, the target has the extents,
    the window, the mapping and, at every voxel, the (converted) value of the source. *)
Theorem C11_copy {V W : Type} (dflt zero : V) (dflt' zero' : W) (conv : W -> V) k j (a : mfield k) (b : mfield j) fuel :
  built dflt zero k a -> built dflt' zero' j b -> fits k (c_fld a) (f_dw (c_fld b)) -> box_nonempty (f_dw (c_fld b)) ->
  box_count (f_dw (c_fld b)) < Z.of_nat fuel ->
  exists a', copy_from dflt zero conv fuel a b = Some (Ok a') /\
    f_ext (c_fld a') = f_ext (c_fld b) /\ f_dw (c_fld a') = f_dw (c_fld b) /\ c_map a' = c_map b /\
    forall p, in_box p (f_dw (c_fld b)) -> exists v, f_get (c_fld b) p = Ok v /\ f_get (c_fld a') p = Ok (conv v).
Proof.
  intros A B F N Fu. apply built_sound in A. apply built_sound in B. destruct A as [A1 A2 A3 A4], B as [B1 B2 B3 B4].
  destruct (copy_from_ok dflt zero k j conv fuel a b A1 B1 (fitted_framed _ _ A2) (fitted_framed _ _ B2) F N Fu) as (a' & E & _ & X & D & M & G).
  exists a'. split; auto. split; auto. split; auto. split; auto. unfold fitted in B2. congruence.
Qed.
Print Assumptions C11_copy.

(** [isIdentical] and [sameDefinition] of mappings end without undefined behaviour, and say
    whether the mappings are of the same class and have the same samples, up to the
    tolerance. *)
Theorem C11_same_mapping : forall euler m1 m2 tol, made m1 -> made m2 ->
  exists r, map_identical euler m1 m2 tol = Ok r /\ (r = true <-> same_mapping euler tol m1 m2).
Proof.
  intros euler m1 m2 tol M1 M2. apply made_even in M1, M2. destruct (map_identical_total euler m1 m2 tol M1 M2) as (r & E). exists r. split; auto.
  rewrite <- (map_identical_same euler m1 m2 tol M1 M2), E. split; [intros ->; auto|congruence].
Qed.
Print Assumptions C11_same_mapping.

(** Matrix mappings without shear or perspective that are identical with no tolerance, in the
    same extents, take every point to the same place at every time. *)
Theorem C11_identical_transforms : forall euler h1 h2 s1 s2 e, tells_apart euler ->
  mat_run mat_init h1 = Ok s1 -> mat_run mat_init h2 = Ok s2 -> set_frame e = Ok (mm_frame s1) -> set_frame e = Ok (mm_frame s2) ->
  Forall (fun s => plain (snd s)) (mm_curve s1) -> Forall (fun s => plain (snd s)) (mm_curve s2) ->
  map_identical euler (MapMatrix s1) (MapMatrix s2) 0 = Ok true ->
  forall t p, m_local_to_world s1 t p = m_local_to_world s2 t p /\ m_world_to_local s1 t p = m_world_to_local s2 t p /\
              m_voxel_to_world s1 t p = m_voxel_to_world s2 t p /\ m_world_to_voxel s1 t p = m_world_to_voxel s2 t p.
Proof.
  intros euler h1 h2 s1 s2 e T R1 R2 F1 F2 P1 P2 H t p.
  assert (G1 : good s1) by (apply (run_good h1 mat_init); auto; apply init_good).
  assert (G2 : good s2) by (apply (run_good h2 mat_init); auto; apply init_good).
  apply (map_identical_same euler (MapMatrix s1) (MapMatrix s2) 0) in H; [|exact G1|exact G2]. cbn [same_mapping] in H. destruct H as [H _].
  apply (curve_eq euler _ _ T P1 P2) in H. rewrite F1 in F2. injection F2 as F2.
  rewrite !ls_ws, !ws_ls, !vs_ws, !ws_vs by auto. unfold world_at. rewrite H, F2. auto.
Qed.
Print Assumptions C11_identical_transforms.

(** [isIdentical] ends, without undefined behaviour, and returns true exactly when the
    extents and windows are equal, the mappings are the same, and all values are equal. *)
Theorem C11_is_identical {V : Type} (dflt zero : V) euler eqb k j (a : mfield k) (b : mfield j) fuel : decides_eq eqb ->
  built dflt zero k a -> built dflt zero j b -> box_count (f_dw (c_fld a)) < Z.of_nat fuel ->
  exists r, is_identical euler eqb fuel a b = Some (Ok r) /\
    (r = true <-> f_ext (c_fld a) = f_ext (c_fld b) /\ f_dw (c_fld a) = f_dw (c_fld b) /\
                  same_mapping euler 0 (c_map a) (c_map b) /\ equal_values (c_fld a) (c_fld b) (f_dw (c_fld a))).
Proof.
  intros D A B Fu. apply built_sound in A. apply built_sound in B.
  destruct (is_identical_ok euler eqb k j fuel a b A B Fu) as (r & E & H). exists r. split; auto. rewrite H.
  assert (Ev : even (c_map a) /\ even (c_map b)) by (destruct A, B; split; apply made_even; auto). destruct Ev as [Ea Eb].
  rewrite (map_identical_same euler _ _ 0%R Ea Eb). split.
  - intros (X & W & M & G). split; auto. split; auto. split; auto. intros p P. destruct (G p P) as (x & y & Gx & Gy & Exy). apply D in Exy. exists x. split; congruence.
  - intros (X & W & M & G). split; auto. split; auto. split; auto. intros p P. destruct (G p P) as (v & Gx & Gy). exists v, v. split; auto. split; auto. apply D. auto.
Qed.
Print Assumptions C11_is_identical.

(** After [copyFrom], [isIdentical] says so, both ways round. *)
Theorem C11_copy_identical {V : Type} (dflt zero : V) euler eqb k j (a : mfield k) (b : mfield j) fuel a' : decides_eq eqb ->
  built dflt zero k a -> built dflt zero j b -> fits k (c_fld a) (f_dw (c_fld b)) -> box_nonempty (f_dw (c_fld b)) ->
  box_count (f_dw (c_fld b)) < Z.of_nat fuel -> copy_from dflt zero (fun v => v) fuel a b = Some (Ok a') ->
  is_identical euler eqb fuel a' b = Some (Ok true) /\ is_identical euler eqb fuel b a' = Some (Ok true).
Proof.
  intros D A B F N Fu E. destruct (C11_copy dflt zero dflt zero (fun v => v) k j a b fuel A B F N Fu) as (a2 & E2 & X & W & M & G).
  rewrite E in E2. injection E2 as <-. assert (A' : built dflt zero k a') by (eapply b_copy; eauto).
  assert (Ev : even (c_map b)) by (apply made_even, (built_sound _ _ _ _ B)).
  assert (Rf : same_mapping euler 0 (c_map b) (c_map b)) by (apply map_identical_same; auto; apply map_identical_refl; auto).
  destruct (C11_is_identical dflt zero euler eqb k j a' b fuel D A' B ltac:(rewrite W; auto)) as (r & Er & Hr).
  destruct (C11_is_identical dflt zero euler eqb j k b a' fuel D B A' Fu) as (s & Es & Hs).
  rewrite Er, Es. split; do 2 f_equal.
  - apply Hr. split; auto. split; auto. split; [rewrite M; auto|]. rewrite W. intros p P. destruct (G p P) as (v & G1 & G2). eauto.
  - apply Hs. split; auto. split; auto. split; [rewrite M; auto|]. intros p P. destruct (G p P) as (v & G1 & G2). eauto.
Qed.
Print Assumptions C11_copy_identical.

(** After [matchDefinition], [sameDefinition] holds (with no tolerance), and every voxel has
    the default value of the kind of field. *)
Theorem C11_match_definition {V W : Type} (dflt zero : V) (dflt' zero' : W) euler k j (a : mfield k) (b : mfield j) :
  built dflt zero k a -> built dflt' zero' j b -> fits k (c_fld a) (f_dw (c_fld b)) -> box_nonempty (f_dw (c_fld b)) ->
  exists a', match_definition dflt zero a b = Ok a' /\ same_definition euler a' b 0 = Ok true /\ c_map a' = c_map b /\
    forall p, in_box p (f_dw (c_fld b)) -> f_get (c_fld a') p = Ok (match k with KDense => dflt | KSparse => zero end).
Proof.
  intros A B F N. apply built_sound in A. apply built_sound in B. destruct A as [A1 A2 A3 A4], B as [B1 B2 B3 B4].
  destruct (set_size_ok dflt zero k a (f_ext (c_fld b)) (f_dw (c_fld b)) A1 (fitted_framed _ _ B2) F N) as (m & f & Em & Ef & Es & If & Xf & Df & Ff & Gf).
  unfold match_definition. rewrite Es. cbn [bind]. unfold set_mapping. cbn [c_fld c_map]. rewrite Xf. unfold fitted in B2. rewrite B2. cbn [bind].
  eexists. split; [reflexivity|]. cbn [c_fld c_map]. split; [|split; auto].
  unfold same_definition. cbn [c_fld c_map]. rewrite Xf, Df.
  replace (box_eqb (f_ext (c_fld b)) (f_ext (c_fld b))) with true by (symmetry; apply box_eqb_eq; auto).
  replace (box_eqb (f_dw (c_fld b)) (f_dw (c_fld b))) with true by (symmetry; apply box_eqb_eq; auto). cbn [negb].
  apply map_identical_refl, made_even; auto.
Qed.
Print Assumptions C11_match_definition.

(** The mapping of a field always works in the voxel space of the field's extents. *)
Theorem C11_mapping_follows {V : Type} (dflt zero : V) k (a : mfield k) : built dflt zero k a ->
  set_frame (f_ext (c_fld a)) = Ok (frame_of (c_map a)).
Proof. intros A. apply fitted_frame. apply (built_sound _ _ _ _ A). Qed.
Print Assumptions C11_mapping_follows.

(** ** Claims that do not hold *)

(** A field copied onto itself loses its values: it is resized before the loop. *)
Lemma self_copy {V} (dflt zero : V) k (a : mfield k) fuel : built dflt zero k a -> fits k (c_fld a) (f_dw (c_fld a)) -> box_nonempty (f_dw (c_fld a)) ->
  box_count (f_dw (c_fld a)) < Z.of_nat fuel ->
  exists a', copy_self dflt zero fuel a = Some (Ok a') /\ forall p, in_box p (f_dw (c_fld a)) -> f_get (c_fld a') p = Ok (fill dflt zero k).
Proof.
  intros A F N Fu. apply built_sound in A. destruct A as [A1 A2 A3 A4]. unfold copy_self, set_mapping. pose proof A2 as Fi. unfold fitted in A2. rewrite A2. cbn [bind c_fld].
  destruct (set_size_ok dflt zero k (MField (c_fld a) (c_map a)) (f_ext (c_fld a)) (f_dw (c_fld a)) A1 (fitted_framed _ _ Fi) F N) as (m & f & Em & Ef & Es & If & Xf & Df & Ff & Gf).
  rewrite Es. cbn [c_fld c_map]. rewrite Df.
  assert (Bw : forall p, In p (enum (f_dw (c_fld a))) -> in_box p (f_dw (c_fld a))) by (intros p Hp; apply enum_In; auto).
  destruct (copy_self_ok k (f_dw (c_fld a)) (enum (f_dw (c_fld a))) f (it_begin (f_dw (c_fld a))) fuel If Df (walk_chain _ (or_introl N)) Bw (nonempty_count _ _ Fu)) as (a' & E & _ & _ & _ & G).
  rewrite E. eexists. split; [reflexivity|]. cbn [c_fld]. intros p P. rewrite G by auto. apply Gf. auto.
Qed.

(** A dense field of one voxel. *)
Definition one : box := Box (V3 0 0 0) (V3 0 0 0).
Lemma one_in p : in_box p one -> p = V3 0 0 0.
Proof. destruct p as [x y z]. unfold in_box, one. cbn. intros H. f_equal; lia. Qed.
Lemma one_fits {V} (f : fld (V := V) KDense) : fits KDense f one.
Proof.
  cbn [fits]. split; [intros c H; cbn in H; intuition lia|]. split; cbn; lia.
Qed.
Lemma one_nonempty : box_nonempty one.
Proof. unfold box_nonempty, one. cbn. lia. Qed.
Lemma one_voxel {V} (dflt zero v : V) : exists a, built dflt zero KDense a /\ f_ext (c_fld a) = one /\ f_dw (c_fld a) = one /\ f_get (c_fld a) (V3 0 0 0) = Ok v.
Proof.
  assert (N : exists a0, c_new zero KDense = Ok a0) by (unfold c_new, map_extents; cbn; eauto). destruct N as (a0 & E0).
  pose proof (b_new dflt zero _ _ E0) as B0. pose proof (built_sound _ _ _ _ B0) as [I0 _ _ _].
  destruct (set_size_ok dflt zero KDense a0 one one I0) as (m & f & Em & Ef & Es & If & Xf & Df & Ff & Gf); [eexists; reflexivity|apply one_fits|apply one_nonempty|].
  pose proof (b_size dflt zero _ _ _ _ _ B0 (one_fits _) one_nonempty Es) as B1.
  destruct (set_ok KDense f (V3 0 0 0) v If) as (f' & Ef' & I' & X' & D' & F' & G1 & G2); [rewrite Df; unfold in_box, one; cbn; lia|].
  exists (MField f' m). split.
  - apply (b_write dflt zero KDense (MField f m) (V3 0 0 0) v f' B1); auto. cbn [c_fld]. rewrite Df. unfold in_box, one. cbn. lia.
  - cbn [c_fld]. split; [congruence|]. split; [congruence|]. auto.
Qed.
Lemma count_one : box_count one = 1.
Proof. reflexivity. Qed.

Theorem C11_self_copy_refuted :
  ~ (forall (a : mfield (V := Z) KDense) fuel a', built 0 0 KDense a -> fits KDense (c_fld a) (f_dw (c_fld a)) -> box_nonempty (f_dw (c_fld a)) ->
       copy_self 0 0 fuel a = Some (Ok a') -> equal_values (c_fld a') (c_fld a) (f_dw (c_fld a))).
Proof.
  intros H. destruct (one_voxel 0 0 7) as (a & B & X & D & G).
  destruct (self_copy 0 0 KDense a 5) as (a' & E & G'); auto.
  - rewrite D. apply one_fits.
  - rewrite D. apply one_nonempty.
  - rewrite D, count_one. lia.
  - specialize (H a 5%nat a' B ltac:(rewrite D; apply one_fits) ltac:(rewrite D; apply one_nonempty) E). rewrite D in H, G'.
    assert (P : in_box (V3 0 0 0) one) by (unfold in_box, one; cbn; lia).
    destruct (H _ P) as (v & H1 & H2). rewrite (G' _ P) in H1. cbn [fill] in H1. congruence.
Qed.
Print Assumptions C11_self_copy_refuted.

(** With a not-a-number in it, a field is not identical to its copy, nor to itself: the
    comparison of the values, [None] standing for not-a-number, is not reflexive. *)
Definition nan_eqb (x y : option Z) : bool := match x, y with Some a, Some b => Z.eqb a b | _, _ => false end.
Theorem C11_nan_refuted : forall euler,
  ~ (forall (a : mfield (V := option Z) KDense) fuel, built None None KDense a -> box_count (f_dw (c_fld a)) < Z.of_nat fuel ->
       is_identical euler nan_eqb fuel a a = Some (Ok true)).
Proof.
  intros euler H. destruct (one_voxel (None (A := Z)) None None) as (a & B & X & D & G).
  assert (C : box_count (f_dw (c_fld a)) < Z.of_nat 5) by (rewrite D, count_one; lia).
  specialize (H a 5%nat B C). pose proof (built_sound _ _ _ _ B) as S.
  destruct (is_identical_ok euler nan_eqb _ _ 5 a a S S C) as (r & E & Hr). rewrite H in E. injection E as <-.
  destruct (proj1 Hr eq_refl) as (_ & _ & _ & A). destruct (A (V3 0 0 0)) as (x & y & Gx & Gy & Exy).
  - rewrite D. unfold in_box, one. cbn. lia.
  - rewrite G in Gx, Gy. injection Gx as <-. injection Gy as <-. discriminate.
Qed.
Print Assumptions C11_nan_refuted.

(** A dense field cannot be a copy of an empty field: a new field has an empty window, and
    resizing throws. *)
Theorem C11_copy_of_new_refuted : forall j,
  ~ (forall (a : mfield (V := Z) KDense) (b : mfield (V := Z) j) fuel, built 0 0 KDense a -> built 0 0 j b ->
       exists a', copy_from 0 0 (fun v => v) fuel a b = Some (Ok a')).
Proof.
  intros j H. destruct (one_voxel 0 0 7) as (a & B & X & D & G).
  assert (N : exists b, c_new 0 j = Ok b /\ f_ext (c_fld b) = Box (V3 0 0 0) (V3 (-1) (-1) (-1)) /\ f_dw (c_fld b) = Box (V3 0 0 0) (V3 (-1) (-1) (-1))).
  { unfold c_new. destruct (inv_new 0 0 j) as (f & E & _). rewrite E. cbn [bind].
    assert (Q : f_ext f = Box (V3 0 0 0) (V3 (-1) (-1) (-1)) /\ f_dw f = Box (V3 0 0 0) (V3 (-1) (-1) (-1))).
    { destruct j; cbn [f_new] in E; [injection E as <-; split; reflexivity|]. destruct (srefines_init 0) as (f' & E' & R). rewrite E in E'. injection E' as <-.
      cbn [f_dw f_ext]. rewrite (sr_dw _ _ R), (sr_ext _ _ R). split; reflexivity. }
    destruct Q as [Q1 Q2]. rewrite Q1. unfold map_extents. cbn [set_frame bind]. eexists. split; [reflexivity|]. cbn [c_fld]. auto. }
  destruct N as (b & Eb & Xb & Db). pose proof (b_new 0 0 _ _ Eb) as Bb.
  destruct (H a b 5%nat B Bb) as (a' & E). unfold copy_from, set_mapping in E. rewrite X in E.
  destruct (map_extents_total (c_map b) one) as (m1 & E1); [eexists; reflexivity|]. rewrite E1 in E. cbn [bind] in E.
  unfold set_size in E. rewrite Xb, Db in E. cbn [c_fld c_map] in E.
  destruct (map_extents_total m1 (Box (V3 0 0 0) (V3 (-1) (-1) (-1)))) as (m2 & E2); [eexists; reflexivity|]. rewrite E2 in E. cbn [bind f_size] in E.
  match type of E with context [dense_set_size ?d ?e ?w ?f] => destruct (dense_set_size_ok d e w f) as (f' & t & Ed & _ & _ & _ & T & _) end.
  { split; [intros c C; cbn in C; intuition lia|]. split; cbn; lia. }
  rewrite Ed in E. cbn [bind] in E. destruct t; [discriminate|]. assert (Nn : ~ box_nonempty (Box (V3 0 0 0) (V3 (-1) (-1) (-1)))) by (unfold box_nonempty; cbn; lia).
  apply T in Nn. discriminate.
Qed.
Print Assumptions C11_copy_of_new_refuted.

(** ** What [isIdentical] of mappings overlooks *)
Open Scope R_scope.
Definition shear (h : R) : m44 := M44 (R4 1 0 0 0) (R4 h 1 0 0) (R4 0 0 1 0) (R4 0 0 0 1).
Definition shift (x h : R) : m44 := M44 (R4 1 0 0 0) (R4 h 1 0 0) (R4 0 0 1 0) (R4 x 0 0 1).
Lemma sqrt_one x : x = 1 -> sqrt x = 1.
Proof. intros ->. apply sqrt_1. Qed.
Lemma shrt_shift euler x h : extract_shrt euler (shift x h) =
  Some (Shrt (R3 1 1 1) (R3 h 0 0) (euler (R3 1 0 0) (R3 0 1 0) (R3 0 0 1)) (R3 x 0 0)).
Proof.
  unfold extract_shrt, shift. cbn [row0 row1 row2 row3]. unfold part3. cbn [e0 e1 e2 e3].
  assert (L1 : len3 (R3 1 0 0) = 1) by (unfold len3, dot3; cbn [rx ry rz]; apply sqrt_one; ring). rewrite L1.
  destruct (reqb_spec 1 0) as [Z|_]; [lra|].
  assert (O1 : over3 (R3 1 0 0) 1 = R3 1 0 0) by (unfold over3; cbn [rx ry rz]; f_equal; field). rewrite O1.
  assert (D1 : dot3 (R3 1 0 0) (R3 h 1 0) = h) by (unfold dot3; cbn [rx ry rz]; ring). rewrite D1.
  assert (S1 : sub3 (R3 h 1 0) (R3 1 0 0) h = R3 0 1 0) by (unfold sub3; cbn [rx ry rz]; f_equal; ring). rewrite S1.
  assert (L2 : len3 (R3 0 1 0) = 1) by (unfold len3, dot3; cbn [rx ry rz]; apply sqrt_one; ring). rewrite L2.
  destruct (reqb_spec 1 0) as [Z|_]; [lra|].
  assert (O2 : over3 (R3 0 1 0) 1 = R3 0 1 0) by (unfold over3; cbn [rx ry rz]; f_equal; field). rewrite O2.
  assert (D2 : dot3 (R3 1 0 0) (R3 0 0 1) = 0) by (unfold dot3; cbn [rx ry rz]; ring). rewrite D2.
  assert (S2 : sub3 (R3 0 0 1) (R3 1 0 0) 0 = R3 0 0 1) by (unfold sub3; cbn [rx ry rz]; f_equal; ring). rewrite S2.
  assert (D3 : dot3 (R3 0 1 0) (R3 0 0 1) = 0) by (unfold dot3; cbn [rx ry rz]; ring). rewrite D3.
  assert (S3 : sub3 (R3 0 0 1) (R3 0 1 0) 0 = R3 0 0 1) by (unfold sub3; cbn [rx ry rz]; f_equal; ring). rewrite S3.
  assert (L3 : len3 (R3 0 0 1) = 1) by (unfold len3, dot3; cbn [rx ry rz]; apply sqrt_one; ring). rewrite L3.
  destruct (reqb_spec 1 0) as [Z|_]; [lra|].
  assert (O3 : over3 (R3 0 0 1) 1 = R3 0 0 1) by (unfold over3; cbn [rx ry rz]; f_equal; field). rewrite O3.
  unfold rltb. destruct (Rlt_dec _ _) as [L|_].
  - exfalso. unfold dot3, cross3 in L. cbn [rx ry rz] in L. lra.
  - f_equal. f_equal. f_equal; field.
Qed.
Lemma vec_near_refl f v : (forall x, f x x = true) -> vec_near f v v = true.
Proof. intros H. unfold vec_near. rewrite !H. reflexivity. Qed.
Lemma near_rel_refl e x : 0 <= e -> near_rel e x x = true.
Proof.
  intros E. unfold near_rel, rleb. destruct (Rle_dec _ _) as [|N]; auto. exfalso. apply N. replace (x - x) with 0 by ring. rewrite Rabs_R0.
  apply Rmult_le_pos; [auto|apply Rabs_pos].
Qed.
Lemma near_abs_refl e x : 0 <= e -> near_abs e x x = true.
Proof. intros E. unfold near_abs, rleb. destruct (Rle_dec _ _) as [|N]; auto. exfalso. apply N. replace (x - x) with 0 by ring. rewrite Rabs_R0. auto. Qed.
(** Matrices of this form are the same if their shifts are close enough. *)
Lemma same_shift euler x h y g e : 0 <= e -> near_rel e x y = true -> same_matrix euler (shift x h) (shift y g) e = true.
Proof.
  intros E N. unfold same_matrix. destruct (mat_near _ _ _); auto. rewrite !shrt_shift. cbn [h_scale h_angles h_shift].
  rewrite !vec_near_refl by (intros; (apply near_rel_refl || apply near_abs_refl); auto). unfold vec_near. cbn [rx ry rz].
  rewrite N, !near_rel_refl by auto. reflexivity.
Qed.
Lemma differ_shift euler x h y g e : near_rel e x y = false -> same_matrix euler (shift x h) (shift y g) e = false.
Proof.
  intros N. unfold same_matrix, mat_near, row_near. cbn [shift row0 row1 row2 row3 e0 e1 e2 e3]. rewrite N.
  rewrite !andb_false_r || rewrite !andb_false_l. rewrite ?andb_false_r. cbn [andb].
  rewrite ?andb_false_r. rewrite !shrt_shift. cbn [h_scale h_angles h_shift]. unfold vec_near at 3. cbn [rx ry rz]. rewrite N. cbn [andb]. apply andb_false_r.
Qed.
(** A new mapping with one matrix. *)
Definition mapped (m : m44) : matmap := update_transform frame_init [(0, m)].
Lemma run_mapped m : mat_run mat_init [MSet m] = Ok (mapped m).
Proof. reflexivity. Qed.
Lemma vs_mapped m : mm_vs_curve (mapped m) = [(0, m)].
Proof.
  unfold mapped, update_transform. cbn [mm_vs_curve fold_left fst snd madd]. unfold madd, add_sample. cbn [existsb insert_at]. f_equal. f_equal.
  assert (L : local_to_voxel_matrix frame_init = ident).
  { unfold local_to_voxel_matrix, frame_init, scale, translate, mmul, rowmul, ident. cbn. f_equal; f_equal; ring. }
  rewrite L. assert (Iv : inverse ident = ident).
  { assert (D : det ident <> 0) by (unfold det, ident, sub2; cbn; lra). rewrite <- (mmul_ident_r (inverse ident)). apply inverse_l. auto. }
  rewrite Iv. apply mmul_ident_l.
Qed.
Lemma world_mapped m t p : m_local_to_world (mapped m) t p = mult_vec m p.
Proof.
  unfold m_local_to_world, mapped, update_transform. cbn -[mult_vec rltb reqb]. destruct (rltb 0 0); reflexivity.
Qed.
Lemma mapped_identical euler a b e r : same_matrix euler a b e = r -> map_identical euler (MapMatrix (mapped a)) (MapMatrix (mapped b)) e = Ok r.
Proof.
  intros H. cbn [map_identical]. rewrite !vs_mapped. cbn [mapped update_transform mm_curve]. unfold same_curves. cbn [length Nat.eqb negb same_samples].
  destruct (reqb_spec 0 0) as [_|N]; [|congruence]. cbn [negb]. rewrite H. destruct r; reflexivity.
Qed.

(** Two mappings that differ in shear only are identical for [isIdentical], with no
    tolerance, though they take a point to different places. *)
Theorem C11_shear_refuted : forall euler,
  ~ (forall h1 h2 s1 s2 t p, mat_run mat_init h1 = Ok s1 -> mat_run mat_init h2 = Ok s2 ->
       map_identical euler (MapMatrix s1) (MapMatrix s2) 0 = Ok true -> m_local_to_world s1 t p = m_local_to_world s2 t p).
Proof.
  intros euler H. specialize (H [MSet (shift 0 0)] [MSet (shift 0 1)] _ _ 0 (R3 0 1 0) (run_mapped _) (run_mapped _)).
  assert (E : map_identical euler (MapMatrix (mapped (shift 0 0))) (MapMatrix (mapped (shift 0 1))) 0 = Ok true).
  { apply mapped_identical. apply same_shift; [lra|]. apply near_rel_refl. lra. }
  specialize (H E). rewrite !world_mapped in H. unfold mult_vec, rowmul, shift in H. cbn [e0 e1 e2 e3 row0 row1 row2 row3 rx ry rz] in H.
  destruct (reqb_spec (0 * 0 + 1 * 0 + 0 * 0 + 1 * 1) 0) as [Z|_]; [lra|]. injection H. lra.
Qed.
Print Assumptions C11_shear_refuted.

(** With a tolerance, [sameDefinition] is not symmetric: errors are relative to the first
    mapping. *)
Theorem C11_symmetric_refuted : forall euler,
  ~ (forall m1 m2 tol, made m1 -> made m2 -> 0 <= tol -> map_identical euler m1 m2 tol = map_identical euler m2 m1 tol).
Proof.
  intros euler H. specialize (H (MapMatrix (mapped (shift 2 0))) (MapMatrix (mapped (shift 1 0))) (1 / 2) (made_matrix _ _ (run_mapped _)) (made_matrix _ _ (run_mapped _))).
  rewrite (mapped_identical euler (shift 2 0) (shift 1 0) (1 / 2) true) in H.
  2: { apply same_shift; [lra|]. unfold near_rel, rleb. destruct (Rle_dec _ _) as [|N]; auto. exfalso. apply N. rewrite !Rabs_right by lra. lra. }
  rewrite (mapped_identical euler (shift 1 0) (shift 2 0) (1 / 2) false) in H.
  - assert (T : 0 <= 1 / 2) by lra. specialize (H T). discriminate.
  - apply differ_shift. unfold near_rel, rleb. destruct (Rle_dec _ _) as [L|]; auto. exfalso. rewrite (Rabs_right 1) in L by lra. rewrite Rabs_left in L by lra. lra.
Qed.
Print Assumptions C11_symmetric_refuted.
Open Scope Z_scope.

(** A sparse copy of a dense field. *)
Example C11_example : exists (a : mfield (V := Z) KSparse) (b : mfield (V := Z) KDense) fuel, built 0 0 KSparse a /\ built 0 0 KDense b /\
  fits KSparse (c_fld a) (f_dw (c_fld b)) /\ box_nonempty (f_dw (c_fld b)) /\ box_count (f_dw (c_fld b)) < Z.of_nat fuel /\ f_get (c_fld b) (V3 0 0 0) = Ok 7.
Proof.
  destruct (one_voxel 0 0 7) as (b & B & X & D & G). destruct (inv_new 0 0 KSparse) as (f & E & _ & Fi).
  assert (N : exists a, c_new 0 KSparse = Ok a /\ c_fld a = f).
  { unfold c_new. rewrite E. cbn [bind]. destruct (srefines_init 0) as (f' & E' & R). cbn [f_new] in E. rewrite E in E'. injection E' as <-.
    cbn [f_ext]. rewrite (sr_ext _ _ R). unfold map_extents. cbn [set_frame bind]. eexists. split; reflexivity. }
  destruct N as (a & Ea & Ef). exists a, b, 5%nat. split; [apply b_new; auto|]. split; auto. rewrite D, Ef. split; [|split; [apply one_nonempty|split; [rewrite count_one; lia|auto]]].
  apply Fi. cbn [fits_new]. unfold window_ok, one. repeat split; cbn; try lia; match goal with H : In _ _ |- _ => cbn in H; intuition lia end.
Qed.

(** Angles that tell rotations apart: heading, pitch and roll, with [turn], which numbers the
    points of the unit circle, in place of the angle. *)
Open Scope R_scope.
Definition turn (u v : R) : R := if rleb 0 v then u else u + 3.
Lemma turn_inj u v u' v' : u * u + v * v = 1 -> u' * u' + v' * v' = 1 -> turn u v = turn u' v' -> u = u' /\ v = v'.
Proof.
  intros H H'. unfold turn, rleb. destruct (Rle_dec 0 v), (Rle_dec 0 v'); intros E.
  - subst u'. split; auto. assert (S : (v - v') * (v + v') = 0) by lra. apply Rmult_integral in S as [S|S]; lra.
  - exfalso. assert (u <= 1) by nra. assert (-1 <= u') by nra. lra.
  - exfalso. assert (u' <= 1) by nra. assert (-1 <= u) by nra. lra.
  - assert (u = u') by lra. subst u'. split; auto. assert (S : (v - v') * (v + v') = 0) by lra. apply Rmult_integral in S as [S|S]; lra.
Qed.
Definition some_angles (a b c : r3) : r3 :=
  let k := rx a * rx a + ry a * ry a in
  if reqb k 0 then R3 (rz a) (turn (rx b) (ry b)) 0
  else R3 (rz a) (turn (rx a / sqrt k) (ry a / sqrt k)) (turn (rz b / sqrt k) (rz c / sqrt k)).
Lemma squares_zero x y z : x * x + y * y + z * z = 0 -> x = 0 /\ y = 0 /\ z = 0.
Proof.
  intros H. assert (X : x * x = 0) by nra. assert (Y : y * y = 0) by nra. assert (Z : z * z = 0) by nra.
  apply Rmult_integral in X, Y, Z. intuition.
Qed.
Lemma axes_cross a b c : CopySpec.axes a b c -> c = cross3 a b.
Proof.
  intros (A & B & C & AB & AC & BC & T). pose proof (triple_sq a b c A B C AB AC BC) as S.
  assert (T1 : dot3 a (cross3 b c) = 1) by (unfold Rsqr in S; nra).
  assert (X1 : dot3 c (cross3 a b) = 1) by (rewrite <- T1; unfold dot3, cross3; cbn [rx ry rz]; ring).
  assert (X2 : dot3 (cross3 a b) (cross3 a b) = 1).
  { replace (dot3 (cross3 a b) (cross3 a b)) with (dot3 a a * dot3 b b - dot3 a b * dot3 a b) by (unfold dot3, cross3; cbn [rx ry rz]; ring). rewrite A, B, AB. ring. }
  set (d := cross3 a b) in *. assert (Z : dot3 (sub3 c d 1) (sub3 c d 1) = 0).
  { replace (dot3 (sub3 c d 1) (sub3 c d 1)) with (dot3 c c - 2 * dot3 c d + dot3 d d) by (unfold dot3, sub3; cbn [rx ry rz]; ring). rewrite C, X1, X2. ring. }
  unfold dot3, sub3 in Z. cbn [rx ry rz] in Z. apply squares_zero in Z. apply r3_eq; lra.
Qed.
(** The third entries of perpendicular unit vectors. *)
Lemma axes_column a b c : CopySpec.axes a b c -> rz b * rz b + rz c * rz c = rx a * rx a + ry a * ry a.
Proof.
  intros H. pose proof (axes_cross _ _ _ H) as ->. destruct H as (A & B & _ & AB & _). unfold dot3 in *. unfold cross3. cbn [rx ry rz].
  destruct a as [a1 a2 a3], b as [b1 b2 b3]. cbn [rx ry rz] in *.
  replace ((a1 * b2 - a2 * b1) * (a1 * b2 - a2 * b1)) with ((a1 * a1 + a2 * a2) * (b1 * b1 + b2 * b2) - (a1 * b1 + a2 * b2) * (a1 * b1 + a2 * b2)) by ring.
  replace (a1 * b1 + a2 * b2) with (- (a3 * b3)) by lra. replace (a1 * a1 + a2 * a2) with (1 - a3 * a3) by lra. replace (b1 * b1 + b2 * b2) with (1 - b3 * b3) by lra. ring.
Qed.
Example C11_angles : tells_apart some_angles.
Proof.
  intros a b c a' b' c' H H' E. pose proof (axes_cross _ _ _ H) as Cc. pose proof (axes_cross _ _ _ H') as Cc'. pose proof (axes_column _ _ _ H) as K. pose proof (axes_column _ _ _ H') as K'.
  destruct H as (A & B & C & AB & _). destruct H' as (A' & B' & C' & AB' & _). unfold dot3 in A, B, AB, A', B', AB'.
  assert (Ez : rz a = rz a') by (unfold some_angles in E; destruct (reqb (rx a * rx a + ry a * ry a) 0), (reqb (rx a' * rx a' + ry a' * ry a') 0); injection E; auto).
  assert (Ek : rx a' * rx a' + ry a' * ry a' = rx a * rx a + ry a * ry a) by (rewrite <- Ez in A'; lra).
  unfold some_angles in E. rewrite Ek in E. rewrite Ek in K'. set (k := rx a * rx a + ry a * ry a) in *.
  assert (Ab : a = a' /\ b = b').
  { destruct (reqb_spec k 0) as [Z|N].
    - injection E as _ Et. assert (X : rx a = 0 /\ ry a = 0) by (unfold k in Z; destruct (squares_zero (rx a) (ry a) 0); lra). assert (X' : rx a' = 0 /\ ry a' = 0) by (destruct (squares_zero (rx a') (ry a') 0); lra).
      assert (Y : rz b = 0) by (destruct (squares_zero (rz b) (rz c) 0); lra). assert (Y' : rz b' = 0) by (destruct (squares_zero (rz b') (rz c') 0); lra). split; [apply r3_eq; intuition lra|].
      rewrite Y in B. rewrite Y' in B'. apply turn_inj in Et; [|lra|lra]. destruct Et. apply r3_eq; lra.
    - injection E as _ E1 E2. assert (P : 0 < k) by (assert (0 <= k) by (unfold k; nra); lra). pose proof (sqrt_lt_R0 k P) as Ps. pose proof (sqrt_sqrt k (Rlt_le _ _ P)) as Sq.
      assert (Norm : forall x y, x * x + y * y = k -> x / sqrt k * (x / sqrt k) + y / sqrt k * (y / sqrt k) = 1).
      { intros x y Hxy. replace (x / sqrt k * (x / sqrt k) + y / sqrt k * (y / sqrt k)) with ((x * x + y * y) / (sqrt k * sqrt k)) by (field; lra). rewrite Hxy, Sq. field. auto. }
      assert (Cancel : forall x y, x / sqrt k = y / sqrt k -> x = y).
      { intros x y Hxy. replace x with (x / sqrt k * sqrt k) by (field; lra). rewrite Hxy. field. lra. }
      destruct (turn_inj _ _ _ _ (Norm (rx a) (ry a) eq_refl) (Norm (rx a') (ry a') Ek) E1) as [X Y]. apply Cancel in X, Y.
      destruct (turn_inj _ _ _ _ (Norm (rz b) (rz c) K) (Norm (rz b') (rz c') K') E2) as [X2 Y2]. apply Cancel in X2, Y2.
      assert (Ea : a = a') by (apply r3_eq; auto). split; auto. subst a'. rewrite Cc, Cc' in Y2. unfold cross3 in Y2. cbn [rz] in Y2.
      (* two linear equations *)
      assert (L1 : rx a * (rx b - rx b') + ry a * (ry b - ry b') = 0) by (rewrite X2 in AB; lra).
      assert (L2 : rx a * (ry b - ry b') - ry a * (rx b - rx b') = 0) by lra.
      assert (D1 : k * (rx b - rx b') = 0) by (unfold k; replace ((rx a * rx a + ry a * ry a) * (rx b - rx b')) with
        (rx a * (rx a * (rx b - rx b') + ry a * (ry b - ry b')) - ry a * (rx a * (ry b - ry b') - ry a * (rx b - rx b'))) by ring; rewrite L1, L2; ring).
      assert (D2 : k * (ry b - ry b') = 0) by (unfold k; replace ((rx a * rx a + ry a * ry a) * (ry b - ry b')) with
        (ry a * (rx a * (rx b - rx b') + ry a * (ry b - ry b')) + rx a * (rx a * (ry b - ry b') - ry a * (rx b - rx b'))) by ring; rewrite L1, L2; ring).
      apply Rmult_integral in D1 as [D1|D1]; [contradiction|]. apply Rmult_integral in D2 as [D2|D2]; [contradiction|]. apply r3_eq; lra. }
  destruct Ab as [-> ->]. split; auto. split; auto. congruence.
Qed.
Open Scope Z_scope.
