(** C39, C49: MAC fields. *)
From Coq Require Import ZArith Reals List Bool Lia Lra.
From Verif Require Import Model.Base Model.FieldM Model.RealM Model.VecM Model.MatM Model.DenseM Model.InterpM Model.MacM.
From Verif Require Import Spec.VoxelSpec Spec.DenseSpec Spec.InterpSpec Spec.MacSpec.
From Verif Require Import Proof.BaseP Proof.RealP Proof.FieldP Proof.DenseP Proof.InterpP Proof.CubicP Proof.MacP Proof.MacConvP Proof.MacInterpP.
Import ListNotations.
Open Scope Z_scope.

(** A MAC field and a dense vector field reached by some legal history. *)
Definition mac_reached (m : mac) : Prop := exists l, mlegal mspec_init l /\ mac_run mac_init l = Ok m.
Definition cells_reached (f : dense r3) : Prop :=
  exists l, legal (R3 0 0 0) (spec_init (R3 0 0 0)) l /\ dense_run (R3 0 0 0) dense_init l = Ok f.
Lemma legal_window l : forall a, int_window (mm_dw a) -> mlegal a l -> int_window (mm_dw (mspec_run a l)).
Proof.
  induction l as [|o l IH]; intros a W L; auto. destruct L as (L1 & L2). apply IH; auto. destruct o; cbn; auto.
Qed.
Lemma reached_inv m : mac_reached m -> minv m /\ int_window (m_dw m).
Proof.
  intros (l & L & E). destruct (mrefines_run l _ _ mrefines_init L) as (m' & E' & [I X W F]).
  rewrite E in E'. injection E' as <-. split; auto. rewrite W. apply legal_window; auto.
  unfold int_window. split; [solve_int_box|]. split; [solve_int_box|]. split; solve_int_box.
Qed.
Lemma cells_shape f : cells_reached f -> shape f.
Proof.
  intros (l & L & E). destruct (refines_run (R3 0 0 0) l _ _ (refines_init _) L) as (f' & E' & R').
  rewrite E in E'. injection E' as <-. apply R'.
Qed.

(** ** C39 *)

(** After any legal history every face can be read.  It holds what was last assigned to it
    since it was last resized or cleared: no assignment to one face changes another.  The
    value of a cell is the mean of its two faces on each axis. *)
Theorem C39_faces : forall l, mlegal mspec_init l ->
  let a := mspec_run mspec_init l in
  exists m, mac_run mac_init l = Ok m /\ m_ext m = mm_ext a /\ m_dw m = mm_dw a /\
    (forall c p, is_face (mm_dw a) c p ->
       exists x, face m c p = Ok x /\ forall y, mm_face a c p = Some y -> x = y) /\
    (forall p, in_box p (mm_dw a) ->
       exists v, mac_value m p = Ok v /\
         forall c, exists lo hi, face m c p = Ok lo /\ face m c (next c p) = Ok hi /\ coord c v = ((lo + hi) / 2)%R).
Proof.
  intros l L a. destruct (mrefines_run l _ _ mrefines_init L) as (m & E & [I X W F]). exists m.
  split; [auto|]. split; [auto|]. split; [auto|]. unfold a. rewrite <- W. split.
  - intros c p P. destruct (face_ok m c p I P) as (x & Ex). exists x. split; auto. intros y Y.
    rewrite (F c p y) in Ex; [congruence|rewrite <- W; auto|auto].
  - intros p P. destruct (write_ok m p (R3 0 0 0) I P) as (v & V & _ & C). eauto.
Qed.
Print Assumptions C39_faces.

Definition ex_mops : list mop :=
  let b := Box (V3 (-1) 0 2) (V3 0 0 3) in
  [MSize b b; MClear (R3 1 2 3); MFace CompU (V3 1 0 2) 7; MFace CompW (V3 0 0 4) 5].
Example C39_faces_example : mlegal mspec_init ex_mops /\
  mm_face (mspec_run mspec_init ex_mops) CompU (V3 1 0 2) = Some 7%R /\
  mm_face (mspec_run mspec_init ex_mops) CompU (V3 0 0 2) = Some 1%R /\
  mm_face (mspec_run mspec_init ex_mops) CompV (V3 0 1 2) = Some 2%R.
Proof.
  split; [|cbn; repeat split; reflexivity]. cbn. split; [|split; [auto|]; split; [lia|]; split; [lia|]; auto].
  unfold int_window. split; [solve_int_box|]. split; [solve_int_box|]. split; solve_int_box.
Qed.

(** An assignment through [lvalue] is lost: it does not change any face or cell value.
    [lvalue] answers a reference to a temporary. *)
Theorem C39_lvalue_assignment_refuted : forall m p x, mac_reached m -> in_box p (m_dw m) ->
  exists m', mac_write m p x = Ok m' /\ (forall c q, face m' c q = face m c q) /\ (forall q, mac_value m' q = mac_value m q).
Proof.
  intros m p x R P. destruct (reached_inv m R) as (I & _). destruct (write_ok m p x I P) as (v & V & W & _).
  eexists. split; [exact W|]. split; [intros []; reflexivity|]. reflexivity.
Qed.
Print Assumptions C39_lvalue_assignment_refuted.

(** Unlike a dense field, whose voxels are default values after a resize, a resized MAC
    field keeps old values, at other faces. *)
Theorem C39_resize_clears_refuted :
  let a := Box (V3 0 0 0) (V3 0 0 0) in let b := Box (V3 0 0 0) (V3 1 0 0) in
  mlegal mspec_init [MSize a a; MFace CompU (V3 1 0 0) 5; MFace CompV (V3 0 1 0) 4; MSize b b] /\
  exists m, mac_run mac_init [MSize a a; MFace CompU (V3 1 0 0) 5; MFace CompV (V3 0 1 0) 4; MSize b b] = Ok m /\
    face m CompU (V3 1 0 0) = Ok 5%R /\ face m CompV (V3 1 0 0) = Ok 4%R /\ face m CompV (V3 0 1 0) = Ok 0%R.
Proof.
  intros a b. split.
  - cbn. split; [unfold int_window; split; [solve_int_box|]; split; [solve_int_box|]; split; solve_int_box|].
    split; [lia|]. split; [lia|]. split; [|auto].
    unfold int_window; split; [solve_int_box|]; split; [solve_int_box|]; split; solve_int_box.
  - eexists. split; [cbv -[IZR]; reflexivity|]. split; [reflexivity|]. split; reflexivity.
Qed.
Print Assumptions C39_resize_clears_refuted.

(** The iterator of a component over a sub-box visits every face of the sub-box for that
    component once, in x-fastest order, and points at the storage of the face it names. *)
Theorem C39_component_iterator : forall m c s fuel, mac_reached m -> box_nonempty s ->
  (forall p, in_box p s -> in_box p (m_dw m)) -> box_count (Box (bmin s) (next c (bmax s))) < Z.of_nat fuel ->
  exists its, comp_iterate_sub fuel m c s = Some (Ok its) /\
    (forall p, In p (map di_pos its) <-> is_face s c p) /\ visits_box (map di_pos its) (Box (bmin s) (next c (bmax s))) /\
    forall it, In it its -> exists ix, di_p it = Some ix /\
      face m c (di_pos it) = arr_get (c_data (comp_of m c)) ix /\
      forall v, set_face m c (di_pos it) v =
        (let* d := arr_set (c_data (comp_of m c)) ix v in
         Ok (set_comp m c (Comp (c_size (comp_of m c)) (c_xy (comp_of m c)) d))).
Proof.
  intros m c s fuel R N S F. destruct (reached_inv m R) as (I & _). rewrite <- window_next in *.
  destruct (comp_iterate_sub_ok m c s fuel I N S F) as (its & E & P & G). exists its. split; auto.
  rewrite P. split; [intros p; rewrite enum_In; apply window_face|]. split; [apply enum_visits|].
  intros it IT. rewrite Forall_forall in G. destruct (G it IT) as (B & Q). eexists. split; [exact Q|].
  assert (B' : in_box (di_pos it) (component_window (m_dw m) c)).
  { assert (A1 := S (bmin s)). assert (A2 := S (bmax s)). unfold box_nonempty, in_box in *. destruct c; cbn in *; lia. }
  assert (SH : shape (view m c)) by (apply I; eapply in_box_nonempty; eauto). split.
  - rewrite face_dense. apply dense_value_lin; auto.
  - intros v. destruct (dense_index_ok (view m c) (di_pos it) SH B') as (IX & _). unfold set_face.
    change (comp_index m c (di_pos it)) with (dense_index (view m c) (vx (di_pos it)) (vy (di_pos it)) (vz (di_pos it))).
    rewrite IX. reflexivity.
Qed.
Print Assumptions C39_component_iterator.

(** The iterator over the whole field. *)
Theorem C39_component_iterator_whole : forall m c fuel, mac_reached m -> box_nonempty (m_dw m) ->
  box_count (Box (bmin (m_dw m)) (next c (bmax (m_dw m)))) < Z.of_nat fuel ->
  exists its, comp_iterate fuel m c = Some (Ok its) /\
    (forall p, In p (map di_pos its) <-> is_face (m_dw m) c p) /\ NoDup (map di_pos its) /\
    forall it, In it its -> exists ix, di_p it = Some ix /\ face m c (di_pos it) = arr_get (c_data (comp_of m c)) ix.
Proof.
  intros m c fuel R N F. destruct (reached_inv m R) as (I & _). rewrite <- window_next in *.
  destruct (comp_iterate_ok m c fuel I N F) as (its & E & P & G). exists its. split; auto.
  rewrite P. split; [intros p; rewrite enum_In; apply window_face|]. split; [apply enum_visits|].
  intros it IT. rewrite Forall_forall in G. destruct (G it IT) as (B & Q). eexists. split; [exact Q|].
  assert (SH : shape (view m c)) by (apply I; eapply in_box_nonempty; eauto).
  rewrite face_dense. apply dense_value_lin; auto.
Qed.
Print Assumptions C39_component_iterator_whole.

(** Copying gives the same faces, whatever the destination was. *)
Theorem C39_copy : forall m o, mac_reached o -> box_nonempty (m_dw o) ->
  exists m', copy_mac m o = Ok m' /\ m_ext m' = m_ext o /\ m_dw m' = m_dw o /\
    (forall c p, is_face (m_dw o) c p -> face m' c p = face o c p) /\
    (forall p, in_box p (m_dw o) -> mac_value m' p = mac_value o p).
Proof.
  intros m o R N. destruct (reached_inv o R) as (I & W). destruct (copy_ok m o I W) as (m' & E & I' & X & D & F); try (unfold box_nonempty in N; lia).
  - intros c. assert (SH : shape (view o c)) by (apply I, window_nonempty; auto). destruct SH as [_ M _ LN].
    pose proof (LN (window_nonempty _ c N)) as L. cbn [view d_data d_dw d_mem] in *. rewrite M in L. exact L.
  - exists m'. split; [auto|]. split; [auto|]. split; [auto|]. split; [auto|]. intros p P.
    unfold mac_value, center. rewrite !next_add. rewrite !F by (auto using face_low, face_high). reflexivity.
Qed.
Print Assumptions C39_copy.

(** Cells to faces: every face of the result is the mean of the two cells it separates, or
    the only cell beside it; with a rotated mapping the cells are first rotated by the
    matrix of the opposite angles. *)
Theorem C39_to_mac : forall rot cc m, cells_reached cc -> mac_reached m ->
  box_nonempty (d_dw cc) -> int_window (d_dw cc) ->
  exists m' val, cells_to_mac rot cc m = Ok m' /\ m_ext m' = d_ext cc /\ m_dw m' = d_dw cc /\
    (forall p, in_box p (d_dw cc) -> exists x, dense_value cc p = Ok x /\
       match rot with None => val p = x | Some r => mult_vec (rotation (neg3 r)) x = Some (val p) end) /\
    (forall c p, is_face (d_dw cc) c p -> exists y, face m' c p = Ok y /\ from_cells (d_dw cc) val c p y).
Proof.
  intros rot cc m RC RM N W. pose proof (cells_shape cc RC) as S. destruct (reached_inv m RM) as (I & _).
  pose (v := fun p => match dense_value cc p with Ok x => x | _ => R3 0 0 0 end).
  assert (V : forall p, in_box p (d_dw cc) -> dense_value cc p = Ok (v p)).
  { intros p P. unfold v. rewrite dense_value_lin by auto. destruct (dense_index_ok cc p S P) as (_ & L).
    destruct (arr_get_ok (d_data cc) _ L) as (x & ->). reflexivity. }
  destruct (cells_to_mac_ok rot cc m v S N W I V) as (m' & E & _ & X & D & F).
  exists m', (fun p => turn_back rot (v p)). split; [auto|]. split; [auto|]. split; [auto|]. split.
  - intros p P. exists (v p). split; auto. destruct rot as [r|]; cbn [turn_back]; auto. apply mult_rotation.
  - intros c p P. eexists. split; [apply F; auto|]. apply target_from_cells; auto.
Qed.
Print Assumptions C39_to_mac.

(** Faces to cells: every cell of the result is the value of the cell, rotated unless the
    angles are tiny. *)
Theorem C39_to_cells : forall rot cc m, cells_reached cc -> mac_reached m -> box_nonempty (m_dw m) ->
  exists cc', mac_to_cells rot m cc = Ok cc' /\ d_ext cc' = m_ext m /\ d_dw cc' = m_dw m /\
    forall p, in_box p (m_dw m) -> exists x y, mac_value m p = Ok x /\ dense_value cc' p = Ok y /\
      match rot with
      | None => y = x
      | Some r => (flt_epsilon < rx r * rx r + ry r * ry r + rz r * rz r -> mult_vec (rotation r) x = Some y)%R /\
                  (rx r * rx r + ry r * ry r + rz r * rz r <= flt_epsilon -> y = x)%R
      end.
Proof.
  intros rot cc m RC RM N. pose proof (cells_shape cc RC) as S. destruct (reached_inv m RM) as (I & W).
  pose (v := fun p => match mac_value m p with Ok x => x | _ => R3 0 0 0 end).
  assert (V : forall p, in_box p (m_dw m) -> mac_value m p = Ok (v p)).
  { intros p P. unfold v. destruct (write_ok m p (R3 0 0 0) I P) as (x & -> & _). reflexivity. }
  destruct (mac_to_cells_ok rot m cc v S (proj1 W) N V) as (cc' & E & _ & X & D & F).
  exists cc'. split; [auto|]. split; [auto|]. split; [auto|]. intros p P. exists (v p). eexists. split; [auto|]. split; [apply F; auto|].
  destruct rot as [r|]; cbn [turn]; auto. destruct (rltb_spec flt_epsilon (rx r * rx r + ry r * ry r + rz r * rz r)%R) as [H|H].
  - split; intros; [apply mult_rotation|lra].
  - split; intros; [lra|auto].
Qed.
Print Assumptions C39_to_cells.

(** A constant field survives the way to faces and back: without rotation, or with a
    rotation about one axis that is not tiny. *)
Definition about_one_axis (r : r3) : Prop :=
  (rx r = 0 /\ ry r = 0 \/ rx r = 0 /\ rz r = 0 \/ ry r = 0 /\ rz r = 0)%R.
Lemma rotate_back r x : about_one_axis r -> rotate3 r (rotate3 (neg3 r) x) = x.
Proof.
  intros A. unfold rotate3, rotation, neg3. cbn [e0 e1 e2 row0 row1 row2 rx ry rz].
  rewrite !sin_neg, !cos_neg. pose proof (sin2_cos2 (rx r)) as TX. pose proof (sin2_cos2 (ry r)) as TY. pose proof (sin2_cos2 (rz r)) as TZ.
  unfold Rsqr in *. destruct x as [a b c]. cbn [rx ry rz].
  destruct A as [(-> & ->)|[(-> & ->)|(-> & ->)]]; rewrite ?sin_0, ?cos_0; f_equal.
  - transitivity (a * (sin (rz r) * sin (rz r) + cos (rz r) * cos (rz r)))%R; [ring|rewrite TZ; ring].
  - transitivity (b * (sin (rz r) * sin (rz r) + cos (rz r) * cos (rz r)))%R; [ring|rewrite TZ; ring].
  - ring.
  - transitivity (a * (sin (ry r) * sin (ry r) + cos (ry r) * cos (ry r)))%R; [ring|rewrite TY; ring].
  - ring.
  - transitivity (c * (sin (ry r) * sin (ry r) + cos (ry r) * cos (ry r)))%R; [ring|rewrite TY; ring].
  - ring.
  - transitivity (b * (sin (rx r) * sin (rx r) + cos (rx r) * cos (rx r)))%R; [ring|rewrite TX; ring].
  - transitivity (c * (sin (rx r) * sin (rx r) + cos (rx r) * cos (rx r)))%R; [ring|rewrite TX; ring].
Qed.
Lemma constant_round_trip rot cc m cc0 v : shape cc -> minv m -> shape cc0 -> box_nonempty (d_dw cc) -> int_window (d_dw cc) ->
  (forall p, in_box p (d_dw cc) -> dense_value cc p = Ok v) ->
  exists m' cc', cells_to_mac rot cc m = Ok m' /\ mac_to_cells rot m' cc0 = Ok cc' /\ d_ext cc' = d_ext cc /\ d_dw cc' = d_dw cc /\
    forall p, in_box p (d_dw cc) -> dense_value cc' p = Ok (turn rot (turn_back rot v)).
Proof.
  intros S I S0 N W V. destruct (cells_to_mac_ok rot cc m (fun _ => v) S N W I V) as (m' & E & I' & X & D & F).
  assert (F' : forall c p, is_face (d_dw cc) c p -> face m' c p = Ok (coord c (turn_back rot v))).
  { intros c p P. rewrite F by auto. unfold target. destruct (box_has (d_dw cc) p), (box_has (d_dw cc) (prev c p)); f_equal; field. }
  assert (W' : int_box (m_dw m')) by (rewrite D; apply W). assert (N' : box_nonempty (m_dw m')) by (rewrite D; auto).
  assert (V' : forall p, in_box p (m_dw m') -> mac_value m' p = Ok (turn_back rot v)).
  { intros p P. rewrite D in P. unfold mac_value, center. rewrite !next_add, !F' by auto using face_low, face_high. cbn [bind coord].
    destruct (turn_back rot v) as [a b c]. cbn [rx ry rz]. do 2 f_equal; field. }
  destruct (mac_to_cells_ok rot m' cc0 (fun _ => turn_back rot v) S0 W' N' V') as (cc' & E' & _ & X' & D' & F2).
  exists m', cc'. split; [auto|]. split; [auto|]. split; [congruence|]. split; [congruence|]. rewrite <- D. auto.
Qed.
Theorem C39_constant_round_trip : forall rot cc m cc0 v, cells_reached cc -> mac_reached m -> cells_reached cc0 ->
  box_nonempty (d_dw cc) -> int_window (d_dw cc) -> (forall p, in_box p (d_dw cc) -> dense_value cc p = Ok v) ->
  match rot with
  | None => True
  | Some r => about_one_axis r /\ (r = R3 0 0 0 \/ flt_epsilon < rx r * rx r + ry r * ry r + rz r * rz r)%R
  end ->
  exists m' cc', cells_to_mac rot cc m = Ok m' /\ mac_to_cells rot m' cc0 = Ok cc' /\ d_ext cc' = d_ext cc /\ d_dw cc' = d_dw cc /\
    forall p, in_box p (d_dw cc) -> dense_value cc' p = Ok v.
Proof.
  intros rot cc m cc0 v RC RM RC0 N W V H. destruct (reached_inv m RM) as (I & _).
  destruct (constant_round_trip rot cc m cc0 v (cells_shape _ RC) I (cells_shape _ RC0) N W V) as (m' & cc' & E & E' & X & D & F).
  exists m', cc'. split; [auto|]. split; [auto|]. split; [auto|]. split; [auto|]. intros p P. rewrite F by auto. f_equal.
  destruct rot as [r|]; auto. destruct H as (A & T). cbn [turn turn_back].
  destruct (rltb_spec flt_epsilon (rx r * rx r + ry r * ry r + rz r * rz r)%R) as [L|L]; [apply rotate_back; auto|].
  destruct T as [->|T]; [|lra]. rewrite <- (rotate_back (R3 0 0 0) v A) at 2.
  unfold rotate3 at 2. unfold rotation. cbn [e0 e1 e2 row0 row1 row2 rx ry rz]. rewrite sin_0, cos_0.
  destruct (rotate3 (neg3 (R3 0 0 0)) v) as [a b c]. cbn [rx ry rz]. f_equal; ring.
Qed.
Print Assumptions C39_constant_round_trip.

Definition ex_cells : list (dop r3) :=
  let b := Box (V3 (-1) 0 2) (V3 0 0 3) in [DSize b b; DClear (R3 1 2 3)].
Example C39_conversion_example : exists cc m, cells_reached cc /\ mac_reached m /\ box_nonempty (d_dw cc) /\ int_window (d_dw cc) /\
  (forall p, in_box p (d_dw cc) -> dense_value cc p = Ok (R3 1 2 3)) /\
  about_one_axis (R3 0 1 0) /\ (flt_epsilon < 0 * 0 + 1 * 1 + 0 * 0)%R.
Proof.
  assert (L : legal (R3 0 0 0) (spec_init (R3 0 0 0)) ex_cells) by (cbn; split; [solve_int_box|auto]).
  destruct (refines_run (R3 0 0 0) ex_cells _ _ (refines_init _) L) as (f & E & [S X W V]).
  destruct (mrefines_run ex_mops _ _ mrefines_init (proj1 C39_faces_example)) as (m & EM & _).
  exists f, m. cbn in W, V. split; [exists ex_cells; auto|]. split; [exists ex_mops; split; [apply C39_faces_example|auto]|].
  rewrite W. split; [unfold box_nonempty; cbn; lia|].
  split; [unfold int_window; split; [solve_int_box|]; split; [solve_int_box|]; split; solve_int_box|]. split; [auto|].
  split; [unfold about_one_axis; cbn; lra|]. unfold flt_epsilon. assert (/ 2 ^ 23 < 1)%R; [|lra].
  rewrite <- Rinv_1. apply Rinv_lt_contravar; simpl pow; lra.
Qed.

(** Not for every rotation: the matrix of the opposite Euler angles is not the inverse, and
    every constant field (1, 0, 0) comes back as (0, 0, -1) for angles (pi/2, 0, pi/2). *)
Theorem C39_rotation_refuted : exists r v w, v <> w /\
  forall cc m cc0, cells_reached cc -> mac_reached m -> cells_reached cc0 -> box_nonempty (d_dw cc) -> int_window (d_dw cc) ->
  (forall p, in_box p (d_dw cc) -> dense_value cc p = Ok v) ->
  exists m' cc', cells_to_mac (Some r) cc m = Ok m' /\ mac_to_cells (Some r) m' cc0 = Ok cc' /\
    forall p, in_box p (d_dw cc) -> dense_value cc' p = Ok w.
Proof.
  exists (R3 (PI / 2) 0 (PI / 2)), (R3 1 0 0), (R3 0 0 (-1)). split; [intros E; injection E; lra|].
  intros cc m cc0 RC RM RC0 N W V. destruct (reached_inv m RM) as (I & _).
  destruct (constant_round_trip (Some (R3 (PI / 2) 0 (PI / 2))) cc m cc0 (R3 1 0 0) (cells_shape _ RC) I (cells_shape _ RC0) N W V) as (m' & cc' & E & E' & X & D & F).
  exists m', cc'. split; [auto|]. split; [auto|]. intros p P. rewrite F by auto. f_equal. cbn [turn turn_back rx ry rz].
  match goal with |- context [rltb ?a ?b] => destruct (rltb_spec a b) as [L|L] end.
  - unfold rotate3, rotation, neg3. cbn [e0 e1 e2 row0 row1 row2 rx ry rz]. rewrite !sin_neg, !cos_neg, !sin_PI2, !cos_PI2, !sin_0, !cos_0. f_equal; ring.
  - exfalso. apply L. unfold flt_epsilon. pose proof PI2_1. assert (1 < PI / 2 * (PI / 2))%R by nra.
    assert (/ 2 ^ 23 < 1)%R by (rewrite <- Rinv_1; apply Rinv_lt_contravar; simpl pow; lra). lra.
Qed.
Print Assumptions C39_rotation_refuted.

(** Nor for tiny ones: they are undone in one direction only. *)
Theorem C39_tiny_rotation_refuted : exists r v, about_one_axis r /\
  forall cc m cc0, cells_reached cc -> mac_reached m -> cells_reached cc0 -> box_nonempty (d_dw cc) -> int_window (d_dw cc) ->
  (forall p, in_box p (d_dw cc) -> dense_value cc p = Ok v) ->
  exists m' cc' w, cells_to_mac (Some r) cc m = Ok m' /\ mac_to_cells (Some r) m' cc0 = Ok cc' /\ w <> v /\
    forall p, in_box p (d_dw cc) -> dense_value cc' p = Ok w.
Proof.
  pose (e := (/ 2 ^ 12)%R). exists (R3 e 0 0), (R3 0 1 0). split; [unfold about_one_axis; cbn; lra|].
  intros cc m cc0 RC RM RC0 N W V. destruct (reached_inv m RM) as (I & _).
  destruct (constant_round_trip (Some (R3 e 0 0)) cc m cc0 (R3 0 1 0) (cells_shape _ RC) I (cells_shape _ RC0) N W V) as (m' & cc' & E & E' & X & D & F).
  exists m', cc'. eexists. split; [auto|]. split; [auto|]. split; [|exact F]. cbn [turn turn_back rx ry rz].
  assert (P0 : (0 < e)%R) by (unfold e; apply Rinv_0_lt_compat; simpl pow; lra).
  assert (P1 : (e < 1)%R) by (unfold e; rewrite <- Rinv_1; apply Rinv_lt_contravar; simpl pow; lra).
  match goal with |- context [rltb ?a ?b] => destruct (rltb_spec a b) as [L|L] end.
  - exfalso. unfold flt_epsilon, e in L. rewrite !Rmult_0_r, !Rplus_0_r, <- Rinv_mult in L.
    assert (/ (2 ^ 12 * 2 ^ 12) <= / 2 ^ 23)%R by (apply Rinv_le_contravar; simpl pow; lra). lra.
  - assert (SN : (0 < sin e)%R) by (apply sin_gt_0; [auto|pose proof PI2_1; lra]).
    unfold rotate3, rotation, neg3. cbn [e0 e1 e2 row0 row1 row2 rx ry rz]. rewrite !sin_neg, !cos_neg, !sin_0, !cos_0.
    intros Q. injection Q as _ _ Q. assert (sin e = 0)%R by lra. lra.
Qed.
Print Assumptions C39_tiny_rotation_refuted.

(** ** C49 *)
Open Scope R_scope.

(** Linear interpolation of a MAC field: each component is interpolated between the
    faces of that component, at their own positions.  At a face it is the face's value, it
    is bounded by the faces around, and reproduces affine data. *)
Theorem C49_linear : forall m p, mac_reached m -> box_nonempty (m_dw m) -> mac_pos_ok p ->
  exists v, mac_linear m p = Ok v /\ forall c,
    (forall q, is_face (m_dw m) c q -> p = face_centre c q -> face m c q = Ok (coord c v)) /\
    (forall lo hi, (forall q x, near_face (m_dw m) c p q -> face m c q = Ok x -> lo <= x <= hi) -> lo <= coord c v <= hi) /\
    (forall x, (forall q, is_face (m_dw m) c q -> face m c q = Ok x) -> coord c v = x) /\
    (forall k a b d, (forall q, is_face (m_dw m) c q -> face m c q = Ok (affine k a b d (face_centre c q))) ->
       between_faces c (bmin (m_dw m)) (next c (bmax (m_dw m))) p -> coord c v = affine k a b d p).
Proof.
  intros m p R N P. destruct (reached_inv m R) as (I & _). rewrite mac_linear_ok by auto. eexists. split; [reflexivity|]. intros c.
  pose proof (face_reads m c I) as RD. pose proof (window_nonempty _ c N) as NW.
  match goal with |- context [coord c ?x] => replace (coord c x) with (mix3 (component_window (m_dw m) c) (face_val m c) (shift c p)) by (destruct c; reflexivity) end.
  split; [|split; [|split]].
  - intros q Q ->. apply window_face in Q. rewrite shift_centre, mix3_centre by auto. apply RD. auto.
  - intros lo hi H. apply mix3_bound. intros q A. assert (Q : in_box q (component_window (m_dw m) c)).
    { destruct A as (n & -> & _). apply nearest_in; auto. }
    apply (H q); [apply around_near; auto|apply RD; auto].
  - intros x H. apply mix3_const; auto. intros q Q. assert (E := RD q Q). apply window_face in Q. rewrite H in E by auto. congruence.
  - intros k a b d H B. rewrite (affine_shift c k a b d p). apply mix3_affine; [apply between_shift; auto|].
    intros q Q. assert (E := RD q Q). apply window_face in Q. rewrite H in E by auto. injection E as <-.
    rewrite (affine_shift c k a b d (face_centre c q)), shift_centre. reflexivity.
Qed.
Print Assumptions C49_linear.

(** Cubic interpolation of a MAC field. *)
Theorem C49_cubic : forall m p, mac_reached m -> (forall c, win_ok (Box (bmin (m_dw m)) (next c (bmax (m_dw m))))) -> mac_pos_ok p ->
  exists v, mac_cubic m p = Ok v /\ forall c,
    (forall q, is_face (m_dw m) c q -> across_from c (1 / 2) p -> p = face_centre c q -> face m c q = Ok (coord c v)) /\
    (forall lo hi, (forall q x, is_face (m_dw m) c q -> face m c q = Ok x -> lo <= x <= hi) ->
       lo - 61 / 128 * (hi - lo) <= coord c v <= hi + 61 / 128 * (hi - lo)) /\
    (forall x, (forall q, is_face (m_dw m) c q -> face m c q = Ok x) -> coord c v = x) /\
    (forall k a b d, (forall q, is_face (m_dw m) c q -> face m c q = Ok (affine k a b d (face_centre c q))) ->
       between_faces c (v3_add (bmin (m_dw m)) (V3 1 1 1)) (v3_sub (next c (bmax (m_dw m))) (V3 1 1 1)) p ->
       across_from c (1 / 2) p -> coord c v = affine k a b d p).
Proof.
  intros m p R W P. destruct (reached_inv m R) as (I & _).
  rewrite mac_cubic_ok; [|auto|intros c; rewrite window_next; auto|auto]. eexists. split; [reflexivity|]. intros c.
  pose proof (face_reads m c I) as RD. assert (NW : box_nonempty (component_window (m_dw m) c)) by (rewrite window_next; apply W).
  match goal with |- context [coord c ?x] => replace (coord c x) with (mcub3 (component_window (m_dw m) c) c (face_val m c) p) by (destruct c; reflexivity) end.
  split; [|split; [|split]].
  - intros q Q A ->. apply window_face in Q. rewrite mcub3_centre; [apply RD; auto|auto|].
    destruct c; cbn [across_from face_centre rx ry rz] in *; lra.
  - intros lo hi H. apply mcub3_bound; auto. intros q Q. apply (H q); [apply window_face; auto|apply RD; auto].
  - intros x H. apply mcub3_const; auto. intros q Q. assert (E := RD q Q). apply window_face in Q. rewrite H in E by auto. congruence.
  - intros k a b d H B A. apply mcub3_affine; auto.
    + rewrite window_next. exact B.
    + intros q Q. assert (E := RD q Q). apply window_face in Q. rewrite H in E by auto. congruence.
Qed.
Print Assumptions C49_cubic.

Definition ex_mac_pos : r3 := R3 (1 / 2) (1 / 4) 3.
Example C49_example : exists m, mac_reached m /\ box_nonempty (m_dw m) /\ mac_pos_ok ex_mac_pos /\
  (forall c, win_ok (Box (bmin (m_dw m)) (next c (bmax (m_dw m))))).
Proof.
  destruct (mrefines_run ex_mops _ _ mrefines_init (proj1 C39_faces_example)) as (m & EM & [I X W F]).
  exists m. split; [exists ex_mops; split; [apply C39_faces_example|auto]|]. cbn in W. rewrite W.
  split; [unfold box_nonempty; cbn; lia|]. split; [unfold mac_pos_ok, ex_mac_pos; cbn [rx ry rz]; simpl pow; lra|].
  intros []; unfold win_ok, box_nonempty; cbn; lia.
Qed.

(** Below the window, along the axis of the component, the cubic interpolant does not
    continue the border value: the index is clamped to the window but the fraction is not,
    so the curve between the first two faces is repeated.  Just below the first face, with
    value 0, the result is close to the value 1 of the second face. *)
Theorem C49_cubic_below_window_refuted : exists m, mac_reached m /\
  face m CompU (V3 0 0 0) = Ok 0 /\ face m CompU (V3 1 0 0) = Ok 1 /\
  mac_cubic_one m CompU (R3 0 (1 / 2) (1 / 2)) = Ok 0 /\
  forall t, 0 <= t <= 1 / 4 -> exists v w, mac_cubic_one m CompU (R3 (- t) (1 / 2) (1 / 2)) = Ok v /\
    mac_cubic_one m CompU (R3 (1 - t) (1 / 2) (1 / 2)) = Ok w /\ (0 < t -> v = w /\ 1 / 2 < v).
Proof.
  pose (b := Box (V3 0 0 0) (V3 1 0 0)). pose (l := [MSize b b; MClear (R3 0 0 0); MFace CompU (V3 1 0 0) 1; MFace CompU (V3 2 0 0) 2]).
  assert (L : mlegal mspec_init l).
  { cbn. split; [|split; [auto|]; split; [lia|]; split; [lia|]; auto].
    unfold int_window. split; [solve_int_box|]. split; [solve_int_box|]. split; solve_int_box. }
  destruct (mrefines_run l _ _ mrefines_init L) as (m & E & [I X W F]). cbn [mm_dw mspec_run fold_left mspec_step l] in W, F.
  exists m. split; [exists l; auto|].
  assert (F0 : face m CompU (V3 0 0 0) = Ok 0) by (apply F; [unfold is_face; cbn; lia|reflexivity]).
  assert (F1 : face m CompU (V3 1 0 0) = Ok 1) by (apply F; [unfold is_face; cbn; lia|reflexivity]).
  assert (F2 : face m CompU (V3 2 0 0) = Ok 2) by (apply F; [unfold is_face; cbn; lia|reflexivity]).
  split; [auto|]. split; [auto|].
  assert (OK : forall x, - 2 < x < 2 -> mac_cubic_one m CompU (R3 x (1 / 2) (1 / 2)) = Ok (cubp 0 2 (fun i => face_val m CompU (V3 i 0 0)) x)).
  { intros x B. rewrite mac_cubic_one_ok; auto.
    - rewrite W. unfold mcub3. cbn [rx ry rz is_own apos comp_dec component_window bmin bmax vx vy vz v3_add comp_axis b].
      f_equal. change (if is_own CompU CompU then x else Rmax (1 / 2) x - 1 / 2) with x. apply cubp_ext. intros i.
      assert (A0 : apos false (1 / 2) = IZR 0) by (unfold apos; rewrite Rmax_left; lra).
      change (is_own CompU CompW) with false. change (is_own CompU CompV) with false. rewrite A0.
      rewrite (cubp_int 0 (0 + 0) _ 0), (cubp_int 0 (0 + 0) _ 0) by lia. reflexivity.
    - rewrite W. unfold win_ok, box_nonempty. cbn. lia.
    - unfold mac_pos_ok. cbn [rx ry rz]. simpl pow. lra. }
  assert (V0 : face_val m CompU (V3 0 0 0) = 0) by (unfold face_val; rewrite F0; auto).
  assert (V1 : face_val m CompU (V3 1 0 0) = 1) by (unfold face_val; rewrite F1; auto).
  assert (V2 : face_val m CompU (V3 2 0 0) = 2) by (unfold face_val; rewrite F2; auto).
  split; [rewrite OK by lra; rewrite (cubp_int 0 2 _ 0), V0 by lia; auto|].
  intros t T. exists (cubp 0 2 (fun i => face_val m CompU (V3 i 0 0)) (- t)), (cubp 0 2 (fun i => face_val m CompU (V3 i 0 0)) (1 - t)).
  split; [apply OK; lra|]. split; [apply OK; lra|]. intros T0.
  assert (FL : rfloor (- t) = (-1)%Z) by (apply rfloor_unique; cbn; lra). assert (FL' : rfloor (1 - t) = 0%Z) by (apply rfloor_unique; cbn; lra).
  unfold cubp. cbv zeta. rewrite FL, FL'. unfold clamp_in. cbn [Z.max Z.min Z.compare Z.sub Z.add Z.opp Pos.compare Pos.compare_cont Z.pos_sub Pos.add Pos.succ].
  rewrite V0, V1, V2. replace (- t - -1) with (1 - t) by lra. replace (1 - t - 0) with (1 - t) by lra. split; auto.
  rewrite cubic_weights by lra. nra.
Qed.
Print Assumptions C49_cubic_below_window_refuted.
