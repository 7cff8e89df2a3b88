(** Proofs about MAC fields. *)
From Coq Require Import ZArith Reals List Bool Lia Lra ZifyBool.
From Verif Require Import Model.Base Model.LoopM Model.FieldM Model.RealM Model.VecM Model.MatM Model.DenseM Model.InterpM Model.MacM
  Spec.VoxelSpec Spec.DenseSpec Spec.MacSpec Proof.BaseP Proof.LoopP Proof.FieldP Proof.DenseP.
Import ListNotations.
Open Scope Z_scope.

Lemma window_face dw c p : in_box p (component_window dw c) <-> is_face dw c p.
Proof. destruct c; unfold in_box, is_face; cbn; lia. Qed.
Lemma next_add c p : v3_add p (comp_axis c) = next c p.
Proof. destruct c, p; unfold v3_add, next; cbn; f_equal; lia. Qed.
Lemma prev_sub c p : v3_sub p (comp_axis c) = prev c p.
Proof. destruct c, p; unfold v3_sub, prev; cbn; f_equal; lia. Qed.
Lemma prev_next c p : prev c (next c p) = p.
Proof. destruct c, p; cbn; f_equal; lia. Qed.
Lemma part_coord c x : part c x = coord c x.
Proof. destruct c; reflexivity. Qed.
Lemma face_low dw c p : in_box p dw -> is_face dw c p.
Proof. destruct c; unfold in_box, is_face; lia. Qed.
Lemma face_high dw c p : in_box p dw -> is_face dw c (next c p).
Proof. destruct c; unfold in_box, is_face; cbn; lia. Qed.

Lemma face_dense m c p : face m c p = dense_value (view m c) p.
Proof. reflexivity. Qed.

Definition minv (m : mac) : Prop :=
  forall c, int_box (component_window (m_dw m) c) /\ (box_nonempty (component_window (m_dw m) c) -> shape (view m c)).
Lemma minv_shape m c p : minv m -> is_face (m_dw m) c p -> shape (view m c).
Proof. intros I F. apply window_face in F. apply I. eapply in_box_nonempty; eauto. Qed.

Lemma comp_set_same m c d : comp_of (set_comp m c d) c = d.
Proof. destruct c; reflexivity. Qed.
Lemma comp_set_other m c d e : e <> c -> comp_of (set_comp m c d) e = comp_of m e.
Proof. destruct c, e; intros H; try reflexivity; contradiction. Qed.
Lemma set_dw m c d : m_dw (set_comp m c d) = m_dw m.
Proof. destruct c; reflexivity. Qed.
Lemma set_ext m c d : m_ext (set_comp m c d) = m_ext m.
Proof. destruct c; reflexivity. Qed.
Lemma view_other m c d e : e <> c -> view (set_comp m c d) e = view m e.
Proof. intros H. unfold view. rewrite comp_set_other, set_dw, set_ext by auto. reflexivity. Qed.

Lemma face_ok m c p : minv m -> is_face (m_dw m) c p -> exists x, face m c p = Ok x.
Proof.
  intros I F. pose proof (minv_shape m c p I F) as S. apply window_face in F. rewrite face_dense, dense_value_lin by auto.
  destruct (dense_index_ok (view m c) p S F) as (_ & L). apply arr_get_ok. auto.
Qed.

Lemma set_face_ok m c p x : minv m -> is_face (m_dw m) c p ->
  exists m', set_face m c p x = Ok m' /\ minv m' /\ m_ext m' = m_ext m /\ m_dw m' = m_dw m /\
    face m' c p = Ok x /\ forall d q, is_face (m_dw m) d q -> (d, q) <> (c, p) -> face m' d q = face m d q.
Proof.
  intros I F. pose proof (minv_shape m c p I F) as S. assert (F' := F). apply window_face in F'.
  destruct (dense_write_ok (view m c) p x S F') as (d & W & SD & ED & WD & V & O).
  assert (E : set_face m c p x = let* d := dense_write (view m c) p x in
     Ok (set_comp m c (Comp (c_size (comp_of m c)) (c_xy (comp_of m c)) (d_data d)))).
  { unfold set_face, dense_write. change (comp_index m c p) with (dense_index (view m c) (vx p) (vy p) (vz p)).
    destruct (dense_index (view m c) (vx p) (vy p) (vz p)); auto. cbn [bind]. change (d_data (view m c)) with (c_data (comp_of m c)).
    destruct (arr_set _ _ _); reflexivity. }
  rewrite E, W. cbn [bind]. eexists. split; [reflexivity|].
  set (m' := set_comp m c _).
  assert (VW : view m' c = d).
  { unfold view, m'. rewrite comp_set_same, set_dw, set_ext. cbn [c_size c_xy c_data].
    unfold dense_write in W. apply bind_ok in W. destruct W as (ix & _ & W). apply bind_ok in W. destruct W as (dd & _ & W). injection W as <-. reflexivity. }
  assert (DW : m_dw m' = m_dw m) by apply set_dw.
  split; [|split; [apply set_ext|split; [auto|split]]].
  - intros e. rewrite DW. destruct (I e) as (IB & SH). split; [exact IB|]. intros N. destruct (comp_dec e c) as [->|NE].
    + rewrite VW. auto.
    + unfold m'. rewrite view_other by auto. apply I; auto.
  - rewrite face_dense, VW. auto.
  - intros e q Q NE. rewrite !face_dense. destruct (comp_dec e c) as [->|NC].
    + rewrite VW. apply O; [apply window_face; auto|congruence].
    + unfold m'. rewrite view_other by auto. reflexivity.
Qed.

Lemma clear_ok m x : minv m -> minv (mac_clear m x) /\
  forall c p, is_face (m_dw m) c p -> face (mac_clear m x) c p = Ok (coord c x).
Proof.
  intros I. assert (V : forall c, view (mac_clear m x) c = dense_clear (view m c) (coord c x)) by (intros []; reflexivity).
  split.
  - intros c. destruct (I c) as (IB & S). split; [exact IB|]. intros N. rewrite V. apply dense_clear_ok. auto.
  - intros c p F. rewrite face_dense, V. apply dense_clear_ok; [apply (minv_shape m c p); auto|apply window_face; auto].
Qed.

Lemma resize_length n l : length (resize n l) = n.
Proof. unfold resize. rewrite app_length, firstn_length, repeat_length. lia. Qed.

Lemma int_window_comp dw c : int_window dw -> int_box (component_window dw c).
Proof.
  intros (_ & U & V & W). unfold component_window. rewrite next_add. destruct c; auto.
Qed.
Lemma resize_comp_ok dw c old : int_window dw -> let base := V3 (vx (bmax dw) - vx (bmin dw) + 1) (vy (bmax dw) - vy (bmin dw) + 1) (vz (bmax dw) - vz (bmin dw) + 1) in
  0 <= vx base -> 0 <= vy base -> 0 <= vz base ->
  exists d, resize_comp base c old = Ok d /\ c_size d = data_resolution (component_window dw c) /\
    c_xy d = vx (c_size d) * vy (c_size d) /\ Z.of_nat (length (c_data d)) = vx (c_size d) * vy (c_size d) * vz (c_size d) /\
    c_data d = resize (length (c_data d)) (c_data old).
Proof.
  intros IW base X Y Z0. pose proof (int_window_comp dw c IW) as IB. int_box_facts IB.
  unfold resize_comp.
  assert (E : v3_add base (comp_axis c) = data_resolution (component_window dw c)).
  { unfold base, data_resolution, component_window, v3_add, v3_sub. cbn [bmin bmax vx vy vz]. f_equal; lia. }
  rewrite E. set (s := data_resolution (component_window dw c)) in *.
  assert (SX : vx s = vx (bmax (component_window dw c)) - vx (bmin (component_window dw c)) + 1) by reflexivity.
  assert (SY : vy s = vy (bmax (component_window dw c)) - vy (bmin (component_window dw c)) + 1) by reflexivity.
  assert (SZ : vz s = vz (bmax (component_window dw c)) - vz (bmin (component_window dw c)) + 1) by reflexivity.
  rewrite <- SX, <- SY in *. rewrite <- SZ in *.
  assert (PX : 0 <= vx s) by (rewrite <- E; destruct c; cbn in *; lia).
  assert (PY : 0 <= vy s) by (rewrite <- E; destruct c; cbn in *; lia).
  assert (PZ : 0 <= vz s) by (rewrite <- E; destruct c; cbn in *; lia).
  assert (0 <= vx s * vy s * vz s) by (repeat apply Z.mul_nonneg_nonneg; auto).
  do 5 (rewrite i32_ok by (unfold int_min, int_max; lia); cbn [bind]).
  eexists. split; [reflexivity|]. cbn [c_size c_xy c_data]. split; [auto|]. split; [auto|]. rewrite resize_length. split; [lia|auto].
Qed.

Lemma set_size_ok e dw m : int_window dw -> exists m' t, mac_set_size e dw m = Ok (m', t) /\ minv m' /\
  m_ext m' = e /\ m_dw m' = dw /\
  (t = true <-> (vx (bmax dw) - vx (bmin dw) + 1 < 0 \/ vy (bmax dw) - vy (bmin dw) + 1 < 0 \/ vz (bmax dw) - vz (bmin dw) + 1 < 0)) /\
  (t = false -> forall c, c_data (comp_of m' c) = resize (length (c_data (comp_of m' c))) (c_data (comp_of m c))).
Proof.
  intros IW. assert (IB := proj1 IW). int_box_facts IB. unfold mac_set_size.
  do 3 (rewrite i32_ok by (unfold int_min, int_max; lia); cbn [bind]).
  destruct (Z.ltb_spec (Z.min (Z.min (vx (bmax dw) - vx (bmin dw) + 1) (vy (bmax dw) - vy (bmin dw) + 1)) (vz (bmax dw) - vz (bmin dw) + 1)) 0) as [L|L].
  - do 2 eexists. split; [reflexivity|]. cbn [m_ext m_dw]. split; [|split; [auto|split; [auto|split; [split; intros; [lia|auto]|discriminate]]]].
    intros c. cbn [m_dw]. split; [apply int_window_comp; auto|]. intros (NX & NY & NZ). exfalso. destruct c; cbn in NX, NY, NZ; lia.
  - assert (PX : 0 <= vx (bmax dw) - vx (bmin dw) + 1) by lia. assert (PY : 0 <= vy (bmax dw) - vy (bmin dw) + 1) by lia. assert (PZ : 0 <= vz (bmax dw) - vz (bmin dw) + 1) by lia.
    destruct (resize_comp_ok dw CompU (m_u m) IW PX PY PZ) as (u & -> & U1 & U2 & U3 & U4).
    destruct (resize_comp_ok dw CompV (m_v m) IW PX PY PZ) as (v & -> & V1 & V2 & V3' & V4).
    destruct (resize_comp_ok dw CompW (m_w m) IW PX PY PZ) as (w & -> & W1 & W2 & W3 & W4). cbn [bind].
    do 2 eexists. split; [reflexivity|]. cbn [m_ext m_dw]. split; [|split; [auto|split; [auto|split; [split; intros; [discriminate|cbn in *; lia]|]]]].
    + intros c. cbn [m_dw]. split; [apply int_window_comp; auto|]. intros _.
      destruct c; constructor; cbn [d_dw d_mem d_memXY d_data view comp_of m_u m_v m_w m_dw]; auto; apply int_window_comp; auto.
    + intros _ []; cbn [comp_of m_u m_v m_w]; auto.
Qed.

Lemma write_ok m p x : minv m -> in_box p (m_dw m) ->
  exists a, mac_value m p = Ok a /\ mac_write m p x = Ok (Mac (m_ext m) (m_dw m) (m_u m) (m_v m) (m_w m) x) /\
  forall c, exists l h, face m c p = Ok l /\ face m c (next c p) = Ok h /\ coord c a = ((l + h) / 2)%R.
Proof.
  intros I B. assert (F : forall c, exists l h, face m c p = Ok l /\ face m c (next c p) = Ok h).
  { intros c. destruct (face_ok m c p I (face_low _ c p B)) as (l & L). destruct (face_ok m c (next c p) I (face_high _ c p B)) as (h & H). eauto. }
  assert (C : forall c, exists l h, face m c p = Ok l /\ face m c (next c p) = Ok h /\ center m c p = Ok ((l + h) * (1 / 2))%R).
  { intros c. destruct (F c) as (l & h & L & H). exists l, h. split; [auto|]. split; [auto|]. unfold center. rewrite L, next_add, H. reflexivity. }
  destruct (C CompU) as (l1 & h1 & L1 & H1 & E1). destruct (C CompV) as (l2 & h2 & L2 & H2 & E2). destruct (C CompW) as (l3 & h3 & L3 & H3 & E3).
  assert (V : mac_value m p = Ok (R3 ((l1 + h1) * (1 / 2)) ((l2 + h2) * (1 / 2)) ((l3 + h3) * (1 / 2)))%R).
  { unfold mac_value. rewrite E1, E2, E3. reflexivity. }
  eexists. split; [exact V|]. split; [unfold mac_write; rewrite V; reflexivity|].
  intros []; [exists l1, h1|exists l2, h2|exists l3, h3]; (split; [auto|split; [auto|cbn; field]]).
Qed.

(** * Histories *)
Record mrefines (m : mac) (a : macmap) : Prop := {
  mr_inv : minv m; mr_ext : m_ext m = mm_ext a; mr_dw : m_dw m = mm_dw a;
  mr_face : forall c p x, is_face (mm_dw a) c p -> mm_face a c p = Some x -> face m c p = Ok x }.
Lemma mrefines_init : mrefines mac_init mspec_init.
Proof.
  constructor; auto; [|discriminate]. intros c. split.
  - destruct c; solve_int_box.
  - intros (A & B & C). exfalso. destruct c; cbn in *; lia.
Qed.
Lemma mrefines_step m a o : mrefines m a -> mlegal a [o] -> exists m', mac_step m o = Ok m' /\ mrefines m' (mspec_step a o).
Proof.
  intros [I E W F] (L & _). destruct o as [e dw|x|c p x|p x]; cbn [mac_step mspec_step].
  - destruct (set_size_ok e dw m L) as (m' & t & -> & I' & E' & W' & _). cbn [bind]. exists m'. split; auto. constructor; auto. discriminate.
  - destruct (clear_ok m x I) as (I' & F'). eexists. split; [reflexivity|]. constructor; auto. intros c p y FP H. cbn in H. injection H as <-.
    apply F'. rewrite W. auto.
  - rewrite <- W in L. destruct (set_face_ok m c p x I L) as (m' & -> & I' & E' & W' & S & O). exists m'. split; auto.
    constructor; cbn [mm_ext mm_dw mm_face]; auto; try congruence. intros d q y FP H. rewrite <- W in FP.
    destruct (comp_dec d c) as [->|ND]; [destruct (v3_dec q p) as [->|NQ]|].
    + injection H as <-. auto.
    + rewrite O; [|auto|congruence]. apply F; auto. rewrite <- W. auto.
    + rewrite O; [|auto|congruence]. apply F; auto. rewrite <- W. auto.
  - rewrite <- W in L. destruct (write_ok m p x I L) as (v & _ & -> & _). eexists. split; [reflexivity|]. constructor; auto.
Qed.
Lemma mrefines_run l : forall m a, mrefines m a -> mlegal a l -> exists m', mac_run m l = Ok m' /\ mrefines m' (mspec_run a l).
Proof.
  induction l as [|o l IH]; intros m a R L.
  - exists m. auto.
  - destruct L as (L1 & L2). destruct (mrefines_step m a o R) as (m1 & E1 & R1); [split; cbn; auto|].
    destruct (IH m1 _ R1 L2) as (m2 & E2 & R2). exists m2. split; auto. cbn [mac_run]. rewrite E1. auto.
Qed.

(** * Iterators *)
Lemma comp_iterate_sub_ok m c s fuel : minv m -> box_nonempty s -> sub_box s (m_dw m) -> box_count (component_window s c) < Z.of_nat fuel ->
  exists its, comp_iterate_sub fuel m c s = Some (Ok its) /\ map di_pos its = enum (component_window s c) /\
    Forall (good_it (view m c) (component_window s c)) its.
Proof.
  intros I N S L. assert (B : in_box (bmin s) s) by (apply in_box_min; auto).
  assert (H : in_box (bmax s) s) by (unfold in_box, box_nonempty in *; lia).
  assert (SW : sub_box (component_window s c) (component_window (m_dw m) c)).
  { apply S in B. apply S in H. unfold sub_box, in_box in *. intros p P. destruct c; cbn in *; lia. }
  assert (NW : box_nonempty (component_window s c)) by (unfold box_nonempty in *; destruct c; cbn; lia).
  assert (SH : shape (view m c)). { apply I. eapply in_box_nonempty. apply SW. apply in_box_min. auto. }
  destruct (dense_iterate_sub_ok (view m c) (component_window s c) fuel SH NW SW L) as (its & E & R). exists its. split; auto.
  rewrite <- E. unfold comp_iterate_sub, dense_iterate_sub, comp_begin_sub, diter_begin_sub, comp_end_sub, diter_end_sub.
  rewrite (proj2 (box_empty_false s) N), (proj2 (box_empty_false _) NW). reflexivity.
Qed.
Lemma comp_iterate_ok m c fuel : minv m -> box_nonempty (m_dw m) -> box_count (component_window (m_dw m) c) < Z.of_nat fuel ->
  exists its, comp_iterate fuel m c = Some (Ok its) /\ map di_pos its = enum (component_window (m_dw m) c) /\
    Forall (good_it (view m c) (component_window (m_dw m) c)) its.
Proof.
  intros I N L. destruct (comp_iterate_sub_ok m c (m_dw m) fuel I N (fun p H => H) L) as (its & E & R). exists its. split; auto.
  rewrite <- E. unfold comp_iterate, comp_iterate_sub, comp_begin, comp_begin_sub. rewrite (proj2 (box_empty_false _) N).
  destruct (v3_eqb (data_resolution (m_dw m)) (V3 0 0 0)) eqn:F; auto.
  apply v3_eqb_eq in F. unfold data_resolution, v3_add, v3_sub in F. injection F as F1 F2 F3. unfold box_nonempty in N. cbn in *. lia.
Qed.

(** * Copy *)
Lemma copy_comp_ok src dst : length (c_data src) = length (c_data dst) ->
  copy_comp src dst = Ok (Comp (c_size dst) (c_xy dst) (c_data src)).
Proof.
  intros L. unfold copy_comp, copy_into. rewrite (proj2 (Nat.leb_le _ _)) by lia. cbn [bind].
  rewrite L, skipn_all, app_nil_r. reflexivity.
Qed.
Lemma copy_ok m o : minv o -> int_window (m_dw o) ->
  vx (bmin (m_dw o)) <= vx (bmax (m_dw o)) + 1 -> vy (bmin (m_dw o)) <= vy (bmax (m_dw o)) + 1 -> vz (bmin (m_dw o)) <= vz (bmax (m_dw o)) + 1 ->
  (forall c, Z.of_nat (length (c_data (comp_of o c))) = let s := data_resolution (component_window (m_dw o) c) in vx s * vy s * vz s) ->
  exists m', copy_mac m o = Ok m' /\ minv m' /\ m_ext m' = m_ext o /\ m_dw m' = m_dw o /\
    forall c p, is_face (m_dw o) c p -> face m' c p = face o c p.
Proof.
  intros I IW X Y Z0 LN. unfold copy_mac. destruct (set_size_ok (m_ext o) (m_dw o) m IW) as (m1 & t & E & I1 & E1 & W1 & T & _).
  assert (E' := E). unfold mac_set_size in E'. assert (IB := proj1 IW). int_box_facts IB.
  do 3 (rewrite i32_ok in E' by (unfold int_min, int_max; lia); cbn [bind] in E').
  destruct (Z.ltb_spec (Z.min (Z.min (vx (bmax (m_dw o)) - vx (bmin (m_dw o)) + 1) (vy (bmax (m_dw o)) - vy (bmin (m_dw o)) + 1)) (vz (bmax (m_dw o)) - vz (bmin (m_dw o)) + 1)) 0) as [L|_]; [lia|].
  revert E'. assert (PX : 0 <= vx (bmax (m_dw o)) - vx (bmin (m_dw o)) + 1) by lia. assert (PY : 0 <= vy (bmax (m_dw o)) - vy (bmin (m_dw o)) + 1) by lia. assert (PZ : 0 <= vz (bmax (m_dw o)) - vz (bmin (m_dw o)) + 1) by lia.
  destruct (resize_comp_ok (m_dw o) CompU (m_u m) IW PX PY PZ) as (u & -> & U1 & U2 & U3 & _).
  destruct (resize_comp_ok (m_dw o) CompV (m_v m) IW PX PY PZ) as (v & -> & V1 & V2 & V3' & _).
  destruct (resize_comp_ok (m_dw o) CompW (m_w m) IW PX PY PZ) as (w & -> & W1' & W2 & W3 & _). cbn [bind]. intros E'. injection E' as <- <-.
  rewrite E. cbn [bind m_u m_v m_w m_ext m_dw m_dummy]. pose proof (LN CompU) as LU. pose proof (LN CompV) as LV. pose proof (LN CompW) as LW.
  cbv zeta in LU, LV, LW. rewrite <- U1 in LU. rewrite <- V1 in LV. rewrite <- W1' in LW. cbn [comp_of] in LU, LV, LW.
  rewrite !copy_comp_ok by lia. cbn [bind]. eexists. split; [reflexivity|]. cbn [m_ext m_dw].
  assert (SHP : forall c, box_nonempty (component_window (m_dw o) c) ->
    view (Mac (m_ext o) (m_dw o) (Comp (c_size u) (c_xy u) (c_data (m_u o))) (Comp (c_size v) (c_xy v) (c_data (m_v o))) (Comp (c_size w) (c_xy w) (c_data (m_w o))) (m_dummy m)) c = view o c).
  { intros c N. destruct (I c) as (_ & S). destruct (S N) as [_ M' XY _]. unfold view in *. cbn [d_mem d_memXY d_dw m_dw m_ext] in *.
    destruct c; cbn [comp_of m_u m_v m_w c_size c_xy c_data] in *; f_equal; congruence. }
  split; [|split; [auto|split; [auto|]]].
  - intros c. cbn [m_dw]. split; [apply int_window_comp; auto|]. intros N. rewrite SHP by auto. apply I. auto.
  - intros c p F. rewrite !face_dense, SHP; auto. apply window_face in F. eapply in_box_nonempty; eauto.
Qed.
