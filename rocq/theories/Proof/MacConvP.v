(** Proofs about the conversions between MAC and cell-centred fields. *)
From Coq Require Import ZArith Reals List Bool Lia Lra ZifyBool.
From Verif Require Import Model.Base Model.LoopM Model.FieldM Model.RealM Model.VecM Model.MatM Model.DenseM Model.MacM
  Spec.VoxelSpec Spec.MacSpec Proof.BaseP Proof.LoopP Proof.RealP Proof.DenseP Proof.MacP.
Import ListNotations.
Open Scope Z_scope.

(** * Filling a dense field *)
Lemma fill_ok (body : v3 -> dense r3 -> res (dense r3)) (g : v3 -> r3) e dw d0 :
  shape d0 -> d_ext d0 = e -> d_dw d0 = dw ->
  (forall p d, in_box p dw -> body p d = dense_write d p (g p)) ->
  exists d, each body (box_voxels dw) d0 = Ok d /\ shape d /\ d_ext d = e /\ d_dw d = dw /\
    forall p, in_box p dw -> dense_value d p = Ok (g p).
Proof.
  intros S X W B.
  destruct (each_inv body (fun done d => shape d /\ d_ext d = e /\ d_dw d = dw /\ forall p, In p done -> in_box p dw -> dense_value d p = Ok (g p))
    (box_voxels dw) [] d0) as (d & E & SD & XD & WD & V).
  - split; [auto|]. split; [auto|]. split; [auto|]. intros p [].
  - intros done p t d Q (SD & XD & WD & V). cbn in Q.
    assert (P : in_box p dw) by (apply voxels_in; rewrite Q; apply in_app_iff; right; left; auto).
    rewrite B by auto. assert (P' := P). rewrite <- WD in P'. destruct (dense_write_ok d p (g p) SD P') as (d' & E & S' & X' & W' & VP & VO).
    exists d'. split; auto. split; [auto|]. split; [congruence|]. split; [congruence|]. intros q I IB.
    destruct (v3_dec q p) as [->|N]; auto. rewrite VO; [|congruence|auto]. apply V; auto. apply in_app_iff in I as [I|[I|[]]]; auto. congruence.
  - exists d. split; auto. split; [auto|]. split; [auto|]. split; [auto|]. intros p P. apply V; auto. apply voxels_in. auto.
Qed.

(** * Rotations *)
Definition rotate3 (r x : r3) : r3 :=
  let m := rotation r in
  (R3 (rx x * e0 (row0 m) + ry x * e0 (row1 m) + rz x * e0 (row2 m))
      (rx x * e1 (row0 m) + ry x * e1 (row1 m) + rz x * e1 (row2 m))
      (rx x * e2 (row0 m) + ry x * e2 (row1 m) + rz x * e2 (row2 m)))%R.
Lemma mult_rotation r x : mult_vec (rotation r) x = Some (rotate3 r x).
Proof.
  unfold mult_vec. set (w := e3 _). assert (W : w = 1%R) by (unfold w, rowmul, rotation; cbn [e0 e1 e2 e3 row0 row1 row2 row3]; ring).
  rewrite W. destruct (reqb_spec 1 0) as [H|_]; [exfalso; lra|]. unfold rotate3, rowmul.
  do 2 f_equal; cbn [e0 e1 e2 e3]; replace (e0 (row3 (rotation r))) with 0%R by reflexivity; replace (e1 (row3 (rotation r))) with 0%R by reflexivity;
    replace (e2 (row3 (rotation r))) with 0%R by reflexivity; field.
Qed.
Lemma times_rotation r x : times x (rotation r) = Ok (rotate3 r x).
Proof. unfold times. rewrite mult_rotation. reflexivity. Qed.

Definition turn_back (rot : option r3) (x : r3) : r3 := match rot with Some r => rotate3 (neg3 r) x | None => x end.
Definition turn (rot : option r3) (x : r3) : r3 :=
  match rot with
  | Some r => if rltb flt_epsilon (rx r * rx r + ry r * ry r + rz r * rz r) then rotate3 r x else x
  | None => x
  end.

Lemma rotated_ok rot cc (val : v3 -> r3) : shape cc -> box_nonempty (d_dw cc) ->
  (forall p, in_box p (d_dw cc) -> dense_value cc p = Ok (val p)) ->
  exists src, rotated rot cc = Ok src /\ forall p, in_box p (d_dw cc) -> dense_value src p = Ok (turn_back rot (val p)).
Proof.
  intros S N V. destruct rot as [r|]; cbn [rotated turn_back]; [|eauto].
  destruct (dense_set_size_ok (R3 0 0 0) (d_ext cc) (d_dw cc) dense_init (sh_int _ S)) as (d & t & -> & SD & XD & WD & T & _).
  cbn [bind]. destruct t; [exfalso; apply (proj1 T); auto|].
  destruct (fill_ok (fun p d => let* x := dense_value cc p in let* y := times x (rotation (neg3 r)) in dense_write d p y)
    (fun p => rotate3 (neg3 r) (val p)) (d_ext cc) (d_dw cc) d SD XD WD) as (src & E & _ & _ & _ & F).
  - intros p d' P. rewrite V by auto. cbn [bind]. rewrite times_rotation. reflexivity.
  - eauto.
Qed.

(** * Setting the faces *)
Section Faces.
Variables (e dw : box) (val : v3 -> r3) (src : dense r3).
Hypothesis SRC : forall p, in_box p dw -> dense_value src p = Ok (val p).
Hypothesis NE : box_nonempty dw.

Definition target (c : component) (p : v3) : R :=
  if box_has dw p then if box_has dw (prev c p) then ((coord c (val p) + coord c (val (prev c p))) * (1 / 2))%R else coord c (val p)
  else coord c (val (prev c p)).
Definition good (D : component -> v3 -> Prop) (m : mac) : Prop :=
  minv m /\ m_ext m = e /\ m_dw m = dw /\ forall c p, is_face dw c p -> D c p -> face m c p = Ok (target c p).

Lemma good_set D m c p : good D m -> is_face dw c p ->
  exists m', set_face m c p (target c p) = Ok m' /\ good (fun d q => D d q \/ (d = c /\ q = p)) m'.
Proof.
  intros (I & X & W & F) P. rewrite <- W in P. destruct (set_face_ok m c p (target c p) I P) as (m' & E & I' & X' & W' & V & O).
  exists m'. split; auto. split; [auto|]. split; [congruence|]. split; [congruence|]. intros d q Q H. rewrite W in *.
  destruct (comp_dec d c) as [->|ND]; [destruct (v3_dec q p) as [->|NQ]|]; auto; (rewrite O; [|auto|congruence]); apply F; auto; destruct H as [H|(? & ?)]; auto; contradiction.
Qed.
Lemma good_weaken (D D' : component -> v3 -> Prop) m : good D m -> (forall c p, D' c p -> D c p) -> good D' m.
Proof. intros (I & X & W & F) H. split; [auto|]. split; [auto|]. split; auto. Qed.

Lemma low_end_in c p : in_box p (low_end dw c) -> in_box p dw /\ ~ in_box (prev c p) dw.
Proof. destruct NE as (A & B & C). destruct c; unfold in_box, low_end; cbn; intros H; split; lia. Qed.
Lemma to_high_in c p : in_box p (low_end dw c) -> in_box (to_high dw c p) dw /\ ~ in_box (next c (to_high dw c p)) dw.
Proof. destruct NE as (A & B & C). destruct c; unfold in_box, low_end; cbn; intros H; split; lia. Qed.

Lemma set_ends_ok D c m : good D m ->
  exists m', set_ends src c m = Ok m' /\
    good (fun d q => D d q \/ (d = c /\ exists p, in_box p (low_end dw c) /\ (q = p \/ q = next c (to_high dw c p)))) m'.
Proof.
  intros G. unfold set_ends. assert (W : m_dw m = dw) by apply G. rewrite W.
  match goal with |- context [each ?f _ _] => set (body := f) end.
  destruct (each_inv body (fun done m => good (fun d q => D d q \/ (d = c /\ exists p, In p done /\ (q = p \/ q = next c (to_high dw c p)))) m)
    (box_voxels (low_end dw c)) [] m) as (m' & E & G').
  - eapply good_weaken; [exact G|]. cbn. intros d q [H|(_ & p & [] & _)]. auto.
  - intros done p t m1 Q G1. cbn in Q.
    assert (P : in_box p (low_end dw c)) by (apply voxels_in; rewrite Q; apply in_app_iff; right; left; auto).
    destruct (low_end_in c p P) as (P1 & P2). destruct (to_high_in c p P) as (H1 & H2). unfold body. assert (W1 : m_dw m1 = dw) by apply G1.
    rewrite SRC by auto. cbn [bind]. rewrite part_coord. assert (T1 : coord c (val p) = target c p).
    { unfold target. rewrite (proj2 (box_has_iff dw p) P1), (proj2 (box_has_false dw (prev c p)) P2). auto. }
    rewrite T1. destruct (good_set _ m1 c p G1 (face_low _ c p P1)) as (m2 & -> & G2). cbn [bind]. rewrite W1, SRC by auto. cbn [bind].
    rewrite part_coord, next_add. assert (T2 : coord c (val (to_high dw c p)) = target c (next c (to_high dw c p))).
    { unfold target. rewrite (proj2 (box_has_false dw _) H2), prev_next. auto. }
    rewrite T2. destruct (good_set _ m2 c _ G2 (face_high _ c _ H1)) as (m3 & -> & G3). exists m3. split; auto.
    eapply good_weaken; [exact G3|]. cbn beta. intros d q [H|(-> & p' & I & H)]; [auto|].
    apply in_app_iff in I as [I|[->|[]]]; [left; left; right; eauto|]. destruct H as [->| ->]; auto.
  - exists m'. split; [exact E|]. eapply good_weaken; [exact G'|]. cbn beta. intros d q [H|(-> & p & I & H)]; [auto|]. right. split; auto.
    exists p. split; auto. cbn. apply voxels_in. auto.
Qed.

Lemma set_inner_ok D c m : good D m ->
  exists m', set_inner src c m = Ok m' /\ good (fun d q => D d q \/ (d = c /\ in_box q dw /\ in_box (prev c q) dw)) m'.
Proof.
  intros G. unfold set_inner. assert (W : m_dw m = dw) by apply G. rewrite W, next_add.
  match goal with |- context [each ?f _ _] => set (body := f) end. set (b := Box (next c (bmin dw)) (bmax dw)).
  assert (IN : forall p, in_box p b <-> in_box p dw /\ in_box (prev c p) dw).
  { intros p. unfold b, in_box. destruct c; cbn; lia. }
  destruct (each_inv body (fun done m => good (fun d q => D d q \/ (d = c /\ In q done)) m) (box_voxels b) [] m) as (m' & E & G').
  - eapply good_weaken; [exact G|]. cbn. intros d q [H|(_ & [])]. auto.
  - intros done p t m1 Q G1. cbn in Q.
    assert (P : in_box p b) by (apply voxels_in; rewrite Q; apply in_app_iff; right; left; auto). apply IN in P as (P1 & P2).
    unfold body. rewrite SRC by auto. cbn [bind]. rewrite prev_sub, SRC by auto. cbn [bind]. rewrite (part_coord c (val p)), (part_coord c (val (prev c p))).
    assert (T : ((coord c (val p) + coord c (val (prev c p))) * (1 / 2))%R = target c p).
    { unfold target. rewrite (proj2 (box_has_iff dw p) P1), (proj2 (box_has_iff dw (prev c p)) P2). auto. }
    rewrite T. destruct (good_set _ m1 c p G1 (face_low _ c p P1)) as (m2 & -> & G2). exists m2. split; auto.
    eapply good_weaken; [exact G2|]. cbn beta. intros d q [H|(-> & I)]; [auto|]. apply in_app_iff in I as [I|[->|[]]]; auto.
  - exists m'. split; [exact E|]. eapply good_weaken; [exact G'|]. cbn beta. intros d q [H|(-> & I)]; [auto|]. right. split; auto.
    cbn. apply voxels_in, IN. auto.
Qed.

Lemma target_from_cells c p : is_face dw c p -> from_cells dw val c p (target c p).
Proof.
  intros F. unfold from_cells, target. split; [|split].
  - intros A B. rewrite (proj2 (box_has_iff dw p) A), (proj2 (box_has_iff dw _) B). field.
  - intros A B. rewrite (proj2 (box_has_iff dw p) A), (proj2 (box_has_false dw _) B). auto.
  - intros A. rewrite (proj2 (box_has_false dw p) A). auto.
Qed.

Lemma faces_ok m : good (fun _ _ => False) m ->
  exists m', (let* m1 := set_ends src CompU m in let* m2 := set_ends src CompV m1 in let* m3 := set_ends src CompW m2 in
              let* m4 := set_inner src CompU m3 in let* m5 := set_inner src CompV m4 in set_inner src CompW m5) = Ok m' /\
    good (fun _ _ => True) m'.
Proof.
  intros G. destruct (set_ends_ok _ CompU m G) as (m1 & -> & G1). cbn [bind]. destruct (set_ends_ok _ CompV m1 G1) as (m2 & -> & G2). cbn [bind].
  destruct (set_ends_ok _ CompW m2 G2) as (m3 & -> & G3). cbn [bind]. destruct (set_inner_ok _ CompU m3 G3) as (m4 & -> & G4). cbn [bind].
  destruct (set_inner_ok _ CompV m4 G4) as (m5 & -> & G5). cbn [bind]. destruct (set_inner_ok _ CompW m5 G5) as (m6 & -> & G6).
  exists m6. split; auto. destruct G6 as (I & X & W & F). split; [auto|]. split; [auto|]. split; [auto|]. intros c p P _. apply F; auto.
  assert (K : (in_box p dw /\ in_box (prev c p) dw) \/ exists q, in_box q (low_end dw c) /\ (p = q \/ p = next c (to_high dw c q))).
  { destruct (box_has dw p) eqn:B; [apply box_has_iff in B|apply box_has_false in B].
    - destruct (box_has dw (prev c p)) eqn:B2; [apply box_has_iff in B2; auto|apply box_has_false in B2]. right. exists p. split; auto.
      destruct c; unfold in_box, low_end in *; cbn in *; lia.
    - right. destruct NE as (NX & NY & NZ). destruct c; unfold in_box, is_face in *; cbn in *.
      + exists (V3 (vx (bmin dw)) (vy p) (vz p)). cbn. split; [lia|]. right. destruct p; cbn in *. f_equal. lia.
      + exists (V3 (vx p) (vy (bmin dw)) (vz p)). cbn. split; [lia|]. right. destruct p; cbn in *. f_equal. lia.
      + exists (V3 (vx p) (vy p) (vz (bmin dw))). cbn. split; [lia|]. right. destruct p; cbn in *. f_equal. lia. }
  destruct c, K as [K|K]; tauto.
Qed.
End Faces.

Lemma cells_to_mac_ok rot cc m (val : v3 -> r3) : shape cc -> box_nonempty (d_dw cc) -> int_window (d_dw cc) -> minv m ->
  (forall p, in_box p (d_dw cc) -> dense_value cc p = Ok (val p)) ->
  exists m', cells_to_mac rot cc m = Ok m' /\ minv m' /\ m_ext m' = d_ext cc /\ m_dw m' = d_dw cc /\
    forall c p, is_face (d_dw cc) c p -> face m' c p = Ok (target (d_dw cc) (fun p => turn_back rot (val p)) c p).
Proof.
  intros S N IW I V. destruct (rotated_ok rot cc val S N V) as (src & RS & SV). unfold cells_to_mac.
  match goal with |- context [bind ?r _] => assert (M0 : exists m0, r = Ok m0 /\ minv m0 /\ m_ext m0 = d_ext cc /\ m_dw m0 = d_dw cc) end.
  { destruct (box_eqb (m_ext m) (d_ext cc) && box_eqb (m_dw m) (d_dw cc)) eqn:B.
    - apply andb_true_iff in B as (B1 & B2). apply box_eqb_eq in B1, B2. exists m. auto.
    - destruct (set_size_ok (d_ext cc) (d_dw cc) m IW) as (m1 & t & -> & I1 & X1 & W1 & T & _). cbn [bind]. destruct t; [|exists m1; auto].
      destruct (proj1 T eq_refl) as [L|[L|L]]; unfold box_nonempty in N; lia. }
  destruct M0 as (m0 & -> & I0 & X0 & W0). cbn [bind]. rewrite RS. cbn [bind].
  destruct (faces_ok (d_ext cc) (d_dw cc) (fun p => turn_back rot (val p)) src SV N m0) as (m' & -> & I' & X' & W' & F).
  - split; [auto|]. split; [auto|]. split; [auto|]. contradiction.
  - exists m'. split; [auto|]. split; [auto|]. split; [auto|]. split; auto.
Qed.

Lemma mac_to_cells_ok rot m cc (val : v3 -> r3) : shape cc -> int_box (m_dw m) -> box_nonempty (m_dw m) ->
  (forall p, in_box p (m_dw m) -> mac_value m p = Ok (val p)) ->
  exists cc', mac_to_cells rot m cc = Ok cc' /\ shape cc' /\ d_ext cc' = m_ext m /\ d_dw cc' = m_dw m /\
    forall p, in_box p (m_dw m) -> dense_value cc' p = Ok (turn rot (val p)).
Proof.
  intros S IB N V. unfold mac_to_cells.
  match goal with |- context [bind ?r _] => assert (M0 : exists d0, r = Ok d0 /\ shape d0 /\ d_ext d0 = m_ext m /\ d_dw d0 = m_dw m) end.
  { destruct (box_eqb (d_ext cc) (m_ext m) && box_eqb (d_dw cc) (m_dw m)) eqn:B.
    - apply andb_true_iff in B as (B1 & B2). apply box_eqb_eq in B1, B2. exists cc. auto.
    - destruct (dense_set_size_ok (R3 0 0 0) (m_ext m) (m_dw m) cc IB) as (d & t & -> & SD & XD & WD & T & _). cbn [bind].
      destruct t; [|exists d; auto]. exfalso. apply (proj1 T); auto. }
  destruct M0 as (d0 & -> & S0 & X0 & W0). cbn [bind]. rewrite W0. apply fill_ok; auto.
  intros p d P. rewrite V by auto. cbn [bind]. destruct rot as [r|]; cbn [turn]; [|reflexivity].
  destruct (rltb _ _); [rewrite times_rotation|]; reflexivity.
Qed.
