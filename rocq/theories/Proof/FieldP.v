From Coq Require Import ZArith List Bool Lia ZifyBool Sorting.Sorted.
From Verif Require Import Model.Base Model.FieldM Spec.VoxelSpec Proof.BaseP.
Import ListNotations.
Open Scope Z_scope.

(** * Iteration *)
Lemma row_chain b y z e :
  forall n x, x + Z.of_nat n = vx (bmax b) + 1 -> (0 < n)%nat ->
  it_next b (V3 (vx (bmax b)) y z) = e ->
  chain (it_next b) (V3 x y z) (map (fun x => V3 x y z) (zseq x n)) e.
Proof.
  induction n; intros x H P E; [lia|].
  simpl. split; auto. destruct n.
  - simpl. rewrite <- E. f_equal. f_equal. lia.
  - unfold it_next at 2; simpl. destruct (x =? vx (bmax b)) eqn:F; [lia|].
    apply IHn; auto; lia.
Qed.

Lemma slice_chain b z e : vx (bmin b) <= vx (bmax b) ->
  forall n y, y + Z.of_nat n = vy (bmax b) + 1 -> (0 < n)%nat ->
  it_next b (V3 (vx (bmax b)) (vy (bmax b)) z) = e ->
  chain (it_next b) (V3 (vx (bmin b)) y z) (flat_map (fun y => row b y z) (zseq y n)) e.
Proof.
  intros X. induction n; intros y H P E; [lia|].
  simpl. destruct n.
  - simpl. rewrite app_nil_r. unfold row. apply row_chain; try lia.
    rewrite <- E. f_equal. f_equal. lia.
  - eapply chain_app; [|apply IHn; auto; lia].
    unfold row. apply row_chain; try lia.
    unfold it_next; simpl. rewrite Z.eqb_refl.
    destruct (y =? vy (bmax b)) eqn:F; [lia|]. reflexivity.
Qed.

Lemma enum_chain b : box_nonempty b -> chain (it_next b) (bmin b) (enum b) (it_end b).
Proof.
  intros N. destruct N as (X & Y & Z0).
  cut (forall n z, z + Z.of_nat n = vz (bmax b) + 1 -> (0 < n)%nat ->
        chain (it_next b) (V3 (vx (bmin b)) (vy (bmin b)) z)
              (flat_map (slice b) (zseq z n)) (it_end b)).
  { intros C. unfold enum. specialize (C (Z.to_nat (vz (bmax b) - vz (bmin b) + 1)) (vz (bmin b))).
    destruct b as [[x y z] m]; simpl in *. apply C; lia. }
  induction n; intros z H P; [lia|].
  simpl. destruct n.
  - simpl. rewrite app_nil_r. unfold slice. apply slice_chain; try lia.
    unfold it_next, it_end; simpl. rewrite !Z.eqb_refl. f_equal. lia.
  - eapply chain_app; [|apply IHn; lia].
    unfold slice. apply slice_chain; try lia.
    unfold it_next; simpl. rewrite !Z.eqb_refl. reflexivity.
Qed.

Lemma iterate_chain b fuel :
  box_nonempty b -> (length (enum b) < fuel)%nat ->
  for_loop fuel (fun p => v3_eqb p (it_end b)) (it_next b) (bmin b) = Some (enum b).
Proof.
  intros N L. eapply for_loop_chain; eauto.
  - apply enum_chain; auto.
  - intros p I. apply v3_eqb_neq. intros ->. apply enum_In in I.
    unfold in_box, it_end in I; simpl in I. lia.
  - apply v3_eqb_refl.
Qed.

Lemma enum_empty b : ~ box_nonempty b -> enum b = [].
Proof.
  intros N. destruct (enum b) eqn:E; auto.
  exfalso. apply N. apply (in_box_nonempty v). apply enum_In. rewrite E. left; auto.
Qed.

Lemma iterate_sub_enum b fuel :
  (length (enum b) < fuel)%nat -> iterate_sub fuel b = Some (enum b).
Proof.
  intros L. unfold iterate_sub, it_begin_sub. destruct (box_empty b) eqn:E.
  - apply box_empty_true in E. rewrite (enum_empty _ E).
    destruct fuel; [lia|]. simpl. rewrite v3_eqb_refl. auto.
  - apply box_empty_false in E. apply iterate_chain; auto.
Qed.

Lemma iterate_enum b fuel :
  box_nonempty b \/ data_resolution b = V3 0 0 0 ->
  (length (enum b) < fuel)%nat -> iterate fuel b = Some (enum b).
Proof.
  intros H L. unfold iterate, it_begin. destruct (v3_eqb _ _) eqn:E.
  - apply v3_eqb_eq in E. rewrite enum_empty.
    + destruct fuel; [lia|]. simpl. rewrite v3_eqb_refl. auto.
    + unfold box_nonempty. unfold data_resolution, v3_add, v3_sub in E. simpl in E.
      inversion E. lia.
  - destruct H as [H|H]; [|rewrite H in E; discriminate].
    apply iterate_chain; auto.
Qed.

Lemma iterate_sub_visits b :
  exists l, visits_box l b /\
  forall fuel, box_count b < Z.of_nat fuel -> iterate_sub fuel b = Some l.
Proof.
  exists (enum b). split; [apply enum_visits|]. intros.
  apply iterate_sub_enum. rewrite <- enum_length in H. lia.
Qed.

Lemma iterate_visits b : box_nonempty b \/ data_resolution b = V3 0 0 0 ->
  exists l, visits_box l b /\
  forall fuel, box_count b < Z.of_nat fuel -> iterate fuel b = Some l.
Proof.
  intros N. exists (enum b). split; [apply enum_visits|]. intros.
  apply iterate_enum; auto. rewrite <- enum_length in H. lia.
Qed.

(** A data window empty on the x axis only: the loop never ends and its first
    position is not a voxel of the window. *)
Lemma iterate_one_axis_empty_diverges :
  let w := Box (V3 0 0 0) (V3 (-1) 0 0) in
  (forall p, ~ in_box p w) /\ it_begin w = V3 0 0 0 /\ (forall fuel, iterate fuel w = None).
Proof.
  intros w. split; [|split].
  - unfold in_box, w; simpl. lia.
  - reflexivity.
  - intros fuel. unfold iterate. change (it_begin w) with (V3 0 0 0).
    cut (forall n x, 0 <= x ->
       for_loop n (fun p => v3_eqb p (it_end w)) (it_next w) (V3 x 0 0) = None).
    { intros C. apply C. lia. }
    induction n; intros x X; auto. cbn [for_loop].
    assert (E : v3_eqb (V3 x 0 0) (it_end w) = false).
    { apply v3_eqb_neq. intros H. inversion H. }
    assert (F : it_next w (V3 x 0 0) = V3 (x + 1) 0 0).
    { unfold it_next; simpl. destruct (x =? -1) eqn:G; [lia|auto]. }
    rewrite E, F, IHn by lia. auto.
Qed.

(** [advance] lands on the n-th voxel. *)
Lemma chain_advance w l : forall s e n, chain (it_next w) s l e ->
  (n < length l)%nat -> nth_error l n = Some (it_advance w n s).
Proof.
  induction l; simpl; intros s e n C L; [lia|].
  destruct C as [-> C]. destruct n; simpl; auto. eapply IHl; eauto. lia.
Qed.
Lemma chain_advance_end w l : forall s e n, chain (it_next w) s l e ->
  (forall p, In p l -> p <> e) ->
  it_advance_end w n e s = match nth_error l n with Some p => p | None => e end.
Proof.
  induction l; simpl; intros s e n C N.
  - subst. destruct n; simpl; auto. rewrite v3_eqb_refl; auto.
  - destruct C as [-> C]. destruct n; simpl; auto.
    rewrite v3_eqb_neq by auto. eapply IHl; eauto.
Qed.

(** * Index arithmetic *)
Lemma linear_index_bound sx sy sz i j k :
  0 <= i < sx -> 0 <= j < sy -> 0 <= k < sz ->
  0 <= i + j * sx + k * (sx * sy) < sx * sy * sz.
Proof.
  intros Hi Hj Hk.
  assert (A : 0 <= j + sy * k <= sy * sz - 1) by nia.
  replace (i + j * sx + k * (sx * sy)) with (i + sx * (j + sy * k)) by ring.
  replace (sx * sy * sz) with (sx * (sy * sz)) by ring.
  set (u := j + sy * k) in *. set (t := sy * sz) in *. nia.
Qed.

Lemma linear_index_inj sx sy i j k i' j' k' :
  0 <= i < sx -> 0 <= j < sy -> 0 <= i' < sx -> 0 <= j' < sy ->
  i + j * sx + k * (sx * sy) = i' + j' * sx + k' * (sx * sy) ->
  i = i' /\ j = j' /\ k = k'.
Proof.
  intros Hi Hj Hi' Hj' E.
  assert (E2 : sx * (j + k * sy) + i = sx * (j' + k' * sy) + i') by lia.
  apply Z.div_mod_unique in E2; [|lia|lia].
  destruct E2 as [E2 ->].
  assert (E3 : sy * k + j = sy * k' + j') by lia.
  apply Z.div_mod_unique in E3; [|lia|lia]. lia.
Qed.

Lemma index_to_coord_spec rx ry rz i j k :
  0 <= i < rx -> 0 <= j < ry -> 0 <= k < rz ->
  index_to_coord (i + j * rx + k * (rx * ry)) (V3 rx ry rz) = Ok (V3 i j k).
Proof.
  intros. unfold index_to_coord; simpl.
  destruct ((rx =? 0) || (ry =? 0)) eqn:E; [lia|]. do 2 f_equal.
  - symmetry. apply Z.mod_unique with (j + k * ry); lia.
  - replace (i + j * rx + k * (rx * ry)) with (i + (j + k * ry) * rx) by lia.
    rewrite Z.div_add by lia. rewrite (Z.div_small i) by lia.
    symmetry. apply Z.mod_unique with k; lia.
  - symmetry. apply Z.div_unique with (i + j * rx); nia.
Qed.

Lemma index_to_coord_back rx ry rz idx :
  0 < rx -> 0 < ry -> 0 < rz -> 0 <= idx < rx * ry * rz ->
  exists i j k, index_to_coord idx (V3 rx ry rz) = Ok (V3 i j k) /\
    0 <= i < rx /\ 0 <= j < ry /\ 0 <= k < rz /\
    idx = i + j * rx + k * (rx * ry).
Proof.
  intros. unfold index_to_coord; simpl.
  destruct ((rx =? 0) || (ry =? 0)) eqn:E; [lia|].
  do 3 eexists. split; [reflexivity|].
  pose proof (Z.mod_pos_bound idx rx ltac:(lia)).
  pose proof (Z.mod_pos_bound (idx / rx) ry ltac:(lia)).
  pose proof (Z.div_mod idx rx ltac:(lia)).
  pose proof (Z.div_mod (idx / rx) ry ltac:(lia)).
  rewrite <- Z.div_div by lia.
  assert (0 <= idx / rx / ry < rz).
  { split.
    - apply Z.div_pos; [apply Z.div_pos|]; lia.
    - rewrite Z.div_div by lia. apply Z.div_lt_upper_bound; nia. }
  repeat split; lia.
Qed.

Lemma clip_bounds_spec b c p : in_box p (clip_bounds b c) <-> in_box p b /\ in_box p c.
Proof. unfold in_box, clip_bounds; simpl. lia. Qed.

Lemma size_pad_spec s pad p :
  in_box p (snd (size_pad s pad)) <->
  - pad <= vx p < vx s + pad /\ - pad <= vy p < vy s + pad /\ - pad <= vz p < vz s + pad.
Proof. unfold in_box, size_pad; simpl. lia. Qed.

Lemma is_in_bounds_spec dw i j k : is_in_bounds dw i j k = true <-> in_box (V3 i j k) dw.
Proof.
  unfold is_in_bounds, in_box; simpl.
  destruct (_ || _) eqn:E; split; intros; try discriminate; lia.
Qed.
