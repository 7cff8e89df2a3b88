From Coq Require Import ZArith List Bool Lia ZifyBool.
From Verif Require Import Model.Base Model.FieldM Model.SparseM Spec.VoxelSpec Spec.SparseSpec
  Proof.BaseP Proof.FieldP Proof.DenseP.
Import ListNotations.
Open Scope Z_scope.

(** * Arithmetic *)
Lemma pow2_pos o : 0 <= o -> 0 < 2 ^ o.
Proof. intros. apply Z.pow_pos_nonneg; lia. Qed.

Lemma shiftr_div x o : 0 <= o -> Z.shiftr x o = x / 2 ^ o.
Proof. apply Z.shiftr_div_pow2. Qed.

Lemma mask_mod x o : 0 <= o -> Z.land x (Z.shiftl 1 o - 1) = x mod 2 ^ o.
Proof.
  intros. rewrite Z.shiftl_1_l. rewrite <- Z.land_ones by lia.
  rewrite Z.ones_equiv. reflexivity.
Qed.

Lemma float_of_int_small z : 0 <= z <= 2 ^ 24 -> float_of_int z = z.
Proof.
  intros H. unfold float_of_int.
  destruct (Z.eq_dec z (2 ^ 24)) as [->|N]; [reflexivity|].
  assert (Z.log2 z - 23 <= 0).
  { destruct (Z.eq_dec z 0) as [->|]; [simpl; lia|].
    assert (Z.log2 z < 24) by (apply Z.log2_lt_pow2; lia). lia. }
  replace (_ <=? 0) with true by lia. auto.
Qed.

Lemma blocks_along_pos o r : 0 <= o -> 0 < r -> 0 < blocks_along o r.
Proof.
  intros Ho Hr. unfold blocks_along. pose proof (pow2_pos o Ho).
  apply Z.div_str_pos. lia.
Qed.
Lemma blocks_along_lt o r x : 0 <= o -> 0 <= x < r -> 0 <= x / 2 ^ o < blocks_along o r.
Proof.
  intros Ho Hr. unfold blocks_along. pose proof (pow2_pos o Ho). split.
  - apply Z.div_pos; lia.
  - apply Z.div_lt_upper_bound; [lia|].
    pose proof (Z.div_mod (r + 2 ^ o - 1) (2 ^ o) ltac:(lia)).
    pose proof (Z.mod_pos_bound (r + 2 ^ o - 1) (2 ^ o) ltac:(lia)). lia.
Qed.
(** A block index below the count starts inside the window. *)
Lemma blocks_along_start o r c : 0 <= o -> 0 < r -> 0 <= c < blocks_along o r -> c * 2 ^ o < r.
Proof.
  intros Ho Hr Hc. unfold blocks_along in Hc. pose proof (pow2_pos o Ho).
  pose proof (Z.div_mod (r + 2 ^ o - 1) (2 ^ o) ltac:(lia)).
  pose proof (Z.mod_pos_bound (r + 2 ^ o - 1) (2 ^ o) ltac:(lia)).
  set (q := (r + 2 ^ o - 1) / 2 ^ o) in *. nia.
Qed.
(** Only the last block is partial. *)
Lemma blocks_along_full o r c : 0 <= o -> 0 < r -> 0 <= c < blocks_along o r - 1 ->
  (c + 1) * 2 ^ o <= r.
Proof.
  intros Ho Hr Hc. pose proof (blocks_along_start o r (c + 1) Ho Hr). lia.
Qed.
Lemma blocks_along_last o r : 0 <= o -> 0 < r ->
  (blocks_along o r - 1) * 2 ^ o < r <= blocks_along o r * 2 ^ o.
Proof.
  intros Ho Hr. pose proof (blocks_along_pos o r Ho Hr). split.
  - apply (blocks_along_start o r); lia.
  - unfold blocks_along. pose proof (pow2_pos o Ho).
    pose proof (Z.div_mod (r + 2 ^ o - 1) (2 ^ o) ltac:(lia)).
    pose proof (Z.mod_pos_bound (r + 2 ^ o - 1) (2 ^ o) ltac:(lia)). lia.
Qed.

Lemma res_of_pos dw : 1 <= vx (res_of dw) /\ 1 <= vy (res_of dw) /\ 1 <= vz (res_of dw).
Proof.
  unfold res_of. destruct (box_empty dw) eqn:E; simpl; [lia|].
  unfold box_empty in E. lia.
Qed.
Lemma res_of_in dw p : in_box p dw ->
  0 <= vx p - vx (bmin dw) < vx (res_of dw) /\
  0 <= vy p - vy (bmin dw) < vy (res_of dw) /\
  0 <= vz p - vz (bmin dw) < vz (res_of dw).
Proof.
  intros B. unfold res_of. pose proof (in_box_nonempty _ _ B) as N.
  rewrite (proj2 (box_empty_false dw) N). unfold in_box in B. simpl. lia.
Qed.
Lemma res_of_in_inv dw p : box_nonempty dw ->
  0 <= vx p - vx (bmin dw) < vx (res_of dw) ->
  0 <= vy p - vy (bmin dw) < vy (res_of dw) ->
  0 <= vz p - vz (bmin dw) < vz (res_of dw) -> in_box p dw.
Proof.
  intros N. unfold res_of. rewrite (proj2 (box_empty_false dw) N). simpl.
  unfold in_box. lia.
Qed.
Lemma blocks_of_pos dw o : 0 <= o ->
  0 < vx (blocks_of dw o) /\ 0 < vy (blocks_of dw o) /\ 0 < vz (blocks_of dw o).
Proof.
  intros H. pose proof (res_of_pos dw). unfold blocks_of; simpl.
  repeat split; apply blocks_along_pos; lia.
Qed.

Lemma block_res_axis_ok o dw : 0 <= o ->
  vx (res_of dw) <= 2 ^ 24 -> vy (res_of dw) <= 2 ^ 24 -> vz (res_of dw) <= 2 ^ 24 ->
  block_res_axis o (vx (box_size dw)) = vx (blocks_of dw o) /\
  block_res_axis o (vy (box_size dw)) = vy (blocks_of dw o) /\
  block_res_axis o (vz (box_size dw)) = vz (blocks_of dw o).
Proof.
  intros Ho X Y Z0. pose proof (res_of_pos dw) as P.
  unfold block_res_axis, blocks_of, blocks_along, ceil_shift, box_size, res_of in *.
  destruct (box_empty dw) eqn:E; simpl in *.
  - rewrite float_of_int_small by lia. auto.
  - rewrite !float_of_int_small by lia. auto.
Qed.

Lemma cells_per_block_eq o : 0 <= o -> cells_per_block o = 2 ^ o * 2 ^ o * 2 ^ o.
Proof.
  intros. unfold cells_per_block. rewrite !Z.shiftl_mul_pow2 by lia. lia.
Qed.

Section S.
Context {V : Type}.
Variable zero : V.

(** Storage shape. *)
Definition block_shape (o : Z) (b : block V) : Prop :=
  if b_alloc b then exists d, b_data b = Some d /\ Z.of_nat (length d) = 2 ^ o * 2 ^ o * 2 ^ o
  else b_data b = None.

Record sshape (f : sparse V) : Prop := {
  ss_order : order_ok (s_order f);
  ss_win : window_ok (s_dw f) (s_order f);
  ss_bres : s_bres f = blocks_of (s_dw f) (s_order f);
  ss_xy : s_xy f = vx (s_bres f) * vy (s_bres f);
  ss_len : Z.of_nat (length (s_blocks f)) = vx (s_bres f) * vy (s_bres f) * vz (s_bres f);
  ss_blk : Forall (block_shape (s_order f)) (s_blocks f) }.

(** Pure addresses. *)
Definition bc (f : sparse V) (p : v3) : v3 :=
  V3 ((vx p - vx (bmin (s_dw f))) / 2 ^ s_order f)
     ((vy p - vy (bmin (s_dw f))) / 2 ^ s_order f)
     ((vz p - vz (bmin (s_dw f))) / 2 ^ s_order f).
Definition vc (f : sparse V) (p : v3) : v3 :=
  V3 ((vx p - vx (bmin (s_dw f))) mod 2 ^ s_order f)
     ((vy p - vy (bmin (s_dw f))) mod 2 ^ s_order f)
     ((vz p - vz (bmin (s_dw f))) mod 2 ^ s_order f).
Definition lid (r : v3) (c : v3) : Z := vx c + vy c * vx r + vz c * (vx r * vy r).
Definition cid (s : Z) (c : v3) : Z := vx c + vy c * s + vz c * (s * s).

Lemma cell_index_cid o v : 0 <= o -> cell_index o v = cid (2 ^ o) v.
Proof.
  intros. unfold cell_index, cid. rewrite !Z.shiftl_mul_pow2 by lia. ring.
Qed.

Lemma block_coord_eq o q : 0 <= o ->
  block_coord o q = V3 (vx q / 2 ^ o) (vy q / 2 ^ o) (vz q / 2 ^ o).
Proof. intros. unfold block_coord. rewrite !shiftr_div by lia. auto. Qed.
Lemma voxel_in_block_eq o q : 0 <= o ->
  voxel_in_block o q = V3 (vx q mod 2 ^ o) (vy q mod 2 ^ o) (vz q mod 2 ^ o).
Proof. intros. unfold voxel_in_block. cbv zeta. rewrite !mask_mod by lia. auto. Qed.

Lemma window_offset_ok (f : sparse V) p : window_ok (s_dw f) (s_order f) -> in_box p (s_dw f) ->
  window_offset f p = Ok (v3_sub p (bmin (s_dw f))).
Proof.
  intros (C & _) B. unfold in_box in B.
  pose proof (C _ (or_introl eq_refl)). pose proof (C _ (or_intror (or_introl eq_refl))).
  pose proof (C _ (or_intror (or_intror (or_introl eq_refl)))).
  pose proof (C _ (or_intror (or_intror (or_intror (or_introl eq_refl))))).
  pose proof (C _ (or_intror (or_intror (or_intror (or_intror (or_introl eq_refl)))))).
  pose proof (C _ (or_intror (or_intror (or_intror (or_intror (or_intror (or_introl eq_refl))))))).
  clear C.
  unfold window_offset, v3_sub.
  repeat (rewrite i32_ok by (unfold int_min, int_max; lia); cbn [bind]). auto.
Qed.

Lemma block_id_ok (f : sparse V) c : sshape f -> block_in_grid (s_dw f) (s_order f) c ->
  block_id f c = Ok (lid (s_bres f) c) /\
  0 <= lid (s_bres f) c < Z.of_nat (length (s_blocks f)).
Proof.
  intros S G. destruct S as [O W R X L _]. unfold block_in_grid in G. rewrite <- R in G.
  destruct W as (_ & _ & _ & _ & W). rewrite <- R in W.
  assert (B : 0 <= lid (s_bres f) c < vx (s_bres f) * vy (s_bres f) * vz (s_bres f)).
  { apply linear_index_bound; lia. }
  split; [|lia]. unfold block_id. rewrite X. unfold lid in *.
  assert (0 <= vz c * (vx (s_bres f) * vy (s_bres f)))
    by (repeat apply Z.mul_nonneg_nonneg; lia).
  assert (0 <= vy c * vx (s_bres f)) by (repeat apply Z.mul_nonneg_nonneg; lia).
  clear L. revert B W H H0.
  generalize (vz c * (vx (s_bres f) * vy (s_bres f))) (vy c * vx (s_bres f))
             (vx (s_bres f) * vy (s_bres f) * vz (s_bres f)).
  intros a b n B W H H0.
  repeat (rewrite i32_ok by (unfold int_min, int_max; lia); cbn [bind]). f_equal. lia.
Qed.

Lemma bc_in_grid (f : sparse V) p : sshape f -> in_box p (s_dw f) ->
  block_in_grid (s_dw f) (s_order f) (bc f p).
Proof.
  intros S B. destruct S as [O _ _ _ _ _]. pose proof (res_of_in _ _ B) as H.
  unfold block_in_grid, bc, blocks_of; simpl. unfold order_ok in O.
  (split; [|split]); apply blocks_along_lt; lia.
Qed.

Lemma vc_range (f : sparse V) p : order_ok (s_order f) ->
  0 <= vx (vc f p) < 2 ^ s_order f /\ 0 <= vy (vc f p) < 2 ^ s_order f /\
  0 <= vz (vc f p) < 2 ^ s_order f.
Proof.
  intros O. unfold order_ok in O. pose proof (pow2_pos (s_order f) ltac:(lia)).
  unfold vc; simpl. (split; [|split]); apply Z.mod_pos_bound; lia.
Qed.
Lemma cid_range s c : 0 <= vx c < s -> 0 <= vy c < s -> 0 <= vz c < s ->
  0 <= cid s c < s * s * s.
Proof. intros. unfold cid. apply linear_index_bound; lia. Qed.

Lemma addr_inj (f : sparse V) p q : order_ok (s_order f) ->
  bc f p = bc f q -> vc f p = vc f q -> p = q.
Proof.
  intros O E F. unfold order_ok in O. pose proof (pow2_pos (s_order f) ltac:(lia)) as P.
  unfold bc in E. unfold vc in F. injection E as E1 E2 E3. injection F as F1 F2 F3.
  set (s := 2 ^ s_order f) in *.
  assert (H : forall x y, x / s = y / s -> x mod s = y mod s -> x = y).
  { intros x y A B. rewrite (Z.div_mod x s), (Z.div_mod y s) by lia. congruence. }
  apply v3_ext.
  - pose proof (H _ _ E1 F1). lia.
  - pose proof (H _ _ E2 F2). lia.
  - pose proof (H _ _ E3 F3). lia.
Qed.
Lemma lid_inj (f : sparse V) c d : sshape f -> block_in_grid (s_dw f) (s_order f) c ->
  block_in_grid (s_dw f) (s_order f) d -> lid (s_bres f) c = lid (s_bres f) d -> c = d.
Proof.
  intros S C D E. destruct S as [_ _ R _ _ _]. unfold block_in_grid in *. rewrite <- R in *.
  unfold lid in E. apply linear_index_inj in E; try lia. apply v3_ext; lia.
Qed.
Lemma cid_inj (f : sparse V) p q : order_ok (s_order f) ->
  cid (2 ^ s_order f) (vc f p) = cid (2 ^ s_order f) (vc f q) -> vc f p = vc f q.
Proof.
  intros O E. pose proof (vc_range f p O). pose proof (vc_range f q O).
  unfold cid in E. apply linear_index_inj in E; try lia. apply v3_ext; lia.
Qed.

Lemma in_block_bc (f : sparse V) p c : order_ok (s_order f) ->
  in_block (s_dw f) (s_order f) p c <-> bc f p = c.
Proof.
  intros O. unfold order_ok in O. pose proof (pow2_pos (s_order f) ltac:(lia)) as P.
  unfold in_block, bc. set (s := 2 ^ s_order f) in *.
  assert (H : forall x y, y * s <= x < (y + 1) * s <-> x / s = y).
  { intros x y. split; intros K.
    - symmetry. apply Z.div_unique with (x - y * s); lia.
    - subst y. pose proof (Z.div_mod x s ltac:(lia)). pose proof (Z.mod_pos_bound x s ltac:(lia)). lia. }
  rewrite !H. destruct c as [a b d]; simpl. split.
  - intros (-> & -> & ->); auto.
  - intros E; inversion E; auto.
Qed.
Lemma in_blockb_iff dw o p c : in_blockb dw o p c = true <-> in_block dw o p c.
Proof. unfold in_blockb, in_block. lia. Qed.

(** Reading through addresses. *)
Definition read_block (f : sparse V) (b : block V) (p : v3) : res V :=
  if b_alloc b then block_cell b (cid (2 ^ s_order f) (vc f p)) else Ok (b_empty b).

Lemma sparse_value_eq (f : sparse V) p : sshape f -> in_box p (s_dw f) ->
  sparse_value f p = (let* b := arr_get (s_blocks f) (lid (s_bres f) (bc f p)) in read_block f b p).
Proof.
  intros S B. unfold sparse_value. assert (S' := S). destruct S' as [O W _ _ _ _].
  rewrite window_offset_ok by auto. cbn [bind].
  unfold order_ok in O. rewrite block_coord_eq by lia.
  change (V3 _ _ _) with (bc f p) at 1.
  destruct (block_id_ok f (bc f p) S (bc_in_grid f p S B)) as [-> _]. cbn [bind].
  unfold read_block. rewrite voxel_in_block_eq, cell_index_cid by lia. reflexivity.
Qed.

Lemma block_shape_get (f : sparse V) id b : sshape f -> arr_get (s_blocks f) id = Ok b ->
  block_shape (s_order f) b.
Proof.
  intros S E. apply arr_get_inv in E. destruct E as [_ E].
  destruct S as [_ _ _ _ _ F]. rewrite Forall_forall in F. apply F.
  eapply nth_error_In; eauto.
Qed.

Lemma read_block_ok (f : sparse V) b p : sshape f -> block_shape (s_order f) b ->
  exists v, read_block f b p = Ok v.
Proof.
  intros S B. unfold read_block, block_cell, block_shape in *.
  destruct (b_alloc b).
  - destruct B as (d & -> & L). apply arr_get_ok. rewrite L.
    destruct S as [O _ _ _ _ _]. pose proof (vc_range f p O). apply cid_range; lia.
  - eauto.
Qed.

Lemma sparse_value_ok (f : sparse V) p : sshape f -> in_box p (s_dw f) ->
  exists v, sparse_value f p = Ok v.
Proof.
  intros S B. rewrite sparse_value_eq by auto.
  destruct (block_id_ok f (bc f p) S (bc_in_grid f p S B)) as [_ L].
  destruct (arr_get_ok _ _ L) as [b E]. rewrite E. cbn [bind].
  apply read_block_ok; auto. eapply block_shape_get; eauto.
Qed.

(** * setup_blocks *)
Lemma setup_blocks_ok e dw o : order_ok o -> window_ok dw o ->
  exists f, setup_blocks zero e dw o = Ok f /\ sshape f /\ s_ext f = e /\ s_dw f = dw /\
    s_order f = o /\
    s_blocks f = repeat (block_init zero)
       (Z.to_nat (vx (blocks_of dw o) * vy (blocks_of dw o) * vz (blocks_of dw o))).
Proof.
  intros O W. unfold setup_blocks. assert (W' := W). destruct W' as (_ & X & Y & Z0 & N).
  destruct (block_res_axis_ok o dw) as (-> & -> & ->); auto; [unfold order_ok in O; lia|].
  pose proof (blocks_of_pos dw o ltac:(unfold order_ok in O; lia)) as P.
  assert (XY : 0 < vx (blocks_of dw o) * vy (blocks_of dw o)) by (apply Z.mul_pos_pos; lia).
  assert (XYZ : 0 < vx (blocks_of dw o) * vy (blocks_of dw o) * vz (blocks_of dw o))
    by (apply Z.mul_pos_pos; lia).
  assert (vx (blocks_of dw o) * vy (blocks_of dw o) < 2 ^ 31).
  { set (t := vx (blocks_of dw o) * vy (blocks_of dw o)) in *. nia. }
  rewrite i32_ok by (unfold int_min, int_max; lia). cbn [bind].
  rewrite i32_ok by (unfold int_min, int_max; lia). cbn [bind].
  eexists. split; [reflexivity|]. rewrite v3_eta. split; [|cbn [s_ext s_dw s_order s_blocks]; auto].
  constructor; cbn [s_ext s_dw s_order s_blocks s_bres s_xy]; auto.
  - rewrite repeat_length. lia.
  - apply Forall_forall. intros b I. apply repeat_spec in I. subst b. reflexivity.
Qed.

Lemma setup_blocks_value (f : sparse V) g p :
  sshape f -> in_box p (s_dw f) ->
  s_blocks f = repeat g (length (s_blocks f)) -> b_alloc g = false ->
  sparse_value f p = Ok (b_empty g).
Proof.
  intros S B E A. rewrite sparse_value_eq by auto.
  destruct (block_id_ok f (bc f p) S (bc_in_grid f p S B)) as [_ L].
  rewrite E, arr_get_repeat by auto. cbn [bind]. unfold read_block. rewrite A. auto.
Qed.

(** * Writing *)
Lemma set_block_shape f id b' : sshape f -> block_shape (s_order f) b' ->
  0 <= id < Z.of_nat (length (s_blocks f)) ->
  sshape (Sparse (s_ext f) (s_dw f) (s_order f) (s_bres f) (s_xy f)
                 (list_set (s_blocks f) (Z.to_nat id) b')).
Proof.
  intros [O W R X L F] B I. constructor; simpl; auto.
  - rewrite list_set_length. auto.
  - rewrite Forall_forall in *. intros b J.
    apply In_nth_error in J. destruct J as [n J].
    destruct (Nat.eq_dec (Z.to_nat id) n) as [<-|N].
    + rewrite list_set_same in J by lia. congruence.
    + rewrite list_set_other in J by auto. apply F. eapply nth_error_In; eauto.
Qed.

Lemma sparse_write_ok (f : sparse V) p v : sshape f -> in_box p (s_dw f) ->
  exists f' b b', sparse_write f p v = Ok f' /\ sshape f' /\
    s_ext f' = s_ext f /\ s_dw f' = s_dw f /\ s_order f' = s_order f /\ s_bres f' = s_bres f /\
    arr_get (s_blocks f) (lid (s_bres f) (bc f p)) = Ok b /\
    s_blocks f' = list_set (s_blocks f) (Z.to_nat (lid (s_bres f) (bc f p))) b' /\
    b_alloc b' = true /\ b_empty b' = b_empty b /\
    read_block f b' p = Ok v /\
    (forall q, vc f q <> vc f p -> read_block f b' q = read_block f b q).
Proof.
  intros S B. assert (S' := S). destruct S' as [O W _ _ _ _]. assert (O' := O). unfold order_ok in O'.
  destruct (block_id_ok f (bc f p) S (bc_in_grid f p S B)) as [Eid L].
  destruct (arr_get_ok _ _ L) as [b Eb].
  pose proof (block_shape_get f _ _ S Eb) as Sb.
  set (b1 := if b_alloc b then b else block_resize b (cells_per_block (s_order f))).
  assert (H1 : exists d, b_data b1 = Some d /\
            Z.of_nat (length d) = 2 ^ s_order f * 2 ^ s_order f * 2 ^ s_order f /\
            b_alloc b1 = true /\ b_empty b1 = b_empty b /\
            forall q, read_block f b1 q = read_block f b q).
  { unfold b1. unfold block_shape in Sb. destruct (b_alloc b) eqn:A.
    - destruct Sb as (d & E & Ln). exists d. repeat split; auto.
    - unfold block_resize. cbn [b_alloc b_data b_empty].
      eexists. split; [reflexivity|]. rewrite cells_per_block_eq by lia.
      pose proof (pow2_pos (s_order f) ltac:(lia)).
      assert (0 < 2 ^ s_order f * 2 ^ s_order f * 2 ^ s_order f)
        by (repeat apply Z.mul_pos_pos; lia).
      split; [rewrite repeat_length; lia|]. repeat split; auto.
      intros q. unfold read_block, block_cell, block_resize. cbn [b_alloc b_data b_empty].
      rewrite A. apply arr_get_repeat.
      pose proof (vc_range f q O). rewrite Z2Nat.id by lia. apply cid_range; lia. }
  destruct H1 as (d & Ed & Ld & A1 & E1 & R1).
  pose proof (vc_range f p O) as VR.
  assert (CR : 0 <= cid (2 ^ s_order f) (vc f p) < Z.of_nat (length d)).
  { rewrite Ld. apply cid_range; lia. }
  set (b' := Block (b_alloc b1) (b_empty b1)
                   (Some (list_set d (Z.to_nat (cid (2 ^ s_order f) (vc f p))) v))).
  assert (Sb' : block_shape (s_order f) b').
  { unfold block_shape, b'; simpl. rewrite A1. eexists. split; [reflexivity|].
    rewrite list_set_length. auto. }
  exists (Sparse (s_ext f) (s_dw f) (s_order f) (s_bres f) (s_xy f)
             (list_set (s_blocks f) (Z.to_nat (lid (s_bres f) (bc f p))) b')), b, b'.
  split.
  { unfold sparse_write. rewrite window_offset_ok by auto. cbn [bind].
    rewrite block_coord_eq by lia. change (V3 _ _ _) with (bc f p) at 1.
    rewrite Eid. cbn [bind]. rewrite Eb. cbn [bind]. fold b1. rewrite Ed.
    rewrite voxel_in_block_eq, cell_index_cid by lia.
    change (V3 _ _ _) with (vc f p) at 1.
    rewrite arr_set_ok by auto. cbn [bind].
    rewrite arr_set_ok by auto. reflexivity. }
  split; [apply set_block_shape; auto|]. simpl. do 8 (split; [solve [auto]|]).
  split.
  - unfold read_block, b', block_cell; simpl. rewrite A1. apply arr_get_set_same; auto.
  - intros q N. rewrite <- R1. unfold read_block, b', block_cell; simpl. rewrite A1, Ed.
    apply arr_get_set_other; [lia|]. intros E. apply N. symmetry. apply cid_inj; auto.
Qed.

(** Value of a field in which one block was replaced. *)
Lemma replace_block_value f id b b' q :
  sshape f -> block_shape (s_order f) b' -> in_box q (s_dw f) ->
  arr_get (s_blocks f) id = Ok b ->
  let f' := Sparse (s_ext f) (s_dw f) (s_order f) (s_bres f) (s_xy f)
                   (list_set (s_blocks f) (Z.to_nat id) b') in
  sparse_value f' q =
    if lid (s_bres f) (bc f q) =? id then read_block f b' q else sparse_value f q.
Proof.
  intros S B' Q E f'. apply arr_get_inv in E. destruct E as [I E].
  assert (S' : sshape f') by (apply set_block_shape; auto).
  rewrite (sparse_value_eq f') by auto. rewrite (sparse_value_eq f) by auto.
  change (bc f' q) with (bc f q). change (s_bres f') with (s_bres f).
  change (s_blocks f') with (list_set (s_blocks f) (Z.to_nat id) b').
  destruct (lid (s_bres f) (bc f q) =? id) eqn:Eq.
  - apply Z.eqb_eq in Eq. rewrite Eq, arr_get_set_same by auto. reflexivity.
  - apply Z.eqb_neq in Eq. rewrite arr_get_set_other by (auto; lia). reflexivity.
Qed.

Lemma sparse_write_value f p v f' : sshape f -> in_box p (s_dw f) ->
  sparse_write f p v = Ok f' ->
  forall q, in_box q (s_dw f) ->
  sparse_value f' q = if v3_dec q p then Ok v else sparse_value f q.
Proof.
  intros S B E q Q.
  destruct (sparse_write_ok f p v S B)
    as (g & b & b' & Eg & Sg & X1 & X2 & X3 & X4 & Eb & Bl & Al & Em & Rp & Rq).
  rewrite E in Eg. injection Eg as <-.
  assert (O := ss_order _ S).
  rewrite (sparse_value_eq f') by congruence.
  rewrite (sparse_value_eq f) by auto.
  replace (bc f' q) with (bc f q) by (unfold bc; rewrite X2, X3; auto).
  assert (RB : forall b0, read_block f' b0 q = read_block f b0 q).
  { intros. unfold read_block, vc. rewrite X2, X3. auto. }
  rewrite X4, Bl.
  destruct (block_id_ok f (bc f p) S (bc_in_grid f p S B)) as [_ L].
  destruct (v3_dec q p) as [->|N].
  - rewrite arr_get_set_same by auto. cbn [bind]. rewrite RB. auto.
  - destruct (Z.eq_dec (lid (s_bres f) (bc f q)) (lid (s_bres f) (bc f p))) as [El|Nl].
    + rewrite El, arr_get_set_same by auto. rewrite Eb. cbn [bind]. rewrite RB. apply Rq.
      intros F. apply N. apply (addr_inj f); auto.
      apply (lid_inj f); auto; apply bc_in_grid; auto.
    + rewrite arr_get_set_other by (auto; lia).
      destruct (arr_get (s_blocks f) (lid (s_bres f) (bc f q))); cbn [bind]; auto.
Qed.
End S.
