(** C56: dense, sparse and MAC fields in HDF5 files. *)
From Coq Require Import ZArith Reals List Bool String Lia.
From Verif Require Import Model.Base Model.FieldM Model.DenseM Model.SparseM Spec.VoxelSpec Spec.DenseSpec Spec.SparseSpec
  Proof.BaseP Proof.FieldP Proof.DenseP Proof.SparseP Proof.SparseP4 Spec.FieldIOSpec Proof.FieldIOP Proof.FieldIOP2
  Model.VecM Model.MacM Spec.MacSpec Proof.MacP Proof.MacInterpP Props.MacProps Props.SparseProps
  Model.Hdf5M Model.Hdf5MacM Spec.Hdf5Spec Proof.Hdf5P Proof.Hdf5P2 Proof.Hdf5P3 Proof.Hdf5P4.
Import ListNotations.
Open Scope Z_scope.

Lemma dense_reached_shape {V} (zero : V) f : dense_reached zero f -> shape f.
Proof.
  intros (l & L & R). destruct (refines_run zero l _ _ (refines_init zero) L) as (f' & R' & [S _ _ _]). congruence.
Qed.
Lemma total_count {V} (f : dense V) comps : shape f -> box_nonempty (d_dw f) ->
  dense_total comps f = box_count (d_dw f) * Z.of_nat comps.
Proof.
  intros Sh N. unfold dense_total. rewrite Nat2Z.inj_mul, (sh_len _ Sh N), (sh_mem _ Sh).
  unfold data_resolution, v3_add, v3_sub, box_count, extent, box_nonempty in *. cbn [vx vy vz].
  rewrite !Z.max_r by lia. ring.
Qed.
Lemma same_self {A} (g : hgroup A) : same_layer g g.
Proof. split; auto. Qed.
Lemma chunk_small gzip ty n : 1 <= n <= 65536 -> chunk_ok gzip ty [n] = true.
Proof.
  intros H. unfold chunk_ok. apply orb_true_iff. right. cbn [forallb fold_right]. rewrite andb_true_r.
  apply andb_true_iff. split; [lia|]. apply Z.ltb_lt.
  assert (0 < htype_size ty <= 8) by (destruct ty; cbn; lia). nia.
Qed.

(** * Dense fields *)

(** Any dense field with a non-empty window of fewer than 2^31 scalars, and at least two of
    them when gzip is available, is written into any group that has room for it.  Nothing
    else in the group changes, and from any group with this layer the same field is read:
    extents, window and every value. *)
Theorem C56_dense : forall A V convert of_flag to_flag ty comps split join (zero : V) f gzip (g : hgroup A),
  faithful convert of_flag to_flag -> made_of ty comps split join ->
  dense_reached zero f -> box_nonempty (d_dw f) ->
  box_count (d_dw f) * Z.of_nat comps < 2 ^ 31 -> (gzip = true -> 2 <= box_count (d_dw f) * Z.of_nat comps) -> room_in g ->
  exists g1, dense_h5_write ty comps split gzip f g = Ok (g1, true) /\ rest_kept g g1 /\
    forall g2, same_layer g1 g2 -> dense_h5_read convert ty comps split join zero g2 = Ok (Some f).
Proof.
  intros A V convert of_flag to_flag ty comps split join zero f gzip g fa mo R N T Tw Rm.
  pose proof (dense_reached_shape zero f R) as Sh. pose proof (total_count f comps Sh N) as TC.
  assert (I : in_int (dense_total comps f) = true) by (apply in_int_iff; unfold dense_total in *; lia).
  rewrite (dense_prefix ty comps split gzip f g Rm Sh N). unfold i32. rewrite I. cbn [bind].
  replace (chunk_ok _ _ _) with true.
  2:{ symmetry. destruct gzip; [|reflexivity]. apply chunk_small. rewrite TC.
      assert (1 <= box_count (d_dw f) * Z.of_nat comps / 2) by (apply Z.div_le_lower_bound; lia). lia. }
  eexists. split; [reflexivity|]. split.
  - apply added_rest; intros n H; cbn in H; decompose [or] H; subst; try contradiction; in_layer.
  - intros g2 Sa. eapply dense_read_same; eauto.
Qed.
Print Assumptions C56_dense.

(** Reading it as another value type gives a null field. *)
Theorem C56_dense_wrong_type : forall A V V' convert of_flag to_flag ty comps split join (zero : V) ty' comps' split' join' (zero' : V')
    f gzip (g g1 : hgroup A),
  faithful convert of_flag to_flag -> made_of ty comps split join -> ty' <> ty \/ comps' <> comps ->
  dense_reached zero f -> box_nonempty (d_dw f) -> room_in g ->
  dense_h5_write ty comps split gzip f g = Ok (g1, true) ->
  forall g2, same_layer g1 g2 -> dense_h5_read convert ty' comps' split' join' zero' g2 = Ok None.
Proof.
  intros A V V' convert of_flag to_flag ty comps split join zero ty' comps' split' join' zero' f gzip g g1 fa mo D R N Rm W g2 Sa.
  pose proof (dense_reached_shape zero f R) as Sh. rewrite (dense_prefix ty comps split gzip f g Rm Sh N) in W.
  unfold i32 in W. destruct (in_int (dense_total comps f)) eqn:I; [|discriminate]. cbn [bind] in W.
  destruct (chunk_ok _ _ _); [|discriminate]. injection W as <-.
  erewrite dense_read_prefix; eauto.
  replace (htype_eqb ty ty' && (Z.of_nat comps =? Z.of_nat comps')) with false; auto.
  symmetry. apply andb_false_iff. destruct D as [D|D]; [left|right; lia].
  destruct (htype_eqb ty ty') eqn:E; auto. apply htype_eqb_iff in E. congruence.
Qed.
Print Assumptions C56_dense_wrong_type.

(** A field of one scalar cannot be stored when gzip is available: its chunk would have no
    elements.  The writer answers false, and what it leaves cannot be read. *)
Theorem C56_one_scalar_refuted : forall A V convert ty split join (zero : V) f (g : hgroup A),
  made_of ty 1 split join -> dense_reached zero f -> box_count (d_dw f) = 1 -> room_in g ->
  exists g1, dense_h5_write ty 1 split true f g = Ok (g1, false) /\
    dense_h5_read convert ty 1 split join zero g1 = Exn.
Proof.
  intros A V convert ty split join zero f g mo R C Rm.
  assert (N : box_nonempty (d_dw f)).
  { unfold box_count, extent in C. unfold box_nonempty.
    destruct (Z.max_spec 0 (vx (bmax (d_dw f)) - vx (bmin (d_dw f)) + 1)) as [[? E]|[? E]]; rewrite E in C; [|lia].
    destruct (Z.max_spec 0 (vy (bmax (d_dw f)) - vy (bmin (d_dw f)) + 1)) as [[? E2]|[? E2]]; rewrite E2 in C; [|lia].
    destruct (Z.max_spec 0 (vz (bmax (d_dw f)) - vz (bmin (d_dw f)) + 1)) as [[? E3]|[? E3]]; rewrite E3 in C; lia. }
  pose proof (dense_reached_shape zero f R) as Sh. pose proof (total_count f 1 Sh N) as TC.
  rewrite (dense_prefix ty 1 split true f g Rm Sh N). rewrite TC, C. cbn [i32 in_int Z.mul bind].
  eexists. split; [reflexivity|]. unfold dense_h5_read. pose proof (same_self (added g (dense_attrs ty 1 f) [])) as Sa.
  att Rm Sa. cbn [Z.eqb Pos.eqb negb]. do 3 (att Rm Sa). rewrite set_added by (auto; in_layer). reflexivity.
Qed.
Print Assumptions C56_one_scalar_refuted.

(** The number of scalars is computed in [int]: a vector field that fits in memory can
    overflow it. *)
Theorem C56_scalar_count_refuted : forall A V ty comps split (zero : V) f gzip (g : hgroup A),
  dense_reached zero f -> box_nonempty (d_dw f) -> 2 ^ 31 <= box_count (d_dw f) * Z.of_nat comps -> room_in g ->
  dense_h5_write ty comps split gzip f g = UB.
Proof.
  intros A V ty comps split zero f gzip g R N T Rm. pose proof (dense_reached_shape zero f R) as Sh.
  pose proof (total_count f comps Sh N) as TC. rewrite (dense_prefix ty comps split gzip f g Rm Sh N). unfold i32.
  replace (in_int _) with false; auto. symmetry. destruct (in_int (dense_total comps f)) eqn:I; auto.
  apply in_int_iff in I. lia.
Qed.
Print Assumptions C56_scalar_count_refuted.

Lemma bind_inv {A B} (r : res A) (k : A -> res B) y : bind r k = Ok y -> exists x, r = Ok x /\ k x = Ok y.
Proof. destruct r; cbn; try discriminate; eauto. Qed.
Lemma get_attr_inv {A} (g : hgroup A) n k l : get_attr g n k = Ok l -> named n (hg_attrs g) = Some (AInts l) /\ List.length l = k.
Proof.
  unfold get_attr. destruct (named n (hg_attrs g)) as [[x|]|]; try discriminate. destruct (Nat.eqb_spec (List.length x) k); [|discriminate].
  intros E. injection E as <-. auto.
Qed.
Lemma get_int_inv {A} (g : hgroup A) n z : get_int g n = Ok z -> named n (hg_attrs g) = Some (AInts [z]).
Proof.
  unfold get_int. intros H. apply bind_inv in H as (l & H & E). apply get_attr_inv in H as [H L].
  destruct l as [|a [|b l]]; try discriminate. injection E as <-. exact H.
Qed.
Lemma get_box_inv {A} (g : hgroup A) n b : get_box g n = Ok b -> named n (hg_attrs g) = Some (AInts (of_box b)).
Proof.
  unfold get_box. intros H. apply bind_inv in H as (l & H & E). apply get_attr_inv in H as [H L].
  injection E as <-. rewrite H. do 7 (destruct l as [|? l]; try discriminate). reflexivity.
Qed.
Lemma i32_inv x y : i32 x = Ok y -> y = x.
Proof. unfold i32. destruct (in_int x); congruence. Qed.

Lemma set_size_keeps {V} (zero : V) e dw f0 f : dense_set_size zero e dw f0 = Ok (f, false) -> d_ext f = e /\ d_dw f = dw /\ box_nonempty dw.
Proof.
  unfold dense_set_size. intros H. do 4 (apply bind_inv in H as (? & _ & H)).
  destruct ((_ <? _) || (_ <? _) || (_ <? _)) eqn:N; [discriminate|]. apply bind_inv in H as (? & _ & H). injection H as <-.
  rewrite !orb_false_iff, !Z.ltb_ge in N. split; [auto|]. split; [auto|]. unfold box_nonempty. lia.
Qed.

(** A group that is read as a field says so: version, sizes, number of components and type
    are in it, and the data has as many scalars as the window needs. *)
Theorem C56_dense_accepted : forall A V convert ty comps split join (zero : V) (g : hgroup A) f,
  dense_h5_read convert ty comps split join zero g = Ok (Some f) ->
  named "version" (hg_attrs g) = Some (AInts [1]) /\ named "components" (hg_attrs g) = Some (AInts [Z.of_nat comps]) /\
  named "extents" (hg_attrs g) = Some (AInts (of_box (d_ext f))) /\ named "data_window" (hg_attrs g) = Some (AInts (of_box (d_dw f))) /\
  exists n l, named "data" (hg_sets g) = Some (HSet ty [n] l) /\
    box_nonempty (d_dw f) /\ (0 < Z.of_nat comps < 2 ^ 64 -> box_count (d_dw f) = (n / Z.of_nat comps) mod 2 ^ 32).
Proof.
  intros A V convert ty comps split join zero g f H. unfold dense_h5_read in H.
  apply bind_inv in H as (ver & Hv & H). apply get_int_inv in Hv. destruct (Z.eqb_spec ver 1) as [->|]; [|discriminate]. cbn [negb] in H.
  apply bind_inv in H as (e & He & H). apply get_box_inv in He. apply bind_inv in H as (dw & Hd & H). apply get_box_inv in Hd.
  apply bind_inv in H as (c & Hc & H). apply get_int_inv in Hc. apply bind_inv in H as (s & Hs & H).
  destruct (named "data" (hg_sets g)) as [s0|] eqn:D; [|discriminate]. injection Hs as ->.
  apply bind_inv in H as (d & Hdm & H). unfold get_dims in Hdm. destruct (Nat.eqb_spec (List.length (hs_dims s)) 1) as [L1|]; [|discriminate]. injection Hdm as <-.
  destruct (hs_dims s) as [|n [|? ?]] eqn:DM; try discriminate.
  apply bind_inv in H as (sx & Hx & H). apply bind_inv in H as (sy & Hy & H). apply bind_inv in H as (sz & Hz & H).
  apply bind_inv in H as (xy & Hxy & H). apply bind_inv in H as (m & Hm & H).
  apply i32_inv in Hx, Hy, Hz, Hxy, Hm. subst.
  destruct (c =? 0); [discriminate|]. destruct (Z.eqb_spec (((vx (box_size dw) + 1) * (vy (box_size dw) + 1)) * (vz (box_size dw) + 1)) ((hd 0 [n] / (c mod 2 ^ 64)) mod 2 ^ 32)) as [EN|]; [|discriminate].
  cbn [negb] in H. destruct (htype_eqb (hs_type s) ty && (c =? Z.of_nat comps)) eqn:T; [|discriminate]. cbn [negb] in H.
  apply andb_true_iff in T as [T1 T2]. apply htype_eqb_iff in T1. apply Z.eqb_eq in T2. subst c.
  apply bind_inv in H as ((f1 & threw) & HS & H). destruct threw; [discriminate|]. apply bind_inv in H as (l & Hl & H). injection H as <-.
  cbn [d_ext d_dw]. destruct (set_size_keeps zero e dw _ f1 HS) as (-> & -> & N).
  split; [auto|]. split; [auto|]. split; [auto|]. split; [auto|]. exists n, (hs_data s). split.
  - f_equal. destruct s; cbn in *. congruence.
  - split; auto. intros CR. rewrite (Z.mod_small (Z.of_nat comps)) in EN by lia. cbn [hd] in EN. rewrite <- EN.
    unfold box_count, extent, box_size, box_empty. unfold box_nonempty in N.
    replace (_ || _) with false by (symmetry; rewrite !orb_false_iff, !Z.ltb_ge; lia).
    cbn [vx vy vz v3_sub]. rewrite !Z.max_r by lia. ring.
Qed.
Print Assumptions C56_dense_accepted.

(** Scalars and values for the examples. *)
Definition z_convert (a b : htype) (x : Z) : Z := if htype_eqb a b then x else 0.
Definition z_of (b : bool) : Z := if b then 1 else 0.
Definition z_to (x : Z) : bool := negb (x =? 0).
Lemma z_faithful : faithful z_convert z_of z_to.
Proof. split; [intros t x; unfold z_convert; now rewrite htype_eqb_refl|intros []; reflexivity]. Qed.
Definition one_split (v : Z) : list Z := [v].
Definition one_join (l : list Z) : Z := hd 0 l.
Lemma one_made : made_of HFloat 1 one_split one_join.
Proof. split; [discriminate|]. split; [auto|]. intros v; split; reflexivity. Qed.
Definition v_split (v : v3) : list Z := [vx v; vy v; vz v].
Definition v_join (l : list Z) : v3 := V3 (nth 0 l 0) (nth 1 l 0) (nth 2 l 0).
Lemma v_made : made_of HDouble 3 v_split v_join.
Proof. split; [discriminate|]. split; [auto|]. intros []; split; reflexivity. Qed.
Definition ex_group : hgroup Z := HGroup [("name"%string, AOther); ("class_name"%string, AOther)] [("mapping"%string, HSet HDouble [2] [3; 4])].
Ltac solve_room := split; intros n H; cbn in H; decompose [or] H; subst; try contradiction; reflexivity.

Definition ex_vops : list (dop v3) :=
  [DSize (Box (V3 (-3) 0 0) (V3 4 4 4)) (Box (V3 (-1) 2 3) (V3 1 3 4)); DClear (V3 7 8 9); DWrite (V3 0 3 3) (V3 1 2 3)].
Example C56_dense_example : exists f, dense_reached (V3 0 0 0) f /\ box_nonempty (d_dw f) /\
  2 <= box_count (d_dw f) * Z.of_nat 3 < 2 ^ 31 /\ room_in ex_group /\ dense_value f (V3 0 3 3) = Ok (V3 1 2 3) /\
  exists g1, dense_h5_write HDouble 3 v_split true f ex_group = Ok (g1, true) /\ List.length (hg_sets g1) = 2%nat /\
    dense_h5_read z_convert HDouble 3 v_split v_join (V3 0 0 0) g1 = Ok (Some f) /\
    dense_h5_read z_convert HFloat 3 v_split v_join (V3 0 0 0) g1 = Ok None.
Proof.
  eexists. split; [exists ex_vops; split; [|vm_compute; reflexivity]|].
  - cbn. split; [|split; [auto|split; [|auto]]].
    + split; cbn; [|lia]. intros c H. decompose [or] H; subst; lia || contradiction.
    + unfold in_box; cbn; lia.
  - split; [unfold box_nonempty; cbn; lia|]. split; [vm_compute; split; congruence|]. split; [solve_room|].
    split; [reflexivity|]. eexists. split; [vm_compute; reflexivity|]. split; [reflexivity|]. split; vm_compute; reflexivity.
Qed.
Example C56_one_scalar_example : exists f, dense_reached 0 f /\ box_count (d_dw f) = 1 /\ dense_value f (V3 2 2 2) = Ok 5.
Proof.
  eexists. split; [exists [DSize (Box (V3 2 2 2) (V3 2 2 2)) (Box (V3 2 2 2) (V3 2 2 2)); DClear 5]; split; [|reflexivity]|].
  - cbn. split; [|auto]. split; cbn; [|lia]. intros c H. decompose [or] H; subst; lia || contradiction.
  - split; reflexivity.
Qed.
Example C56_scalar_count_example : exists f, dense_reached (V3 0 0 0) f /\ box_nonempty (d_dw f) /\
  2 ^ 31 <= box_count (d_dw f) * Z.of_nat 3 /\ box_count (d_dw f) < 2 ^ 31.
Proof.
  pose (b := Box (V3 0 0 0) (V3 1023 1023 1023)).
  assert (L : legal (V3 0 0 0) (spec_init (V3 0 0 0)) [DSize b b]).
  { cbn [legal]. split; auto. split; cbn; [|lia]. intros c H. decompose [or] H; subst; lia || contradiction. }
  destruct (refines_run (V3 0 0 0) [DSize b b] _ _ (refines_init (V3 0 0 0)) L) as (f & R & [_ _ W _]).
  exists f. split; [exists [DSize b b]; auto|]. rewrite W. cbn. unfold box_nonempty, box_count, extent. cbn. lia.
Qed.

(** * Sparse fields *)

(** Any sparse field that can be built with the public operations, if its blocks fit a chunk
    and its window is one that a field of block order 4 can have, is written into any group
    that has room for it.  Nothing else in the group changes.  From any group with this
    layer the same field is read, however much is read at a time; loaded dynamically, the
    same blocks are allocated and every voxel has the same value. *)
Theorem C56_sparse : forall A V convert of_flag to_flag ty comps split join (zero : V) eqb f gzip (g : hgroup A),
  faithful convert of_flag to_flag -> made_of ty comps split join ->
  decides_eq eqb -> sparse_reached zero eqb f -> window_ok (s_dw f) 4 ->
  8 ^ s_order f * Z.of_nat comps < 2 ^ 31 -> (gzip = true -> 8 ^ s_order f * Z.of_nat comps * htype_size ty < 2 ^ 32) -> room_in g ->
  exists g1, sparse_h5_write of_flag ty comps split gzip f g = Ok (g1, true) /\ rest_kept g g1 /\
    forall g2, same_layer g1 g2 ->
      (forall limit, 0 < limit -> sparse_h5_read convert to_flag ty comps join zero limit g2 = Some (Ok (Some f))) /\
      (exists f' nvox vpb occ, sparse_h5_header convert to_flag ty comps join zero true g2 = Ok (Some (f', nvox, vpb, occ)) /\
         s_ext f' = s_ext f /\ s_dw f' = s_dw f /\ s_order f' = s_order f /\
         map b_alloc (s_blocks f') = map b_alloc (s_blocks f) /\ map b_empty (s_blocks f') = map b_empty (s_blocks f) /\
         (forall b, In b (s_blocks f') -> b_data b = None) /\
         forall p, lazy_h5_value convert ty comps join g2 (f', nvox, vpb, occ) p = sparse_value f p).
Proof.
  intros A V convert of_flag to_flag ty comps split join zero eqb f gzip g fa mo De Rf W4 VL CL Rm.
  pose proof (reached_shape zero eqb f De Rf) as S0. pose proof (order_nn f S0) as O.
  assert (P8 : 2 ^ (s_order f * 3) = 8 ^ s_order f) by (rewrite Z.mul_comm, Z.pow_mul_r by lia; reflexivity).
  pose proof (vpb_pos ty comps split join mo f S0) as VP.
  assert (VE : vpb comps f = 8 ^ s_order f * Z.of_nat comps) by (unfold vpb; now rewrite P8).
  assert (I : in_int (vpb comps f) = true) by (apply in_int_iff; lia).
  rewrite (sparse_write_eq of_flag ty comps split join mo f S0 gzip g Rm I).
  replace (chunk_ok gzip ty [1; vpb comps f]) with true.
  2:{ symmetry. destruct gzip; [|reflexivity]. unfold chunk_ok. cbn [negb orb forallb fold_right]. rewrite VE in *.
      specialize (CL eq_refl). rewrite Z.mul_1_l. repeat (apply andb_true_iff; split); try lia. }
  rewrite orb_true_r. eexists. split; [reflexivity|]. split.
  - apply added_rest; intros n H; [|unfold sparse_sets in H; destruct (Nat.eqb _ _)]; cbn in H; decompose [or] H; subst; try contradiction; in_layer.
  - intros g2 Sa.
    assert (Sa' : same_layer (added g (sparse_attrs ty comps f) (flag_sets of_flag ty comps split f ++
       if Nat.eqb (Hdf5P2.occ (s_blocks f)) 0 then [] else [("data"%string, data_set ty comps split f)])) g2).
    { unfold sparse_sets in Sa. destruct (Nat.eqb _ _); [rewrite app_nil_r|]; exact Sa. }
    split.
    + intros limit L. eapply read_same; eauto.
    + do 4 eexists. split; [eapply header_same; eauto|]. cbn [negb s_ext s_dw s_order s_blocks].
      split; [reflexivity|]. split; [reflexivity|]. split; [reflexivity|]. rewrite !map_map.
      split; [apply map_ext; reflexivity|]. split; [apply map_ext; reflexivity|].
      split; [intros b H; apply in_map_iff in H as (b0 & <- & _); reflexivity|].
      intros p. destruct (lazy_same convert of_flag to_flag fa ty comps split join zero mo f S0 g g2 Rm _ Sa' W4 I eq_refl p) as (h & E & L).
      erewrite header_same in E; eauto. injection E as <-. exact L.
Qed.
Print Assumptions C56_sparse.

Theorem C56_sparse_wrong_type : forall A V V' convert of_flag to_flag ty comps split join (zero : V) eqb ty' comps' join' (zero' : V')
    f gzip (g g1 : hgroup A),
  faithful convert of_flag to_flag -> made_of ty comps split join -> ty' <> ty \/ comps' <> comps ->
  decides_eq eqb -> sparse_reached zero eqb f -> 8 ^ s_order f * Z.of_nat comps < 2 ^ 31 -> room_in g ->
  sparse_h5_write of_flag ty comps split gzip f g = Ok (g1, true) ->
  forall g2 limit, same_layer g1 g2 -> sparse_h5_read convert to_flag ty' comps' join' zero' limit g2 = Some (Ok None).
Proof.
  intros A V V' convert of_flag to_flag ty comps split join zero eqb ty' comps' join' zero' f gzip g g1 fa mo D De Rf VL Rm W g2 limit Sa.
  pose proof (reached_shape zero eqb f De Rf) as S0. pose proof (order_nn f S0) as O.
  assert (P8 : 2 ^ (s_order f * 3) = 8 ^ s_order f) by (rewrite Z.mul_comm, Z.pow_mul_r by lia; reflexivity).
  pose proof (vpb_pos ty comps split join mo f S0) as VP.
  assert (I : in_int (vpb comps f) = true) by (apply in_int_iff; unfold vpb in *; lia).
  rewrite (sparse_write_eq of_flag ty comps split join mo f S0 gzip g Rm I) in W.
  destruct (Nat.eqb _ _ || _); [|discriminate]. injection W as <-.
  assert (Sa' : exists more, same_layer (added g (sparse_attrs ty comps f) (flag_sets of_flag ty comps split f ++ more)) g2).
  { unfold sparse_sets in Sa. destruct (Nat.eqb _ _); [exists []; rewrite app_nil_r; exact Sa|eexists; exact Sa]. }
  destruct Sa' as [more Sa']. unfold sparse_h5_read. erewrite header_other; eauto.
Qed.
Print Assumptions C56_sparse_wrong_type.

Lemma occ_some {V} (bl : list (block V)) : existsb b_alloc bl = true -> Hdf5P2.occ bl <> 0%nat.
Proof.
  unfold Hdf5P2.occ. intros Al. apply existsb_exists in Al as (b & Ib & Ab).
  assert (In b (filter b_alloc bl)) as H by (apply filter_In; auto).
  destruct (filter b_alloc bl); [destruct H|discriminate].
Qed.

(** Blocks of 4 GiB and more do not fit a chunk: with gzip, a field that has an allocated
    block of order 10 cannot be stored as float.  The writer answers false after having
    written all but the data. *)
Theorem C56_large_block_refuted : forall A V of_flag ty comps split join (zero : V) eqb f (g : hgroup A),
  made_of ty comps split join -> decides_eq eqb -> sparse_reached zero eqb f ->
  8 ^ s_order f * Z.of_nat comps < 2 ^ 31 -> 2 ^ 32 <= 8 ^ s_order f * Z.of_nat comps * htype_size ty ->
  existsb b_alloc (s_blocks f) = true -> room_in g ->
  exists g1, sparse_h5_write of_flag ty comps split true f g = Ok (g1, false) /\ named "data" (hg_sets g1) = None.
Proof.
  intros A V of_flag ty comps split join zero eqb f g mo De Rf VL CL Al Rm.
  pose proof (reached_shape zero eqb f De Rf) as S0. pose proof (order_nn f S0) as O.
  assert (P8 : 2 ^ (s_order f * 3) = 8 ^ s_order f) by (rewrite Z.mul_comm, Z.pow_mul_r by lia; reflexivity).
  pose proof (vpb_pos ty comps split join mo f S0) as VP.
  assert (VE : vpb comps f = 8 ^ s_order f * Z.of_nat comps) by (unfold vpb; now rewrite P8).
  assert (I : in_int (vpb comps f) = true) by (apply in_int_iff; lia).
  rewrite (sparse_write_eq of_flag ty comps split join mo f S0 true g Rm I).
  assert (OC : Nat.eqb (Hdf5P2.occ (s_blocks f)) 0 = false).
  { now apply Nat.eqb_neq, occ_some. }
  rewrite OC. replace (chunk_ok true ty [1; vpb comps f]) with false.
  2:{ symmetry. unfold chunk_ok. cbn [negb orb forallb fold_right]. apply andb_false_iff. right. lia. }
  cbn [orb]. eexists. split; [reflexivity|]. rewrite set_added by (auto; in_layer). reflexivity.
Qed.
Print Assumptions C56_large_block_refuted.

Lemma Z_decides : decides_eq Z.eqb.
Proof. intros a b. apply Z.eqb_eq. Qed.
Example C56_large_block_example : exists f, sparse_reached 0 Z.eqb f /\ s_order f = 10 /\ existsb b_alloc (s_blocks f) = true.
Proof.
  pose (b := Box (V3 0 0 0) (V3 0 0 0)).
  destruct (setup_blocks_ok 0 b b 10) as (f & E & Sh & X1 & X2 & X3 & X4).
  { unfold order_ok; lia. } { apply window_okb_ok. vm_compute. reflexivity. }
  destruct (sparse_write_ok f (V3 0 0 0) 5 Sh) as (f' & b0 & b' & W & _ & _ & _ & O & _ & G & B & Al & _).
  { rewrite X2. unfold in_box; cbn; lia. }
  exists f'. split; [|split].
  - exists [SOrder 10; SSize b b; SWrite (V3 0 0 0) 5]. eexists. split; [apply slegalb_ok; vm_compute; reflexivity|].
    split; [reflexivity|]. cbn [sparse_run]. set (f0 := sparse_step _ _ _ _). vm_compute in f0. subst f0. cbn [bind].
    unfold sparse_step at 1, sparse_set_size. cbn [s_order]. rewrite E. cbn [bind sparse_step]. rewrite W. reflexivity.
  - congruence.
  - rewrite B. apply existsb_exists. exists b'. split; auto. apply arr_get_inv in G as [G _].
    apply nth_error_In with (n := Z.to_nat (lid (s_bres f) (bc f (V3 0 0 0)))). apply list_set_same. lia.
Qed.

(** A dynamically loaded field has no block data in memory: storing it again throws. *)
Theorem C56_write_lazy_refuted : forall A V convert of_flag to_flag ty comps split join (zero : V) eqb f gzip (g g' : hgroup A),
  faithful convert of_flag to_flag -> made_of ty comps split join ->
  decides_eq eqb -> sparse_reached zero eqb f -> window_ok (s_dw f) 4 ->
  8 ^ s_order f * Z.of_nat comps < 2 ^ 31 -> 8 ^ s_order f * Z.of_nat comps * htype_size ty < 2 ^ 32 ->
  existsb b_alloc (s_blocks f) = true -> room_in g -> room_in g' ->
  exists g1 f' nvox vpb occ, sparse_h5_write of_flag ty comps split gzip f g = Ok (g1, true) /\
    sparse_h5_header convert to_flag ty comps join zero true g1 = Ok (Some (f', nvox, vpb, occ)) /\
    sparse_h5_write of_flag ty comps split gzip f' g' = Exn.
Proof.
  intros A V convert of_flag to_flag ty comps split join zero eqb f gzip g g' fa mo De Rf W4 VL CL Al Rm Rm'.
  destruct (C56_sparse A V convert of_flag to_flag ty comps split join zero eqb f gzip g fa mo De Rf W4 VL (fun _ => CL) Rm) as (g1 & W & _ & H).
  destruct (H g1 (same_self g1)) as (_ & f' & nvox & vpb & occ & E & _). clear H.
  exists g1, f', nvox, vpb, occ. split; [auto|]. split; [auto|].
  pose proof (reached_shape zero eqb f De Rf) as S0. pose proof (order_nn f S0) as O.
  assert (P8 : 2 ^ (s_order f * 3) = 8 ^ s_order f) by (rewrite Z.mul_comm, Z.pow_mul_r by lia; reflexivity).
  pose proof (vpb_pos ty comps split join mo f S0) as VP.
  assert (VE : Hdf5P2.vpb comps f = 8 ^ s_order f * Z.of_nat comps) by (unfold Hdf5P2.vpb; now rewrite P8).
  assert (I : in_int (Hdf5P2.vpb comps f) = true) by (apply in_int_iff; lia).
  assert (CO : chunk_ok gzip ty [1; Hdf5P2.vpb comps f] = true).
  { destruct gzip; [|reflexivity]. unfold chunk_ok. cbn [negb orb forallb fold_right]. rewrite VE in *.
    rewrite Z.mul_1_l. repeat (apply andb_true_iff; split); try lia. }
  pose proof (occ_some (s_blocks f) Al) as OC.
  rewrite (sparse_write_eq of_flag ty comps split join mo f S0 gzip g Rm I), CO, orb_true_r in W. injection W as <-.
  unfold sparse_sets in E. rewrite (proj2 (Nat.eqb_neq _ _) OC) in E.
  rewrite (header_same convert of_flag to_flag fa ty comps split join zero mo f S0 g _ Rm _ (same_self _) W4 I true) in E.
  injection E as <- _ _ _. rewrite (sparse_write_pre of_flag ty comps split join mo f _ gzip g' S0); auto.
  - cbn [s_blocks negb]. rewrite occ_prep, (proj2 (Nat.eqb_neq _ _) OC), CO. cbn [negb].
    rewrite put_rows_none; auto; [|now rewrite occ_prep]. intros b Ib. apply in_map_iff in Ib as (b0 & <- & _). reflexivity.
  - cbn [s_blocks]. apply map_length.
Qed.
Print Assumptions C56_write_lazy_refuted.

Lemma setup_keeps {V} (zero : V) e dw o f : setup_blocks zero e dw o = Ok f -> s_ext f = e /\ s_dw f = dw /\ s_order f = o.
Proof.
  unfold setup_blocks. intros H. repeat (apply bind_inv in H as (? & _ & H)).
  repeat match type of H with (if ?b then _ else _) = _ => destruct b; try discriminate end.
  injection H as <-. auto.
Qed.
(** A group that is read as a sparse field: all its sizes are in it, the number of blocks is
    that of the grid in it, and unless no block is allocated the data has the stated rows. *)
Theorem C56_sparse_accepted : forall A V convert to_flag ty comps join (zero : V) limit (g : hgroup A) f,
  ty <> HChar -> sparse_h5_read convert to_flag ty comps join zero limit g = Some (Ok (Some f)) ->
  named "version" (hg_attrs g) = Some (AInts [1]) /\ named "components" (hg_attrs g) = Some (AInts [Z.of_nat comps]) /\
  named "extents" (hg_attrs g) = Some (AInts (of_box (s_ext f))) /\ named "data_window" (hg_attrs g) = Some (AInts (of_box (s_dw f))) /\
  named "block_order" (hg_attrs g) = Some (AInts [s_order f]) /\
  (exists x y z, named "block_res" (hg_attrs g) = Some (AInts [x; y; z]) /\ named "num_blocks" (hg_attrs g) = Some (AInts [x * y * z])) /\
  (exists b, named "bits_per_component" (hg_attrs g) = Some (AInts [b]) /\ (b = h5bits ty \/ ty = HFloat /\ b <> 16 /\ b <> 64)) /\
  exists occ, named "num_occupied_blocks" (hg_attrs g) = Some (AInts [occ]) /\
    (0 < occ -> existsb b_alloc (s_blocks f) = true -> exists t l, named "data" (hg_sets g) = Some (HSet t [occ; 8 ^ s_order f * Z.of_nat comps] l)).
Proof.
  intros A V convert to_flag ty comps join zero limit g f nt H. unfold sparse_h5_read in H.
  destruct (sparse_h5_header convert to_flag ty comps join zero false g) as [[[[[h nvox] vpb] occ]|]| |] eqn:HD; try discriminate.
  unfold sparse_h5_header in HD.
  apply bind_inv in HD as (ver & Hv & HD). apply get_int_inv in Hv. destruct (Z.eqb_spec ver 1) as [->|]; [|discriminate]. cbn [negb] in HD.
  apply bind_inv in HD as (e & He & HD). apply get_box_inv in He. apply bind_inv in HD as (dw & Hd & HD). apply get_box_inv in Hd.
  apply bind_inv in HD as (c & Hc & HD). apply get_int_inv in Hc. apply bind_inv in HD as (o & Ho & HD). apply get_int_inv in Ho.
  apply bind_inv in HD as (nb & Hn & HD). apply get_int_inv in Hn. apply bind_inv in HD as (br & Hb & HD). apply get_attr_inv in Hb as [Hb Lb].
  destruct br as [|x [|y [|z [|? ?]]]]; try discriminate. cbn [nth] in HD.
  apply bind_inv in HD as (xy & Hxy & HD). apply bind_inv in HD as (calc & Hcalc & HD). apply i32_inv in Hxy, Hcalc. subst xy calc.
  destruct (Z.eqb_spec (x * y * z) nb) as [EN|]; [|discriminate]. cbn [negb] in HD.
  apply bind_inv in HD as (oc & Hoc & HD). apply get_int_inv in Hoc. apply bind_inv in HD as (bits & Hbits & HD). apply get_int_inv in Hbits.
  destruct (htype_eqb (if bits =? 16 then HShort else if bits =? 64 then HDouble else HFloat) ty && (c =? Z.of_nat comps)) eqn:T; [|discriminate].
  cbn [negb] in HD. apply andb_true_iff in T as [T1 T2]. apply htype_eqb_iff in T1. apply Z.eqb_eq in T2. subst c.
  apply bind_inv in HD as (f4 & _ & HD). destruct ((o <? 0) || (10 <? o)) eqn:OR; [discriminate|].
  apply bind_inv in HD as (f0 & Hf & HD). apply bind_inv in HD as (v & HV & HD). apply i32_inv in HV. destruct (nb <? 0); [discriminate|].
  apply bind_inv in HD as (fl & _ & HD). apply bind_inv in HD as (ev & _ & HD). apply bind_inv in HD as (bl & _ & HD).
  injection HD as <- <- <- <-. destruct (setup_keeps zero e dw o f0 Hf) as (X1 & X2 & X3). subst v.
  assert (P8 : 2 ^ (o * 3) = 8 ^ o).
  { apply orb_false_iff in OR as [O1 O2]. rewrite Z.mul_comm, Z.pow_mul_r by lia. reflexivity. }
  cbn [s_blocks s_ext s_dw s_order s_bres s_xy] in H.
  assert (K : (s_ext f = e /\ s_dw f = dw /\ s_order f = o) /\
    (0 < oc -> existsb b_alloc (s_blocks f) = true -> exists t l, named "data" (hg_sets g) = Some (HSet t [oc; 2 ^ (o * 3) * Z.of_nat comps] l))).
  { destruct (Z.leb_spec oc 0) as [L|L].
    - injection H as <-. cbn. split; [auto|lia].
    - destruct (existsb b_alloc bl) eqn:EX.
      + destruct (open_h5 g (2 ^ (o * 3) * Z.of_nat comps) oc) as [s| |] eqn:OP; try discriminate.
        destruct (passes _ _ _ _ _ _ _ _ _ _ _ _) as [[r| |]|]; try discriminate. injection H as <-. cbn. split; [auto|]. intros _ _.
        unfold open_h5 in OP. apply bind_inv in OP as (s0 & N0 & OP). destruct (named "data" (hg_sets g)) as [s1|]; [|discriminate]. injection N0 as ->.
        apply bind_inv in OP as (d & DD & OP). unfold get_dims in DD. destruct (Nat.eqb_spec (List.length (hs_dims s0)) 2) as [L2|]; [|discriminate]. injection DD as <-.
        destruct s0 as [t dims l]. cbn [hs_dims] in *. destruct dims as [|a [|b [|? ?]]]; try discriminate. cbn [nth] in OP.
        destruct (Z.eqb_spec b (2 ^ (o * 3) * Z.of_nat comps)) as [->|]; [|discriminate]. cbn [negb] in OP.
        destruct (Z.eqb_spec a oc) as [->|]; [|discriminate]. eauto.
      + injection H as <-. cbn. split; [auto|]. intros _ EX'. congruence. }
  destruct K as ((E1 & E2 & E3) & K). rewrite E1, E2, E3, <- P8.
  split; [auto|]. split; [auto|]. split; [auto|]. split; [auto|]. split; [auto|].
  split; [exists x, y, z; subst nb; auto|]. split; [|eauto]. exists bits. split; auto. subst ty. unfold h5bits.
  destruct (Z.eqb_spec bits 16); [left; subst; reflexivity|]. destruct (Z.eqb_spec bits 64); [left; subst; reflexivity|]. auto.
Qed.
Print Assumptions C56_sparse_accepted.

(** The reader compares the number of blocks in the file with the grid of blocks in the file,
    not with the grid of the field it builds: if the window has fewer blocks,
    blocks past the end of the field are written. *)
Theorem C56_block_count_refuted : exists g, sparse_h5_read z_convert z_to HFloat 1 one_join 0 1 g = Some UB.
Proof.
  exists (HGroup [("version", AInts [1]); ("extents", AInts [0; 0; 0; 1; 1; 1]); ("data_window", AInts [0; 0; 0; 1; 1; 1]);
    ("components", AInts [1]); ("block_order", AInts [1]); ("num_blocks", AInts [2]); ("block_res", AInts [2; 1; 1]);
    ("bits_per_component", AInts [32]); ("num_occupied_blocks", AInts [0])]%string
    [("block_is_allocated_data", HSet HChar [2] [0; 0]); ("block_empty_value_data", HSet HFloat [2] [3; 3])]%string).
  vm_compute. reflexivity.
Qed.
Print Assumptions C56_block_count_refuted.

Definition ex_sops : list (sop Z) :=
  [SOrder 1; SSize (Box (V3 (-5) 0 0) (V3 5 5 5)) (Box (V3 (-1) 0 0) (V3 2 1 3)); SClear 9; SWrite (V3 0 1 2) 4; SWrite (V3 2 0 3) 6;
   SBlockEmpty (V3 1 0 0) 8].
Example C56_sparse_example : exists f, sparse_reached 0 Z.eqb f /\ window_ok (s_dw f) 4 /\
  8 ^ s_order f * Z.of_nat 1 * 4 < 2 ^ 31 /\ map b_alloc (s_blocks f) = [false; false; true; true] /\
  sparse_value f (V3 0 1 2) = Ok 4 /\ sparse_value f (V3 1 1 1) = Ok 8 /\
  exists g1, sparse_h5_write z_of HFloat 1 one_split true f ex_group = Ok (g1, true) /\
    sparse_h5_read z_convert z_to HFloat 1 one_join 0 33 g1 = Some (Ok (Some f)) /\
    exists h, sparse_h5_header z_convert z_to HFloat 1 one_join 0 true g1 = Ok (Some h) /\
      lazy_h5_value z_convert HFloat 1 one_join g1 h (V3 2 0 3) = Ok 6.
Proof.
  eexists. split; [|split].
  - exists ex_sops. eexists. split; [apply slegalb_ok; vm_compute; reflexivity|]. split; [reflexivity|]. vm_compute. reflexivity.
  - apply window_okb_ok. vm_compute. reflexivity.
  - split; [vm_compute; reflexivity|]. split; [reflexivity|]. split; [reflexivity|]. split; [reflexivity|].
    eexists. split; [vm_compute; reflexivity|]. split; [vm_compute; reflexivity|].
    eexists. split; [vm_compute; reflexivity|]. vm_compute. reflexivity.
Qed.

(** * MAC fields *)

Lemma two_faces a b c : 1 <= a -> 1 <= b -> 1 <= c -> 2 <= a \/ 2 <= b \/ 2 <= c -> 2 <= a * b * c.
Proof. intros X Y Z0 D. assert (1 <= a * b) by nia. nia. Qed.
Lemma mac_faces_len m : minv m -> box_nonempty (m_dw m) -> forall c,
  Z.of_nat (List.length (c_data (comp_of m c))) = (let s := data_resolution (component_window (m_dw m) c) in vx s * vy s * vz s) /\
  (2 <= List.length (c_data (comp_of m c)))%nat.
Proof.
  intros I N c. assert (SH : shape (view m c)) by (apply I, window_nonempty; auto). destruct SH as [_ M _ LN].
  pose proof (LN (window_nonempty _ c N)) as L. cbn [view d_data d_dw d_mem] in *. rewrite M in L. split; [exact L|].
  enough (2 <= Z.of_nat (List.length (c_data (comp_of m c)))) by lia. rewrite L.
  unfold data_resolution, component_window, box_nonempty in *.
  destruct c; cbn [bmin bmax vx vy vz v3_add v3_sub]; apply two_faces; cbn; lia.
Qed.

(** Any MAC field with a non-empty window can be stored in an HDF5 group that has room for
    it, and a field with the same extents, window, faces and cell values is read from it. *)
Theorem C56_mac : forall convert of_flag to_flag ty m gzip (g : hgroup R),
  faithful convert of_flag to_flag -> ty <> HChar -> mac_reached m -> box_nonempty (m_dw m) -> room_in g ->
  exists g1, mac_h5_write ty gzip m g = Ok (g1, true) /\ rest_kept g g1 /\
    forall g2, same_layer g1 g2 -> exists m', mac_h5_read convert ty g2 = Ok (Some m') /\
      m_ext m' = m_ext m /\ m_dw m' = m_dw m /\
      (forall c p, is_face (m_dw m) c p -> face m' c p = face m c p) /\
      (forall p, in_box p (m_dw m) -> mac_value m' p = mac_value m p).
Proof.
  intros convert of_flag to_flag ty m gzip g fa nt R N Rm. destruct (reached_inv m R) as (I & _).
  assert (two : forall c, (2 <= List.length (c_data (comp_of m c)))%nat) by (intros c; now apply mac_faces_len).
  rewrite (mac_write_eq ty nt m two gzip g Rm). eexists. split; [reflexivity|]. split.
  - apply added_rest; intros n H; cbn in H; decompose [or] H; subst; try contradiction; in_layer.
  - intros g2 Sa. erewrite mac_read_eq by eauto. destruct (C39_copy mac_init m R N) as (m' & -> & E). exists m'. split; auto.
Qed.
Print Assumptions C56_mac.

Theorem C56_mac_wrong_type : forall convert ty ty' m gzip (g g1 : hgroup R),
  ty <> HChar -> ty' <> ty -> mac_reached m -> box_nonempty (m_dw m) -> room_in g ->
  mac_h5_write ty gzip m g = Ok (g1, true) -> forall g2, same_layer g1 g2 -> mac_h5_read convert ty' g2 = Ok None.
Proof.
  intros convert ty ty' m gzip g g1 nt D R N Rm W g2 Sa. destruct (reached_inv m R) as (I & _).
  assert (two : forall c, (2 <= List.length (c_data (comp_of m c)))%nat) by (intros c; now apply mac_faces_len).
  rewrite (mac_write_eq ty nt m two gzip g Rm) in W. injection W as <-. eapply mac_read_other; eauto.
Qed.
Print Assumptions C56_mac_wrong_type.

Definition ex_rgroup : hgroup R := HGroup [("name"%string, AOther)] [].
Example C56_mac_example : exists m, mac_reached m /\ box_nonempty (m_dw m) /\ room_in ex_rgroup /\ face m CompU (V3 1 0 2) = Ok 7%R.
Proof.
  pose proof C39_faces_example as (L & V & _). destruct (C39_faces ex_mops L) as (m & E & _ & W & F & _).
  exists m. split; [exists ex_mops; auto|]. rewrite W. split; [unfold box_nonempty; cbn; lia|]. split; [solve_room|].
  destruct (F CompU (V3 1 0 2)) as (x & Fx & Y); [cbn; lia|]. rewrite Fx. now rewrite (Y _ V).
Qed.

(** The reader does not compare the size of the data with the window: a file with more
    values than faces makes it write past the end of the component. *)
Theorem C56_mac_data_size_refuted : forall convert (l v w : list R), (2 < List.length l)%nat ->
  mac_h5_read convert HFloat (HGroup
    [("version", AInts [1]); ("extents", AInts [0; 0; 0; 0; 0; 0]); ("data_window", AInts [0; 0; 0; 0; 0; 0]);
     ("components", AInts [3]); ("bits_per_component", AInts [32])]%string
    [("u_data", HSet HFloat [Z.of_nat (List.length l)] l); ("v_data", HSet HFloat [Z.of_nat (List.length v)] v);
     ("w_data", HSet HFloat [Z.of_nat (List.length w)] w)]%string) = UB.
Proof.
  intros convert l v w H. destruct l as [|a [|b [|c l]]]; cbn in H; try lia. reflexivity.
Qed.
Print Assumptions C56_mac_data_size_refuted.

(** A group that is read as a MAC field has its version and sizes. *)
Theorem C56_mac_accepted : forall convert ty (g : hgroup R) m, mac_h5_read convert ty g = Ok (Some m) ->
  named "version" (hg_attrs g) = Some (AInts [1]) /\
  (exists e dw, named "extents" (hg_attrs g) = Some (AInts (of_box e)) /\ named "data_window" (hg_attrs g) = Some (AInts (of_box dw)) /\
     m_ext m = e /\ m_dw m = dw) /\
  forall c, exists t n l, named (comp_name c) (hg_sets g) = Some (HSet t [n] l).
Proof.
  intros convert ty g m H. unfold mac_h5_read in H.
  apply bind_inv in H as (ver & Hv & H). apply get_int_inv in Hv. destruct (Z.eqb_spec ver 1) as [->|]; [|discriminate]. cbn [negb] in H.
  apply bind_inv in H as (e & He & H). apply get_box_inv in He. apply bind_inv in H as (dw & Hd & H). apply get_box_inv in Hd.
  do 2 (apply bind_inv in H as (? & _ & H)). destruct (negb _); [discriminate|].
  apply bind_inv in H as ((m0 & t) & HS & H). destruct t; [discriminate|].
  apply bind_inv in H as (m1 & H1 & H). apply bind_inv in H as (m2 & H2 & H). apply bind_inv in H as (m3 & H3 & H). injection H as <-.
  assert (RC : forall c a b, read_comp convert ty g c a = Ok b -> (m_ext b = m_ext a /\ m_dw b = m_dw a) /\
     exists t n l, named (comp_name c) (hg_sets g) = Some (HSet t [n] l)).
  { intros c a b K. unfold read_comp in K. apply bind_inv in K as (s & Ks & K). destruct (named (comp_name c) (hg_sets g)) as [s0|]; [|discriminate].
    injection Ks as ->. apply bind_inv in K as (d & Kd & K). unfold get_dims in Kd. destruct (Nat.eqb_spec (List.length (hs_dims s)) 1) as [L1|]; [|discriminate].
    apply bind_inv in K as (l & _ & K). injection K as <-. split; [destruct c; split; reflexivity|].
    destruct s as [t d1 l1]. cbn in *. destruct d1 as [|n [|? ?]]; try discriminate. now exists t, n, l1. }
  destruct (RC _ _ _ H1) as ((A1 & B1) & C1). destruct (RC _ _ _ H2) as ((A2 & B2) & C2). destruct (RC _ _ _ H3) as ((A3 & B3) & C3).
  assert (K : m_ext m0 = e /\ m_dw m0 = dw).
  { unfold mac_set_size in HS. do 3 (apply bind_inv in HS as (? & _ & HS)). destruct (_ <? 0); [congruence|].
    do 3 (apply bind_inv in HS as (? & _ & HS)). injection HS as <-. auto. }
  destruct K as [K1 K2]. split; [auto|]. split; [exists e, dw; repeat split; congruence|]. intros []; auto.
Qed.
Print Assumptions C56_mac_accepted.

(** In the other kind of file (Ogawa) a MAC field is lost: storing it reports success and
    leaves the group as it was, reading gives a null field. *)
Theorem C56_mac_ogawa_refuted : forall G m (g : G), mac_og_write m g = Ok (g, true) /\ mac_og_read g = Ok None.
Proof. intros. split; reflexivity. Qed.
Print Assumptions C56_mac_ogawa_refuted.
