(** C63: MIP fields in HDF5 files. *)
From Coq Require Import ZArith List Bool String Lia Arith Permutation.
From Verif Require Import Model.Base Model.FieldM Model.DenseM Model.SparseM Spec.VoxelSpec Spec.DenseSpec Spec.SparseSpec
  Proof.BaseP Proof.FieldP Proof.DenseP Proof.SparseP Proof.SparseP4
  Model.OgawaM Spec.OgawaSpec Model.OgM Spec.OgSpec Proof.OgP Model.FieldIOM Spec.FieldIOSpec Proof.FieldIOP Proof.FieldIOP2
  Model.FileM Model.MetaM Spec.MetaSpec Model.MipIOM Spec.MipIOSpec Proof.MipIOP Props.MipIOProps
  Model.Hdf5M Spec.Hdf5Spec Proof.Hdf5P Proof.Hdf5P2 Props.Hdf5Props Model.Hdf5FileM Spec.Hdf5FileSpec Props.Hdf5FileProps
  Model.MipH5M Spec.MipH5Spec Proof.MipH5P Proof.MipH5P2.
Import ListNotations.
Open Scope Z_scope.

Definition body_of {A F} (wr : F -> res (hgroup A * bool)) (f : F) : hgroup A := match wr f with Ok (g, _) => g | _ => HGroup [] [] end.
Lemma made_small {A V} ty comps (split : V -> list A) join : made_of ty comps split join -> ty <> HChar /\ (comps <= 3)%nat.
Proof. intros (H & [->| ->] & _); auto. Qed.
Lemma empty_room A : room_in (HGroup (A := A) [] []).
Proof. split; intros; reflexivity. Qed.

(** What the two kinds of levels have in common. *)
Lemma mip_written A F (ext dw : F -> box) kind (wr : F -> res (hgroup A * bool)) (rd : hgroup A -> res (option F)) ty dims l m0 m g :
  ty <> HChar -> (dims <= 3)%nat ->
  (forall f, In f l -> level_h5 ext dw wr (body_of wr) f) -> Z.of_nat (List.length l) < 2 ^ 31 ->
  mip_setup ext dw l m0 = Ok m -> mip_room g ->
  exists g1, mip_h5_write kind wr ty dims m g = Ok (g1, true) /\ mip_rest g g1 /\
    forall g2, same_mip g1 g2 ->
      mip_h5_read ty dims g2 = Ok (Some (MipProxy kind (mi_ext m) (mi_dw m) (map (fun f => (ext f, dw f)) l))) /\
      (forall ty' dims', ty' <> ty \/ dims' <> dims -> mip_h5_read ty' dims' g2 = Ok None) /\
      forall root path i f, leads_to root path g2 -> nth_error l i = Some f ->
        load_h5 rd root path i = let* o := rd (body_of wr f) in match o with Some f => Ok f | None => Exn end.
Proof.
  intros TY DI ST SM MS RM. destruct (C54_setup _ ext dw l m0) as (MS1 & _). destruct (MS1 m MS) as (LO & ML & MN & f0 & E0 & ME & MD).
  assert (M : m = MipField (mi_ext m) (mi_dw m) (List.length l) l) by (destruct m; cbn in *; congruence).
  exists (stored_mip kind ty dims (body_of wr) l (mi_ext m) (mi_dw m) g). split.
  { rewrite M at 1. apply (mip_write_eq ext dw); auto. }
  split; [apply stored_rest|]. intros g2 SA. split; [|split].
  - erewrite (mip_read_prefix ext dw kind wr) by eauto. rewrite Z.eqb_refl.
    replace (htype_eqb ty ty) with true by (destruct ty; reflexivity). cbn [andb negb].
    apply sane_ok in LO. rewrite LO. cbn [negb]. destruct l as [|f1 l]; [discriminate|]. injection E0 as ->. rewrite ME, MD. reflexivity.
  - intros ty' dims' D. erewrite (mip_read_prefix ext dw kind wr) by eauto.
    replace (htype_eqb ty ty' && (Z.of_nat dims =? Z.of_nat dims')) with false; auto.
    symmetry. apply andb_false_iff. destruct D as [D|D]; [left|right; lia].
    destruct (htype_eqb ty ty') eqn:E; auto. apply htype_eqb_iff in E. congruence.
  - intros root path i f LT N. eapply mip_load_eq; eauto.
Qed.

(** Any MIP field of dense levels that [setup] accepts, written to a group: only what belongs to
    it is added, and any group with the same MIP data gives the field back. *)
Theorem C63_dense_round_trip : forall A V convert of_flag to_flag ty comps split join (zero : V) gzip l m0 m (g : hnode (A := A)),
  faithful convert of_flag to_flag -> made_of ty comps split join ->
  Forall (fun f => dense_reached zero f /\ box_nonempty (d_dw f) /\ int_corners (d_ext f) /\
    box_count (d_dw f) * Z.of_nat comps < 2 ^ 31 /\ (gzip = true -> 2 <= box_count (d_dw f) * Z.of_nat comps)) l ->
  Z.of_nat (List.length l) < 2 ^ 31 ->
  mip_setup d_ext d_dw l m0 = Ok m -> mip_room g ->
  exists g1, mip_h5_write BDense (fun f => dense_h5_write ty comps split gzip f (HGroup [] [])) ty comps m g = Ok (g1, true) /\ mip_rest g g1 /\
    forall g2, same_mip g1 g2 -> gives_back d_ext d_dw BDense ty comps (dense_h5_read convert ty comps split join zero) m l g2.
Proof.
  intros A V convert of_flag to_flag ty comps split join zero gzip l m0 m g FA MO FL SM MS RM.
  set (wr := fun f => dense_h5_write ty comps split gzip f (HGroup [] [])). destruct (made_small _ _ _ _ MO) as (TY & DI).
  assert (W : forall f, In f l -> level_h5 d_ext d_dw wr (body_of wr) f /\ dense_h5_read convert ty comps split join zero (body_of wr f) = Ok (Some f)).
  { intros f I. apply (proj1 (Forall_forall _ _) FL) in I as (R & N & IE & T & TW).
    destruct (C56_dense _ _ convert of_flag to_flag ty comps split join zero f gzip _ FA MO R N T TW (empty_room A)) as (g1 & W1 & _ & RD).
    pose proof (dense_reached_shape zero f R) as S.
    assert (EB : body_of wr f = g1) by (unfold body_of, wr; rewrite W1; reflexivity).
    split; [|rewrite EB; apply RD; apply same_self].
    assert (W2 := W1). rewrite (dense_prefix ty comps split gzip f _ (empty_room A) S N) in W2.
    destruct (i32 _); try discriminate. cbn [bind] in W2. destruct (chunk_ok _ _ _); [|discriminate]. injection W2 as W2.
    constructor.
    - exists true. rewrite EB. exact W1.
    - rewrite EB, <- W2. cbn [added hg_attrs app]. eapply dense_ints; eauto. eapply window_corners; eauto.
    - rewrite EB, <- W2. reflexivity.
    - rewrite EB, <- W2. reflexivity.
    - exact IE.
    - eapply window_corners; eauto. }
  destruct (mip_written A _ d_ext d_dw BDense wr (dense_h5_read convert ty comps split join zero) ty comps l m0 m g TY DI (fun f I => proj1 (W f I)) SM MS RM)
    as (g1 & WR & MR & RD).
  exists g1. split; [exact WR|]. split; [exact MR|]. intros g2 SA. destruct (RD g2 SA) as (R1 & R2 & R3). split; [exact R1|]. split; [exact R2|].
  intros root path i f LT N. rewrite (R3 root path i f LT N). rewrite (proj2 (W f (nth_error_In _ _ N))). reflexivity.
Qed.
Print Assumptions C63_dense_round_trip.

(** The reader of sparse fields, with [limit] rows of a data set in flight. *)
Definition sparse_rd {A V} convert to_flag ty comps join (zero : V) limit (g : hgroup A) : res (option (sparse V)) :=
  match sparse_h5_read convert to_flag ty comps join zero limit g with Some r => r | None => UB end.

Theorem C63_sparse_round_trip : forall A V convert of_flag to_flag ty comps split join (zero : V) eqb gzip l m0 m (g : hnode (A := A)),
  faithful convert of_flag to_flag -> made_of ty comps split join -> decides_eq eqb ->
  Forall (fun f => sparse_reached zero eqb f /\ window_ok (s_dw f) 4 /\ int_corners (s_ext f) /\
    8 ^ s_order f * Z.of_nat comps < 2 ^ 31 /\ (gzip = true -> 8 ^ s_order f * Z.of_nat comps * htype_size ty < 2 ^ 32)) l ->
  Z.of_nat (List.length l) < 2 ^ 31 ->
  mip_setup s_ext s_dw l m0 = Ok m -> mip_room g ->
  exists g1, mip_h5_write BSparse (fun f => sparse_h5_write of_flag ty comps split gzip f (HGroup [] [])) ty comps m g = Ok (g1, true) /\ mip_rest g g1 /\
    forall g2 limit, same_mip g1 g2 -> 0 < limit ->
      gives_back s_ext s_dw BSparse ty comps (sparse_rd convert to_flag ty comps join zero limit) m l g2.
Proof.
  intros A V convert of_flag to_flag ty comps split join zero eqb gzip l m0 m g FA MO DE FL SM MS RM.
  set (wr := fun f => sparse_h5_write of_flag ty comps split gzip f (HGroup [] [])). destruct (made_small _ _ _ _ MO) as (TY & DI).
  assert (W : forall f, In f l -> level_h5 s_ext s_dw wr (body_of wr) f /\
    forall limit, 0 < limit -> sparse_h5_read convert to_flag ty comps join zero limit (body_of wr f) = Some (Ok (Some f))).
  { intros f I. apply (proj1 (Forall_forall _ _) FL) in I as (R & W4 & IE & T & TW).
    destruct (C56_sparse _ _ convert of_flag to_flag ty comps split join zero eqb f gzip _ FA MO DE R W4 T TW (empty_room A)) as (g1 & W1 & _ & RD).
    pose proof (reached_shape zero eqb f DE R) as S.
    assert (EB : body_of wr f = g1) by (unfold body_of, wr; rewrite W1; reflexivity).
    split; [|intros limit L; rewrite EB; apply (RD g1 (same_self _)); auto].
    pose proof (order_nn f S) as O.
    assert (P8 : 2 ^ (s_order f * 3) = 8 ^ s_order f) by (rewrite Z.mul_comm, Z.pow_mul_r by lia; reflexivity).
    pose proof (vpb_pos ty comps split join MO f S) as VP.
    assert (I : in_int (vpb comps f) = true) by (apply in_int_iff; unfold vpb in *; lia).
    assert (W2 := W1). rewrite (sparse_write_eq of_flag ty comps split join MO f S gzip _ (empty_room A) I) in W2.
    destruct (Nat.eqb _ _ || _); [|discriminate]. injection W2 as W2.
    assert (CD : int_corners (s_dw f)).
    { destruct (ss_win _ S) as (C & _).
      assert (forall c, - 2 ^ 30 < c < 2 ^ 30 - 1 -> in_int c = true) as HI by (intros; apply in_int_iff; lia).
      split; split; try split; apply HI, C; cbn; tauto. }
    constructor.
    - exists true. rewrite EB. exact W1.
    - rewrite EB, <- W2. cbn [added hg_attrs app]. eapply sparse_ints; eauto.
    - rewrite EB, <- W2. reflexivity.
    - rewrite EB, <- W2. reflexivity.
    - exact IE.
    - exact CD. }
  assert (X : exists g1, mip_h5_write BSparse wr ty comps m g = Ok (g1, true) /\ mip_rest g g1 /\
    forall limit g2, 0 < limit -> same_mip g1 g2 -> gives_back s_ext s_dw BSparse ty comps (sparse_rd convert to_flag ty comps join zero limit) m l g2).
  { destruct (mip_written A _ s_ext s_dw BSparse wr (sparse_rd convert to_flag ty comps join zero 1) ty comps l m0 m g TY DI (fun f I => proj1 (W f I)) SM MS RM)
      as (g1 & WR & MR & _).
    exists g1. split; [exact WR|]. split; [exact MR|]. intros limit g2 L SA.
    destruct (mip_written A _ s_ext s_dw BSparse wr (sparse_rd convert to_flag ty comps join zero limit) ty comps l m0 m g TY DI (fun f I => proj1 (W f I)) SM MS RM)
      as (g1' & WR' & _ & RD). rewrite WR in WR'. injection WR' as <-.
    destruct (RD g2 SA) as (R1 & R2 & R3). split; [exact R1|]. split; [exact R2|].
    intros root path i f LT N. rewrite (R3 root path i f LT N). unfold sparse_rd. rewrite (proj2 (W f (nth_error_In _ _ N)) limit L). reflexivity. }
  destruct X as (g1 & X1 & X2 & X3). exists g1. split; [exact X1|]. split; [exact X2|]. intros g2 limit SA L. apply X3; auto.
Qed.
Print Assumptions C63_sparse_round_trip.

(** With C58: in any file, written by any calls, the layer of an accepted call that stored a
    group of a MIP field holds the same MIP data, and the path made of its partition and its
    name leads there. *)
Theorem C63_layer : forall A M ident map_put map_get (hp : nat -> M) v h0 (calls : list (hcall (A := A))) outcomes global root ord c g1,
  session ident map_put map_get hp v h0 calls outcomes global root -> any_order ord ->
  In c (h_accepted calls outcomes) -> c_user c <> [] ->
  hf_attrs (c_field c) = n_attrs g1 -> hf_links (c_field c) = n_links g1 ->
  exists f layers x part, i_open ord map_get root i_new = Ok (f, true) /\ i_layers f (c_vec c) (c_user c) (c_layer c) = Ok layers /\
    In x layers /\ h_reads_as ident map_put map_get hp x c /\
    same_mip g1 (y_group x) /\ remove_id part = c_user c /\ leads_to root (part ++ str "/" ++ c_layer c) (y_group x).
Proof.
  intros A M ident mp mg hp v h0 calls ocs gm root ord c g1 S O I NU EA EL.
  destruct (session_layer _ _ _ _ _ _ _ _ _ _ _ _ _ c S O I NU) as (f & layers & x & part & OP & RL & Ix & RX & RI & LT).
  exists f, layers, x, part. split; [exact OP|]. split; [exact RL|]. split; [exact Ix|]. split; [exact RX|]. split; [|split; [exact RI|exact LT]].
  destruct RX as (_ & _ & _ & _ & (a & b & m & G) & _). rewrite G, EA, EL. split.
  - intros n In_. cbn [n_attrs find_by]. unfold mip_attr_names in In_. cbn [map In] in In_.
    decompose [or] In_; subst; try contradiction; reflexivity.
  - reflexivity.
Qed.
Print Assumptions C63_layer.

(** So a MIP field of dense levels in a file comes back as a whole. *)
Theorem C63_dense_file : forall A V M ident map_put map_get (hp : nat -> M) v h0 (calls : list (hcall (A := A))) outcomes global root ord c
    convert of_flag to_flag ty comps split join (zero : V) gzip l m0 m g1,
  session ident map_put map_get hp v h0 calls outcomes global root -> any_order ord ->
  In c (h_accepted calls outcomes) -> c_user c <> [] ->
  faithful (A := A) convert of_flag to_flag -> made_of ty comps split join ->
  Forall (fun f => dense_reached zero f /\ box_nonempty (d_dw f) /\ int_corners (d_ext f) /\
    box_count (d_dw f) * Z.of_nat comps < 2 ^ 31 /\ (gzip = true -> 2 <= box_count (d_dw f) * Z.of_nat comps)) l ->
  Z.of_nat (List.length l) < 2 ^ 31 ->
  mip_setup d_ext d_dw l m0 = Ok m ->
  mip_h5_write BDense (fun f => dense_h5_write ty comps split gzip f (HGroup [] [])) ty comps m n_empty = Ok (g1, true) ->
  hf_attrs (c_field c) = n_attrs g1 -> hf_links (c_field c) = n_links g1 ->
  exists f layers x part, i_open ord map_get root i_new = Ok (f, true) /\ i_layers f (c_vec c) (c_user c) (c_layer c) = Ok layers /\
    In x layers /\ h_reads_as ident map_put map_get hp x c /\ remove_id part = c_user c /\
    mip_h5_read ty comps (y_group x) = Ok (Some (MipProxy BDense (mi_ext m) (mi_dw m) (map (fun f => (d_ext f, d_dw f)) l))) /\
    forall i d, nth_error l i = Some d ->
      load_h5 (dense_h5_read convert ty comps split join zero) root (part ++ str "/" ++ c_layer c) i = Ok d.
Proof.
  intros A V M ident mp mg hp v h0 calls ocs gm root ord c convert of_flag to_flag ty comps split join zero gzip l m0 m g1
    S O I NU FA MO FL SM MS W EA EL.
  destruct (C63_layer _ _ _ _ _ _ _ _ _ _ _ _ _ c g1 S O I NU EA EL) as (f & layers & x & part & OP & RL & Ix & RX & SA & RI & LT).
  assert (RM : mip_room (n_empty (A := A))) by (split; intros; reflexivity).
  destruct (C63_dense_round_trip A V convert of_flag to_flag ty comps split join zero gzip l m0 m n_empty FA MO FL SM MS RM) as (g1' & W' & _ & RD).
  rewrite W in W'. injection W' as <-. destruct (RD _ SA) as (R1 & _ & R3).
  exists f, layers, x, part. split; [exact OP|]. split; [exact RL|]. split; [exact Ix|]. split; [exact RX|]. split; [exact RI|]. split; [exact R1|].
  intros i d N. apply R3; auto.
Qed.
Print Assumptions C63_dense_file.

(** Whatever group the reader is given, as long as the numbers in it are not wider than the
    variables they are read into: it throws, returns null or returns a field with levels of
    decreasing size, and so does loading a level. *)
Theorem C63_any_group : forall A ty comps (g : hnode (A := A)), fitting_tree g -> mip_h5_read ty comps g <> UB.
Proof. intros. now apply mip_read_def. Qed.
Print Assumptions C63_any_group.
Theorem C63_load_any : forall A F (rd : hgroup A -> res (option F)) root path i, (forall g, rd g <> UB) -> load_h5 rd root path i <> UB.
Proof.
  intros A F rd root path i H. unfold load_h5. destruct (g_open _ _ _); [|discriminate]. destruct (node_at _ _); [|discriminate].
  pose proof (H (view h)) as U. destruct (rd (view h)) as [[f|]| |]; try discriminate. congruence.
Qed.
Print Assumptions C63_load_any.
Theorem C63_read_sizes : forall A ty comps (g : hnode (A := A)) p, mip_h5_read ty comps g = Ok (Some p) ->
  levels_ok (map fst (mp_levels p)) /\ nth_error (mp_levels p) 0 = Some (mp_ext p, mp_dw p).
Proof. intros A ty comps g p H. apply mip_read_levels in H as (S & N). split; auto. now apply sane_ok. Qed.
Print Assumptions C63_read_sizes.

(** A wider attribute is written past the variable. *)
Theorem C63_wide_refuted : exists g : hnode (A := Z), mip_h5_read HFloat 1 g = UB.
Proof.
  exists (HNode [(str "version", VNum false 4 [1%nat] (enc32 1)); (str "components", VNum false 4 [1%nat] (enc32 1));
    (str "bits_per_component", VNum false 4 [1%nat] (enc32 32)); (str "base_type", VStr (str "DenseField"));
    (str "extents", VNum false 8 [6%nat] (repeat 0 48))] []).
  vm_compute. reflexivity.
Qed.
Print Assumptions C63_wide_refuted.

(** A MIP field that was only constructed says it has one level but has none: writing it is
    undefined behaviour. *)
Theorem C63_new_refuted : forall A F kind (wr : F -> res (hgroup A * bool)) ty dims,
  mip_h5_write kind wr ty dims mip_new n_empty = UB.
Proof. reflexivity. Qed.
Print Assumptions C63_new_refuted.

(** A MIP field that was cleared is written without complaint, and cannot be read back: the
    reader throws. *)
Theorem C63_cleared_refuted : forall A F kind (wr : F -> res (hgroup A * bool)) ty dims m (g : hnode (A := A)),
  ty <> HChar -> (dims <= 3)%nat -> mip_room g ->
  exists g1, mip_h5_write kind wr ty dims (mip_clear m) g = Ok (g1, true) /\ mip_h5_read ty dims g1 = Exn.
Proof.
  intros A F kind wr ty dims m g TY DI RM.
  assert (ST : forall f : F, In f [] -> level_h5 (fun _ => mi_ext m) (fun _ => mi_dw m) wr (body_of wr) f) by intros f [].
  exists (stored_mip kind ty dims (body_of wr) [] (mi_ext m) (mi_dw m) g). split.
  - apply (mip_write_eq _ _ kind wr ty dims (body_of wr) [] ST); auto.
  - erewrite (mip_read_prefix _ _ kind wr ty dims (body_of wr) [] ST) by (try eassumption; try (split; reflexivity); cbn; lia).
    rewrite Z.eqb_refl. replace (htype_eqb ty ty) with true by (destruct ty; reflexivity). reflexivity.
Qed.
Print Assumptions C63_cleared_refuted.

(** What the writer of a level returns is not looked at.  A MIP field usually ends in a level of
    a single voxel; a dense one of single values cannot be stored compressed (C56): writing the
    MIP field succeeds nevertheless, its levels are listed, and loading that level throws. *)
Theorem C63_one_voxel_refuted : forall A V convert ty split join (zero : V) l m0 m i f (g : hnode (A := A)),
  made_of ty 1 split join ->
  Forall (fun f => dense_reached zero f /\ box_nonempty (d_dw f) /\ int_corners (d_ext f) /\ box_count (d_dw f) < 2 ^ 31) l ->
  Z.of_nat (List.length l) < 2 ^ 31 ->
  mip_setup d_ext d_dw l m0 = Ok m -> nth_error l i = Some f -> box_count (d_dw f) = 1 -> mip_room g ->
  exists g1, mip_h5_write BDense (fun f => dense_h5_write ty 1 split true f (HGroup [] [])) ty 1 m g = Ok (g1, true) /\
    forall g2, same_mip g1 g2 ->
      mip_h5_read ty 1 g2 = Ok (Some (MipProxy BDense (mi_ext m) (mi_dw m) (map (fun f => (d_ext f, d_dw f)) l))) /\
      forall root path, leads_to root path g2 -> load_h5 (dense_h5_read convert ty 1 split join zero) root path i = Exn.
Proof.
  intros A V convert ty split join zero l m0 m i f g MO FL SM MS N C RM.
  set (wr := fun f => dense_h5_write ty 1 split true f (HGroup (A := A) [] [])). destruct (made_small _ _ _ _ MO) as (TY & DI).
  assert (W : forall f, In f l -> level_h5 d_ext d_dw wr (body_of wr) f).
  { intros f1 I. apply (proj1 (Forall_forall _ _) FL) in I as (R & NE & IE & T).
    pose proof (dense_reached_shape zero f1 R) as S. pose proof (total_count f1 1 S NE) as TC.
    assert (I32 : in_int (dense_total 1 f1) = true) by (apply in_int_iff; unfold dense_total in *; lia).
    assert (E : exists s b, wr f1 = Ok (added (HGroup [] []) (dense_attrs ty 1 f1) s, b)).
    { unfold wr. rewrite (dense_prefix ty 1 split true f1 _ (empty_room A) S NE). unfold i32. rewrite I32. cbn [bind].
      destruct (chunk_ok _ _ _); eauto. }
    destruct E as (s & b & E). assert (EB : body_of wr f1 = added (HGroup [] []) (dense_attrs ty 1 f1) s) by (unfold body_of; rewrite E; reflexivity).
    constructor; rewrite ?EB.
    - exists b. exact E.
    - cbn [added hg_attrs app]. eapply dense_ints; eauto. eapply window_corners; eauto.
    - reflexivity.
    - reflexivity.
    - exact IE.
    - eapply window_corners; eauto. }
  destruct (mip_written A _ d_ext d_dw BDense wr (dense_h5_read convert ty 1 split join zero) ty 1 l m0 m g TY DI W SM MS RM) as (g1 & WR & _ & RD).
  exists g1. split; [exact WR|]. intros g2 SA. destruct (RD g2 SA) as (R1 & _ & R3). split; [exact R1|]. intros root path LT. rewrite (R3 root path i f LT N).
  pose proof (proj1 (Forall_forall _ _) FL _ (nth_error_In _ _ N)) as (R & _).
  destruct (C56_one_scalar_refuted A V convert ty split join zero f _ MO R C (empty_room A)) as (gb & E1 & E2).
  replace (body_of wr f) with gb by (unfold body_of, wr; rewrite E1; reflexivity). rewrite E2. reflexivity.
Qed.
Print Assumptions C63_one_voxel_refuted.

(** * Instances *)
Definition ex_levels := [get_dense ex_l0; get_dense ex_l1].
Lemma ex_levels_ok : Forall (fun f => dense_reached 0 f /\ box_nonempty (d_dw f) /\ int_corners (d_ext f) /\
  box_count (d_dw f) * Z.of_nat 1 < 2 ^ 31 /\ (true = true -> 2 <= box_count (d_dw f) * Z.of_nat 1)) ex_levels.
Proof.
  destruct C54_example as (_ & _ & F & _). unfold ex_levels. inversion F as [|? ? (A1 & A2 & A3) F1]; subst. inversion F1 as [|? ? (B1 & B2 & B3) F2]; subst.
  repeat (constructor; [split; [assumption|]; split; [assumption|]; split; [assumption|]; split; [vm_compute; reflexivity|vm_compute; discriminate]|]). constructor.
Qed.
Definition ex_mip : mip_field (dense Z) := match mip_setup d_ext d_dw ex_levels mip_new with Ok m => m | _ => mip_new end.
Definition ex_wr (f : dense Z) := dense_h5_write HFloat 1 one_split true f (HGroup (A := Z) [] []).
Definition ex_stored : hnode (A := Z) := match mip_h5_write BDense ex_wr HFloat 1 ex_mip n_empty with Ok (g, true) => g | _ => n_empty end.
(** A session that writes it between two other layers. *)
Definition ex_mcall : hcall (A := Z) :=
  HCall false (str "fire") (str "density") (HField 1 (meta_run ex_history) (str "MIPDenseField") (n_attrs ex_stored) (n_links ex_stored) Accepted).
Definition ex_mcalls := [ex_call false "fire" "density" 1; ex_mcall; ex_call true "fire" "vel" 1].
Example C63_example_session : exists root, session Z.eqb ex_put ex_get ex_hp ex_v h_new ex_mcalls [Accepted; Accepted; Accepted] meta_empty root /\
  In ex_mcall (h_accepted ex_mcalls [Accepted; Accepted; Accepted]) /\
  load_h5 (dense_h5_read z_convert HFloat 1 one_split one_join 0) root (str "fire.1/density") 1 = Ok (get_dense ex_l1).
Proof.
  eexists. split.
  { split; [reflexivity|]. split; [repeat split|]. split; [discriminate|]. split; [discriminate|]. split.
    - constructor; [apply ex_good; [reflexivity|lia]|]. constructor; [|constructor; [apply ex_good; [reflexivity|lia]|constructor]].
      split; [apply ex_usable_ok; reflexivity|]. split; [|apply (ex_good false "a" "b" 1); [reflexivity|lia]].
      split; [exact ex_storable|]. split; [apply not_in_b; reflexivity|]. split; [reflexivity|vm_compute; reflexivity].
    - eexists _, _. split; [vm_compute; reflexivity|]. split.
      + eexists _, _, [], []. split; [reflexivity|]. split; [left; split; reflexivity|reflexivity].
      + vm_compute. reflexivity. }
  split; [right; left; reflexivity|]. vm_compute. reflexivity.
Qed.
Example C63_example : faithful z_convert z_of z_to /\ made_of HFloat 1 one_split one_join /\
  mip_setup d_ext d_dw ex_levels mip_new = Ok ex_mip /\ mip_room (n_empty (A := Z)) /\
  mip_h5_write BDense ex_wr HFloat 1 ex_mip n_empty = Ok (ex_stored, true) /\
  mip_h5_read HFloat 1 ex_stored =
    Ok (Some (MipProxy BDense (Box (V3 0 0 0) (V3 3 1 0)) (Box (V3 0 0 0) (V3 3 1 0))
      [(Box (V3 0 0 0) (V3 3 1 0), Box (V3 0 0 0) (V3 3 1 0)); (Box (V3 0 0 0) (V3 1 0 0), Box (V3 0 0 0) (V3 1 0 0))])) /\
  mip_h5_read HDouble 1 ex_stored = Ok None.
Proof.
  split; [apply z_faithful|]. split; [apply one_made|]. split; [reflexivity|]. split; [split; intros; reflexivity|].
  split; [vm_compute; reflexivity|]. split; vm_compute; reflexivity.
Qed.
(** Two sparse levels. *)
Definition ex_s0 := [SOrder 2; SSize (Box (V3 0 0 0) (V3 5 1 0)) (Box (V3 0 0 0) (V3 5 1 0)); SWrite (V3 2 1 0) 9].
Definition ex_s1 := [SOrder 2; SSize (Box (V3 0 0 0) (V3 2 0 0)) (Box (V3 0 0 0) (V3 2 0 0)); SWrite (V3 1 0 0) 5].
Definition get_sparse (l : list (sop Z)) : option (sparse Z) :=
  match sparse_init 0 with Ok f0 => match sparse_run 0 Z.eqb f0 l with Ok f => Some f | _ => None end | _ => None end.
Example C63_example_sparse : exists a b m, get_sparse ex_s0 = Some a /\ get_sparse ex_s1 = Some b /\
  Forall (fun f => sparse_reached 0 Z.eqb f /\ window_ok (s_dw f) 4 /\ int_corners (s_ext f) /\
    8 ^ s_order f * Z.of_nat 1 < 2 ^ 31 /\ (true = true -> 8 ^ s_order f * Z.of_nat 1 * htype_size HFloat < 2 ^ 32)) [a; b] /\
  mip_setup s_ext s_dw [a; b] mip_new = Ok m /\ sparse_value b (V3 1 0 0) = Ok 5 /\
  exists g1, mip_h5_write BSparse (fun f => sparse_h5_write z_of HFloat 1 one_split true f (HGroup [] [])) HFloat 1 m n_empty = Ok (g1, true) /\
    load_h5 (sparse_rd z_convert z_to HFloat 1 one_join 0 3) (HNode [] [(str "x", LGroup g1)]) (str "x") 1 = Ok b.
Proof.
  eexists _, _, _. split; [vm_compute; reflexivity|]. split; [vm_compute; reflexivity|]. split.
  { constructor; [|constructor; [|constructor]].
    - split; [exists ex_s0; eexists; split; [apply slegalb_ok; vm_compute; reflexivity|split; [reflexivity|vm_compute; reflexivity]]|].
      split; [apply window_okb_ok; vm_compute; reflexivity|]. split; [repeat split|]. split; [vm_compute; reflexivity|]. intros _. vm_compute. reflexivity.
    - split; [exists ex_s1; eexists; split; [apply slegalb_ok; vm_compute; reflexivity|split; [reflexivity|vm_compute; reflexivity]]|].
      split; [apply window_okb_ok; vm_compute; reflexivity|]. split; [repeat split|]. split; [vm_compute; reflexivity|]. intros _. vm_compute. reflexivity. }
  split; [vm_compute; reflexivity|]. split; [vm_compute; reflexivity|]. eexists. split.
  - vm_compute. reflexivity.
  - vm_compute. reflexivity.
Qed.
(** The last level of a MIP field is a voxel. *)
Definition ex_l2 : list (dop Z) := [DSize (Box (V3 0 0 0) (V3 0 0 0)) (Box (V3 0 0 0) (V3 0 0 0)); DClear 8].
Example C63_example_one_voxel : exists m, mip_setup d_ext d_dw [get_dense ex_l0; get_dense ex_l1; get_dense ex_l2] mip_new = Ok m /\
  dense_reached 0 (get_dense ex_l2) /\ box_count (d_dw (get_dense ex_l2)) = 1 /\ dense_value (get_dense ex_l2) (V3 0 0 0) = Ok 8.
Proof.
  eexists. split; [vm_compute; reflexivity|]. split; [|split; reflexivity]. exists ex_l2. split; [|reflexivity].
  cbn. split; [|auto]. split; cbn; [|lia]. intros c H. decompose [or] H; subst; lia || contradiction.
Qed.
