(** C21, C22: sparse and dense fields in files. *)
From Coq Require Import ZArith List Bool String Lia.
From Verif Require Import Model.Base Model.FieldM Model.DenseM Model.SparseM Spec.VoxelSpec Spec.DenseSpec Spec.SparseSpec
  Proof.BaseP Proof.FieldP Proof.DenseP Proof.SparseP Proof.SparseP4
  Model.OgawaM Spec.OgawaSpec Model.OgM Spec.OgSpec Proof.OgP Model.BlockIOM Spec.BlockIOSpec
  Props.BlockIOProps Model.FieldIOM Spec.FieldIOSpec Proof.FieldIOP Proof.FieldIOP2.
Import ListNotations.
Open Scope Z_scope.

(** * C22 *)

(** Any dense field with a non-empty window, written into a group among any other entries,
    reads back as the same field: extents, window and every value. *)
Theorem C22_round_trip : forall V ty enc dec (zero : V) dims bits f g pre post,
  storable ty enc dec -> dense_reached zero f -> box_nonempty (d_dw f) -> int_corners (d_ext f) ->
  entries_ok pre -> unrelated pre -> entries_ok post ->
  exists layer, dense_layer ty enc dims bits f = Ok layer /\
    dense_read ty enc dec zero (layer_group g pre layer post) = Ok (Some f).
Proof.
  intros V ty enc dec zero dims bits f g pre post st (l & L & R) N IE P U Q.
  destruct (refines_run zero l _ _ (refines_init zero) L) as (f' & R' & [S _ _ _]). rewrite R in R'. injection R' as <-.
  eexists. split; [apply dense_layer_eq; auto|]. apply dense_read_eq; auto.
Qed.
Print Assumptions C22_round_trip.

Definition byte_enc (v : Z) : bytes := [v].
Definition byte_dec (b : bytes) : Z := hd 0 b.
Lemma byte_storable : storable TUint8 byte_enc byte_dec.
Proof. split; [discriminate|]. intros v; split; reflexivity. Qed.
Definition ex_post : list entry := [EGroup (str "metadata") []; EAttr (str "data") TString (str "x")].
Definition ex_pre : list entry := [EAttr (str "class_name") TString (str "DenseField")].
Definition ex_ops : list (dop Z) :=
  [DSize (Box (V3 (-3) 0 0) (V3 4 4 4)) (Box (V3 (-1) 2 3) (V3 1 3 4)); DClear 7; DWrite (V3 0 3 3) 9].
Example C22_example : exists f, dense_reached 0 f /\ box_nonempty (d_dw f) /\ int_corners (d_ext f) /\
  entries_ok ex_pre /\ unrelated ex_pre /\ entries_ok ex_post /\ dense_value f (V3 0 3 3) = Ok 9.
Proof.
  eexists. split; [exists ex_ops; split; [|reflexivity]|].
  - cbn. split; [|split; [auto|split; [|auto]]].
    + split; cbn; [|lia]. intros c H. decompose [or] H; subst; lia || contradiction.
    + unfold in_box; cbn; lia.
  - split; [unfold box_nonempty; cbn; lia|]. split; [repeat split|]. split.
    { split; [repeat constructor; cbn; try discriminate; lia|]. intros n ty v [E|[]]. injection E as <- <- <-. cbn. lia. }
    split. { repeat constructor. cbn. intros H. decompose [or] H; try discriminate. contradiction. }
    split; [|reflexivity].
    split; [repeat constructor; cbn; try discriminate; lia|]. intros n ty v [E|[E|[]]]; [discriminate|]. injection E as <- <- <-. cbn. lia.
Qed.

(** Asking for another value type gives a null field, not garbage. *)
Theorem C22_wrong_type : forall V ty enc dec V' ty' enc' dec' (zero : V) (zero' : V') dims bits f g pre post,
  storable ty enc dec -> type_code ty' <> type_code ty ->
  dense_reached zero f -> box_nonempty (d_dw f) ->
  entries_ok pre -> unrelated pre -> entries_ok post ->
  exists layer, dense_layer ty enc dims bits f = Ok layer /\
    dense_read ty' enc' dec' zero' (layer_group g pre layer post) = Ok None.
Proof.
  intros V ty enc dec V' ty' enc' dec' zero zero' dims bits f g pre post st NT (l & L & R) N P U Q.
  destruct (refines_run zero l _ _ (refines_init zero) L) as (f' & R' & [S _ _ _]). rewrite R in R'. injection R' as <-.
  eexists. split; [eapply dense_layer_eq; eauto|]. unfold layer_group. set (t := node_group g _).
  assert (C : entries_ok (dense_core ty enc dims bits f)) by (apply entries_all; reflexivity).
  assert (A : forall n ty0 v, In n layer_names -> lookup is_attr n (dense_core ty enc dims bits f) = Some (EAttr n ty0 v) -> need_attr t n ty0 = Ok v)
    by (intros; apply need_attr_core; auto).
  destruct (find_ds_core g pre (dense_core ty enc dims bits f) post P C Q U (str "data") ty [enc_all enc (d_data f)] false)
    as (_ & FT & DT); [in_names|reflexivity|]. fold t in FT, DT. cbv beta zeta iota in FT, DT.
  unfold dense_read.
  rewrite (A (str "version") _ (enc32 1)) by (in_names || reflexivity). cbn [bind].
  rewrite dec_i32_enc by reflexivity. cbn [negb Z.eqb Pos.eqb].
  rewrite (A (str "extents_min") _ (enc_v3 (bmin (d_ext f)))) by (in_names || reflexivity). cbn [bind].
  rewrite (A (str "extents_max") _ (enc_v3 (bmax (d_ext f)))) by (in_names || reflexivity). cbn [bind].
  rewrite (A (str "data_window_min") _ (enc_v3 (bmin (d_dw f)))) by (in_names || reflexivity). cbn [bind].
  rewrite (A (str "data_window_max") _ (enc_v3 (bmax (d_dw f)))) by (in_names || reflexivity). cbn [bind].
  rewrite (A (str "components") _ (enc32 dims)) by (in_names || reflexivity). cbn [bind].
  rewrite DT. cbn [bind]. replace (type_code ty' =? type_code ty) with false by lia. reflexivity.
Qed.
Print Assumptions C22_wrong_type.

(** A dense field that was never given a size is written without complaint and then cannot
    be read. *)
Theorem C22_unsized_refuted : exists layer,
  dense_layer TUint8 byte_enc 1 8 (@dense_init Z) = Ok layer /\
  dense_read TUint8 byte_enc byte_dec 0 (layer_group [108] [] layer []) = Exn.
Proof. eexists. split; [reflexivity|]. vm_compute. reflexivity. Qed.
Print Assumptions C22_unsized_refuted.

(** A file whose data element is longer than its window makes the reader write past the end
    of the new field's buffer: the attributes are those of a 1x1x1 field. *)
Definition small : dense Z := Dense (Box (V3 0 0 0) (V3 0 0 0)) (Box (V3 0 0 0) (V3 0 0 0)) (V3 1 1 1) 1 [5].
Theorem C22_oversize_refuted : exists t, dense_read TUint8 byte_enc byte_dec 0 t = UB /\
  exists layer extra, dense_layer TUint8 byte_enc 1 8 small = Ok (layer ++ [node_dataset G_DATASET (str "data") TUint8 [[5]]]) /\
    t = layer_group [108] [] (layer ++ [node_dataset G_DATASET (str "data") TUint8 [[5] ++ extra]]) [].
Proof.
  eexists. split; [|do 2 eexists; split; [|reflexivity]].
  2:{ unfold dense_layer. cbn [bind small d_mem vx vy vz d_data].
      match goal with |- context [node_dataset] => idtac end.
      instantiate (1 := removelast (match dense_layer TUint8 byte_enc 1 8 small with Ok l => l | _ => [] end)). reflexivity. }
  instantiate (1 := [6]). vm_compute. reflexivity.
Qed.
Print Assumptions C22_oversize_refuted.

(** * C21 *)

(** Any sparse field that can be built with the public operations, written by one thread or
    with no unallocated block between allocated ones, under every schedule of the writing
    threads, reads back as the same field under every schedule of the reading threads:
    extents, window, order, allocation, empty values and all the data.  The window must also
    be one a field of block order 4 can have ([C21_order_4_refuted] shows why). *)
Theorem C21_round_trip : forall V ty enc dec (zero : V) eqb dims bits compress uncompress bound f g pre post reload T sched,
  storable ty enc dec -> lossless compress uncompress bound ->
  decides_eq eqb -> sparse_reached zero eqb f -> window_ok (s_dw f) 4 -> int_corners (s_ext f) ->
  entries_ok pre -> unrelated pre -> entries_ok post ->
  let n := List.length (s_blocks f) in
  (no_gap n (alloc_of f) \/ T = 1%nat) -> (0 < T)%nat -> sched_of T sched ->
  (forall t, (t < T)%nat -> w_pc (wrun n (alloc_of f) reload (w_init n (alloc_of f)) sched) t = WDone) ->
  exists layer, sparse_write_layer ty enc dims bits compress f reload sched = Ok layer /\
    let t := layer_group g pre layer post in
    (* reading everything *)
    (forall T' sched', (0 < T')%nat -> sched_of T' sched' ->
       exists pc, read_threads ty enc dec zero t sched' = Ok pc /\
         ((forall k, (k < T')%nat -> pc k = RDone) ->
            sparse_read ty enc dec zero uncompress bound t sched' = Ok (Some f))) /\
    (* dynamic loading *)
    (exists h, lazy_read ty enc dec zero t = Ok (Some h) /\
       s_ext (h_field h) = s_ext f /\ s_dw (h_field h) = s_dw f /\ s_order (h_field h) = s_order f /\
       map b_alloc (s_blocks (h_field h)) = map b_alloc (s_blocks f) /\
       map b_empty (s_blocks (h_field h)) = map b_empty (s_blocks f) /\
       forall p, lazy_value ty enc dec uncompress bound t h p = sparse_value f p).
Proof.
  intros V ty enc dec zero eqb dims bits compress uncompress bound f g pre post reload T sched st zl De Rf W4 IE P U Q n G T0 Sc D.
  pose proof (reached_shape zero eqb f De Rf) as S.
  assert (O : w_out (wrun n (alloc_of f) reload (w_init n (alloc_of f)) sched) = allocated n (alloc_of f)).
  { destruct G as [G| ->].
    - destruct (C19_no_gap_order n (alloc_of f) reload T sched G T0 Sc) as [_ H]. now apply H.
    - assert (sched = repeat 0%nat (List.length sched)) as ES.
      { clear - Sc. induction Sc; cbn; auto. rewrite <- IHSc. f_equal. lia. }
      destruct (C19_one_thread n (alloc_of f) reload (List.length sched)) as (_ & _ & H & _).
      rewrite <- ES in H. apply H. apply (D 0%nat). lia. }
  eexists. split.
  { unfold sparse_write_layer. fold n. rewrite O. apply sparse_layer_eq; auto. }
  intros t. split.
  - intros T' sched' T0' Sc'. eapply read_eq; eauto.
  - destruct (lazy_eq ty enc dec zero dims bits st compress uncompress bound zl f g pre post S IE P U Q W4 (V3 0 0 0)) as (h & E & F & _).
    exists h. split; [exact E|]. rewrite F. cbn [strip_f s_ext s_dw s_order s_blocks].
    rewrite !map_map. cbn [strip b_alloc b_empty]. repeat (split; [reflexivity|]).
    intros p. destruct (lazy_eq ty enc dec zero dims bits st compress uncompress bound zl f g pre post S IE P U Q W4 p) as (h' & E' & F' & LV).
    unfold t, layer_group. fold (sparse_core ty enc dims bits compress f) in *. rewrite E in E'. injection E' as <-. exact LV.
Qed.
Print Assumptions C21_round_trip.

(** A stand-in for zlib. *)
Definition zc (b : bytes) : bytes := 120 :: b.
Definition zu (n : nat) (b : bytes) : option bytes := match b with 120 :: r => Some r | _ => None end.
Lemma z_lossless : lossless zc zu S.
Proof. intros b. split; [discriminate|]. split; [apply le_n|reflexivity]. Qed.

Definition ex_sops : list (sop Z) :=
  [SOrder 1; SSize (Box (V3 0 0 0) (V3 9 9 9)) (Box (V3 (-1) 2 3) (V3 4 3 4)); SClear 7; SWrite (V3 0 3 3) 9; SWrite (V3 2 3 4) 11].
Definition ex_sparse : res (sparse Z) := let* f := sparse_init 0 in sparse_run 0 Z.eqb f ex_sops.
Lemma z_eqb_ok : decides_eq Z.eqb.
Proof. intros a b. apply Z.eqb_eq. Qed.
Lemma ex_reached ops f0 f : sparse_init 0 = Ok f0 -> slegalb 0 (sspec_init 0) ops = true -> sparse_run 0 Z.eqb f0 ops = Ok f ->
  sparse_reached 0 Z.eqb f.
Proof. intros. exists ops, f0. split; [now apply slegalb_ok|]. split; auto. Qed.

Example C21_example : exists f, ex_sparse = Ok f /\ sparse_reached 0 Z.eqb f /\ window_ok (s_dw f) 4 /\ int_corners (s_ext f) /\
  no_gap (List.length (s_blocks f)) (alloc_of f) /\ map b_alloc (s_blocks f) = [true; true; false] /\
  (forall t, (t < 1)%nat -> w_pc (wrun (List.length (s_blocks f)) (alloc_of f) true (w_init (List.length (s_blocks f)) (alloc_of f)) (repeat 0%nat 70)) t = WDone) /\
  (forall t, (t < 2)%nat -> exists layer, sparse_write_layer TUint8 byte_enc 1 8 zc f true (repeat 0%nat 70) = Ok layer /\
     exists pc, read_threads TUint8 byte_enc byte_dec 0 (layer_group [108] [] layer []) (flat_map (fun _ => [0; 1]%nat) (repeat tt 9)) = Ok pc /\ pc t = RDone).
Proof.
  eexists. split; [vm_compute; reflexivity|]. split.
  { eapply ex_reached with (ops := ex_sops); [vm_compute; reflexivity..]. }
  split; [apply window_okb_ok; vm_compute; reflexivity|]. split; [repeat split|]. split.
  { intros i j k H1 H2. cbn in H2. destruct k as [|[|[|k]]]; try lia; destruct i as [|[|i]]; try lia; destruct j as [|[|j]]; try lia; cbn; auto. }
  split; [reflexivity|]. split.
  - intros t Ht. assert (t = 0)%nat as -> by lia. vm_compute. reflexivity.
  - intros t Ht. eexists. split; [vm_compute; reflexivity|]. eexists. split; [vm_compute; reflexivity|].
    destruct t as [|[|t]]; [reflexivity|reflexivity|lia].
Qed.

(** With an unallocated block between allocated ones and several threads, the writer can
    store blocks in the wrong order, and the file then reads back with their contents
    exchanged: no exception, wrong voxels. *)
Definition gap_sops : list (sop Z) :=
  [SOrder 0; SSize (Box (V3 0 0 0) (V3 4 0 0)) (Box (V3 0 0 0) (V3 4 0 0));
   SWrite (V3 0 0 0) 10; SWrite (V3 1 0 0) 11; SWrite (V3 3 0 0) 13; SWrite (V3 4 0 0) 14].
Theorem C21_gap_refuted : exists f layer f' T sched,
  sparse_reached 0 Z.eqb f /\ sched_of T sched /\
  (forall t, (t < T)%nat -> w_pc (wrun 5 (alloc_of f) false (w_init 5 (alloc_of f)) sched) t = WDone) /\
  sparse_write_layer TUint8 byte_enc 1 8 zc f false sched = Ok layer /\
  sparse_read TUint8 byte_enc byte_dec 0 zu S (layer_group [108] [] layer []) (repeat 0%nat 20) = Ok (Some f') /\
  (exists pc, read_threads TUint8 byte_enc byte_dec 0 (layer_group [108] [] layer []) (repeat 0%nat 20) = Ok pc /\ pc 0%nat = RDone) /\
  sparse_value f (V3 3 0 0) = Ok 13 /\ sparse_value f' (V3 3 0 0) = Ok 14.
Proof.
  assert (exists f0 f, sparse_init 0 = Ok f0 /\ sparse_run 0 Z.eqb f0 gap_sops = Ok f /\ f = match (let* f := sparse_init 0 in sparse_run 0 Z.eqb f gap_sops) with Ok f => f | _ => f0 end) as (f0 & f & E0 & E & Ef).
  { do 2 eexists. split; [reflexivity|]. split; [vm_compute; reflexivity|]. vm_compute. reflexivity. }
  vm_compute in Ef. exists f.
  eexists (match sparse_write_layer TUint8 byte_enc 1 8 zc f false swap_sched with Ok l => l | _ => [] end), _, 4%nat, swap_sched.
  split; [eapply ex_reached with (ops := gap_sops); eauto; vm_compute; reflexivity|]. subst f. split.
  { apply Forall_forall. intros x H. vm_compute in H. repeat (destruct H as [<-|H]; [lia|]). easy. }
  split; [intros t Ht; destruct t as [|[|[|[|t]]]]; try lia; vm_compute; reflexivity|].
  split; [vm_compute; reflexivity|]. split; [vm_compute; reflexivity|].
  split; [eexists; split; [vm_compute; reflexivity|reflexivity]|]. split; reflexivity.
Qed.
Print Assumptions C21_gap_refuted.

(** The reader sets the size while the block order is still the default 4: a field of block
    order 10 with a large window is written correctly and cannot be read (the block count
    overflows [int]), although it exists in memory. *)
Definition big_box : box := Box (V3 0 0 0) (V3 32767 32767 32767).
Theorem C21_order_4_refuted : exists f, sparse_reached 0 Z.eqb f /\ s_order f = 10 /\ s_dw f = big_box /\
  exists layer, sparse_layer TUint8 byte_enc 1 8 zc f (allocated (List.length (s_blocks f)) (alloc_of f)) = Ok layer /\
  forall sched, sparse_read TUint8 byte_enc byte_dec 0 zu S (layer_group [108] [] layer []) sched = UB.
Proof.
  destruct (setup_blocks_ok 0 big_box big_box 10) as (f & E & Sh & X1 & X2 & X3 & X4).
  { unfold order_ok; lia. } { apply window_okb_ok. vm_compute. reflexivity. }
  assert (R : sparse_reached 0 Z.eqb f).
  { exists [SOrder 10; SSize big_box big_box]. eexists. split; [apply slegalb_ok; vm_compute; reflexivity|].
    split; [reflexivity|]. unfold sparse_run. cbn [fold_left].
    replace (sparse_init 0) with (setup_blocks 0 (Box (V3 0 0 0) (V3 (-1) (-1) (-1))) (Box (V3 0 0 0) (V3 (-1) (-1) (-1))) 4) by reflexivity.
    cbn. exact E. }
  exists f. split; auto. split; auto. split; auto.
  eexists. split; [apply sparse_layer_eq; auto|]. intros sched. unfold sparse_read, layer_group.
  rewrite (header_eq0 TUint8 byte_enc byte_dec 0 1 8 byte_storable zc f [108] [] []); auto.
  - rewrite X1, X2. reflexivity.
  - rewrite X1. repeat split.
  - split; [constructor|intros ? ? ? []].
  - constructor.
  - split; [constructor|intros ? ? ? []].
Qed.
Print Assumptions C21_order_4_refuted.

(** Writing a field that was read with dynamic loading reads the blocks' null pointers. *)
Theorem C21_write_lazy_refuted : forall V ty enc dec (zero : V) eqb dims bits compress uncompress bound f g pre post,
  storable ty enc dec -> lossless compress uncompress bound ->
  decides_eq eqb -> sparse_reached zero eqb f -> window_ok (s_dw f) 4 -> int_corners (s_ext f) ->
  entries_ok pre -> unrelated pre -> entries_ok post ->
  let n := List.length (s_blocks f) in
  (exists i, (i < n)%nat /\ alloc_of f i = true) ->
  exists layer h, sparse_layer ty enc dims bits compress f (allocated n (alloc_of f)) = Ok layer /\
    lazy_read ty enc dec zero (layer_group g pre layer post) = Ok (Some h) /\
    sparse_layer ty enc dims bits compress (h_field h) (allocated n (alloc_of (h_field h))) = UB.
Proof.
  intros V ty enc dec zero eqb dims bits compress uncompress bound f g pre post st zl De Rf W4 IE P U Q n (i & Hi & A).
  pose proof (reached_shape zero eqb f De Rf) as S.
  destruct (lazy_eq ty enc dec zero dims bits st compress uncompress bound zl f g pre post S IE P U Q W4 (V3 0 0 0)) as (h & E & F & _).
  do 2 eexists. split; [apply sparse_layer_eq; auto|]. split; [exact E|]. rewrite F.
  assert (N : In i (allocated n (alloc_of (strip_f f)))).
  { apply filter_In. split; [apply in_seq; lia|]. now rewrite alloc_strip. }
  assert (B : forall k, block_bytes enc (strip_f f) k = UB).
  { intros k. unfold block_bytes, strip_f. cbn [s_blocks]. rewrite nth_error_map. destruct (nth_error (s_blocks f) k); reflexivity. }
  unfold sparse_layer. destruct (allocated n (alloc_of (strip_f f))) as [|j l]; [destruct N|].
  cbn [mmap]. rewrite B. reflexivity.
Qed.
Print Assumptions C21_write_lazy_refuted.

(** A file that states more blocks than its window has (consistently in [block_res] and
    [num_blocks]) makes the reader write past the end of the new field's block array. *)
Definition one_block : sparse Z :=
  Sparse (Box (V3 0 0 0) (V3 0 0 0)) (Box (V3 0 0 0) (V3 0 0 0)) 0 (V3 2 1 1) 2 [Block false 5 None; Block false 6 None].
Theorem C21_block_count_refuted : exists layer,
  sparse_layer TUint8 byte_enc 1 8 zc one_block [] = Ok layer /\
  forall sched, sparse_read TUint8 byte_enc byte_dec 0 zu S (layer_group [108] [] layer []) sched = UB.
Proof. eexists. split; [reflexivity|]. intros sched. unfold sparse_read. 
  replace (sparse_header _ _ _ _ _) with (@UB (option (@header Z))) by (vm_compute; reflexivity). reflexivity.
Qed.
Print Assumptions C21_block_count_refuted.
