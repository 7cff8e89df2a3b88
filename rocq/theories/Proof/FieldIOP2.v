From Coq Require Import ZArith List Bool String Lia.
From Verif Require Import Model.Base Model.FieldM Model.DenseM Model.SparseM Spec.VoxelSpec Spec.DenseSpec Spec.SparseSpec
  Proof.BaseP Proof.FieldP Proof.DenseP Proof.SparseP Proof.SparseP4
  Model.OgawaM Spec.OgawaSpec Proof.OgawaP Model.OgM Spec.OgSpec Proof.OgP Props.OgProps Model.BlockIOM Spec.BlockIOSpec
  Proof.BlockIOP3 Props.BlockIOProps Model.FieldIOM Spec.FieldIOSpec Proof.FieldIOP.
Import ListNotations.
Open Scope Z_scope.

Ltac in_names := unfold layer_names; cbn [map In]; tauto.
Lemma entries_all l : forallb (fun e => plainb (e_name e) && match e with EAttr _ ty v => Nat.eqb (List.length v) (type_size ty) && negb (type_code ty =? 16) | _ => true end) l = true ->
  entries_ok l.
Proof.
  intros H. rewrite forallb_forall in H. split.
  - apply Forall_forall. intros e I. apply H in I. apply andb_true_iff in I as [I _]. now apply plainb_ok.
  - intros n ty v I. apply H in I. apply andb_true_iff in I as [_ I]. apply andb_true_iff in I as [I J].
    apply Nat.eqb_eq in I. destruct ty; auto. discriminate J.
Qed.

Section D.
Context {V : Type}.
Variables (ty : ogtype) (enc : V -> bytes) (dec : bytes -> V) (zero : V) (dims bits : Z).
Hypothesis st : storable ty enc dec.

Definition dense_core (f : dense V) : list entry :=
  [ EAttr (str "version") TInt32 (enc32 1);
    EAttr (str "extents_min") TVecI32 (enc_v3 (bmin (d_ext f)));
    EAttr (str "extents_max") TVecI32 (enc_v3 (bmax (d_ext f)));
    EAttr (str "data_window_min") TVecI32 (enc_v3 (bmin (d_dw f)));
    EAttr (str "data_window_max") TVecI32 (enc_v3 (bmax (d_dw f)));
    EAttr (str "components") TInt32 (enc32 dims);
    EAttr (str "bits_per_component") TInt32 (enc32 bits);
    EData (str "data") ty [enc_all enc (d_data f)] ].

Lemma shape_res (f : dense V) : shape f -> box_nonempty (d_dw f) ->
  0 < vx (d_mem f) /\ 0 < vy (d_mem f) /\ 0 < vz (d_mem f) /\ in_int (vx (d_mem f) * vy (d_mem f)) = true /\
  in_int (vx (d_mem f) * vy (d_mem f) * vz (d_mem f)) = true /\ d_data f <> [].
Proof.
  intros S N. pose proof (sh_int _ S) as I. pose proof (sh_len _ S N) as L. rewrite (sh_mem _ S) in *.
  destruct I as (_ & A & B). unfold data_resolution, v3_add, v3_sub, box_nonempty in *. cbn [vx vy vz] in *.
  rewrite !in_int_iff.
  assert (0 < (vx (bmax (d_dw f)) - vx (bmin (d_dw f)) + 1) * (vy (bmax (d_dw f)) - vy (bmin (d_dw f)) + 1) *
     (vz (bmax (d_dw f)) - vz (bmin (d_dw f)) + 1)) by (repeat apply Z.mul_pos_pos; lia).
  split; [lia|]. split; [lia|]. split; [lia|]. split; [lia|]. split; [lia|].
  intros E. rewrite E in L. cbn in L. lia.
Qed.

Lemma dense_layer_eq (f : dense V) : shape f -> box_nonempty (d_dw f) ->
  dense_layer ty enc dims bits f = Ok (map written (dense_core f)).
Proof.
  intros S N. destruct (shape_res f S N) as (X & Y & Z0 & I1 & I2 & _). pose proof (sh_len _ S N) as L.
  unfold dense_layer, i32. rewrite I1. cbn [bind]. rewrite I2. cbn [bind]. rewrite <- L, Z.ltb_irrefl, Nat2Z.id, firstn_all.
  reflexivity.
Qed.

Lemma window_corners (f : dense V) : shape f -> int_corners (d_dw f).
Proof.
  intros S. destruct (sh_int _ S) as (C & _).
  assert (forall c, - 2 ^ 30 < c < 2 ^ 30 - 1 -> in_int c = true) as H by (intros; apply in_int_iff; lia).
  split; split; try split; apply H, C; cbn; tauto.
Qed.

Lemma dense_read_eq (f : dense V) g pre post : shape f -> box_nonempty (d_dw f) -> int_corners (d_ext f) ->
  entries_ok pre -> unrelated pre -> entries_ok post ->
  dense_read ty enc dec zero (node_group g (map written pre ++ map written (dense_core f) ++ map written post)) = Ok (Some f).
Proof.
  intros S N IE P U Q. set (t := node_group g _).
  assert (C : entries_ok (dense_core f)) by (apply entries_all; reflexivity).
  assert (A : forall n ty v, In n layer_names -> lookup is_attr n (dense_core f) = Some (EAttr n ty v) -> need_attr t n ty = Ok v)
    by (intros; apply need_attr_core; auto).
  destruct (find_ds_core g pre (dense_core f) post P C Q U (str "data") ty [enc_all enc (d_data f)] false)
    as (_ & FT & DT); [in_names|reflexivity|]. fold t in FT, DT. cbv beta zeta iota in FT, DT.
  unfold dense_read.
  rewrite (A (str "version") _ (enc32 1)) by (in_names || reflexivity). cbn [bind].
  rewrite dec_i32_enc by reflexivity. cbn [negb Z.eqb Pos.eqb].
  rewrite (A (str "extents_min") _ (enc_v3 (bmin (d_ext f)))) by (in_names || reflexivity). cbn [bind].
  rewrite (A (str "extents_max") _ (enc_v3 (bmax (d_ext f)))) by (in_names || reflexivity). cbn [bind].
  rewrite (A (str "data_window_min") _ (enc_v3 (bmin (d_dw f)))) by (in_names || reflexivity). cbn [bind].
  rewrite (A (str "data_window_max") _ (enc_v3 (bmax (d_dw f)))) by (in_names || reflexivity). cbn [bind].
  rewrite (A (str "components") _ (enc32 dims)) by (in_names || reflexivity). cbn [bind].
  rewrite DT. cbn [bind]. rewrite Z.eqb_refl. cbn [negb].
  destruct (window_corners f S) as [W1 W2]. destruct IE as [E1 E2]. rewrite !dec_v3_enc by auto.
  replace (Box (bmin (d_ext f)) (bmax (d_ext f))) with (d_ext f) by (destruct (d_ext f); auto).
  replace (Box (bmin (d_dw f)) (bmax (d_dw f))) with (d_dw f) by (destruct (d_dw f); auto).
  destruct (dense_set_size_ok zero (d_ext f) (d_dw f) dense_init (sh_int _ S)) as (f' & th & E & S' & X1 & X2 & T & _).
  rewrite E. cbn [bind]. destruct th; [exfalso; apply T; auto|].
  rewrite FT. cbn [bind].
  assert (M : d_mem f' = d_mem f) by (rewrite (sh_mem _ S'), (sh_mem _ S), X2; auto).
  assert (MXY : d_memXY f' = d_memXY f) by (rewrite (sh_xy _ S'), (sh_xy _ S), M; auto).
  assert (L : List.length (d_data f') = List.length (d_data f)).
  { apply Nat2Z.inj. rewrite (sh_len _ S'), (sh_len _ S), M; auto. rewrite X2; auto. }
  rewrite get_values_same; auto.
  - cbn [bind]. rewrite X1, X2, M, MXY. destruct f; auto.
  - apply layer_plain. in_names.
  - apply (shape_res f S N).
Qed.
End D.

Section Sp.
Context {V : Type}.
Variables (ty : ogtype) (enc : V -> bytes) (dec : bytes -> V) (zero : V) (dims bits : Z).
Hypothesis st : storable ty enc dec.
Variables (compress : bytes -> bytes) (uncompress : nat -> bytes -> option bytes) (bound : nat -> nat).
Hypothesis zl : lossless compress uncompress bound.

Definition data_at (f : sparse V) (i : nat) : bytes :=
  match nth_error (s_blocks f) i with Some b => match b_data b with Some d => enc_all enc d | None => [] end | None => [] end.
Definition stored (f : sparse V) : list bytes :=
  map (fun i => compress (data_at f i)) (allocated (List.length (s_blocks f)) (alloc_of f)).
Definition sparse_core (f : sparse V) : list entry :=
  [ EAttr (str "version") TInt32 (enc32 1);
    EAttr (str "extents_min") TVecI32 (enc_v3 (bmin (s_ext f)));
    EAttr (str "extents_max") TVecI32 (enc_v3 (bmax (s_ext f)));
    EAttr (str "data_window_min") TVecI32 (enc_v3 (bmin (s_dw f)));
    EAttr (str "data_window_max") TVecI32 (enc_v3 (bmax (s_dw f)));
    EAttr (str "components") TUint8 (enc8 dims);
    EAttr (str "bits_per_component") TUint8 (enc8 bits);
    EAttr (str "block_order") TUint8 (enc8 (s_order f));
    EAttr (str "num_blocks") TUint32 (enc32 (Z.of_nat (List.length (s_blocks f))));
    EAttr (str "block_res") TVecI32 (enc_v3 (s_bres f));
    EAttr (str "data_is_compressed") TUint8 (enc8 1);
    EData (str "block_is_allocated_data") TUint8 [map (fun b => if b_alloc b then 1 else 0) (s_blocks f)];
    EData (str "block_empty_value_data") ty [enc_all enc (map b_empty (s_blocks f))];
    EAttr (str "num_occupied_blocks") TUint32 (enc32 (Z.of_nat (List.length (filter b_alloc (s_blocks f)))));
    ECData (str "data") ty (stored f) ].

Lemma alloc_of_in (f : sparse V) i b : nth_error (s_blocks f) i = Some b -> alloc_of f i = b_alloc b.
Proof. unfold alloc_of. now intros ->. Qed.

Lemma alloc_data (f : sparse V) i : sshape f -> alloc_of f i = true ->
  exists b d, nth_error (s_blocks f) i = Some b /\ b_data b = Some d /\
    Z.of_nat (List.length d) = 2 ^ s_order f * 2 ^ s_order f * 2 ^ s_order f.
Proof.
  intros S A. unfold alloc_of in A. destruct (nth_error (s_blocks f) i) as [b|] eqn:E; [|discriminate].
  pose proof (proj1 (Forall_forall _ _) (ss_blk _ S) b (nth_error_In _ _ E)) as B. unfold block_shape in B.
  rewrite A in B. destruct B as (d & B & L). eauto.
Qed.

Lemma mmap_blocks (f : sparse V) l : sshape f -> (forall i, In i l -> alloc_of f i = true) ->
  mmap (block_bytes enc f) l = Ok (map (data_at f) l).
Proof.
  intros S. induction l as [|i l IH]; intros H; auto. cbn [mmap map].
  destruct (alloc_data f i S) as (b & d & E & B & _); [apply H; simpl; auto|].
  unfold block_bytes at 1, data_at at 1. rewrite E, B. cbn [bind]. rewrite IH; auto. intros; apply H; simpl; auto.
Qed.

Lemma sparse_layer_eq (f : sparse V) : sshape f ->
  sparse_layer ty enc dims bits compress f (allocated (List.length (s_blocks f)) (alloc_of f)) = Ok (map written (sparse_core f)).
Proof.
  intros S. unfold sparse_layer. rewrite mmap_blocks; auto.
  - cbn [bind]. unfold sparse_core, stored. cbn [map written]. rewrite map_map. reflexivity.
  - intros i I. apply filter_In in I. tauto.
Qed.

Lemma filter_len_le {A} (p : A -> bool) l : (List.length (filter p l) <= List.length l)%nat.
Proof. induction l as [|x l IH]; cbn; auto. destruct (p x); cbn; lia. Qed.
Lemma filter_map_len {A B} (h : A -> B) (p : B -> bool) l :
  List.length (filter p (map h l)) = List.length (filter (fun x => p (h x)) l).
Proof. induction l as [|x l IH]; auto. cbn. destruct (p (h x)); cbn; auto. Qed.

(** * Header *)
Definition strip (b : block V) : block V := Block (b_alloc b) (b_empty b) None.
Definition strip_f (f : sparse V) : sparse V :=
  Sparse (s_ext f) (s_dw f) (s_order f) (s_bres f) (s_xy f) (map strip (s_blocks f)).

Lemma set_flags_eq (bl : list (block V)) (w : block V) :
  set_flags (repeat w (List.length bl)) (map (fun b => if b_alloc b then 1 else 0) bl) (map b_empty bl) = Ok (map strip bl).
Proof.
  induction bl as [|b bl IH]; auto. cbn [List.length repeat map set_flags]. rewrite IH. cbn [bind]. unfold strip at 2.
  destruct (b_alloc b); reflexivity.
Qed.

Lemma order_le o : order_ok o -> dec_le (enc8 o) = o.
Proof. intros H. apply dec_enc. change (256 ^ Z.of_nat 1) with 256. unfold order_ok in H. lia. Qed.

Lemma nblocks_pos (f : sparse V) : sshape f -> 0 < vx (s_bres f) /\ 0 < vy (s_bres f) /\ 0 < vz (s_bres f) /\
  0 < Z.of_nat (List.length (s_blocks f)) < 2 ^ 31 /\ vx (s_bres f) * vy (s_bres f) < 2 ^ 31 /\ int_v3 (s_bres f).
Proof.
  intros S. pose proof (ss_len _ S) as L. destruct (ss_win _ S) as (_ & _ & _ & _ & N).
  pose proof (blocks_of_pos (s_dw f) (s_order f) ltac:(pose proof (ss_order _ S); unfold order_ok in *; lia)) as P.
  rewrite <- (ss_bres _ S) in *. destruct P as (X & Y & Z0).
  set (x := vx (s_bres f)) in *. set (y := vy (s_bres f)) in *. set (z := vz (s_bres f)) in *. unfold int_v3. fold x y z. rewrite !in_int_iff.
  assert (XY : 0 < x * y) by (apply Z.mul_pos_pos; lia).
  assert (x * y <= x * y * z) by (rewrite <- (Z.mul_1_r (x * y)) at 1; apply Z.mul_le_mono_nonneg_l; lia).
  assert (z <= x * y * z) by (rewrite <- (Z.mul_1_l z) at 1; apply Z.mul_le_mono_nonneg_r; lia).
  assert (x <= x * y) by (rewrite <- (Z.mul_1_r x) at 1; apply Z.mul_le_mono_nonneg_l; lia).
  assert (y <= x * y) by (rewrite <- (Z.mul_1_l y) at 1; apply Z.mul_le_mono_nonneg_r; lia).
  assert (0 < x * y * z) by (apply Z.mul_pos_pos; lia).
  repeat split; lia.
Qed.

Lemma occupied_eq (f : sparse V) : List.length (filter b_alloc (s_blocks f)) =
  List.length (allocated (List.length (s_blocks f)) (alloc_of f)).
Proof.
  unfold allocated, alloc_of. generalize (s_blocks f). intros bl.
  induction bl as [|b bl IH]; auto. cbn [List.length seq filter nth_error].
  rewrite <- seq_shift. destruct (b_alloc b); cbn [List.length]; rewrite filter_map_len; cbn [nth_error]; rewrite IH; reflexivity.
Qed.

Section Read.
Variables (f : sparse V) (g : bytes) (pre post : list entry).
Hypothesis S0 : sshape f.
Hypothesis IE : int_corners (s_ext f).
Hypotheses (P : entries_ok pre) (U : unrelated pre) (Q : entries_ok post).
Let t := node_group g (map written pre ++ map written (sparse_core f) ++ map written post).
Let n := List.length (s_blocks f).
Let d0 := node_dataset G_CDATASET (str "data") ty (stored f).

Lemma core_ok : entries_ok (sparse_core f).
Proof. apply entries_all; reflexivity. Qed.
Lemma att m ty' v : In m layer_names -> lookup is_attr m (sparse_core f) = Some (EAttr m ty' v) -> need_attr t m ty' = Ok v.
Proof. intros. apply need_attr_core; auto. apply core_ok. Qed.
Lemma plain_name' m : In m layer_names -> good_name m.
Proof. intros. now apply layer_plain. Qed.

Lemma stored_ne : Forall (fun b => b <> []) (stored f).
Proof. unfold stored. apply Forall_forall. intros b I. apply in_map_iff in I as (i & <- & _). apply zl. Qed.

Lemma header_eq0 : sparse_header ty enc dec zero t =
  bind (setup_blocks zero (s_ext f) (s_dw f) 4) (fun _ =>
  Ok (Some (H (strip_f f) n (Z.of_nat (List.length (filter b_alloc (s_blocks f)))) true))).
Proof.
  destruct (nblocks_pos f S0) as (X & Y & Z0 & NB & XY & IB).
  destruct (find_ds_core g pre (sparse_core f) post P core_ok Q U (str "data") ty (stored f) true)
    as (_ & _ & DT); [in_names|reflexivity|]. fold t in DT. cbv beta zeta iota in DT.
  destruct (find_ds_core g pre (sparse_core f) post P core_ok Q U (str "block_is_allocated_data") TUint8
     [map (fun b => if b_alloc b then 1 else 0) (s_blocks f)] false)
    as (_ & FA & _); [in_names|reflexivity|]. fold t in FA. cbv beta zeta iota in FA.
  destruct (find_ds_core g pre (sparse_core f) post P core_ok Q U (str "block_empty_value_data") ty
     [enc_all enc (map b_empty (s_blocks f))] false)
    as (_ & FE & _); [in_names|reflexivity|]. fold t in FE. cbv beta zeta iota in FE.
  unfold sparse_header.
  rewrite (att (str "version") _ (enc32 1)) by (in_names || reflexivity). cbn [bind].
  rewrite dec_i32_enc by reflexivity. cbn [negb Z.eqb Pos.eqb].
  rewrite (att (str "extents_min") _ (enc_v3 (bmin (s_ext f)))) by (in_names || reflexivity). cbn [bind].
  rewrite (att (str "extents_max") _ (enc_v3 (bmax (s_ext f)))) by (in_names || reflexivity). cbn [bind].
  rewrite (att (str "data_window_min") _ (enc_v3 (bmin (s_dw f)))) by (in_names || reflexivity). cbn [bind].
  rewrite (att (str "data_window_max") _ (enc_v3 (bmax (s_dw f)))) by (in_names || reflexivity). cbn [bind].
  rewrite (att (str "components") _ (enc8 dims)) by (in_names || reflexivity). cbn [bind].
  rewrite (att (str "block_order") _ (enc8 (s_order f))) by (in_names || reflexivity). cbn [bind].
  rewrite (att (str "num_blocks") _ (enc32 (Z.of_nat n))) by (in_names || reflexivity). cbn [bind].
  rewrite (att (str "block_res") _ (enc_v3 (s_bres f))) by (in_names || reflexivity). cbn [bind].
  rewrite dec_v3_enc by auto.
  assert (IXY : in_int (vx (s_bres f) * vy (s_bres f)) = true).
  { apply in_int_iff. assert (0 < vx (s_bres f) * vy (s_bres f)) by (apply Z.mul_pos_pos; lia). lia. }
  unfold i32. rewrite IXY. cbn [bind].
  assert (IN : in_int (Z.of_nat n) = true) by (apply in_int_iff; unfold n; lia).
  rewrite <- (ss_len _ S0). fold n. rewrite IN. cbn [bind]. rewrite dec_i32_enc by auto. rewrite Z.eqb_refl. cbn [negb].
  rewrite (att (str "num_occupied_blocks") _ (enc32 (Z.of_nat (List.length (filter b_alloc (s_blocks f)))))) by (in_names || reflexivity). cbn [bind].
  rewrite (att (str "data_is_compressed") _ (enc8 1)) by (in_names || reflexivity). cbn [bind].
  replace (negb (dec_le (enc8 1) =? 0)) with true by reflexivity. cbv beta iota.
  rewrite DT. cbn [bind]. rewrite Z.eqb_refl. cbn [negb].
  assert (WC : int_corners (s_dw f)).
  { destruct (ss_win _ S0) as (C & _).
    assert (forall c, - 2 ^ 30 < c < 2 ^ 30 - 1 -> in_int c = true) as HI by (intros; apply in_int_iff; lia).
    split; split; try split; apply HI, C; cbn; tauto. }
  destruct IE as [E1 E2]. destruct WC as [C1 C2]. rewrite !dec_v3_enc by auto.
  replace (Box (bmin (s_ext f)) (bmax (s_ext f))) with (s_ext f) by (destruct (s_ext f); auto).
  replace (Box (bmin (s_dw f)) (bmax (s_dw f))) with (s_dw f) by (destruct (s_dw f); auto).
  destruct (setup_blocks zero (s_ext f) (s_dw f) 4) as [f4| |] eqn:B4; cbn [bind]; auto. rewrite order_le by apply S0.
  pose proof (ss_order _ S0) as O. replace (10 <? s_order f) with false by (unfold order_ok in O; lia).
  destruct (setup_blocks_ok zero (s_ext f) (s_dw f) (s_order f) O (ss_win _ S0)) as (f' & B' & S' & X1 & X2 & X3 & X4).
  rewrite B'. cbn [bind]. replace (Z.of_nat n <? 0) with false by lia. rewrite Nat2Z.id.
  rewrite FA. cbn [bind].
  assert (NE : s_blocks f <> []) by (intros E; rewrite E in NB; cbn in NB; lia).
  destruct (dataset_read G_DATASET (str "block_is_allocated_data") TUint8 [map (fun b => if b_alloc b then 1 else 0) (s_blocks f)]) as [_ DA];
    [apply plain_name'; in_names|]. destruct DA as [_ DA]; [constructor; [destruct (s_blocks f); [congruence|discriminate]|constructor]|].
  rewrite DA. cbn [nth_error].
  assert (OV : overlay (zeros n) (map (fun b => if b_alloc b then 1 else 0) (s_blocks f)) =
    Ok (map (fun b => if b_alloc b then 1 else 0) (s_blocks f))).
  { unfold overlay, zeros. rewrite map_length, repeat_length. fold n. rewrite Nat.leb_refl. f_equal.
    rewrite skipn_all2, app_nil_r; auto. rewrite repeat_length. auto. }
  rewrite OV. cbn [bind]. rewrite FE. cbn [bind].
  rewrite get_values_same; auto; [|apply plain_name'; in_names|destruct (s_blocks f); [congruence|discriminate]|rewrite repeat_length, map_length; auto].
  cbn [bind].
  assert (Ln : s_blocks f' = repeat (block_init zero) n).
  { rewrite X4. f_equal. unfold n. rewrite <- (ss_bres _ S0), <- (ss_len _ S0), Nat2Z.id. auto. }
  rewrite Ln. unfold n at 1. rewrite set_flags_eq. cbn [bind].
  assert (BR : s_bres f' = s_bres f) by (rewrite (ss_bres _ S'), (ss_bres _ S0), X2, X3; auto).
  assert (BXY : s_xy f' = s_xy f) by (rewrite (ss_xy _ S'), (ss_xy _ S0), BR; auto).
  rewrite X1, X2, X3, BR, BXY, dec_enc32; [reflexivity|].
  pose proof (filter_len_le b_alloc (s_blocks f)). lia.
Qed.

Hypothesis W4 : window_ok (s_dw f) 4.
Lemma header_eq : sparse_header ty enc dec zero t =
  Ok (Some (H (strip_f f) n (Z.of_nat (List.length (filter b_alloc (s_blocks f)))) true)).
Proof.
  rewrite header_eq0. destruct (setup_blocks_ok zero (s_ext f) (s_dw f) 4) as (f4 & B4 & _); [unfold order_ok; lia|auto|].
  now rewrite B4.
Qed.

Lemma open_eq : forall (hf : sparse V) k, open_blocks ty t (H hf k (Z.of_nat (List.length (filter b_alloc (s_blocks f)))) true) = Ok d0.
Proof.
  intros hf k. unfold open_blocks. cbn [h_compressed h_occupied].
  destruct (find_ds_core g pre (sparse_core f) post P core_ok Q U (str "data") ty (stored f) true)
    as (_ & FT & _); [in_names|reflexivity|]. fold t in FT. cbv beta zeta iota in FT. rewrite FT. cbn [bind].
  destruct (dataset_read G_CDATASET (str "data") ty (stored f)) as [_ D]; [apply plain_name'; in_names|].
  destruct (D stored_ne) as [-> _]. unfold stored. rewrite map_length, occupied_eq, Z.eqb_refl. reflexivity.
Qed.
Lemma d0_get i : ds_get d0 i = nth_error (stored f) i.
Proof.
  destruct (dataset_read G_CDATASET (str "data") ty (stored f)) as [_ D]; [apply plain_name'; in_names|].
  apply (D stored_ne).
Qed.

Lemma alloc_strip i : alloc_of (strip_f f) i = alloc_of f i.
Proof. unfold alloc_of, strip_f. cbn [s_blocks]. rewrite nth_error_map. destruct (nth_error (s_blocks f) i); auto. Qed.
Lemma rank_strip i : rank (alloc_of (strip_f f)) i = rank (alloc_of f) i.
Proof. unfold rank. f_equal. apply filter_ext. intros. apply alloc_strip. Qed.
Lemma stored_rank i : (i < n)%nat -> alloc_of f i = true -> nth_error (stored f) (rank (alloc_of f) i) = Some (compress (data_at f i)).
Proof.
  intros Hi A. unfold stored, allocated, rank. fold n.
  replace n with (i + (1 + (n - Datatypes.S i)))%nat by lia. rewrite !seq_app, !filter_app, !map_app.
  cbn [seq filter Nat.add]. rewrite A. rewrite nth_error_app2 by (rewrite map_length; lia).
  rewrite map_length, Nat.sub_diag. reflexivity.
Qed.

Lemma read_block_same d e o : order_ok o -> Z.of_nat (List.length d) = 2 ^ o * 2 ^ o * 2 ^ o ->
  read_block_data ty enc dec uncompress bound true (compress (enc_all enc d)) (repeat e (Z.to_nat (cells_per_block o))) = Ok d.
Proof.
  intros O L. unfold read_block_data.
  assert (LC : List.length (repeat e (Z.to_nat (cells_per_block o))) = List.length d).
  { rewrite repeat_length, cells_per_block_eq by (unfold order_ok in O; lia). lia. }
  assert (LE : List.length (enc_all enc (repeat e (Z.to_nat (cells_per_block o)))) = List.length (enc_all enc d))
    by (rewrite !(enc_all_length ty enc dec st), LC; auto).
  rewrite LE. destruct (zl (enc_all enc d)) as (_ & B & UC).
  replace (Nat.ltb (bound (List.length (enc_all enc d))) (List.length (compress (enc_all enc d)))) with false
    by (symmetry; apply Nat.ltb_ge; auto).
  rewrite UC, (overlay_same ty enc dec st) by auto. cbn [bind]. rewrite LC, (dec_enc_all ty enc dec st). auto.
Qed.

Lemma fill_eq o : order_ok o -> forall bl i mem, Forall (block_shape o) bl ->
  (forall k b, nth_error bl k = Some b -> mem (i + k)%nat = if b_alloc b then match b_data b with Some d => Some (compress (enc_all enc d)) | None => None end else None) ->
  fill_blocks ty enc dec zero uncompress bound o true mem i (map strip bl) = Ok bl.
Proof.
  intros O. induction bl as [|b bl IH]; intros i mem F M; auto. cbn [map fill_blocks]. inversion F as [|? ? Hb Fb]; subst.
  pose proof (M 0%nat b eq_refl) as M0. rewrite Nat.add_0_r in M0. rewrite M0.
  unfold fill_block. cbn [strip b_alloc b_empty]. unfold block_shape in Hb.
  rewrite (IH (Datatypes.S i) mem); auto.
  - destruct b as [a e od]. cbn [b_alloc b_empty b_data] in *. destruct a.
    + destruct Hb as (d & -> & L). rewrite read_block_same by auto. reflexivity.
    + subst od. reflexivity.
  - intros k b' E. specialize (M (Datatypes.S k) b' E). rewrite <- M. f_equal. lia.
Qed.

Lemma read_eq T sched : (0 < T)%nat -> sched_of T sched ->
  (exists pc, read_threads ty enc dec zero t sched = Ok pc /\ ((forall k, (k < T)%nat -> pc k = RDone) -> sparse_read ty enc dec zero uncompress bound t sched = Ok (Some f))).
Proof.
  intros T0 Sc. unfold read_threads, sparse_read. rewrite header_eq. cbn [bind h_field h_nblocks h_occupied h_compressed].
  destruct (Z.of_nat (List.length (filter b_alloc (s_blocks f))) =? 0) eqn:OC.
  - eexists. split; [reflexivity|]. intros _. cbn [s_order strip_f s_blocks].
    rewrite fill_eq; [cbn [bind]; destruct f; reflexivity|apply S0|apply S0|].
    intros k b E. destruct (b_alloc b) eqn:A; auto. exfalso.
    assert (In b (filter b_alloc (s_blocks f))) as I by (apply filter_In; split; auto; eapply nth_error_In; eauto).
    destruct (filter b_alloc (s_blocks f)); [destruct I|cbn in OC; lia].
  - rewrite open_eq. cbn [bind]. eexists. split; [reflexivity|]. intros D.
    destruct (C20_read_blocks _ n (alloc_of (strip_f f)) (ds_get d0) T sched T0 Sc) as (_ & _ & _ & R).
    destruct R as (R1 & _ & R2).
    { intros b Hb A. rewrite d0_get, rank_strip. rewrite alloc_strip in A. rewrite stored_rank by auto. discriminate. }
    specialize (R2 D).
    replace (existsb _ sched) with false.
    2:{ symmetry. apply not_true_iff_false. intros E. apply existsb_exists in E as (k & I & E).
        assert (k < T)%nat by (apply (proj1 (Forall_forall _ _) Sc); auto). rewrite D in E by auto. discriminate. }
    cbn [s_order strip_f s_blocks]. rewrite fill_eq; [cbn [bind]; destruct f; reflexivity|apply S0|apply S0|].
    intros k b E. rewrite Nat.add_0_l. rewrite R2.
    assert (Hk : (k < n)%nat) by (apply nth_error_Some; rewrite E; discriminate).
    replace (k <? n)%nat with true by (symmetry; apply Nat.ltb_lt; auto). cbn [andb].
    rewrite alloc_strip, (alloc_of_in _ _ _ E). destruct (b_alloc b) eqn:A; auto.
    rewrite d0_get, rank_strip, stored_rank; auto; [|rewrite (alloc_of_in _ _ _ E); auto].
    unfold data_at. rewrite E. destruct (alloc_data f k S0) as (b' & d & E' & B' & _); [rewrite (alloc_of_in _ _ _ E); auto|].
    rewrite E in E'. injection E' as <-. rewrite B'. auto.
Qed.

Lemma fbi_eq (bl : list (block V)) : forall k i, nth_error (file_block_indices bl k) i =
  match nth_error bl i with
  | Some b => Some (if b_alloc b then Some (k + List.length (filter b_alloc (firstn i bl)))%nat else None)
  | None => None
  end.
Proof.
  induction bl as [|b bl IH]; intros k i; [destruct i; auto|]. cbn [file_block_indices].
  destruct i as [|i].
  - cbn. destruct (b_alloc b); cbn; auto. now rewrite Nat.add_0_r.
  - cbn [firstn filter]. destruct (b_alloc b); cbn [nth_error List.length]; rewrite IH; destruct (nth_error bl i); auto.
    do 2 f_equal. destruct (b_alloc b0); auto. f_equal. lia.
Qed.
Lemma rank_firstn i : (i <= n)%nat -> List.length (filter b_alloc (firstn i (s_blocks f))) = rank (alloc_of f) i.
Proof.
  intros Hi. pose proof (occupied_eq (Sparse (s_ext f) (s_dw f) (s_order f) (s_bres f) (s_xy f) (firstn i (s_blocks f)))) as E.
  cbn [s_blocks] in E. rewrite E. unfold rank, allocated. rewrite firstn_length_le by auto. f_equal.
  apply filter_ext_in. intros j I. apply in_seq in I. unfold alloc_of. cbn [s_blocks].
  rewrite <- (firstn_skipn i (s_blocks f)) at 2. rewrite nth_error_app1; auto. rewrite firstn_length_le by auto. lia.
Qed.

Lemma lazy_eq p : exists h, lazy_read ty enc dec zero t = Ok (Some h) /\ h_field h = strip_f f /\ lazy_value ty enc dec uncompress bound t h p = sparse_value f p.
Proof.
  eexists. split; [apply header_eq|]. split; [reflexivity|]. unfold lazy_value, sparse_value. cbn [h_field h_compressed].
  replace (window_offset (strip_f f) p) with (window_offset f p) by reflexivity.
  destruct (window_offset f p) as [q| |]; cbn [bind]; auto.
  replace (block_id (strip_f f) (block_coord (s_order (strip_f f)) q)) with (block_id f (block_coord (s_order f) q)) by reflexivity.
  destruct (block_id f (block_coord (s_order f) q)) as [id| |]; cbn [bind]; auto.
  cbn [strip_f s_blocks s_order]. unfold arr_get at 1. unfold arr_get at 2. destruct (id <? 0) eqn:N; auto.
  rewrite nth_error_map. destruct (nth_error (s_blocks f) (Z.to_nat id)) as [b|] eqn:E; cbn [option_map bind]; auto.
  cbn [strip b_alloc b_empty]. destruct (b_alloc b) eqn:A; auto.
  fold (strip_f f). rewrite open_eq. cbn [bind]. rewrite fbi_eq, nth_error_map, E. cbn [option_map strip b_alloc]. rewrite A.
  assert (Hi : (Z.to_nat id < n)%nat) by (apply nth_error_Some; rewrite E; discriminate).
  replace (List.length (filter b_alloc (firstn (Z.to_nat id) (map strip (s_blocks f))))) with (rank (alloc_of f) (Z.to_nat id)).
  2:{ rewrite <- rank_firstn by lia. rewrite firstn_map, filter_map_len. reflexivity. }
  rewrite Nat.add_0_l, d0_get, stored_rank; auto; [|rewrite (alloc_of_in _ _ _ E); auto].
  destruct (alloc_data f (Z.to_nat id) S0) as (b' & d & E' & B' & L); [rewrite (alloc_of_in _ _ _ E); auto|].
  rewrite E in E'. injection E' as <-. unfold data_at. rewrite E, B'.
  rewrite read_block_same by (auto; apply S0). cbn [bind]. unfold block_cell. rewrite B'. reflexivity.
Qed.
End Read.
End Sp.
