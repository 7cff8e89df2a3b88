(** C74: archives of any contents opened as Field3D files. *)
From Coq Require Import ZArith List Bool String Lia.
From Verif Require Import Model.Base Model.FieldM Model.DenseM Model.SparseM Model.OgawaM Spec.OgawaSpec Model.OgM Model.FieldIOM
  Model.FileM Model.MetaM Model.MappingIOM Model.MipIOM Model.ForeignM Spec.SparseSpec Spec.FieldIOSpec Spec.ForeignSpec Proof.ForeignP Proof.ForeignP2 Proof.ForeignP3
  Proof.ForeignP4 Spec.VoxelSpec.
Import ListNotations.
Open Scope Z_scope.

(** Examples: voxels of one byte, times and matrices are numbers. *)
Definition e_open := f_open (T := Z) (X := Z) Z.ltb Z.eqb dec_le dec_le 0 0 0.
Definition e_enc (z : Z) : bytes := [z].
Definition e_dec (b : bytes) : Z := hd 0 b.
Definition e_unc (n : nat) (b : bytes) : option bytes := if Nat.leb (List.length b) n then Some b else None.
Definition e_layer := f_layer TUint8 e_enc e_dec 0 e_unc (fun n => n).
Lemma e_storable : storable TUint8 e_enc e_dec. Proof. split; [discriminate|]. intros v. split; reflexivity. Qed.
Lemma e_room : keeps_room e_unc.
Proof. intros n b u. unfold e_unc. destruct (Nat.leb_spec (List.length b) n); [|easy]. now intros [= <-]. Qed.

Definition e_dense (hi : v3) (data : bytes) : list tree :=
  [ node_attr (str "class_name") TString (str "DenseField");
    node_attr (str "version") TInt32 (enc32 1);
    node_attr (str "extents_min") TVecI32 (enc_v3 (V3 0 0 0)); node_attr (str "extents_max") TVecI32 (enc_v3 hi);
    node_attr (str "data_window_min") TVecI32 (enc_v3 (V3 0 0 0)); node_attr (str "data_window_max") TVecI32 (enc_v3 hi);
    node_attr (str "components") TInt32 (enc32 1);
    node_dataset G_DATASET (str "data") TUint8 [data] ].
Definition e_sparse (order : Z) (blocks : v3) (flags values : bytes) (elems : list bytes) : list tree :=
  [ node_attr (str "class_name") TString (str "SparseField");
    node_attr (str "version") TInt32 (enc32 1);
    node_attr (str "extents_min") TVecI32 (enc_v3 (V3 0 0 0)); node_attr (str "extents_max") TVecI32 (enc_v3 (V3 1 0 0));
    node_attr (str "data_window_min") TVecI32 (enc_v3 (V3 0 0 0)); node_attr (str "data_window_max") TVecI32 (enc_v3 (V3 1 0 0));
    node_attr (str "components") TUint8 (enc8 1); node_attr (str "block_order") TUint8 (enc8 order);
    node_attr (str "num_blocks") TUint32 (enc32 (vx blocks * vy blocks * vz blocks));
    node_attr (str "block_res") TVecI32 (enc_v3 blocks);
    node_attr (str "num_occupied_blocks") TUint32 (enc32 (Z.of_nat (List.length elems)));
    node_attr (str "data_is_compressed") TUint8 (enc8 0);
    node_dataset G_DATASET (str "block_is_allocated_data") TUint8 [flags];
    node_dataset G_DATASET (str "block_empty_value_data") TUint8 [values];
    node_dataset G_DATASET (str "data") TUint8 elems ].
Definition e_file (layer : list tree) (more : list tree) : tree :=
  node_group (str "root") (more ++ [node_group (str "p.0") [node_group (str "density") layer]]).
Ltac tidy_tac := apply (check_tidy 9); vm_compute; reflexivity.
Definition e_open_parts (t : tree) : list ipart := match e_open t with Ok (Some f) => in_parts f | _ => [] end.
Definition e_read (t : tree) (part layer : bytes) : res (option (anyfield * meta)) := e_layer t (e_open_parts t) part layer (repeat 0%nat 30).

(** Any archive with readable entries opens or is refused for its version.  The partitions are the groups of the root.
    If their names differ, each has the layers and the mapping group that are found in its group; its mapping is read from
    there.  The metadata of the file is that of the group for it. *)
Theorem C74_open : forall T X ltb eqb t_dec x_dec (t0 : T) (ss0 cs0 : X) t, tidy t ->
  let r := f_open ltb eqb t_dec x_dec t0 ss0 cs0 t in
  (~ rooted t -> exists f, r = Ok (Some f) /\ in_parts f = []) /\
  (rooted t -> version_refused t -> r = Ok None) /\
  (rooted t -> ~ version_refused t -> exists f, r = Ok (Some f) /\ map ip_name (in_parts f) = partitions t /\
     (Forall plain (partitions t) -> NoDup (partitions t) -> forall p, In p (in_parts f) ->
        ip_layers p = layers t (ip_name p) /\
        ip_map p = match found 0 (ip_name p) t with Some g => found 0 (str "mapping") g | None => None end) /\
     Forall2 (fun p m => match ip_map p with Some g => mapping_read ltb eqb t_dec x_dec t0 ss0 cs0 g = Ok m | None => m = None end)
       (in_parts f) (in_maps f) /\
     (plain_meta t "field3d_global_metadata" -> is_meta_of t "field3d_global_metadata" (in_meta f))).
Proof.
  intros T X ltb eqb t_dec x_dec t0 ss0 cs0 t Ti r.
  assert (RV : rooted t <-> validate t = true).
  { split; [intros (a & b & l & ->); reflexivity|]. unfold rooted, validate.
    destruct t as [[|[?|?] [|[?|?] ?]]|]; cbn; try discriminate. intros _. do 3 eexists. reflexivity. }
  split; [|split].
  - intros R. assert (V : validate t = false) by (destruct (validate t); tauto).
    exists (InFile meta_empty [] []). unfold r, f_open. rewrite V. auto.
  - intros R (b & E & B). destruct (f_open_tidy ltb eqb t_dec x_dec t0 ss0 cs0 t Ti (proj1 RV R)) as (q & Q & H).
    fold r in Q. rewrite Q. destruct q as [f|]; auto. destruct H as [H _]. rewrite E in H. unfold supported in H.
    replace ((1 <? vx (dec_v3 b)) || ((vx (dec_v3 b) =? 1) && (7 <? vy (dec_v3 b)))) with false in H by lia.
    exfalso. lia.
  - intros R NV. destruct (f_open_tidy ltb eqb t_dec x_dec t0 ss0 cs0 t Ti (proj1 RV R)) as (q & Q & H).
    fold r in Q. rewrite Q. destruct q as [f|].
    + exists f. split; auto. destruct H as (_ & I & N & M & F2). split; [exact N|]. split; [|split; [exact F2|]].
      * intros P D p Ip. destruct (read_info_all t (in_parts f) Ti P D I p Ip) as [L M']. split; [|exact M'].
        rewrite L. unfold layers_in, layers. now destruct (found 0 (ip_name p) t).
      * intros P. destruct (group_meta t "field3d_global_metadata" Ti ltac:(ns) P) as (m & E & Q').
        unfold k_global in M. rewrite M in E. now injection E as ->.
    + exfalso. apply NV. destruct (rec_attr t "version_number" TVecI32) as [b|] eqn:E; [|discriminate].
      exists b. split; auto. unfold supported in H.
      destruct ((1 <? vx (dec_v3 b)) || ((vx (dec_v3 b) =? 1) && (7 <? vy (dec_v3 b)))); [discriminate|]. lia.
Qed.
Print Assumptions C74_open.

Definition ex_tree : tree := e_file (e_dense (V3 1 0 0) [8; 9])
  [node_attr (str "version_number") TVecI32 (enc_v3 (V3 1 7 3)); Group [Data (str "odd"); Data [1; 2]; Data []]; Data [3]].
Definition ex_tree2 : tree := e_file (e_dense (V3 1 0 0) [8; 9]) [node_attr (str "version_number") TVecI32 (enc_v3 (V3 1 7 3)); Data [3]].
Example ex_open : tidy ex_tree2 /\ rooted ex_tree2 /\ partitions ex_tree2 = [str "p.0"] /\ layers ex_tree2 (str "p.0") = [str "density"] /\
  Forall plain (partitions ex_tree2) /\ NoDup (partitions ex_tree2) /\
  e_open_parts ex_tree2 = [IPart (str "p.0") None [str "density"]].
Proof.
  split; [tidy_tac|]. split; [do 3 eexists; reflexivity|]. split; [vm_compute; reflexivity|]. split; [vm_compute; reflexivity|].
  split; [vm_compute; repeat constructor; intuition discriminate|].
  split; [vm_compute; repeat constructor; intuition|vm_compute; reflexivity].
Qed.

(** A dense layer is read, or refused, unless the size of its extents is not an int, or the window has too many voxels, or its
    data is longer than they are. *)
Theorem C74_dense : forall V ty enc dec (zero : V) t, storable ty enc dec -> tidy t ->
  (f_dense_read ty enc dec zero t = UB <-> dense_unsound t ty).
Proof. intros V ty enc dec zero t S T. now apply f_dense_ub. Qed.
Print Assumptions C74_dense.

(** A dense layer with all its data is read: each voxel has the value stored at its place. *)
Theorem C74_dense_values : forall V ty enc dec (zero : V) t w b l, storable ty enc dec -> tidy t ->
  dense_header t ty w -> (forall e, rec_extents t = Some e -> sized e) -> countable w -> ~ no_voxels w ->
  rec_data t 2 "data" ty = Some (Data b :: l) ->
  Z.of_nat (List.length b) = vx (sides w) * vy (sides w) * vz (sides w) * Z.of_nat (type_size ty) ->
  exists f, f_dense_read ty enc dec zero t = Ok (Some f) /\ Some (d_ext f) = rec_extents t /\ d_dw f = w /\
  forall p, in_box p w ->
    dense_value f p = Ok (dec (firstn (type_size ty) (skipn (Z.to_nat (place w p) * type_size ty) b))).
Proof. intros V ty enc dec zero t w b l S T H E C N D L. rewrite f_dense_same by auto. now apply (dense_read_full ty enc dec zero S t w b l). Qed.
Print Assumptions C74_dense_values.

(** A layer that is read is one that is listed, of the class it says, with the metadata of its group for it; and a listed
    layer that its class can read is read. *)
Theorem C74_layer_read : forall T X ltb eqb t_dec x_dec (t0 : T) (ss0 cs0 : X) V ty enc dec (zero : V) uncompress bound t f part layer sched,
  tidy t -> f_open ltb eqb t_dec x_dec t0 ss0 cs0 t = Ok (Some f) -> rooted t ->
  Forall plain (partitions t) -> NoDup (partitions t) -> plain part -> plain layer ->
  let ok lg x := match x with
    | ADense d => rec_string lg "class_name" = Some (str "DenseField") /\ f_dense_read ty enc dec zero lg = Ok (Some d)
    | ASparse s => rec_string lg "class_name" = Some (str "SparseField") /\
        f_sparse_read ty enc dec zero uncompress bound lg sched = Ok (Some s)
    | AMip p => rec_string lg "class_name" = Some (str "MIPField") /\ f_mip_read ty lg = Ok (Some p)
    end in
  (forall x m, f_layer ty enc dec zero uncompress bound t (in_parts f) part layer sched = Ok (Some (x, m)) ->
     In part (partitions t) /\ In layer (layers t part) /\
     exists g lg, found 0 part t = Some g /\ found 0 layer g = Some lg /\ ok lg x /\
       (plain_meta lg "metadata" -> is_meta_of lg "metadata" m)) /\
  (forall g lg x, In part (partitions t) -> In layer (layers t part) ->
     found 0 part t = Some g -> found 0 layer g = Some lg -> ok lg x ->
     exists m, f_layer ty enc dec zero uncompress bound t (in_parts f) part layer sched = Ok (Some (x, m))).
Proof.
  intros T X ltb eqb t_dec x_dec t0 ss0 cs0 V ty enc dec zero unc bound t f part layer sched Ti Op Ro PP ND P1 P2 ok.
  assert (OF : map ip_name (in_parts f) = partitions t /\ forall p, In p (in_parts f) -> ip_layers p = layers t (ip_name p)).
  { destruct (C74_open T X ltb eqb t_dec x_dec t0 ss0 cs0 t Ti) as (_ & O1 & O2). cbv zeta in O1, O2. rewrite Op in O1, O2.
    destruct O2 as (f' & E & N & L & _); auto.
    { intros Vr. specialize (O1 Ro Vr). discriminate. }
    injection E as <-. split; auto. intros p I. now apply L. }
  destruct OF as [Nm Ly].
  assert (FI : forall p, find_ipart part (in_parts f) = Some p -> In p (in_parts f) /\ ip_name p = part).
  { intros p E. apply find_some in E. destruct E as [I E]. destruct (bytes_eqb_spec (ip_name p) part); easy. }
  assert (CL : forall lg, tidy lg -> forall K : list Z -> res (option (@anyfield V * meta)),
    (let* a := find_typed lg (str "class_name") G_ATTR TString in
     match a with None => UB | Some a => let* c := attr_value TString [] a in K c end) =
    match rec_string lg "class_name" with Some c => K c | None => UB end).
  { intros lg Tl K. unfold find_typed, rec_string. rewrite find_group_found by (auto; ns). cbn [bind]. change G_ATTR with 1.
    destruct (found 1 (str "class_name") lg) as [a|] eqn:Ea; [|reflexivity].
    destruct (attr_shape a (found_ok _ _ _ _ Tl Ea)) as (a1 & a2 & d & v & l & ->).
    cbn [read_dtype get_data t_kids nth_error bind]. rewrite dtype_eqb. destruct (_ && _); reflexivity. }
  split.
  - intros x m. unfold f_layer, read_layer. destruct (find_ipart part (in_parts f)) as [p|] eqn:Ep; [|discriminate].
    destruct (FI p eq_refl) as [Ip En].
    destruct (existsb (bytes_eqb layer) (ip_layers p)) eqn:Ex; cbn [negb]; [|discriminate].
    apply existsb_exists in Ex. destruct Ex as (y & Iy & Ey). destruct (bytes_eqb_spec layer y) as [<-|]; [|easy].
    rewrite (Ly p Ip), En in Iy. rewrite find_valid_found by auto. cbn [bind].
    destruct (found 0 part t) as [g|] eqn:Eg; [|discriminate].
    assert (Tg : tidy g) by (destruct (found_ok _ _ _ _ Ti Eg) as (_ & _ & K); auto).
    rewrite find_valid_found by auto. cbn [bind].
    destruct (found 0 layer g) as [lg|] eqn:El; [|discriminate].
    assert (Tl : tidy lg) by (destruct (found_ok _ _ _ _ Tg El) as (_ & _ & K); auto).
    cbn [bind il_group]. rewrite CL by auto.
    destruct (rec_string lg "class_name") as [c|] eqn:Ec; [|discriminate]. intros H.
    split; [rewrite <- Nm, <- En; now apply in_map|]. split; auto. exists g, lg. split; auto. split; auto.
    destruct (f_read_field ty enc dec zero unc bound c lg sched) as [[x'|]| |] eqn:Ef; cbn [bind] in H; try discriminate.
    destruct (read_layer_meta lg) as [m'| |] eqn:Em; cbn [bind] in H; try discriminate. injection H as -> ->. split.
    + unfold f_read_field in Ef. destruct (bytes_eqb_spec c (str "DenseField")) as [->|_].
      * destruct (f_dense_read ty enc dec zero lg) as [[d|]| |] eqn:E; try discriminate. injection Ef as <-. unfold ok. split; [exact Ec|exact E].
      * destruct (bytes_eqb_spec c (str "SparseField")) as [->|_].
        -- destruct (f_sparse_read ty enc dec zero unc bound lg sched) as [[d|]| |] eqn:E; try discriminate. injection Ef as <-. unfold ok. split; [exact Ec|exact E].
        -- destruct (bytes_eqb_spec c (str "MIPField")) as [->|_]; [|discriminate].
           destruct (f_mip_read ty lg) as [[d|]| |] eqn:E; try discriminate. injection Ef as <-. unfold ok. split; [exact Ec|exact E].
    + intros P. destruct (group_meta lg "metadata" Tl ltac:(ns) P) as (m' & E & Q).
      unfold read_layer_meta in Em. rewrite Em in E. now injection E as ->.
  - intros g lg x Ipart Ilayer Eg El Ok'. unfold f_layer, read_layer.
    destruct (find_ipart part (in_parts f)) as [p|] eqn:Ep.
    2:{ exfalso. rewrite <- Nm in Ipart. apply in_map_iff in Ipart. destruct Ipart as (p & E & I).
        pose proof (find_none _ _ Ep p I) as F. cbn in F. destruct (bytes_eqb_spec (ip_name p) part); easy. }
    destruct (FI p eq_refl) as [Ip En].
    assert (Ex : existsb (bytes_eqb layer) (ip_layers p) = true).
    { apply existsb_exists. exists layer. rewrite (Ly p Ip), En. split; auto. now destruct (bytes_eqb_spec layer layer). }
    rewrite Ex. cbn [negb]. rewrite find_valid_found by auto. cbn [bind]. rewrite Eg.
    assert (Tg : tidy g) by (destruct (found_ok _ _ _ _ Ti Eg) as (_ & _ & K); auto).
    rewrite find_valid_found by auto. cbn [bind]. rewrite El. cbn [bind il_group].
    assert (Tl : tidy lg) by (destruct (found_ok _ _ _ _ Tg El) as (_ & _ & K); auto).
    rewrite CL by auto. destruct (read_layer_meta_tidy lg Tl) as [m Em]. exists m.
    unfold ok in Ok'. destruct x as [d|d|d]; destruct Ok' as [-> R]; unfold f_read_field.
    + destruct (bytes_eqb_spec (str "DenseField") (str "DenseField")); [|easy]. rewrite R. cbn [bind option_map]. now rewrite Em.
    + destruct (bytes_eqb_spec (str "SparseField") (str "DenseField")) as [E|_]; [discriminate E|].
      destruct (bytes_eqb_spec (str "SparseField") (str "SparseField")); [|easy]. rewrite R. cbn [bind option_map]. now rewrite Em.
    + destruct (bytes_eqb_spec (str "MIPField") (str "DenseField")) as [E|_]; [discriminate E|].
      destruct (bytes_eqb_spec (str "MIPField") (str "SparseField")) as [E|_]; [discriminate E|].
      destruct (bytes_eqb_spec (str "MIPField") (str "MIPField")); [|easy]. rewrite R. cbn [bind option_map]. now rewrite Em.
Qed.
Print Assumptions C74_layer_read.

(** A layer is read, or refused, if it says what class it has and its numbers agree, whatever the reading threads do. *)
Theorem C74_layer_partial : forall T X ltb eqb t_dec x_dec (t0 : T) (ss0 cs0 : X) V ty enc dec (zero : V) uncompress bound t f part layer sched,
  storable ty enc dec -> keeps_room uncompress -> tidy t ->
  f_open ltb eqb t_dec x_dec t0 ss0 cs0 t = Ok (Some f) -> plain part -> plain layer ->
  (forall g lg, found 0 part t = Some g -> found 0 layer g = Some lg -> layer_sound lg ty bound) ->
  f_layer ty enc dec zero uncompress bound t (in_parts f) part layer sched <> UB.
Proof.
  intros T X ltb eqb t_dec x_dec t0 ss0 cs0 V ty enc dec zero unc bound t f part layer sched S U Ti _ P1 P2 H.
  unfold f_layer, read_layer. destruct (find_ipart part (in_parts f)) as [p|]; [|discriminate].
  destruct (negb _); [discriminate|]. rewrite find_valid_found by auto. cbn [bind].
  destruct (found 0 part t) as [g|] eqn:Eg; [|discriminate].
  assert (Tg : tidy g) by (destruct (found_ok _ _ _ _ Ti Eg) as (_ & _ & K); auto).
  rewrite find_valid_found by auto. cbn [bind].
  destruct (found 0 layer g) as [lg|] eqn:El; [|discriminate].
  assert (Tl : tidy lg) by (destruct (found_ok _ _ _ _ Tg El) as (_ & _ & K); auto).
  cbn [bind il_group]. destruct (H g lg eq_refl El) as (c & Ec & Hd & Hs & Hm).
  unfold find_typed. rewrite find_group_found by (auto; vm_compute; intuition discriminate). cbn [bind].
  unfold rec_string in Ec. change G_ATTR with 1.
  destruct (found 1 (str "class_name") lg) as [a|] eqn:Ea; [|discriminate].
  destruct (attr_shape a (found_ok _ _ _ _ Tl Ea)) as (a1 & a2 & d & v & l & ->).
  cbn [read_dtype get_data t_kids nth_error bind]. rewrite dtype_eqb.
  destruct (Nat.eqb (List.length d) 4 && (dec_le d =? type_code TString)); [|discriminate]. injection Ec as Ec.
  cbn [bind attr_value read_string get_data t_kids nth_error]. rewrite Ec.
  destruct (read_layer_meta_tidy lg Tl) as [m Em].
  assert (FR : f_read_field ty enc dec zero unc bound c lg sched <> UB).
  { unfold f_read_field. destruct (bytes_eqb_spec c (str "DenseField")) as [E|_].
    - pose proof (Hd E) as N. rewrite <- (C74_dense V ty enc dec zero lg S Tl) in N. now destruct (f_dense_read _ _ _ _ lg).
    - destruct (bytes_eqb_spec c (str "SparseField")) as [E|_].
      + pose proof (f_sparse_defined ty enc dec zero S unc bound lg sched Tl U (Hs E)) as N.
        now destruct (f_sparse_read _ _ _ _ _ _ lg sched).
      + destruct (bytes_eqb_spec c (str "MIPField")) as [E|_]; [|discriminate].
        pose proof (Hm E) as N. rewrite <- (f_mip_ub ty lg Tl) in N. now destruct (f_mip_read ty lg). }
  destruct (f_read_field ty enc dec zero unc bound c lg sched) as [[x|]| |]; cbn [bind]; try easy.
  rewrite Em. discriminate.
Qed.
Print Assumptions C74_layer_partial.

Definition ex_stree : tree := e_file (e_sparse 0 (V3 2 1 1) [1; 0] [7; 6] [[5]]) [].
Ltac rec H := vm_compute in H; try discriminate H; try (injection H as <-).
Example ex_layer : tidy ex_stree /\ (exists f, e_open ex_stree = Ok (Some f)) /\
  (forall g lg, found 0 (str "p.0") ex_stree = Some g -> found 0 (str "density") g = Some lg -> layer_sound lg TUint8 (fun n => n)) /\
  match e_read ex_stree (str "p.0") (str "density") with
  | Ok (Some (ASparse f, _)) => map (sparse_value f) [V3 0 0 0; V3 1 0 0] = [Ok 5; Ok 6]
  | _ => False
  end /\
  match e_read ex_tree2 (str "p.0") (str "density") with
  | Ok (Some (ADense f, _)) => map (dense_value f) [V3 0 0 0; V3 1 0 0] = [Ok 8; Ok 9]
  | _ => False
  end.
Proof.
  split; [tidy_tac|]. split; [eexists; vm_compute; reflexivity|]. split; [|split; vm_compute; reflexivity].
  intros g lg Eg El. rec Eg. rec El. exists (str "SparseField"). split; [vm_compute; reflexivity|].
  split; [intros E; discriminate E|]. split; [intros _|intros E; discriminate E]. constructor.
  - intros e E. rec E. intros f I. cbn [In] in I. intuition subst; vm_compute; intuition discriminate.
  - intros r E. rec E. vm_compute. intuition discriminate.
  - intros o E. rec E. vm_compute. intuition discriminate.
  - intros w o E F. rec E. rec F. split; (split; [intros c I; vm_compute in I; intuition subst; vm_compute; auto|vm_compute; intuition discriminate]).
  - intros w o n E F G. rec E. rec F. rec G. vm_compute. discriminate.
  - intros n l b E F G. rec E. rec F. rec G. vm_compute. discriminate.
  - intros n l b E F G. rec E. rec F. rec G. vm_compute. discriminate.
  - intros c lf fl l C E F G k K. rec E. rec F. vm_compute in K. destruct C as [->| ->]; rec G. assert (k = 0%nat) as -> by lia. discriminate.
  - intros o l k b E F. rec E. split; intros G; rec G. destruct k as [|[|k]]; rec F. vm_compute. discriminate.
Qed.

(** Metadata: the first attribute of a name counts, one of the wrong size is zero. *)
Definition ex_mtree : tree := node_group (str "root") [node_group (str "field3d_global_metadata")
  [node_attr (str "a") TInt32 (enc32 5); node_attr (str "a") TFloat32 (enc32 6); node_attr (str "b") TInt32 [1; 2]; node_attr (str "c") TString (str "hi")]].
Example ex_meta : tidy ex_mtree /\ rooted ex_mtree /\ plain_meta ex_mtree "field3d_global_metadata" /\
  match e_open ex_mtree with
  | Ok (Some f) => map (fun x => smap_find (meta_map (in_meta f) (fst x)) (str (snd x)))
      [(KInt, "a"); (KFloat, "a"); (KInt, "b"); (KStr, "c")]%string = [Some (enc32 5); None; Some [0; 0; 0; 0]; Some (str "hi")]
  | _ => False
  end.
Proof.
  split; [tidy_tac|]. split; [do 3 eexists; reflexivity|]. split; [|vm_compute; reflexivity].
  intros g E. rec E. vm_compute. repeat constructor; intuition discriminate.
Qed.
(** The hypotheses about a dense layer's values. *)
Example ex_dense_values : let t := node_group (str "l") (e_dense (V3 1 0 0) [8; 9]) in let w := Box (V3 0 0 0) (V3 1 0 0) in
  tidy t /\ dense_header t TUint8 w /\ (forall e, rec_extents t = Some e -> sized e) /\ countable w /\ ~ no_voxels w /\ rec_data t 2 "data" TUint8 = Some [Data [8; 9]].
Proof.
  cbv zeta. split; [tidy_tac|]. split; [|split; [|split; [|split]]].
  - split; [exists (enc32 1); split; vm_compute; reflexivity|]. split; [vm_compute; discriminate|]. split; [vm_compute; reflexivity|].
    split; vm_compute; discriminate.
  - intros e E. rec E. apply sized_axes. vm_compute. intuition discriminate.
  - unfold countable, int_range, no_voxels. rewrite sized_axes. unfold int_range. cbn. lia.
  - unfold no_voxels. cbn. lia.
  - vm_compute. reflexivity.
Qed.

(** * MIP layers *)

(** A MIP layer is read, or refused, unless the size of the extents of a level is not an int. *)
Theorem C74_mip : forall ty t, tidy t -> (f_mip_read ty t = UB <-> mip_unsound t ty).
Proof. intros ty t T. now apply f_mip_ub. Qed.
Print Assumptions C74_mip.

(** It is read just when all of it is there: the levels of the field are those that are recorded, each smaller than the one
    before, and its extents and data window are those of the first. *)
Theorem C74_mip_levels : forall ty t p, tidy t ->
  (f_mip_read ty t = Ok (Some p) <->
   mip_header t ty /\
   rec_string t "base_type" = Some (match mp_kind p with BDense => str "DenseField" | BSparse => str "SparseField" end) /\
   rec_levels t = Some (List.length (mp_levels p)) /\
   (forall i x, nth_error (mp_levels p) i = Some x -> rec_level t i = Some x /\ sized (fst x)) /\
   nth_error (mp_levels p) 0 = Some (mp_ext p, mp_dw p) /\
   (forall i a b, nth_error (mp_levels p) i = Some a -> nth_error (mp_levels p) (S i) = Some b -> smaller (fst b) (fst a))).
Proof. intros ty t p T. exact (f_mip_ok ty t T p). Qed.
Print Assumptions C74_mip_levels.

(** Loading a level gives what is read from the group of the level; it is read, or refused, if the group is sound, it is not
    one of more than 31 levels, and the data window of the field has a size. *)
Theorem C74_mip_load_partial : forall V ty enc dec (zero : V) uncompress bound t part layer g lg p i sched,
  storable ty enc dec -> keeps_room uncompress -> tidy t -> plain part -> plain layer ->
  found 0 part t = Some g -> found 0 layer g = Some lg -> f_mip_read ty lg = Ok (Some p) ->
  let r := f_load_level ty enc dec zero uncompress bound t (part ++ [47] ++ layer) p i sched in
  let level lv := exists m, found 0 (str "mip_levels") lg = Some m /\ found 0 (str "level." ++ int_name i) m = Some lv in
  ((forall lv, level lv -> match mp_kind p with BDense => ~ dense_unsound lv ty | BSparse => sparse_sound lv ty bound end) ->
   (no_voxels (mp_dw p) \/ sized (mp_dw p)) -> (i < 31)%nat -> r <> UB) /\
  (forall x, r = Ok x -> exists lv, level lv /\
     match mp_kind p, x with
     | BDense, ADense f => f_dense_read ty enc dec zero lv = Ok (Some f)
     | BSparse, ASparse f => f_sparse_read ty enc dec zero uncompress bound lv sched = Ok (Some f)
     | _, _ => False
     end) /\
  (forall lv f, level lv -> mp_kind p = BDense -> f_dense_read ty enc dec zero lv = Ok (Some f) ->
     (no_voxels (mp_dw p) \/ sized (mp_dw p)) -> (i < 31)%nat -> r = Ok (ADense f)) /\
  (forall lv f, level lv -> mp_kind p = BSparse -> f_sparse_read ty enc dec zero uncompress bound lv sched = Ok (Some f) ->
     (no_voxels (mp_dw p) \/ sized (mp_dw p)) -> (i < 31)%nat -> r = Ok (ASparse f)).
Proof.
  intros V ty enc dec zero unc bound t part layer g lg p i sched S U T P1 P2 Eg El Ep r level.
  assert (Tg : tidy g) by (destruct (found_ok _ _ _ _ T Eg) as (_ & _ & K); auto).
  assert (Tl : tidy lg) by (destruct (found_ok _ _ _ _ Tg El) as (_ & _ & K); auto).
  assert (Em : exists m, found 0 (str "mip_levels") lg = Some m).
  { apply (f_mip_ok ty lg Tl) in Ep. destruct Ep as (_ & _ & N & _). unfold rec_levels in N.
    destruct (found 0 (str "mip_levels") lg); [eauto|discriminate]. }
  destruct Em as [m Em].
  assert (Tm : tidy m) by (destruct (found_ok _ _ _ _ Tl Em) as (_ & _ & K); auto).
  assert (Lv : forall lv, level lv <-> found 0 (level_name i) m = Some lv).
  { intros lv. unfold level. split; [intros (m' & E & H); rewrite Em in E; now injection E as <-|intros H; now exists m]. }
  pose proof (level_found t part layer i g lg m T P1 P2 Eg El Em) as F.
  assert (W : no_voxels (mp_dw p) \/ sized (mp_dw p) -> exists z,
     (if box_empty (mp_dw p) then Ok (V3 1 1 1) else map_extents (mp_dw p)) = Ok z).
  { intros H. destruct (box_empty (mp_dw p)) eqn:B; [eauto|]. destruct (map_extents_dec (mp_dw p)) as [[_ ->]|[N _]]; [eauto|].
    destruct H as [H|H]; [|easy]. exfalso. unfold box_empty in B. unfold no_voxels, sides in H. cbn [vx vy vz] in H. lia. }
  assert (R : forall lv, found 0 (level_name i) m = Some lv -> tidy lv).
  { intros lv E. destruct (found_ok _ _ _ _ Tm E) as (_ & _ & K). auto. }
  unfold r, f_load_level, load_level. change (part ++ [47] ++ layer) with (part ++ 47 :: layer). rewrite sub_group_valid, F. cbn [bind].
  destruct (found 0 (level_name i) m) as [lv|] eqn:Elv.
  2:{ cbn [bind]. repeat split; try discriminate; intros lv f H; apply Lv in H; discriminate H. }
  specialize (R lv eq_refl). assert (Le : level lv) by now apply Lv.
  assert (L1 : forall lv', level lv' -> lv' = lv) by (intros lv' H; apply Lv in H; now injection H as <-).
  split; [|split; [|split]].
  - intros So HW I. specialize (So lv Le). destruct (W HW) as [z ->].
    rewrite (proj2 (Nat.leb_gt 31 i)) by auto. destruct (mp_kind p).
    + rewrite <- (f_dense_ub ty enc dec zero S lv R) in So. destruct (f_dense_read ty enc dec zero lv) as [[f|]| |]; cbn; easy.
    + pose proof (f_sparse_defined ty enc dec zero S unc bound lv sched R U So) as N.
      destruct (f_sparse_read ty enc dec zero unc bound lv sched) as [[f|]| |]; cbn; easy.
  - intros x H. exists lv. split; auto. destruct (mp_kind p).
    + destruct (f_dense_read ty enc dec zero lv) as [[f|]| |]; cbn [bind option_map] in H; try discriminate H.
      destruct (if box_empty _ then _ else _); cbn [bind] in H; try discriminate H. destruct (Nat.leb 31 i); [discriminate H|].
      now injection H as <-.
    + destruct (f_sparse_read ty enc dec zero unc bound lv sched) as [[f|]| |]; cbn [bind option_map] in H; try discriminate H.
      destruct (if box_empty _ then _ else _); cbn [bind] in H; try discriminate H. destruct (Nat.leb 31 i); [discriminate H|].
      now injection H as <-.
  - intros lv' f Le' K E HW I. apply L1 in Le'. subst lv'. rewrite K, E. cbn [bind option_map]. destruct (W HW) as [z ->]. cbn [bind].
    now rewrite (proj2 (Nat.leb_gt 31 i)).
  - intros lv' f Le' K E HW I. apply L1 in Le'. subst lv'. rewrite K, E. cbn [bind option_map]. destruct (W HW) as [z ->]. cbn [bind].
    now rewrite (proj2 (Nat.leb_gt 31 i)).
Qed.
Print Assumptions C74_mip_load_partial.

(** When no size is too large, the readers are those whose round trips are C54 and C22. *)
Theorem C74_same_readers : forall V ty enc dec (zero : V) uncompress bound t sched, tidy t ->
  ((forall e, rec_extents t = Some e -> sized e) ->
     f_dense_read ty enc dec zero t = dense_read ty enc dec zero t /\
     f_sparse_read ty enc dec zero uncompress bound t sched = sparse_read ty enc dec zero uncompress bound t sched) /\
  (~ mip_unsound t ty -> f_mip_read ty t = mip_read ty t).
Proof.
  intros V ty enc dec zero unc bound t sched T. split.
  - intros H. split; [now apply f_dense_same|now apply f_sparse_same].
  - intros H. apply f_mip_same. now rewrite (f_mip_ub ty t T).
Qed.
Print Assumptions C74_same_readers.

(** A MIP field of two levels, of two and one voxels, each of two bytes. *)
Definition h_enc (z : Z) : bytes := [z; 0].
Lemma h_storable : storable TFloat16 h_enc e_dec. Proof. split; [discriminate|]. intros v. split; reflexivity. Qed.
Definition h_level (lo hi : v3) (data : bytes) : list tree :=
  [ node_attr (str "version") TInt32 (enc32 1);
    node_attr (str "extents_min") TVecI32 (enc_v3 lo); node_attr (str "extents_max") TVecI32 (enc_v3 hi);
    node_attr (str "data_window_min") TVecI32 (enc_v3 (V3 0 0 0)); node_attr (str "data_window_max") TVecI32 (enc_v3 hi);
    node_attr (str "components") TInt32 (enc32 1);
    node_dataset G_DATASET (str "data") TFloat16 [data] ].
Definition h_mip (n : Z) (levels : list tree) : list tree :=
  [ node_attr (str "class_name") TString (str "MIPField"); node_attr (str "version") TInt32 (enc32 1);
    node_attr (str "components") TUint8 (enc8 1); node_attr (str "base_type") TString (str "DenseField");
    node_dataset G_DATASET (str "dummy_data") TFloat16 [];
    node_group (str "mip_levels") (node_attr (str "levels") TUint32 (enc32 n) :: levels) ].
Definition h_read (t : tree) := f_layer TFloat16 h_enc e_dec 0 e_unc (fun n => n) t (e_open_parts t) (str "p.0") (str "density") [].
Definition h_load (t : tree) (p : mip_proxy) (i : nat) := f_load_level TFloat16 h_enc e_dec 0 e_unc (fun n => n) t (str "p.0/density") p i [].
Definition h_tree : tree := e_file (h_mip 2
  [ node_group (str "level.0") (h_level (V3 0 0 0) (V3 1 0 0) [8; 0; 9; 0]); node_group (str "level.1") (h_level (V3 0 0 0) (V3 0 0 0) [7; 0]) ]) [].
Definition h_proxy : mip_proxy := MipProxy BDense (Box (V3 0 0 0) (V3 1 0 0)) (Box (V3 0 0 0) (V3 1 0 0))
  [(Box (V3 0 0 0) (V3 1 0 0), Box (V3 0 0 0) (V3 1 0 0)); (Box (V3 0 0 0) (V3 0 0 0), Box (V3 0 0 0) (V3 0 0 0))].
Example ex_mip : tidy h_tree /\ h_read h_tree = Ok (Some (AMip h_proxy, meta_empty)) /\
  (forall g lg, found 0 (str "p.0") h_tree = Some g -> found 0 (str "density") g = Some lg ->
     f_mip_read TFloat16 lg = Ok (Some h_proxy) /\ ~ mip_unsound lg TFloat16) /\
  sized (mp_dw h_proxy) /\
  match h_load h_tree h_proxy 0, h_load h_tree h_proxy 1 with
  | Ok (ADense f), Ok (ADense g) => map (dense_value f) [V3 0 0 0; V3 1 0 0] = [Ok 8; Ok 9] /\ dense_value g (V3 0 0 0) = Ok 7
  | _, _ => False
  end.
Proof.
  assert (T : tidy h_tree) by tidy_tac.
  split; [exact T|]. split; [vm_compute; reflexivity|]. split; [|split; [|vm_compute; auto]].
  - intros g lg Eg El. assert (Tg : tidy g) by (destruct (found_ok _ _ _ _ T Eg) as (_ & _ & K); auto).
    assert (Tl : tidy lg) by (destruct (found_ok _ _ _ _ Tg El) as (_ & _ & K); auto).
    assert (E : f_mip_read TFloat16 lg = Ok (Some h_proxy)) by (rec Eg; rec El; vm_compute; reflexivity).
    split; [exact E|]. rewrite <- (C74_mip TFloat16 lg Tl), E. discriminate.
  - apply sized_axes. vm_compute. intuition discriminate.
Qed.

(** * What goes wrong *)

(** A group with a name and nothing else: listing it is undefined. *)
Theorem C74_kindless_refuted : exists t, rooted t /\ e_open t = UB.
Proof. exists (node_group (str "root") [Group [Data (str "p.0")]]). split; [do 3 eexists; reflexivity|vm_compute; reflexivity]. Qed.
Print Assumptions C74_kindless_refuted.

(** An entry that is not named hides what comes after it from reading but not from listing: the partition is listed, and
    none of its layers. *)
Theorem C74_stranger_refuted : exists t, tidy t /\ In (str "p.0") (partitions t) /\
  In (node_group (str "p.0") [node_group (str "density") (e_dense (V3 1 0 0) [8; 9])]) (kids t) /\
  e_open_parts t = [IPart (str "p.0") None []] /\ e_read t (str "p.0") (str "density") = Ok None.
Proof.
  exists ex_tree. split; [tidy_tac|]. split; [vm_compute; auto|]. split; [vm_compute; auto|]. split; vm_compute; reflexivity.
Qed.
Print Assumptions C74_stranger_refuted.

(** A layer that does not say what class it has. *)
Theorem C74_class_refuted : exists t, tidy t /\ e_open_parts t = [IPart (str "p.0") None [str "density"]] /\
  e_read t (str "p.0") (str "density") = UB.
Proof.
  exists (e_file (tl (e_dense (V3 1 0 0) [8; 9])) []). split; [tidy_tac|]. split; vm_compute; reflexivity.
Qed.
Print Assumptions C74_class_refuted.

(** More data than voxels; a window of too many voxels. *)
Theorem C74_dense_refuted :
  (exists t, tidy t /\ e_read t (str "p.0") (str "density") = UB /\ t = e_file (e_dense (V3 1 0 0) [8; 9; 10]) []) /\
  (exists t, tidy t /\ e_read t (str "p.0") (str "density") = UB /\ t = e_file (e_dense (V3 65535 65535 0) [8; 9]) []).
Proof.
  split; (eexists; split; [|split; [|reflexivity]]; [tidy_tac|vm_compute; reflexivity]).
Qed.
Print Assumptions C74_dense_refuted.

(** A number of blocks that is not an int; more blocks than the window has; a block order that is too high; more flags than blocks; more values than blocks; a block
    without an element; an element longer than a block. *)
Theorem C74_sparse_refuted : forall layer, In layer
  [ e_sparse 0 (V3 65536 65536 1) [1; 0] [7; 6] [[5]]; e_sparse 0 (V3 3 1 1) [1; 0; 0] [7; 6; 6] [[5]]; e_sparse 11 (V3 1 1 1) [1] [7] [[5]];
    e_sparse 0 (V3 2 1 1) [1; 0; 0] [7; 6] [[5]]; e_sparse 0 (V3 2 1 1) [1; 0] [7; 6; 6] [[5]];
    e_sparse 0 (V3 2 1 1) [1; 1] [7; 6] [[5]]; e_sparse 0 (V3 2 1 1) [1; 0] [7; 6] [[5; 5]] ] ->
  tidy (e_file layer []) /\ e_read (e_file layer []) (str "p.0") (str "density") = UB.
Proof.
  intros layer I. cbn [In] in I. repeat (destruct I as [<-|I]; [split; [tidy_tac|vm_compute; reflexivity]|]). destruct I.
Qed.
Print Assumptions C74_sparse_refuted.

(** Extents whose size is not an int: of a dense layer, a sparse layer, a level of a MIP layer. *)
Theorem C74_extents_refuted :
  (exists t, tidy t /\ dense_read TFloat16 h_enc e_dec 0 t <> UB /\ f_dense_read TFloat16 h_enc e_dec 0 t = UB) /\
  (exists t, tidy t /\ h_read t = UB /\ t = e_file (h_mip 1 [node_group (str "level.0") (h_level (V3 (- 2 ^ 31) 0 0) (V3 0 0 0) [7; 0])]) []).
Proof.
  split.
  - exists (node_group (str "l") (h_level (V3 (- 2 ^ 31) 0 0) (V3 0 0 0) [7; 0])). split; [tidy_tac|]. split; vm_compute; [discriminate|reflexivity].
  - eexists. split; [|split; [|reflexivity]]; [tidy_tac|vm_compute; reflexivity].
Qed.
Print Assumptions C74_extents_refuted.

(** The 32nd level of a MIP layer cannot be loaded; nor can a level of one whose data window has no size. *)
Definition h_many : list tree := map (fun i => node_group (str "level." ++ int_name i)
  (h_level (V3 0 0 0) (V3 (32 - Z.of_nat i) 0 0) (repeat 0 (2 * (33 - i))))) (seq 0 33).
Definition h_wide : list tree := [ node_group (str "level.0") (
  [ node_attr (str "version") TInt32 (enc32 1);
    node_attr (str "extents_min") TVecI32 (enc_v3 (V3 0 0 0)); node_attr (str "extents_max") TVecI32 (enc_v3 (V3 1 0 0));
    node_attr (str "data_window_min") TVecI32 (enc_v3 (V3 (- 2 ^ 31) 0 0)); node_attr (str "data_window_max") TVecI32 (enc_v3 (V3 1 0 0)) ]);
  node_group (str "level.1") (h_level (V3 0 0 0) (V3 0 0 0) [7; 0]) ].
Theorem C74_mip_load_refuted :
  (exists t p m, tidy t /\ h_read t = Ok (Some (AMip p, m)) /\ h_load t p 30 <> UB /\ h_load t p 31 = UB) /\
  (exists t p m, tidy t /\ h_read t = Ok (Some (AMip p, m)) /\ h_load t p 1 = UB).
Proof.
  split.
  - exists (e_file (h_mip 33 h_many) []), (MipProxy BDense (Box (V3 0 0 0) (V3 32 0 0)) (Box (V3 0 0 0) (V3 32 0 0))
      (map (fun i => let b := Box (V3 0 0 0) (V3 (32 - Z.of_nat i) 0 0) in (b, b)) (seq 0 33))), meta_empty.
    split; [tidy_tac|]. split; [vm_compute; reflexivity|]. split; vm_compute; [discriminate|reflexivity].
  - exists (e_file (h_mip 2 h_wide) []), (MipProxy BDense (Box (V3 0 0 0) (V3 1 0 0)) (Box (V3 (- 2 ^ 31) 0 0) (V3 1 0 0))
      [(Box (V3 0 0 0) (V3 1 0 0), Box (V3 (- 2 ^ 31) 0 0) (V3 1 0 0)); (Box (V3 0 0 0) (V3 0 0 0), Box (V3 0 0 0) (V3 0 0 0))]), meta_empty.
    split; [tidy_tac|]. split; vm_compute; reflexivity.
Qed.
Print Assumptions C74_mip_load_refuted.
