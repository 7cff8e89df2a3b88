(** Looking things up in archives of any contents. *)
From Coq Require Import ZArith List Bool String Lia.
From Verif Require Import Model.Base Model.FieldM Model.DenseM Model.SparseM Model.OgawaM Spec.OgawaSpec Model.OgM Model.FieldIOM
  Model.FileM Model.MetaM Model.CurveM Model.MappingIOM Model.ForeignM Spec.SparseSpec Spec.ForeignSpec.
Import ListNotations.
Open Scope Z_scope.

Lemma t_kids_kids t : skipn 2 (t_kids t) = kids t.
Proof. destruct t; reflexivity. Qed.
Lemma entry_ok_kids t : tidy t -> Forall entry_ok (kids t).
Proof. now intros []. Qed.

Lemma find_loop_spec name gt l : Forall entry_ok l ->
  find_loop name gt l = Ok (find (has gt name) (before_stranger l)).
Proof.
  induction 1 as [|c l C _ IH]; auto.
  destruct c as [g|b]; [|exact IH].
  destruct g as [|[g0|n] g]; [reflexivity|reflexivity|].
  destruct g as [|[g1|k] g]; [elim C|elim C|].
  cbn [find_loop before_stranger read_string get_data t_kids nth_error read_data bind entry].
  destruct (Nat.eqb (List.length k) 4) eqn:L; [|reflexivity].
  cbn [find]. unfold has at 1. cbn [entry]. rewrite L.
  destruct (dec_le k =? gt); cbn [negb andb]; [|exact IH].
  destruct (bytes_eqb (cstr n) name); [reflexivity|exact IH].
Qed.
Lemma names_loop_spec gt l : Forall entry_ok l ->
  names_loop gt l = Ok (flat_map (fun c => match entry c with Some (n, k, _) => if k =? gt then [n] else [] | None => [] end) l).
Proof.
  induction 1 as [|c l C _ IH]; auto.
  destruct c as [g|b]; [|exact IH].
  destruct g as [|[g0|n] g]; [exact IH|exact IH|].
  destruct g as [|[g1|k] g]; [elim C|elim C|].
  cbn [names_loop read_string get_data t_kids nth_error read_data bind flat_map entry].
  destruct (Nat.eqb (List.length k) 4); [|exact IH].
  destruct (dec_le k =? gt); cbn [negb]; rewrite IH; reflexivity.
Qed.
Lemma before_stranger_in l c : In c (before_stranger l) -> In c l /\ entry c <> None.
Proof.
  induction l as [|d l IH]; [easy|]. destruct d as [g|b]; cbn [before_stranger].
  - destruct (entry (Group g)) eqn:E; [|easy]. intros [<-|H]; [split; [now left|congruence]|].
    destruct (IH H). split; auto. now right.
  - intros H. destruct (IH H). split; auto. now right.
Qed.

(** What a look-up can give. *)
Definition result_ok (gt : Z) (g : tree) : Prop :=
  entry_ok g /\ (exists n r, entry g = Some (n, gt, r)) /\ (gt = 0 -> tidy g).
Lemma result_valid gt g : result_ok gt g -> validate g = true.
Proof.
  intros (_ & (n & r & E) & _). destruct g as [[|[?|?] [|[?|?] l]]|]; cbn in *; easy.
Qed.
Lemma found_ok t gt name g : tidy t -> found gt name t = Some g -> result_ok gt g.
Proof.
  intros [F K] H. unfold found in H. apply find_some in H. destruct H as [I H].
  apply before_stranger_in in I. destruct I as [I _].
  unfold has in H. destruct (entry g) as [[[n k] r]|] eqn:E; [|easy].
  apply andb_prop in H. destruct H as [H _]. apply Z.eqb_eq in H. subst k.
  rewrite Forall_forall in F. split; [auto|]. split; [eauto|]. intros ->. eauto.
Qed.
Lemma find_comps_tidy comps : forall t gt, tidy t ->
  exists r, find_comps t comps gt = Ok r /\ forall g, r = Some g -> result_ok gt g.
Proof.
  induction comps as [|n comps IH]; intros t gt T; [exists None; split; easy|].
  pose proof (entry_ok_kids _ T) as F. destruct comps as [|n' comps].
  - cbn [find_comps]. rewrite t_kids_kids, find_loop_spec by auto. eexists. split; [reflexivity|].
    intros g. apply (found_ok t gt n g T).
  - change (find_comps t (n :: n' :: comps) gt) with
      (let* g := find_loop n G_GROUP (skipn 2 (t_kids t)) in
       match g with None => Ok None | Some g => if validate g then find_comps g (n' :: comps) gt else UB end).
    rewrite t_kids_kids, find_loop_spec by auto. cbn [bind].
    destruct (find (has G_GROUP n) (before_stranger (kids t))) as [g|] eqn:E; [|exists None; split; easy].
    assert (R : result_ok 0 g) by (apply (found_ok t 0 n g T); exact E).
    rewrite (result_valid _ _ R). destruct R as (_ & _ & R). apply IH. auto.
Qed.
Lemma find_group_tidy t p gt : tidy t -> exists r, find_group t p gt = Ok r /\ forall g, r = Some g -> result_ok gt g.
Proof. apply find_comps_tidy. Qed.
Lemma split_no_slash p : forall cur, ~ In 47 p -> split_path cur p = [cur ++ p].
Proof.
  induction p as [|c p IH]; intros cur H; cbn; [now rewrite app_nil_r|].
  destruct (Z.eqb_spec c 47); [elim H; now left|]. rewrite IH; [now rewrite <- app_assoc|]. intros I; apply H; now right.
Qed.
Lemma find_group_found t p gt : tidy t -> ~ In 47 p -> find_group t p gt = Ok (found gt p t).
Proof.
  intros T N. unfold find_group. rewrite split_no_slash by auto. cbn [app find_comps].
  rewrite t_kids_kids, find_loop_spec by now apply entry_ok_kids. reflexivity.
Qed.
Lemma group_names_named t gt : tidy t -> group_names t gt = Ok (named gt t).
Proof. intros T. unfold group_names. rewrite t_kids_kids, names_loop_spec by now apply entry_ok_kids. reflexivity. Qed.

Lemma attr_shape g : result_ok 1 g -> exists a b d v l, g = Group (Data a :: Data b :: Data d :: Data v :: l).
Proof.
  intros (O & (n & r & E) & _). destruct g as [[|[?|a] [|[?|b] l]]|]; cbn in E; try easy.
  destruct (Nat.eqb (List.length b) 4) eqn:L; [|easy]. injection E as E1 E2 E3. apply Nat.eqb_eq in L.
  cbn in O. destruct (O L) as [O1 _]. destruct (O1 E2) as (d & v & r' & ->). now exists a, b, d, v, r'.
Qed.
Lemma data_shape gt g : gt = 2 \/ gt = 3 -> result_ok gt g -> exists a b d l, g = Group (Data a :: Data b :: Data d :: l).
Proof.
  intros G (O & (n & r & E) & _). destruct g as [[|[?|a] [|[?|b] l]]|]; cbn in E; try easy.
  destruct (Nat.eqb (List.length b) 4) eqn:L; [|easy]. injection E as E1 E2 E3. apply Nat.eqb_eq in L.
  cbn in O. destruct (O L) as [_ O2]. rewrite E2 in O2. destruct (O2 G) as (d & r' & ->). now exists a, b, d, r'.
Qed.
Lemma get_attr_tidy t n ty dflt : tidy t -> exists r, get_attr t n ty dflt = Ok r.
Proof.
  intros T. unfold get_attr, find_typed. destruct (find_group_tidy t n G_ATTR T) as (r & -> & R). cbn [bind].
  destruct r as [g|]; [|eexists; reflexivity]. destruct (attr_shape g (R g eq_refl)) as (a & b & d & v & l & ->).
  cbn [read_dtype get_data t_kids nth_error bind].
  destruct (_ =? type_code ty); cbn [bind]; [|eexists; reflexivity].
  destruct ty; eexists; reflexivity.
Qed.

Lemma type_code_valid ty : type_code ty <> INVALID_TYPE.
Proof. now destruct ty. Qed.
Lemma dtype_eqb (d : list Z) ty :
  ((if Nat.eqb (List.length d) 4 then dec_le d else INVALID_TYPE) =? type_code ty) =
  Nat.eqb (List.length d) 4 && (dec_le d =? type_code ty).
Proof.
  destruct (Nat.eqb (List.length d) 4); auto. cbn [andb]. apply Z.eqb_neq. intros E. now apply (type_code_valid ty).
Qed.
Lemma get_attr_rec t s ty : tidy t -> ~ In 47 (str s) -> ty <> TString ->
  get_attr t (str s) ty (zeros (type_size ty)) = Ok (rec_attr t s ty).
Proof.
  intros T N NS. unfold get_attr, find_typed. rewrite find_group_found by auto. cbn [bind]. unfold rec_attr, G_ATTR.
  destruct (found 1 (str s) t) as [g|] eqn:E; [|reflexivity].
  destruct (attr_shape g (found_ok _ _ _ _ T E)) as (a & b & d & v & l & ->).
  cbn [read_dtype get_data t_kids nth_error bind]. rewrite dtype_eqb.
  destruct (_ && _); cbn [bind]; [|reflexivity].
  destruct ty; try easy; cbn [attr_value read_data get_data t_kids nth_error bind type_size];
  destruct (Nat.eqb _ _); reflexivity.
Qed.
Lemma need_attr_rec t s ty : tidy t -> ~ In 47 (str s) -> ty <> TString ->
  need_attr t (str s) ty = match rec_attr t s ty with Some v => Ok v | None => Exn end.
Proof. intros. unfold need_attr. now rewrite get_attr_rec. Qed.

(** A data set: its type, its group, its elements. *)
Lemma data_rec t s gt ty : tidy t -> ~ In 47 (str s) -> gt = 2 \/ gt = 3 ->
  (exists z, dataset_type t (str s) gt = Ok z /\ ((type_code ty =? z) = match rec_data t gt s ty with Some _ => true | None => false end)) /\
  match rec_data t gt s ty with
  | None => find_typed t (str s) gt ty = Ok None
  | Some l => exists d, find_typed t (str s) gt ty = Ok (Some d) /\ (forall k, ds_get d k = element l k) /\
      ds_num d = Z.of_nat (List.length l)
  end.
Proof.
  intros T N G. unfold dataset_type, find_typed. rewrite find_group_found by auto. cbn [bind]. unfold rec_data.
  destruct (found gt (str s) t) as [g|] eqn:E.
  - destruct (data_shape gt g G (found_ok _ _ _ _ T E)) as (a & b & d & l & ->).
    cbn [List.length t_kids Nat.ltb Nat.leb read_dtype get_data nth_error bind].
    split.
    + eexists. split; [reflexivity|]. rewrite Z.eqb_sym, dtype_eqb. now destruct (_ && _).
    + rewrite dtype_eqb. destruct (_ && _); [|reflexivity]. eexists. split; [reflexivity|]. split.
      * intros k. unfold ds_get, element, get_data. cbn [t_kids]. now rewrite Nat.add_comm.
      * unfold ds_num. cbn [t_kids List.length]. lia.
  - split; [|reflexivity]. exists INVALID_TYPE. split; [reflexivity|]. apply Z.eqb_neq, type_code_valid.
Qed.

(** * Opening *)
Lemma find_valid_tidy t n : tidy t -> exists r, find_valid t n = Ok r /\ forall g, r = Some g -> tidy g.
Proof.
  intros T. unfold find_valid. destruct (find_group_tidy t n G_GROUP T) as (r & -> & R). cbn [bind].
  eexists. split; [reflexivity|]. intros g. destruct r as [g'|]; [|easy].
  destruct (R g' eq_refl) as (_ & _ & Q). destruct (validate g'); [|easy]. intros [= <-]. now apply Q.
Qed.
Lemma find_valid_found t n : tidy t -> ~ In 47 n -> find_valid t n = Ok (found 0 n t).
Proof.
  intros T N. unfold find_valid. rewrite find_group_found by auto. cbn [bind]. unfold G_GROUP.
  destruct (found 0 n t) as [g|] eqn:E; [|reflexivity].
  now rewrite (result_valid _ _ (found_ok _ _ _ _ T E)).
Qed.
Lemma read_kind_tidy t n k m : tidy t -> exists r, read_kind t n k m = Ok r.
Proof.
  intros T. unfold read_kind. destruct (get_attr_tidy t n (mtype k) (zeros (type_size (mtype k))) T) as [r ->].
  eexists; reflexivity.
Qed.
Lemma read_names_tidy t ns : tidy t -> forall m, exists r, read_names t ns m = Ok r.
Proof.
  intros T. induction ns as [|n ns IH]; intros m; [eexists; reflexivity|]. cbn [read_names]. unfold read_name.
  destruct (read_kind_tidy t n KStr m T) as [m1 ->]; cbn [bind].
  destruct (read_kind_tidy t n KInt m1 T) as [m2 ->]; cbn [bind].
  destruct (read_kind_tidy t n KFloat m2 T) as [m3 ->]; cbn [bind].
  destruct (read_kind_tidy t n KVecInt m3 T) as [m4 ->]; cbn [bind].
  destruct (read_kind_tidy t n KVecFloat m4 T) as [m5 ->]; cbn [bind]. apply IH.
Qed.
Lemma read_meta_tidy t m : tidy t -> exists r, read_meta t m = Ok r.
Proof. intros T. unfold read_meta. rewrite group_names_named by auto. cbn [bind]. now apply read_names_tidy. Qed.
Lemma read_layer_meta_tidy t : tidy t -> exists r, read_layer_meta t = Ok r.
Proof.
  intros T. unfold read_layer_meta. destruct (find_valid_tidy t (str "metadata") T) as (r & -> & R). cbn [bind].
  destruct r; [apply read_meta_tidy; auto|eexists; reflexivity].
Qed.

Lemma info_maps_tidy t ns : tidy t -> exists l, info_maps t ns = Ok l /\ map ip_name l = ns /\
  Forall (fun p => ip_layers p = [] /\ forall g, ip_map p = Some g -> tidy g) l.
Proof.
  intros T. induction ns as [|n ns (l & E & M & F)]; [exists []; auto|]. cbn [info_maps].
  destruct (find_valid_tidy t n T) as (r & -> & R). cbn [bind].
  assert (exists q, match r with Some g => find_valid g k_mapping | None => Ok None end = Ok q /\ forall g, q = Some g -> tidy g)
    as (q & -> & Q).
  { destruct r as [g|]; [apply find_valid_tidy; auto|]. exists None. easy. }
  cbn [bind]. rewrite E. cbn [bind]. eexists. split; [reflexivity|]. split; [cbn; now rewrite M|]. constructor; auto.
Qed.
Lemma upd_ipart_maps n f l : (forall p, ip_name (f p) = ip_name p /\ ip_map (f p) = ip_map p) ->
  map ip_name (upd_ipart n f l) = map ip_name l /\ map ip_map (upd_ipart n f l) = map ip_map l.
Proof.
  intros H. induction l as [|p l [I1 I2]]; auto. cbn [upd_ipart].
  destruct (bytes_eqb (ip_name p) n); cbn [map]; [|now rewrite I1, I2].
  destruct (H p) as [-> ->]; auto.
Qed.
Lemma info_layers_tidy t ns : tidy t -> forall l, exists l', info_layers t ns l = Ok l' /\
  map ip_name l' = map ip_name l /\ map ip_map l' = map ip_map l.
Proof.
  intros T. induction ns as [|n ns IH]; intros l; [exists l; auto|]. cbn [info_layers].
  destruct (find_valid_tidy t n T) as (r & -> & R). cbn [bind].
  assert (exists q, match r with Some g => group_names g G_GROUP | None => Ok [] end = Ok q) as [q ->].
  { destruct r as [g|]; [rewrite group_names_named by auto|]; eexists; reflexivity. }
  cbn [bind]. set (f := fun p : ipart => _). destruct (IH (upd_ipart n f l)) as (l' & E & N & M).
  exists l'. split; [exact E|]. destruct (upd_ipart_maps n f l) as [U1 U2]; [now split|]. now rewrite N, M.
Qed.
Definition parts_of (t : tree) : list (list Z) := filter (fun x => negb (bytes_eqb x k_global)) (named 0 t).
Lemma read_info_tidy t : tidy t -> exists l, read_info t = Ok l /\ map ip_name l = parts_of t /\
  Forall (fun p => forall g, ip_map p = Some g -> tidy g) l.
Proof.
  intros T. unfold read_info. rewrite group_names_named by auto. cbn [bind]. fold (parts_of t).
  change (filter _ (named G_GROUP t)) with (parts_of t).
  destruct (info_maps_tidy t (parts_of t) T) as (l & -> & M & F). cbn [bind].
  destruct (info_layers_tidy t (parts_of t) T l) as (l' & -> & N & M'). exists l'. split; [reflexivity|].
  split; [now rewrite N|].
  assert (G : Forall (fun o => forall g, o = Some g -> tidy g) (map ip_map l)).
  { rewrite Forall_map. eapply Forall_impl; [|exact F]. now intros p []. }
  rewrite <- M', Forall_map in G. exact G.
Qed.

Section Map.
Context {T X : Type}.
Variables ltb eqb : T -> T -> bool.
Variable t_dec : bytes -> T.
Variable x_dec : bytes -> X.
Variable t0 : T.
Variables ss0 cs0 : X.
Lemma matrix_read_from_tidy t n : tidy t -> forall i c, exists r, matrix_read_from ltb eqb t_dec x_dec t0 t i n c = Ok r.
Proof.
  intros Ti. induction n as [|n IH]; intros i c; [eexists; reflexivity|]. cbn [matrix_read_from].
  destruct (get_attr_tidy t (nth_name "time_" i) TFloat32 (zeros 4) Ti) as [a ->]. cbn [bind].
  destruct a; [|eexists; reflexivity].
  destruct (get_attr_tidy t (nth_name "matrix_" i) TMtx64 (zeros 128) Ti) as [b ->]. cbn [bind].
  destruct b; [|eexists; reflexivity]. apply IH.
Qed.
Lemma mapping_read_tidy t : tidy t -> exists r, mapping_read ltb eqb t_dec x_dec t0 ss0 cs0 t = Ok r.
Proof.
  intros Ti. unfold mapping_read.
  destruct (get_attr_tidy t (str "mapping_type") TString [] Ti) as [a ->]. cbn [bind].
  destruct a as [c|]; [|eexists; reflexivity].
  destruct (bytes_eqb c (str "NullFieldMapping")).
  { destruct (get_attr_tidy t (str "NullFieldMapping data") TString [] Ti) as [d ->]. eexists; reflexivity. }
  destruct (bytes_eqb c (str "MatrixFieldMapping")).
  { unfold matrix_read. destruct (get_attr_tidy t (str "num_time_samples") TInt32 (zeros 4) Ti) as [d ->]. cbn [bind].
    destruct d as [d|]; [|eexists; reflexivity].
    destruct (matrix_read_from_tidy t (Z.to_nat (dec_i32 d)) Ti 0 []) as [r ->]. eexists; reflexivity. }
  destruct (bytes_eqb c (str "FrustumFieldMapping")); [|eexists; reflexivity].
  unfold frustum_read. destruct (get_attr_tidy t (str "num_time_samples") TInt32 (zeros 4) Ti) as [d ->]. cbn [bind].
  destruct d as [d|]; [|eexists; reflexivity]. cbn [frustum_read_from bind].
  destruct (get_attr_tidy t (str "z_distribution") TInt32 (zeros 4) Ti) as [z ->]. eexists; reflexivity.
Qed.

Lemma f_open_tidy t : tidy t -> validate t = true ->
  let v := match rec_attr t "version_number" TVecI32 with Some b => supported (vx (dec_v3 b)) (vy (dec_v3 b)) | None => true end in
  exists r, f_open ltb eqb t_dec x_dec t0 ss0 cs0 t = Ok r /\
  match r with None => v = false | Some f => v = true /\ read_info t = Ok (in_parts f) /\ map ip_name (in_parts f) = parts_of t /\
    (let* g := find_valid t k_global in match g with Some g => read_meta g meta_empty | None => Ok meta_empty end) = Ok (in_meta f) /\
    Forall2 (fun p m => match ip_map p with Some g => mapping_read ltb eqb t_dec x_dec t0 ss0 cs0 g = Ok m | None => m = None end)
      (in_parts f) (in_maps f) end.
Proof.
  intros Ti V v. unfold f_open. rewrite V. cbn [negb].
  change (zeros 12) with (zeros (type_size TVecI32)).
  rewrite get_attr_rec; [|auto|vm_compute; intuition discriminate|easy]. cbn [bind]. fold v.
  destruct v eqn:E; cbn [negb]; [|exists None; auto].
  destruct (find_valid_tidy t k_global Ti) as (g & -> & G). cbn [bind].
  assert (exists m, match g with Some g => read_meta g meta_empty | None => Ok meta_empty end = Ok m) as [m Em].
  { destruct g; [apply read_meta_tidy; auto|eexists; reflexivity]. }
  rewrite Em. cbn [bind]. destruct (read_info_tidy t Ti) as (l & -> & N & F). cbn [bind].
  assert (exists ms, mmap (fun p => match ip_map p with Some g => mapping_read ltb eqb t_dec x_dec t0 ss0 cs0 g | None => Ok None end) l = Ok ms /\
    Forall2 (fun p m => match ip_map p with Some g => mapping_read ltb eqb t_dec x_dec t0 ss0 cs0 g = Ok m | None => m = None end) l ms)
    as (ms & -> & F2).
  { clear N. induction F as [|p l P _ (ms & IH & I2)]; [exists []; split; auto|]. cbn [mmap].
    assert (exists x, match ip_map p with Some g => mapping_read ltb eqb t_dec x_dec t0 ss0 cs0 g | None => Ok None end = Ok x) as [x X0].
    { destruct (ip_map p) as [q|]; [apply mapping_read_tidy; auto|eexists; reflexivity]. }
    rewrite X0. cbn [bind]. rewrite IH. eexists. split; [reflexivity|]. constructor; auto.
    destruct (ip_map p); [exact X0|now injection X0]. }
  eexists. split; [reflexivity|]. cbn [in_parts in_meta in_maps]. auto.
Qed.
End Map.
