(** C57: proxies say what layers are without reading them. *)
From Coq Require Import ZArith List Bool String Lia Arith Permutation.
From Verif Require Import Model.Base Model.FieldM Model.DenseM Model.SparseM Model.OgawaM Spec.OgawaSpec Model.OgM Spec.OgSpec Proof.OgP
  Model.FieldIOM Spec.FieldIOSpec Proof.FieldIOP Proof.FieldIOP2 Model.FileM Spec.FileSpec Proof.FileP Proof.FileP2 Props.FileProps
  Model.MetaM Spec.MetaSpec Proof.MetaP Props.MetaProps Model.MipIOM Proof.MipIOP Model.ProxyM Spec.ProxySpec Proof.ProxyP Proof.ProxyP2 Proof.ProxyP3.
Import ListNotations.
Open Scope Z_scope.

(** The proxies of (P, L) after any history of writes: exactly one for each accepted call with
    those names, with the sizes, the number of MIP levels, the metadata and the mapping of the
    field that was written. *)
Theorem C57_proxies : forall V M ident map_kids map_ok (hp : nat -> M) f0 calls f outcomes version globals is_vector P L,
  o_parts f0 = [] -> Forall usable calls -> Forall (fun w => map_ok (hp (w_ref w)) = true) calls ->
  write_all ident map_kids map_ok hp f0 calls = Ok (f, outcomes) ->
  P <> [] -> L <> [] ->
  (forall w, In w (accepted calls outcomes) -> w_user w = P -> w_layer w = L -> exists e dw levels history, writes w e dw levels history) ->
  exists (proxies : list (proxy V)) source, read_proxy_layer is_vector (file_tree version f globals) P L = Ok proxies /\
    Permutation source (filter (fun w => bytes_eqb (w_user w) P && bytes_eqb (w_layer w) L) (accepted calls outcomes)) /\
    Forall2 (proxy_for ident map_kids hp) proxies source.
Proof.
  intros V M ident mk mo hp [c ps] calls f ocs version globals v P L E U MO W NP NL D. cbn in E. subst ps.
  destruct (write_all_inv ident mk mo hp False calls U MO (OFile c []) [] [] (inv_new _ _ _ c)) as (f' & ocs' & G & A & I & _).
  rewrite W in A. injection A as <- <-. unfold read_proxy_layer.
  rewrite (read_info_eq ident mk hp False f G _ version globals I). cbn [bind].
  destruct (@read_proxy_eq M V ident mk hp False f G _ version globals I v P L NP NL D) as (ps & E & F).
  exists ps, (sources G P L). split; auto. split; auto. apply (sources_perm ident mk hp False f G _ I).
Qed.
Print Assumptions C57_proxies.

(** The proxies of all the layers of a name, or with the empty name of all the layers, in the
    first file of an output object: one for each accepted call whose partition has a name. *)
Theorem C57_all_proxies : forall V M ident map_kids map_ok (hp : nat -> M) calls f outcomes version globals is_vector L,
  Forall usable calls -> Forall (fun w => map_ok (hp (w_ref w)) = true) calls ->
  write_all ident map_kids map_ok hp o_new calls = Ok (f, outcomes) ->
  (forall w, In w (accepted calls outcomes) -> L = [] \/ w_layer w = L -> exists e dw levels history, writes w e dw levels history) ->
  exists (proxies : list (proxy V)) source, read_proxies_all is_vector (file_tree version f globals) L = Ok proxies /\
    Permutation source (filter (fun w => negb (is_nil (w_user w)) && (is_nil L || bytes_eqb (w_layer w) L)) (accepted calls outcomes)) /\
    Forall2 (proxy_for ident map_kids hp) proxies source.
Proof.
  intros V M ident mk mo hp calls f ocs version globals v L U MO W D.
  destruct (write_all_inv ident mk mo hp True calls U MO o_new [] [] (inv_fresh _ _ _)) as (f' & ocs' & G & A & I & _).
  rewrite W in A. injection A as <- <-. apply (read_proxies_eq ident mk hp f G _ version globals I).
  intros w Iw C. apply D; auto. destruct L; [auto|]. right. destruct (bytes_eqb_spec (w_layer w) (z :: L)); auto. discriminate.
Qed.
Print Assumptions C57_all_proxies.

(** Any file at all, however it was made: if both the proxies and the layers of (P, L) can be
    read then there are no proxies or as many as layers, in the same order, and each has the
    names, the mapping and the metadata of its layer, and the sizes of the dense or sparse field
    that is read from the layer. *)
Theorem C57_proxies_agree : forall V is_vector t P L (proxies : list (proxy V)) layers,
  read_proxy_layer is_vector t P L = Ok proxies -> read_layers t P L = Ok layers ->
  proxies = [] \/ Forall2 proxy_agrees proxies layers.
Proof.
  intros V v t P L ps ls HP HL. unfold read_proxy_layer, read_layers in *. apply bind_ok in HP as (l & E & HP). rewrite E in HL. cbn [bind] in HL.
  unfold read_proxy in HP. destruct (is_nil L || is_nil P); [injection HP as <-; auto|].
  apply bind_ok in HP as (r & PP & HP). pose proof (proxy_parts_any _ _ _ _ _ _ _ _ PP HL) as F. injection HP as <-.
  destruct r as [ps|]; [|auto]. right. clear -F. induction F; constructor; auto. now apply proxy_of_agrees.
Qed.
Print Assumptions C57_proxies_agree.

(** Any file with usable names: nothing that lists or opens partitions, layers, metadata and
    proxies is undefined behaviour. *)
Theorem C57_any_file : forall V g entries is_vector P L, names_ok entries ->
  let t := written (EGroup g entries) in
  (exists names, partition_names t = Ok names) /\ (exists names, layer_names_in t P = Ok names) /\
  (exists layers, read_layers t P L = Ok layers /\ Forall (fun x => read_layer_meta (il_group x) <> UB) layers) /\
  (exists layers, read_layers_all t L = Ok layers) /\
  @read_proxy_layer V is_vector t P L <> UB /\ @read_proxies_all V is_vector t L <> UB.
Proof.
  intros V g l v P L N t. assert (W : wtree t) by (exists g, l; auto).
  unfold partition_names, layer_names_in, read_layers, read_layers_all, read_proxy_layer.
  destruct (info_safe t W) as (i & ->). cbn [bind]. split; [eauto|]. split; [eauto|]. split; [|split; [|split]].
  - destruct (is_nil L || is_nil P); [eauto|]. edestruct (parts_safe t i) as (r & E & F); [exact W|]. exists r. split; [exact E|].
    eapply Forall_impl; [|exact F]. intros x X. now apply layer_meta_safe.
  - edestruct (parts_safe t i) as (r & E & F); [exact W|]. eauto.
  - now apply read_proxy_safe.
  - now apply proxies_all_safe.
Qed.
Print Assumptions C57_any_file.

(** Scalar and vector proxies are the same. *)
Theorem C57_vector_refuted : forall V t P L,
  @read_proxy_layer V true t P L = read_proxy_layer false t P L /\ @read_proxies_all V true t L = read_proxies_all false t L.
Proof.
  intros V t P L.
  assert (A : forall l u la ps, @proxy_parts V true t l u la ps = proxy_parts false t l u la ps).
  { intros l u la ps. induction ps as [|n ps IH]; auto. cbn [proxy_parts]. rewrite IH. reflexivity. }
  assert (B : forall l u la, @read_proxy V true t l u la = read_proxy false t l u la).
  { intros. unfold read_proxy. rewrite A. reflexivity. }
  assert (C : forall X Y (g h : X -> res (list Y)) l, (forall a, g a = h a) -> flat_mmap g l = flat_mmap h l).
  { intros X Y g h l H. induction l; cbn [flat_mmap]; auto. rewrite H, IHl. reflexivity. }
  unfold read_proxy_layer, read_proxies_all. split; destruct (read_info t) as [l| |]; cbn [bind]; auto.
  destruct (partition_names t); cbn [bind]; auto. apply C. intros p. apply C. intros n. destruct (_ || _); auto.
Qed.
Print Assumptions C57_vector_refuted.

(** * The field *)

(** Whatever is done to a field without storage: its sizes are the last ones that were set, every
    voxel has the value of the last [clear] whatever was assigned to voxels, and is not
    initialised if there was none; the constant is that of the last [clear] or
    [setConstantvalue]. *)
Definition clears {V} (o : eop V) : option V := match o with EClear v => Some v | _ => None end.
Definition constants {V} (o : eop V) : option V := match o with EClear v | ESetConstant v => Some v | _ => None end.
Definition sizes {V} (o : eop V) : option (box * box) := match o with ESize e dw => Some (e, dw) | _ => None end.
Theorem C57_empty_field : forall V (ops : list (eop V)) p,
  empty_value (erun ops) p = (match last_given clears ops with Some v => Ok v | None => UB end) /\
  empty_constant (erun ops) = (match last_given constants ops with Some v => Ok v | None => UB end) /\
  forall e dw, last_given sizes ops = Some (e, dw) -> ef_ext (erun ops) = e /\ ef_dw (erun ops) = dw.
Proof.
  intros V ops p.
  assert (H : ef_default (erun ops) = last_given clears ops /\ ef_constant (erun ops) = last_given constants ops /\
    forall e dw, last_given sizes ops = Some (e, dw) -> ef_ext (erun ops) = e /\ ef_dw (erun ops) = dw).
  { unfold erun, last_given. induction ops as [|o ops IH] using rev_ind; [split; [auto|split; [auto|discriminate]]|].
    rewrite !fold_left_app. cbn [fold_left]. destruct IH as (A & B & C). destruct o; cbn; rewrite ?A, ?B; (split; [auto|split; [auto|]]);
      try exact C. intros e' dw' [= <- <-]. auto. }
  destruct H as (A & B & C). unfold empty_value, empty_constant. rewrite A, B. auto.
Qed.
Print Assumptions C57_empty_field.

(** A proxy as it is read has neither a value nor a constant. *)
Theorem C57_proxy_value_refuted : forall V is_vector t P L (proxies : list (proxy V)) x p,
  read_proxy_layer is_vector t P L = Ok proxies -> In x proxies ->
  empty_value (px_field x) p = UB /\ empty_constant (px_field x) = UB.
Proof.
  intros V v t P L ps x p H I.
  pose proof I as I_. clear I. assert (K : Forall (fun x : proxy V => ef_default (px_field x) = None /\ ef_constant (px_field x) = None) ps).
  { unfold read_proxy_layer in H. apply bind_ok in H as (l & _ & H). unfold read_proxy in H. destruct (_ || _); [injection H as <-; constructor|]. clear I_.
    apply bind_ok in H as (r & H & E). injection E as <-.
    assert (LP : forall part names r, @proxy_layers V t l part P L names = Ok r ->
      match r with Some ps => Forall (fun x => ef_default (px_field x) = None /\ ef_constant (px_field x) = None) ps | None => True end).
    { clear. intros part names. induction names as [|n names IH]; intros r; cbn [proxy_layers]; [intros [= <-]; constructor|].
      destruct (bytes_eqb n L); [|apply IH]. destruct (find_ipart part l); [|intros [= <-]; exact Logic.I].
      destruct (negb _); [intros [= <-]; exact Logic.I|]. intros H. apply bind_ok in H as ([g|] & _ & H); [|injection H as <-; exact Logic.I].
      apply bind_ok in H as ([lg|] & _ & H); [|injection H as <-; exact Logic.I]. apply bind_ok in H as (p & PO & H).
      apply bind_ok in H as (rest & PR & H). injection H as <-. specialize (IH _ PR). destruct rest as [rest|]; cbn [option_map]; auto.
      constructor; auto. rewrite proxy_of_unfold in PO. repeat (apply bind_ok in PO as (? & _ & PO)). injection PO as <-. auto. }
    revert r H. generalize (map ip_name l) as parts. intros parts. induction parts as [|n parts IH]; intros r; cbn [proxy_parts]; [intros [= <-]; constructor|].
    destruct (bytes_eqb _ _); [|apply IH]. intros H. apply bind_ok in H as ([a|] & PA & H); [|injection H as <-; constructor].
    apply bind_ok in H as (rest & PR & H). injection H as <-. specialize (IH _ PR). specialize (LP _ _ _ PA). cbn in LP.
    destruct rest as [rest|]; cbn [option_map]; [|constructor]. apply Forall_app; auto. }
  pose proof (proj1 (Forall_forall _ _) K x I_) as (A & B). unfold empty_value, empty_constant. rewrite A, B. auto.
Qed.
Print Assumptions C57_proxy_value_refuted.

(** * A concrete file *)
Definition px_dense : dense Z := Dense (Box (V3 0 0 0) (V3 3 3 3)) (Box (V3 0 0 0) (V3 1 0 0)) (V3 2 1 1) 2 [7; 8].
Definition px_body (f : dense Z) (h : list mset) : list tree :=
  match dense_layer TUint8 (fun v => [v]) 1 8 f with Ok l => layer_body (write_meta (meta_run h)) (str "DenseField") l | _ => [] end.
Definition px_history : list mset := [MSet KStr (str "unit") (str "kg")].
Definition px_call (P L : string) (r : nat) : wr := Wr (str P) (str L) r (px_body px_dense px_history).
Definition px_calls : list wr := [px_call "fire" "density" 1; px_call "fire" "density" 2; px_call "smoke" "density" 1; px_call "fire" "temp" 1].
Definition px_written := write_all Z.eqb ex_kids (fun _ => true) ex_heap o_new px_calls.
Lemma px_writes P L r : writes (px_call P L r) (d_ext px_dense) (d_dw px_dense) 0 px_history.
Proof.
  split; [repeat split; reflexivity|]. split; [repeat split; reflexivity|]. split.
  - repeat constructor; try discriminate; cbn; intuition discriminate.
  - split; [intros a b [<-|[]] [<-|[]]; auto|]. exists (str "DenseField"). eexists. split; [|reflexivity].
    apply (stores_dense Z TUint8 (fun v => [v]) 1 8). reflexivity.
Qed.
Example C57_example : Forall usable px_calls /\
  (forall w, In w px_calls -> exists e dw levels history, writes w e dw levels history) /\
  exists f, px_written = Ok (f, [Accepted; Accepted; Accepted; Accepted]) /\
  let t := file_tree (enc32 1 ++ enc32 7 ++ enc32 0) f None in
  match @read_proxy_layer Z false t (str "fire") (str "density") with
  | Ok [a; b] => ef_ext (px_field a) = d_ext px_dense /\ ef_dw (px_field b) = d_dw px_dense /\
      px_map a = Some (node_group (str "mapping") (ex_kids 1)) /\ px_map b = Some (node_group (str "mapping") (ex_kids 2)) /\
      meta_get (px_meta a) KStr (str "unit") [] = str "kg" /\ meta_get (px_meta a) KInt (str "mip_levels") [] = enc32 0
  | _ => False
  end /\
  match @read_proxies_all Z false t [] with
  | Ok l => map (fun p => (px_name p, px_attr p)) l =
      [(str "fire", str "density"); (str "fire", str "density"); (str "fire", str "temp"); (str "smoke", str "density")]
  | _ => False
  end.
Proof.
  split; [repeat (constructor; [apply usable_b; reflexivity|]); constructor|]. split.
  - intros w [<-|[<-|[<-|[<-|[]]]]]; do 4 eexists; apply px_writes.
  - eexists. split; [vm_compute; reflexivity|]. split; vm_compute; repeat split.
Qed.

(** * What the plain statement claims but the code does not do *)

(** One layer that could not be stored (a MAC field in a file of this kind, C56) is enough:
    asking for the proxies of the file throws, although the other layers are fine. *)
Theorem C57_unstored_layer_refuted : ~ (forall calls f outcomes,
  write_all Z.eqb ex_kids (fun _ => true) ex_heap o_new calls = Ok (f, outcomes) -> Forall usable calls ->
  @read_proxies_all Z false (ex_tree f) [] <> Exn).
Proof.
  intros H. eapply (H [px_call "fire" "density" 1; Wr (str "fire") (str "v_mac") 1 (layer_body [] (str "MACField") [])]).
  - vm_compute. reflexivity.
  - repeat (constructor; [apply usable_b; reflexivity|]); constructor.
  - vm_compute. reflexivity.
Qed.
Print Assumptions C57_unstored_layer_refuted.

Definition file_of (calls : list wr) : ofile :=
  match write_all Z.eqb ex_kids (fun _ => true) ex_heap o_new calls with Ok (f, _) => f | _ => o_new end.
Definition got {A} (r : res (list A)) : list A := match r with Ok l => l | _ => [] end.
(** Metadata called "mip_levels" is not that of the layer. *)
Theorem C57_mip_levels_refuted : ~ (forall calls f outcomes proxies layers,
  write_all Z.eqb ex_kids (fun _ => true) ex_heap o_new calls = Ok (f, outcomes) -> Forall usable calls ->
  @read_proxy_layer Z false (ex_tree f) (str "fire") (str "density") = Ok proxies ->
  read_layers (ex_tree f) (str "fire") (str "density") = Ok layers ->
  Forall2 (fun p x => exists m, read_layer_meta (il_group x) = Ok m /\
     meta_get (px_meta p) KInt (str "mip_levels") [] = meta_get m KInt (str "mip_levels") []) proxies layers).
Proof.
  intros H. set (calls := [Wr (str "fire") (str "density") 1 (px_body px_dense [MSet KInt (str "mip_levels") (enc32 5)])]).
  assert (F := H calls (file_of calls) [Accepted] (got (read_proxy_layer false (ex_tree (file_of calls)) (str "fire") (str "density")))
    (got (read_layers (ex_tree (file_of calls)) (str "fire") (str "density")))
    ltac:(vm_compute; reflexivity) ltac:(constructor; [apply usable_b; reflexivity|constructor]) ltac:(vm_compute; reflexivity) ltac:(vm_compute; reflexivity)).
  assert (X : existsb (fun x => match read_layer_meta (il_group x) with Ok m => bytes_eqb (meta_get m KInt (str "mip_levels") []) (enc32 5) | _ => false end)
    (got (read_layers (ex_tree (file_of calls)) (str "fire") (str "density"))) &&
    forallb (fun p : proxy Z => bytes_eqb (meta_get (px_meta p) KInt (str "mip_levels") []) (enc32 0))
    (got (read_proxy_layer false (ex_tree (file_of calls)) (str "fire") (str "density"))) = true) by (vm_compute; reflexivity).
  apply andb_true_iff in X as (X & Y). revert X Y. clear H.
  induction F as [|p x ps ls (m & R & E) F IH]; intros X Y; [discriminate|]. cbn [existsb forallb] in X, Y. rewrite R in X.
  apply andb_true_iff in Y as (Y & Y'). rewrite E in Y. destruct (bytes_eqb_spec (meta_get m KInt (str "mip_levels") []) (enc32 5)) as [Eq|]; [|auto].
  rewrite Eq in Y. discriminate.
Qed.
Print Assumptions C57_mip_levels_refuted.

(** A layer in the partition with the empty name is read with all layers but has no proxy. *)
Theorem C57_empty_partition_refuted : ~ (forall calls f outcomes (proxies : list (proxy Z)) layers,
  write_all Z.eqb ex_kids (fun _ => true) ex_heap o_new calls = Ok (f, outcomes) -> Forall usable calls ->
  read_proxies_all false (ex_tree f) [] = Ok proxies -> read_layers_all (ex_tree f) [] = Ok layers ->
  List.length proxies = List.length layers).
Proof.
  intros H. set (calls := [px_call "" "density" 1]).
  assert (F := H calls (file_of calls) [Accepted] (got (read_proxies_all false (ex_tree (file_of calls)) []))
    (got (read_layers_all (ex_tree (file_of calls)) []))
    ltac:(vm_compute; reflexivity) ltac:(constructor; [apply usable_b; reflexivity|constructor]) ltac:(vm_compute; reflexivity) ltac:(vm_compute; reflexivity)).
  vm_compute in F. discriminate.
Qed.
Print Assumptions C57_empty_partition_refuted.
