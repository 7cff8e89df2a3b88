(** C64: proxies of HDF5 files say what layers are without reading them. *)
From Coq Require Import ZArith List Bool String Lia Arith Permutation.
From Verif Require Import Model.Base Model.FieldM Model.DenseM Model.SparseM Model.OgawaM Spec.OgawaSpec Model.OgM Spec.OgSpec Proof.OgP
  Model.FieldIOM Spec.FieldIOSpec Proof.FieldIOP Model.FileM Spec.FileSpec Proof.FileP Model.MetaM Spec.MetaSpec Proof.MetaP Model.MipM Model.MipIOM Props.MipIOProps
  Model.ProxyM Proof.ProxyP Model.Hdf5M Spec.Hdf5Spec Model.Hdf5FileM Spec.Hdf5MetaSpec Spec.Hdf5FileSpec Proof.Hdf5MetaP Proof.Hdf5FileP Proof.Hdf5FileP2 Proof.Hdf5FileP3 Props.Hdf5Props Props.Hdf5FileProps
  Model.MipH5M Spec.MipH5Spec Props.MipH5Props Model.ProxyH5M Spec.ProxyH5Spec Proof.ProxyH5P Proof.ProxyH5P2 Proof.ProxyH5P3.
Import ListNotations.
Open Scope Z_scope.

(** The proxies of (P, L) and a kind in a file written by any calls, listed in any order:
    exactly one for each accepted call of that kind with those names, with the sizes, the number
    of MIP levels, the metadata and the mapping of the field that was written. *)
Theorem C64_proxies : forall V A M ident map_put map_get (hp : nat -> M) v h0 (calls : list (hcall (A := A))) outcomes global root ord,
  session ident map_put map_get hp v h0 calls outcomes global root -> any_order ord ->
  exists f, i_open ord map_get root i_new = Ok (f, true) /\
    forall vec P L, P <> [] -> L <> [] ->
      (forall c, In c (h_accepted calls outcomes) -> c_vec c = vec -> c_user c = P -> c_layer c = L -> sized c) ->
      exists (proxies : list (hproxy V M)) source, i_proxies f vec P L = Ok proxies /\
        Permutation source
          (filter (fun c => Bool.eqb (c_vec c) vec && bytes_eqb (c_user c) P && bytes_eqb (c_layer c) L) (h_accepted calls outcomes)) /\
        Forall2 (h_proxy_for ident map_put map_get hp) proxies source.
Proof.
  intros V A M ident mp mg hp v h0 calls ocs gm root ord S O.
  destruct (session_open _ _ _ _ _ _ _ _ _ _ _ _ _ false S O) as (h & G & o & L & va & DI & _ & -> & P & SN & OP); [discriminate|].
  eexists. split; [exact OP|]. intros vec u la Nu Nl K.
  destruct (@h_proxies_eq A M V ident mp mg hp ord va _ h G _ DI gm o L P SN vec u la Nu Nl K) as (ps & E & F).
  exists ps, (hsources vec u la L). split; [exact E|]. split; [|exact F].
  apply (hsources_perm ident mp mg hp ord va _ h G _ DI L P SN).
Qed.
Print Assumptions C64_proxies.

(** The proxies of all the layers of a kind and a name, or with the empty name of all the
    layers of a kind, in the first file of an output object: one for each accepted call whose
    partition has a name. *)
Theorem C64_all_proxies : forall V A M ident map_put map_get (hp : nat -> M) v h0 (calls : list (hcall (A := A))) outcomes global root ord,
  session ident map_put map_get hp v h0 calls outcomes global root -> any_order ord -> h_count h0 = [] ->
  exists f, i_open ord map_get root i_new = Ok (f, true) /\
    forall vec L,
      (forall c, In c (h_accepted calls outcomes) -> c_vec c = vec -> L = [] \/ c_layer c = L -> sized c) ->
      exists (proxies : list (hproxy V M)) source, i_proxies_all f vec L = Ok proxies /\
        Permutation source
          (filter (fun c => Bool.eqb (c_vec c) vec && negb (is_nil (c_user c)) && (is_nil L || bytes_eqb (c_layer c) L)) (h_accepted calls outcomes)) /\
        Forall2 (h_proxy_for ident map_put map_get hp) proxies source.
Proof.
  intros V A M ident mp mg hp v h0 calls ocs gm root ord S O FR.
  destruct (session_open _ _ _ _ _ _ _ _ _ _ _ _ _ true S O (fun _ => FR)) as (h & G & o & L & va & DI & _ & -> & P & SN & OP).
  eexists. split; [exact OP|]. intros vec la K.
  apply (@h_all_eq A M V ident mp mg hp ord va _ h G _ DI gm o L P SN vec la eq_refl).
  intros c Ic Vc C. apply K; auto. destruct la as [|z la]; [auto|]. right. destruct (bytes_eqb_spec (c_layer c) (z :: la)); auto. discriminate.
Qed.
Print Assumptions C64_all_proxies.

(** Any file that opens, however it was made: if both the proxies and the layers of (P, L) can
    be read then there are no proxies or as many as layers, in the same order, and each has the
    names, the mapping and the metadata of its layer, the sizes of the dense or sparse field
    that is read from the layer, and the number of levels of the MIP field. *)
Theorem C64_proxies_agree : forall V A M (map_get : list (bytes * aval) -> res (option M)) ord (root : hnode (A := A)) f vec P L (proxies : list (hproxy V M)) layers,
  proper_names root -> i_open ord map_get root i_new = Ok (f, true) ->
  i_proxies f vec P L = Ok proxies -> i_layers f vec P L = Ok layers ->
  proxies = [] \/ Forall2 h_agrees proxies layers.
Proof.
  intros V A M mg ord root f vec P L ps ls PN OP HP HL. destruct (open_nul _ _ _ _ PN OP) as (RT & NN).
  unfold i_proxies, i_layers in *. destruct (is_nil L || is_nil P); [injection HP as <-; auto|].
  apply bind_ok in HP as (r & PP & HP). pose proof (h_parts_any root f RT NN _ _ _ _ _ _ PP HL) as F. injection HP as <-.
  destruct r as [ps|]; [|auto]. right. clear -F PN. induction F as [|p x ps ls (H & I) F IH]; constructor; auto. now apply (made_agrees root).
Qed.
Print Assumptions C64_proxies_agree.

(** Whatever program wrote the file, as long as its numbers are not wider than the variables
    they are read into: reading proxies is defined. *)
Theorem C64_any_file : forall V A M (map_get : list (bytes * aval) -> res (option M)) ord (root : hnode (A := A)) f f',
  plain_file map_get root -> fitting_tree root -> i_open ord map_get root f = Ok (f', true) ->
  forall vec P L, i_proxies (V := V) f' vec P L <> UB /\ i_proxies_all (V := V) f' vec L <> UB.
Proof.
  intros V A M mg ord root f f' PF FT OP vec P L. pose proof (open_root _ _ _ _ _ OP) as RT.
  split; [eapply i_proxies_safe|eapply i_all_safe]; eauto.
Qed.
Print Assumptions C64_any_file.

(** * Instances *)
Definition px_d : dense Z := get_dense ex_l0.
Definition px_stored : hgroup Z := match ex_wr px_d with Ok (g, true) => g | _ => HGroup [] [] end.
Definition px_field (r : nat) (m : meta) : hfield (A := Z) :=
  HField r m (str "DenseField") (map h5_attr (hg_attrs px_stored)) (map h5_set (hg_sets px_stored)) Accepted.
Definition px_call (user layer : string) (r : nat) (m : meta) : hcall (A := Z) := HCall false (str user) (str layer) (px_field r m).
Definition px_calls := [px_call "fire" "density" 2 (meta_run ex_history); ex_mcall; ex_call true "fire" "vel" 1; px_call "smoke" "density" 1 meta_empty].
Definition px_all := [Accepted; Accepted; Accepted; Accepted].
Definition px_root : hnode (A := Z) := ex_root px_calls.
Lemma px_good user layer r m : ex_usable (px_call user layer r m) = true -> (r < 9)%nat -> storable_meta m ->
  h_usable (px_call user layer r m) /\ h_field_ok (c_vec (px_call user layer r m)) (c_field (px_call user layer r m)) /\
  h_map_ok ex_put ex_get (ex_hp (hf_ref (c_field (px_call user layer r m)))).
Proof.
  intros US R S. split; [apply ex_usable_ok; exact US|]. split.
  - split; [exact S|]. split; [apply not_in_b; reflexivity|]. split; [reflexivity|vm_compute; reflexivity].
  - apply (ex_good false "a" "b" r); [reflexivity|lia].
Qed.
Lemma storable_none : storable_meta meta_empty.
Proof. exists []. split; [reflexivity|]. split; [constructor|intros a b []]. Qed.
Lemma px_sized user layer r m : sized (px_call user layer r m).
Proof.
  exists (d_ext px_d), (d_dw px_d), 0%nat. eapply (h5_dense Z Z HFloat 1 one_split true px_d px_stored).
  - vm_compute. reflexivity.
  - reflexivity.
  - reflexivity.
Qed.
Lemma mcall_sized : sized ex_mcall.
Proof.
  exists (mi_ext ex_mip), (mi_dw ex_mip), (mi_num ex_mip). eapply (h5_mip Z (dense Z) BDense ex_wr HFloat 1 ex_mip ex_stored).
  - vm_compute. reflexivity.
  - reflexivity.
  - reflexivity.
Qed.
Lemma mcall_good : h_usable ex_mcall /\ h_field_ok (c_vec ex_mcall) (c_field ex_mcall) /\ h_map_ok ex_put ex_get (ex_hp (hf_ref (c_field ex_mcall))).
Proof.
  split; [apply ex_usable_ok; reflexivity|]. split; [|apply (ex_good false "a" "b" 1); [reflexivity|lia]].
  split; [exact ex_storable|]. split; [apply not_in_b; reflexivity|]. split; [reflexivity|vm_compute; reflexivity].
Qed.
Lemma px_session calls ocs h : good_calls ex_put ex_get ex_hp calls -> ex_write calls = Ok (h, ocs) ->
  session Z.eqb ex_put ex_get ex_hp ex_v h_new calls ocs meta_empty (ex_root calls).
Proof.
  intros G W. split; [reflexivity|]. split; [repeat split|]. split; [discriminate|]. split; [discriminate|]. split; [exact G|].
  destruct (h_root h) as [r|] eqn:R.
  - exists h, h. split; [exact W|]. split; [exists h, h, [], []; split; [reflexivity|]; split; [left; split; reflexivity|reflexivity]|].
    unfold ex_root. rewrite W, R. reflexivity.
  - exfalso. destruct (good_split _ _ _ _ _ _ G) as (U & F & MO).
    destruct (h_writes_inv Z.eqb ex_put ex_get ex_hp [(str "version_number", VNum false 4 [3%nat] (enc_v3 ex_v))] False calls U F MO (h_create (enc_v3 ex_v) h_new) [] [] ltac:(apply dinv_new; auto))
      as (h1 & ocs1 & G1 & W1 & V & _). unfold ex_write in W. rewrite W in W1. injection W1 as <- <-. rewrite (v_root _ _ _ _ _ _ _ _ _ V) in R. discriminate.
Qed.
Example C64_example_session : session Z.eqb ex_put ex_get ex_hp ex_v h_new px_calls px_all meta_empty px_root /\
  (forall c, In c (h_accepted px_calls px_all) -> c_vec c = false -> sized c) /\
  h_count (A := Z) h_new = [] /\ any_order (@rev bytes).
Proof.
  split.
  { eapply px_session; [|vm_compute; reflexivity].
    constructor; [apply px_good; [reflexivity|lia|exact ex_storable]|]. constructor; [apply mcall_good|].
    constructor; [apply ex_good; [reflexivity|lia]|]. constructor; [apply px_good; [reflexivity|lia|exact storable_none]|constructor]. }
  split; [|split; [reflexivity|intros l; apply Permutation_sym, Permutation_rev]].
  intros c Ic Vc. change (h_accepted px_calls px_all) with px_calls in Ic. destruct Ic as [<-|[<-|[<-|[<-|[]]]]];
    [apply px_sized|apply mcall_sized|discriminate|apply px_sized].
Qed.
(** What is read: the field and the MIP field of "fire", and of the whole file. *)
Example C64_example_read :
  match ex_open px_root with
  | Ok (f, true) =>
      match i_proxies (V := Z) f false (str "fire") (str "density") with
      | Ok [a; b] => hx_map a = 1 /\ hx_map b = 2 /\
          ef_dw (hx_field a) = Box (V3 0 0 0) (V3 3 1 0) /\ ef_ext (hx_field b) = Box (V3 0 0 0) (V3 3 1 0) /\
          meta_get (hx_meta a) KInt (str "mip_levels") [] = enc32 2 /\ meta_get (hx_meta b) KInt (str "mip_levels") [] = enc32 0 /\
          meta_get (hx_meta a) KInt (str "frame") [] = enc32 12
      | _ => False
      end /\
      match i_proxies_all (V := Z) f false [] with
      | Ok l => map (fun p => (hx_name p, hx_attr p)) l = [(str "fire", str "density"); (str "fire", str "density"); (str "smoke", str "density")]
      | _ => False
      end /\
      i_proxies_all (V := Z) f true [] = Exn        (* the vector layer has no sizes *)
  | _ => False
  end.
Proof. vm_compute. repeat split. Qed.
(** A tree with a few groups below each other meets what the other theorems ask. *)
Fixpoint px_ok (k : nat) (a : hnode (A := Z)) : bool :=
  forallb (fun m => forallb (fun z => (0 <? z) && (z <? 256)) m) (map fst (n_attrs a) ++ map fst (n_links a)) &&
  forallb (fun e => match snd e with VNum _ s [_] d => Nat.eqb s 4 && (Nat.eqb (List.length d) 4 || Nat.eqb (List.length d) 12 || Nat.eqb (List.length d) 24) | _ => true end) (n_attrs a) &&
  forallb (fun e => match snd e with VNum _ s [6%nat] d => Nat.eqb (List.length d) 24 | _ => true end) (n_attrs a) &&
  match k with
  | O => is_nil (n_links a)
  | S k => forallb (fun e => match snd e with LGroup b => px_ok k b | LBad => false | LSet _ => true end) (n_links a)
  end.
Lemma px_ok_at a p : forall k g, node_at a p = Some g -> px_ok k a = true -> exists k', px_ok k' g = true.
Proof.
  revert a. induction p as [|c p IH]; intros a k g N OK; cbn [node_at] in N; [injection N as <-; eauto|].
  unfold sub_group in N. destruct (find_by c (n_links a)) as [[b| |]|] eqn:F; try discriminate. destruct k as [|k]; cbn [px_ok] in OK; apply andb_true_iff in OK as (_ & OK).
  - destruct (n_links a); [discriminate F|discriminate OK].
  - rewrite forallb_forall in OK. apply find_by_some in F. specialize (OK _ F). cbn in OK. eauto.
Qed.
Lemma px_ok_proper k a : px_ok k a = true -> proper_names a.
Proof.
  intros OK path n N m I. destruct (px_ok_at _ _ _ _ N OK) as (k' & K). destruct k'; cbn [px_ok] in K; apply andb_true_iff in K as (K & _);
    apply andb_true_iff in K as (K & _); apply andb_true_iff in K as (K & _); rewrite forallb_forall in K; specialize (K _ I); apply Forall_forall; intros z Iz;
    rewrite forallb_forall in K; specialize (K _ Iz); apply andb_true_iff in K as (K1 & K2); apply Z.ltb_lt in K1; apply Z.ltb_lt in K2; lia.
Qed.
Example C64_example_file : proper_names px_root /\ plain_file ex_get px_root /\ fitting_tree px_root /\
  exists f, i_open (@rev bytes) ex_get px_root i_new = Ok (f, true).
Proof.
  assert (OK : px_ok 8 px_root = true) by (vm_compute; reflexivity).
  split; [|split; [|split]].
  - apply (px_ok_proper _ _ OK).
  - intros path n N. destruct (px_ok_at _ _ _ _ N OK) as (k & K). split; [|split].
    + intros m fl size j d I _. destruct k; cbn [px_ok] in K; apply andb_true_iff in K as (K & _);
      apply andb_true_iff in K as (K & _); apply andb_true_iff in K as (_ & K); rewrite forallb_forall in K; specialize (K _ I); cbn [snd] in K;
      apply andb_true_iff in K as (K & _); apply Nat.eqb_eq in K; exact K.
    + intros m x I ->. destruct k; cbn [px_ok] in K; apply andb_true_iff in K as (_ & K).
      * destruct (n_links n); [destruct I|discriminate].
      * rewrite forallb_forall in K. specialize (K _ I). discriminate.
    + unfold ex_get. destruct (find_by _ _) as [[]|]; discriminate.
  - intros path n N. destruct (px_ok_at _ _ _ _ N OK) as (k & K). intros m fl size j d I.
    assert (K4 : size = 4%nat) by (destruct k; cbn [px_ok] in K; apply andb_true_iff in K as (K & _);
      apply andb_true_iff in K as (K & _); apply andb_true_iff in K as (_ & K); rewrite forallb_forall in K; specialize (K _ I); cbn [snd] in K;
      apply andb_true_iff in K as (K & _); apply Nat.eqb_eq in K; exact K).
    split; [auto|]. intros ->. subst size. split; [lia|].
    destruct k; cbn [px_ok] in K; apply andb_true_iff in K as (K & _); apply andb_true_iff in K as (_ & K); rewrite forallb_forall in K; specialize (K _ I);
      cbn [snd] in K; apply Nat.eqb_eq in K; exact K.
  - eexists. vm_compute. reflexivity.
Qed.

(** * What does not hold *)

Definition five_levels : list mset := [MSet KInt (str "mip_levels") (enc32 5)].
Lemma five_storable : storable_meta (meta_run five_levels).
Proof.
  exists five_levels. split; [reflexivity|]. split.
  - constructor; [split; [apply good_str; reflexivity|reflexivity]|constructor].
  - intros a b [<-|[]] [<-|[]]; auto.
Qed.
(** The root of a file with one MIP layer whose own extents are not those of level 0. *)
Definition other_layer : hnode (A := Z) :=
  HNode ((str "class_type", VStr (str "field3d_layer")) :: (str "class_name", VStr (str "MIPDenseField")) ::
    map (fun e => if bytes_eqb (fst e) (str "extents") then (fst e, VNum false 4 [6%nat] (flat_map enc32 [0; 0; 0; 9; 9; 9])) else e) (n_attrs ex_stored))
    (n_links ex_stored).
Definition other_root : hnode (A := Z) :=
  HNode [] [(str "fire.0", LGroup (HNode [] [(str "mapping", LGroup (HNode [(str "m", VNum false 4 [1%nat] (enc32 1))] [])); (str "density", LGroup other_layer)]))].

(** A proxy as it is read has neither a value nor a constant. *)
Theorem C64_value_refuted : forall V A M (f : ihfile (A := A) (M := M)) vec P L (proxies : list (hproxy V M)) x p,
  i_proxies f vec P L = Ok proxies -> In x proxies ->
  empty_value (hx_field x) p = UB /\ empty_constant (hx_field x) = UB.
Proof.
  intros V A M f vec P L ps x p H I.
  set (blank := fun x : hproxy V M => ef_default (hx_field x) = None /\ ef_constant (hx_field x) = None).
  assert (K : Forall blank ps).
  { unfold i_proxies in H. destruct (_ || _); [injection H as <-; constructor|]. clear I. apply bind_ok in H as (r & H & E). injection E as <-.
    assert (LP : forall part names r, h_proxy_layers (V := V) f vec part P L names = Ok r -> match r with Some ps => Forall blank ps | None => True end).
    { clear. intros part names. induction names as [|n names IH]; intros r; cbn [h_proxy_layers]; [intros [= <-]; constructor|].
      destruct (bytes_eqb n L); [|apply IH]. destruct (find_r part _); [|intros [= <-]; exact Logic.I]. destruct (i_root f) as [root|]; [|intros [= <-]; exact Logic.I].
      destruct (negb _); [intros [= <-]; exact Logic.I|]. destruct (g_open _ _ _) as [at_|]; [|intros [= <-]; exact Logic.I].
      intros H. apply bind_ok in H as (q & PO & H). apply bind_ok in H as (rest & PR & H). injection H as <-. specialize (IH _ PR).
      destruct rest as [rest|]; cbn [option_map]; auto. constructor; auto. unfold h_proxy_of in PO. repeat (apply bind_ok in PO as (? & _ & PO)). injection PO as <-.
      split; reflexivity. }
    revert r H. generalize (map r_name (i_parts f)) as parts. intros parts. induction parts as [|n parts IH]; intros r; cbn [h_proxy_parts]; [intros [= <-]; constructor|].
    destruct (bytes_eqb _ _); [|apply IH]. intros H. apply bind_ok in H as ([a|] & PA & H); [|injection H as <-; constructor].
    apply bind_ok in H as (rest & PR & H). injection H as <-. specialize (IH _ PR). specialize (LP _ _ _ PA). cbn in LP.
    destruct rest as [rest|]; cbn [option_map]; [|constructor]. apply Forall_app; auto. }
  pose proof (proj1 (Forall_forall _ _) K x I) as (X & Y). unfold empty_value, empty_constant. rewrite X, Y. auto.
Qed.
Print Assumptions C64_value_refuted.

(** One layer without sizes is enough: asking for the proxies of a name throws, although the
    other layers of that name are fine and all of them are read as layers. *)
Theorem C64_no_sizes_refuted : exists (calls : list (hcall (A := Z))) outcomes (root : hnode (A := Z)) (f : ihfile (A := Z) (M := Z)) layers,
  session Z.eqb ex_put ex_get ex_hp ex_v h_new calls outcomes meta_empty root /\
  i_open (@rev bytes) ex_get root i_new = Ok (f, true) /\
  i_layers f false (str "fire") (str "density") = Ok layers /\ List.length layers = 2%nat /\
  i_proxies (V := Z) f false (str "fire") (str "density") = Exn.
Proof.
  eexists ex_mcalls, [Accepted; Accepted; Accepted], (ex_root ex_mcalls), _, _. split; [|split; [|split; [|split]]].
  - eapply px_session; [|vm_compute; reflexivity].
    constructor; [apply ex_good; [reflexivity|lia]|]. constructor; [apply mcall_good|constructor; [apply ex_good; [reflexivity|lia]|constructor]].
  - vm_compute. reflexivity.
  - vm_compute. reflexivity.
  - reflexivity.
  - vm_compute. reflexivity.
Qed.
Print Assumptions C64_no_sizes_refuted.

(** Metadata called "mip_levels" is not that of the layer. *)
Theorem C64_mip_levels_refuted : exists (calls : list (hcall (A := Z))) outcomes (root : hnode (A := Z)) (f : ihfile (A := Z) (M := Z)) (p : hproxy Z Z) x,
  session Z.eqb ex_put ex_get ex_hp ex_v h_new calls outcomes meta_empty root /\
  i_open (@rev bytes) ex_get root i_new = Ok (f, true) /\
  i_proxies f false (str "fire") (str "density") = Ok [p] /\ i_layers f false (str "fire") (str "density") = Ok [x] /\
  meta_get (y_meta x) KInt (str "mip_levels") [] = enc32 5 /\ meta_get (hx_meta p) KInt (str "mip_levels") [] = enc32 0.
Proof.
  eexists [px_call "fire" "density" 1 (meta_run five_levels)], [Accepted], _, _, _, _. split; [|split; [|split; [|split; [|split]]]].
  - eapply px_session; [|vm_compute; reflexivity]. constructor; [apply px_good; [reflexivity|lia|exact five_storable]|constructor].
  - vm_compute. reflexivity.
  - vm_compute. reflexivity.
  - vm_compute. reflexivity.
  - reflexivity.
  - reflexivity.
Qed.
Print Assumptions C64_mip_levels_refuted.

(** A layer in the partition with the empty name is read with all layers but has no proxy. *)
Theorem C64_empty_partition_refuted : exists (calls : list (hcall (A := Z))) outcomes (root : hnode (A := Z)) (f : ihfile (A := Z) (M := Z)) x,
  session Z.eqb ex_put ex_get ex_hp ex_v h_new calls outcomes meta_empty root /\
  i_open (@rev bytes) ex_get root i_new = Ok (f, true) /\
  i_layers_all f false [] = Ok [x] /\ i_proxies_all (V := Z) f false [] = Ok [].
Proof.
  eexists [px_call "" "density" 1 meta_empty], [Accepted], _, _, _. split; [|split; [|split]].
  - eapply px_session; [|vm_compute; reflexivity]. constructor; [apply px_good; [reflexivity|lia|exact storable_none]|constructor].
  - vm_compute. reflexivity.
  - vm_compute. reflexivity.
  - vm_compute. reflexivity.
Qed.
Print Assumptions C64_empty_partition_refuted.

(** The sizes of a proxy can be other ones than those of the MIP field that the layer is read
    as: the reader of MIP fields takes them from the first level.  A file written by this
    library has the same in both places (C63, C64_proxies). *)
Theorem C64_mip_sizes_refuted : exists (root : hnode (A := Z)) (f : ihfile (A := Z) (M := Z)) (p : hproxy Z Z) x m,
  proper_names root /\ i_open (@rev bytes) ex_get root i_new = Ok (f, true) /\
  i_proxies f false (str "fire") (str "density") = Ok [p] /\ i_layers f false (str "fire") (str "density") = Ok [x] /\
  mip_h5_read HFloat 1 (y_group x) = Ok (Some m) /\ ef_ext (hx_field p) <> mp_ext m.
Proof.
  exists other_root. eexists _, _, _, _. split; [|split; [|split; [|split; [|split]]]].
  - apply (px_ok_proper 8). vm_compute. reflexivity.
  - vm_compute. reflexivity.
  - vm_compute. reflexivity.
  - vm_compute. reflexivity.
  - vm_compute. reflexivity.
  - vm_compute. discriminate.
Qed.
Print Assumptions C64_mip_sizes_refuted.
