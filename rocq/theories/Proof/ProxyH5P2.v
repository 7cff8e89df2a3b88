From Coq Require Import ZArith List Bool String Lia Arith Permutation Sorted.
From Verif Require Import Model.Base Model.FieldM Model.OgawaM Spec.OgawaSpec Model.OgM Spec.OgSpec Proof.OgP
  Model.FieldIOM Spec.FieldIOSpec Proof.FieldIOP Model.FileM Spec.FileSpec Proof.FileP Proof.FileP2 Model.MetaM Spec.MetaSpec Proof.MetaP Model.ProxyM Proof.ProxyP Proof.ProxyP2
  Model.Hdf5M Spec.Hdf5MetaSpec Model.Hdf5FileM Spec.Hdf5FileSpec Proof.Hdf5MetaP Proof.Hdf5FileP Proof.Hdf5FileP2 Proof.Hdf5MapP
  Model.MipH5M Proof.MipH5P Model.ProxyH5M Spec.ProxyH5Spec Proof.ProxyH5P.
Import ListNotations.
Open Scope Z_scope.

Section S.
Context {A M U : Type}.
Notation hnode := (hnode (A := A)).
Notation hcall := (hcall (A := A)).
Notation hproxy := (hproxy U M).
Notation proxy_in := (@proxy_in A M U).

(** The proxy of the group of a call. *)
Lemma sub_meta_eq f : storable_meta (hf_meta f) -> sub_meta (A := A) (lgroup f) = Ok (hf_meta f).
Proof.
  intros S. unfold sub_meta, sub_group, lgroup. cbn [n_links find_by]. change (str "metadata") with k_meta. rewrite beq_refl. cbn [meta_group n_attrs].
  apply storable_round; auto.
Qed.
Lemma sized_proxy f e dw n name attr m : storable_meta (hf_meta f) -> h5_stores A f e dw n ->
  proxy_in (lgroup f) name attr m =
    Ok (HProxy name attr (empty_set_size (box_in (flat_map enc32 (of_box e))) (box_in (flat_map enc32 (of_box dw))) empty_init)
         (meta_set (hf_meta f) KInt (str "mip_levels") (enc32 (Z.of_nat n))) m).
Proof.
  intros S ST. destruct (stored_facts _ _ _ _ _ ST) as (X & Y & C).
  unfold ProxyH5P.proxy_in. rewrite sub_meta_eq by auto.
  assert (XE : get_six (n_attrs (lgroup f)) (str "extents") new_box = Ok (flat_map enc32 (of_box e))) by (apply get_six_ok; [nz|exact X]).
  assert (YE : get_six (n_attrs (lgroup f)) (str "data_window") new_box = Ok (flat_map enc32 (of_box dw))) by (apply get_six_ok; [nz|exact Y]).
  assert (CE : level_count (n_links (lgroup f)) = level_count (hf_links f)) by reflexivity.
  rewrite XE, YE, CE, C. reflexivity.
Qed.

Variable ident : M -> M -> bool.
Variable map_put : M -> res (list (bytes * aval) * bool).
Variable map_get : list (bytes * aval) -> res (option M).
Variable hp : nat -> M.
Variable ord : list bytes -> list bytes.
Variables (va : list (bytes * aval)) (fresh : Prop) (h : hfile (A := A)) (G : list (dpart (A := A))) (acc : list hcall).
Hypothesis V : dinv ident map_put map_get hp va fresh h G acc.
Variables (gm : meta) (o : extras (A := A)) (L : list (rpart (A := A) (M := M))).
Hypothesis PL : Permutation (map rp_d L) G.
Hypothesis SL : Forall (seen map_get ord G) L.
Notation fin := (fin va G gm o L).
Notation rootF := (rootF va G o).
Notation proxy_ok := (h_proxy_for (V := U) ident map_put map_get hp).

Lemma layer_open x c : In x L -> In c (rp_ws x) ->
  g_open rootF (Some []) (rp_name x ++ [47] ++ c_layer c) = Some [rp_name x; c_layer c] /\
  node_at rootF [rp_name x; c_layer c] = Some (lgroup (c_field c)) /\ storable_meta (hf_meta (c_field c)).
Proof.
  intros Ix Ic. pose proof (proj1 (Forall_forall _ _) SL x Ix) as ((Ig & MG & PW) & _).
  assert (Ic' : In c (d_ws (rp_d x))) by (apply (Permutation_in _ PW); auto).
  pose proof (gok ident map_put map_get hp va fresh h G acc V _ Ig) as (_ & _ & _ & _ & _ & F).
  apply (proj1 (Forall_forall _ _) F) in Ic' as HC. destruct HC as (CU & CS & CM & (SM & CZ & HO & FC) & CI).
  pose proof (gsimple ident map_put map_get hp va fresh h G acc V _ Ig) as SN. fold (rp_name x) in SN.
  assert (CS0 : cstr (rp_name x ++ 47 :: c_layer c) = rp_name x ++ 47 :: c_layer c).
  { destruct SN as (_ & _ & S0 & _), CS as (_ & _ & T0 & _). apply cstr_id. rewrite in_app_iff. cbn. intuition lia. }
  assert (NN : forall r, is_nil (rp_name x ++ r) = false) by (intros r; destruct SN as (S0 & _); destruct (rp_name x); [congruence|reflexivity]).
  assert (NL : node_at rootF [rp_name x; c_layer c] = Some (lgroup (c_field c))).
  { unfold rp_name. erewrite node_dpart by eauto. cbn [node_at]. unfold sub_group. erewrite find_lnode by eauto. reflexivity. }
  split; [|split; auto]. unfold g_open. cbn [app]. rewrite start_root, comps_cons, comps_simple by auto. rewrite CS0, NN. cbn [app]. rewrite NL. reflexivity.
Qed.
Lemma call_proxy x c : In x L -> In c (rp_ws x) -> sized c ->
  exists p, proxy_in (lgroup (c_field c)) (c_user c) (c_layer c) (rp_m x) = Ok p /\ proxy_ok p c.
Proof.
  intros Ix Ic (e & dw & n & ST). destruct (layer_open x c Ix Ic) as (_ & _ & SM).
  eexists. split; [eapply sized_proxy; eauto|].
  destruct (reads_mk ident map_put map_get hp ord va fresh h G acc V L SL x c Ix Ic) as (_ & _ & _ & _ & _ & MP).
  split; [reflexivity|]. split; [reflexivity|]. split; [exact MP|]. split.
  - intros k m dflt D. cbn [hx_meta]. apply meta_get_other; auto.
  - intros e' dw' n' ST' IE ID. cbn [hx_field hx_meta empty_set_size ef_ext ef_dw]. rewrite meta_get_same.
    pose proof (sized_proxy _ _ _ _ [] [] (rp_m x) SM ST) as E1. pose proof (sized_proxy _ _ _ _ [] [] (rp_m x) SM ST') as E2.
    destruct (stored_facts _ _ _ _ _ ST) as (X & Y & C). destruct (stored_facts _ _ _ _ _ ST') as (X' & Y' & C').
    assert (flat_map enc32 (of_box e) = flat_map enc32 (of_box e')) as -> by (unfold six in *; congruence).
    assert (flat_map enc32 (of_box dw) = flat_map enc32 (of_box dw')) as -> by (unfold six in *; congruence).
    rewrite !box_in_of by auto. split; auto. split; auto. congruence.
Qed.
Definition hsources (vec : bool) (u la : bytes) (l : list (rpart (A := A) (M := M))) : list hcall :=
  flat_map (fun x => if bytes_eqb (remove_id (rp_name x)) u
                     then filter (fun c => bytes_eqb (c_layer c) la) (filter (fun c => Bool.eqb (c_vec c) vec) (rp_ws x)) else []) l.
Lemma hsources_perm vec u la :
  Permutation (hsources vec u la L) (filter (fun c => Bool.eqb (c_vec c) vec && bytes_eqb (c_user c) u && bytes_eqb (c_layer c) la) acc).
Proof.
  rewrite <- (Hdf5FileP2.perm_filter _ _ _ (l_perm ident map_put map_get hp ord va fresh h G acc V L PL SL)). rewrite filter_flat_map. perm_eq.
  unfold hsources.
  assert (E : forall l, incl l L ->
    flat_map (fun x => if bytes_eqb (remove_id (rp_name x)) u
                       then filter (fun c => bytes_eqb (c_layer c) la) (filter (fun c => Bool.eqb (c_vec c) vec) (rp_ws x)) else []) l =
    flat_map (fun x => filter (fun c => Bool.eqb (c_vec c) vec && bytes_eqb (c_user c) u && bytes_eqb (c_layer c) la) (rp_ws x)) l).
  { induction l as [|x l IH]; intros S; auto. cbn [flat_map]. rewrite IH by (intros y Iy; apply S; right; auto). f_equal.
    assert (Ix : In x L) by (apply S; left; auto). rewrite Hdf5FileP2.filter_filter.
    transitivity (filter (fun c => bytes_eqb (remove_id (rp_name x)) u && (Bool.eqb (c_vec c) vec && bytes_eqb (c_layer c) la)) (rp_ws x)).
    - destruct (bytes_eqb _ u); auto. clear. induction (rp_ws x); auto.
    - apply filter_ext_in. intros c Ic. rewrite (user_of ident map_put map_get hp ord va fresh h G acc V L SL x c Ix Ic).
      destruct (Bool.eqb (c_vec c) vec), (bytes_eqb (c_user c) u); reflexivity. }
  apply E. intros y Iy; auto.
Qed.
Lemma h_layers_eq x vec la l : In x L -> incl l (rp_ws x) -> (forall c, In c l -> c_vec c = vec) -> (forall c, In c l -> c_layer c = la -> sized c) ->
  exists ps, h_proxy_layers (V := U) fin vec (rp_name x) (remove_id (rp_name x)) la (map c_layer l) = Ok (Some ps) /\
    Forall2 proxy_ok ps (filter (fun c => bytes_eqb (c_layer c) la) l).
Proof.
  intros I. induction l as [|c l IH]; intros H E K; [exists []; split; [reflexivity|constructor]|]. cbn [map h_proxy_layers filter].
  destruct IH as (ps & EP & F); [intros y Iy; apply H; right; auto|intros y Iy; apply E; right; auto|intros y Iy; apply K; right; auto|].
  destruct (bytes_eqb_spec (c_layer c) la) as [<-|]; [|exists ps; auto].
  assert (Ic : In c (rp_ws x)) by (apply H; left; auto).
  cbn [Hdf5FileP2.fin i_parts i_root]. rewrite (find_full ident map_put map_get hp va fresh h G acc V o L PL x I).
  assert (EX : existsb (bytes_eqb (c_layer c)) (r_layers vec (fullh x)) = true).
  { apply existsb_exists. exists (c_layer c). split; [|apply beq_refl].
    assert (J : In (c_layer c) (of_kind vec (rp_ws x))) by (apply in_kind; exists c; split; auto; split; auto; apply E; left; auto). destruct vec; exact J. }
  rewrite EX. cbn [negb]. destruct (layer_open x c I Ic) as (GO & NL & SM). rewrite GO. cbn [fullh r_map].
  rewrite (proxy_of_in _ _ _ _ _ _ NL). rewrite (user_of ident map_put map_get hp ord va fresh h G acc V L SL x c I Ic) in *.
  destruct (call_proxy x c I Ic (K c (or_introl eq_refl) eq_refl)) as (p & PE & PO). rewrite PE. cbn [bind].
  exists (p :: ps). rewrite EP. cbn [bind option_map]. split; auto.
Qed.
Lemma h_parts_eq vec u la l : incl l L ->
  (forall c, In c acc -> c_vec c = vec -> c_user c = u -> c_layer c = la -> sized c) ->
  exists ps, h_proxy_parts (V := U) fin vec u la (map rp_name l) = Ok (Some ps) /\ Forall2 proxy_ok ps (hsources vec u la l).
Proof.
  intros H K. induction l as [|x l IH]; [exists []; split; [reflexivity|constructor]|]. cbn [map h_proxy_parts hsources flat_map].
  destruct IH as (ps & E & F); [intros y Iy; apply H; right; auto|].
  assert (I : In x L) by (apply H; left; auto).
  destruct (bytes_eqb_spec (remove_id (rp_name x)) u) as [EU|]; [|exists ps; auto].
  unfold h_int_names. cbn [Hdf5FileP2.fin i_parts]. rewrite (find_full ident map_put map_get hp va fresh h G acc V o L PL x I).
  replace (r_layers vec (fullh x)) with (of_kind vec (rp_ws x)) by (destruct vec; reflexivity). unfold of_kind.
  destruct (h_layers_eq x vec la (filter (fun c => Bool.eqb (c_vec c) vec) (rp_ws x)) I) as (qs & E2 & F2).
  - intros y Iy. apply filter_In in Iy as (Iy & _). auto.
  - intros c Ic. apply filter_In in Ic as (_ & Ec). apply Bool.eqb_prop in Ec. auto.
  - intros c Ic EL. apply filter_In in Ic as (Ic & Ec). apply Bool.eqb_prop in Ec. apply K; auto.
    + apply (Permutation_in _ (l_perm ident map_put map_get hp ord va fresh h G acc V L PL SL)). apply in_flat_map. eauto.
    + rewrite <- EU. symmetry. apply (user_of ident map_put map_get hp ord va fresh h G acc V L SL x c I Ic).
  - rewrite EU in E2. rewrite E2. cbn [bind]. rewrite E. cbn [bind option_map]. exists (qs ++ ps). split; auto. apply Forall2_app; auto.
Qed.
Lemma h_proxies_eq vec u la : u <> [] -> la <> [] ->
  (forall c, In c acc -> c_vec c = vec -> c_user c = u -> c_layer c = la -> sized c) ->
  exists ps, i_proxies (V := U) fin vec u la = Ok ps /\ Forall2 proxy_ok ps (hsources vec u la L).
Proof.
  intros Nu Nl K. unfold i_proxies. assert (is_nil la || is_nil u = false) as -> by (destruct u, la; try congruence; reflexivity).
  destruct (h_parts_eq vec u la L) as (ps & E & F); [intros ? ?; auto|auto|].
  replace (map r_name (i_parts fin)) with (map rp_name L) by (cbn [Hdf5FileP2.fin i_parts]; rewrite map_map; reflexivity).
  rewrite E. cbn [bind]. eauto.
Qed.
Lemma acc_named c : In c acc -> c_layer c <> [].
Proof.
  intros Ic. apply (Permutation_in _ (Permutation_sym (l_perm ident map_put map_get hp ord va fresh h G acc V L PL SL))) in Ic. apply in_flat_map in Ic as (x & Ix & Ic).
  pose proof (proj1 (Forall_forall _ _) SL x Ix) as ((Ig & MG & PW) & _).
  assert (Ic' : In c (d_ws (rp_d x))) by (apply (Permutation_in _ PW); auto).
  pose proof (gok ident map_put map_get hp va fresh h G acc V _ Ig) as (_ & _ & _ & _ & _ & F).
  apply (proj1 (Forall_forall _ _) F) in Ic' as (CU & (S0 & _) & _). exact S0.
Qed.
Lemma h_all_eq vec name : fresh -> (forall c, In c acc -> c_vec c = vec -> is_nil name || bytes_eqb (c_layer c) name = true -> sized c) ->
  exists ps src, i_proxies_all (V := U) fin vec name = Ok ps /\
    Permutation src (filter (fun c => Bool.eqb (c_vec c) vec && negb (is_nil (c_user c)) && (is_nil name || bytes_eqb (c_layer c) name)) acc) /\
    Forall2 proxy_ok ps src.
Proof.
  intros FR K. unfold i_proxies_all.
  destruct (partition_names_ok va G gm o L PL) as (PI & PIN).
  pose proof (fun u => layer_names_ok ident map_put map_get hp ord va fresh h G acc V gm o L PL SL vec u FR) as LNS.
  set (parts := i_partition_names fin) in *. set (names := i_layer_names fin vec) in *.
  set (cond := fun n => is_nil name || bytes_eqb n name) in *.
  set (src1 := fun p n => if is_nil p then [] else hsources vec p n L).
  assert (IN : forall p, exists bs,
    flat_mmap (fun n => if cond n then i_proxies (V := U) fin vec p n else Ok []) (names p) = Ok bs /\
    Forall2 proxy_ok bs (flat_map (fun n => if cond n then src1 p n else []) (names p))).
  { intros p. apply flat_mmap_ok. intros n In_. destruct (cond n) eqn:C; [|exists []; split; [auto|constructor]].
    apply LNS in In_ as (c & Ic & Vc & Uc & Lc). unfold src1. destruct p as [|b p].
    - exists []. split; [|constructor]. unfold i_proxies. rewrite orb_true_r. reflexivity.
    - cbn [is_nil]. apply h_proxies_eq; [discriminate| |].
      + rewrite <- Lc. apply acc_named; auto.
      + intros c' Ic' V' U' L'. apply K; auto. rewrite L'. exact C. }
  edestruct (flat_mmap_ok proxy_ok
    (fun p => flat_mmap (fun n => if cond n then i_proxies (V := U) fin vec p n else Ok []) (names p))
    (fun p => flat_map (fun n => if cond n then src1 p n else []) (names p)) parts) as (ps & E & F); [intros; apply IN|].
  exists ps. eexists. split; [exact E|]. split; [|exact F].
  set (good := fun c : hcall => Bool.eqb (c_vec c) vec && negb (is_nil (c_user c)) && cond (c_layer c)).
  change (Permutation (flat_map (fun p => flat_map (fun n => if cond n then src1 p n else []) (names p)) parts) (filter good acc)).
  rewrite (flat_map_perm _ (fun p => filter (fun c => bytes_eqb (c_user c) p) (filter good acc))).
  - rewrite perm_keys by now apply increasing_nodup. perm_eq.
    rewrite Hdf5FileP2.filter_filter. apply filter_ext_in. intros c Ic.
    replace (existsb (bytes_eqb (c_user c)) parts) with true; [apply andb_true_r|].
    symmetry. apply existsb_exists. exists (c_user c). split; [|apply beq_refl]. apply PIN.
    apply (acc_users ident map_put map_get hp ord va fresh h G acc V L PL SL); auto.
  - intros p _. rewrite flat_map_if. destruct p as [|b p].
    + transitivity (@nil hcall).
      * perm_eq. unfold src1. cbn [is_nil]. induction (filter cond (names [])); cbn; auto.
      * perm_eq. rewrite Hdf5FileP2.filter_filter. symmetry. unfold good. clear. induction acc as [|w l IH]; auto. cbn [filter].
        destruct (c_user w); cbn; rewrite ?andb_false_r; auto.
    + unfold src1. cbn [is_nil]. set (P := b :: p) in *.
      rewrite (flat_map_perm _ (fun n => filter (fun c => bytes_eqb (c_layer c) n) (filter (fun c => Bool.eqb (c_vec c) vec && bytes_eqb (c_user c) P) acc))).
      2:{ intros n _. rewrite Hdf5FileP2.filter_filter. apply hsources_perm. }
      rewrite perm_keys by (apply NoDup_filter, increasing_nodup, LNS). perm_eq.
      rewrite !Hdf5FileP2.filter_filter. apply filter_ext_in. intros c Ic. unfold good.
      destruct (bytes_eqb_spec (c_user c) P) as [E'|]; [|rewrite !andb_false_r; reflexivity].
      destruct (Bool.eqb (c_vec c) vec) eqn:EV; [|reflexivity]. cbn [andb].
      rewrite E'. unfold P at 2. cbn [is_nil negb andb]. rewrite andb_true_r.
      destruct (cond (c_layer c)) eqn:C.
      * apply existsb_exists. exists (c_layer c). split; [|apply beq_refl]. apply filter_In. split; auto. apply LNS.
        exists c. apply Bool.eqb_prop in EV. auto.
      * destruct (existsb _ _) eqn:X; auto. apply existsb_exists in X as (y & Iy & Ey).
        destruct (bytes_eqb_spec (c_layer c) y) as [<-|]; try discriminate. apply filter_In in Iy as (_ & C'). congruence.
Qed.
End S.
