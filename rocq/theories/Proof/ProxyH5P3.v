From Coq Require Import ZArith List Bool String Ascii Lia Arith.
From Verif Require Import Model.Base Model.FieldM Model.DenseM Model.SparseM Model.OgawaM Spec.OgawaSpec Model.OgM Spec.OgSpec Proof.OgP
  Model.FieldIOM Spec.FieldIOSpec Proof.FieldIOP Model.FileM Spec.FileSpec Proof.FileP Model.MetaM Spec.MetaSpec Proof.MetaP Model.MipIOM Model.ProxyM Proof.ProxyP
  Model.Hdf5M Spec.Hdf5MetaSpec Model.Hdf5FileM Spec.Hdf5FileSpec Proof.Hdf5MetaP Proof.Hdf5FileP Proof.Hdf5FileP3 Proof.Hdf5MapP
  Model.MipH5M Spec.MipH5Spec Proof.MipH5P Proof.MipH5P2 Model.ProxyH5M Spec.ProxyH5Spec Proof.ProxyH5P.
Import ListNotations.
Open Scope Z_scope.

(** * Sizes that readers see *)
Lemma str_unstr n : Forall (fun z => 0 < z < 256) n -> str (unstr n) = n.
Proof.
  intros H. unfold str, unstr. rewrite list_ascii_of_string_of_list_ascii, map_map. rewrite <- (map_id n) at 2. apply map_ext_in. intros z I.
  apply (proj1 (Forall_forall _ _) H) in I. rewrite nat_ascii_embedding by lia. lia.
Qed.
Lemma view_named s (l : list (bytes * aval)) : (forall m, In m (map fst l) -> Forall (fun z => 0 < z < 256) m) ->
  named s (map (fun e => (unstr (fst e), view_attr (snd e))) l) = option_map view_attr (find_by (str s) l).
Proof.
  induction l as [|(n, v) l IH]; intros H; auto. cbn [map fst snd named find_by]. rewrite IH by (intros m I; apply H; right; auto).
  assert (P := str_unstr n (H n (or_introl eq_refl))).
  destruct (String.eqb_spec s (unstr n)) as [->|N].
  - rewrite P, beq_refl. reflexivity.
  - rewrite beq_neq; auto. intros E. apply N. rewrite E. rewrite <- (Hdf5FileProps.unstr_str s). congruence.
Qed.
Lemma ints_length k d : List.length (ints k d) = k.
Proof. revert d. induction k; intros d; cbn; auto. Qed.
Section P.
Context {A M V : Type}.
Notation hnode := (hnode (A := A)).
Notation ihfile := (ihfile (A := A) (M := M)).
Notation hproxy := (hproxy V M).

Lemma view_box (g : hnode) s b cur : (forall m, In m (map fst (n_attrs g)) -> Forall (fun z => 0 < z < 256) m) -> ~ In 0 (str s) ->
  get_box (view g) s = Ok b -> exists d, get_six (n_attrs g) (str s) cur = Ok d /\ box_in d = b.
Proof.
  intros P Z H. unfold get_box, get_attr in H. cbn [view hg_attrs] in H. rewrite view_named in H by auto.
  unfold get_six, get_num. rewrite cstr_id by auto.
  destruct (find_by (str s) (n_attrs g)) as [[|fl sz [|k []] d|]|]; try discriminate; cbn [option_map view_attr] in H;
    try (destruct fl; [|do 5 (destruct sz as [|sz]; try discriminate)]; discriminate).
  destruct fl; [discriminate|]. do 5 (destruct sz as [|sz]; try discriminate).
  rewrite ints_length in H. destruct (Nat.eqb_spec k 6) as [->|]; [|discriminate]. cbn [bind] in H. injection H as <-.
  exists d. destruct (list_eq_dec Nat.eq_dec [6%nat] [6%nat]); [|congruence]. auto.
Qed.
Lemma dense_h5_sizes {U} convert ty comps split join (zero : U) (g : hgroup A) f :
  dense_h5_read convert ty comps split join zero g = Ok (Some f) -> get_box g "extents" = Ok (d_ext f) /\ get_box g "data_window" = Ok (d_dw f).
Proof.
  unfold dense_h5_read. intros H. apply bind_ok in H as (v & _ & H). destruct (negb _); try discriminate.
  apply bind_ok in H as (e & E & H). apply bind_ok in H as (dw & D & H). rewrite E, D. do 8 apply bind_ok in H as (? & _ & H).
  destruct (_ =? 0); [discriminate|]. destruct (negb _); [discriminate|]. destruct (negb _); [discriminate|].
  apply bind_ok in H as ((ff, threw) & S & H). destruct threw; [discriminate|]. apply bind_ok in H as (l & _ & H). injection H as <-. cbn [d_ext d_dw].
  unfold dense_set_size in S. do 4 (apply bind_ok in S as (? & _ & S)).
  destruct ((_ <? _) || (_ <? _) || (_ <? _)); [discriminate|]. apply bind_ok in S as (? & _ & S). injection S as <-. auto.
Qed.
Lemma sparse_h5_sizes {U} convert to_flag ty comps join (zero : U) limit (g : hgroup A) f :
  sparse_h5_read convert to_flag ty comps join zero limit g = Some (Ok (Some f)) -> get_box g "extents" = Ok (s_ext f) /\ get_box g "data_window" = Ok (s_dw f).
Proof.
  unfold sparse_h5_read. intros H. destruct (sparse_h5_header _ _ _ _ _ _ _ _) as [[(((ff, nv), vpb), occ)|]| |] eqn:SH; try discriminate.
  assert (E : s_ext f = s_ext ff /\ s_dw f = s_dw ff).
  { destruct (occ <=? 0); [injection H as <-; auto|]. destruct (existsb _ _); [|injection H as <-; auto].
    destruct (open_h5 _ _ _); try discriminate. destruct (passes _ _ _ _ _ _ _ _ _ _ _) as [[| |]|]; try discriminate. injection H as <-; auto. }
  destruct E as [-> ->]. clear H. rename SH into H. unfold sparse_h5_header in H.
  apply bind_ok in H as (v & _ & H). destruct (negb _); try discriminate.
  apply bind_ok in H as (e & E & H). apply bind_ok in H as (dw & D & H). rewrite E, D. do 6 apply bind_ok in H as (? & _ & H).
  destruct (negb _); [discriminate|]. do 2 apply bind_ok in H as (? & _ & H). destruct (negb _); [discriminate|].
  apply bind_ok in H as (? & _ & H). destruct (_ || _); [discriminate|]. apply bind_ok in H as (s & S & H).
  apply bind_ok in H as (? & _ & H). destruct (_ <? 0); [discriminate|]. do 3 apply bind_ok in H as (? & _ & H). injection H as <- _ _ _. cbn [s_ext s_dw].
  unfold setup_blocks in S. do 2 (apply bind_ok in S as (? & _ & S)). injection S as <-. auto.
Qed.
Lemma h5_sizes_length (mips : hnode) n : forall i e d s, h5_sizes mips i n e d = Ok s -> List.length s = n.
Proof.
  induction n as [|n IH]; intros i e d s H; cbn [h5_sizes] in H; [injection H as <-; auto|].
  destruct (sub_group mips _); [|discriminate]. apply bind_ok in H as (? & _ & H). apply bind_ok in H as (? & _ & H). apply bind_ok in H as (r & R & H).
  injection H as <-. cbn. f_equal. eauto.
Qed.
Lemma mip_count ty dims (g : hnode) m : mip_h5_read ty dims g = Ok (Some m) ->
  exists d, level_count (n_links g) = Ok d /\ dec_i32 d = Z.of_nat (List.length (mp_levels m)).
Proof.
  intros H. unfold mip_h5_read in H. apply bind_ok in H as (? & _ & H). destruct (negb _); [discriminate|]. do 3 apply bind_ok in H as (? & _ & H).
  destruct (negb _); [discriminate|]. destruct (if bytes_eqb _ _ then _ else _) as [k|]; [|discriminate]. do 2 apply bind_ok in H as (? & _ & H).
  change (level_count (n_links g)) with (match sub_group g (str "mip_levels") with Some g => get_num (n_attrs g) (str "levels") false 4 [1%nat] (Some (enc32 0)) | None => Ok (enc32 0) end).
  destruct (sub_group g (str "mip_levels")) as [mg|]; [|discriminate]. apply bind_ok in H as (n & N & H). apply bind_ok in H as (s & S & H).
  apply h5_sizes_length in S. destruct (negb _); [discriminate|]. destruct s as [|(e, d) s]; [discriminate|]. injection H as <-. cbn [mp_levels].
  unfold get_int1 in N. apply bind_ok in N as (b & B & N). injection N as <-. exists b. split.
  - unfold get_num in *. destruct (find_by _ _) as [[]|]; try discriminate. destruct (negb _); [discriminate|]. destruct (negb _); [discriminate|].
    destruct (Nat.eqb _ _); [auto|discriminate].
  - rewrite S. cbn [List.length] in S. lia.
Qed.

(** * Any file *)
Lemma proxy_in_inv (g : hnode) name attr map (p : hproxy) : proxy_in g name attr map = Ok p ->
  hx_name p = name /\ hx_attr p = attr /\ hx_map p = map /\
  exists e d m n, get_six (n_attrs g) (str "extents") new_box = Ok e /\ get_six (n_attrs g) (str "data_window") new_box = Ok d /\
    sub_meta g = Ok m /\ level_count (n_links g) = Ok n /\
    ef_ext (hx_field p) = box_in e /\ ef_dw (hx_field p) = box_in d /\ hx_meta p = meta_set m KInt (str "mip_levels") n.
Proof.
  unfold proxy_in. intros H. apply bind_ok in H as (e & E & H). apply bind_ok in H as (d & D & H). apply bind_ok in H as (m & Em & H). apply bind_ok in H as (n & N & H).
  injection H as <-. do 3 (split; [reflexivity|]). exists e, d, m, n. do 4 (split; auto).
Qed.
Definition no_nul (l : list (ihpart (M := M))) : Prop := forall p, In p l -> ~ In 0 (r_name p) /\ forall vec n, In n (r_layers vec p) -> ~ In 0 n.
Lemma proper_nul (root : hnode) path g m x : proper_names root -> node_at root path = Some g -> find_by m (n_links g) = Some x -> ~ In 0 m.
Proof.
  intros P N F. apply find_by_some in F. apply (in_map fst) in F. specialize (P _ _ N m ltac:(apply in_app_iff; right; exact F)).
  intros Z. apply (proj1 (Forall_forall _ _) P) in Z. lia.
Qed.
Lemma parts_nul (root : hnode) l : proper_names root -> forall n, In n (list_partitions root l) -> ~ In 0 n.
Proof.
  intros P. induction l as [|m l IH]; intros n I; [destruct I|]. cbn [list_partitions] in I.
  destruct (find_by m (n_links root)) as [[g| |]|] eqn:E; auto; try (destruct I; fail).
  destruct (reserved m); auto. destruct I as [<-|I]; auto. eapply (proper_nul root []); eauto. reflexivity.
Qed.
Lemma layers_nul (root g : hnode) path l : proper_names root -> node_at root path = Some g -> forall ls, list_layers g l = Ok ls -> forall n c, In (n, c) ls -> ~ In 0 n.
Proof.
  intros P N. induction l as [|m l IH]; intros ls H n c I; cbn [list_layers] in H; [injection H as <-; destruct I|].
  destruct (find_by m (n_links g)) as [x|] eqn:E; [|eauto]. apply bind_ok in H as (k & _ & H). apply bind_ok in H as (r & R & H). injection H as <-.
  destruct k as [k|]; [|eauto]. destruct I as [[= <- <-]|I]; [|eauto]. eapply proper_nul; eauto.
Qed.
Lemma add_nul ord (root : hnode) : proper_names root -> forall names l l', add_layers ord root names l = Ok l' -> no_nul l -> no_nul l'.
Proof.
  intros P. induction names as [|n names IH]; intros l l' H Z; cbn [add_layers] in H; [injection H as <-; auto|].
  apply bind_ok in H as (ls & E & H). apply (IH _ _ H). clear H IH.
  assert (K : forall m c, In (m, c) ls -> ~ In 0 m).
  { destruct (g_open root (Some []) n) as [p|]; [|injection E as <-; intros ? ? []]. destruct (node_at root p) as [g|] eqn:N; [|injection E as <-; intros ? ? []].
    intros m c. eapply layers_nul; eauto. }
  clear E. induction l as [|q l IH]; cbn [upd_r]; [intros p []|].
  assert (Zq := Z q (or_introl eq_refl)).
  destruct (bytes_eqb (r_name q) n); intros p [<-|I]; try (apply Z; right; exact I); auto.
  - cbn [r_name]. split; [apply Zq|]. intros vec m I. cbn [r_layers r_scalar r_vector] in I.
    assert (W : forall c, In m (with_comps c ls) -> ~ In 0 m).
    { intros c J. unfold with_comps in J. apply in_map_iff in J as ((m', c') & <- & J). apply filter_In in J as (J & _). eauto. }
    destruct vec; cbn in I; apply in_app_iff in I as [I|I]; eauto; [apply (proj2 Zq true)|apply (proj2 Zq false)]; exact I.
  - apply IH; auto. intros r Ir. apply Z. right; auto.
Qed.
Lemma open_nul ord map_get (root : hnode) (f : ihfile) : proper_names root -> i_open ord map_get root i_new = Ok (f, true) -> i_root f = Some root /\ no_nul (i_parts f).
Proof.
  intros P H. pose proof (open_root _ _ _ _ _ H) as R. split; auto. unfold i_open in H. apply bind_ok in H as (v & _ & H). destruct (negb v); [discriminate|].
  apply bind_ok in H as (m & _ & H). apply bind_ok in H as (l & LM & H). destruct l as [l|]; [|discriminate]. apply bind_ok in H as (l' & AL & H). injection H as <-.
  cbn [i_parts]. eapply add_nul; eauto. cbn [i_new i_names app] in LM.
  pose proof (parts_nul root (ord (map fst (n_links root))) P) as PN. revert LM PN. generalize (list_partitions root (ord (map fst (n_links root)))). clear.
  intros names. revert l. induction names as [|n names IH]; intros l H K; cbn [list_mappings] in H; [injection H as <-; intros p []|].
  destruct (g_open _ _ _) as [p|]; [|discriminate]. destruct (map_get _) as [[m|]| |]; try discriminate.
  apply bind_ok in H as (r & R & H). destruct r as [r|]; [|discriminate]. injection H as <-. intros q [<-|I].
  - cbn. split; [apply K; left; auto|]. intros [] ? [].
  - apply (IH _ R); auto. intros x Ix. apply K. right; auto.
Qed.
Lemma layer_meta (root : hnode) path at_ g : ~ In 0 path -> g_open root (Some []) path = Some at_ -> node_at root at_ = Some g ->
  match g_open root (Some []) (path ++ [47] ++ str "metadata") with Some mp => get_meta (attrs_at root mp) meta_empty | None => Ok meta_empty end = sub_meta g.
Proof.
  intros Z O N. unfold g_open in O |- *. rewrite start_root in O |- *. cbn [app] in O |- *. rewrite comps_app by auto. rewrite (comps_simple (str "metadata") simple_meta).
  rewrite cstr_app by auto. rewrite cstr_id in O by auto.
  destruct (is_nil path) eqn:E; [discriminate|]. destruct (node_at root (comps path)) eqn:E2; [|discriminate]. injection O as <-.
  replace (is_nil (path ++ cstr (47 :: str "metadata"))) with false by (destruct path; [discriminate|reflexivity]).
  rewrite E2 in N. injection N as ->. unfold sub_meta. rewrite node_at_app, E2. cbn [node_at]. destruct (sub_group g (str "metadata")) as [mg|] eqn:EM; auto.
  f_equal. apply attrs_at_eq. rewrite node_at_app, E2. cbn [node_at]. rewrite EM. reflexivity.
Qed.
Definition h_made (p : hproxy) (x : hlayer (A := A) (M := M)) : Prop :=
  proxy_in (y_group x) (y_name x) (y_attr x) (y_map x) = Ok p /\ sub_meta (y_group x) = Ok (y_meta x).
Variables (root : hnode) (f : ihfile).
Hypothesis PN : proper_names root.
Hypothesis RT : i_root f = Some root.
Hypothesis NN : no_nul (i_parts f).
Definition inside (g : hnode) : Prop := exists path, node_at root path = Some g.
Lemma h_layers_any vec part layer names : forall r ls,
  h_proxy_layers f vec part (remove_id part) layer names = Ok r ->
  i_named f vec part (fun n => bytes_eqb n layer) names = Ok ls ->
  match r with None => True | Some ps => Forall2 (fun p x => h_made p x /\ inside (y_group x)) ps ls end.
Proof.
  induction names as [|n names IH]; intros r ls; cbn [h_proxy_layers i_named]; [intros [= <-] [= <-]; constructor|].
  destruct (bytes_eqb_spec n layer) as [->|]; [|apply IH].
  intros P R. apply bind_ok in R as (x & RL & R). apply bind_ok in R as (rest & RR & R). unfold i_layer in RL. rewrite RT in P, RL.
  destruct (find_r part (i_parts f)) as [ip|] eqn:FI; [|injection P as <-; exact Logic.I].
  destruct (existsb (bytes_eqb layer) (r_layers vec ip)) eqn:EX; cbn [negb] in P, RL; [|injection P as <-; exact Logic.I].
  destruct (g_open root (Some []) (part ++ [47] ++ layer)) as [at_|] eqn:GO; [|injection P as <-; exact Logic.I].
  assert (N0 : ~ In 0 (part ++ [47] ++ layer)).
  { unfold find_r in FI. apply find_some in FI as (FI & E). destruct (bytes_eqb_spec (r_name ip) part) as [<-|]; [|discriminate].
    destruct (NN ip FI) as (N1 & N2). apply existsb_exists in EX as (y & Iy & E'). destruct (bytes_eqb_spec layer y) as [<-|]; [|discriminate].
    specialize (N2 _ _ Iy). rewrite !in_app_iff. cbn [In]. intuition lia. }
  destruct (node_at root at_) as [g|] eqn:NA; [|exfalso; apply (g_open_node _ _ _ _ GO NA)].
  apply bind_ok in RL as (cls & _ & RL). rewrite (layer_meta _ _ _ _ N0 GO NA) in RL. apply bind_ok in RL as (m & SM & RL). injection RL as <-.
  rewrite (proxy_of_in _ _ _ _ _ _ NA) in P. apply bind_ok in P as (p & PO & P). apply bind_ok in P as (pr & PR & P). injection P as <-. injection R as <-.
  specialize (IH _ _ PR RR). destruct pr; cbn [option_map]; auto. constructor; auto. split; [split; auto|]. exists at_. auto.
Qed.
Lemma h_parts_any vec user layer parts : forall r ls,
  h_proxy_parts f vec user layer parts = Ok r ->
  i_each f vec parts (fun n => bytes_eqb (remove_id n) user) (fun n => bytes_eqb n layer) = Ok ls ->
  match r with None => True | Some ps => Forall2 (fun p x => h_made p x /\ inside (y_group x)) ps ls end.
Proof.
  induction parts as [|n parts IH]; intros r ls; cbn [h_proxy_parts i_each]; [intros [= <-] [= <-]; constructor|].
  destruct (bytes_eqb_spec (remove_id n) user) as [E|].
  - intros P R. apply bind_ok in R as (a & RN & R). apply bind_ok in R as (rest & RR & R). injection R as <-.
    apply bind_ok in P as (pa & PL & P). subst user. pose proof (h_layers_any _ _ _ _ _ _ PL RN) as F.
    destruct pa as [pa|]; [|injection P as <-; exact Logic.I]. apply bind_ok in P as (pr & PR & P). injection P as <-.
    specialize (IH _ _ PR RR). destruct pr; cbn [option_map]; auto. apply Forall2_app; auto.
  - intros P R. cbn [bind] in R. apply bind_ok in R as (rest & RR & R). injection R as <-. apply (IH _ _ P RR).
Qed.
Lemma made_agrees p x : h_made p x -> inside (y_group x) -> h_agrees p x.
Proof.
  intros (PI & SM) (path & NA).
  apply proxy_in_inv in PI as (N & AT & MP & e & d & m & n & Ee & Ed & Em & El & X & Y & Z).
  assert (PR : forall s, In s (map fst (n_attrs (y_group x))) -> Forall (fun z => 0 < z < 256) s) by (intros s I; apply (PN _ _ NA); apply in_app_iff; auto).
  do 3 (split; auto). split; [|split; [|split]].
  - intros k nm dflt D. rewrite Z, meta_get_other by auto. congruence.
  - intros U convert ty comps split join zero ff R. apply dense_h5_sizes in R as (R1 & R2).
    destruct (view_box _ "extents"%string _ new_box PR ltac:(nz) R1) as (e' & E1 & <-). destruct (view_box _ "data_window"%string _ new_box PR ltac:(nz) R2) as (d' & E2 & <-). split; congruence.
  - intros U convert to_flag ty comps join zero limit ff R. apply sparse_h5_sizes in R as (R1 & R2).
    destruct (view_box _ "extents"%string _ new_box PR ltac:(nz) R1) as (e' & E1 & <-). destruct (view_box _ "data_window"%string _ new_box PR ltac:(nz) R2) as (d' & E2 & <-). split; congruence.
  - intros ty dims mm R. apply mip_count in R as (d' & E & <-). rewrite Z, meta_get_same. congruence.
Qed.
End P.

(** * Any file at all *)
Section D.
Context {A M V : Type}.
Variables (root : hnode (A := A)) (map_get : list (bytes * aval) -> res (option M)) (f : ihfile (A := A) (M := M)).
Hypothesis PF : plain_file map_get root.
Hypothesis FT : fitting_tree root.
Hypothesis RT : i_root f = Some root.
Lemma six_safe l n : fitting l -> get_six l n new_box <> UB.
Proof.
  intros F. unfold get_six, get_num. destruct (find_by (cstr n) l) as [[|fl sz dims d|]|] eqn:E; try discriminate.
  destruct (list_eq_dec Nat.eq_dec dims [6%nat]) as [->|]; [|discriminate]. cbn [negb]. destruct (negb _); [discriminate|]. destruct (Nat.eqb sz 4); [discriminate|].
  apply find_by_some in E. destruct (F _ _ _ _ _ E) as (_ & (S & L)); auto. destruct (Nat.leb_spec (List.length d) (List.length new_box)); [discriminate|].
  change (List.length new_box) with 24%nat in *. lia.
Qed.
Lemma one_safe l n cur : fitting l -> get_num l n false 4 [1%nat] cur <> UB.
Proof.
  intros F. unfold get_num. destruct (find_by (cstr n) l) as [[|fl sz dims d|]|] eqn:E; try discriminate.
  destruct (list_eq_dec Nat.eq_dec dims [1%nat]) as [->|]; [|discriminate]. cbn [negb]. destruct (negb _); [discriminate|].
  apply find_by_some in E. destruct (F _ _ _ _ _ E) as (S & _). rewrite S by auto. discriminate.
Qed.
Lemma proxy_safe at_ name attr m : node_at root at_ <> None -> h_proxy_of (V := V) (M := M) root at_ name attr m <> UB.
Proof.
  intros N. destruct (node_at root at_) as [g|] eqn:E; [|congruence]. rewrite (proxy_of_in _ _ _ _ _ _ E). unfold proxy_in.
  pose proof (six_safe (n_attrs g) (str "extents") (FT _ _ E)). destruct (get_six (n_attrs g) (str "extents") new_box); cbn [bind]; try congruence.
  pose proof (six_safe (n_attrs g) (str "data_window") (FT _ _ E)). destruct (get_six (n_attrs g) (str "data_window") new_box); cbn [bind]; try congruence.
  assert (S : sub_meta g <> UB).
  { unfold sub_meta. destruct (sub_group g (str "metadata")) as [mg|] eqn:SG; [|discriminate].
    assert (NM : node_at root (at_ ++ [str "metadata"]) = Some mg) by (rewrite node_at_app, E; cbn [node_at]; rewrite SG; reflexivity).
    apply get_each_def. apply (PF _ _ NM). }
  destruct (sub_meta g); cbn [bind]; try congruence.
  assert (LV : level_count (n_links g) <> UB).
  { change (level_count (n_links g)) with (match sub_group g (str "mip_levels") with Some g => get_num (n_attrs g) (str "levels") false 4 [1%nat] (Some (enc32 0)) | None => Ok (enc32 0) end).
    destruct (sub_group g (str "mip_levels")) as [mg|] eqn:SG; [|discriminate].
    assert (NM : node_at root (at_ ++ [str "mip_levels"]) = Some mg) by (rewrite node_at_app, E; cbn [node_at]; rewrite SG; reflexivity).
    apply one_safe. apply (FT _ _ NM). }
  destruct (level_count (n_links g)); cbn [bind]; congruence.
Qed.
Lemma h_layers_safe vec part user layer names : h_proxy_layers (V := V) f vec part user layer names <> UB.
Proof.
  induction names as [|n names IH]; cbn [h_proxy_layers]; [discriminate|]. destruct (bytes_eqb n layer); auto. rewrite RT.
  destruct (find_r _ _) as [ip|]; [|discriminate]. destruct (negb _); [discriminate|]. destruct (g_open root (Some []) (part ++ [47] ++ layer)) as [at_|] eqn:GO; [|discriminate].
  pose proof (proxy_safe at_ user layer (r_map ip) (g_open_node _ _ _ _ GO)) as S. destruct (h_proxy_of _ _ _ _ _); cbn [bind]; try congruence.
  destruct (h_proxy_layers f vec part user layer names); cbn [bind]; congruence.
Qed.
Lemma h_parts_safe vec user layer parts : h_proxy_parts (V := V) f vec user layer parts <> UB.
Proof.
  induction parts as [|n parts IH]; cbn [h_proxy_parts]; [discriminate|]. destruct (bytes_eqb _ _); auto.
  pose proof (h_layers_safe vec n user layer (h_int_names f vec n)) as S. destruct (h_proxy_layers _ _ _ _ _ _) as [[a|]| |]; cbn [bind]; try congruence.
  destruct (h_proxy_parts f vec user layer parts); cbn [bind]; congruence.
Qed.
Lemma i_proxies_safe vec user layer : i_proxies (V := V) f vec user layer <> UB.
Proof.
  unfold i_proxies. destruct (_ || _); [discriminate|]. pose proof (h_parts_safe vec user layer (map r_name (i_parts f))) as S.
  destruct (h_proxy_parts _ _ _ _ _); cbn [bind]; congruence.
Qed.
Lemma flat_mmap_safe {B C} (k : B -> res (list C)) l : (forall b, k b <> UB) -> flat_mmap k l <> UB.
Proof.
  intros H. induction l as [|b l IH]; cbn [flat_mmap]; [discriminate|]. specialize (H b). destruct (k b); cbn [bind]; try congruence.
  destruct (flat_mmap k l); cbn [bind]; congruence.
Qed.
Lemma i_all_safe vec name : i_proxies_all (V := V) f vec name <> UB.
Proof.
  unfold i_proxies_all. apply flat_mmap_safe. intros p. apply flat_mmap_safe. intros n. destruct (_ || _); [apply i_proxies_safe|discriminate].
Qed.
End D.
