From Coq Require Import ZArith Reals List Bool String Lia Arith.
From Verif Require Import Model.Base Model.FieldM Model.DenseM Model.SparseM Model.VecM Model.MacM Model.OgawaM Spec.OgawaSpec Proof.OgawaP Model.OgM Spec.OgSpec Proof.OgP
  Model.FieldIOM Spec.FieldIOSpec Proof.FieldIOP Model.FileM Proof.FileP Model.MetaM Spec.MetaSpec Proof.MetaP Props.MetaProps Model.MipIOM Model.ProxyM Proof.ProxyP
  Model.Hdf5M Model.Hdf5MacM Spec.Hdf5Spec Model.Hdf5FileM Spec.Hdf5MetaSpec Spec.Hdf5FileSpec Proof.Hdf5MetaP Proof.Hdf5FileP Proof.Hdf5FileP3 Proof.Hdf5MapP Props.Hdf5FileProps
  Model.MipH5M Spec.MipH5Spec Proof.MipH5P Proof.MipH5P2 Model.ProxyH5M Spec.ProxyH5Spec.
Import ListNotations.
Open Scope Z_scope.

(** * What the writers store *)
Definition six (e : box) : aval := VNum false 4 [6%nat] (flat_map enc32 (of_box e)).
Lemma named_app {B} n (l m : list (string * B)) : named n (l ++ m) = match named n l with Some x => Some x | None => named n m end.
Proof. induction l as [|(k, x) l IH]; cbn; auto. destruct (String.eqb n k); auto. Qed.
Lemma put_attr_kept {A} (g g' : hgroup A) n l m x : put_attr g n l = Some g' -> named m (hg_attrs g) = Some x -> named m (hg_attrs g') = Some x.
Proof. unfold put_attr. destruct (named n _); [discriminate|]. intros [= <-] H. cbn. rewrite named_app, H. reflexivity. Qed.
Lemma put_attr_new {A} (g g' : hgroup A) n l : put_attr g n l = Some g' -> named n (hg_attrs g') = Some (AInts l).
Proof. unfold put_attr. destruct (named n _) eqn:E; [discriminate|]. intros [= <-]. cbn. rewrite named_app, E. cbn. rewrite String.eqb_refl. reflexivity. Qed.
Lemma put_set_kept {A} (g g' : hgroup A) n s : put_set g n s = Some g' -> hg_attrs g' = hg_attrs g.
Proof. unfold put_set. destruct (named n _); [discriminate|]. intros [= <-]. reflexivity. Qed.
Lemma or_throw_ok {B} (o : option B) x : or_throw o = Ok x -> o = Some x.
Proof. destruct o; [intros [= ->]; auto|discriminate]. Qed.

Definition has_sizes {A} (g : hgroup A) (e dw : box) : Prop :=
  named "extents" (hg_attrs g) = Some (AInts (of_box e)) /\ named "data_window" (hg_attrs g) = Some (AInts (of_box dw)).
Lemma sizes_attr {A} (g g' : hgroup A) e dw n l : has_sizes g e dw -> put_attr g n l = Some g' -> has_sizes g' e dw.
Proof. intros (P & Q) H. split; eapply put_attr_kept; eauto. Qed.
Lemma sizes_set {A} (g g' : hgroup A) e dw n s : has_sizes g e dw -> put_set g n s = Some g' -> has_sizes g' e dw.
Proof. intros (P & Q) H. unfold has_sizes. rewrite (put_set_kept _ _ _ _ H). split; auto. Qed.
Lemma sizes_start {A} (g1 g2 g3 : hgroup A) e dw : put_attr g1 "extents" (of_box e) = Some g2 -> put_attr g2 "data_window" (of_box dw) = Some g3 -> has_sizes g3 e dw.
Proof. intros H K. split; [eapply put_attr_kept; eauto; eapply put_attr_new; eauto|eapply put_attr_new; eauto]. Qed.
Lemma dense_has {A V} ty comps (split : V -> list A) gzip d g0 g : dense_h5_write ty comps split gzip d g0 = Ok (g, true) -> has_sizes g (d_ext d) (d_dw d).
Proof.
  unfold dense_h5_write. intros H. apply bind_ok in H as (g1 & _ & H). do 3 apply bind_ok in H as (? & _ & H).
  apply bind_ok in H as (g2 & E2 & H). apply bind_ok in H as (g3 & E3 & H). apply bind_ok in H as (g4 & E4 & H). apply or_throw_ok in E2, E3, E4.
  destruct (put_attr g4 _ _) as [g5|] eqn:E5; [|discriminate]. destruct (negb _); [discriminate|]. destruct (_ <? _); [discriminate|].
  apply bind_ok in H as (g6 & E6 & H). apply or_throw_ok in E6. injection H as <-.
  eapply sizes_set; [|exact E6]. eapply sizes_attr; [|exact E5]. eapply sizes_attr; [|exact E4]. eapply sizes_start; eauto.
Qed.
Lemma put_simple_kept {A} (g g' : hgroup A) e dw n t l : has_sizes g e dw -> put_simple g n t l = Ok g' -> has_sizes g' e dw.
Proof.
  intros S H. unfold put_simple in H. apply bind_ok in H as (g1 & E & H). apply or_throw_ok in E. destruct l; [discriminate|]. injection H as <-. eapply sizes_set; eauto.
Qed.
Lemma sparse_has {A V} of_flag ty comps (split : V -> list A) gzip s g0 g : sparse_h5_write of_flag ty comps split gzip s g0 = Ok (g, true) -> has_sizes g (s_ext s) (s_dw s).
Proof.
  unfold sparse_h5_write. intros H. apply bind_ok in H as (g1 & _ & H). destruct (10 <? _); [discriminate|]. apply bind_ok in H as (? & _ & H).
  destruct (put_attr g1 _ _) as [g2|] eqn:E2; [|discriminate]. destruct (put_attr g2 _ _) as [g3|] eqn:E3; [|discriminate].
  pose proof (sizes_start _ _ _ _ _ E2 E3) as S3.
  destruct (put_attr g3 _ _) as [g4|] eqn:E4; [|discriminate]. pose proof (sizes_attr _ _ _ _ _ _ S3 E4) as S4.
  destruct (put_attr g4 _ _) as [g5|] eqn:E5; [|discriminate]. pose proof (sizes_attr _ _ _ _ _ _ S4 E5) as S5.
  do 2 apply bind_ok in H as (? & _ & H).
  destruct (put_attr g5 _ _) as [g6|] eqn:E6; [|discriminate]. pose proof (sizes_attr _ _ _ _ _ _ S5 E6) as S6.
  destruct (put_attr g6 _ _) as [g7|] eqn:E7; [|discriminate]. pose proof (sizes_attr _ _ _ _ _ _ S6 E7) as S7.
  destruct (put_attr g7 _ _) as [g8|] eqn:E8; [|discriminate]. pose proof (sizes_attr _ _ _ _ _ _ S7 E8) as S8.
  destruct (negb _); [discriminate|]. apply bind_ok in H as (g9 & E9 & H). pose proof (put_simple_kept _ _ _ _ _ _ _ S8 E9) as S9.
  apply bind_ok in H as (g10 & E10 & H). pose proof (put_simple_kept _ _ _ _ _ _ _ S9 E10) as S10.
  apply bind_ok in H as (g11 & E11 & H). apply or_throw_ok in E11. pose proof (sizes_attr _ _ _ _ _ _ S10 E11) as S11.
  destruct (Nat.eqb _ 0); [injection H as <-; auto|]. destruct (negb _); [discriminate|]. apply bind_ok in H as (rows & _ & H).
  apply bind_ok in H as (g12 & E12 & H). apply or_throw_ok in E12. injection H as <-. eapply sizes_set; eauto.
Qed.
Lemma put_comp_kept ty gzip m g g' c e dw : has_sizes g e dw -> put_comp ty gzip m g c = Ok g' -> has_sizes g' e dw.
Proof.
  intros S H. unfold put_comp in H. destruct (negb _); [discriminate|]. destruct (c_data _); [discriminate|]. apply or_throw_ok in H. eapply sizes_set; eauto.
Qed.
Lemma mac_has ty gzip m g0 g : mac_h5_write ty gzip m g0 = Ok (g, true) -> has_sizes g (m_ext m) (m_dw m).
Proof.
  unfold mac_h5_write. intros H. apply bind_ok in H as (g1 & _ & H).
  apply bind_ok in H as (g2 & E2 & H). apply bind_ok in H as (g3 & E3 & H). apply or_throw_ok in E2, E3. pose proof (sizes_start _ _ _ _ _ E2 E3) as S3.
  apply bind_ok in H as (g4 & E4 & H). apply bind_ok in H as (g5 & E5 & H). apply or_throw_ok in E4, E5.
  pose proof (sizes_attr _ _ _ _ _ _ S3 E4) as S4. pose proof (sizes_attr _ _ _ _ _ _ S4 E5) as S5.
  apply bind_ok in H as (g6 & E6 & H). apply bind_ok in H as (g7 & E7 & H). apply bind_ok in H as (g8 & E8 & H). injection H as <-.
  eapply put_comp_kept; [|exact E8]. eapply put_comp_kept; [|exact E7]. eapply put_comp_kept; [|exact E6]. exact S5.
Qed.
Lemma no_sub {A} (l : list (string * hset A)) n : match find_by n (map h5_set l) with Some (LGroup g) => Some g | _ => None end = None.
Proof. induction l as [|(m, x) l IH]; cbn; auto. destruct (bytes_eqb _ _); auto. Qed.

(** What a proxy is read from. *)
Definition mips_of {A} (l : list (bytes * hlink (A := A))) : option hnode :=
  match find_by (str "mip_levels") l with Some (LGroup g) => Some g | _ => None end.
Definition level_count {A} (l : list (bytes * hlink (A := A))) : res bytes :=
  match mips_of l with
  | Some g => get_num (n_attrs g) (str "levels") false 4 [1%nat] (Some (enc32 0))
  | None => Ok (enc32 0)
  end.
Lemma stored_facts A f e dw n : h5_stores A f e dw n ->
  find_by (str "extents") (hf_attrs f) = Some (six e) /\ find_by (str "data_window") (hf_attrs f) = Some (six dw) /\
  level_count (hf_links f) = Ok (enc32 (Z.of_nat n)).
Proof.
  intros H.
  assert (K : forall A e dw (g : hgroup A) (f : hfield (A := A)), has_sizes g e dw -> hf_attrs f = map h5_attr (hg_attrs g) -> hf_links f = map h5_set (hg_sets g) ->
    find_by (str "extents") (hf_attrs f) = Some (six e) /\ find_by (str "data_window") (hf_attrs f) = Some (six dw) /\ level_count (hf_links f) = Ok (enc32 (Z.of_nat 0))).
  { clear. intros A e dw g f (P & Q) -> ->. split; [apply six_attr; auto|]. split; [apply six_attr; auto|]. unfold level_count, mips_of. rewrite no_sub. reflexivity. }
  destruct H as [A V ty comps split gzip d g f W E L|A V of_flag ty comps split gzip s g f W E L|ty gzip m g f W E L|A F kind wr ty dims m g f W E L].
  - eapply K; eauto. eapply dense_has; eauto.
  - eapply K; eauto. eapply sparse_has; eauto.
  - eapply K; eauto. eapply mac_has; eauto.
  - rewrite E, L. unfold mip_h5_write, n_empty in W. cbn [n_attrs n_links] in W.
    change (int_attr [] (str "version") [1]) with (Some [(str "version", VNum false 4 [1%nat] (enc32 1))]) in W. cbn [or_throw bind] in W.
    change (int_attr [(str "version", VNum false 4 [1%nat] (enc32 1))] (str "extents") (of_box (mi_ext m)))
      with (Some [(str "version", VNum false 4 [1%nat] (enc32 1)); (str "extents", six (mi_ext m))]) in W. cbn [or_throw bind] in W.
    match type of W with context [int_attr ?l (str "data_window") ?v] => change (int_attr l (str "data_window") v) with (Some (l ++ [(str "data_window", six (mi_dw m))])) in W end.
    cbn [or_throw bind app] in W.
    match type of W with context [int_attr ?l (str "components") [?v]] => change (int_attr l (str "components") [v]) with (Some (l ++ [(str "components", VNum false 4 [1%nat] (enc32 v ++ []))])) in W end.
    cbn [or_throw bind app] in W.
    match type of W with context [int_attr ?l (str "bits_per_component") [?v]] => change (int_attr l (str "bits_per_component") [v]) with (Some (l ++ [(str "bits_per_component", VNum false 4 [1%nat] (enc32 v ++ []))])) in W end.
    cbn [app] in W.
    match type of W with context [put_str ?l (str "base_type") ?v] => change (put_str l (str "base_type") v) with
      (Some (l ++ [(str "base_type", VStr (match v with [] => [0] | _ => v end))])) in W end.
    cbn [or_throw bind app find_by] in W.
    change (int_attr [] (str "levels") [Z.of_nat (mi_num m)]) with (Some [(str "levels", VNum false 4 [1%nat] (enc32 (Z.of_nat (mi_num m)) ++ []))]) in W. cbn [or_throw bind] in W.
    apply bind_ok in W as (gs & _ & W). injection W as <-. cbn [n_attrs n_links]. split; [reflexivity|]. split; [reflexivity|].
    unfold level_count, mips_of. cbn [find_by]. rewrite beq_refl. cbn [n_attrs].
    apply (get_num_ok _ (str "levels")); [nz|reflexivity].
Qed.

Section P.
Context {A M V : Type}.
Notation hnode := (hnode (A := A)).

(** * The proxy of a group *)
Definition sub_meta (g : hnode) : res meta :=
  match sub_group g (str "metadata") with Some mg => get_meta (n_attrs mg) meta_empty | None => Ok meta_empty end.
Definition proxy_in (g : hnode) (name attr : bytes) (map : M) : res (hproxy V M) :=
  let* e := get_six (n_attrs g) (str "extents") new_box in
  let* d := get_six (n_attrs g) (str "data_window") new_box in
  let* m := sub_meta g in
  let* n := level_count (n_links g) in
  Ok (HProxy name attr (empty_set_size (box_in e) (box_in d) empty_init) (meta_set m KInt (str "mip_levels") n) map).
Lemma open_sub (root : hnode) at_ g n : simple n -> node_at root at_ = Some g ->
  g_open root (Some at_) n = match sub_group g n with Some _ => Some (at_ ++ [n]) | None => None end.
Proof.
  intros S N. unfold g_open. rewrite start_simple, comps_simple, node_at_app, N by auto. cbn [node_at].
  assert (C : is_nil (cstr n) = false) by (destruct S as (S0 & _ & S1 & _); rewrite cstr_id by auto; destruct n; [congruence|reflexivity]).
  rewrite C. destruct (sub_group g n); reflexivity.
Qed.
Lemma simple_mips : simple (str "mip_levels"). Proof. apply simpleb_ok. reflexivity. Qed.
Lemma proxy_of_in (root : hnode) at_ g name attr map : node_at root at_ = Some g -> h_proxy_of root at_ name attr map = proxy_in g name attr map.
Proof.
  intros N. unfold h_proxy_of, proxy_in, sub_meta, level_count, mips_of. rewrite (attrs_at_eq _ _ _ N).
  rewrite (open_sub root at_ g (str "metadata") simple_meta N), (open_sub root at_ g (str "mip_levels") simple_mips N).
  assert (K : forall n s, sub_group g n = Some s -> attrs_at root (at_ ++ [n]) = n_attrs s).
  { intros n s E. apply attrs_at_eq. rewrite node_at_app, N. cbn [node_at]. rewrite E. reflexivity. }
  destruct (get_six (n_attrs g) (str "extents") new_box) as [e| |]; cbn [bind]; auto.
  destruct (get_six (n_attrs g) (str "data_window") new_box) as [d| |]; cbn [bind]; auto.
  change (match find_by (str "mip_levels") (n_links g) with Some (LGroup g0) => Some g0 | _ => None end) with (sub_group g (str "mip_levels")).
  assert (L : match (match sub_group g (str "mip_levels") with Some _ => Some (at_ ++ [str "mip_levels"]) | None => None end) with
              | Some mp => get_num (attrs_at root mp) (str "levels") false 4 [1%nat] (Some (enc32 0)) | None => Ok (enc32 0) end =
              match sub_group g (str "mip_levels") with Some g0 => get_num (n_attrs g0) (str "levels") false 4 [1%nat] (Some (enc32 0)) | None => Ok (enc32 0) end).
  { destruct (sub_group g (str "mip_levels")) as [s|] eqn:E; auto. rewrite (K _ _ E). reflexivity. }
  rewrite L. destruct (sub_group g (str "metadata")) as [mg|] eqn:EM; [rewrite (K _ _ EM)|]; reflexivity.
Qed.
End P.
