From Coq Require Import ZArith List Bool String Lia Arith.
From Verif Require Import Model.Base Model.FieldM Model.OgawaM Spec.OgawaSpec Model.OgM Spec.OgSpec Proof.OgP
  Model.FieldIOM Proof.FieldIOP Model.FileM Proof.FileP Model.MetaM Model.MipIOM Proof.MipIOP Model.ProxyM Spec.ProxySpec.
Import ListNotations.
Open Scope Z_scope.

(** A group as any writer leaves it. *)
Definition wtree (t : tree) : Prop := exists g l, t = node_group g (map written l) /\ names_ok l.
Lemma group_cases t cs gt : wtree t -> find_comps t cs gt = Ok None \/
  exists e, find_comps t cs gt = Ok (Some (written e)) /\ kind_is gt e = true /\ good_name (e_name e) /\
            (forall n kids, e = EGroup n kids -> names_ok kids).
Proof.
  revert t. induction cs as [|n cs IH]; intros t (g & l & -> & N); [auto|]. destruct cs as [|n' cs].
  - cbn [find_comps]. rewrite (group_loop (find_loop n gt)) by auto. rewrite find_loop_written by now apply names_ok_forall.
    destruct (lookup (kind_is gt) n l) as [x|] eqn:L; cbn [option_map]; auto. right.
    destruct (lookup_some _ _ _ _ L) as (I & K & E). exists x. split; auto. split; auto. split; [exact (names_in _ _ N I)|].
    intros m kids ->. eapply names_ok_in; eauto.
  - cbn [find_comps]. destruct (loop_cases g l n N) as [->|(k & GN & K & ->)]; cbn [bind]; [auto|].
    rewrite valid_node by auto. apply IH. exists n, k. auto.
Qed.
Lemma valid_safe t n : wtree t -> find_valid t n = Ok None \/ exists x, find_valid t n = Ok (Some x) /\ wtree x.
Proof.
  intros W. unfold find_valid, find_group. destruct (group_cases t (split_path [] n) G_GROUP W) as [->|(e & -> & K & GN & S)]; cbn [bind]; auto.
  destruct e as [|m kids| |]; try (cbv in K; discriminate). cbn [written]. rewrite valid_node by apply GN. right. eexists. split; [reflexivity|].
  exists m, kids. split; auto. eapply S; eauto.
Qed.
Lemma attr_safe t n ty d : wtree t -> get_attr t n ty d <> UB.
Proof.
  intros W. unfold get_attr, find_typed, find_group. destruct (group_cases t (split_path [] n) G_ATTR W) as [->|(e & -> & K & (GN & _) & _)]; cbn [bind]; [discriminate|].
  destruct e as [m t1 v| | |]; try (cbv in K; discriminate). cbn [e_name] in GN. cbn [written]. unfold node_attr. rewrite (wdata_ne m), !wdata_enc32 by auto.
  destruct (wdata_head v) as (r & ->). cbn [app]. unfold read_dtype, get_data. cbn [t_kids nth_error]. rewrite enc32_length. cbn [Nat.eqb bind].
  destruct (dec_le (enc32 (type_code t1)) =? type_code ty); cbn [bind]; [|discriminate].
  unfold attr_value, read_data, get_data. cbn [t_kids nth_error].
  destruct ty; cbn [bind]; try (destruct (Nat.eqb (List.length v) _)); discriminate.
Qed.
Lemma needs_safe t n ty : wtree t -> need_attr t n ty <> UB.
Proof. intros W. unfold need_attr. apply bind_safe; [now apply attr_safe|]. intros [v|] _; discriminate. Qed.
Lemma group_names_safe t gt : wtree t -> exists l, group_names t gt = Ok l.
Proof. intros (g & l & -> & N). rewrite group_names_written by now apply names_ok_forall. eauto. Qed.

(** * Metadata *)
Lemma kind_safe t n k m : wtree t -> read_kind t n k m <> UB.
Proof. intros W. unfold read_kind. apply bind_safe; [now apply attr_safe|discriminate]. Qed.
Lemma meta_names_safe t ns : wtree t -> forall m, read_names t ns m <> UB.
Proof.
  intros W. induction ns as [|n ns IH]; intros m; [discriminate|]. cbn [read_names]. apply bind_safe; [|intros; apply IH].
  unfold read_name. do 4 (apply bind_safe; [now apply kind_safe|intros ? _]). now apply kind_safe.
Qed.
Lemma layer_meta_safe t : wtree t -> read_layer_meta t <> UB.
Proof.
  intros W. unfold read_layer_meta. destruct (valid_safe t (str "metadata") W) as [->|(x & -> & X)]; cbn [bind]; [discriminate|].
  unfold read_meta. destruct (group_names_safe x G_ATTR X) as (l & ->). now apply meta_names_safe.
Qed.

(** * Partitions and layers *)
Lemma maps_safe t names : wtree t -> exists l, info_maps t names = Ok l.
Proof.
  intros W. induction names as [|n names (l & IH)]; cbn [info_maps]; [eauto|].
  destruct (valid_safe t n W) as [->|(x & -> & X)]; cbn [bind].
  - rewrite IH. cbn [bind]. eauto.
  - destruct (valid_safe x k_mapping X) as [->|(y & -> & Y)]; cbn [bind]; rewrite IH; cbn [bind]; eauto.
Qed.
Lemma layers_safe t names : wtree t -> forall l, exists l', info_layers t names l = Ok l'.
Proof.
  intros W. induction names as [|n names IH]; intros l; cbn [info_layers]; [eauto|].
  destruct (valid_safe t n W) as [->|(x & -> & X)]; cbn [bind]; [apply IH|].
  destruct (group_names_safe x G_GROUP X) as (ls & ->). cbn [bind]. apply IH.
Qed.
Lemma info_safe t : wtree t -> exists l, read_info t = Ok l.
Proof.
  intros W. unfold read_info. destruct (group_names_safe t G_GROUP W) as (ns & ->). cbn [bind].
  destruct (maps_safe t (filter (fun x => negb (bytes_eqb x k_global)) ns) W) as (l & ->). cbn [bind]. now apply layers_safe.
Qed.
Definition from_file (x : ilayer) : Prop := wtree (il_group x).
Lemma one_layer_safe t l part layer : wtree t ->
  read_layer t l part layer = Ok None \/ exists x, read_layer t l part layer = Ok (Some x) /\ from_file x.
Proof.
  intros W. unfold read_layer. destruct (find_ipart part l); [|auto]. destruct (negb _); [auto|].
  destruct (valid_safe t part W) as [->|(x & -> & X)]; cbn [bind]; auto.
  destruct (valid_safe x layer X) as [->|(y & -> & Y)]; cbn [bind]; auto. right. eexists. split; [reflexivity|]. exact Y.
Qed.
Lemma named_safe t l part keep names : wtree t -> exists r, read_named t l part keep names = Ok r /\ Forall from_file r.
Proof.
  intros W. induction names as [|n names (r & E & F)]; cbn [read_named]; [eauto|]. destruct (keep n); [|eauto].
  destruct (one_layer_safe t l part n W) as [->|(x & -> & X)]; cbn [bind]; rewrite E; cbn [bind]; eauto.
Qed.
Lemma parts_safe t l parts want keep : wtree t -> exists r, read_parts t l parts want keep = Ok r /\ Forall from_file r.
Proof.
  intros W. induction parts as [|n parts (r & E & F)]; cbn [read_parts]; [eauto|]. rewrite E.
  destruct (want n); cbn [bind]; [|eauto]. edestruct (named_safe t l n keep) as (a & -> & FA); auto. cbn [bind].
  eexists. split; [reflexivity|]. apply Forall_app; auto.
Qed.

(** * Proxies *)
Section V.
Context {V : Type}.
Lemma proxy_of_safe lg name attr map : wtree lg -> @proxy_of V lg name attr map <> UB.
Proof.
  intros W. unfold proxy_of. do 4 (apply bind_safe; [now apply needs_safe|intros ? _]). cbv zeta.
  apply bind_safe; [now apply layer_meta_safe|intros m _].
  destruct (valid_safe lg (str "mip_levels") W) as [->|(xx & -> & X)]; cbn [bind]; [discriminate|].
  apply bind_safe; [|discriminate]. apply bind_safe; [now apply attr_safe|discriminate].
Qed.
Lemma proxy_layers_safe t l part user layer names : wtree t -> @proxy_layers V t l part user layer names <> UB.
Proof.
  intros W. induction names as [|n names IH]; cbn [proxy_layers]; [discriminate|]. destruct (bytes_eqb n layer); [|exact IH].
  destruct (find_ipart part l); [|discriminate]. destruct (negb _); [discriminate|].
  destruct (valid_safe t part W) as [->|(x & -> & X)]; cbn [bind]; [discriminate|].
  destruct (valid_safe x layer X) as [->|(y & -> & Y)]; cbn [bind]; [discriminate|].
  apply bind_safe; [now apply proxy_of_safe|intros p _]. apply bind_safe; [exact IH|discriminate].
Qed.
Lemma proxy_parts_safe v t l user layer parts : wtree t -> @proxy_parts V v t l user layer parts <> UB.
Proof.
  intros W. induction parts as [|n parts IH]; cbn [proxy_parts]; [discriminate|]. destruct (bytes_eqb _ _); [|exact IH].
  apply bind_safe; [now apply proxy_layers_safe|intros [a|] _; [|discriminate]]. apply bind_safe; [exact IH|discriminate].
Qed.
Lemma read_proxy_safe v t l user layer : wtree t -> @read_proxy V v t l user layer <> UB.
Proof. intros W. unfold read_proxy. destruct (_ || _); [discriminate|]. apply bind_safe; [now apply proxy_parts_safe|discriminate]. Qed.
Lemma flat_mmap_safe {A B} (g : A -> res (list B)) l : (forall a, g a <> UB) -> flat_mmap g l <> UB.
Proof. intros H. induction l; cbn [flat_mmap]; [discriminate|]. apply bind_safe; [apply H|intros ? _]. apply bind_safe; [exact IHl|discriminate]. Qed.
Lemma proxies_all_safe v t name : wtree t -> @read_proxies_all V v t name <> UB.
Proof.
  intros W. unfold read_proxies_all. destruct (info_safe t W) as (l & E). rewrite E. cbn [bind]. unfold partition_names. rewrite E. cbn [bind].
  apply flat_mmap_safe. intros p. apply flat_mmap_safe. intros n. destruct (_ || _); [now apply read_proxy_safe|discriminate].
Qed.
End V.
