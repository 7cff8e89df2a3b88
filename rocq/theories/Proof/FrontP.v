From Coq Require Import ZArith List Bool String Lia Arith Permutation.
From Verif Require Import Model.Base Model.OgawaM Spec.OgawaSpec Model.OgM Spec.OgSpec Proof.OgP Props.OgProps Model.FieldIOM Spec.FieldIOSpec Proof.FieldIOP Model.FileM Spec.FileSpec Proof.FileP Proof.FileP2
  Model.MetaM Spec.MetaSpec Proof.MetaP Model.Hdf5M Model.Hdf5FileM Spec.Hdf5MetaSpec Proof.Hdf5MetaP Spec.Hdf5FileSpec Proof.Hdf5FileP Proof.Hdf5FileP2 Proof.Hdf5FileP3
  Props.Hdf5FileProps Model.MembersM Model.ProxyM Model.ProxyH5M Model.FrontM Spec.FrontSpec.
Import ListNotations.
Open Scope Z_scope.

Section P.
Context {A M : Type}.
Variable ord : list bytes -> list bytes.
Variable map_get : list (bytes * aval) -> res (option M).
Notation fin := (fin (A := A) (M := M)).
Notation irun := (irun (A := A) (M := M) ord map_get).
Notation f_open := (f_open (A := A) (M := M) ord map_get).

(** * Histories of input objects *)
Lemma open_ogawa t (o o' : fin) ok : fi_h5 o = None -> f_open (OgawaFile t) o = Ok (o', ok) -> fi_h5 o' = None.
Proof.
  intros H E. unfold FrontM.f_open, f_clear in E. rewrite H in E. cbn [fi_h5 fi_root fi_parts fi_meta] in E.
  destruct (OgM.get_attr _ _ _ _); try discriminate. cbn [bind] in E. destruct (negb _); [injection E as <- <-; reflexivity|].
  destruct (find_valid _ _); try discriminate. cbn [bind] in E. unfold f_metadata in E. cbn [fi_h5 fi_meta] in E.
  destruct (match a0 with Some g => read_meta g (fi_meta o) | None => Ok (fi_meta o) end); try discriminate. cbn [bind] in E.
  destruct (read_info _); try discriminate. cbn [bind] in E. injection E as <- <-. reflexivity.
Qed.
Lemma only_ogawa_none hist : only_ogawa hist -> forall o o' : fin, fi_h5 o = None -> irun o hist = Ok o' -> fi_h5 o' = None.
Proof.
  induction hist as [|x r IH]; intros OO o o' H E; cbn [FrontM.irun] in E; [congruence|].
  assert (OR : only_ogawa r) by (intros d I; apply OO; right; auto).
  destruct x as [d| |]; cbn [istep] in E.
  - destruct (FrontM.f_open _ _ d o) as [(o1, ok)| |] eqn:EO; try discriminate. cbn [bind] in E. apply (IH OR o1); auto.
    destruct (OO d (or_introl eq_refl)) as [->|(t & ->)]; [|eapply open_ogawa; eauto].
    unfold FrontM.f_open, f_clear, f_close in EO. rewrite H in EO. cbn in EO. injection EO as <- <-. reflexivity.
  - cbn [bind] in E. apply (IH OR (f_clear o)); auto. unfold f_clear. rewrite H. reflexivity.
  - cbn [bind] in E. apply (IH OR (f_close o)); auto. unfold f_close. rewrite H. reflexivity.
Qed.

(** * An HDF5 file *)
Lemma open_hdf5 r (o : fin) h : i_open ord map_get r i_new = Ok (h, true) ->
  exists o', f_open (Hdf5File r) o = Ok (o', true) /\ answers_hdf5 o' h /\ f_metadata o' = i_meta h.
Proof.
  intros E. unfold FrontM.f_open. rewrite E. cbn [bind]. eexists. split; [reflexivity|].
  split; [|reflexivity]. repeat split; reflexivity.
Qed.
Lemma open_hdf5_inv r (o o' : fin) : f_open (Hdf5File r) o = Ok (o', true) -> exists h, i_open ord map_get r i_new = Ok (h, true).
Proof.
  intros E. unfold FrontM.f_open in E. destruct (i_open _ _ r _) as [(h, ok)| |]; try discriminate. cbn [bind] in E.
  destruct ok; [eauto|]. injection E as _ X. discriminate.
Qed.

(** * An Ogawa file *)
Lemma open_ogawa_eq t (o o' : fin) ok : fi_h5 o = None -> validate t = true -> f_open (OgawaFile t) o = Ok (o', ok) ->
  ok = true -> exists l m, read_info t = Ok l /\ o' = FIn None (Some t) l m.
Proof.
  intros H VT E OK. unfold FrontM.f_open, f_clear in E. rewrite H, VT in E. cbn [fi_h5 fi_root fi_parts fi_meta] in E.
  destruct (OgM.get_attr _ _ _ _); try discriminate. cbn [bind] in E. destruct (negb _); [injection E as <- <-; discriminate|].
  destruct (find_valid _ _); try discriminate. cbn [bind] in E. unfold f_metadata in E. cbn [fi_h5 fi_meta] in E.
  destruct (match a0 with Some g => read_meta g (fi_meta o) | None => Ok (fi_meta o) end); try discriminate. cbn [bind] in E.
  destruct (read_info _) as [l| |]; try discriminate. cbn [bind] in E. injection E as <- <-. cbn. eauto.
Qed.
Lemma own_answers t l m : read_info t = Ok l -> answers_ogawa (A := A) (M := M) (FIn None (Some t) l m) t.
Proof.
  intros RI. unfold answers_ogawa, f_encoding, f_partition_names, f_layer_names, f_layers, f_layers_all, f_proxies, f_own_layers, f_own_all, f_own,
    partition_names, layer_names_in, read_layers, read_layers_all, read_proxy_layer. cbn [fi_h5 fi_root fi_parts]. rewrite RI. cbn [bind].
  repeat split; reflexivity.
Qed.
End P.

Section W.
Context {A M : Type}.
Variable ident : M -> M -> bool.
Variable map_kids : M -> list tree.
Variable map_ok : M -> bool.
Variable map_put : M -> res (list (bytes * aval) * bool).
Variable version : bytes.
Variable hp : nat -> M.
Notation orun := (orun (A := A) ident map_kids map_ok map_put version hp).

Lemma orun_app l1 : forall k o l2, orun k o (l1 ++ l2) =
  let* (k, o, a) := orun k o l1 in let* (k, o, b) := orun k o l2 in Ok (k, o, a ++ b).
Proof.
  induction l1 as [|x l1 IH]; intros k o l2; cbn [app FrontM.orun bind].
  - destruct (FrontM.orun _ _ _ _ _ _ k o l2) as [((k', o'), b)| |]; reflexivity.
  - destruct (ostep _ _ _ _ _ _ k o x) as [((k', o'), oc)| |]; auto. cbn [bind]. rewrite IH.
    destruct (FrontM.orun _ _ _ _ _ _ k' o' l1) as [((k1, o1), a)| |]; auto. cbn [bind].
    destruct (FrontM.orun _ _ _ _ _ _ k1 o1 l2) as [((k2, o2), b)| |]; reflexivity.
Qed.

Definition settle (m : meta) (l : list mset) : meta := fold_left (fun m s => meta_set m (ms_kind s) (ms_name s) (ms_value s)) l m.
Lemma acc_cons w ws oc ocs : accepted (w :: ws) (oc :: ocs) = (match oc with Accepted => [w] | _ => [] end) ++ accepted ws ocs.
Proof. unfold accepted. cbn [combine filter snd]. destruct oc; reflexivity. Qed.
Lemma hacc_cons (w : hcall (A := A)) ws oc ocs : h_accepted (w :: ws) (oc :: ocs) = (match oc with Accepted => [w] | _ => [] end) ++ h_accepted ws ocs.
Proof. unfold h_accepted. cbn [combine filter snd]. destruct oc; reflexivity. Qed.

Lemma og_body k g l : Forall body_op l -> forall f f' wocs m mem,
  write_all ident map_kids map_ok hp f (map as_og (layer_calls l)) = Ok (f', wocs) ->
  exists ocs mem', orun k (FOut None (Some g) f m mem) l = Ok (k, FOut None (Some g) f' (settle m (settings l)) mem', ocs) /\
    List.length ocs = List.length l /\ accepted (map as_og (layer_calls l)) wocs = map as_og (taken l ocs) /\
    (Forall (eq Accepted) wocs -> Forall (eq Accepted) ocs).
Proof.
  induction 1 as [|x l BX BL IH]; intros f f' wocs m mem E.
  - cbn in E. injection E as <- <-. exists [], mem. repeat split; auto.
  - destruct x; try destruct BX.
    + cbn [layer_calls flat_map app map write_all] in E. cbn [as_og w_user w_layer w_ref w_body] in E.
      destruct (write_layer _ _ _ _ f _ _ _ _) as [(f1, oc)| |] eqn:EW; try discriminate. cbn [bind] in E.
      change (flat_map _ l) with (layer_calls l) in E.
      destruct (write_all _ _ _ _ f1 _) as [(f2, ws)| |] eqn:EA; try discriminate. cbn [bind] in E. injection E as <- <-.
      destruct (IH f1 f2 ws m mem EA) as (ocs & mem' & R & LN & AC & FA). exists (oc :: ocs), mem'.
      cbn [FrontM.orun ostep fo_h5 fo_og fo_file fo_meta fo_members]. rewrite EW. cbn [bind]. rewrite R. cbn [bind].
      split; [reflexivity|]. split; [cbn; auto|]. split.
      * cbn [layer_calls flat_map app map]. change (flat_map _ l) with (layer_calls l). rewrite acc_cons, AC.
        unfold taken. cbn [combine flat_map]. rewrite map_app. f_equal. destruct oc; reflexivity.
      * intros FO. inversion FO; subst. constructor; auto.
    + destruct (IH f f' wocs (meta_set m k0 n v) mem E) as (ocs & mem' & R & LN & AC & FA). exists (Accepted :: ocs), mem'.
      cbn [FrontM.orun ostep fo_h5 fo_og fo_file fo_meta fo_members bind]. rewrite R. cbn [bind].
      split; [reflexivity|]. split; [cbn; auto|]. split; auto.
    + destruct (IH f f' wocs m (add_members mem m0) E) as (ocs & mem' & R & LN & AC & FA). exists (Accepted :: ocs), mem'.
      cbn [FrontM.orun ostep fo_h5 fo_og fo_file fo_meta fo_members bind]. rewrite R. cbn [bind].
      split; [reflexivity|]. split; [cbn; auto|]. split; auto.
Qed.

Lemma h5_body k og nm fl fm fe l : Forall body_op l -> forall f f' wocs m mem,
  h_writes ident map_put hp f (map as_h5 (layer_calls l)) = Ok (f', wocs) ->
  exists ocs mem', orun k (FOut (Some (H5Out f nm m mem)) og fl fm fe) l = Ok (k, FOut (Some (H5Out f' nm (settle m (settings l)) mem')) og fl fm fe, ocs) /\
    List.length ocs = List.length l /\ h_accepted (map as_h5 (layer_calls l)) wocs = map as_h5 (taken l ocs) /\
    (Forall (eq Accepted) wocs -> Forall (eq Accepted) ocs).
Proof.
  induction 1 as [|x l BX BL IH]; intros f f' wocs m mem E.
  - cbn in E. injection E as <- <-. exists [], mem. repeat split; auto.
  - destruct x; try destruct BX.
    + cbn [layer_calls flat_map app map h_writes] in E. cbn [as_h5 c_vec c_user c_layer c_field] in E.
      destruct (h_write _ _ _ f _ _ _ _) as [(f1, oc)| |] eqn:EW; try discriminate. cbn [bind] in E.
      change (flat_map _ l) with (layer_calls l) in E.
      destruct (h_writes _ _ _ f1 _) as [(f2, ws)| |] eqn:EA; try discriminate. cbn [bind] in E. injection E as <- <-.
      destruct (IH f1 f2 ws m mem EA) as (ocs & mem' & R & LN & AC & FA). exists (oc :: ocs), mem'.
      cbn [FrontM.orun ostep fo_h5 fo_og fo_file fo_meta fo_members ho_file ho_name ho_meta ho_members]. rewrite EW. cbn [bind]. rewrite R. cbn [bind].
      split; [reflexivity|]. split; [cbn; auto|]. split.
      * cbn [layer_calls flat_map app map]. change (flat_map _ l) with (layer_calls l). rewrite hacc_cons, AC.
        unfold taken. cbn [combine flat_map]. rewrite map_app. f_equal. destruct oc; reflexivity.
      * intros FO. inversion FO; subst. constructor; auto.
    + destruct (IH f f' wocs (meta_set m k0 n v) mem E) as (ocs & mem' & R & LN & AC & FA). exists (Accepted :: ocs), mem'.
      cbn [FrontM.orun ostep fo_h5 fo_og fo_file fo_meta fo_members ho_file ho_name ho_meta ho_members bind]. rewrite R. cbn [bind].
      split; [reflexivity|]. split; [cbn; auto|]. split; auto.
    + destruct (IH f f' wocs m (add_members mem m0) E) as (ocs & mem' & R & LN & AC & FA). exists (Accepted :: ocs), mem'.
      cbn [FrontM.orun ostep fo_h5 fo_og fo_file fo_meta fo_members ho_file ho_name ho_meta ho_members bind]. rewrite R. cbn [bind].
      split; [reflexivity|]. split; [cbn; auto|]. split; auto.
Qed.

Lemma taken_all l : forall ocs, List.length ocs = List.length l -> Forall (eq Accepted) ocs -> taken (A := A) l ocs = layer_calls l.
Proof.
  induction l as [|x l IH]; intros [|oc ocs] L F; try discriminate; auto. inversion F; subst. injection L as L.
  unfold taken, layer_calls in *. cbn [combine flat_map]. rewrite IH by auto. destruct x; reflexivity.
Qed.

(** The whole scripts. *)
Lemma set_same (k : disk (A := A)) n d : disk_set k n d n = d.
Proof. unfold disk_set. rewrite beq_refl. reflexivity. Qed.
Lemma set_other (k : disk (A := A)) n d x : x <> n -> disk_set k n d x = k x.
Proof. intros N. unfold disk_set. rewrite beq_neq; auto. Qed.

Lemma og_script k0 name keep body (globals : bool) f wocs : Forall body_op body -> keep = false \/ k0 name = NoFile ->
  write_all ident map_kids map_ok hp o_new (map as_og (layer_calls body)) = Ok (f, wocs) ->
  exists k o ocs, orun k0 fo_new (script true name keep body globals) = Ok (k, o, Accepted :: ocs ++ (if globals then [Accepted] else []) ++ [Accepted]) /\
    List.length ocs = List.length body /\ accepted (map as_og (layer_calls body)) wocs = map as_og (taken body ocs) /\
    (Forall (eq Accepted) wocs -> Forall (eq Accepted) ocs) /\
    k name = OgawaFile (file_tree version f (if globals then Some (write_meta (meta_run (settings body))) else None)) /\
    (forall x, x <> name -> k x = k0 x).
Proof.
  intros B K W. set (g := OgOut name []). set (k1 := disk_set k0 name Unfinished).
  destruct (og_body k1 g body B o_new f wocs meta_empty [] W) as (ocs & mem' & R & LN & AC & FA).
  assert (CR : f_create version true name keep k0 (fo_new (A := A)) = (k1, FOut None (Some g) o_new meta_empty [], true)).
  { unfold f_create. cbn [negb f_out_close fo_new fo_h5 og_close fo_og fo_file fo_meta fo_members]. change (o_reopen o_new) with o_new.
    destruct K as [->| ->]; cbn [andb exists_file]; rewrite ?andb_false_r; reflexivity. }
  set (o2 := FOut (A := A) None (Some (OgOut name (if globals then [(List.length (o_parts f), write_meta (settle meta_empty (settings body)))] else []))) f (settle meta_empty (settings body)) mem').
  assert (R2 : orun k1 (FOut None (Some g) f (settle meta_empty (settings body)) mem') (if globals then [OGlobals] else []) =
            Ok (k1, o2, if globals then [Accepted] else [])) by (destruct globals; reflexivity).
  exists (disk_set k1 name (OgawaFile (archive_tree version (OgOut name (if globals then [(List.length (o_parts f), write_meta (settle meta_empty (settings body)))] else [])) f))).
  eexists. exists ocs. unfold script. cbn [FrontM.orun ostep]. rewrite CR. cbn [bind as_bool]. rewrite !orun_app, R. cbn [bind].
  rewrite orun_app, R2. cbn [bind FrontM.orun ostep f_out_close o2 fo_h5 og_close fo_og fo_file go_name].
  split; [reflexivity|]. split; auto. split; auto. split; auto. split.
  - rewrite set_same. f_equal. unfold archive_tree, file_tree. cbn [go_globals]. do 2 f_equal. destruct globals; cbn [with_globals].
    + rewrite Nat.sub_0_r, firstn_all, skipn_all. reflexivity.
    + rewrite app_nil_r. reflexivity.
  - intros x N. rewrite set_other by auto. apply set_other; auto.
Qed.

Lemma h5_script k0 name keep body (globals : bool) f f' wocs : Forall body_op body -> keep = false \/ k0 name = NoFile ->
  h_writes ident map_put hp (h_create version h_new) (map as_h5 (layer_calls body)) = Ok (f, wocs) ->
  (if globals then h_globals f (meta_run (settings body)) = (f', true) else f' = f) ->
  forall root, h_root f' = Some root ->
  exists k o ocs, orun k0 fo_new (script false name keep body globals) = Ok (k, o, Accepted :: ocs ++ (if globals then [Accepted] else []) ++ [Accepted]) /\
    List.length ocs = List.length body /\ h_accepted (map as_h5 (layer_calls body)) wocs = map as_h5 (taken body ocs) /\
    (Forall (eq Accepted) wocs -> Forall (eq Accepted) ocs) /\
    k name = Hdf5File root /\ (forall x, x <> name -> k x = k0 x).
Proof.
  intros B K W G root RT. set (k1 := disk_set k0 name Unfinished).
  destruct (h5_body k1 None name o_new meta_empty [] body B _ f wocs meta_empty [] W) as (ocs & mem' & R & LN & AC & FA).
  assert (CR : f_create version false name keep k0 (fo_new (A := A)) = (k1, FOut (Some (H5Out (h_create version h_new) name meta_empty [])) None o_new meta_empty [], true)).
  { unfold f_create. cbn [negb fo_new fo_h5 fo_og fo_file fo_meta fo_members].
    destruct K as [->| ->]; cbn [andb exists_file]; rewrite ?andb_false_r; reflexivity. }
  assert (R2 : orun k1 (FOut (Some (H5Out f name (settle meta_empty (settings body)) mem')) None o_new meta_empty []) (if globals then [OGlobals] else []) =
            Ok (k1, FOut (Some (H5Out f' name (settle meta_empty (settings body)) mem')) None o_new meta_empty [], if globals then [Accepted] else [])).
  { destruct globals; [|subst; reflexivity]. cbn [FrontM.orun ostep fo_h5 ho_file ho_meta]. change (settle meta_empty (settings body)) with (meta_run (settings body)).
    rewrite G. reflexivity. }
  exists (disk_set k1 name (Hdf5File root)). eexists. exists ocs. unfold script. cbn [FrontM.orun ostep]. rewrite CR. cbn [bind as_bool]. rewrite !orun_app, R. cbn [bind].
  rewrite orun_app, R2. cbn [bind FrontM.orun ostep f_out_close fo_h5]. unfold h5_close. cbn [ho_file]. rewrite RT. cbn [bind ho_name].
  split; [reflexivity|]. split; auto. split; auto. split; auto. split; [apply set_same|].
  intros x N. rewrite set_other by auto. apply set_other; auto.
Qed.
End W.

(** * Opening what was written to an Ogawa file *)
Lemma read_meta_any m g : meta_ok m -> good_name g -> forall x, exists y, read_meta (node_group g (map written (meta_entries m))) x = Ok y /\
  forall k n, smap_find (meta_map y k) n = match look m k n with Some v => Some v | None => smap_find (meta_map x k) n end.
Proof.
  intros OK G x. unfold read_meta.
  change (node_group g (map written (meta_entries m))) with (written (EGroup g (meta_entries m))).
  pose proof (C18_names g (meta_entries m) (proj1 (entries_good m OK))) as (_ & NA & _). cbv zeta in NA. rewrite NA. cbn [bind].
  assert (FA : filter is_attr (meta_entries m) = meta_entries m).
  { assert (H : forall l, (forall e, In e l -> is_attr e = true) -> filter is_attr l = l).
    { induction l as [|e l IH]; intros H; cbn; auto. rewrite H by (left; auto). f_equal. apply IH. intros; apply H; right; auto. }
    apply H. intros e I. apply entries_in in I as (k & n & v & -> & _). reflexivity. }
  rewrite FA. destruct (read_names_eq m g OK (map e_name (meta_entries m))) with (x := x) as (y & E & F).
  { apply Forall_forall. intros n I. apply in_map_iff in I as (e & <- & I). apply entries_in in I as (k & n & v & -> & I). cbn. apply (OK k n v I). }
  exists y. split; [exact E|]. intros k n. rewrite F.
  destruct (existsb (bytes_eqb n) (map e_name (meta_entries m))) eqn:X; auto.
  rewrite <- look_entries. destruct (lookup is_attr n (meta_entries m)) as [e|] eqn:L; auto.
  exfalso. apply lookup_some in L as (I & _ & N). apply Bool.not_true_iff_false in X. apply X. apply existsb_exists.
  exists (e_name e). split; [apply in_map; auto|]. rewrite N. apply beq_refl.
Qed.

Section O.
Context {A M : Type}.
Variable ord : list bytes -> list bytes.
Variable map_get : list (bytes * aval) -> res (option M).
Variable ident : M -> M -> bool.
Variable map_kids : M -> list tree.
Variable hp : nat -> M.

Lemma version_read_og v kids : int_v3 v ->
  OgM.get_attr (node_group (str "f3droot") (node_attr (str "version_number") TVecI32 (enc_v3 v) :: kids)) (str "version_number") TVecI32 (zeros 12) = Ok (Some (enc_v3 v)).
Proof.
  intros IV. assert (LV : List.length (enc_v3 v) = 12%nat) by reflexivity.
  destruct (attr_read (str "version_number") TVecI32 (enc_v3 v) (zeros 12)) as (D & E); [apply good_str; reflexivity|auto|].
  unfold OgM.get_attr, find_typed.
  assert (F : find_group (node_group (str "f3droot") (node_attr (str "version_number") TVecI32 (enc_v3 v) :: kids)) (str "version_number") G_ATTR =
            Ok (Some (node_attr (str "version_number") TVecI32 (enc_v3 v)))) by reflexivity.
  rewrite F. cbn [bind]. rewrite D. cbn [bind].
  cbn [type_code Z.eqb Pos.eqb]. rewrite E. reflexivity.
Qed.

Lemma open_tree v f G acc fresh gm (o : fin (A := A) (M := M)) :
  inv ident map_kids hp fresh f G acc -> int_v3 v -> 0 <= vx v -> 0 <= vy v -> fi_h5 o = None -> (forall m, gm = Some m -> meta_ok m) ->
  let t := file_tree (enc_v3 v) f (option_map write_meta gm) in
  exists l y, read_info t = Ok l /\ f_open ord map_get (OgawaFile t) o = Ok (FIn None (Some t) l y, true) /\
    forall k n, smap_find (meta_map y k) n = match (match gm with Some m => look m k n | None => None end) with Some v => Some v | None => smap_find (meta_map (fi_meta o) k) n end.
Proof.
  intros V IV VX VY H MO t. pose proof (read_info_eq ident map_kids hp fresh f G acc (enc_v3 v) (option_map write_meta gm) V) as RI. fold t in RI.
  exists (map (full map_kids hp) G).
  assert (TE : t = node_group (str "f3droot") (root_kids map_kids hp G (enc_v3 v) (option_map write_meta gm))) by (eapply t_eq; eauto).
  assert (FG : find_valid t k_global = Ok (option_map (fun m => node_group k_global (write_meta m)) gm)).
  { rewrite TE. rewrite find_valid_nodes; [|apply good_str; reflexivity|eapply root_ok; eauto|apply has_slash_iff; reflexivity].
    f_equal. unfold root_kids. cbn [find]. unfold is_named at 1. rewrite (proj2 (FileP.version_ok (enc_v3 v))).
    assert (NG : forall y, In y (map (fun g => node_group (g_name g) (p_kids (part_of map_kids hp g))) G) -> is_named k_global y = false).
    { intros y Iy. apply in_map_iff in Iy as (g & <- & Ig). rewrite named_group by (eapply g_good; eauto). apply beq_neq. apply global_no_dot. }
    destruct gm as [m|]; cbn [option_map].
    - apply find_first; [exact NG|]. rewrite named_group by apply global_good. apply beq_refl.
    - rewrite app_nil_r. clear -NG. induction (map _ G) as [|x l IH]; auto. cbn [find]. rewrite NG by (left; auto). apply IH. intros; apply NG; right; auto. }
  assert (RM : exists y, match (option_map (fun m => node_group k_global (write_meta m)) gm) with Some g => read_meta g (fi_meta o) | None => Ok (fi_meta o) end = Ok y /\
    forall k n, smap_find (meta_map y k) n = match (match gm with Some m => look m k n | None => None end) with Some v => Some v | None => smap_find (meta_map (fi_meta o) k) n end).
  { destruct gm as [m|]; cbn [option_map]; [|exists (fi_meta o); auto]. rewrite write_meta_eq. apply read_meta_any; auto. apply global_good. }
  destruct RM as (y & RM & LK). exists y. split; [exact RI|]. split; [|exact LK].
  unfold FrontM.f_open, f_clear. rewrite H. cbn [fi_h5 fi_root fi_parts fi_meta].
  assert (VT : validate t = true) by (rewrite TE; reflexivity). rewrite VT.
  assert (VR : OgM.get_attr t (str "version_number") TVecI32 (zeros 12) = Ok (Some (enc_v3 v))) by (rewrite TE; apply version_read_og; auto).
  rewrite VR. cbn [bind].
  pose proof (dec_v3_enc v IV) as D. unfold dec_v3 in D.
  assert (D1 : dec_i32 (firstn 4 (enc_v3 v)) = vx v) by (rewrite <- D at 2; reflexivity).
  assert (D2 : dec_i32 (firstn 4 (skipn 4 (enc_v3 v))) = vy v) by (rewrite <- D at 2; reflexivity).
  rewrite D1, D2. rewrite supported_ok by auto. cbn [negb]. rewrite FG. cbn [bind f_metadata fi_h5 fi_meta]. rewrite RM. cbn [bind f_set_metadata fi_h5 fi_root fi_parts fi_meta].
  rewrite RI. reflexivity.
Qed.
End O.

(** * Metadata *)
Lemma last_in h n k v : last_set h k n = Some v -> exists a, In a h /\ ms_name a = n /\ ms_kind a = k.
Proof.
  unfold last_set. revert v. induction h as [|s r IH] using rev_ind; intros v; [discriminate|].
  rewrite fold_left_app. cbn [fold_left].
  assert (W : forall v, fold_left (fun acc s => if kind_eqb (ms_kind s) k && bytes_eqb (ms_name s) n then Some (ms_value s) else acc) r None = Some v ->
    exists a, In a (r ++ [s]) /\ ms_name a = n /\ ms_kind a = k).
  { intros v' E. destruct (IH v' E) as (a & A & B). exists a. rewrite in_app_iff. auto. }
  destruct (kind_eqb_spec (ms_kind s) k) as [Ek|]; cbn [andb]; [|apply W].
  destruct (bytes_eqb_spec (ms_name s) n); [|apply W]. intros. exists s. rewrite in_app_iff. split; [right; left|]; auto.
Qed.
Lemma look_run h k n : one_type h -> look (meta_run h) k n = last_set h k n.
Proof.
  intros U.
  assert (LS : forall k, smap_find (meta_map (meta_run h) k) n = last_set h k n).
  { intros j. unfold meta_run, last_set. rewrite run_find. f_equal. destruct j; reflexivity. }
  unfold look. rewrite LS. destruct (existsb _ (before k)) eqn:X; auto. destruct (last_set h k n) as [v|] eqn:E; auto.
  exfalso. apply existsb_exists in X as (k' & Ik & X). rewrite LS in X. destruct (last_set h k' n) as [v'|] eqn:E'; [|discriminate].
  destruct (last_in h n k v E) as (a & Ia & Na & Ka), (last_in h n k' v' E') as (b & Ib & Nb & Kb).
  assert (k = k') as <- by (rewrite <- Ka, <- Kb; apply U; congruence). destruct k; cbn in Ik; intuition discriminate.
Qed.

(** * The same file to its readers *)
Lemma perm_map_filter {B C} (g : B -> C) p q l source : (forall x, p (g x) = q x) -> Permutation source (filter p (map g l)) ->
  exists s, source = map g s /\ Permutation s (filter q l).
Proof.
  intros E P. assert (X : filter p (map g l) = map g (filter q l)).
  { clear -E. induction l as [|x l IH]; auto. cbn [map filter]. rewrite E, IH. destruct (q x); reflexivity. }
  rewrite X in P. apply Permutation_map_inv in P as (s & -> & P). exists s. split; auto using Permutation_sym.
Qed.
Lemma Forall2_maps {B B' C C'} (R : B' -> C' -> Prop) (f : B -> B') (g : C -> C') l m : Forall2 R (map f l) (map g m) <-> Forall2 (fun x y => R (f x) (g y)) l m.
Proof.
  split; revert m.
  - induction l as [|x l IH]; intros [|y m] H; inversion H; subst; constructor; auto.
  - induction l as [|x l IH]; intros [|y m] H; inversion H; subst; constructor; auto.
Qed.
Lemma Forall2_lift {B C D} (R : B -> C -> Prop) (R' : D -> C -> Prop) (f : B -> D) l m : (forall x y, R x y -> R' (f x) y) -> Forall2 R l m -> Forall2 R' (map f l) m.
Proof. induction 2; constructor; auto. Qed.
Lemma forall_calls {A} {B} (P : B -> Prop) (Q : fcall (A := A) -> Prop) (g : fcall (A := A) -> B) l : (forall c, Q c -> P (g c)) -> Forall Q l -> Forall P (map g l).
Proof. intros H F. apply Forall_forall. intros x I. apply in_map_iff in I as (c & <- & I). apply H. apply (proj1 (Forall_forall _ _) F); auto. Qed.
