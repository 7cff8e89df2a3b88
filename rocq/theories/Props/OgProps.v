(** C18: names, attributes and datasets in a file. *)
From Coq Require Import ZArith List Bool Lia Arith.
From Verif Require Import Model.Base Model.OgawaM Spec.OgawaSpec Model.OgM Spec.OgSpec Proof.OgP.
Import ListNotations.
Open Scope Z_scope.

(** Looking an attribute up by name and type in a group with any number of entries of any
    kind gives the value of the first attribute of that name if it has that type, and
    nothing otherwise. *)
Theorem C18_find_attribute : forall g entries name ty dflt,
  Forall (fun e => good_name (e_name e)) entries -> ~ In 47 name ->
  (forall n ty' v, In (EAttr n ty' v) entries -> value_ok ty' v) ->
  get_attr (written (EGroup g entries)) name ty dflt =
  Ok (match lookup is_attr name entries with
      | Some (EAttr _ ty' v) => if type_code ty' =? type_code ty then Some v else None
      | _ => None
      end).
Proof.
  intros g l name ty dflt H P V. unfold get_attr, find_typed. cbn [written].
  rewrite find_group_written by auto. cbn [bind]. rewrite (lookup_kind is_attr G_ATTR) by apply kind_attr.
  destruct (lookup (kind_is G_ATTR) name l) as [e|] eqn:L; cbn [option_map bind]; auto.
  destruct (lookup_some _ _ _ _ L) as (I & K & N). destruct e as [n ty' v| | |]; try discriminate K.
  assert (GN : good_name n) by (apply (proj1 (Forall_forall _ _) H) in I; auto).
  pose proof (V n ty' v I) as VO.
  destruct (attr_read n ty' v dflt GN) as (D & A); [intros NT; destruct ty'; auto; congruence|].
  cbn [written]. rewrite D. cbn [bind]. destruct (type_code ty' =? type_code ty) eqn:E; auto.
  apply ogtype_eqb_code in E as <-. rewrite A. cbn [bind]. do 2 f_equal.
  destruct ty'; auto. cbn. apply cstr_id; auto.
Qed.
Print Assumptions C18_find_attribute.

(** A string attribute reads back as itself exactly when it has no NUL; the empty string
    does too. *)
Theorem C18_string_exact : forall g entries name v,
  Forall (fun e => good_name (e_name e)) entries -> ~ In 47 name ->
  lookup is_attr name entries = Some (EAttr name TString v) ->
  (get_attr (written (EGroup g entries)) name TString [] = Ok (Some v) <-> ~ In 0 v).
Proof.
  intros g l name v H P L. unfold get_attr, find_typed. cbn [written].
  rewrite find_group_written by auto. cbn [bind]. rewrite <- (lookup_kind is_attr G_ATTR), L by apply kind_attr.
  cbn [option_map bind]. destruct (lookup_some _ _ _ _ L) as (I & _ & _).
  assert (GN : good_name name) by (apply (proj1 (Forall_forall _ _) H) in I; auto).
  destruct (attr_read name TString v [] GN) as (D & A); [congruence|]. cbn [written]. rewrite D. cbn [bind].
  rewrite Z.eqb_refl, A. cbn [bind reads_back]. rewrite <- cstr_iff. split; congruence.
Qed.
Print Assumptions C18_string_exact.

(** The recorded type. *)
Theorem C18_attribute_type : forall g entries name,
  Forall (fun e => good_name (e_name e)) entries -> ~ In 47 name ->
  (forall n ty' v, In (EAttr n ty' v) entries -> value_ok ty' v) ->
  attribute_type (written (EGroup g entries)) name =
  Ok (match lookup is_attr name entries with Some (EAttr _ ty v) => type_code ty | _ => 127 end).
Proof.
  intros g l name H P V. unfold attribute_type. cbn [written].
  rewrite find_group_written by auto. cbn [bind]. rewrite (lookup_kind is_attr G_ATTR) by apply kind_attr.
  destruct (lookup (kind_is G_ATTR) name l) as [e|] eqn:L; cbn [option_map bind]; auto.
  destruct (lookup_some _ _ _ _ L) as (I & K & N). destruct e as [n ty' v| | |]; try discriminate K.
  assert (GN : good_name n) by (apply (proj1 (Forall_forall _ _) H) in I; auto).
  destruct (attr_read n ty' v [] GN) as (D & _); [intros NT; pose proof (V n ty' v I); destruct ty'; auto; congruence|].
  cbn [written]. rewrite D. unfold node_attr. rewrite (wdata_ne n) by apply GN. cbn [t_kids app]. rewrite !wdata_enc32. reflexivity.
Qed.
Print Assumptions C18_attribute_type.

(** A dataset, plain or compressed: found by name and type with the same elements. *)
Theorem C18_find_dataset : forall g entries name ty (compressed : bool),
  Forall (fun e => good_name (e_name e)) entries -> ~ In 47 name ->
  let found := lookup (if compressed then is_cdata else is_data) name entries in
  exists r, find_typed (written (EGroup g entries)) name (if compressed then G_CDATASET else G_DATASET) ty = Ok r /\
  match found with
  | Some (EData _ ty' elems) | Some (ECData _ ty' elems) =>
      if type_code ty' =? type_code ty
      then exists d, r = Some d /\ (Forall (fun b => b <> []) elems ->
             ds_num d = Z.of_nat (length elems) /\ forall i, ds_get d i = nth_error elems i)
      else r = None
  | _ => r = None
  end.
Proof.
  intros g l name ty c H P found. unfold find_typed. cbn [written]. rewrite find_group_written by auto. cbn [bind].
  set (gt := if c then G_CDATASET else G_DATASET).
  assert (F : found = lookup (kind_is gt) name l).
  { unfold found, gt. destruct c; apply lookup_kind; [apply kind_cdata|apply kind_data]. }
  rewrite F. destruct (lookup (kind_is gt) name l) as [e|] eqn:L; cbn [option_map bind]; [|eexists; split; reflexivity].
  destruct (lookup_some _ _ _ _ L) as (I & K & N).
  assert (GN : good_name (e_name e)) by (apply (proj1 (Forall_forall _ _) H) in I; auto).
  destruct e as [n ty' v|n kids|n ty' el|n ty' el]; try (exfalso; unfold gt in K; destruct c; discriminate K); cbn [written e_name] in *.
  - destruct (dataset_read G_DATASET n ty' el GN) as (D & A). rewrite D. cbn [bind].
    destruct (type_code ty' =? type_code ty); eexists; split; eauto.
  - destruct (dataset_read G_CDATASET n ty' el GN) as (D & A). rewrite D. cbn [bind].
    destruct (type_code ty' =? type_code ty); eexists; split; eauto.
Qed.
Print Assumptions C18_find_dataset.

(** Listing names. *)
Theorem C18_names : forall g entries,
  Forall (fun e => good_name (e_name e)) entries ->
  let t := written (EGroup g entries) in
  group_names t G_GROUP = Ok (map e_name (filter is_group entries)) /\
  group_names t G_ATTR = Ok (map e_name (filter is_attr entries)) /\
  group_names t G_DATASET = Ok (map e_name (filter is_data entries)) /\
  group_names t G_CDATASET = Ok (map e_name (filter is_cdata entries)).
Proof.
  intros g l H t. unfold t. cbn [written]. rewrite !group_names_written by auto.
  assert (E : forall p q, (forall e, p e = q e) -> filter p l = filter q l).
  { intros p q HPQ. induction l as [|e l IH]; simpl; auto. inversion H; subst. rewrite HPQ, IH; auto. }
  rewrite (E (kind_is G_GROUP) is_group), (E (kind_is G_ATTR) is_attr), (E (kind_is G_DATASET) is_data), (E (kind_is G_CDATASET) is_cdata);
    auto; intros; symmetry; auto using kind_group, kind_attr, kind_data, kind_cdata.
Qed.
Print Assumptions C18_names.

(** A '/'-separated path descends through the named groups. *)
Fixpoint at_path (groups : list bytes) (kind : entry -> bool) (name : bytes) (l : list entry) : option entry :=
  match groups with
  | [] => lookup kind name l
  | c :: r => match lookup is_group c l with Some (EGroup _ kids) => at_path r kind name kids | _ => None end
  end.
Definition path_of (groups : list bytes) (name : bytes) : bytes := fold_right (fun c p => c ++ [47] ++ p) name groups.

Theorem C18_find_by_path : forall g entries groups name,
  names_ok entries -> Forall (fun n => ~ In 47 n) groups -> ~ In 47 name ->
  find_group (written (EGroup g entries)) (path_of groups name) G_GROUP = Ok (option_map written (at_path groups is_group name entries)) /\
  find_group (written (EGroup g entries)) (path_of groups name) G_ATTR = Ok (option_map written (at_path groups is_attr name entries)).
Proof.
  intros g l groups name H P1 P2. cbn [written].
  assert (J : path_of groups name = join groups name) by (induction groups; simpl; auto; inversion P1; subst; rewrite IHgroups; auto).
  assert (R : forall kind gt, (forall e, kind e = kind_is gt e) -> forall l, at_path groups kind name l = resolve groups name gt l).
  { intros kind gt K. clear -K. induction groups as [|c r IH]; intros l; simpl; [apply lookup_kind; auto|].
    destruct (lookup is_group c l) as [[]|]; auto. }
  rewrite J. split; rewrite find_path by auto; do 2 f_equal; symmetry; apply R; auto using kind_group, kind_attr.
Qed.
Print Assumptions C18_find_by_path.

(** A group with two attributes, a nested group, a dataset and a compressed dataset. *)
Definition ex_entries : list entry :=
  [EAttr [110] TInt32 [1; 2; 3; 4]; EGroup [103] [EAttr [110] TString [104; 105]; EAttr [101] TString []];
   EData [100] TUint8 [[7]; [8; 9]]; EAttr [110] TFloat32 [0; 0; 0; 0]; ECData [100] TInt32 [[5]]; EAttr [115] TString []].
Example C18_example_hyps : Forall (fun e => good_name (e_name e)) ex_entries /\ names_ok ex_entries /\
  (forall n ty v, In (EAttr n ty v) ex_entries -> value_ok ty v).
Proof.
  assert (G : forall x, x <> 0 -> good_name [x]) by (intros x N; split; [discriminate|intros [E|[]]; lia]).
  split; [|split].
  - repeat constructor; try discriminate; intros [E|[]]; discriminate E.
  - repeat (apply names_cons || apply names_nil); cbn; try (apply G; lia); try discriminate.
    intros n kids [= <- <-]. repeat (apply names_cons || apply names_nil); cbn; try (apply G; lia); discriminate.
  - intros n ty v H. simpl in H. repeat (destruct H as [H|H]; [inversion H; subst; reflexivity || (cbn; tauto)|]). destruct H.
Qed.
Example C18_example : let t := written (EGroup [114] ex_entries) in
  get_attr t [110] TInt32 [] = Ok (Some [1; 2; 3; 4]) /\   (* the first "n" wins *)
  get_attr t [110] TFloat32 [] = Ok None /\
  get_attr t [115] TString [] = Ok (Some []) /\
  group_names t G_ATTR = Ok [[110]; [110]; [115]] /\
  get_attr t [103; 47; 110] TString [] = Ok (Some [104; 105]).   (* "g/n" *)
Proof. vm_compute. repeat split; reflexivity. Qed.

(** An attribute name with '/' is accepted and then cannot be found by that name. *)
Theorem C18_slash_in_name_refuted : exists name v,
  good_name name /\ value_ok TInt32 v /\
  get_attr (written (EGroup [103] [EAttr name TInt32 v])) name TInt32 [] = Ok None.
Proof.
  exists [97; 47; 98], [1; 0; 0; 0]. split; [split; [discriminate|simpl; lia]|]. split; reflexivity.
Qed.
Print Assumptions C18_slash_in_name_refuted.

(** An attribute with an empty name hides every attribute written after it. *)
Theorem C18_empty_name_refuted : forall ty v l name,
  get_attr (written (EGroup [103] (EAttr [] ty v :: l))) name TInt32 [] = Ok None \/ In 47 name.
Proof.
  intros ty v l name. destruct (in_dec Z.eq_dec 47 name) as [I|P]; [right; auto|left].
  unfold get_attr, find_typed, find_group. rewrite split_plain by auto. cbn [app find_comps written].
  rewrite (group_loop (find_loop name G_ATTR)) by auto. reflexivity.
Qed.
Print Assumptions C18_empty_name_refuted.
