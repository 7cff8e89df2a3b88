From Coq Require Import ZArith List Bool String Lia.
From Verif Require Import Model.Base Model.FieldM Model.OgawaM Spec.OgawaSpec Model.OgM Spec.OgSpec Proof.OgP Props.OgProps
  Model.FieldIOM Spec.FieldIOSpec Proof.FieldIOP Proof.FieldIOP2 Model.FileM Proof.FileP Model.MipIOM Spec.MipIOSpec.
Import ListNotations.
Open Scope Z_scope.

Lemma size_span b : box_size b = V3 (span b vx) (span b vy) (span b vz).
Proof. unfold box_size, span, v3_sub. destruct (box_empty b); reflexivity. Qed.
Lemma shrinking_ok l : forall prev, shrinking (box_size prev) l = true <-> smaller_each prev l.
Proof.
  induction l as [|b l IH]; intros prev; cbn [shrinking smaller_each]; [tauto|].
  rewrite <- IH.
  assert (A : (forall c, In c [vx; vy; vz] -> span b c <= span prev c) <->
    ((vx (box_size prev) <? vx (box_size b)) || (vy (box_size prev) <? vy (box_size b)) || (vz (box_size prev) <? vz (box_size b))) = false).
  { rewrite !size_span; cbn [vx vy vz]. rewrite !orb_false_iff, !Z.ltb_ge. split.
    - intros H. repeat split; apply H; cbn; auto.
    - intros ((X & Y) & Z0) c [<-|[<-|[<-|[]]]]; auto. }
  assert (B : (exists c, In c [vx; vy; vz] /\ span b c < span prev c) <->
    ((vx (box_size prev) <=? vx (box_size b)) && (vy (box_size prev) <=? vy (box_size b)) && (vz (box_size prev) <=? vz (box_size b))) = false).
  { rewrite !size_span; cbn [vx vy vz]. rewrite !andb_false_iff, !Z.leb_gt. split.
    - intros (c & [<-|[<-|[<-|[]]]] & H); auto.
    - intros [[H|H]|H]; [exists vx|exists vy|exists vz]; cbn; auto. }
  rewrite A, B.
  destruct ((vx (box_size prev) <? vx (box_size b)) || (vy (box_size prev) <? vy (box_size b)) || (vz (box_size prev) <? vz (box_size b)));
    [intuition discriminate|].
  destruct ((vx (box_size prev) <=? vx (box_size b)) && (vy (box_size prev) <=? vy (box_size b)) && (vz (box_size prev) <=? vz (box_size b)));
    intuition discriminate.
Qed.
Lemma sane_ok l : sane l = true <-> levels_ok l.
Proof. destruct l; cbn [sane levels_ok]; [intuition discriminate|apply shrinking_ok]. Qed.

(** * Finding groups *)
Lemma find_loop_skip name gt l r : Forall (fun e => good_name (e_name e)) l -> lookup (kind_is gt) name l = None ->
  find_loop name gt (map written l ++ r) = find_loop name gt r.
Proof.
  induction 1 as [|e l G F IH]; auto. unfold lookup. cbn [find map app].
  destruct (kind_is gt e && bytes_eqb (e_name e) name) eqn:K; [discriminate|]. intros L.
  destruct (written_shape e G) as (rest & E). rewrite E. cbn [find_loop]. unfold read_string, read_data, get_data. cbn [t_kids nth_error].
  rewrite enc32_length, cstr_id by apply G. cbn [Nat.eqb bind].
  pose proof (kind_range e). rewrite dec_enc32 by lia.
  unfold kind_is in K. destruct (kind_code e =? gt); cbn [negb andb] in *; [rewrite K|]; auto.
Qed.
Lemma find_loop_here name gt kids rest : good_name name -> gt = G_GROUP ->
  find_loop name gt (node_group name kids :: rest) = Ok (Some (node_group name kids)).
Proof.
  intros G ->. unfold node_group at 1. rewrite (wdata_ne name), wdata_enc32 by apply G. cbn [app find_loop].
  unfold read_string, read_data, get_data. cbn [t_kids nth_error]. rewrite enc32_length, cstr_id by apply G. cbn [Nat.eqb bind].
  rewrite dec_enc32 by (unfold G_GROUP; lia). rewrite Z.eqb_refl. cbn [negb].
  destruct (bytes_eqb_spec name name); [|congruence]. unfold node_group. rewrite (wdata_ne name), wdata_enc32 by apply G. reflexivity.
Qed.
Lemma fresh_lookup n l : fresh_group n l -> lookup (kind_is G_GROUP) n l = None.
Proof.
  intros [_ H]. destruct (lookup (kind_is G_GROUP) n l) as [e|] eqn:L; auto. exfalso.
  destruct (lookup_some _ _ _ _ L) as (I & K & N). destruct e; try (cbv in K; discriminate). cbn in N. subst. eapply H; eauto.
Qed.
Lemma valid_node n kids : good_name n -> validate (node_group n kids) = true.
Proof. intros G. unfold node_group. rewrite (wdata_ne n), wdata_enc32 by apply G. reflexivity. Qed.
Lemma find_comps_cons rn name kids l rest r gt : good_name name -> rest <> [] -> fresh_group name l ->
  find_comps (node_group rn (map written l ++ node_group name kids :: r)) (name :: rest) gt = find_comps (node_group name kids) rest gt.
Proof.
  intros G NE F. destruct rest as [|a rest]; [congruence|]. cbn [find_comps].
  rewrite (group_loop (find_loop name G_GROUP)) by auto.
  rewrite find_loop_skip by (apply F || now apply fresh_lookup). rewrite find_loop_here by auto. cbn [bind].
  rewrite valid_node by auto. reflexivity.
Qed.
Lemma find_comps_last rn name kids l r : good_name name -> fresh_group name l ->
  find_comps (node_group rn (map written l ++ node_group name kids :: r)) [name] G_GROUP = Ok (Some (node_group name kids)).
Proof.
  intros G F. cbn [find_comps]. rewrite (group_loop (find_loop name G_GROUP)) by auto.
  rewrite find_loop_skip by (apply F || now apply fresh_lookup). apply find_loop_here; auto.
Qed.

(** * Names of levels *)
Lemma level_name_inj i j : level_name i = level_name j -> i = j.
Proof. unfold level_name. intros H. apply app_inv_head in H. apply int_name_inj; auto. Qed.
Lemma level_name_good i : good_name (level_name i) /\ ~ In 47 (level_name i).
Proof.
  assert (D : forall c, In c (level_name i) -> In c (str "level.") \/ 48 <= c < 58).
  { intros c I. unfold level_name in I. apply in_app_or in I as [I|I]; auto. right. eapply int_name_digits; eauto. }
  split; [split|].
  - unfold level_name. cbn. discriminate.
  - intros I. apply D in I as [I|I]; [cbn in I|]; lia.
  - intros I. apply D in I as [I|I]; [cbn in I|]; lia.
Qed.

Section IO.
Context {F : Type}.
Variables (ext dw : F -> box) (kind : base_kind) (wr : nat -> F -> res (list tree)) (ty : ogtype) (dims bits : Z).
Variable core : nat -> F -> list entry.

(** What is needed of the format of a level. *)
Record level_stored (i : nat) (f : F) : Prop := {
  ls_wr : wr i f = Ok (map written (core i f));
  ls_ok : entries_ok (core i f);
  ls_emin : lookup is_attr (str "extents_min") (core i f) = Some (EAttr (str "extents_min") TVecI32 (enc_v3 (bmin (ext f))));
  ls_emax : lookup is_attr (str "extents_max") (core i f) = Some (EAttr (str "extents_max") TVecI32 (enc_v3 (bmax (ext f))));
  ls_dmin : lookup is_attr (str "data_window_min") (core i f) = Some (EAttr (str "data_window_min") TVecI32 (enc_v3 (bmin (dw f))));
  ls_dmax : lookup is_attr (str "data_window_max") (core i f) = Some (EAttr (str "data_window_max") TVecI32 (enc_v3 (bmax (dw f))));
  ls_ext : int_corners (ext f);
  ls_dw : int_corners (dw f) }.

Fixpoint level_entries (i : nat) (l : list F) : list entry :=
  match l with [] => [] | f :: r => EGroup (level_name i) (core i f) :: level_entries (S i) r end.
Definition mips_kids (l : list F) : list entry :=
  EAttr (str "levels") TUint32 (enc32 (Z.of_nat (List.length l))) :: level_entries 0 l.
Definition mip_core (e d : box) (l : list F) : list entry :=
  [ EAttr (str "version") TInt32 (enc32 1);
    EAttr (str "extents_min") TVecI32 (enc_v3 (bmin e));
    EAttr (str "extents_max") TVecI32 (enc_v3 (bmax e));
    EAttr (str "data_window_min") TVecI32 (enc_v3 (bmin d));
    EAttr (str "data_window_max") TVecI32 (enc_v3 (bmax d));
    EAttr (str "components") TUint8 (enc8 dims);
    EAttr (str "bits_per_component") TUint8 (enc8 bits);
    EAttr (str "base_type") TString (class_of kind);
    EData (str "dummy_data") ty [];
    EGroup (str "mip_levels") (mips_kids l) ].

Variable levels : list F.
Hypothesis stored : forall i f, nth_error levels i = Some f -> level_stored i f.
Hypothesis small : Z.of_nat (List.length levels) < 2 ^ 31.

Lemma level_groups_eq : forall r p, levels = p ++ r ->
  level_groups wr (List.length p) (List.length r) levels = Ok (map written (level_entries (List.length p) r)).
Proof.
  induction r as [|f r IH]; intros p E; [reflexivity|]. cbn [List.length level_groups].
  assert (N : nth_error levels (List.length p) = Some f).
  { rewrite E, nth_error_app2 by auto. rewrite Nat.sub_diag. reflexivity. }
  rewrite N, (ls_wr _ _ (stored _ _ N)). cbn [bind].
  specialize (IH (p ++ [f])). rewrite app_length in IH. cbn [List.length] in IH. rewrite Nat.add_1_r in IH.
  rewrite IH by (rewrite E, <- app_assoc; reflexivity). reflexivity.
Qed.
Lemma mip_layer_eq e d : mip_layer kind wr ty dims bits (MipField e d (List.length levels) levels) = Ok (map written (mip_core e d levels)).
Proof.
  unfold mip_layer. cbn [mi_num mi_levels mi_ext mi_dw]. change 0%nat with (List.length (@nil F)). rewrite (level_groups_eq levels []) by reflexivity. reflexivity.
Qed.

Lemma level_entries_lookup : forall l i j, lookup (kind_is G_GROUP) (level_name (i + j)) (level_entries i l) =
  option_map (fun f => EGroup (level_name (i + j)) (core (i + j) f)) (nth_error l j).
Proof.
  induction l as [|f l IH]; intros i j; [destruct j; reflexivity|]. unfold lookup. cbn [level_entries find e_name].
  replace (kind_is G_GROUP (EGroup (level_name i) (core i f))) with true by reflexivity. cbn [andb].
  destruct j as [|j].
  - rewrite Nat.add_0_r. destruct (bytes_eqb_spec (level_name i) (level_name i)); [reflexivity|congruence].
  - destruct (bytes_eqb_spec (level_name i) (level_name (i + S j))) as [E|E]; [apply level_name_inj in E; lia|].
    cbn [nth_error]. rewrite <- Nat.add_succ_comm. apply IH.
Qed.
Lemma level_entries_in : forall l i e, In e (level_entries i l) -> exists j c, e = EGroup (level_name j) c.
Proof. induction l as [|f l IH]; intros i e []; subst; eauto. Qed.
Lemma mips_ok l : entries_ok (mips_kids l).
Proof.
  split.
  - constructor; [apply plainb_ok; reflexivity|]. apply Forall_forall. intros e I. apply level_entries_in in I as (j & c & ->).
    apply level_name_good.
  - intros n t v [E|I]; [injection E as <- <- <-; reflexivity|]. apply level_entries_in in I as (j & c & E). discriminate.
Qed.
Lemma mips_lookup i : lookup (kind_is G_GROUP) (level_name i) (mips_kids levels) =
  option_map (fun f => EGroup (level_name i) (core i f)) (nth_error levels i).
Proof. change (lookup (kind_is G_GROUP) (level_name i) (mips_kids levels)) with (lookup (kind_is G_GROUP) (level_name (0 + i)) (level_entries 0 levels)). apply (level_entries_lookup levels 0 i). Qed.
Definition mips_tree := node_group (str "mip_levels") (map written (mips_kids levels)).
Lemma mips_find i f : nth_error levels i = Some f ->
  find_group mips_tree (level_name i) G_GROUP = Ok (Some (node_group (level_name i) (map written (core i f)))).
Proof.
  intros N. unfold mips_tree. rewrite find_group_written; [|apply mips_ok|apply level_name_good].
  rewrite mips_lookup, N. reflexivity.
Qed.
Lemma mips_sub i f : nth_error levels i = Some f ->
  sub_group mips_tree (level_name i) = Ok (Some (node_group (level_name i) (map written (core i f)))).
Proof.
  intros N. unfold sub_group. rewrite (mips_find i f N). cbn [bind]. rewrite valid_node by apply level_name_good. reflexivity.
Qed.
Lemma attr_of g l n t v : entries_ok l -> plainb n = true -> lookup is_attr n l = Some (EAttr n t v) ->
  need_attr (node_group g (map written l)) n t = Ok v.
Proof.
  intros O P L. unfold need_attr. change (node_group g (map written l)) with (written (EGroup g l)).
  rewrite C18_find_attribute; [|apply O|apply plainb_ok; auto|apply O]. rewrite L, Z.eqb_refl. reflexivity.
Qed.
Lemma box_eta b : Box (bmin b) (bmax b) = b. Proof. destruct b; reflexivity. Qed.
Lemma proxies_eq : forall r p, levels = p ++ r ->
  read_proxies mips_tree (List.length p) (List.length r) = Ok (map (fun f => (ext f, dw f)) r).
Proof.
  induction r as [|f r IH]; intros p E; [reflexivity|]. cbn [List.length read_proxies map].
  assert (N : nth_error levels (List.length p) = Some f).
  { rewrite E, nth_error_app2 by auto. rewrite Nat.sub_diag. reflexivity. }
  rewrite (mips_sub _ _ N). cbn [bind]. pose proof (stored _ _ N) as [_ O L1 L2 L3 L4 IE ID].
  rewrite (attr_of (level_name (List.length p)) _ _ _ _ O (eq_refl : plainb (str "extents_min") = true) L1).
  rewrite (attr_of (level_name (List.length p)) _ _ _ _ O (eq_refl : plainb (str "extents_max") = true) L2).
  rewrite (attr_of (level_name (List.length p)) _ _ _ _ O (eq_refl : plainb (str "data_window_min") = true) L3).
  rewrite (attr_of (level_name (List.length p)) _ _ _ _ O (eq_refl : plainb (str "data_window_max") = true) L4).
  cbn [bind]. rewrite !dec_v3_enc by apply IE || apply ID. rewrite !box_eta.
  specialize (IH (p ++ [f])). rewrite app_length in IH. cbn [List.length] in IH. rewrite Nat.add_1_r in IH.
  rewrite IH by (rewrite E, <- app_assoc; reflexivity). reflexivity.
Qed.

(** * The layer's group *)
Variables (g : bytes) (pre post : list entry) (e d : box).
Hypothesis pre_ok : entries_ok pre.
Hypothesis post_ok : entries_ok post.
Hypothesis pre_free : unrelated_mip pre.
Let all_ := pre ++ mip_core e d levels ++ post.
Let t := layer_group g pre (map written (mip_core e d levels)) post.
Lemma t_eq : t = node_group g (map written all_).
Proof. unfold t, layer_group, all_. now rewrite !map_app. Qed.
Lemma core_entries_ok : entries_ok (mip_core e d levels).
Proof.
  split.
  - unfold mip_core. repeat (constructor; [apply plainb_ok; reflexivity|]). constructor.
  - intros n t0 v I. cbn in I. decompose [or] I; try contradiction; try discriminate;
      match goal with H : EAttr _ _ _ = EAttr _ _ _ |- _ => injection H as <- <- <- end; try reflexivity.
    cbn [value_ok]. destruct kind; apply plainb_ok; reflexivity.
Qed.
Lemma all_entries_ok : entries_ok all_.
Proof. apply entries_app; auto. apply entries_app; auto. apply core_entries_ok. Qed.
Lemma lookup_mip k n x : In n mip_names -> lookup k n (mip_core e d levels) = Some x -> lookup k n all_ = Some x.
Proof.
  intros I L. unfold all_. rewrite lookup_app, lookup_none, lookup_app, L; auto.
  intros e' I' EN. apply (proj1 (Forall_forall _ _) pre_free _ I'). now rewrite EN.
Qed.
Lemma mip_attr n t0 v : In n mip_names -> plainb n = true -> lookup is_attr n (mip_core e d levels) = Some (EAttr n t0 v) -> need_attr t n t0 = Ok v.
Proof. intros I P L. rewrite t_eq. apply attr_of; auto; [apply all_entries_ok|apply lookup_mip; auto]. Qed.
Lemma mip_dtype : dataset_type t (str "dummy_data") G_DATASET = Ok (type_code ty).
Proof.
  assert (GN : good_name (str "dummy_data") /\ ~ In 47 (str "dummy_data")) by (apply plainb_ok; reflexivity).
  unfold dataset_type. rewrite t_eq, find_group_written; [|apply all_entries_ok|apply GN].
  rewrite <- (lookup_kind is_data) by apply kind_data. rewrite (lookup_mip is_data _ (EData (str "dummy_data") ty [])); [|cbn; tauto|reflexivity].
  cbn [option_map written bind]. destruct (dataset_read G_DATASET (str "dummy_data") ty [] (proj1 GN)) as [D _]. rewrite D. reflexivity.
Qed.
Lemma mip_sub : sub_group t (str "mip_levels") = Ok (Some mips_tree).
Proof.
  assert (GN : good_name (str "mip_levels") /\ ~ In 47 (str "mip_levels")) by (apply plainb_ok; reflexivity).
  unfold sub_group. rewrite t_eq, find_group_written; [|apply all_entries_ok|apply GN].
  rewrite <- (lookup_kind is_group) by apply kind_group.
  rewrite (lookup_mip is_group _ (EGroup (str "mip_levels") (mips_kids levels))); [|cbn; tauto|reflexivity].
  cbn [option_map written bind]. rewrite valid_node by apply GN. reflexivity.
Qed.
Lemma mip_head ty' : mip_read ty' t =
  (if negb (type_code ty' =? type_code ty) || negb (mip_type ty') then Ok None else
   if negb (sane (map ext levels)) then Exn else
   match levels with [] => Exn | f :: _ => Ok (Some (MipProxy kind (ext f) (dw f) (map (fun f => (ext f, dw f)) levels))) end).
Proof.
  unfold mip_read. rewrite (mip_attr (str "version") _ (enc32 1)); [|cbn; tauto|reflexivity|reflexivity]. cbn [bind].
  rewrite dec_i32_enc by reflexivity. cbn [negb Z.eqb Pos.eqb].
  rewrite (mip_attr (str "components") _ (enc8 dims)); [|cbn; tauto|reflexivity|reflexivity]. cbn [bind].
  rewrite (mip_attr (str "base_type") _ (class_of kind)); [|cbn; tauto|reflexivity|reflexivity]. cbn [bind].
  rewrite mip_dtype. cbn [bind]. destruct (negb (type_code ty' =? type_code ty) || negb (mip_type ty')); auto.
  replace (if bytes_eqb (class_of kind) (class_of BSparse) then Some BSparse else if bytes_eqb (class_of kind) (class_of BDense) then Some BDense else None)
    with (Some kind) by (destruct kind; reflexivity).
  rewrite mip_sub. cbn [bind]. unfold mips_tree at 1. rewrite (attr_of _ _ (str "levels") TUint32 (enc32 (Z.of_nat (List.length levels))) (mips_ok levels)); [|reflexivity|reflexivity]. cbn [bind].
  rewrite dec_i32_enc by (apply in_int_iff; lia). rewrite Nat2Z.id. change 0%nat with (List.length (@nil F)). rewrite (proxies_eq levels []) by reflexivity. cbn [bind].
  rewrite map_map. cbn [fst]. destruct (negb (sane (map ext levels))); auto. destruct levels as [|f l]; reflexivity.
Qed.

(** * Loading a level *)
Lemma load_group rn part rpre ppre ppost rpost i f : plain_name part -> plain_name g -> fresh_group part rpre -> fresh_group g ppre ->
  nth_error levels i = Some f ->
  sub_group (file_with rn part rpre ppre t ppost rpost) (level_path (part ++ [47] ++ g) i) =
  Ok (Some (node_group (level_name i) (map written (core i f)))).
Proof.
  intros [P1 P2] [G1 G2] RF PF N. unfold sub_group, level_path, find_group.
  replace ((part ++ [47] ++ g) ++ [47] ++ str "mip_levels" ++ [47] ++ level_name i)
    with (part ++ 47 :: (g ++ 47 :: (str "mip_levels" ++ 47 :: level_name i))) by (rewrite <- !app_assoc; reflexivity).
  assert (GN : good_name (str "mip_levels") /\ ~ In 47 (str "mip_levels")) by (apply plainb_ok; reflexivity).
  rewrite !split_join by (auto; apply GN). rewrite split_plain by apply level_name_good. cbn [app].
  unfold file_with. rewrite find_comps_cons by (auto; discriminate).
  rewrite t_eq. rewrite find_comps_cons by (auto; discriminate).
  assert (FM : exists pre' rest, all_ = pre' ++ EGroup (str "mip_levels") (mips_kids levels) :: rest /\ fresh_group (str "mip_levels") pre').
  { exists (pre ++ firstn 9 (mip_core e d levels)), post. split.
    - unfold all_. rewrite <- app_assoc. reflexivity.
    - split.
      + apply Forall_app. split; [apply pre_ok|]. cbn [mip_core firstn]. repeat (constructor; [apply plainb_ok; reflexivity|]). constructor.
      + intros kids I. apply in_app_or in I as [I|I].
        * apply (proj1 (Forall_forall _ _) pre_free _ I). cbn. tauto.
        * cbn in I. decompose [or] I; try contradiction; discriminate. }
  destruct FM as (pre' & rest & -> & FM). rewrite map_app. cbn [map written].
  rewrite find_comps_cons by (auto; try discriminate; apply GN).
  pose proof (mips_find i f N) as MF. unfold find_group in MF. rewrite split_plain in MF by apply level_name_good. cbn [app] in MF.
  fold mips_tree. rewrite MF. cbn [bind]. rewrite valid_node by apply level_name_good. reflexivity.
Qed.
End IO.

(** * Reading any group *)
Lemma bind_safe {A B} (r : res A) (k : A -> res B) : r <> UB -> (forall x, r = Ok x -> k x <> UB) -> bind r k <> UB.
Proof. destruct r; cbn; auto; discriminate. Qed.
Lemma find_one g l n gt : names_ok l -> ~ In 47 n -> find_group (node_group g (map written l)) n gt = Ok (option_map written (lookup (kind_is gt) n l)).
Proof. intros N S. apply find_group_written; auto. now apply names_ok_forall. Qed.
Lemma names_in l e : names_ok l -> In e l -> good_name (e_name e).
Proof. intros N I. apply (proj1 (Forall_forall _ _) (names_ok_forall l N)); auto. Qed.
Lemma wdata_head b : exists r, wdata b = Data b :: r.
Proof. destruct b; cbn; eauto. Qed.
Lemma need_safe g l n t0 : names_ok l -> plainb n = true -> need_attr (node_group g (map written l)) n t0 <> UB.
Proof.
  intros N P. destruct (plainb_ok _ P) as [GN NS]. unfold need_attr, get_attr, find_typed.
  rewrite find_one by auto. cbn [bind]. destruct (lookup (kind_is G_ATTR) n l) as [x|] eqn:L; cbn [option_map bind]; [|discriminate].
  destruct (lookup_some _ _ _ _ L) as (I & K & E). destruct x as [m t1 v| | |]; try (cbv in K; discriminate).
  pose proof (names_in l _ N I) as (GN' & _). cbn [e_name] in GN'. cbn [written]. unfold node_attr. rewrite (wdata_ne m), !wdata_enc32 by auto.
  destruct (wdata_head v) as (r & ->). cbn [app]. unfold read_dtype, get_data. cbn [t_kids nth_error]. rewrite enc32_length. cbn [Nat.eqb bind].
  destruct (dec_le (enc32 (type_code t1)) =? type_code t0); cbn [bind]; [|discriminate].
  unfold attr_value, read_data, get_data. cbn [t_kids nth_error].
  destruct t0; cbn [bind]; try (destruct (Nat.eqb (List.length v) _)); discriminate.
Qed.
Lemma sub_cases g l n : names_ok l -> plainb n = true ->
  sub_group (node_group g (map written l)) n = Ok None \/
  exists kids, names_ok kids /\ sub_group (node_group g (map written l)) n = Ok (Some (node_group n (map written kids))).
Proof.
  intros N P. destruct (plainb_ok _ P) as [GN NS]. unfold sub_group. rewrite find_one by auto. cbn [bind].
  destruct (lookup (kind_is G_GROUP) n l) as [x|] eqn:L; cbn [option_map]; auto. right.
  destruct (lookup_some _ _ _ _ L) as (I & K & E). destruct x as [|m kids| |]; try (cbv in K; discriminate). cbn in E. subst m.
  exists kids. split; [eapply names_ok_in; eauto|]. cbn [written]. rewrite valid_node by auto. reflexivity.
Qed.
Lemma loop_cases g l n : names_ok l ->
  find_loop n G_GROUP (skipn 2 (t_kids (node_group g (map written l)))) = Ok None \/
  exists kids, good_name n /\ names_ok kids /\ find_loop n G_GROUP (skipn 2 (t_kids (node_group g (map written l)))) = Ok (Some (node_group n (map written kids))).
Proof.
  intros N. rewrite (group_loop (find_loop n G_GROUP)) by auto. rewrite find_loop_written by now apply names_ok_forall.
  destruct (lookup (kind_is G_GROUP) n l) as [x|] eqn:L; cbn [option_map]; auto. right.
  destruct (lookup_some _ _ _ _ L) as (I & K & E). destruct x as [|m kids| |]; try (cbv in K; discriminate). cbn in E. subst m.
  exists kids. split; [exact (names_in _ _ N I)|]. split; [eapply names_ok_in; eauto|]. reflexivity.
Qed.
Lemma comps_safe cs : forall g l, names_ok l -> find_comps (node_group g (map written l)) cs G_GROUP <> UB.
Proof.
  induction cs as [|n cs IH]; intros g l N; [discriminate|]. destruct cs as [|n' cs].
  - cbn [find_comps]. destruct (loop_cases g l n N) as [->|(k & _ & K & ->)]; discriminate.
  - cbn [find_comps]. destruct (loop_cases g l n N) as [->|(k & GN & K & ->)]; cbn [bind]; [discriminate|].
    rewrite valid_node by auto. apply (IH n k K).
Qed.
Lemma load_level_safe {F} (rd : tree -> res (option F)) g entries layer i : names_ok entries -> (forall t, rd t <> UB) ->
  load_level rd (written (EGroup g entries)) layer i <> UB.
Proof.
  intros N R. unfold load_level, sub_group, find_group. cbn [written].
  pose proof (comps_safe (split_path [] (level_path layer i)) g entries N) as H.
  destruct (find_comps _ _ _) as [[x|]| |]; cbn [bind]; try discriminate; [|congruence].
  destruct (validate x); [|discriminate]. specialize (R x). destruct (rd x) as [[y|]| |]; cbn [bind]; congruence.
Qed.
Lemma level_plainb i : plainb (level_name i) = true.
Proof.
  destruct (level_name_good i) as [[A B] C]. unfold plainb. rewrite !andb_true_iff, !negb_true_iff.
  assert (F : forall x, ~ In x (level_name i) -> existsb (Z.eqb x) (level_name i) = false).
  { intros x N. apply not_true_iff_false. intros E. apply existsb_exists in E as (y & I & E). apply Z.eqb_eq in E. subst. auto. }
  split; [split|]; auto.
Qed.
Lemma proxies_safe g l : names_ok l -> forall n i, read_proxies (node_group g (map written l)) i n <> UB.
Proof.
  intros N. induction n as [|n IH]; intros i; [discriminate|]. cbn [read_proxies].
  destruct (sub_cases g l (level_name i) N (level_plainb i)) as [->|(kids & K & ->)]; cbn [bind]; [discriminate|].
  do 4 (apply bind_safe; [apply need_safe; auto|intros ? _]).
  apply bind_safe; [apply IH|discriminate].
Qed.
Lemma mip_read_safe ty g entries : names_ok entries -> mip_read ty (written (EGroup g entries)) <> UB.
Proof.
  intros N. unfold mip_read. cbn [written].
  apply bind_safe; [apply need_safe; auto|intros ver _]. destruct (negb (dec_i32 ver =? 1)); [discriminate|].
  apply bind_safe; [apply need_safe; auto|intros cmp _]. apply bind_safe; [apply need_safe; auto|intros base _].
  apply bind_safe.
  { assert (GN : good_name (str "dummy_data") /\ ~ In 47 (str "dummy_data")) by (apply plainb_ok; reflexivity).
    unfold dataset_type. rewrite find_one by (auto; apply GN). cbn [bind].
    destruct (lookup (kind_is G_DATASET) (str "dummy_data") entries) as [x|] eqn:L; cbn [option_map]; [|discriminate].
    destruct (lookup_some _ _ _ _ L) as (I & K & E). destruct x as [| |m t1 el|]; try (cbv in K; discriminate).
    cbn [written]. destruct (dataset_read G_DATASET m t1 el (names_in _ _ N I)) as [-> _]. destruct (Nat.ltb 2 _); discriminate. }
  intros dt _. destruct (negb (type_code ty =? dt) || negb (mip_type ty)); [discriminate|].
  destruct (if bytes_eqb base (class_of BSparse) then Some BSparse else if bytes_eqb base (class_of BDense) then Some BDense else None); [|discriminate].
  destruct (sub_cases g entries (str "mip_levels") N eq_refl) as [->|(kids & K & ->)]; cbn [bind]; [discriminate|].
  apply bind_safe; [apply need_safe; auto|intros n _]. apply bind_safe; [apply proxies_safe; auto|intros p _].
  destruct (negb (sane (map fst p))); [discriminate|]. destruct p as [|[u w] p]; discriminate.
Qed.
Lemma bind_ok {A B} (r : res A) (k : A -> res B) y : bind r k = Ok y -> exists x, r = Ok x /\ k x = Ok y.
Proof. destruct r; cbn; try discriminate; eauto. Qed.
Lemma mip_read_sizes ty t p : mip_read ty t = Ok (Some p) ->
  levels_ok (map fst (mp_levels p)) /\ nth_error (mp_levels p) 0 = Some (mp_ext p, mp_dw p).
Proof.
  unfold mip_read. intros H. apply bind_ok in H as (ver & _ & H). destruct (negb (dec_i32 ver =? 1)); [discriminate|].
  apply bind_ok in H as (c & _ & H). apply bind_ok in H as (b & _ & H). apply bind_ok in H as (dt & _ & H).
  destruct (negb (type_code ty =? dt) || negb (mip_type ty)); [discriminate|].
  destruct (if bytes_eqb b (class_of BSparse) then Some BSparse else if bytes_eqb b (class_of BDense) then Some BDense else None); [|discriminate].
  apply bind_ok in H as ([m|] & _ & H); [|discriminate]. apply bind_ok in H as (n & _ & H). apply bind_ok in H as (l & _ & H).
  destruct (sane (map fst l)) eqn:S; cbn [negb] in H; [|discriminate]. destruct l as [|[x y] l]; [discriminate|]. injection H as <-.
  cbn [mp_levels mp_ext mp_dw]. split; auto. now apply sane_ok.
Qed.
