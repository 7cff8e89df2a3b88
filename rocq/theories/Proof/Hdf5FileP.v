From Coq Require Import ZArith List Bool String Lia Arith Permutation Sorted.
From Verif Require Import Model.Base Model.OgawaM Spec.OgawaSpec Model.OgM Spec.OgSpec Proof.OgP Model.FieldIOM Model.FileM Spec.FileSpec Proof.FileP Proof.FileP2
  Model.MetaM Spec.MetaSpec Proof.MetaP Model.Hdf5M Model.Hdf5FileM Spec.Hdf5MetaSpec Proof.Hdf5MetaP Spec.Hdf5FileSpec.
Import ListNotations.
Open Scope Z_scope.

(** * Paths *)
Definition simple (n : bytes) : Prop := n <> [] /\ n <> [46] /\ ~ In 0 n /\ ~ In 47 n.
Definition keepc (c : bytes) : bool := negb (is_nil c) && negb (bytes_eqb c [46]).
Lemma keep_simple n : simple n -> keepc n = true.
Proof. intros (A & B & _). unfold keepc. rewrite beq_neq by auto. destruct n; [congruence|]. reflexivity. Qed.
Lemma split_slash a : ~ In 47 a -> forall cur b, split_path cur (a ++ 47 :: b) = (cur ++ a) :: split_path [] b.
Proof.
  induction a as [|x a IH]; intros H cur b; cbn.
  - rewrite app_nil_r. reflexivity.
  - destruct (Z.eqb_spec x 47) as [->|]; [destruct H; left; auto|]. rewrite IH by (intros K; apply H; right; auto). rewrite <- app_assoc. reflexivity.
Qed.
Lemma cstr_app a b : ~ In 0 a -> cstr (a ++ b) = a ++ cstr b.
Proof.
  induction a as [|x a IH]; intros H; cbn; auto. destruct (Z.eqb_spec x 0) as [->|]; [destruct H; left; auto|].
  f_equal. apply IH. intros K; apply H; right; auto.
Qed.
Lemma comps_simple n : simple n -> comps n = [n].
Proof.
  intros S. pose proof (keep_simple n S) as K. destruct S as (A & B & C & D). unfold comps. rewrite cstr_id by auto. rewrite split_plain by auto. cbn [app filter].
  unfold keepc in K. rewrite K. reflexivity.
Qed.
Lemma comps_cons n m : simple n -> comps (n ++ 47 :: m) = n :: comps m.
Proof.
  intros S. pose proof (keep_simple n S) as K. destruct S as (A & B & C & D). unfold comps. rewrite cstr_app by auto. cbn [cstr Z.eqb].
  rewrite split_slash by auto. cbn [app filter]. unfold keepc in K. rewrite K. reflexivity.
Qed.
Lemma comps_root m : comps (47 :: m) = comps m. Proof. reflexivity. Qed.
Lemma comps_bad n : ~ In 0 n -> ~ In 47 n -> n = [] \/ n = [46] -> comps n = [].
Proof. intros _ _ [->| ->]; reflexivity. Qed.
Lemma start_simple loc n : simple n -> start loc n = loc.
Proof.
  intros (A & B & C & D). unfold start. rewrite cstr_id by auto. destruct n as [|x n]; auto.
  destruct (Z.eq_dec x 47) as [->|N]; [destruct D; left; auto|]. destruct x; auto. repeat (destruct p; auto). congruence.
Qed.
Lemma start_root n : start [] n = []. Proof. unfold start. destruct (cstr n) as [|x l]; auto. destruct x; auto. repeat (destruct p; auto). Qed.

Section N.
Context {A : Type}.
Notation hnode := (hnode (A := A)).
Notation hlink := (hlink (A := A)).
Lemma upd_link_split n f (l1 : list (bytes * hlink)) g l2 : ~ In n (map fst l1) ->
  upd_link n f (l1 ++ (n, LGroup g) :: l2) = l1 ++ (n, LGroup (f g)) :: l2.
Proof.
  induction l1 as [|(m, x) l1 IH]; cbn; intros H.
  - rewrite beq_refl. reflexivity.
  - rewrite beq_neq by tauto. f_equal. apply IH. tauto.
Qed.
Lemma find_by_split {B} n (l1 : list (bytes * B)) x l2 : ~ In n (map fst l1) -> find_by n (l1 ++ (n, x) :: l2) = Some x.
Proof. intros H. rewrite find_by_app, find_by_none by auto. cbn. rewrite beq_refl. reflexivity. Qed.
Lemma g_create_at (root : hnode) p n g : simple n -> node_at root p = Some g -> ~ In n (map fst (n_links g)) ->
  g_create root (Some p) n = Some (upd_at root p (fun g => HNode (n_attrs g) (n_links g ++ [(n, LGroup n_empty)])), p ++ [n]).
Proof.
  intros S E I. unfold g_create. rewrite comps_simple by auto. cbn [rev app]. rewrite start_simple by auto. rewrite app_nil_r, E.
  rewrite find_by_none by auto. reflexivity.
Qed.
Lemma g_create_used (root : hnode) p n g : simple n -> node_at root p = Some g -> In n (map fst (n_links g)) ->
  g_create root (Some p) n = None.
Proof.
  intros S E I. unfold g_create. rewrite comps_simple by auto. cbn [rev app]. rewrite start_simple by auto. rewrite app_nil_r, E.
  destruct (find_by n (n_links g)) eqn:F; auto. exfalso. apply in_map_iff in I as ((a, b) & E1 & I). cbn in E1. subst a.
  clear -F I. induction (n_links g) as [|(m, y) l IH]; [destruct I|]. cbn in F. destruct (bytes_eqb_spec m n) as [->|N]; [discriminate|].
  destruct I as [[= -> ->]|I]; [congruence|]. auto.
Qed.
Lemma g_open_at (root : hnode) p n g : simple n -> node_at root (p ++ [n]) = Some g -> g_open root (Some p) n = Some (p ++ [n]).
Proof.
  intros S E. unfold g_open. rewrite comps_simple, start_simple by auto. destruct S as (X & _ & Y & _). rewrite cstr_id by auto.
  destruct n; [congruence|]. cbn [is_nil]. rewrite E. reflexivity.
Qed.
Lemma node_at_app p : forall (root : hnode) q, node_at root (p ++ q) = match node_at root p with Some g => node_at g q | None => None end.
Proof. induction p as [|c p IH]; intros root q; cbn; auto. destruct (sub_group root c); auto. Qed.
Lemma upd_at_app p : forall (root : hnode) q f, upd_at root (p ++ q) f = upd_at root p (fun g => upd_at g q f).
Proof.
  induction p as [|c p IH]; intros root q f; cbn; auto. f_equal. induction (n_links root) as [|(m, x) l IHl]; cbn; auto.
  destruct (bytes_eqb m c); [destruct x; auto; rewrite IH; auto|]. f_equal. auto.
Qed.
Lemma upd_at_ext p : forall (root : hnode) f g, (forall n, f n = g n) -> upd_at root p f = upd_at root p g.
Proof.
  induction p as [|c p IH]; intros root f g H; cbn; auto. f_equal. induction (n_links root) as [|(m, x) l IHl]; cbn; auto.
  destruct (bytes_eqb m c); [destruct x; auto; rewrite (IH _ f g); auto|]. f_equal. auto.
Qed.
Lemma node_at_upd p : forall (root : hnode) f g, node_at root p = Some g -> node_at (upd_at root p f) p = Some (f g).
Proof.
  induction p as [|c p IH]; intros root f g H; cbn in *; [injection H as ->; auto|].
  unfold sub_group in *. cbn [n_links].
  assert (E : find_by c (upd_link c (fun g => upd_at g p f) (n_links root)) = match find_by c (n_links root) with Some (LGroup g) => Some (LGroup (upd_at g p f)) | o => o end).
  { induction (n_links root) as [|(m, x) l IHl]; cbn; auto. destruct (bytes_eqb m c) eqn:B; cbn; rewrite B; auto.
    - destruct x; auto.
    - apply IHl. clear IHl. cbn in H. rewrite B in H. auto. }
  rewrite E. destruct (find_by c (n_links root)) as [[x| |]|]; try discriminate. apply IH; auto.
Qed.
Lemma upd_upd p : forall (root : hnode) f g, upd_at (upd_at root p f) p g = upd_at root p (fun n => g (f n)).
Proof.
  induction p as [|c p IH]; intros root f g; cbn; auto. f_equal. induction (n_links root) as [|(m, x) l IHl]; cbn; auto.
  destruct (bytes_eqb m c) eqn:B; cbn; rewrite B; [destruct x; auto; rewrite IH; auto|]. f_equal. auto.
Qed.
Lemma attrs_at_eq (root : hnode) p g : node_at root p = Some g -> attrs_at root p = n_attrs g.
Proof. intros E. unfold attrs_at. rewrite E. reflexivity. Qed.
End N.

Section U.
Context {A : Type}.
Notation hnode := (hnode (A := A)).
Lemma upd_at_ext_at p : forall (root : hnode) f g n, node_at root p = Some n -> f n = g n -> upd_at root p f = upd_at root p g.
Proof.
  induction p as [|c p IH]; intros root f g n H E; cbn in *; [congruence|]. f_equal. unfold sub_group in H.
  induction (n_links root) as [|(m, x) l IHl]; cbn in *; auto.
  destruct (bytes_eqb m c); [destruct x; auto; rewrite (IH _ f g n); auto|]. f_equal. auto.
Qed.
Definition add_link (n : bytes) (x : hnode) (g : hnode) : hnode := HNode (n_attrs g) (n_links g ++ [(n, LGroup x)]).
Lemma node_at_add (root : hnode) p n x g : node_at root p = Some g -> ~ In n (map fst (n_links g)) ->
  node_at (upd_at root p (add_link n x)) (p ++ [n]) = Some x.
Proof.
  intros H I. rewrite node_at_app, (node_at_upd _ _ _ g) by auto. cbn. unfold sub_group, add_link. cbn [n_links].
  rewrite find_by_split by auto. reflexivity.
Qed.
Lemma upd_add (root : hnode) p n x g f : node_at root p = Some g -> ~ In n (map fst (n_links g)) ->
  upd_at (upd_at root p (add_link n x)) (p ++ [n]) f = upd_at root p (add_link n (f x)).
Proof.
  intros H I. rewrite upd_at_app, upd_upd. apply (upd_at_ext_at _ _ _ _ g); auto. cbn. unfold add_link. cbn [n_attrs n_links].
  rewrite upd_link_split by auto. reflexivity.
Qed.
End U.

Definition k_type : bytes := str "class_type".
Definition k_meta : bytes := str "metadata".
Definition k_tag : bytes := str "is_field3d_partition".
Definition simpleb (n : bytes) : bool :=
  negb (is_nil n) && negb (bytes_eqb n [46]) && forallb (fun c => negb (c =? 0) && negb (c =? 47)) n.
Lemma simpleb_ok n : simpleb n = true -> simple n.
Proof.
  unfold simpleb. rewrite !andb_true_iff, !negb_true_iff, forallb_forall. intros ((X & Y) & Z). split; [intros ->; discriminate|].
  split; [intros ->; rewrite beq_refl in Y; discriminate|]. split; intros I; apply Z in I; discriminate.
Qed.
Lemma simple_mapping : simple k_mapping. Proof. apply simpleb_ok. reflexivity. Qed.
Lemma simple_meta : simple k_meta. Proof. apply simpleb_ok. reflexivity. Qed.
Lemma simple_global : simple k_global. Proof. apply simpleb_ok. reflexivity. Qed.

Section W.
Context {A M : Type}.
Notation hnode := (hnode (A := A)).
Notation hfield := (hfield (A := A)).
Notation hcall := (hcall (A := A)).
Notation hfile := (hfile (A := A)).
Variable ident : M -> M -> bool.
Variable map_put : M -> res (list (bytes * aval) * bool).
Variable map_get : list (bytes * aval) -> res (option M).
Variable hp : nat -> M.

Definition cls_val (f : hfield) : aval := VStr (match hf_class f with [] => [0] | _ => hf_class f end).
Definition l_attrs (f : hfield) : list (bytes * aval) := [(k_type, VStr (str "field3d_layer")); (str "class_name", cls_val f)].
Definition meta_group (f : hfield) : hnode := HNode (map stored (msets (hf_meta f))) [].
Definition lgroup (f : hfield) : hnode := HNode (l_attrs f ++ hf_attrs f) ((k_meta, LGroup (meta_group f)) :: hf_links f).
Definition add_name (vec : bool) (layer : bytes) (q : hpart) : hpart :=
  if vec then HPart (q_name q) (q_map q) (q_scalar q) (q_vector q ++ [layer])
  else HPart (q_name q) (q_map q) (q_scalar q ++ [layer]) (q_vector q).

Lemma h_layer_ok h root name vec layer f q r g :
  find_q name (h_parts h) = Some q -> q_map q = Some r -> ident (hp (hf_ref f)) (hp r) = true ->
  simple name -> node_at root [name] = Some g -> simple layer -> ~ In layer (map fst (n_links g)) ->
  h_field_ok vec f ->
  h_layer ident hp h root name vec layer f =
    Ok (HFile (Some (upd_at root [name] (add_link layer (lgroup f)))) (h_count h) (upd_q name (add_name vec layer) (h_parts h)), Accepted).
Proof.
  intros Q QM ID SN NA SL NI (SM & CZ & HO & _). unfold h_layer. rewrite Q, QM, ID. cbn [negb].
  rewrite (g_open_at root [] name g SN NA). cbn [app].
  rewrite (g_create_at root [name] layer g SL NA NI). cbn [app].
  change (fun g0 : hnode => HNode (n_attrs g0) (n_links g0 ++ [(layer, LGroup n_empty)])) with (add_link layer (@n_empty A)).
  change (put_str [] (str "class_type") (str "field3d_layer")) with (Some [(k_type, VStr (str "field3d_layer"))]). cbn iota beta.
  change [name; layer] with ([name] ++ [layer]).
  unfold set_attrs. rewrite (upd_add root [name] layer n_empty g) by auto. cbn [n_links n_empty app].
  set (x2 := HNode [(k_type, VStr (str "field3d_layer"))] []).
  pose proof (node_at_add root [name] layer x2 g NA NI) as N2. cbn [app] in N2.
  change (str "metadata") with k_meta.
  rewrite (g_create_at _ [name; layer] k_meta x2 simple_meta N2) by (intros []). cbn [app].
  set (md := fun g0 : hnode => HNode (n_attrs g0) (n_links g0 ++ [(k_meta, LGroup n_empty)])).
  change [name; layer] with ([name] ++ [layer]).
  rewrite (upd_add root [name] layer x2 g md) by auto. set (x3 := md x2).
  destruct (storable_round _ SM) as (PM & _). rewrite PM. cbn iota beta. cbn [negb].
  change [name; layer; k_meta] with (([name] ++ [layer]) ++ [k_meta]).
  rewrite upd_at_app. rewrite (upd_add root [name] layer x3 g) by auto.
  set (x4 := upd_at x3 [k_meta] _).
  pose proof (node_at_add root [name] layer x4 g NA NI) as N4. 
  rewrite (attrs_at_eq _ _ _ N4). change (n_attrs x4) with [(k_type, VStr (str "field3d_layer"))].
  unfold put_str. fold (cls_val f).
  change (put_av [(k_type, VStr (str "field3d_layer"))] (str "class_name") (cls_val f)) with (Some (l_attrs f)). cbn iota beta.
  rewrite (upd_add root [name] layer x4 g) by auto. rewrite HO. f_equal.
Qed.
Lemma h_layer_no h (root : hnode) name vec layer f q r g :
  find_q name (h_parts h) = Some q -> q_map q = Some r ->
  simple name -> node_at root [name] = Some g ->
  ident (hp (hf_ref f)) (hp r) = false \/ (~ In 0 layer /\ ~ In 47 layer /\ (~ simple layer \/ In layer (map fst (n_links g)))) ->
  h_layer ident hp h root name vec layer f = Ok (h, Rejected).
Proof.
  intros Q QM SN NA D. unfold h_layer. rewrite Q, QM. destruct (ident (hp (hf_ref f)) (hp r)) eqn:ID; cbn [negb]; auto.
  destruct D as [D|(L0 & L47 & D)]; [discriminate|]. rewrite (g_open_at root [] name g SN NA). cbn [app].
  assert (E : g_create root (Some [name]) layer = None).
  { destruct (simpleb layer) eqn:SB.
    - apply simpleb_ok in SB. destruct D as [D|D]; [contradiction|]. apply (g_create_used _ _ _ g); auto.
    - unfold g_create. rewrite comps_bad; auto.
      unfold simpleb in SB. destruct layer as [|c l]; auto. cbn [is_nil negb andb] in SB.
      destruct (bytes_eqb_spec (c :: l) [46]) as [|N]; auto. cbn [negb andb] in SB. exfalso.
      apply Bool.not_true_iff_false in SB. apply SB. apply forallb_forall. intros x Ix.
      destruct (Z.eqb_spec x 0) as [->|]; [contradiction|]. destruct (Z.eqb_spec x 47) as [->|]; [contradiction|]. reflexivity. }
  rewrite E. reflexivity.
Qed.

Definition pgroup (ml : list (bytes * aval)) (ls : list (bytes * hlink)) : hnode :=
  HNode [(k_tag, VStr (str "1"))] ((k_mapping, LGroup (HNode ml [])) :: ls).
Lemma find_q_split n l1 p l2 : (forall q, In q l1 -> q_name q <> n) -> q_name p = n -> find_q n (l1 ++ p :: l2) = Some p.
Proof.
  intros H E. unfold find_q. induction l1 as [|q l1 IH]; cbn.
  - rewrite E, beq_refl. reflexivity.
  - rewrite beq_neq by (apply H; left; auto). apply IH. intros r I. apply H. right; auto.
Qed.
Lemma find_q_none n l : (forall q, In q l -> q_name q <> n) -> find_q n l = None.
Proof.
  intros H. unfold find_q. induction l as [|q l1 IH]; cbn; auto.
  rewrite beq_neq by (apply H; left; auto). apply IH. intros r I. apply H. right; auto.
Qed.
Lemma upd_q_split n g l1 p l2 : (forall q, In q l1 -> q_name q <> n) -> q_name p = n -> upd_q n g (l1 ++ p :: l2) = l1 ++ g p :: l2.
Proof.
  intros H E. induction l1 as [|q l1 IH]; cbn.
  - rewrite E, beq_refl. reflexivity.
  - rewrite beq_neq by (apply H; left; auto). f_equal. apply IH. intros r I. apply H. right; auto.
Qed.
Lemma h_partition_ok h (root : hnode) name r ml :
  simple name -> ~ In name (map fst (n_links root)) -> (forall q, In q (h_parts h) -> q_name q <> name) ->
  map_put (hp r) = Ok (ml, true) ->
  h_partition map_put hp h root name r =
    Ok (HFile (Some (add_link name (pgroup ml []) root)) (h_count h) (h_parts h ++ [HPart name (Some r) [] []]), true).
Proof.
  intros SN NI NQ MP. unfold h_partition. rewrite (g_create_at root [] name root SN eq_refl NI). cbn [app upd_at].
  change (HNode (n_attrs root) (n_links root ++ [(name, LGroup n_empty)])) with (upd_at root [] (add_link name (@n_empty A))).
  pose proof (node_at_add root [] name n_empty root eq_refl NI) as N1. cbn [app] in N1.
  rewrite (g_create_at _ [name] k_mapping n_empty simple_mapping N1) by (intros []). cbn [app].
  set (mk := fun g : hnode => HNode (n_attrs g) (n_links g ++ [(k_mapping, LGroup n_empty)])).
  rewrite MP. cbn [bind negb]. unfold set_attrs.
  change [name; k_mapping] with (([] ++ [name]) ++ [k_mapping]). change [name] with ([] ++ [name]).
  rewrite (upd_add root [] name n_empty root mk eq_refl) by auto. set (x1 := mk n_empty).
  rewrite (upd_at_app ([] ++ [name]) _ [k_mapping]). rewrite (upd_add root [] name x1 root _ eq_refl) by auto.
  set (x2 := upd_at x1 [k_mapping] _).
  pose proof (node_at_add root [] name x2 root eq_refl NI) as N2. rewrite (attrs_at_eq _ _ _ N2).
  change (n_attrs x2) with (@nil (bytes * aval)).
  change (put_str [] (str "is_field3d_partition") (str "1")) with (Some [(k_tag, VStr (str "1"))]). cbn iota beta.
  rewrite (upd_add root [] name x2 root _ eq_refl) by auto. rewrite upd_q_split by auto. reflexivity.
Qed.

(** * The invariant *)
Record dpart : Type := DP { d_user : bytes; d_idx : nat; d_ref : nat; d_map : list (bytes * aval); d_ws : list hcall }.
Definition dkey (g : dpart) : bytes * nat := (d_user g, d_idx g).
Definition d_name (g : dpart) : bytes := int_partition (d_user g) (d_idx g).
Definition lnode (c : hcall) : bytes * hlink := (c_layer c, LGroup (lgroup (c_field c))).
Definition dgroup (g : dpart) : hnode := pgroup (d_map g) (map lnode (d_ws g)).
Definition pnode (g : dpart) : bytes * hlink := (d_name g, LGroup (dgroup g)).
Definition of_kind (vec : bool) (l : list hcall) : list bytes := map c_layer (filter (fun c => Bool.eqb (c_vec c) vec) l).
Definition qpart (g : dpart) : hpart := HPart (d_name g) (Some (d_ref g)) (of_kind false (d_ws g)) (of_kind true (d_ws g)).

Definition d_ok (g : dpart) : Prop :=
  ~ In 0 (d_user g) /\ ~ In 47 (d_user g) /\ NoDup (map c_layer (d_ws g)) /\
  map_put (hp (d_ref g)) = Ok (d_map g, true) /\ ((exists m, map_get (d_map g) = Ok (Some m)) /\ find_by k_type (d_map g) = None) /\
  Forall (fun c => c_user c = d_user g /\ simple (c_layer c) /\ c_layer c <> k_mapping /\ h_field_ok (c_vec c) (c_field c) /\
    ident (hp (hf_ref (c_field c))) (hp (d_ref g)) = true) (d_ws g).

Definition d_of (u : bytes) (G : list dpart) : list dpart := filter (fun g => bytes_eqb (d_user g) u) G.
Definition dcontig (h : hfile) (G : list dpart) : Prop :=
  forall u, map d_idx (d_of u G) = seq 0 (List.length (d_of u G)) /\
    count_of (h_count h) u = match List.length (d_of u G) with O => None | S n => Some n end.

Record dinv (va : list (bytes * aval)) (fresh : Prop) (h : hfile) (G : list dpart) (acc : list hcall) : Prop := {
  v_root : h_root h = Some (HNode va (map pnode G));
  v_parts : h_parts h = map qpart G;
  v_nodup : NoDup (map dkey G);
  v_ok : Forall d_ok G;
  v_perm : Permutation (flat_map d_ws G) acc;
  v_count : forall g, In g G -> exists n, count_of (h_count h) (d_user g) = Some n /\ (d_idx g <= n)%nat;
  v_contig : fresh -> dcontig h G }.

Lemma dkey_name g h : d_name g = d_name h -> dkey g = dkey h.
Proof. intros H. apply int_partition_inj in H as (X & Y). unfold dkey. congruence. Qed.
Lemma simple_int u i : ~ In 0 u -> ~ In 47 u -> simple (int_partition u i).
Proof.
  intros X Y. split; [apply int_partition_ne|]. split.
  - intros E. unfold int_partition in E. destruct u as [|c u]; [|destruct u; discriminate]. cbn in E.
    injection E as E. unfold int_name in E. change (@nil Z) with (str "") in E. apply str_inj in E.
    pose proof (DecimalString.NilEmpty.usu (Nat.to_uint i)) as K. rewrite E in K. change (Some Decimal.Nil = Some (Nat.to_uint i)) in K.
    assert (K' : Nat.to_uint i = Decimal.Nil) by congruence.
    pose proof (DecimalNat.Unsigned.of_to i) as Z. rewrite K' in Z. cbn in Z. subst i. discriminate.
  - split; intros I; apply in_int_partition in I as [I|[I|I]]; auto; lia.
Qed.
Lemma in_kind vec l n : In n (of_kind vec l) <-> exists c, In c l /\ c_vec c = vec /\ c_layer c = n.
Proof.
  unfold of_kind. rewrite in_map_iff. split.
  - intros (c & E & I). apply filter_In in I as (I & K). apply Bool.eqb_prop in K. eauto.
  - intros (c & I & K & E). exists c. split; auto. apply filter_In. split; auto. rewrite K. apply Bool.eqb_reflx.
Qed.
Lemma q_layers_q vec g : q_layers vec (qpart g) = of_kind vec (d_ws g). Proof. destruct vec; reflexivity. Qed.

Lemma h_matching_spec u r : forall G, match h_matching ident hp r u (map qpart G) with
  | Ok (Some n) => exists g, In g G /\ d_user g = u /\ n = d_name g /\ ident (hp (d_ref g)) (hp r) = true
  | Ok None => True
  | _ => False
  end.
Proof.
  induction G as [|g G IH]; cbn [map h_matching]; auto.
  unfold qpart at 1 2. cbn [q_name q_map]. unfold d_name at 1. rewrite remove_int.
  destruct (bytes_eqb_spec (d_user g) u) as [E|E].
  - destruct (ident (hp (d_ref g)) (hp r)) eqn:I.
    + exists g. split; [left; auto|]. auto.
    + destruct (h_matching ident hp r u (map qpart G)) as [[n|]| |]; auto.
      destruct IH as (h & X & Y). exists h. split; [right|]; auto.
  - destruct (h_matching ident hp r u (map qpart G)) as [[n|]| |]; auto.
    destruct IH as (h & X & Y). exists h. split; [right|]; auto.
Qed.

Section V.
Variables (va : list (bytes * aval)) (fresh : Prop).
Notation dinv := (dinv va fresh).

Lemma dnext_fresh h G acc u i : dinv h G acc ->
  i = match count_of (h_count h) u with Some n => S n | None => O end ->
  (forall g, In g G -> d_name g <> int_partition u i).
Proof.
  intros V E g I N. apply int_partition_inj in N as (X & Y).
  destruct (v_count _ _ _ _ _ V g I) as (n & C & L). rewrite X in C. rewrite C in E. lia.
Qed.
Lemma before_key h G1 g G2 acc : dinv h (G1 ++ g :: G2) acc -> forall x, In x G1 -> d_name x <> d_name g.
Proof.
  intros V x I H. apply dkey_name in H. pose proof (v_nodup _ _ _ _ _ V) as ND. rewrite map_app in ND. cbn in ND. apply NoDup_remove_2 in ND.
  apply ND. rewrite in_app_iff. left. rewrite <- H. apply in_map; auto.
Qed.
Lemma not_in_names G n : (forall g, In g G -> d_name g <> n) -> ~ In n (map fst (map pnode G)).
Proof. intros H I. rewrite map_map in I. apply in_map_iff in I as (g & E & I). cbn in E. apply (H g I E). Qed.

Definition fits (g : dpart) (c : hcall) : Prop :=
  simple (c_layer c) /\ c_layer c <> k_mapping /\ ~ In (c_layer c) (map c_layer (d_ws g)) /\ ident (hp (hf_ref (c_field c))) (hp (d_ref g)) = true.
Lemma fits_dec g c : fits g c \/ ~ fits g c.
Proof.
  unfold fits. assert (S : simple (c_layer c) \/ ~ simple (c_layer c)).
  { destruct (list_eq_dec Z.eq_dec (c_layer c) []) as [E|N1]; [right; intros (H & _); auto|].
    destruct (list_eq_dec Z.eq_dec (c_layer c) [46]) as [E|N2]; [right; intros (_ & H & _); auto|].
    destruct (in_dec Z.eq_dec 0 (c_layer c)) as [E|N3]; [right; intros (_ & _ & H & _); auto|].
    destruct (in_dec Z.eq_dec 47 (c_layer c)) as [E|N4]; [right; intros (_ & _ & _ & H); auto|]. left. repeat split; auto. }
  destruct (list_eq_dec Z.eq_dec (c_layer c) k_mapping); [tauto|].
  destruct (in_dec (list_eq_dec Z.eq_dec) (c_layer c) (map c_layer (d_ws g))); [tauto|].
  destruct (ident (hp (hf_ref (c_field c))) (hp (d_ref g))); [tauto|]. right. intros (_ & _ & _ & H). discriminate.
Qed.

Lemma d_add_existing h G1 g G2 acc c :
  dinv h (G1 ++ g :: G2) acc -> h_usable c -> h_field_ok (c_vec c) (c_field c) -> c_user c = d_user g ->
  exists h' oc G', with_root h UB (fun root => h_layer ident hp h root (d_name g) (c_vec c) (c_layer c) (c_field c)) = Ok (h', oc) /\
    dinv h' G' (acc ++ match oc with Accepted => [c] | _ => [] end) /\ (oc = Accepted <-> fits g c) /\
    map d_user G' = map d_user (G1 ++ g :: G2).
Proof.
  intros V U FO E.
  assert (D : forall q, In q (map qpart G1) -> q_name q <> d_name g).
  { intros q I H. apply in_map_iff in I as (x & <- & I). cbn in H. eapply before_key; eauto. }
  assert (D2 : ~ In (d_name g) (map fst (map pnode G1))) by (apply not_in_names; intros; eapply before_key; eauto).
  unfold with_root. rewrite (v_root _ _ _ _ _ V).
  set (root := HNode va (map pnode (G1 ++ g :: G2))).
  assert (RE : n_links root = map pnode G1 ++ pnode g :: map pnode G2) by (unfold root; cbn [n_links]; rewrite map_app; reflexivity).
  assert (NA : node_at root [d_name g] = Some (dgroup g)).
  { cbn [node_at]. unfold sub_group. rewrite RE. unfold pnode at 2. rewrite find_by_split by auto. reflexivity. }
  assert (FQ : find_q (d_name g) (h_parts h) = Some (qpart g)).
  { rewrite (v_parts _ _ _ _ _ V), map_app. cbn [map]. apply find_q_split; auto. }
  pose proof (v_ok _ _ _ _ _ V) as OK. apply Forall_app in OK as (OK1 & OK2). inversion OK2 as [|? ? OKg OK3]; subst.
  assert (SN : simple (d_name g)) by (apply simple_int; apply OKg).
  assert (LN : map fst (n_links (dgroup g)) = k_mapping :: map c_layer (d_ws g)).
  { unfold dgroup, pgroup. cbn [n_links map fst]. f_equal. rewrite map_map. reflexivity. }
  destruct (fits_dec g c) as [(F1 & F2 & F3 & F4)|NF].
  - set (g' := DP (d_user g) (d_idx g) (d_ref g) (d_map g) (d_ws g ++ [c])).
    rewrite (h_layer_ok h root (d_name g) (c_vec c) (c_layer c) (c_field c) (qpart g) (d_ref g) (dgroup g)); auto.
    2:{ rewrite LN. cbn. intros [H|H]; auto. }
    eexists; exists Accepted, (G1 ++ g' :: G2). split; [reflexivity|]. split; [|split; [split; auto; intros _; split; auto|rewrite !map_app; reflexivity]].
    destruct V as [A0 A1 B C P Q R]. split.
    + cbn [h_root upd_at]. f_equal. change (n_attrs root) with va. f_equal. rewrite RE. unfold pnode at 2. rewrite upd_link_split by auto.
      rewrite map_app. cbn [map]. unfold pnode at 4, g', dgroup, d_name. cbn [d_user d_idx d_map d_ws]. do 4 f_equal.
      unfold add_link, pgroup. cbn [n_attrs n_links]. rewrite map_app. reflexivity.
    + cbn [h_parts]. rewrite A1, map_app. cbn [map]. rewrite upd_q_split by (auto; reflexivity). rewrite map_app. cbn [map]. do 2 f_equal.
      unfold qpart, g', add_name, of_kind, d_name. cbn [q_name q_map q_scalar q_vector d_user d_idx d_ref d_ws]. rewrite !filter_app. cbn [filter].
      destruct (c_vec c); cbn [Bool.eqb]; rewrite ?app_nil_r, !map_app; reflexivity.
    + rewrite map_app in *. cbn in *. auto.
    + apply Forall_app. split; auto. constructor; auto.
      destruct OKg as (Z & Sl & ND & MP & MG & F). unfold d_ok. cbn [g' d_user d_ref d_map d_ws]. do 2 (split; auto). split; [|do 2 (split; auto)].
      * rewrite map_app. cbn. apply nodup_app; auto; [repeat constructor; intros []|]. intros x I [<-|[]]. auto.
      * apply Forall_app. split; auto. constructor; auto 8.
    + rewrite flat_map_app in *. cbn [flat_map] in *. cbn [g' d_ws].
      rewrite <- P. rewrite <- !app_assoc. apply Permutation_app_head. apply Permutation_app_head. cbn. apply Permutation_cons_append.
    + intros x Ix. cbn [h_count]. apply in_app_iff in Ix as [Ix|[<-|Ix]].
      * apply Q. apply in_app_iff; auto.
      * cbn. apply (Q g). apply in_app_iff. right; left; auto.
      * apply Q. apply in_app_iff. right; right; auto.
    + intros fr u. destruct (R fr u) as (R1 & R2). cbn [h_count].
      unfold d_of in *. rewrite filter_app in *. cbn [filter] in *. cbn [g' d_user].
      destruct (bytes_eqb (d_user g) u); rewrite map_app in *; cbn in *; rewrite !app_length in *; cbn in *; auto.
  - rewrite (h_layer_no h root (d_name g) (c_vec c) (c_layer c) (c_field c) (qpart g) (d_ref g) (dgroup g)); auto.
    + exists h, Rejected, (G1 ++ g :: G2). rewrite app_nil_r. split; auto. split; auto. split; auto. split; [discriminate|contradiction].
    + destruct (ident (hp (hf_ref (c_field c))) (hp (d_ref g))) eqn:ID; auto. right.
      destruct U as (_ & _ & U0 & U47). split; auto. split; auto.
      destruct (simpleb (c_layer c)) eqn:SB.
      * right. apply simpleb_ok in SB. rewrite LN.
        destruct (list_eq_dec Z.eq_dec (c_layer c) k_mapping) as [->|N1]; [left; auto|].
        destruct (in_dec (list_eq_dec Z.eq_dec) (c_layer c) (map c_layer (d_ws g))) as [I|N2]; [right; auto|].
        exfalso. apply NF. split; auto.
      * left. intros S. apply Bool.not_true_iff_false in SB. apply SB. destruct S as (S1 & S2 & S3 & S4). unfold simpleb.
        rewrite beq_neq by auto. destruct (c_layer c) as [|z l]; [congruence|]. cbn [is_nil negb andb]. apply forallb_forall. intros x Ix.
        destruct (Z.eqb_spec x 0) as [->|]; [contradiction|]. destruct (Z.eqb_spec x 47) as [->|]; [contradiction|]. reflexivity.
Qed.

Lemma count_same c u i : count_of (count_set c u i) u = Some i.
Proof. cbn. rewrite beq_refl. reflexivity. Qed.
Lemma count_other c u i v : u <> v -> count_of (count_set c u i) v = count_of c v.
Proof. intros H. cbn. rewrite beq_neq; auto. Qed.

Lemma d_add_new h G acc c :
  dinv h G acc -> h_usable c -> h_field_ok (c_vec c) (c_field c) -> h_map_ok map_put map_get (hp (hf_ref (c_field c))) ->
  let (h1, name) := h_next h (c_user c) in
  exists h' oc G',
    (let* (h, ok) := with_root h1 UB (fun root => h_partition map_put hp h1 root name (hf_ref (c_field c))) in
     if ok : bool then with_root h UB (fun root => h_layer ident hp h root name (c_vec c) (c_layer c) (c_field c)) else Ok (h, Rejected))
      = Ok (h', oc) /\
    dinv h' G' (acc ++ match oc with Accepted => [c] | _ => [] end) /\
    (oc = Accepted <-> simple (c_layer c) /\ c_layer c <> k_mapping /\ ident (hp (hf_ref (c_field c))) (hp (hf_ref (c_field c))) = true) /\
    map d_user G' = map d_user G ++ [c_user c].
Proof.
  intros V U FO (ml & m' & MP & MG & MT). unfold h_next. set (i := match count_of (h_count h) (c_user c) with Some n => S n | None => O end).
  pose proof (dnext_fresh _ _ _ (c_user c) i V eq_refl) as FR.
  set (h1 := HFile _ _ _). set (g := DP (c_user c) i (hf_ref (c_field c)) ml []).
  unfold with_root at 1. cbn [h1 h_root]. rewrite (v_root _ _ _ _ _ V).
  rewrite (h_partition_ok h1 _ (int_partition (c_user c) i) (hf_ref (c_field c)) ml); auto.
  - cbn [bind]. set (h2 := HFile _ _ _).
    assert (V2 : dinv h2 (G ++ [g]) acc).
    { destruct V as [A0 A1 B C P Q R]. split.
      - cbn [h2 h_root]. rewrite map_app. reflexivity.
      - cbn [h2 h_parts h1]. rewrite A1, map_app. reflexivity.
      - rewrite map_app. cbn. apply nodup_app; auto; [repeat constructor; intros []|]. intros x I [<-|[]].
        apply in_map_iff in I as (y & E & I). apply (FR y I). unfold dkey in E. cbn in E. unfold d_name. congruence.
      - apply Forall_app. split; auto. constructor; auto. unfold d_ok. cbn. split; [apply U|]. split; [apply U|]. split; [constructor|]. split; auto. split; eauto.
      - rewrite flat_map_app. cbn. rewrite app_nil_r. auto.
      - intros x I. apply in_app_iff in I as [I|[<-|[]]].
        + destruct (Q x I) as (n & E1 & E2). cbn [h2 h1 h_count]. destruct (bytes_eqb_spec (c_user c) (d_user x)) as [E|E].
          * rewrite <- E, count_same. exists i. split; auto. unfold i. rewrite E, E1. lia.
          * rewrite count_other by auto. eauto.
        + cbn [h2 h1 h_count g d_user d_idx]. rewrite count_same. eauto.
      - intros fr u. destruct (R fr u) as (R1 & R2). cbn [h2 h1 h_count]. unfold d_of in *. rewrite filter_app. cbn [filter g d_user].
        destruct (bytes_eqb_spec (c_user c) u) as [E|E].
        + rewrite E, count_same. rewrite map_app, app_length. cbn. rewrite R1.
          assert (Ei : i = List.length (filter (fun g => bytes_eqb (d_user g) u) G)).
          { unfold i. rewrite E, R2. destruct (List.length _); auto. }
          rewrite Nat.add_1_r. rewrite seq_S, <- Ei. cbn. auto.
        + rewrite app_nil_r. rewrite count_other by auto. auto. }
    destruct (d_add_existing h2 G g [] acc c V2 U FO eq_refl) as (h' & oc & G' & E & V' & OC & US).
    exists h', oc, G'. split; [exact E|]. split; auto. split; [|rewrite US, map_app; reflexivity].
    rewrite OC. unfold fits. cbn [g d_ws d_ref map In]. tauto.
  - apply simple_int; apply U.
  - cbn [n_links]. apply not_in_names. auto.
  - cbn [h1 h_parts]. rewrite (v_parts _ _ _ _ _ V). intros q I. apply in_map_iff in I as (x & <- & I). apply FR; auto.
Qed.

Lemma layer_ok_iff (c : hcall) : h_usable c -> (simple (c_layer c) /\ c_layer c <> k_mapping <-> layer_name_ok (c_layer c)).
Proof.
  intros (_ & _ & U0 & U47). unfold simple, layer_name_ok. change (str ".") with [46]. change (str "mapping") with k_mapping. tauto.
Qed.

Lemma h_write_step h G acc c :
  dinv h G acc -> h_usable c -> h_field_ok (c_vec c) (c_field c) -> h_map_ok map_put map_get (hp (hf_ref (c_field c))) ->
  exists h' oc G', h_write ident map_put hp h (c_vec c) (c_user c) (c_layer c) (c_field c) = Ok (h', oc) /\
    dinv h' G' (acc ++ match oc with Accepted => [c] | _ => [] end) /\
    (oc = Accepted -> layer_name_ok (c_layer c)) /\ incl (map d_user G') (c_user c :: map d_user G) /\
    ((forall a, ident a a = true) -> (forall a b, ident a b = ident b a) ->
     (forall d, In d acc -> c_user c = c_user d -> c_layer c = c_layer d -> c_vec c = c_vec d) ->
       (oc = Accepted <-> layer_name_ok (c_layer c))).
Proof.
  intros V U FO MO. unfold h_write. rewrite (v_root _ _ _ _ _ V). pose proof (layer_ok_iff c U) as LO.
  pose proof (h_matching_spec (c_user c) (hf_ref (c_field c)) G) as MS. rewrite <- (v_parts _ _ _ _ _ V) in MS.
  destruct (h_matching ident hp (hf_ref (c_field c)) (c_user c) (h_parts h)) as [[n|]| |] eqn:E; try contradiction; cbn [bind].
  - destruct MS as (g & I & GU & -> & ID).
    assert (Ig : forall d, In d (d_ws g) -> In d acc /\ c_user d = c_user c).
    { intros d Id. split; [apply (Permutation_in _ (v_perm _ _ _ _ _ V)), in_flat_map; eauto|].
      pose proof (proj1 (Forall_forall _ _) (v_ok _ _ _ _ _ V) g I) as (_ & _ & _ & _ & _ & F). apply (proj1 (Forall_forall _ _) F) in Id as (X & _). congruence. }
    apply in_split in I as (G1 & G2 & ->).
    assert (D : forall q, In q (map qpart G1) -> q_name q <> d_name g).
    { intros q I H. apply in_map_iff in I as (x & <- & I). cbn in H. eapply before_key; eauto. }
    rewrite (v_parts _ _ _ _ _ V), map_app. cbn [map]. rewrite find_q_split by (auto; reflexivity). rewrite q_layers_q.
    destruct (existsb (bytes_eqb (c_layer c)) (of_kind (c_vec c) (d_ws g))) eqn:X.
    + unfold d_name at 1. rewrite remove_int, GU.
      pose proof (d_add_new h _ acc c V U FO MO) as AN. destruct (h_next h (c_user c)) as (h1, name).
      destruct AN as (h' & oc & G' & A1 & A2 & A3 & A4). exists h', oc, G'. split; [exact A1|]. split; auto. split; [tauto|].
      split; [rewrite A4; intros x I; apply in_app_iff in I as [I|[<-|[]]]; [right|left]; auto|].
      intros Re Sy _. rewrite A3, Re. tauto.
    + destruct (d_add_existing h G1 g G2 acc c V U FO (eq_sym GU)) as (h' & oc & G' & A1 & A2 & A3 & A4).
      exists h', oc, G'. split; [exact A1|]. split; auto. unfold fits in A3. split; [tauto|]. split; [rewrite A4; intros x I; right; auto|]. intros Re Sy OKd. rewrite A3, Sy, ID.
      assert (NI : ~ In (c_layer c) (map c_layer (d_ws g))).
      { intros I. apply in_map_iff in I as (d & EL & I). apply Bool.not_true_iff_false in X. apply X. apply existsb_exists.
        destruct (Ig d I) as (Ia & Eu).
        exists (c_layer d). split; [|rewrite EL; apply beq_refl]. apply in_kind. exists d. split; auto. split; auto. symmetry. apply OKd; auto. }
      tauto.
  - pose proof (d_add_new h _ acc c V U FO MO) as AN. pose proof (dnext_fresh h G acc (c_user c) _ V eq_refl) as FR.
    unfold h_next in *.
    assert (FN : find_q (int_partition (c_user c) (match count_of (h_count h) (c_user c) with Some n => S n | None => O end)) (h_parts h) = None).
    { apply find_q_none. intros q I. rewrite (v_parts _ _ _ _ _ V) in I. apply in_map_iff in I as (x & <- & I). cbn. apply FR; auto. }
    cbn [h_parts]. rewrite FN.
    destruct AN as (h' & oc & G' & A1 & A2 & A3 & A4). exists h', oc, G'. split; [exact A1|]. split; auto. split; [tauto|].
      split; [rewrite A4; intros x I; apply in_app_iff in I as [I|[<-|[]]]; [right|left]; auto|].
    intros Re Sy _. rewrite A3, Re. tauto.
Qed.

Lemma h_accepted_cons (c : hcall) cs oc ocs :
  h_accepted (c :: cs) (oc :: ocs) = match oc with Accepted => [c] | _ => [] end ++ h_accepted cs ocs.
Proof. unfold h_accepted. cbn. destruct oc; reflexivity. Qed.

Lemma h_writes_inv cs : Forall h_usable cs -> Forall (fun c => h_field_ok (c_vec c) (c_field c)) cs ->
  Forall (fun c => h_map_ok map_put map_get (hp (hf_ref (c_field c)))) cs ->
  forall h G acc, dinv h G acc ->
  exists h' ocs G', h_writes ident map_put hp h cs = Ok (h', ocs) /\
    dinv h' G' (acc ++ h_accepted cs ocs) /\ List.length ocs = List.length cs /\
    Forall2 (fun c oc => oc = Accepted -> layer_name_ok (c_layer c)) cs ocs /\ incl (map d_user G') (map d_user G ++ map c_user cs) /\
    ((forall a, ident a a = true) -> (forall a b, ident a b = ident b a) -> one_kind (acc ++ cs) ->
      Forall2 (fun c oc => oc = Accepted <-> layer_name_ok (c_layer c)) cs ocs).
Proof.
  induction 1 as [|c cs U US IH]; intros FS MS h G acc V; cbn [h_writes].
  - exists h, [], G. unfold h_accepted. cbn. rewrite !app_nil_r. repeat (split; auto). intros x I; auto.
  - inversion FS; subst. inversion MS; subst. destruct (h_write_step h G acc c V U) as (h1 & oc & G1 & E1 & V1 & N1 & S1 & A1); auto.
    rewrite E1. cbn [bind]. destruct (IH H2 H4 h1 G1 _ V1) as (h2 & ocs & G2 & E2 & V2 & L & N2 & S2 & A2). rewrite E2. cbn [bind].
    exists h2, (oc :: ocs), G2. split; auto. rewrite h_accepted_cons. rewrite <- app_assoc in V2. split; auto. split; [cbn; auto|].
    split; [constructor; auto|].
    split; [intros x I; apply S2 in I; apply in_app_iff; cbn; apply in_app_iff in I as [I|I]; auto; apply S1 in I as [I|I]; auto|].
    intros Re Sy OK. constructor.
    + apply A1; auto. intros d Id. apply OK; apply in_app_iff; auto. right; left; auto.
    + apply A2; auto. intros x y Ix Iy. apply OK.
      * rewrite in_app_iff in *. cbn. rewrite in_app_iff in Ix. destruct Ix as [[Ix|Ix]|Ix]; auto. destruct oc; cbn in Ix; try tauto.
      * rewrite in_app_iff in *. cbn. rewrite in_app_iff in Iy. destruct Iy as [[Iy|Iy]|Iy]; auto. destruct oc; cbn in Iy; try tauto.
Qed.
End V.
Lemma dinv_new va h : h_root h = Some (HNode va []) -> h_parts h = [] -> dinv va False h [] [].
Proof. intros R Q. split; auto; try constructor; contradiction. Qed.
Lemma dinv_fresh va h : h_root h = Some (HNode va []) -> h_parts h = [] -> h_count h = [] -> dinv va True h [] [].
Proof. intros R Q C. split; auto; try constructor; try contradiction; auto. rewrite C. auto. Qed.
End W.
