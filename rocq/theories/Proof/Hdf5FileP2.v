From Coq Require Import ZArith List Bool String Lia Arith Permutation Sorted.
From Verif Require Import Model.Base Model.OgawaM Spec.OgawaSpec Model.OgM Spec.OgSpec Proof.OgP Model.FieldIOM Spec.FieldIOSpec Proof.FieldIOP Model.FileM Spec.FileSpec Proof.FileP Proof.FileP2
  Model.MetaM Spec.MetaSpec Proof.MetaP Model.Hdf5M Model.Hdf5FileM Spec.Hdf5MetaSpec Proof.Hdf5MetaP Spec.Hdf5FileSpec Proof.Hdf5FileP.
Import ListNotations.
Open Scope Z_scope.

Lemma perm_filter {B} (p : B -> bool) l l' : Permutation l l' -> Permutation (filter p l) (filter p l').
Proof.
  induction 1; cbn; auto.
  - destruct (p x); auto.
  - destruct (p x), (p y); auto. apply perm_swap.
  - eapply Permutation_trans; eauto.
Qed.
Lemma perm_flat_map {B C} (f : B -> list C) l l' : Permutation l l' -> Permutation (flat_map f l) (flat_map f l').
Proof.
  induction 1; cbn; auto.
  - apply Permutation_app_head; auto.
  - rewrite !app_assoc. apply Permutation_app_tail, Permutation_app_comm.
  - eapply Permutation_trans; eauto.
Qed.
Lemma filter_flat_map {B C} (p : C -> bool) (f : B -> list C) l : filter p (flat_map f l) = flat_map (fun x => filter p (f x)) l.
Proof. induction l; cbn; auto. rewrite filter_app. congruence. Qed.
Lemma filter_filter {B} (p q : B -> bool) l : filter p (filter q l) = filter (fun x => q x && p x) l.
Proof. induction l as [|x l IH]; cbn; auto. destruct (q x); cbn; [destruct (p x); cbn; congruence|auto]. Qed.
Lemma no_dot n : before_last_dot n = None -> forall u i, int_partition u i <> n.
Proof. intros H u i E. rewrite <- E, before_int in H. discriminate. Qed.
Lemma reserved_int u i : reserved (int_partition u i) = false.
Proof. unfold reserved. rewrite !beq_neq by (apply no_dot; reflexivity). reflexivity. Qed.

Section R.
Context {A M : Type}.
Notation hnode := (hnode (A := A)).
Notation hlink := (hlink (A := A)).
Notation hcall := (hcall (A := A)).
Notation hfile := (hfile (A := A)).
Notation dpart := (dpart (A := A)).
Variable ident : M -> M -> bool.
Variable map_put : M -> res (list (bytes * aval) * bool).
Variable map_get : list (bytes * aval) -> res (option M).
Variable hp : nat -> M.
Variable ord : list bytes -> list bytes.
Hypothesis ORD : forall l, Permutation (ord l) l.
Variables (va : list (bytes * aval)) (fresh : Prop) (h : hfile) (G : list dpart) (acc : list hcall).
Notation dinv := (dinv ident map_put map_get hp va fresh).
Hypothesis V : dinv h G acc.
Variables (h' : hfile) (gm : meta).
Hypothesis FIN : h_finished h h' gm.

(** What a finished file has besides its partitions. *)
Definition extras : Type := option hnode * option meta * option hnode.
Definition memb (x : option hnode) : list (bytes * hlink) :=
  match x with Some n => [(k_members, LGroup n)] | None => [] end.
Definition glob (o : extras) : list (bytes * hlink) :=
  let '(a, g, b) := o in
  memb a ++ (match g with Some m => [(k_global, LGroup (HNode (map stored (msets m)) []))] | None => [] end) ++
  match a with None => memb b | Some _ => [] end.
Lemma global_fresh : ~ In k_global (map fst (map (@pnode A) G)).
Proof. apply not_in_names. intros g _. apply global_no_dot. Qed.
Lemma members_fresh : ~ In k_members (map fst (map (@pnode A) G)).
Proof. apply not_in_names. intros g _. apply no_dot. reflexivity. Qed.
Lemma simple_members : simple k_members. Proof. apply simpleb_ok. reflexivity. Qed.
Lemma members_root (x y : hfile) e m : h_root x = Some (HNode va (map pnode G ++ e)) -> h_members x m = (y, true) ->
  h_root y = h_root x \/ ~ In k_members (map fst e) /\ exists n, h_root y = Some (HNode va (map pnode G ++ e ++ memb (Some n))).
Proof.
  intros R E. unfold h_members in E. destruct m as [|e0 m]; [injection E as <-; auto|]. rewrite R in E.
  set (root := HNode va (map pnode G ++ e)) in *.
  destruct (In_dec (list_eq_dec Z.eq_dec) k_members (map fst e)) as [I|N].
  { rewrite (g_create_used root [] k_members root simple_members eq_refl) in E; [discriminate|].
    cbn [root n_links]. rewrite map_app. apply in_app_iff. auto. }
  right. split; [exact N|].
  assert (N' : ~ In k_members (map fst (map (@pnode A) G ++ e))).
  { rewrite map_app, in_app_iff. intros [I|I]; [apply (members_fresh I)|auto]. }
  rewrite (g_create_at root [] k_members root simple_members eq_refl N') in E.
  destruct (then_put _ _) as (l, ok). injection E as <- ->. exists (HNode l []). cbn [h_root]. f_equal. unfold set_attrs.
  cbn [upd_at app n_attrs n_links root]. f_equal. rewrite app_assoc. rewrite upd_link_split by exact N'. reflexivity.
Qed.
Lemma finished_root : exists o, h_root h' = Some (HNode va (map pnode G ++ glob o)) /\
  match snd (fst o) with Some m => m = gm /\ storable_meta m | None => gm = meta_empty end.
Proof.
  destruct FIN as (h1 & h2 & b & a & E1 & E2 & E3).
  assert (R0 : h_root h = Some (HNode va (map pnode G ++ []))) by (rewrite (v_root _ _ _ _ _ _ _ _ _ V), app_nil_r; reflexivity).
  assert (R1 : exists n, h_root h1 = Some (HNode va (map pnode G ++ memb n))).
  { destruct (members_root _ _ _ _ R0 E1) as [R|(_ & n & R)]; [exists None|exists (Some n)]; [rewrite R, R0|rewrite R]; reflexivity. }
  clear E1 R0. destruct R1 as (n1 & R1).
  assert (R2 : exists g, h_root h2 = Some (HNode va (map pnode G ++ glob (n1, g, None))) /\
            match g with Some m => m = gm /\ storable_meta m | None => gm = meta_empty end).
  { destruct E2 as [(-> & ->)|(SM & E)].
    - exists None. rewrite R1. cbn [glob memb app]. destruct n1; cbn; auto.
    - exists (Some gm). split; auto. unfold h_globals in E. rewrite R1 in E. set (root := HNode va (map pnode G ++ memb n1)) in *.
      assert (N' : ~ In k_global (map fst (map (@pnode A) G ++ memb n1))).
      { rewrite map_app, in_app_iff. intros [I|I]; [apply (global_fresh I)|]. destruct n1; [|destruct I]. destruct I as [I|I]; [discriminate|destruct I]. }
      rewrite (g_create_at root [] k_global root simple_global eq_refl N') in E.
      destruct (storable_round gm SM) as (PM & _). rewrite PM in E.
      injection E as <-. cbn [h_root]. f_equal. unfold set_attrs. cbn [upd_at app n_attrs n_links root]. f_equal.
      rewrite upd_link_split by exact N'. rewrite <- app_assoc. f_equal. unfold glob. f_equal. destruct n1; reflexivity. }
  clear E2 R1. destruct R2 as (g & R2 & MG).
  destruct (members_root _ _ _ _ R2 E3) as [R|(N & n & R)].
  - exists (n1, g, None). split; [congruence|exact MG].
  - exists (n1, g, Some n). split; [|exact MG]. rewrite R. do 2 f_equal. unfold glob in *. destruct n1 as [x|].
    + exfalso. apply N. left. reflexivity.
    + cbn [memb app] in *. rewrite app_nil_r. reflexivity.
Qed.

(** A partition as it is read: with its mapping and the order its layers were listed in. *)
Record rpart : Type := RP { rp_d : dpart; rp_m : M; rp_ws : list hcall }.
Definition rp_ok (x : rpart) : Prop :=
  In (rp_d x) G /\ map_get (d_map (rp_d x)) = Ok (Some (rp_m x)) /\ Permutation (rp_ws x) (d_ws (rp_d x)).
Definition rp_name (x : rpart) : bytes := d_name (rp_d x).
Definition bareh (x : rpart) : ihpart := IHPart (rp_name x) (rp_m x) [] [].
Definition fullh (x : rpart) : ihpart := IHPart (rp_name x) (rp_m x) (of_kind false (rp_ws x)) (of_kind true (rp_ws x)).

Variable o : extras.
Definition rootF : hnode := HNode va (map pnode G ++ glob o).

Lemma gok g : In g G -> d_ok ident map_put map_get hp g.
Proof. apply (proj1 (Forall_forall _ _) (v_ok _ _ _ _ _ _ _ _ _ V)). Qed.
Lemma gsimple g : In g G -> simple (d_name g).
Proof. intros I. apply simple_int; apply (gok g I). Qed.
Lemma glob_reserved x : In x (map fst (glob o)) -> x = k_global \/ x = k_members.
Proof. destruct o as [[[|] [|]] [|]]; cbn [glob memb app map fst In]; intuition congruence. Qed.
Lemma glob_group x : In x (map fst (glob o)) -> exists g, In (x, LGroup g) (glob o).
Proof.
  intros I. apply in_map_iff in I as ([n l] & <- & I). cbn [fst]. assert (K := I). unfold glob, memb in K.
  destruct o as [[[|] [|]] [|]]; cbn [app In] in K; intuition (try discriminate);
    match goal with E : _ = (n, l) |- _ => injection E as <- <-; eauto end.
Qed.
Lemma root_names_nodup : NoDup (map fst (n_links rootF)).
Proof.
  unfold rootF. cbn [n_links]. rewrite map_app. apply nodup_app.
  - rewrite map_map. cbn. pose proof (v_nodup _ _ _ _ _ _ _ _ _ V) as ND. clear -ND. induction G as [|g l IH]; cbn in *; [constructor|].
    inversion ND; subst. constructor; auto. intros I. apply in_map_iff in I as (x & E & I). apply dkey_name in E. apply H1. rewrite <- E. apply in_map; auto.
  - destruct o as [[[|] [|]] [|]]; cbn [glob memb app map fst]; repeat constructor; cbn [In]; try tauto; intros [K|K]; try discriminate K; destruct K.
  - intros x I K. destruct (glob_reserved _ K) as [->| ->]; [apply (global_fresh I)|apply (members_fresh I)].
Qed.
Lemma find_dpart g : In g G -> find_by (d_name g) (n_links rootF) = Some (LGroup (dgroup g)).
Proof.
  intros I. apply find_by_in; [apply root_names_nodup|]. unfold rootF. cbn [n_links]. apply in_app_iff. left. change (In (pnode g) (map pnode G)). apply in_map; auto.
Qed.
Lemma node_dpart g p : In g G -> node_at rootF (d_name g :: p) = node_at (dgroup g) p.
Proof. intros I. cbn [node_at]. unfold sub_group. rewrite find_dpart by auto. reflexivity. Qed.

(** * Partitions *)
Lemma list_partitions_eq l : incl l (map fst (n_links rootF)) ->
  list_partitions rootF l = filter (fun n => negb (reserved n)) l.
Proof.
  induction l as [|n l IH]; intros H; auto. cbn [list_partitions filter].
  assert (I : In n (map fst (n_links rootF))) by (apply H; left; auto). rewrite IH by (intros x Ix; apply H; right; auto).
  unfold rootF in I. cbn [n_links] in I. rewrite map_app, map_map in I. apply in_app_iff in I as [I|I].
  - apply in_map_iff in I as (g & <- & I). cbn [pnode fst] in *. rewrite find_dpart by auto. unfold d_name. rewrite reserved_int.
    reflexivity.
  - destruct (glob_group _ I) as (g & Ig). rewrite (find_by_in n (n_links rootF) (LGroup g)).
    + destruct (glob_reserved _ I) as [->| ->]; reflexivity.
    + apply root_names_nodup.
    + unfold rootF. cbn [n_links]. apply in_app_iff. right. exact Ig.
Qed.
Lemma listed : exists G', Permutation G' G /\ list_partitions rootF (ord (map fst (n_links rootF))) = map d_name G'.
Proof.
  rewrite list_partitions_eq by (intros x Ix; apply (Permutation_in _ (ORD _)); auto).
  assert (P : Permutation (filter (fun n => negb (reserved n)) (ord (map fst (n_links rootF)))) (map d_name G)).
  { eapply Permutation_trans; [apply perm_filter, ORD|]. unfold rootF. cbn [n_links]. rewrite map_app, filter_app.
    replace (filter _ (map fst (glob o))) with (@nil bytes) by (destruct o as [[[|] [|]] [|]]; reflexivity). rewrite app_nil_r, map_map. cbn [pnode fst].
    assert (E : filter (fun n => negb (reserved n)) (map d_name G) = map d_name G).
    { clear. induction G as [|g l IH]; cbn [map filter]; auto. unfold d_name at 1. rewrite reserved_int. cbn [negb]. f_equal. auto. }
    change (fun x : dpart => d_name x) with (@d_name A). rewrite E. auto. }
  apply Permutation_map_inv in P as (G' & E & P). exists G'. split; [apply Permutation_sym; auto|auto].
Qed.

(** * Layers *)
Lemma dgroup_nodup g : In g G -> NoDup (map fst (n_links (dgroup g))).
Proof.
  intros I. pose proof (gok g I) as (_ & _ & ND & _ & _ & F). unfold dgroup, pgroup. cbn [n_links map fst]. rewrite map_map. cbn [lnode fst].
  constructor; auto. intros K. apply in_map_iff in K as (c & E & K). apply (proj1 (Forall_forall _ _) F) in K as (_ & _ & N & _). auto.
Qed.
Lemma find_lnode g c : In g G -> In c (d_ws g) -> find_by (c_layer c) (n_links (dgroup g)) = Some (LGroup (lgroup (c_field c))).
Proof.
  intros I K. apply find_by_in; [apply dgroup_nodup; auto|]. unfold dgroup, pgroup. cbn [n_links]. right. change (In (lnode c) (map lnode (d_ws g))). apply in_map; auto.
Qed.
Definition ncomps (c : hcall) : Z := if c_vec c then 3 else 1.
Lemma comps_read g c : In g G -> In c (d_ws g) -> layer_comps (LGroup (lgroup (c_field c))) = Ok (Some (ncomps c)).
Proof.
  intros I K. pose proof (gok g I) as (_ & _ & _ & _ & _ & F). apply (proj1 (Forall_forall _ _) F) in K as (_ & _ & _ & (_ & _ & _ & FC) & _).
  unfold layer_comps, lgroup, l_attrs. cbn [n_attrs app]. unfold get_str. cbn [find_by]. 
  change (cstr (str "class_type")) with k_type. rewrite beq_refl.
  change (bytes_eqb (cstr (str "field3d_layer")) (str "field3d_layer")) with true. cbn iota.
  unfold get_num. change (cstr (str "components")) with (str "components"). cbn [find_by].
  change (bytes_eqb k_type (str "components")) with false. change (bytes_eqb (str "class_name") (str "components")) with false. cbn iota.
  rewrite FC. cbn [negb Bool.eqb Nat.eqb]. destruct (list_eq_dec Nat.eq_dec [1%nat] [1%nat]) as [_|N]; [|congruence]. cbn [negb].
  rewrite dec_i32_enc by (destruct (c_vec c); reflexivity). reflexivity.
Qed.
Lemma list_layers_eq g : In g G -> forall l ws, filter (fun n => negb (bytes_eqb n k_mapping)) l = map c_layer ws -> incl ws (d_ws g) ->
  list_layers (dgroup g) l = Ok (map (fun c => (c_layer c, ncomps c)) ws).
Proof.
  intros I. induction l as [|n l IH]; intros ws E S.
  - destruct ws; [reflexivity|discriminate].
  - cbn [list_layers filter] in *. destruct (bytes_eqb_spec n k_mapping) as [->|N]; cbn [negb] in E.
    + assert (FM : find_by k_mapping (n_links (dgroup g)) = Some (LGroup (HNode (d_map g) []))).
      { unfold dgroup, pgroup. cbn [n_links find_by]. rewrite beq_refl. reflexivity. }
      rewrite FM. pose proof (gok g I) as (_ & _ & _ & _ & (_ & MT) & _).
      unfold layer_comps at 1, get_str at 1. cbn [n_attrs]. change (cstr (str "class_type")) with k_type. rewrite MT. cbn [bind].
      rewrite (IH ws E S). reflexivity.
    + destruct ws as [|c ws]; [discriminate|]. cbn [map] in E. injection E as -> E.
      assert (Ic : In c (d_ws g)) by (apply S; left; auto).
      rewrite find_lnode by auto. rewrite (comps_read g c) by auto. cbn [bind].
      rewrite (IH ws E) by (intros x Ix; apply S; right; auto). reflexivity.
Qed.
Lemma with_comps_eq (vec : bool) (ws : list hcall) : with_comps (if vec then 3 else 1) (map (fun c : hcall => (c_layer c, ncomps c)) ws) = of_kind vec ws.
Proof.
  unfold with_comps, of_kind. induction ws as [|c ws IH]; auto. cbn [map filter snd]. unfold ncomps at 1.
  destruct (c_vec c), vec; cbn [Z.eqb Pos.eqb Bool.eqb]; cbn [map fst]; rewrite IH; reflexivity.
Qed.
Lemma layers_listed g : In g G -> exists ws, Permutation ws (d_ws g) /\
  list_layers (dgroup g) (ord (map fst (n_links (dgroup g)))) = Ok (map (fun c => (c_layer c, ncomps c)) ws).
Proof.
  intros I. pose proof (gok g I) as (_ & _ & _ & _ & _ & F).
  assert (P : Permutation (filter (fun n => negb (bytes_eqb n k_mapping)) (ord (map fst (n_links (dgroup g))))) (map c_layer (d_ws g))).
  { eapply Permutation_trans; [apply perm_filter, ORD|]. unfold dgroup, pgroup. cbn [n_links map fst filter]. rewrite beq_refl. cbn [negb].
    rewrite map_map. cbn [lnode fst].
    assert (E : filter (fun n => negb (bytes_eqb n k_mapping)) (map c_layer (d_ws g)) = map c_layer (d_ws g)).
    { clear -F. induction F as [|c l (_ & _ & N & _) F IH]; cbn [map filter]; auto. rewrite beq_neq by auto. cbn [negb]. f_equal. auto. }
    change (fun x : hcall => c_layer x) with (@c_layer A). rewrite E. auto. }
  apply Permutation_map_inv in P as (ws & E & P). exists ws. split; [apply Permutation_sym; auto|].
  apply list_layers_eq; auto. intros x Ix. apply (Permutation_in _ (Permutation_sym P)); auto.
Qed.

(** * Opening *)
Lemma list_mappings_eq l : Forall rp_ok l -> list_mappings map_get rootF (map rp_name l) = Ok (Some (map bareh l)).
Proof.
  induction 1 as [|x l (I & MG & _) H IH]; auto. cbn [map list_mappings].
  pose proof (gsimple _ I) as SN.
  assert (E : g_open rootF (Some []) ([47] ++ rp_name x ++ [47] ++ k_mapping) = Some [rp_name x; k_mapping]).
  { unfold g_open. cbn [app]. rewrite start_root, comps_root. cbn [app]. rewrite comps_cons by auto. rewrite comps_simple by apply simple_mapping.
    cbn [cstr Z.eqb is_nil]. unfold rp_name. rewrite node_dpart by auto.
    reflexivity. }
  rewrite E. unfold attrs_at. unfold rp_name at 1. rewrite node_dpart by auto.
  replace (node_at (dgroup (rp_d x)) [k_mapping]) with (Some (@HNode A (d_map (rp_d x)) [])).
  2:{ cbn [node_at]. unfold sub_group, dgroup, pgroup. cbn [n_links find_by]. rewrite beq_refl. reflexivity. }
  cbn [n_attrs]. rewrite MG, IH. reflexivity.
Qed.
Lemma upd_r_split n f l1 (p : ihpart (M := M)) l2 : (forall q, In q l1 -> r_name q <> n) -> r_name p = n ->
  upd_r n f (l1 ++ p :: l2) = l1 ++ f p :: l2.
Proof.
  intros H E. induction l1 as [|q l1 IH]; cbn.
  - rewrite E, beq_refl. reflexivity.
  - rewrite beq_neq by (apply H; left; auto). f_equal. apply IH. intros r I. apply H. right; auto.
Qed.
Definition seen (x : rpart) : Prop :=
  rp_ok x /\ list_layers (dgroup (rp_d x)) (ord (map fst (n_links (dgroup (rp_d x))))) = Ok (map (fun c => (c_layer c, ncomps c)) (rp_ws x)).
Lemma add_layers_eq L2 : forall L1, NoDup (map rp_name (L1 ++ L2)) -> Forall seen L2 ->
  add_layers ord rootF (map rp_name L2) (map fullh L1 ++ map bareh L2) = Ok (map fullh (L1 ++ L2)).
Proof.
  induction L2 as [|x L2 IH]; intros L1 ND H; cbn [map add_layers].
  - rewrite app_nil_r, app_nil_r. reflexivity.
  - inversion H as [|? ? (OK & LL) H']; subst. destruct OK as (I & OK).
    assert (NA : node_at rootF ([] ++ [rp_name x]) = Some (dgroup (rp_d x))) by (cbn [app]; unfold rp_name; rewrite node_dpart by auto; reflexivity).
    rewrite (g_open_at rootF [] (rp_name x) _ (gsimple _ I) NA). rewrite NA, LL. cbn [bind].
    rewrite upd_r_split; auto.
    2:{ intros q Iq E. apply in_map_iff in Iq as (y & <- & Iy). cbn in E. rewrite map_app in ND. cbn in ND. apply NoDup_remove_2 in ND.
        apply ND. rewrite in_app_iff. left. rewrite <- E. apply in_map; auto. }
    cbn [bareh r_name r_map r_scalar r_vector app].
    pose proof (with_comps_eq false (rp_ws x)) as W1. pose proof (with_comps_eq true (rp_ws x)) as W3. cbn iota in W1, W3. rewrite W1, W3.
    replace (map fullh L1 ++ IHPart (rp_name x) (rp_m x) (of_kind false (rp_ws x)) (of_kind true (rp_ws x)) :: map bareh L2)
      with (map fullh (L1 ++ [x]) ++ map bareh L2) by (rewrite map_app, <- app_assoc; reflexivity).
    replace (L1 ++ x :: L2) with ((L1 ++ [x]) ++ L2) in * by (rewrite <- app_assoc; reflexivity). apply IH; auto.
Qed.

Hypothesis MO : match snd (fst o) with Some m => m = gm /\ storable_meta m | None => gm = meta_empty end.
Hypothesis VO : version_ok (HNode (A := A) va []) = Ok true.

Lemma seen_all l : incl l G -> exists L, map rp_d L = l /\ Forall seen L.
Proof.
  induction l as [|g l IH]; intros H; [exists []; split; auto; constructor|].
  destruct IH as (L & E & F); [intros x Ix; apply H; right; auto|]. assert (I : In g G) by (apply H; left; auto).
  pose proof (gok g I) as (_ & _ & _ & _ & ((m & MG) & _) & _). destruct (layers_listed g I) as (ws & P & LL).
  exists (RP g m ws :: L). split; [cbn; congruence|]. constructor; auto. split; [split; [auto|split; auto]|]. auto.
Qed.
Lemma names_nodup_perm L : Permutation (map rp_d L) G -> NoDup (map rp_name L).
Proof.
  intros P. unfold rp_name. rewrite <- (map_map rp_d d_name). apply (Permutation_NoDup (l := map d_name G)); [apply Permutation_map, Permutation_sym; auto|].
  pose proof root_names_nodup as ND. unfold rootF in ND. cbn [n_links] in ND. rewrite map_app in ND. 
  assert (X : NoDup (map fst (map (@pnode A) G))).
  { revert ND. generalize (map fst (map (@pnode A) G)) (map fst (glob o)). intros a b. induction a; cbn; intros ND; [constructor|]. inversion ND; subst.
    constructor; auto. intros K. apply H1. apply in_app_iff; auto. }
  rewrite map_map in X. exact X.
Qed.
Lemma open_eq : exists L, Permutation (map rp_d L) G /\ Forall seen L /\
  i_open ord map_get rootF i_new = Ok (IHFile (Some rootF) (map rp_name L) (map fullh L) gm, true).
Proof.
  destruct listed as (G' & P & LP). destruct (seen_all G') as (L & E & F); [intros x Ix; apply (Permutation_in _ P); auto|].
  exists L. rewrite E. split; auto. split; auto. unfold i_open. change (version_ok rootF) with (version_ok (HNode (A := A) va [])). rewrite VO. cbn [bind negb].
  assert (GM : match find_by k_global (n_links rootF) with
               | Some (LGroup g) => get_meta (n_attrs g) (i_meta (@i_new A M)) | _ => Ok (i_meta (@i_new A M)) end = Ok gm).
  { unfold rootF. cbn [n_links]. rewrite find_by_app, find_by_none by apply global_fresh. cbn [i_meta i_new].
    destruct o as [[a g] b]. cbn [snd fst] in MO.
    assert (FN : forall x, find_by k_global (memb x) = None) by (intros []; reflexivity).
    unfold glob. rewrite !find_by_app, FN. destruct g as [m|]; cbn [find_by].
    - destruct MO as (<- & SM). rewrite beq_refl. cbn [n_attrs]. apply storable_round; auto.
    - replace (find_by k_global (match a with Some _ => [] | None => memb b end)) with (@None hlink) by (destruct a; auto).
      rewrite MO. reflexivity. }
  rewrite GM. cbn [bind]. rewrite LP. cbn [i_names i_new app].
  assert (EN : map d_name G' = map rp_name L) by (rewrite <- E, map_map; reflexivity). rewrite EN.
  rewrite list_mappings_eq by (eapply Forall_impl; [|exact F]; intros x (X & _); auto). cbn [bind].
  pose proof (add_layers_eq L []) as AL. cbn [app map] in AL. rewrite AL; auto. apply names_nodup_perm. rewrite E. auto.
Qed.

(** * Reading layers *)
Section L.
Variable L : list rpart.
Hypothesis PL : Permutation (map rp_d L) G.
Hypothesis SL : Forall seen L.
Definition fin : ihfile := IHFile (Some rootF) (map rp_name L) (map fullh L) gm.
Definition mk_layer (x : rpart) (c : hcall) : hlayer :=
  HLayer (d_user (rp_d x)) (c_layer c) (hf_class (c_field c)) (lgroup (c_field c)) (rp_m x) (hf_meta (c_field c)).

Lemma find_full x : In x L -> find_r (rp_name x) (map fullh L) = Some (fullh x).
Proof.
  intros I. pose proof (names_nodup_perm L PL) as ND. clear -I ND. unfold find_r. induction L as [|y l IH]; [destruct I|]. cbn [map find].
  cbn [fullh r_name]. inversion ND; subst. destruct I as [->|I]; [rewrite beq_refl; auto|]. rewrite beq_neq; auto.
  intros E. apply H1. rewrite E. apply in_map; auto.
Qed.
Lemma l_in x : In x L -> In (rp_d x) G.
Proof. intros I. apply (proj1 (Forall_forall _ _) SL) in I as ((X & _) & _). auto. Qed.
Lemma layer_eq x c : In x L -> In c (rp_ws x) -> i_layer fin (c_vec c) (rp_name x) (c_layer c) = Ok (Some (mk_layer x c)).
Proof.
  intros Ix Ic. unfold i_layer. cbn [fin i_parts i_root]. rewrite find_full by auto.
  assert (EX : existsb (bytes_eqb (c_layer c)) (r_layers (c_vec c) (fullh x)) = true).
  { apply existsb_exists. exists (c_layer c). split; [|apply beq_refl].
    assert (K : In (c_layer c) (of_kind (c_vec c) (rp_ws x))) by (apply in_kind; eauto). destruct (c_vec c); exact K. }
  rewrite EX. cbn [negb].
  pose proof (proj1 (Forall_forall _ _) SL x Ix) as ((Ig & MG & PW) & _).
  assert (Ic' : In c (d_ws (rp_d x))) by (apply (Permutation_in _ PW); auto).
  pose proof (gok _ Ig) as (_ & _ & _ & _ & _ & F). apply (proj1 (Forall_forall _ _) F) in Ic' as HC. destruct HC as (CU & CS & CM & (SM & CZ & HO & FC) & CI).
  pose proof (gsimple _ Ig) as SN. fold (rp_name x) in SN.
  assert (CS0 : cstr (rp_name x ++ 47 :: c_layer c) = rp_name x ++ 47 :: c_layer c).
  { destruct SN as (_ & _ & S0 & _), CS as (_ & _ & T0 & _). apply cstr_id. rewrite in_app_iff. cbn. intuition lia. }
  assert (NN : forall r, is_nil (rp_name x ++ r) = false) by (intros r; destruct SN as (S0 & _); destruct (rp_name x); [congruence|reflexivity]).
  assert (NL : node_at rootF [rp_name x; c_layer c] = Some (lgroup (c_field c))).
  { unfold rp_name. rewrite node_dpart by auto. cbn [node_at]. unfold sub_group. rewrite find_lnode by auto. reflexivity. }
  assert (GO : g_open rootF (Some []) (rp_name x ++ [47] ++ c_layer c) = Some [rp_name x; c_layer c]).
  { unfold g_open. cbn [app]. rewrite start_root, comps_cons, comps_simple by auto. rewrite CS0, NN. cbn [app]. rewrite NL. reflexivity. }
  rewrite GO, NL.
  assert (CN : get_str (n_attrs (lgroup (c_field c))) (str "class_name") = Ok (hf_class (c_field c))).
  { unfold get_str, lgroup, l_attrs. cbn [n_attrs app find_by]. change (cstr (str "class_name")) with (str "class_name").
    change (bytes_eqb k_type (str "class_name")) with false. cbn iota. rewrite beq_refl. unfold cls_val. f_equal.
    destruct (hf_class (c_field c)) eqn:HC; auto. apply cstr_id; auto. }
  rewrite CN. cbn [bind].
  assert (NM : node_at rootF [rp_name x; c_layer c; k_meta] = Some (meta_group (c_field c))).
  { change [rp_name x; c_layer c; k_meta] with ([rp_name x; c_layer c] ++ [k_meta]). rewrite node_at_app, NL. cbn [node_at]. unfold sub_group, lgroup. cbn [n_links find_by].
    rewrite beq_refl. reflexivity. }
  assert (GM : g_open rootF (Some []) ((rp_name x ++ [47] ++ c_layer c) ++ [47] ++ str "metadata") = Some [rp_name x; c_layer c; k_meta]).
  { unfold g_open. rewrite start_root. rewrite <- app_assoc. cbn [app]. rewrite comps_cons by auto. rewrite comps_cons by auto. change (str "metadata") with k_meta.
    rewrite comps_simple by apply simple_meta.
    replace (is_nil (cstr (rp_name x ++ 47 :: c_layer c ++ 47 :: k_meta))) with false.
    - cbn [app]. rewrite NM. reflexivity.
    - rewrite cstr_app by apply SN. symmetry. apply NN. }
  rewrite GM. unfold attrs_at. rewrite NM. cbn [meta_group n_attrs]. destruct (storable_round _ SM) as (_ & RM). rewrite RM. cbn [bind].
  unfold mk_layer. do 2 f_equal. unfold rp_name, d_name. rewrite remove_int. reflexivity.
Qed.
Lemma named_eq x vec keep l : In x L -> incl l (rp_ws x) -> (forall c, In c l -> c_vec c = vec) ->
  i_named fin vec (rp_name x) keep (map c_layer l) = Ok (map (mk_layer x) (filter (fun c => keep (c_layer c)) l)).
Proof.
  intros Ix. induction l as [|c l IH]; intros S K; auto. cbn [map i_named filter].
  rewrite IH; [|intros y Iy; apply S; right; auto|intros y Iy; apply K; right; auto].
  destruct (keep (c_layer c)); auto. rewrite <- (K c) by (left; auto). rewrite layer_eq; auto. apply S. left; auto.
Qed.
Definition picks (vec : bool) (want keep : bytes -> bool) (x : rpart) : list hcall :=
  if want (rp_name x) then filter (fun c => keep (c_layer c)) (filter (fun c => Bool.eqb (c_vec c) vec) (rp_ws x)) else [].
Lemma each_eq vec want keep l : incl l L ->
  i_each fin vec (map rp_name l) want keep = Ok (flat_map (fun x => map (mk_layer x) (picks vec want keep x)) l).
Proof.
  induction l as [|x l IH]; intros S; auto. cbn [map i_each flat_map].
  assert (Ix : In x L) by (apply S; left; auto). rewrite IH by (intros y Iy; apply S; right; auto).
  assert (PE : picks vec want keep x = if want (rp_name x) then filter (fun c => keep (c_layer c)) (filter (fun c => Bool.eqb (c_vec c) vec) (rp_ws x)) else []) by reflexivity.
  rewrite PE. clear PE. destruct (want (rp_name x)); [|reflexivity].
  cbn [fin i_parts]. rewrite find_full by auto.
  replace (r_layers vec (fullh x)) with (of_kind vec (rp_ws x)) by (destruct vec; reflexivity). unfold of_kind.
  fold fin. rewrite named_eq; auto.
  - intros y Iy. apply filter_In in Iy as (Iy & _). auto.
  - intros c Ic. apply filter_In in Ic as (_ & Ec). apply Bool.eqb_prop in Ec. auto.
Qed.
Lemma l_perm : Permutation (flat_map rp_ws L) acc.
Proof.
  eapply Permutation_trans; [|apply (v_perm _ _ _ _ _ _ _ _ _ V)].
  eapply Permutation_trans; [|apply perm_flat_map; exact PL]. clear -SL. induction SL as [|x l ((_ & _ & P) & _) F IH]; cbn; auto. apply Permutation_app; auto.
Qed.
Lemma reads_mk x c : In x L -> In c (rp_ws x) -> h_reads_as ident map_put map_get hp (mk_layer x c) c.
Proof.
  intros Ix Ic. pose proof (proj1 (Forall_forall _ _) SL x Ix) as ((Ig & MG & PW) & _).
  assert (Ic' : In c (d_ws (rp_d x))) by (apply (Permutation_in _ PW); auto).
  pose proof (gok _ Ig) as (_ & _ & _ & MP & _ & F). apply (proj1 (Forall_forall _ _) F) in Ic' as HC. destruct HC as (CU & CS & CM & FO & CI).
  unfold h_reads_as, mk_layer. cbn [y_name y_attr y_class y_meta y_group y_map]. split; auto. do 3 (split; auto).
  split; [unfold lgroup, l_attrs; cbn [app]; do 3 eexists; reflexivity|]. exists (d_ref (rp_d x)), (d_map (rp_d x)). auto.
Qed.
Lemma each_source vec want keep p :
  (forall x c, In x L -> In c (rp_ws x) -> (want (rp_name x) && (Bool.eqb (c_vec c) vec && keep (c_layer c))) = p c) ->
  exists layers source, i_each fin vec (map r_name (i_parts fin)) want keep = Ok layers /\
    Permutation source (filter p acc) /\ Forall2 (h_reads_as ident map_put map_get hp) layers source.
Proof.
  intros H. cbn [fin i_parts]. rewrite map_map. change (fun x => r_name (fullh x)) with rp_name. rewrite each_eq by (intros y Iy; auto).
  eexists; exists (flat_map (picks vec want keep) L). split; [reflexivity|]. split.
  - eapply Permutation_trans; [|apply perm_filter, l_perm]. rewrite filter_flat_map.
    assert (E : forall l, incl l L -> flat_map (picks vec want keep) l = flat_map (fun x => filter p (rp_ws x)) l).
    { induction l as [|x l IH]; intros S; auto. cbn [flat_map]. rewrite IH by (intros y Iy; apply S; right; auto). f_equal.
      assert (Ix : In x L) by (apply S; left; auto). unfold picks. rewrite filter_filter.
      transitivity (filter (fun c => want (rp_name x) && (Bool.eqb (c_vec c) vec && keep (c_layer c))) (rp_ws x)).
      - destruct (want (rp_name x)); auto. clear. induction (rp_ws x); auto.
      - apply filter_ext_in. intros c Ic. apply H; auto. }
    rewrite E by (intros y Iy; auto). auto.
  - assert (E : forall l, incl l L -> Forall2 (h_reads_as ident map_put map_get hp) (flat_map (fun x => map (mk_layer x) (picks vec want keep x)) l) (flat_map (picks vec want keep) l)).
    { induction l as [|x l IH]; intros S; cbn [flat_map]; [constructor|]. apply Forall2_app; [|apply IH; intros y Iy; apply S; right; auto].
      assert (Ix : In x L) by (apply S; left; auto).
      assert (K : incl (picks vec want keep x) (rp_ws x)).
      { unfold picks. destruct (want (rp_name x)); [|intros ? []]. intros c Ic. apply filter_In in Ic as (Ic & _). apply filter_In in Ic as (Ic & _). auto. }
      revert K. generalize (picks vec want keep x). induction l0 as [|c l0 IH0]; intros K; cbn [map]; constructor.
      - apply reads_mk; auto. apply K. left; auto.
      - apply IH0. intros y Iy. apply K. right; auto. }
    apply E. intros y Iy; auto.
Qed.
Lemma user_of x c : In x L -> In c (rp_ws x) -> remove_id (rp_name x) = c_user c.
Proof.
  intros Ix Ic. destruct (reads_mk x c Ix Ic) as (E & _). cbn in E. unfold rp_name, d_name. rewrite remove_int. auto.
Qed.
Lemma layers_eq vec P Q : P <> [] -> Q <> [] ->
  exists layers source, i_layers fin vec P Q = Ok layers /\
    Permutation source (filter (fun c => Bool.eqb (c_vec c) vec && bytes_eqb (c_user c) P && bytes_eqb (c_layer c) Q) acc) /\
    Forall2 (h_reads_as ident map_put map_get hp) layers source.
Proof.
  intros NP NQ. unfold i_layers. destruct Q as [|q Q]; [congruence|]. destruct P as [|p P]; [congruence|]. cbn [is_nil orb].
  apply each_source. intros x c Ix Ic. rewrite (user_of x c) by auto. rewrite andb_assoc. f_equal. apply andb_comm.
Qed.
Lemma layers_all_eq vec Q : exists layers source, i_layers_all fin vec Q = Ok layers /\
    Permutation source (filter (fun c => Bool.eqb (c_vec c) vec && (is_nil Q || bytes_eqb (c_layer c) Q)) acc) /\
    Forall2 (h_reads_as ident map_put map_get hp) layers source.
Proof. unfold i_layers_all. apply each_source. intros x c Ix Ic. reflexivity. Qed.

(** * Listing *)
Lemma in_parts u : In u (map (fun x => d_user (rp_d x)) L) <-> In u (map d_user G).
Proof.
  rewrite <- (map_map rp_d d_user). split; apply Permutation_in; [|apply Permutation_sym]; apply Permutation_map; exact PL.
Qed.
Lemma partition_names_ok : increasing (i_partition_names fin) /\ forall u, In u (i_partition_names fin) <-> In u (map d_user G).
Proof.
  unfold i_partition_names. split; [apply unique_ok|]. intros u. rewrite (proj2 (unique_ok _)). cbn [fin i_parts]. rewrite map_map. rewrite <- in_parts.
  assert (E : map (fun x => remove_id (r_name (fullh x))) L = map (fun x => d_user (rp_d x)) L).
  { apply map_ext. intros x. cbn. unfold rp_name, d_name. apply remove_int. }
  rewrite E. tauto.
Qed.
Lemma acc_users c : In c acc -> In (c_user c) (map d_user G).
Proof.
  intros I. apply (Permutation_in _ (Permutation_sym l_perm)) in I. apply in_flat_map in I as (x & Ix & Ic).
  apply in_parts. apply in_map_iff. exists x. split; auto. destruct (reads_mk x c Ix Ic) as (E & _). auto.
Qed.
Lemma num_ok u : i_num fin u = List.length (d_of u G).
Proof.
  unfold i_num. cbn [fin i_parts].
  assert (E : List.length (d_of u (map rp_d L)) = List.length (d_of u G)) by (apply Permutation_length, perm_filter; exact PL). rewrite <- E.
  clear. unfold d_of. induction L as [|x l IH]; auto. cbn [map filter fullh r_name]. unfold rp_name at 1, d_name at 1. rewrite before_int.
  destruct (bytes_eqb (d_user (rp_d x)) u); cbn [List.length]; congruence.
Qed.
Lemma layer_names_ok vec u : fresh -> increasing (i_layer_names fin vec u) /\
  forall n, In n (i_layer_names fin vec u) <-> exists c, In c acc /\ c_vec c = vec /\ c_user c = u /\ c_layer c = n.
Proof.
  intros FR. unfold i_layer_names. split; [apply unique_ok|]. intros n. rewrite (proj2 (unique_ok _)), in_flat_map, num_ok.
  destruct (v_contig _ _ _ _ _ _ _ _ _ V FR u) as (C & _). rewrite <- C. split.
  - intros (i & Ii & I). apply in_map_iff in Ii as (g & <- & Ig). apply filter_In in Ig as (Ig & Eu). destruct (bytes_eqb_spec (d_user g) u) as [<-|]; [|discriminate].
    fold (d_name g) in I. assert (X : In g (map rp_d L)) by (apply (Permutation_in _ (Permutation_sym PL)); auto). apply in_map_iff in X as (x & <- & Ix).
    cbn [fin i_parts] in I. fold (rp_name x) in I. rewrite find_full in I by auto.
    replace (r_layers vec (fullh x)) with (of_kind vec (rp_ws x)) in I by (destruct vec; reflexivity). apply in_kind in I as (c & Ic & Ev & En).
    exists c. split; [apply (Permutation_in _ l_perm), in_flat_map; eauto|]. split; auto. split; auto. destruct (reads_mk x c Ix Ic) as (E & _). auto.
  - intros (c & Ic & Ev & Eu & En). apply (Permutation_in _ (Permutation_sym l_perm)) in Ic. apply in_flat_map in Ic as (x & Ix & Ic).
    destruct (reads_mk x c Ix Ic) as (E & _). cbn in E.
    exists (d_idx (rp_d x)). split.
    + apply in_map. apply filter_In. split; [apply l_in; auto|]. rewrite E, Eu. apply beq_refl.
    + replace (int_partition u (d_idx (rp_d x))) with (rp_name x) by (unfold rp_name, d_name; congruence). cbn [fin i_parts]. rewrite find_full by auto.
      replace (r_layers vec (fullh x)) with (of_kind vec (rp_ws x)) by (destruct vec; reflexivity). apply in_kind. eauto.
Qed.
End L.
End R.
