From Coq Require Import ZArith List Bool String Lia Arith Permutation Sorted.
From Verif Require Import Model.Base Model.FieldM Model.DenseM Model.SparseM Model.OgawaM Spec.OgawaSpec Model.OgM Spec.OgSpec Proof.OgP
  Model.FieldIOM Spec.FieldIOSpec Proof.FieldIOP Model.FileM Spec.FileSpec Proof.FileP Proof.FileP2 Model.MetaM Spec.MetaSpec Proof.MetaP Props.MetaProps
  Model.MipIOM Proof.MipIOP Model.ProxyM Spec.ProxySpec Proof.ProxyP.
Import ListNotations.
Open Scope Z_scope.

(** * Lists *)
Ltac perm_eq := match goal with |- Permutation ?a ?b => assert (EQ : a = b); [|rewrite EQ; apply Permutation_refl] end.
Lemma filter_disjoint {A} (p q : A -> bool) l : (forall a, p a = true -> q a = false) ->
  Permutation (filter p l ++ filter q l) (filter (fun a => p a || q a) l).
Proof.
  intros D. induction l as [|a l IH]; cbn; auto. pose proof (D a). destruct (p a); cbn.
  - rewrite H by auto. cbn. auto.
  - destruct (q a); auto. rewrite <- Permutation_middle. auto.
Qed.
Lemma perm_keys {A} (key : A -> bytes) ks : NoDup ks -> forall l,
  Permutation (flat_map (fun k => filter (fun a => bytes_eqb (key a) k) l) ks) (filter (fun a => existsb (bytes_eqb (key a)) ks) l).
Proof.
  induction 1 as [|k ks N ND IH]; intros l; cbn [flat_map existsb].
  - induction l; cbn; auto.
  - rewrite IH. apply filter_disjoint. intros a E. destruct (bytes_eqb_spec (key a) k) as [<-|]; try discriminate.
    destruct (existsb (bytes_eqb (key a)) ks) eqn:X; auto. apply existsb_exists in X as (y & I & E').
    destruct (bytes_eqb_spec (key a) y) as [<-|]; try discriminate. contradiction.
Qed.
Lemma filter_filter {A} (p q : A -> bool) l : filter p (filter q l) = filter (fun a => q a && p a) l.
Proof. induction l as [|a l IH]; cbn; auto. destruct (q a); cbn; [destruct (p a)|]; congruence. Qed.
Lemma flat_map_if {A B} (c : A -> bool) (h : A -> list B) l : flat_map (fun a => if c a then h a else []) l = flat_map h (filter c l).
Proof. induction l as [|a l IH]; cbn; auto. destruct (c a); cbn; congruence. Qed.
Lemma flat_map_perm {A B} (h k : A -> list B) l : (forall a, In a l -> Permutation (h a) (k a)) -> Permutation (flat_map h l) (flat_map k l).
Proof. induction l as [|a l IH]; cbn; auto. intros H. apply Permutation_app; [apply H; auto|apply IH; intros; apply H; auto]. Qed.
Lemma increasing_nodup l : increasing l -> NoDup l.
Proof.
  induction 1 as [|a l S IH F]; constructor; auto. intros I. pose proof (proj1 (Forall_forall _ _) F a I) as X. cbv beta in X. rewrite ltb_irrefl in X. discriminate.
Qed.
Lemma flat_mmap_ok {A B C} (R : B -> C -> Prop) (g : A -> res (list B)) (s : A -> list C) l :
  (forall a, In a l -> exists bs, g a = Ok bs /\ Forall2 R bs (s a)) ->
  exists bs, flat_mmap g l = Ok bs /\ Forall2 R bs (flat_map s l).
Proof.
  induction l as [|a l IH]; intros H; [exists []; split; [auto|constructor]|].
  destruct (H a (or_introl eq_refl)) as (b & E & F). destruct IH as (bs & E2 & F2); [intros; apply H; right; auto|].
  exists (b ++ bs). cbn [flat_mmap flat_map]. rewrite E. cbn [bind]. rewrite E2. split; auto. apply Forall2_app; auto.
Qed.

Section W.
Context {M V : Type}.
Variable ident : M -> M -> bool.
Variable map_kids : M -> list tree.
Variable hp : nat -> M.
Variables (fresh : Prop) (f : ofile) (G : list gpart) (acc : list wr) (version : bytes) (globals : option (list tree)).
Hypothesis I0 : inv ident map_kids hp fresh f G acc.
Let t : tree := file_tree version f globals.
Notation full := (full map_kids hp).
Notation opened := (opened map_kids hp).
Definition described (w : wr) : Prop := exists e dw levels h, writes w e dw levels h.
Definition sources (u la : bytes) : list wr :=
  flat_map (fun g => if bytes_eqb (g_user g) u then filter (fun w => bytes_eqb (w_layer w) la) (g_ws g) else []) G.

Lemma sources_perm u la : Permutation (sources u la) (filter (fun w => bytes_eqb (w_user w) u && bytes_eqb (w_layer w) la) acc).
Proof.
  rewrite <- (perm_filter _ _ _ (i_perm _ _ _ _ _ _ _ I0)). rewrite filter_flat. apply Permutation_refl'. unfold sources.
  pose proof (i_ok _ _ _ _ _ _ _ I0) as OK. clear -OK. induction OK as [|g l (A & B & C & D) OK IH]; cbn [flat_map]; auto. f_equal; auto.
  clear -D. destruct (bytes_eqb (g_user g) u) eqn:E.
  - induction D as [|w l (Du & _) D IH]; cbn; auto. rewrite Du, E. cbn. destruct (bytes_eqb (w_layer w) la); congruence.
  - induction D as [|w l (Du & _) D IH]; cbn; auto. rewrite Du, E. cbn. auto.
Qed.
Lemma made_proxy g w p : In g G -> In w (g_ws g) -> made_of p (opened g w) -> @proxy_for V M ident map_kids hp p w.
Proof.
  intros I Iw H. pose proof (opened_reads ident map_kids hp fresh f G acc I0 g w I Iw) as (N & A & E & Mp).
  pose proof (proxy_of_inv _ _ _ _ _ H) as (Pn & Pa & Pm & _). split; [congruence|]. split; [congruence|]. split.
  - rewrite Pm. exact Mp.
  - intros e dw levels h W. apply (made_stored (opened g w) w); auto.
    pose proof (proj1 (Forall_forall _ _) (i_ok _ _ _ _ _ _ _ I0) g I) as (_ & _ & _ & D).
    pose proof (proj1 (Forall_forall _ _) D w Iw) as (_ & U & _). apply U.
Qed.
Lemma proxy_layers_eq g la l : In g G -> incl l (g_ws g) -> (forall w, In w l -> w_layer w = la -> described w) ->
  exists ps, proxy_layers t (map full G) (g_name g) (g_user g) la (map w_layer l) = Ok (Some ps) /\
    Forall2 (@proxy_for V M ident map_kids hp) ps (filter (fun w => bytes_eqb (w_layer w) la) l).
Proof.
  intros I. induction l as [|w l IH]; intros H K; [exists []; split; [reflexivity|constructor]|]. cbn [map proxy_layers filter].
  destruct IH as (ps & E & F); [intros x Ix; apply H; right; auto|intros x Ix; apply K; right; auto|].
  destruct (bytes_eqb_spec (w_layer w) la) as [<-|]; [|exists ps; auto].
  assert (Iw : In w (g_ws g)) by (apply H; left; auto).
  rewrite (find_full ident map_kids hp fresh f G acc I0 g I). cbn [FileP.full ip_layers ip_map].
  replace (existsb (bytes_eqb (w_layer w)) (map w_layer (g_ws g))) with true.
  2:{ symmetry. apply existsb_exists. exists (w_layer w). split; [apply in_map; auto|apply beq_refl]. }
  cbn [negb]. rewrite (find_gpart ident map_kids hp fresh f G acc version globals I0) by auto. cbn [bind].
  rewrite (find_layer ident map_kids hp fresh f G acc I0) by auto. cbn [bind].
  destruct (K w (or_introl eq_refl) eq_refl) as (e & dw & lv & h & W).
  pose proof (proj1 (Forall_forall _ _) (i_ok _ _ _ _ _ _ _ I0) g I) as (_ & _ & _ & D).
  pose proof (proj1 (Forall_forall _ _) D w Iw) as (_ & U & _).
  destruct (@made_exists V (opened g w) w e dw lv h) as (p & P); [apply U|reflexivity|exact W|].
  exists (p :: ps). pose proof P as P'. unfold made_of in P'. cbn [FileP.opened il_group il_name il_attr il_map] in P'.
  rewrite P'. cbn [bind]. rewrite E. cbn [bind option_map]. split; auto. constructor; auto. eapply made_proxy; eauto.
Qed.
Lemma proxy_parts_eq v u la l : incl l G -> (forall w, In w acc -> w_user w = u -> w_layer w = la -> described w) ->
  exists ps, proxy_parts v t (map full G) u la (map g_name l) = Ok (Some ps) /\
    Forall2 (@proxy_for V M ident map_kids hp) ps
      (flat_map (fun g => if bytes_eqb (g_user g) u then filter (fun w => bytes_eqb (w_layer w) la) (g_ws g) else []) l).
Proof.
  intros H K. induction l as [|g l IH]; [exists []; split; [reflexivity|constructor]|]. cbn [map proxy_parts flat_map].
  destruct IH as (ps & E & F); [intros x Ix; apply H; right; auto|].
  assert (I : In g G) by (apply H; left; auto). unfold g_name at 1. rewrite remove_int.
  destruct (bytes_eqb_spec (g_user g) u) as [<-|]; [|exists ps; auto].
  unfold int_layer_names. rewrite (find_full ident map_kids hp fresh f G acc I0 g I). cbn [FileP.full ip_layers].
  destruct (proxy_layers_eq g la (g_ws g) I) as (qs & E2 & F2); [intros ? ?; auto| |].
  { intros w Iw L. pose proof (proj1 (Forall_forall _ _) (i_ok _ _ _ _ _ _ _ I0) g I) as (_ & _ & _ & D).
    pose proof (proj1 (Forall_forall _ _) D w Iw) as (U & _). apply K; auto.
    apply (Permutation_in _ (i_perm _ _ _ _ _ _ _ I0)). apply in_flat_map. eauto. }
  rewrite E2. cbn [bind]. rewrite E. cbn [bind option_map]. exists (qs ++ ps). split; auto. apply Forall2_app; auto.
Qed.
Lemma names_eq : map ip_name (map full G) = map g_name G.
Proof. rewrite map_map. apply map_ext. reflexivity. Qed.
Lemma read_proxy_eq v u la : u <> [] -> la <> [] -> (forall w, In w acc -> w_user w = u -> w_layer w = la -> described w) ->
  exists ps, read_proxy v t (map full G) u la = Ok ps /\ Forall2 (@proxy_for V M ident map_kids hp) ps (sources u la).
Proof.
  intros Nu Nl K. unfold read_proxy. assert (is_nil la || is_nil u = false) as -> by (destruct u, la; try congruence; reflexivity).
  rewrite names_eq. destruct (proxy_parts_eq v u la G) as (ps & E & F); [intros ? ?; auto|auto|]. rewrite E. cbn [bind]. eauto.
Qed.
End W.

Section All.
Context {M V : Type}.
Variable ident : M -> M -> bool.
Variable map_kids : M -> list tree.
Variable hp : nat -> M.
Variables (f : ofile) (G : list gpart) (acc : list wr) (version : bytes) (globals : option (list tree)).
Hypothesis I0 : inv ident map_kids hp True f G acc.
Let t : tree := file_tree version f globals.

Lemma read_proxies_eq v name : (forall w, In w acc -> is_nil name || bytes_eqb (w_layer w) name = true -> described w) ->
  exists ps src, read_proxies_all v t name = Ok ps /\
    Permutation src (filter (fun w => negb (is_nil (w_user w)) && (is_nil name || bytes_eqb (w_layer w) name)) acc) /\
    Forall2 (@proxy_for V M ident map_kids hp) ps src.
Proof.
  intros K. unfold read_proxies_all.
  pose proof (partition_names_eq ident map_kids hp f G acc version globals True I0) as (parts & PN & PI & PA & _).
  pose proof (layer_names_eq ident map_kids hp f G acc version globals) as LN.
  unfold layer_names_in in LN. fold t in PN, LN.
  pose proof (read_info_eq ident map_kids hp True f G acc version globals I0) as RI. fold t in RI. rewrite RI in LN. rewrite RI. cbn [bind] in LN |- *.
  rewrite PN. cbn [bind].
  set (names := layer_names_of (map (full map_kids hp) G)) in *.
  assert (LNS : forall u, increasing (names u) /\ forall la, In la (names u) <-> exists w, In w acc /\ w_user w = u /\ w_layer w = la).
  { intros u. destruct (LN u I0) as (l & [= <-] & A & B). auto. }
  clear LN.
  assert (US : forall w, In w acc -> usable w).
  { intros w Iw. apply (Permutation_in _ (Permutation_sym (i_perm _ _ _ _ _ _ _ I0))) in Iw. apply in_flat_map in Iw as (g & Ig & Iw).
    pose proof (proj1 (Forall_forall _ _) (i_ok _ _ _ _ _ _ _ I0) g Ig) as (_ & _ & _ & D). apply (proj1 (Forall_forall _ _) D w Iw). }
  set (cond := fun n => is_nil name || bytes_eqb n name) in *.
  set (src1 := fun p n => if is_nil p then [] else sources G p n).
  assert (IN : forall p, exists bs,
    flat_mmap (fun n => if cond n then read_proxy (V := V) v t (map (full map_kids hp) G) p n else Ok []) (names p) = Ok bs /\
    Forall2 (@proxy_for V M ident map_kids hp) bs (flat_map (fun n => if cond n then src1 p n else []) (names p))).
  { intros p. apply flat_mmap_ok. intros n In_. destruct (cond n) eqn:C; [|exists []; split; [auto|constructor]].
    apply LNS in In_ as (w & Iw & Uw & Lw). unfold src1. destruct p as [|b p].
    - exists []. split; [|constructor]. unfold read_proxy. rewrite orb_true_r. reflexivity.
    - cbn [is_nil]. apply (read_proxy_eq ident map_kids hp True f G acc version globals I0); [discriminate| |].
      + destruct (US w Iw) as (_ & (N & _) & _). congruence.
      + intros w' Iw' U' L'. apply K; auto. rewrite L'. exact C. }
  edestruct (flat_mmap_ok (@proxy_for V M ident map_kids hp)
    (fun p => flat_mmap (fun n => if cond n then read_proxy (V := V) v t (map (full map_kids hp) G) p n else Ok []) (names p))
    (fun p => flat_map (fun n => if cond n then src1 p n else []) (names p)) parts) as (ps & E & F); [intros; apply IN|].
  exists ps. eexists. split; [exact E|]. split; [|exact F].
  (* each accepted call once *)
  rewrite (flat_map_perm _ (fun p => filter (fun w => bytes_eqb (w_user w) p) (filter (fun w => negb (is_nil (w_user w)) && cond (w_layer w)) acc))).
  - rewrite perm_keys by now apply increasing_nodup. perm_eq.
    rewrite filter_filter. apply filter_ext_in. intros w Iw.
    replace (existsb (bytes_eqb (w_user w)) parts) with true; [apply andb_true_r|].
    symmetry. apply existsb_exists. exists (w_user w). split; [auto|apply beq_refl].
  - intros p _. rewrite flat_map_if.
    destruct p as [|b p].
    + transitivity (@nil wr).
      * perm_eq. unfold src1. cbn [is_nil]. induction (filter cond (names [])); cbn; auto.
      * perm_eq. rewrite filter_filter. symmetry. clear. induction acc as [|w l IH]; auto. cbn [filter].
        destruct (w_user w); cbn; auto. rewrite andb_false_r. auto.
    + unfold src1. cbn [is_nil]. set (P := b :: p) in *.
      rewrite (flat_map_perm _ (fun n => filter (fun w => bytes_eqb (w_layer w) n) (filter (fun w => bytes_eqb (w_user w) P) acc))).
      2:{ intros n _. rewrite filter_filter. apply (sources_perm ident map_kids hp True f G acc I0). }
      rewrite perm_keys by (apply NoDup_filter, increasing_nodup, LNS). perm_eq.
      rewrite !filter_filter. apply filter_ext_in. intros w Iw. destruct (bytes_eqb_spec (w_user w) P) as [E'|]; [|rewrite andb_false_r; reflexivity].
      rewrite E'. unfold P at 2. cbn [is_nil negb andb]. rewrite andb_true_r.
      destruct (cond (w_layer w)) eqn:C.
      * apply existsb_exists. exists (w_layer w). split; [|apply beq_refl]. apply filter_In. split; auto. apply LNS. eauto.
      * destruct (existsb _ _) eqn:X; auto. apply existsb_exists in X as (y & Iy & Ey).
        destruct (bytes_eqb_spec (w_layer w) y) as [<-|]; try discriminate. apply filter_In in Iy as (_ & C'). congruence.
Qed.
End All.
