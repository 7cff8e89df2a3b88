From Coq Require Import ZArith List Bool String Lia Arith.
From Verif Require Import Model.Base Model.FieldM Model.OgawaM Spec.OgawaSpec Proof.OgawaP Model.OgM Spec.OgSpec Proof.OgP Model.FieldIOM Spec.FieldIOSpec
  Proof.FieldIOP Model.FileM Proof.FileP Model.MipIOM Proof.MipIOP
  Model.Hdf5M Spec.Hdf5Spec Model.Hdf5FileM Spec.Hdf5MetaSpec Proof.Hdf5MetaP Proof.Hdf5FileP Proof.Hdf5MapP Props.Hdf5FileProps Model.MipH5M Spec.MipH5Spec.
Import ListNotations.
Open Scope Z_scope.

(** * Paths *)
Lemma split_app a : forall cur b, split_path cur (a ++ 47 :: b) = split_path cur a ++ split_path [] b.
Proof. induction a as [|x a IH]; intros cur b; cbn; auto. destruct (x =? 47); [rewrite IH; reflexivity|apply IH]. Qed.
Lemma comps_app a b : ~ In 0 a -> comps (a ++ 47 :: b) = comps a ++ comps b.
Proof.
  intros H. unfold comps. rewrite cstr_app by auto. cbn [cstr Z.eqb]. rewrite split_app, filter_app, (cstr_id a) by auto. reflexivity.
Qed.
Lemma level_simple i : simple (level_name i).
Proof.
  destruct (level_name_good i) as ((G1 & G2) & G3). repeat split; auto. unfold level_name. cbn. discriminate.
Qed.
Lemma level_comps path i : ~ In 0 path -> comps (level_path path i) = comps path ++ [str "mip_levels"; level_name i].
Proof.
  intros H. unfold level_path. change (path ++ [47] ++ str "mip_levels" ++ [47] ++ level_name i) with (path ++ 47 :: str "mip_levels" ++ 47 :: level_name i).
  rewrite comps_app by auto. f_equal. rewrite comps_cons, comps_simple by (try apply level_simple; repeat split; vm_compute; intuition discriminate). reflexivity.
Qed.

(** * Attributes *)
Lemma find_str {B C} (k : B -> C) (l : list (string * B)) n :
  find_by (str n) (map (fun e => (str (fst e), k (snd e))) l) = option_map k (named n l).
Proof.
  induction l as [|(m, x) l IH]; auto. cbn [map find_by fst snd named]. destruct (String.eqb_spec n m) as [->|N].
  - rewrite beq_refl. reflexivity.
  - rewrite beq_neq; [apply IH|]. intros E. apply N. symmetry. now apply str_inj.
Qed.
Lemma six_attr l n b : named n l = Some (AInts (of_box b)) ->
  find_by (str n) (map h5_attr l) = Some (VNum false 4 [6%nat] (flat_map enc32 (of_box b))).
Proof.
  intros H. unfold h5_attr.
  rewrite (find_str (fun a => match a with AInts l => VNum false 4 [List.length l] (flat_map enc32 l) | AOther => VOther end)), H. reflexivity.
Qed.
Lemma box_in_of b : int_corners b -> box_in (flat_map enc32 (of_box b)) = b.
Proof.
  intros ((A1 & A2 & A3) & (B1 & B2 & B3)). unfold box_in. change 6%nat with (List.length (of_box b)). rewrite ints_enc.
  - destruct b as [[? ? ?] [? ? ?]]. reflexivity.
  - unfold of_box. repeat (constructor; auto).
Qed.
Lemma get_six_ok l n b cur : ~ In 0 n -> find_by n l = Some (VNum false 4 [6%nat] (flat_map enc32 (of_box b))) ->
  get_six l n cur = Ok (flat_map enc32 (of_box b)).
Proof. intros H E. unfold get_six. apply get_num_ok; auto. Qed.
Lemma get_int1_ok l n z : ~ In 0 n -> in_int z = true -> find_by n l = Some (VNum false 4 [1%nat] (enc32 z)) -> get_int1 l n = Ok z.
Proof. intros H I E. unfold get_int1. erewrite get_num_ok by eauto. cbn [bind]. now rewrite dec_i32_enc. Qed.

Ltac nz := vm_compute; intuition discriminate.

Section W.
Context {A F : Type}.
Notation hnode := (hnode (A := A)).
Notation hlink := (hlink (A := A)).
Variables (ext dw : F -> box) (kind : base_kind).
Variable wr : F -> res (hgroup A * bool).
Variable rd : hgroup A -> res (option F).
Variables (ty : htype) (dims : nat).
Variable body : F -> hgroup A.

(** What is needed of the format of a level; the result of its writer may be anything. *)
Record level_h5 (f : F) : Prop := {
  lh_wr : exists b, wr f = Ok (body f, b);
  lh_ints : all_ints (hg_attrs (body f));
  lh_ext : named "extents" (hg_attrs (body f)) = Some (AInts (of_box (ext f)));
  lh_dw : named "data_window" (hg_attrs (body f)) = Some (AInts (of_box (dw f)));
  lh_cext : int_corners (ext f);
  lh_cdw : int_corners (dw f) }.

Fixpoint level_links (i : nat) (l : list F) : list (bytes * hlink) :=
  match l with [] => [] | f :: r => (level_name i, LGroup (group_of (body f))) :: level_links (S i) r end.
Definition mips_node (l : list F) : hnode :=
  HNode [(str "levels", VNum false 4 [1%nat] (enc32 (Z.of_nat (List.length l))))] (level_links 0 l).
Definition mip_attrs (e d : box) : list (bytes * aval) :=
  [ (str "version", VNum false 4 [1%nat] (enc32 1)); (str "extents", VNum false 4 [6%nat] (flat_map enc32 (of_box e)));
    (str "data_window", VNum false 4 [6%nat] (flat_map enc32 (of_box d)));
    (str "components", VNum false 4 [1%nat] (enc32 (Z.of_nat dims)));
    (str "bits_per_component", VNum false 4 [1%nat] (enc32 (h5bits ty))); (str "base_type", VStr (class_of kind)) ].

Variable levels : list F.
Hypothesis stored : forall f, In f levels -> level_h5 f.
Hypothesis small : Z.of_nat (List.length levels) < 2 ^ 31.

Lemma h5_levels_eq : forall r p, levels = p ++ r ->
  h5_levels wr (List.length p) (List.length r) levels = Ok (level_links (List.length p) r).
Proof.
  induction r as [|f r IH]; intros p E; [reflexivity|]. cbn [List.length h5_levels].
  assert (N : nth_error levels (List.length p) = Some f).
  { rewrite E, nth_error_app2 by auto. rewrite Nat.sub_diag. reflexivity. }
  destruct (lh_wr _ (stored f (nth_error_In _ _ N))) as (b & W). rewrite N, W. cbn [bind].
  specialize (IH (p ++ [f])). rewrite app_length in IH. cbn [List.length] in IH. rewrite Nat.add_1_r in IH.
  rewrite IH by (rewrite E, <- app_assoc; reflexivity). reflexivity.
Qed.
Definition stored_mip (e d : box) (g : hnode) : hnode :=
  HNode (n_attrs g ++ mip_attrs e d) (n_links g ++ [(str "mip_levels", LGroup (mips_node levels))]).
Lemma put_next (l0 l : list (bytes * aval)) n v : In n mip_attr_names -> find_by n l0 = None -> find_by n l = None ->
  put_av (l0 ++ l) n v = Some (l0 ++ (l ++ [(n, v)])).
Proof.
  intros I H0 H. unfold put_av.
  assert (N : cstr n = n /\ is_nil n = false).
  { unfold mip_attr_names in I. cbn [map In] in I. decompose [or] I; subst; try contradiction; split; reflexivity. }
  destruct N as (-> & ->). rewrite find_by_app, H0, H, <- app_assoc. reflexivity.
Qed.
Lemma mip_write_eq e d g : mip_room g ->
  mip_h5_write kind wr ty dims (MipField e d (List.length levels) levels) g = Ok (stored_mip e d g, true).
Proof.
  intros (RA & RL). unfold mip_h5_write, int_attr, put_num, put_str. cbn [mi_ext mi_dw mi_num mi_levels].
  assert (P : forall l n v, In n mip_attr_names -> find_by n l = None -> put_av (n_attrs g ++ l) n v = Some (n_attrs g ++ (l ++ [(n, v)]))).
  { intros l n v I H. apply put_next; auto. }
  rewrite <- (app_nil_r (n_attrs g)) at 1.
  do 5 (rewrite P by (try (vm_compute; tauto); reflexivity); cbn [or_throw bind app]).
  rewrite P by (try (vm_compute; tauto); reflexivity); cbn [or_throw bind app].
  change (str "mip_levels") with mip_link_name. rewrite RL. 
  change (put_av [] (str "levels") ?v) with (Some [(str "levels", v)]). cbn [or_throw bind].
  change 0%nat with (List.length (@nil F)). rewrite (h5_levels_eq levels []) by reflexivity. cbn [bind].
  unfold stored_mip, mips_node, mip_attrs. cbn [List.length flat_map app].
  rewrite !app_nil_r. destruct kind; reflexivity.
Qed.
Lemma stored_rest e d g : mip_rest g (stored_mip e d g).
Proof.
  split; intros n H; unfold stored_mip; cbn [n_attrs n_links]; rewrite find_by_app.
  - destruct (find_by n (n_attrs g)); auto. apply find_by_none. exact H.
  - destruct (find_by n (n_links g)); auto. cbn [find_by]. rewrite beq_neq; auto.
Qed.

Lemma level_links_find : forall l i j, find_by (level_name (i + j)) (level_links i l) =
  option_map (fun f => LGroup (group_of (body f))) (nth_error l j).
Proof.
  induction l as [|f l IH]; intros i j; [destruct j; reflexivity|]. cbn [level_links find_by]. destruct j as [|j].
  - rewrite Nat.add_0_r, beq_refl. reflexivity.
  - rewrite beq_neq by (intros E; apply level_name_inj in E; lia). cbn [nth_error]. rewrite <- Nat.add_succ_comm. apply IH.
Qed.
Lemma mips_sub i f : nth_error levels i = Some f -> sub_group (mips_node levels) (level_name i) = Some (group_of (body f)).
Proof. intros N. unfold sub_group, mips_node. cbn [n_links]. change i with (0 + i)%nat. rewrite level_links_find, N. reflexivity. Qed.
Lemma h5_sizes_eq : forall r p e d, levels = p ++ r ->
  h5_sizes (mips_node levels) (List.length p) (List.length r) e d = Ok (map (fun f => (ext f, dw f)) r).
Proof.
  induction r as [|f r IH]; intros p e d E; [reflexivity|]. cbn [List.length h5_sizes].
  assert (N : nth_error levels (List.length p) = Some f).
  { rewrite E, nth_error_app2 by auto. rewrite Nat.sub_diag. reflexivity. }
  pose proof (stored f (nth_error_In _ _ N)) as S. rewrite (mips_sub _ _ N).
  rewrite (get_six_ok _ _ (ext f)) by (try nz; apply six_attr, (lh_ext _ S)). cbn [bind].
  rewrite (get_six_ok _ _ (dw f)) by (try nz; apply six_attr, (lh_dw _ S)). cbn [bind].
  specialize (IH (p ++ [f])). rewrite app_length in IH. cbn [List.length] in IH. rewrite Nat.add_1_r in IH.
  rewrite IH by (rewrite E, <- app_assoc; reflexivity). cbn [bind map].
  rewrite !box_in_of by apply S. reflexivity.
Qed.

(** What the group of a stored MIP field answers. *)
Lemma mip_read_prefix ty' dims' e d g g2 : ty <> HChar -> (dims <= 3)%nat -> mip_room g -> same_mip (stored_mip e d g) g2 ->
  mip_h5_read ty' dims' g2 =
  if negb (htype_eqb ty ty' && (Z.of_nat dims =? Z.of_nat dims')) then Ok None else
    if negb (sane (map ext levels)) then Exn else
    match map (fun f => (ext f, dw f)) levels with [] => Exn | (e, d) :: _ => Ok (Some (MipProxy kind e d (map (fun f => (ext f, dw f)) levels))) end.
Proof.
  intros TY DI (RA & RL) (SA & SL).
  assert (Q : forall n, In n mip_attr_names -> find_by n (n_attrs g2) = find_by n (mip_attrs e d)).
  { intros n I. rewrite SA by auto. unfold stored_mip. cbn [n_attrs]. rewrite find_by_app, RA by auto. reflexivity. }
  assert (L : find_by mip_link_name (n_links g2) = Some (LGroup (mips_node levels))).
  { rewrite SL. unfold stored_mip. cbn [n_links]. rewrite find_by_app, RL. reflexivity. }
  assert (V : forall n v, In n mip_attr_names -> find_by n (mip_attrs e d) = Some v -> find_by n (n_attrs g2) = Some v).
  { intros n v I E. rewrite Q; auto. }
  unfold mip_h5_read.
  rewrite (get_int1_ok _ _ 1) by (try nz; try reflexivity; (apply V; [vm_compute; tauto|reflexivity])). cbn [bind Z.eqb Pos.eqb negb].
  rewrite (get_int1_ok _ _ (Z.of_nat dims)); [|nz|destruct dims as [|[|[|[|?]]]]; try lia; reflexivity|(apply V; [vm_compute; tauto|reflexivity])]. cbn [bind].
  rewrite (get_int1_ok _ _ (h5bits ty)); [|nz|destruct ty; reflexivity|(apply V; [vm_compute; tauto|reflexivity])]. cbn [bind].
  assert (BT : get_str (n_attrs g2) (str "base_type") = Ok (class_of kind)).
  { unfold get_str. change (cstr (str "base_type")) with (str "base_type"). rewrite (V _ (VStr (class_of kind))); [destruct kind; reflexivity|vm_compute; tauto|reflexivity]. }
  rewrite BT. cbn [bind].
  replace (if h5bits ty =? 16 then HShort else if h5bits ty =? 64 then HDouble else HFloat) with ty by (destruct ty; try congruence; reflexivity).
  destruct (negb (htype_eqb ty ty' && (Z.of_nat dims =? Z.of_nat dims'))); auto.
  replace (if bytes_eqb (class_of kind) (class_of BSparse) then Some BSparse else if bytes_eqb (class_of kind) (class_of BDense) then Some BDense else None)
    with (Some kind) by (destruct kind; reflexivity).
  rewrite (get_six_ok _ _ e) by (try nz; (apply V; [vm_compute; tauto|reflexivity])). cbn [bind].
  rewrite (get_six_ok _ _ d) by (try nz; (apply V; [vm_compute; tauto|reflexivity])). cbn [bind].
  unfold sub_group at 1. change (str "mip_levels") with mip_link_name. rewrite L.
  rewrite (get_int1_ok _ _ (Z.of_nat (List.length levels))); [|nz|apply in_int_iff; lia|reflexivity]. cbn [bind].
  rewrite Nat2Z.id. change 0%nat with (List.length (@nil F)). rewrite (h5_sizes_eq levels []) by reflexivity. cbn [bind].
  rewrite map_map. cbn [fst]. reflexivity.
Qed.

Lemma view_group f : In f levels -> view (group_of (body f)) = body f.
Proof.
  intros I. unfold view, group_of. cbn [n_attrs n_links]. rewrite view_written_attrs, view_written_sets by (apply (stored f I)). destruct (body f); reflexivity.
Qed.
Lemma mip_load_eq e d g g2 root path i f : mip_room g -> same_mip (stored_mip e d g) g2 -> leads_to root path g2 ->
  nth_error levels i = Some f ->
  load_h5 rd root path i = let* o := rd (body f) in match o with Some f => Ok f | None => Exn end.
Proof.
  intros (RA & RL) (SA & SL) (NZ & p & OP & AT) N.
  assert (L : find_by mip_link_name (n_links g2) = Some (LGroup (mips_node levels))).
  { rewrite SL. unfold stored_mip. cbn [n_links]. rewrite find_by_app, RL. reflexivity. }
  unfold g_open in OP. rewrite start_root in OP. cbn [app] in OP.
  destruct (is_nil (cstr path)) eqn:NI; [discriminate|]. destruct (node_at root (comps path)) eqn:E; [|discriminate].
  injection OP as <-. injection (eq_trans (eq_sym E) AT) as ->.
  assert (T : node_at root (comps (level_path path i)) = Some (group_of (body f))).
  { rewrite level_comps by auto. rewrite node_at_app, E. cbn [node_at]. unfold sub_group at 1.
    change (str "mip_levels") with mip_link_name. rewrite L, (mips_sub _ _ N). reflexivity. }
  unfold load_h5, g_open. rewrite start_root. cbn [app]. rewrite T.
  assert (NI' : is_nil (cstr (level_path path i)) = false).
  { unfold level_path. rewrite cstr_app by auto. rewrite cstr_id in NI by auto. destruct path; [discriminate|reflexivity]. }
  rewrite NI', T, view_group by (eapply nth_error_In; eauto). reflexivity.
Qed.
End W.
