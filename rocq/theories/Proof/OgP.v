From Coq Require Import ZArith List Bool Lia Arith.
From Verif Require Import Model.Base Model.OgawaM Spec.OgawaSpec Proof.BaseP Proof.OgawaP Model.OgM Spec.OgSpec.
Import ListNotations.
Open Scope Z_scope.

Lemma type_code_inj a b : type_code a = type_code b -> a = b.
Proof. destruct a, b; intros H; try reflexivity; discriminate H. Qed.
Lemma type_code_range a : 0 <= type_code a < 127.
Proof. destruct a; simpl; lia. Qed.
Lemma bytes_eqb_spec a b : Bool.reflect (a = b) (bytes_eqb a b).
Proof. unfold bytes_eqb. destruct (list_eq_dec Z.eq_dec a b); constructor; auto. Qed.
Lemma cstr_id b : ~ In 0 b -> cstr b = b.
Proof.
  induction b as [|x r IH]; intros H; simpl; auto. destruct (Z.eqb_spec x 0) as [->|]; [destruct H; left; auto|].
  rewrite IH; auto. intros K. apply H. right; auto.
Qed.
Lemma cstr_iff b : cstr b = b <-> ~ In 0 b.
Proof.
  split; [|apply cstr_id]. induction b as [|x r IH]; simpl; auto. destruct (Z.eqb_spec x 0) as [->|N]; [discriminate|].
  intros [= E] [->|K]; [congruence|]. apply IH; auto.
Qed.
Lemma enc32_length z : length (enc32 z) = 4%nat.
Proof. apply enc_le_length. Qed.
Lemma dec_enc32 z : 0 <= z < 2 ^ 32 -> dec_le (enc32 z) = z.
Proof. intros. apply dec_enc. change (256 ^ Z.of_nat 4) with (2 ^ 32). auto. Qed.
Lemma wdata_enc32 z : wdata (enc32 z) = [Data (enc32 z)].
Proof. reflexivity. Qed.
Lemma wdata_ne b : b <> [] -> wdata b = [Data b].
Proof. destruct b; auto. congruence. Qed.

(** The kind of group an entry is stored as. *)
Definition kind_code (e : entry) : Z :=
  match e with EAttr _ _ _ => G_ATTR | EGroup _ _ => G_GROUP | EData _ _ _ => G_DATASET | ECData _ _ _ => G_CDATASET end.
Definition kind_is (gt : Z) (e : entry) : bool := kind_code e =? gt.
Lemma kind_attr e : is_attr e = kind_is G_ATTR e. Proof. destruct e; reflexivity. Qed.
Lemma kind_group e : is_group e = kind_is G_GROUP e. Proof. destruct e; reflexivity. Qed.
Lemma kind_data e : is_data e = kind_is G_DATASET e. Proof. destruct e; reflexivity. Qed.
Lemma kind_cdata e : is_cdata e = kind_is G_CDATASET e. Proof. destruct e; reflexivity. Qed.
Lemma kind_range e : 0 <= kind_code e < 4. Proof. destruct e; simpl; unfold G_ATTR, G_GROUP, G_DATASET, G_CDATASET; lia. Qed.
Lemma find_ext' {A} (p q : A -> bool) l : (forall x, p x = q x) -> find p l = find q l.
Proof. intros H. induction l; simpl; auto. rewrite H, IHl. auto. Qed.
Lemma lookup_kind k gt n l : (forall e, k e = kind_is gt e) -> lookup k n l = lookup (kind_is gt) n l.
Proof. intros H. unfold lookup. apply find_ext'. intros e. rewrite H. auto. Qed.

Lemma written_shape e : good_name (e_name e) -> exists rest, written e = Group (Data (e_name e) :: Data (enc32 (kind_code e)) :: rest).
Proof.
  intros (N & _). destruct e; cbn [written e_name kind_code] in *; unfold node_attr, node_group, node_dataset;
    rewrite (wdata_ne _ N), !wdata_enc32; cbn [app]; eauto.
Qed.
Lemma find_loop_written name gt l : Forall (fun e => good_name (e_name e)) l ->
  find_loop name gt (map written l) = Ok (option_map written (lookup (kind_is gt) name l)).
Proof.
  induction 1 as [|e l He H IH]; [reflexivity|]. cbn [map lookup find].
  destruct (written_shape e He) as (rest & E). rewrite E. cbn [find_loop].
  unfold read_string, read_data, get_data. cbn [t_kids nth_error]. rewrite enc32_length. cbn [Nat.eqb bind].
  rewrite cstr_id by apply He. pose proof (kind_range e). rewrite dec_enc32 by lia. fold (kind_is gt e).
  destruct (kind_is gt e); cbn [negb andb]; auto.
  destruct (bytes_eqb (e_name e) name); [|auto]. cbn [option_map]. rewrite E. auto.
Qed.
Lemma names_loop_written gt l : Forall (fun e => good_name (e_name e)) l ->
  names_loop gt (map written l) = Ok (map e_name (filter (kind_is gt) l)).
Proof.
  induction 1 as [|e l He H IH]; [reflexivity|]. cbn [map filter].
  destruct (written_shape e He) as (rest & E). rewrite E. cbn [names_loop].
  unfold read_string, read_data, get_data. cbn [t_kids nth_error]. rewrite enc32_length. cbn [Nat.eqb bind].
  rewrite cstr_id by apply He. pose proof (kind_range e). rewrite dec_enc32 by lia. fold (kind_is gt e).
  destruct (kind_is gt e); cbn [negb map]; auto. rewrite IH. reflexivity.
Qed.

(** Children from index 2 on, for any group name. *)
Lemma group_loop {A} (f : list tree -> A) g l : (forall b r, f (Data b :: r) = f r) ->
  f (skipn 2 (t_kids (node_group g l))) = f l.
Proof. intros H. unfold node_group. rewrite wdata_enc32. destruct g; cbn [wdata app t_kids skipn]; auto. Qed.

Lemma split_plain n : ~ In 47 n -> forall c, split_path c n = [c ++ n].
Proof.
  induction n as [|x n IH]; intros H c; simpl; [rewrite app_nil_r; auto|].
  destruct (Z.eqb_spec x 47) as [->|]; [destruct H; left; auto|]. rewrite IH by (intros K; apply H; right; auto).
  rewrite <- app_assoc. auto.
Qed.
Lemma split_join n r : ~ In 47 n -> forall c, split_path c (n ++ 47 :: r) = (c ++ n) :: split_path [] r.
Proof.
  induction n as [|x n IH]; intros H c; simpl; [rewrite app_nil_r; auto|].
  destruct (Z.eqb_spec x 47) as [->|]; [destruct H; left; auto|]. rewrite IH by (intros K; apply H; right; auto).
  rewrite <- app_assoc. auto.
Qed.

Lemma find_group_written g name gt l : Forall (fun e => good_name (e_name e)) l -> ~ In 47 name ->
  find_group (node_group g (map written l)) name gt = Ok (option_map written (lookup (kind_is gt) name l)).
Proof.
  intros H P. unfold find_group. rewrite split_plain by auto. cbn [app find_comps].
  rewrite (group_loop (find_loop name gt)) by auto. apply find_loop_written; auto.
Qed.
Lemma group_names_written g gt l : Forall (fun e => good_name (e_name e)) l ->
  group_names (node_group g (map written l)) gt = Ok (map e_name (filter (kind_is gt) l)).
Proof. intros H. unfold group_names. rewrite (group_loop (names_loop gt)) by auto. apply names_loop_written; auto. Qed.

Lemma lookup_some k n l e : lookup k n l = Some e -> In e l /\ k e = true /\ e_name e = n.
Proof.
  intros H. apply find_some in H as (I & H). apply andb_true_iff in H as (K & H).
  destruct (bytes_eqb_spec (e_name e) n); [auto|discriminate].
Qed.

(** The value stored for an attribute, as read. *)
Definition reads_back (ty : ogtype) (v : bytes) : bytes := match ty with TString => cstr v | _ => v end.
Lemma attr_read n ty v dflt : good_name n -> (ty <> TString -> length v = type_size ty) ->
  read_dtype (node_attr n ty v) 2 = Ok (type_code ty) /\
  attr_value ty dflt (node_attr n ty v) = Ok (reads_back ty v).
Proof.
  intros (N & _) LV. unfold node_attr. rewrite (wdata_ne _ N), !wdata_enc32. cbn [app]. split.
  - unfold read_dtype, get_data. cbn [t_kids nth_error]. rewrite enc32_length. cbn [Nat.eqb].
    pose proof (type_code_range ty). rewrite dec_enc32; auto. lia.
  - assert (G : get_data (Group (Data n :: Data (enc32 G_ATTR) :: Data (enc32 (type_code ty)) :: wdata v)) 3 = Some v).
    { unfold get_data. cbn [t_kids nth_error]. destruct v; reflexivity. }
    destruct ty; unfold attr_value, read_string, read_data; rewrite G; cbn [reads_back]; auto;
      rewrite LV by discriminate; rewrite Nat.eqb_refl; auto.
Qed.
Lemma ogtype_eqb_code a b : (type_code a =? type_code b) = true <-> a = b.
Proof. rewrite Z.eqb_eq. split; [apply type_code_inj|intros ->; auto]. Qed.

Lemma flat_wdata elems : Forall (fun b => b <> []) elems -> flat_map wdata elems = map Data elems.
Proof. induction 1; simpl; auto. rewrite wdata_ne by auto. simpl. rewrite IHForall. auto. Qed.
Lemma dataset_read gt n ty elems : good_name n ->
  read_dtype (node_dataset gt n ty elems) 2 = Ok (type_code ty) /\
  (Forall (fun b => b <> []) elems ->
   ds_num (node_dataset gt n ty elems) = Z.of_nat (length elems) /\
   forall i, ds_get (node_dataset gt n ty elems) i = nth_error elems i).
Proof.
  intros (N & _). unfold node_dataset. rewrite (wdata_ne _ N), !wdata_enc32. cbn [app]. split.
  - unfold read_dtype, get_data. cbn [t_kids nth_error]. rewrite enc32_length. cbn [Nat.eqb].
    pose proof (type_code_range ty). rewrite dec_enc32; auto. lia.
  - intros H. rewrite flat_wdata by auto. split.
    + unfold ds_num, t_kids. cbn [length]. rewrite map_length. rewrite !Nat2Z.inj_succ. lia.
    + intros i. unfold ds_get, get_data. rewrite Nat.add_comm. cbn [t_kids nth_error Nat.add].
      rewrite nth_error_map. destruct (nth_error elems i); reflexivity.
Qed.

(** * Paths *)
Fixpoint resolve (comps : list bytes) (last : bytes) (gt : Z) (l : list entry) : option entry :=
  match comps with
  | [] => lookup (kind_is gt) last l
  | c :: r => match lookup is_group c l with
              | Some (EGroup _ kids) => resolve r last gt kids
              | _ => None
              end
  end.
Fixpoint join (comps : list bytes) (last : bytes) : bytes :=
  match comps with [] => last | c :: r => c ++ 47 :: join r last end.

(** All names below are usable. *)
Inductive names_ok : list entry -> Prop :=
| names_nil : names_ok []
| names_cons e l : good_name (e_name e) -> (forall n kids, e = EGroup n kids -> names_ok kids) -> names_ok l -> names_ok (e :: l).
Lemma names_ok_forall l : names_ok l -> Forall (fun e => good_name (e_name e)) l.
Proof. induction 1; constructor; auto. Qed.
Lemma names_ok_in l n kids : names_ok l -> In (EGroup n kids) l -> names_ok kids.
Proof. induction 1; intros []; eauto. Qed.

Lemma find_path comps last gt : Forall (fun n => ~ In 47 n) comps -> ~ In 47 last -> forall g l, names_ok l ->
  find_group (node_group g (map written l)) (join comps last) gt = Ok (option_map written (resolve comps last gt l)).
Proof.
  intros HC HL. induction HC as [|c r Hc HC IH]; intros g l HN.
  - apply find_group_written; auto. apply names_ok_forall; auto.
  - cbn [join resolve]. unfold find_group. rewrite split_join by auto. cbn [app].
    assert (NE : exists x y, split_path [] (join r last) = x :: y).
    { destruct (split_path [] (join r last)) eqn:E; eauto. exfalso. clear -E.
      revert E. generalize (@nil Z). generalize (join r last). induction l as [|a l IHl]; intros c E; simpl in E; [discriminate|].
      destruct (a =? 47); [discriminate|]. eauto. }
    destruct NE as (x & y & NE). rewrite NE. cbn [find_comps].
    rewrite (group_loop (find_loop c G_GROUP)) by auto. rewrite find_loop_written by (apply names_ok_forall; auto).
    rewrite (lookup_kind is_group G_GROUP) by apply kind_group.
    destruct (lookup (kind_is G_GROUP) c l) as [e|] eqn:L; cbn [option_map bind]; auto.
    destruct (lookup_some _ _ _ _ L) as (I & K & _).
    destruct e as [| n kids | |]; try (cbv in K; discriminate).
    assert (GN : good_name n) by (apply (proj1 (Forall_forall _ _) (names_ok_forall l HN)) in I; auto).
    assert (V : validate (written (EGroup n kids)) = true).
    { destruct (written_shape (EGroup n kids) GN) as (rest & ->). reflexivity. }
    rewrite V. cbn [written]. specialize (IH n kids (names_ok_in l n kids HN I)). unfold find_group in IH. rewrite NE in IH. auto.
Qed.
