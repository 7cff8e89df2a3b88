From Coq Require Import ZArith List Bool String Lia.
From Verif Require Import Model.Base Model.FieldM Model.DenseM Model.SparseM Spec.VoxelSpec Spec.DenseSpec Spec.SparseSpec
  Proof.BaseP Proof.FieldP Proof.DenseP Proof.SparseP Proof.SparseP4
  Model.OgawaM Spec.OgawaSpec Proof.OgawaP Model.OgM Spec.OgSpec Proof.OgP Props.OgProps Model.BlockIOM Spec.BlockIOSpec
  Proof.BlockIOP3 Props.BlockIOProps Model.FieldIOM Spec.FieldIOSpec.
Import ListNotations.
Open Scope Z_scope.

(** * Integers *)
Lemma in_int_iff z : in_int z = true <-> - 2 ^ 31 <= z <= 2 ^ 31 - 1.
Proof. unfold in_int, int_min, int_max. lia. Qed.
Lemma enc_le_mod n : forall z, enc_le n (z mod 256 ^ Z.of_nat n) = enc_le n z.
Proof.
  induction n as [|n IH]; intros z; auto. cbn [enc_le].
  replace (256 ^ Z.of_nat (S n)) with (256 * 256 ^ Z.of_nat n) by (rewrite Nat2Z.inj_succ, Z.pow_succ_r; lia).
  assert (0 < 256 ^ Z.of_nat n) by (apply Z.pow_pos_nonneg; lia).
  rewrite Z.rem_mul_r by lia. f_equal.
  - rewrite Z.mul_comm, Z_mod_plus_full, Z.mod_mod; lia.
  - rewrite (Z.mul_comm 256), Z.div_add by lia. rewrite Z.div_small by (apply Z.mod_pos_bound; lia). cbn [Z.add]. apply IH.
Qed.
Lemma dec_i32_enc z : in_int z = true -> dec_i32 (enc32 z) = z.
Proof.
  rewrite in_int_iff. intros H. unfold dec_i32, enc32. rewrite <- enc_le_mod.
  change (256 ^ Z.of_nat 4) with (2 ^ 32). fold (enc32 (z mod 2 ^ 32)).
  pose proof (Z.mod_pos_bound z (2 ^ 32) ltac:(lia)). rewrite dec_enc32 by lia.
  destruct (Z_lt_dec z 0).
  - assert (z mod 2 ^ 32 = z + 2 ^ 32) as -> by (symmetry; apply Z.mod_unique with (q := -1); lia).
    replace (z + 2 ^ 32 <? 2 ^ 31) with false by lia. lia.
  - rewrite Z.mod_small by lia. replace (z <? 2 ^ 31) with true by lia. auto.
Qed.
Lemma dec_v3_enc p : int_v3 p -> dec_v3 (enc_v3 p) = p.
Proof.
  intros (X & Y & Z0). unfold dec_v3, enc_v3.
  replace (firstn 4 (enc32 (vx p) ++ enc32 (vy p) ++ enc32 (vz p))) with (enc32 (vx p)) by reflexivity.
  replace (firstn 4 (skipn 4 (enc32 (vx p) ++ enc32 (vy p) ++ enc32 (vz p)))) with (enc32 (vy p)) by reflexivity.
  replace (skipn 8 (enc32 (vx p) ++ enc32 (vy p) ++ enc32 (vz p))) with (enc32 (vz p)) by reflexivity.
  rewrite !dec_i32_enc by auto. destruct p; auto.
Qed.
Lemma enc_v3_length p : List.length (enc_v3 p) = 12%nat.
Proof. reflexivity. Qed.

(** * Reading entries *)
Lemma lookup_app k n a b : lookup k n (a ++ b) = match lookup k n a with Some e => Some e | None => lookup k n b end.
Proof. unfold lookup. induction a as [|e a IH]; simpl; auto. destruct (k e && bytes_eqb (e_name e) n); auto. Qed.
Lemma lookup_none k n l : (forall e, In e l -> e_name e <> n) -> lookup k n l = None.
Proof.
  intros H. unfold lookup. induction l as [|e l IH]; simpl; auto.
  destruct (bytes_eqb_spec (e_name e) n) as [E|E].
  - exfalso. apply (H e); simpl; auto.
  - rewrite andb_false_r. apply IH. intros e' I. apply H; simpl; auto.
Qed.

Definition plainb (n : bytes) : bool := negb (bytes_eqb n []) && negb (existsb (Z.eqb 0) n) && negb (existsb (Z.eqb 47) n).
Lemma plainb_ok n : plainb n = true -> good_name n /\ ~ In 47 n.
Proof.
  unfold plainb. rewrite !andb_true_iff, !negb_true_iff. intros ((A & B) & C).
  assert (F : forall x, existsb (Z.eqb x) n = false -> ~ In x n).
  { intros x E I. assert (existsb (Z.eqb x) n = true); [|congruence].
    apply existsb_exists. exists x. split; auto. apply Z.eqb_refl. }
  split; [split|]; auto. intros ->. discriminate A.
Qed.

Lemma entries_app a b : entries_ok a -> entries_ok b -> entries_ok (a ++ b).
Proof.
  intros [A1 A2] [B1 B2]. split; [apply Forall_app; auto|].
  intros n ty v I. apply in_app_or in I. destruct I; eauto.
Qed.

Section Layer.
Variables (g : bytes) (pre core post : list entry).
Hypothesis pre_ok : entries_ok pre.
Hypothesis core_ok : entries_ok core.
Hypothesis post_ok : entries_ok post.
Hypothesis pre_free : unrelated pre.
Let t := node_group g (map written pre ++ map written core ++ map written post).
Let all_ := pre ++ core ++ post.

Lemma t_written : t = written (EGroup g all_).
Proof. unfold t, all_. cbn [written]. now rewrite !map_app. Qed.
Lemma all_ok : entries_ok all_.
Proof. apply entries_app; auto. apply entries_app; auto. Qed.
Lemma lookup_core k n e : In n layer_names -> lookup k n core = Some e -> lookup k n all_ = Some e.
Proof.
  intros I L. unfold all_. rewrite lookup_app, lookup_none, lookup_app, L; auto.
  intros e' I' EN. apply (proj1 (Forall_forall _ _) pre_free _ I'). now rewrite EN.
Qed.
Lemma layer_plain n : In n layer_names -> good_name n /\ ~ In 47 n.
Proof.
  intros I. apply plainb_ok. revert n I. apply Forall_forall.
  assert (forallb plainb layer_names = true) by (vm_compute; reflexivity).
  apply Forall_forall. intros n I. eapply forallb_forall in H; eauto.
Qed.

Lemma need_attr_core n ty v : In n layer_names -> lookup is_attr n core = Some (EAttr n ty v) ->
  need_attr t n ty = Ok v.
Proof.
  intros I L. unfold need_attr. rewrite t_written, C18_find_attribute.
  - rewrite (lookup_core _ _ _ I L), Z.eqb_refl. reflexivity.
  - apply all_ok.
  - apply layer_plain; auto.
  - apply all_ok.
Qed.

Lemma find_ds_core n ty el (c : bool) : In n layer_names ->
  lookup (if c then is_cdata else is_data) n core = Some (if c then ECData n ty el else EData n ty el) ->
  let gt := if c then G_CDATASET else G_DATASET in
  find_group t n gt = Ok (Some (node_dataset gt n ty el)) /\
  find_typed t n gt ty = Ok (Some (node_dataset gt n ty el)) /\
  dataset_type t n gt = Ok (type_code ty).
Proof.
  intros I L gt. destruct (layer_plain n I) as [GN NS].
  assert (F : find_group t n gt = Ok (Some (node_dataset gt n ty el))).
  { rewrite t_written. cbn [written]. rewrite find_group_written; [|apply all_ok|auto].
    assert (E : lookup (kind_is gt) n all_ = Some (if c then ECData n ty el else EData n ty el)).
    { rewrite <- (lookup_kind (if c then is_cdata else is_data)); [apply lookup_core; auto|].
      unfold gt. destruct c; [apply kind_cdata|apply kind_data]. }
    rewrite E. unfold gt. destruct c; reflexivity. }
  split; auto. destruct (dataset_read gt n ty el GN) as [D _]. split.
  - unfold find_typed. rewrite F. cbn [bind]. rewrite D. cbn [bind]. rewrite Z.eqb_refl. auto.
  - unfold dataset_type. rewrite F. cbn [bind]. rewrite D.
    unfold node_dataset. rewrite (wdata_ne n) by apply GN. reflexivity.
Qed.
End Layer.

Lemma firstn_app_exact {A} (a b : list A) : firstn (List.length a) (a ++ b) = a.
Proof. induction a; simpl; congruence. Qed.
Lemma skipn_app_exact {A} (a b : list A) : skipn (List.length a) (a ++ b) = b.
Proof. induction a; simpl; auto. Qed.

(** * Values to bytes *)
Section Values.
Context {V : Type}.
Variables (ty : ogtype) (enc : V -> bytes) (dec : bytes -> V).
Hypothesis st : storable ty enc dec.

Lemma size_pos : (0 < type_size ty)%nat.
Proof. destruct st as [N _]. destruct ty; cbn; try lia. congruence. Qed.
Lemma enc_all_length l : List.length (enc_all enc l) = (List.length l * type_size ty)%nat.
Proof.
  unfold enc_all. induction l as [|v l IH]; simpl; auto.
  rewrite app_length, IH. destruct st as [_ H]. rewrite (proj1 (H v)). reflexivity.
Qed.
Lemma dec_enc_all l : dec_all ty dec (List.length l) (enc_all enc l) = l.
Proof.
  destruct st as [_ H]. induction l as [|v l IH]; auto. cbn [List.length dec_all enc_all flat_map]. destruct (H v) as [L D].
  fold (enc_all enc l).
  assert (E1 : firstn (type_size ty) (enc v ++ enc_all enc l) = enc v) by (rewrite <- L; apply firstn_app_exact).
  assert (E2 : skipn (type_size ty) (enc v ++ enc_all enc l) = enc_all enc l) by (rewrite <- L; apply skipn_app_exact).
  now rewrite E1, E2, D, IH.
Qed.
Lemma enc_all_ne l : l <> [] -> enc_all enc l <> [].
Proof.
  intros N E. assert (List.length (enc_all enc l) = 0%nat) by now rewrite E.
  rewrite enc_all_length in H. pose proof size_pos. destruct l; [congruence|]. cbn in H. lia.
Qed.
Lemma overlay_same cur l : List.length cur = List.length l ->
  overlay (enc_all enc cur) (enc_all enc l) = Ok (enc_all enc l).
Proof.
  intros E. unfold overlay. rewrite !enc_all_length, E, Nat.leb_refl. f_equal.
  rewrite skipn_all2, app_nil_r; auto. rewrite enc_all_length, E. auto.
Qed.
Lemma get_values_same n gt cur l : good_name n -> l <> [] -> List.length cur = List.length l ->
  get_values ty enc dec (node_dataset gt n ty [enc_all enc l]) cur = Ok (Some l).
Proof.
  intros G N E. unfold get_values.
  destruct (dataset_read gt n ty [enc_all enc l] G) as [_ D].
  destruct D as [_ D]; [constructor; auto using enc_all_ne|].
  rewrite D. cbn [nth_error]. rewrite overlay_same by auto. cbn [bind]. rewrite E, dec_enc_all. auto.
Qed.
End Values.
