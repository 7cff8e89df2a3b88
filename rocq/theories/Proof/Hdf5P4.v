From Coq Require Import ZArith Reals List Bool String Lia.
From Verif Require Import Model.Base Model.FieldM Model.DenseM Model.VecM Model.MacM Spec.VoxelSpec Spec.MacSpec
  Proof.BaseP Proof.FieldP Proof.DenseP Proof.MacP Model.Hdf5M Model.Hdf5MacM Spec.Hdf5Spec Proof.Hdf5P.
Import ListNotations.
Open Scope Z_scope.

Section M.
Variables (convert : htype -> htype -> R -> R) (of_flag : bool -> R) (to_flag : R -> bool).
Hypothesis fa : faithful convert of_flag to_flag.
Variable ty : htype.
Hypothesis nt : ty <> HChar.
Variable m : mac.
Hypothesis two : forall c, (2 <= List.length (c_data (comp_of m c)))%nat.

Definition mac_attrs : list (string * hattr) :=
  [("version", AInts [1]); ("extents", AInts (of_box (m_ext m))); ("data_window", AInts (of_box (m_dw m)));
   ("components", AInts [3]); ("bits_per_component", AInts [h5bits ty])]%string.
Definition comp_set (c : component) : hset R :=
  HSet ty [Z.of_nat (List.length (c_data (comp_of m c)))] (c_data (comp_of m c)).
Definition mac_sets : list (string * hset R) :=
  [("u_data", comp_set CompU); ("v_data", comp_set CompV); ("w_data", comp_set CompW)]%string.

Lemma put_comp_ok gzip c g a s : room_in g -> named (comp_name c) s = None ->
  put_comp ty gzip m (added g a s) c = Ok (added g a (s ++ [(comp_name c, comp_set c)])).
Proof.
  intros Rm N. unfold put_comp. pose proof (two c) as T. set (d := c_data (comp_of m c)) in *.
  assert (CH : 1 <= Z.min 65536 (Z.of_nat (List.length d) / 2) <= 65536).
  { assert (1 <= Z.of_nat (List.length d) / 2) by (apply Z.div_le_lower_bound; lia). lia. }
  replace (chunk_ok _ _ _) with true.
  2:{ symmetry. unfold chunk_ok. apply orb_true_iff. right. cbn [forallb fold_right]. rewrite andb_true_r.
      apply andb_true_iff. split; [lia|]. apply Z.ltb_lt. assert (htype_size ty <= 8) by (destruct ty; cbn; lia).
      assert (0 < htype_size ty) by (destruct ty; cbn; lia). nia. }
  cbn [negb]. destruct d as [|x d'] eqn:D; [cbn in T; lia|]. rewrite <- D. unfold d.
  rewrite put_set_added; auto. destruct c; in_layer.
Qed.
Lemma mac_write_eq gzip g : room_in g -> mac_h5_write ty gzip m g = Ok (added g mac_attrs mac_sets, true).
Proof.
  intros Rm. unfold mac_h5_write. rewrite (added_nil g) at 1.
  do 5 (rewrite put_attr_added by (auto; (reflexivity || in_layer)); cbn [or_throw bind app]).
  do 3 (rewrite put_comp_ok by (auto; reflexivity); cbn [bind app]). reflexivity.
Qed.

Variables (g g' : hgroup R).
Hypothesis Rm : room_in g.
Hypothesis Sa : same_layer (added g mac_attrs mac_sets) g'.
Lemma mac_read_other ty' : ty' <> ty -> mac_h5_read convert ty' g' = Ok None.
Proof.
  intros D. unfold mac_h5_read. att Rm Sa. cbn [Z.eqb Pos.eqb negb]. do 4 (att Rm Sa). rewrite bits_type by auto.
  destruct (htype_eqb ty ty') eqn:E; auto. apply htype_eqb_iff in E. congruence.
Qed.
Lemma read_comp_eq c d : read_comp convert ty g' c d =
  let* x := copy_comp (comp_of m c) (comp_of d c) in Ok (set_comp d c x).
Proof.
  unfold read_comp. rewrite (get_set_added _ _ _ _ (comp_name c) (comp_set c) Rm Sa);
    [|destruct c; in_layer|destruct c; reflexivity]. cbn [or_throw bind].
  unfold get_dims, comp_set. cbn [hs_dims List.length Nat.eqb bind]. unfold read_all. cbn [hs_type hs_data].
  rewrite (convert_same convert of_flag to_flag fa). unfold copy_comp, copy_into.
  destruct (Nat.leb _ _); reflexivity.
Qed.
Lemma mac_read_eq : mac_h5_read convert ty g' = let* m' := copy_mac mac_init m in Ok (Some m').
Proof.
  unfold mac_h5_read. att Rm Sa. cbn [Z.eqb Pos.eqb negb]. do 4 (att Rm Sa). rewrite bits_type by auto.
  rewrite htype_eqb_refl. cbn [negb]. unfold copy_mac.
  destruct (mac_set_size (m_ext m) (m_dw m) mac_init) as [[d th]| |]; cbn [bind]; auto. destruct th; auto.
  rewrite read_comp_eq. cbn [comp_of]. destruct (copy_comp (m_u m) (m_u d)) as [u| |]; cbn [bind]; auto.
  rewrite read_comp_eq. cbn [comp_of set_comp m_v]. destruct (copy_comp (m_v m) (m_v d)) as [v| |]; cbn [bind]; auto.
  rewrite read_comp_eq. cbn [comp_of set_comp m_w]. destruct (copy_comp (m_w m) (m_w d)) as [w| |]; cbn [bind]; auto.
Qed.
End M.
