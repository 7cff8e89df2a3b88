(** Copies of fields are independent. *)
From Coq Require Import ZArith List Bool Lia.
From Verif Require Import Model.Base Model.FieldM Model.DenseM Model.SparseM Model.OpsM Model.VecM Model.MapM Model.CopyM Model.MetaM Model.CloneM
  Spec.VoxelSpec Spec.OpsSpec Spec.SparseSpec Spec.CloneSpec Proof.BaseP Proof.SparseP Proof.OpsP Proof.CopyP.
Import ListNotations.
Open Scope Z_scope.

Lemma nth_app_new {A} (l : list A) a i : nth_error (l ++ [a]) i = if (i =? length l)%nat then Some a else nth_error l i.
Proof.
  destruct (Nat.eqb_spec i (length l)) as [->|N].
  - rewrite nth_error_app2, Nat.sub_diag by lia. reflexivity.
  - destruct (Nat.lt_ge_cases i (length l)); [apply nth_error_app1; auto|].
    rewrite nth_error_app2 by lia. rewrite (proj2 (nth_error_None l i)) by lia. destruct (i - length l)%nat as [|[|]] eqn:E; try lia; reflexivity.
Qed.
Lemma nth_set {A} (l : list A) n a i : nth_error (list_set l n a) i = if (i =? n)%nat then (match nth_error l i with Some _ => Some a | None => None end) else nth_error l i.
Proof.
  destruct (Nat.eqb_spec i n) as [->|N]; [|apply list_set_other; auto].
  destruct (nth_error l n) eqn:E; [apply list_set_same, nth_error_Some; congruence|].
  apply nth_error_None. rewrite list_set_length. apply nth_error_None; auto.
Qed.
Lemma nth_some {A} (l : list A) i : (i < length l)%nat -> exists a, nth_error l i = Some a.
Proof. intros H. destruct (nth_error l i) eqn:E; eauto. apply nth_error_None in E. lia. Qed.

Section P.
Context {V : Type}.
Variables dflt zero : V.

(** ** The data of a copy *)
Lemma copy_blocks_id o n (l : list (block V)) : Z.of_nat n = 2 ^ o * 2 ^ o * 2 ^ o -> Forall (block_shape o) l -> copy_blocks n l = Ok l.
Proof.
  intros E F. induction F as [|b l S F IH]; [reflexivity|]. cbn [copy_blocks]. rewrite IH.
  assert (Eb : copy_block n b = Ok b); [|rewrite Eb; reflexivity].
  destruct b as [al ev d]. unfold block_shape in S. cbn [b_alloc b_data] in S. unfold copy_block. cbn [b_alloc b_empty b_data].
  destruct al; [|subst d; reflexivity]. destruct S as (d' & -> & L). assert (length d' = n) by lia. subst n.
  rewrite Nat.leb_refl, firstn_all. reflexivity.
Qed.
Lemma copy_data_id k (f : fld (V := V) k) : inv k f -> copy_data f = Ok f.
Proof.
  destruct k; cbn [copy_data inv]; auto. intros S. unfold copy_sparse. destruct S as [Or _ _ _ _ Bl].
  rewrite (copy_blocks_id (s_order f)); auto; [destruct f; reflexivity|]. unfold order_ok in Or.
  rewrite Z2Nat.id by (apply Z.shiftl_nonneg; lia). rewrite Z.shiftl_mul_pow2 by lia. rewrite Z.mul_1_l.
  rewrite <- !Z.pow_add_r by lia. f_equal. lia.
Qed.
Lemma meta_assign_id m m' : meta_assign m m' = m'.
Proof. destruct m'. reflexivity. Qed.

(** ** Relations between states *)
Definition fine {k} (v : vfield (V := V) k) : Prop := inv k (c_fld (v_fld v)) /\ framed (f_ext (c_fld (v_fld v))).
Definition same_data {k} (f : hfield (V := V) k) (v : vfield (V := V) k) : Prop :=
  h_fld f = c_fld (v_fld v) /\ h_name f = v_name v /\ h_attr f = v_attr v /\ h_meta f = v_meta v.
(** Everything but the mappings agrees. *)
Definition weak {k} (w : world (V := V) k) (l : list (vfield (V := V) k)) : Prop :=
  length (w_fields w) = length l /\
  forall i f, nth_error (w_fields w) i = Some f -> exists v, nth_error l i = Some v /\ same_data f v /\ fine v /\ (h_map f < length (w_maps w))%nat.
(** No two fields share a mapping, and everything agrees. *)
Definition strong {k} (w : world (V := V) k) (l : list (vfield (V := V) k)) : Prop :=
  (forall i j f g, i <> j -> nth_error (w_fields w) i = Some f -> nth_error (w_fields w) j = Some g -> h_map f <> h_map g) /\
  forall i, seen w i = nth_error l i.

Lemma weak_back {k} (w : world k) l i v : weak w l -> nth_error l i = Some v -> exists f, nth_error (w_fields w) i = Some f /\ same_data f v /\ fine v /\ (h_map f < length (w_maps w))%nat.
Proof.
  intros [L H] E. destruct (nth_some (w_fields w) i) as (f & Ef). { rewrite L. apply nth_error_Some. congruence. }
  destruct (H i f Ef) as (v' & Ev & X). rewrite E in Ev. injection Ev as <-. eauto.
Qed.
Lemma weak_at {k} (w : world k) l i : weak w l -> (i < length l)%nat ->
  exists f v, nth_error (w_fields w) i = Some f /\ nth_error l i = Some v /\ same_data f v /\ fine v /\ (h_map f < length (w_maps w))%nat.
Proof. intros W H. destruct (nth_some l i H) as (v & E). destruct (weak_back w l i v W E) as (f & Ef & X). eauto. Qed.
Lemma weak_add {k} (w : world k) l m f v : weak w l -> same_data f v -> fine v -> h_map f = length (w_maps w) ->
  weak (World (w_maps w ++ [m]) (w_fields w ++ [f])) (l ++ [v]).
Proof.
  intros [L H] D F M. split; cbn [w_fields w_maps]; [rewrite !app_length; cbn; lia|]. intros i g. rewrite !nth_app_new, L, app_length. cbn [length].
  destruct (i =? length l)%nat; [intros E; injection E as <-; exists v; split; [|split; [|split]]; auto; lia|].
  intros E. destruct (H i g E) as (v' & Ev & D' & F' & P). exists v'. split; [|split; [|split]]; auto. lia.
Qed.
Lemma weak_set {k} (w : world k) l i ms f v : weak w l -> same_data f v -> fine v -> (h_map f < length ms)%nat -> (length (w_maps w) <= length ms)%nat ->
  weak (World ms (list_set (w_fields w) i f)) (list_set l i v).
Proof.
  intros [L H] D F M Le. split; cbn [w_fields w_maps]; [rewrite !list_set_length; auto|]. intros j g. rewrite !nth_set.
  destruct (Nat.eqb_spec j i) as [->|N].
  - destruct (nth_error (w_fields w) i) as [f0|] eqn:E; [|discriminate]. intros X. injection X as <-. destruct (H i f0 E) as (v' & -> & _). exists v. auto.
  - intros E. destruct (H j g E) as (v' & Ev & D' & F' & P). exists v'. split; [|split; [|split]]; auto. lia.
Qed.

Lemma map_of_ok {k} (w : world k) (f : hfield (V := V) k) : (h_map f < length (w_maps w))%nat -> exists m, map_of w f = Ok m /\ nth_error (w_maps w) (h_map f) = Some m.
Proof. intros H. destruct (nth_some _ _ H) as (m & E). exists m. unfold map_of. rewrite E. auto. Qed.
Lemma at_field_ok {k} (w : world k) i (f : hfield (V := V) k) : nth_error (w_fields w) i = Some f -> at_field w i = Ok f.
Proof. intros E. unfold at_field. rewrite E. reflexivity. Qed.
Lemma new_frame k (f : fld (V := V) k) : f_new zero k = Ok f -> framed (f_ext f).
Proof.
  intros E. assert (X : f_ext f = Box (V3 0 0 0) (V3 (-1) (-1) (-1))).
  { destruct k; cbn [f_new] in E; [injection E as <-; reflexivity|]. unfold sparse_init, setup_blocks in E.
    destruct (i32 _); cbn [bind] in E; try discriminate. destruct (i32 _); cbn [bind] in E; try discriminate. injection E as <-. reflexivity. }
  rewrite X. eexists. reflexivity.
Qed.

Lemma step_weak {k} (w : world k) l o : weak w l -> legal_op l o ->
  exists w' l', h_step dflt zero w o = Ok w' /\ v_step dflt zero l o = Ok l' /\ weak w' l'.
Proof.
  intros W. destruct o as [|j|i j|i m|i e dw|i p v|i g|i n t|i t n v]; cbn [legal_op h_step v_step].
  - intros _. unfold h_new, c_new. destruct (inv_new zero zero k) as (f & E & I & _). rewrite E. cbn [bind].
    destruct (map_extents_total (MapMatrix mat_init) (f_ext f) (new_frame k f E)) as (m & Em). rewrite Em. cbn [bind].
    eexists _, _. split; [reflexivity|]. split; [reflexivity|]. apply weak_add; auto.
    + repeat split.
    + split; cbn; auto. apply (new_frame k); auto.
  - intros J. destruct (weak_at w l j W J) as (f & v & Ef & Ev & D & F & P). destruct (map_of_ok w f P) as (m & Em & _).
    unfold h_clone. rewrite (at_field_ok _ _ _ Ef). cbn [bind]. rewrite Em. cbn [bind]. rewrite copy_data_id by (destruct D as (-> & _); apply F). cbn [bind]. rewrite Ev, meta_assign_id.
    eexists _, _. split; [reflexivity|]. split; [reflexivity|]. apply weak_add; auto.
  - intros [I J]. destruct (weak_at w l j W J) as (f & v & Ef & Ev & D & F & P). destruct (weak_at w l i W I) as (f' & v' & Ef' & Ev' & D' & F' & P').
    unfold h_assign. rewrite (at_field_ok _ _ _ Ef), (at_field_ok _ _ _ Ef'). cbn [bind]. rewrite Ev. unfold v_update. rewrite Ev'. cbn [bind].
    destruct (Nat.eqb_spec i j) as [<-|N].
    + eexists _, _. split; [reflexivity|]. split; [reflexivity|]. destruct W as [L H]. split; [rewrite list_set_length; auto|]. intros q g E. rewrite nth_set.
      destruct (H q g E) as (u & -> & X). destruct (Nat.eqb_spec q i) as [->|]; [|eauto]. rewrite Ef in E. injection E as <-. exists v. auto.
    + rewrite copy_data_id by (destruct D as (-> & _); apply F). cbn [bind]. rewrite meta_assign_id.
      eexists _, _. split; [reflexivity|]. split; [reflexivity|]. apply weak_set; auto.
  - intros I. destruct (weak_at w l i W I) as (f & v & Ef & Ev & (D1 & D) & F & P). unfold h_set_mapping, v_update, set_mapping. rewrite (at_field_ok _ _ _ Ef), Ev. cbn [bind]. rewrite D1.
    destruct (map_extents_total m (f_ext (c_fld (v_fld v))) (proj2 F)) as (m' & Em). rewrite Em. cbn [bind].
    eexists _, _. split; [reflexivity|]. split; [reflexivity|]. apply weak_set; auto.
    + split; auto.
    + cbn [h_map]. rewrite app_length. cbn. lia.
    + rewrite app_length. lia.
  - intros ((v & Ev & Fi) & N & Fr). destruct (weak_back w l i v W Ev) as (f & Ef & (D1 & D) & F & P). destruct (map_of_ok w f P) as (m & Em & _).
    unfold h_set_size, v_update, set_size. rewrite (at_field_ok _ _ _ Ef), Ev. cbn [bind]. rewrite Em. cbn [bind]. rewrite D1.
    destruct (map_extents_total m e Fr) as (m1 & E1). rewrite E1. destruct (map_extents_total (c_map (v_fld v)) e Fr) as (m2 & E2). rewrite E2. cbn [bind].
    destruct (size_ok dflt zero k (c_fld (v_fld v)) e dw (proj1 F) Fi N) as (f' & Es & I' & X' & _). rewrite Es. cbn [bind].
    eexists _, _. split; [reflexivity|]. split; [reflexivity|]. apply weak_set; auto.
    + split; auto.
    + split; cbn; auto. rewrite X'. auto.
    + cbn. rewrite list_set_length. auto.
    + rewrite list_set_length. auto.
  - intros (u & Ev & Bx). destruct (weak_back w l i u W Ev) as (f & Ef & (D1 & D) & F & P).
    unfold h_write, v_update. rewrite (at_field_ok _ _ _ Ef), Ev. cbn [bind]. rewrite D1.
    destruct (set_ok k (c_fld (v_fld u)) p v (proj1 F) Bx) as (f' & Es & I' & X' & _). rewrite Es. cbn [bind].
    eexists _, _. split; [reflexivity|]. split; [reflexivity|]. apply weak_set; auto.
    + split; auto.
    + split; cbn; auto. rewrite X'. apply F.
  - intros I. destruct (weak_at w l i W I) as (f & v & Ef & Ev & D & F & P). destruct (map_of_ok w f P) as (m & Em & _).
    unfold h_change, v_update. rewrite (at_field_ok _ _ _ Ef), Ev. cbn [bind]. rewrite Em. cbn [bind].
    eexists _, _. split; [reflexivity|]. split; [reflexivity|]. destruct W as [L H]. split; [rewrite list_set_length; auto|]. cbn [w_fields w_maps]. intros q g' E. rewrite nth_set, list_set_length.
    destruct (H q g' E) as (u & Eu & X). rewrite Eu. destruct (Nat.eqb_spec q i) as [->|]; [|eauto]. rewrite Ef in E. injection E as <-. eexists. split; [reflexivity|]. auto.
  - intros I. destruct (weak_at w l i W I) as (f & v & Ef & Ev & (D1 & D2 & D3 & D4) & F & P). unfold h_label, v_update. rewrite (at_field_ok _ _ _ Ef), Ev. cbn [bind].
    eexists _, _. split; [reflexivity|]. split; [reflexivity|]. apply weak_set; auto. repeat split; auto.
  - intros I. destruct (weak_at w l i W I) as (f & u & Ef & Ev & (D1 & D2 & D3 & D4) & F & P). unfold h_set_meta, v_update. rewrite (at_field_ok _ _ _ Ef), Ev. cbn [bind].
    eexists _, _. split; [reflexivity|]. split; [reflexivity|]. apply weak_set; auto. repeat split; auto. cbn. congruence.
Qed.

(** ** Sharing *)
Definition apart {k} (w : world (V := V) k) : Prop :=
  forall i j f g, i <> j -> nth_error (w_fields w) i = Some f -> nth_error (w_fields w) j = Some g -> h_map f <> h_map g.
Lemma seen_in {k} (w : world (V := V) k) i f m : nth_error (w_fields w) i = Some f -> nth_error (w_maps w) (h_map f) = Some m ->
  seen w i = Some (VField (MField (h_fld f) m) (h_name f) (h_attr f) (h_meta f)).
Proof. intros E M. unfold seen. rewrite E, M. reflexivity. Qed.
Lemma strong_add {k} (w : world (V := V) k) l m f : weak w l -> strong w l -> h_map f = length (w_maps w) ->
  strong (World (w_maps w ++ [m]) (w_fields w ++ [f])) (l ++ [VField (MField (h_fld f) m) (h_name f) (h_attr f) (h_meta f)]).
Proof.
  intros [L H] [A S] M. split.
  - cbn [w_fields]. intros i j g g'. rewrite !nth_app_new. intros N E E'.
    destruct (Nat.eqb_spec i (length (w_fields w))) as [->|Ni], (Nat.eqb_spec j (length (w_fields w))) as [->|Nj].
    + congruence.
    + injection E as <-. destruct (H j g' E') as (_ & _ & _ & _ & P). lia.
    + injection E' as <-. destruct (H i g E) as (_ & _ & _ & _ & P). lia.
    + apply (A i j); auto.
  - intros i. unfold seen. cbn [w_fields w_maps]. rewrite !nth_app_new, L. destruct (i =? length l)%nat eqn:Q.
    + rewrite nth_app_new, M, Nat.eqb_refl. reflexivity.
    + rewrite <- S. unfold seen. destruct (nth_error (w_fields w) i) as [g|] eqn:E; auto. destruct (H i g E) as (_ & _ & _ & _ & P). rewrite nth_app_new.
      replace (h_map g =? length (w_maps w))%nat with false by (symmetry; apply Nat.eqb_neq; lia). reflexivity.
Qed.
(** Replacing field [i] by one with a mapping no other field has, changing only mappings no
    other field has. *)
Lemma strong_set {k} (w : world (V := V) k) l i f ms m : strong w l ->
  nth_error ms (h_map f) = Some m -> (i < length l)%nat -> length (w_fields w) = length l ->
  (forall j g, j <> i -> nth_error (w_fields w) j = Some g -> h_map g <> h_map f /\ nth_error ms (h_map g) = nth_error (w_maps w) (h_map g)) ->
  strong (World ms (list_set (w_fields w) i f)) (list_set l i (VField (MField (h_fld f) m) (h_name f) (h_attr f) (h_meta f))).
Proof.
  intros [A S] Em I L O. split.
  - cbn [w_fields]. intros a b g g'. rewrite !nth_set. intros N E E'.
    destruct (Nat.eqb_spec a i) as [->|Na], (Nat.eqb_spec b i) as [->|Nb].
    + congruence.
    + destruct (nth_error (w_fields w) i); [|discriminate]. injection E as <-. apply O in E'; auto. intuition.
    + destruct (nth_error (w_fields w) i); [|discriminate]. injection E' as <-. apply O in E; auto. intuition.
    + apply (A a b); auto.
  - intros a. unfold seen. cbn [w_fields w_maps]. rewrite !nth_set. destruct (Nat.eqb_spec a i) as [->|Na].
    + destruct (nth_some (w_fields w) i) as (f0 & ->); [lia|]. destruct (nth_some l i I) as (v0 & ->). rewrite Em. reflexivity.
    + rewrite <- S. unfold seen. destruct (nth_error (w_fields w) a) as [g|] eqn:E; auto. destruct (O a g Na E) as [_ ->]. reflexivity.
Qed.
Lemma list_set_id {A} (l : list A) i a : nth_error l i = Some a -> list_set l i a = l.
Proof. revert i. induction l as [|b l IH]; intros [|i] E; cbn in *; try discriminate; [congruence|]. f_equal. auto. Qed.

Lemma step_strong {k} (w : world k) l o w' l' : weak w l -> strong w l -> legal_op l o -> is_assign o = false ->
  h_step dflt zero w o = Ok w' -> v_step dflt zero l o = Ok l' -> strong w' l'.
Proof.
  intros W St. pose proof W as [L H]. pose proof St as [A S]. destruct o as [|j|i j|i m|i e dw|i p v|i g|i n t|i t n v]; cbn [legal_op h_step v_step is_assign]; intros Lg Na Eh Ev; try discriminate.
  - unfold h_new in Eh. unfold c_new in Ev. destruct (f_new zero k) as [f| |]; cbn [bind] in *; try discriminate.
    destruct (map_extents (MapMatrix mat_init) (f_ext f)) as [m| |]; cbn [bind] in *; try discriminate. injection Eh as <-. injection Ev as <-.
    apply (strong_add w l m (HField f (length (w_maps w)) [] [] meta_empty)); auto.
  - destruct (weak_at w l j W Lg) as (f & v & Ef & E & D & F & P). destruct (map_of_ok w f P) as (m & Em & En).
    unfold h_clone in Eh. rewrite (at_field_ok _ _ _ Ef) in Eh. cbn [bind] in Eh. rewrite Em in Eh. cbn [bind] in Eh. rewrite copy_data_id in Eh by (destruct D as (-> & _); apply F). cbn [bind] in Eh. rewrite meta_assign_id in Eh.
    injection Eh as <-. pose proof (S j) as Sj. rewrite (seen_in w j f m Ef En) in Sj. rewrite <- Sj in Ev. injection Ev as <-.
    apply (strong_add w l m (HField (h_fld f) (length (w_maps w)) (h_name f) (h_attr f) (h_meta f))); auto.
  - destruct (weak_at w l i W Lg) as (f & v & Ef & E & (D1 & D2 & D3 & D4) & F & P). unfold h_set_mapping in Eh. rewrite (at_field_ok _ _ _ Ef) in Eh. cbn [bind] in Eh.
    unfold v_update, set_mapping in Ev. rewrite E, <- D1 in Ev. destruct (map_extents m (f_ext (h_fld f))) as [m'| |]; cbn [bind] in *; try discriminate. injection Eh as <-. injection Ev as <-.
    rewrite <- D2, <- D3, <- D4. apply (strong_set w l i (HField (h_fld f) (length (w_maps w)) (h_name f) (h_attr f) (h_meta f)) (w_maps w ++ [m']) m'); auto.
    + cbn [h_map]. rewrite nth_app_new, Nat.eqb_refl. reflexivity.
    + intros j g Nj Eg. destruct (H j g Eg) as (_ & _ & _ & _ & Pg). cbn [h_map]. split; [lia|]. rewrite nth_error_app1 by auto. reflexivity.
  - destruct Lg as ((v & E & Fi) & N & Fr). destruct (weak_back w l i v W E) as (f & Ef & (D1 & D2 & D3 & D4) & F & P). destruct (map_of_ok w f P) as (m & Em & En).
    unfold h_set_size in Eh. rewrite (at_field_ok _ _ _ Ef) in Eh. cbn [bind] in Eh. rewrite Em in Eh. cbn [bind] in Eh.
    pose proof (S i) as Si. rewrite (seen_in w i f m Ef En), E in Si. injection Si as <-. unfold v_update, set_size in Ev. rewrite E in Ev. cbn [v_fld c_fld c_map] in Ev.
    destruct (map_extents m e) as [m'| |]; cbn [bind] in *; try discriminate. destruct (f_size dflt zero (h_fld f) e dw) as [f'| |]; cbn [bind] in *; try discriminate. injection Eh as <-. injection Ev as <-.
    apply (strong_set w l i (HField f' (h_map f) (h_name f) (h_attr f) (h_meta f)) (list_set (w_maps w) (h_map f) m') m'); auto.
    + cbn [h_map]. apply list_set_same. auto.
    + rewrite <- L. apply nth_error_Some. congruence.
    + intros j g Nj Eg. cbn [h_map]. assert (X : h_map g <> h_map f) by (apply (A j i); auto). split; auto. apply list_set_other; auto.
  - destruct Lg as (u & E & Bx). destruct (weak_back w l i u W E) as (f & Ef & (D1 & D2 & D3 & D4) & F & P). destruct (map_of_ok w f P) as (m & Em & En).
    unfold h_write in Eh. rewrite (at_field_ok _ _ _ Ef) in Eh. cbn [bind] in Eh. pose proof (S i) as Si. rewrite (seen_in w i f m Ef En), E in Si. injection Si as <-. unfold v_update in Ev. rewrite E in Ev. cbn [v_fld c_fld c_map] in Ev.
    destruct (f_set (h_fld f) p v) as [f'| |]; cbn [bind] in *; try discriminate. injection Eh as <-. injection Ev as <-.
    apply (strong_set w l i (HField f' (h_map f) (h_name f) (h_attr f) (h_meta f)) (w_maps w) m); auto.
    + rewrite <- L. apply nth_error_Some. congruence.
    + intros j g Nj Eg. cbn [h_map]. split; auto. apply (A j i); auto.
  - destruct (weak_at w l i W Lg) as (f & v & Ef & E & D & F & P). destruct (map_of_ok w f P) as (m & Em & En).
    unfold h_change in Eh. rewrite (at_field_ok _ _ _ Ef) in Eh. cbn [bind] in Eh. rewrite Em in Eh. cbn [bind] in Eh. injection Eh as <-.
    pose proof (S i) as Si. rewrite (seen_in w i f m Ef En), E in Si. injection Si as <-. unfold v_update in Ev. rewrite E in Ev. cbn [bind] in Ev. injection Ev as <-. cbn [v_fld c_fld c_map].
    pose proof (strong_set w l i f (list_set (w_maps w) (h_map f) (g m)) (g m) St) as X. rewrite (list_set_id (w_fields w)) in X by auto. apply X; auto.
    + apply list_set_same. auto.
    + intros j g' Nj Eg. assert (Y : h_map g' <> h_map f) by (apply (A j i); auto). split; auto. apply list_set_other; auto.
  - destruct (weak_at w l i W Lg) as (f & v & Ef & E & D & F & P). destruct (map_of_ok w f P) as (m & Em & En).
    unfold h_label in Eh. rewrite (at_field_ok _ _ _ Ef) in Eh. cbn [bind] in Eh. injection Eh as <-. pose proof (S i) as Si. rewrite (seen_in w i f m Ef En), E in Si. injection Si as <-.
    unfold v_update in Ev. rewrite E in Ev. cbn [bind] in Ev. injection Ev as <-.
    apply (strong_set w l i (HField (h_fld f) (h_map f) n t (h_meta f)) (w_maps w) m); auto.
    intros j g Nj Eg. cbn [h_map]. split; auto. apply (A j i); auto.
  - destruct (weak_at w l i W Lg) as (f & u & Ef & E & D & F & P). destruct (map_of_ok w f P) as (m & Em & En).
    unfold h_set_meta in Eh. rewrite (at_field_ok _ _ _ Ef) in Eh. cbn [bind] in Eh. injection Eh as <-. pose proof (S i) as Si. rewrite (seen_in w i f m Ef En), E in Si. injection Si as <-.
    unfold v_update in Ev. rewrite E in Ev. cbn [bind] in Ev. injection Ev as <-.
    apply (strong_set w l i (HField (h_fld f) (h_map f) (h_name f) (h_attr f) (meta_set (h_meta f) t n v)) (w_maps w) m); auto.
    intros j g Nj Eg. cbn [h_map]. split; auto. apply (A j i); auto.
Qed.

Lemma run_weak {k} os : forall (w : world k) l, weak w l -> legal_ops dflt zero l os ->
  exists w' l', h_run dflt zero w os = Ok w' /\ v_run dflt zero l os = Ok l' /\ weak w' l' /\
    (strong w l -> forallb (fun o => negb (is_assign o)) os = true -> strong w' l').
Proof.
  induction os as [|o os IH]; intros w l W Lg; cbn [h_run v_run legal_ops forallb] in *; [exists w, l; auto|].
  destruct Lg as [Lo Lg]. destruct (step_weak w l o W Lo) as (w1 & l1 & E1 & E2 & W1). rewrite E1, E2. cbn [bind].
  destruct (IH w1 l1 W1 (Lg l1 E2)) as (w2 & l2 & E3 & E4 & W2 & S2). exists w2, l2. split; auto. split; auto. split; auto.
  intros St B. apply andb_true_iff in B as [B1 B2]. apply negb_true_iff in B1. apply S2; auto. apply (step_strong w l o); auto.
Qed.
Lemma weak_empty k : weak (World (V := V) (k := k) [] []) [].
Proof. split; auto. intros [|i] f; discriminate. Qed.
Lemma strong_empty k : strong (World (V := V) (k := k) [] []) [].
Proof. split; [intros [|i] j f g _; discriminate|intros [|i]; reflexivity]. Qed.
End P.
