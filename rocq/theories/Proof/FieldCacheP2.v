From Coq Require Import ZArith List Bool Lia Arith Permutation.
From Verif Require Import Model.Base Model.SparseM Model.CacheM Model.OpsM Model.CloneM Model.FieldCacheM
  Spec.VoxelSpec Spec.SparseSpec Spec.CacheSpec Spec.FieldCacheSpec
  Proof.BaseP Proof.SparseP Proof.SparseP3 Proof.CacheP Proof.CacheP2 Proof.CacheP3 Proof.CacheP4
  Proof.CloneP Proof.FieldCacheP.
Import ListNotations.
Open Scope Z_scope.

Section P.
Context {V : Type}.
Implicit Types (s : cache V) (e : entry) (fr : list (nat * nat)) (F : fields V).

Lemma freedb_iff fr t f i : freedb fr (t, f, i) = true <-> In (t, f) fr.
Proof.
  cbn [freedb]. rewrite existsb_exists. split.
  - intros ([t' f'] & I & E). apply andb_prop in E. cbn in E. destruct E as [E1 E2].
    apply Nat.eqb_eq in E1, E2. subst. exact I.
  - intros I. exists (t, f). cbn. rewrite !Nat.eqb_refl. auto.
Qed.
Lemma freedb_not fr t f i : freedb fr (t, f, i) = false <-> ~ In (t, f) fr.
Proof. rewrite <- (freedb_iff fr t f i). destruct (freedb fr (t, f, i)); split; congruence || tauto. Qed.

(** * The manager's operations and the reference counts *)
Lemma flush_refs : forall l s s', flush_list s l = Ok s' -> forall x, refs s' x = refs s x.
Proof.
  induction l as [|e l IH]; intros s s'; cbn [flush_list]; [intros [= <-]; auto|].
  intros H x. apply bind_ok in H. destruct H as (s1 & E & H). rewrite (IH _ _ H).
  change (refs s1 x = refs s x). exact (upd_blk_refs _ _ _ _ E (fun _ => eq_refl) x).
Qed.
Lemma flush_in_eq fr s : sound fr s -> flush_in fr s = flush s.
Proof.
  intros S. unfold flush_in. destruct (existsb (freedb fr) (cached s)) eqn:E; auto.
  apply existsb_exists in E. destruct E as (e & I & T). rewrite (S e I) in T. discriminate.
Qed.
Lemma open_unpinned s t d : unpinned s -> unpinned (open_field s t d).
Proof.
  intros U [[t' f'] i'] n. unfold refs, blk_at, ref_at, open_field; cbn [c_refs].
  destruct (Nat.eqb_spec t' t) as [->|]; [|apply (U (t', f', i') n)].
  rewrite nth_app_new. destruct (Nat.eqb_spec f' (length (c_refs s t))).
  - cbn [r_blk]. destruct (nth_error (map _ (fd_alloc d)) i') as [k|] eqn:E; [|discriminate].
    apply nth_error_In, in_map_iff in E. destruct E as (b & <- & _). cbn. congruence.
  - apply (U (t, f', i') n).
Qed.
Lemma remove_unpinned s t f s' : remove_field s t f = Ok s' -> unpinned s -> unpinned s'.
Proof.
  unfold remove_field. destruct (ref_at s t f) as [r|] eqn:R; [|discriminate]. intros [= <-] U [[t' f'] i'] n.
  unfold refs, blk_at, ref_at, set_ref, with_list; cbn [c_refs].
  destruct (Nat.eqb_spec t' t) as [->|]; [|apply (U (t', f', i') n)].
  rewrite nth_set. destruct (Nat.eqb_spec f' f) as [->|]; [|apply (U (t, f', i') n)].
  unfold ref_at in R. rewrite R. cbn [r_blk]. destruct i'; discriminate.
Qed.
Lemma remove_sub s t f s' : remove_field s t f = Ok s' -> forall e, In e (cached s') -> In e (cached s).
Proof.
  unfold remove_field. destruct (ref_at s t f); [|discriminate]. intros [= <-] e. unfold cached at 1; cbn [with_list c_before c_after].
  rewrite <- filter_app, filter_In. tauto.
Qed.
Lemma open_ref F s t f d : cinv F s -> is_open F t f d ->
  exists r, ref_at s t f = Some r /\ r_nvox r = fd_nvox d /\ r_elem r = fd_elem d /\ r_disk r = fd_disk d.
Proof.
  intros I O. destruct (ci_live _ _ I t f d O) as (_ & S & _). unfold stat in S.
  destruct (ref_at s t f) as [r|]; [|discriminate]. cbn in S. injection S as _ E1 E2 E3. eauto.
Qed.

(** * The relation between the objects and the values *)
Definition unalloc (f : sparse V) : Prop := forall b, In b (s_blocks f) -> b_alloc b = false.
Definition agree F fr (o : obj V) (x : afield V) : Prop :=
  o_type o = af_type x /\ o_lazy o = af_lazy x /\
  exists f, srefines f (af_map x) /\
  (if o_lazy o then
     o_data o = hollow f /\ exists d, is_open F (o_type o) (o_id o) d /\
       ((~ In (o_type o, o_id o) fr /\ exists elem, d = stored f elem) \/ unalloc f)
   else o_data o = f).
Definition orel F fr (o : option (obj V)) (x : option (afield V)) : Prop :=
  match o, x with None, None => True | Some o, Some x => agree F fr o x | _, _ => False end.
Record linv (a : afields V) (w : lworld V) F : Prop := {
  li_c : cinv F (l_cache w);
  li_sound : sound (l_freed w) (l_cache w);
  li_fr : forall t f, In (t, f) (l_freed w) -> (f < length (F t))%nat;
  li_unp : unpinned (l_cache w);
  li_len : length (l_objs w) = length a;
  li_rel : forall i o x, nth_error (l_objs w) i = Some o -> nth_error a i = Some x -> orel F (l_freed w) o x;
  li_dist : forall i j o o', nth_error (l_objs w) i = Some (Some o) -> nth_error (l_objs w) j = Some (Some o') ->
     o_lazy o = true -> o_lazy o' = true -> o_type o = o_type o' -> o_id o = o_id o' -> i = j }.

Lemma linv_at a w F i x : linv a w F -> nth_error a i = Some (Some x) ->
  exists o, nth_error (l_objs w) i = Some (Some o) /\ obj_at w i = Ok o /\ agree F (l_freed w) o x.
Proof.
  intros I E. destruct (nth_some (l_objs w) i) as (o & O).
  { rewrite (li_len _ _ _ I). apply nth_error_Some. congruence. }
  pose proof (li_rel _ _ _ I i o _ O E) as R. destruct o as [o|]; [|destruct R].
  exists o. split; auto. split; auto. unfold obj_at. rewrite O. reflexivity.
Qed.
Lemma agree_id F fr o x : agree F fr o x -> o_lazy o = true -> (o_id o < length (F (o_type o)))%nat.
Proof.
  intros (_ & _ & f & _ & H) L. rewrite L in H. destruct H as (_ & d & O & _). apply nth_error_Some. unfold is_open in O. congruence.
Qed.
Lemma agree_mono F fr F' fr' o x : agree F fr o x ->
  (o_lazy o = true -> (forall d, is_open F (o_type o) (o_id o) d -> is_open F' (o_type o) (o_id o) d) /\
     (In (o_type o, o_id o) fr' -> In (o_type o, o_id o) fr)) ->
  agree F' fr' o x.
Proof.
  intros (T & L & f & S & H) M. split; auto. split; auto. exists f. split; auto.
  destruct (o_lazy o); auto. destruct (M eq_refl) as [M1 M2]. destruct H as (E & d & O & H). split; auto.
  exists d. split; [auto|]. destruct H as [[N H]|H]; [left; split; auto|right; exact H].
Qed.

(** Replacing one object. *)
Lemma linv_put a w F i o0 x0 F' s' fr' o' x' : linv a w F ->
  nth_error (l_objs w) i = Some (Some o0) -> nth_error a i = Some (Some x0) ->
  cinv F' s' -> sound fr' s' -> (forall t f, In (t, f) fr' -> (f < length (F' t))%nat) -> unpinned s' ->
  (forall j o, j <> i -> nth_error (l_objs w) j = Some (Some o) -> o_lazy o = true ->
     (forall d, is_open F (o_type o) (o_id o) d -> is_open F' (o_type o) (o_id o) d) /\
     (In (o_type o, o_id o) fr' -> In (o_type o, o_id o) (l_freed w))) ->
  orel F' fr' o' x' ->
  (forall j o o1, j <> i -> nth_error (l_objs w) j = Some (Some o) -> o_lazy o = true -> o' = Some o1 -> o_lazy o1 = true ->
     o_type o = o_type o1 -> o_id o = o_id o1 -> False) ->
  linv (list_set a i x') (LWorld s' fr' (list_set (l_objs w) i o')) F'.
Proof.
  intros I E0 X0 C S B U M R D. constructor; cbn [l_cache l_freed l_objs]; auto.
  - rewrite !list_set_length. apply (li_len _ _ _ I).
  - intros j o x. rewrite !nth_set. destruct (Nat.eqb_spec j i) as [->|N].
    + rewrite E0, X0. intros [= <-] [= <-]. exact R.
    + intros Eo Ex. pose proof (li_rel _ _ _ I j o x Eo Ex) as Q. destruct o as [o|], x as [x|]; auto.
      cbn [orel] in *. eapply agree_mono; [exact Q|]. intros L. apply (M j o N Eo L).
  - intros j k o o1. rewrite !nth_set.
    destruct (Nat.eqb_spec j i) as [->|N], (Nat.eqb_spec k i) as [->|N']; auto.
    + rewrite E0. intros [= ->] E1 L L1 T Q. exfalso. eapply (D k o1 o); eauto.
    + rewrite E0. intros E1 [= ->] L L1 T Q. exfalso. eapply (D j o o1); eauto.
    + intros E1 E2. apply (li_dist _ _ _ I j k o o1 E1 E2).
Qed.
(** Adding one object. *)
Lemma linv_add a w F F' s' o' x' : linv a w F -> cinv F' s' -> sound (l_freed w) s' -> unpinned s' ->
  (forall t, (length (F t) <= length (F' t))%nat) ->
  (forall t f d, is_open F t f d -> is_open F' t f d) ->
  agree F' (l_freed w) o' x' ->
  (o_lazy o' = true -> (length (F (o_type o')) <= o_id o')%nat) ->
  linv (a ++ [Some x']) (LWorld s' (l_freed w) (l_objs w ++ [Some o'])) F'.
Proof.
  intros I C S U LE OP R D. constructor; cbn [l_cache l_freed l_objs]; auto.
  - intros t f H. pose proof (li_fr _ _ _ I t f H). specialize (LE t). lia.
  - rewrite !app_length, (li_len _ _ _ I). reflexivity.
  - intros j o x. rewrite !nth_app_new, (li_len _ _ _ I). destruct (Nat.eqb_spec j (length a)) as [->|N].
    + intros [= <-] [= <-]. exact R.
    + intros Eo Ex. pose proof (li_rel _ _ _ I j o x Eo Ex) as Q. destruct o as [o|], x as [x|]; auto.
      cbn [orel] in *. eapply agree_mono; [exact Q|]. auto.
  - assert (Q : forall j o, nth_error (l_objs w) j = Some (Some o) -> o_lazy o = true -> (o_id o < length (F (o_type o)))%nat).
    { intros j o Eo L. destruct (nth_some a j) as (x & X).
      { rewrite <- (li_len _ _ _ I). apply nth_error_Some. congruence. }
      pose proof (li_rel _ _ _ I j _ x Eo X) as H. destruct x as [x|]; [|destruct H].
      eapply agree_id; eauto. }
    intros j k o o1. rewrite !nth_app_new.
    destruct (Nat.eqb_spec j (length (l_objs w))) as [->|N], (Nat.eqb_spec k (length (l_objs w))) as [->|N']; auto.
    + intros [= <-] E1 L L1 T Qi. exfalso. specialize (Q k o1 E1 L1). specialize (D L). rewrite <- T in Q. lia.
    + intros E1 [= <-] L L1 T Qi. exfalso. specialize (Q j o E1 L). specialize (D L1). rewrite T in Q. lia.
    + intros E1 E2. apply (li_dist _ _ _ I j k o o1 E1 E2).
Qed.

Variable zero : V.
Variable eqb : V -> V -> bool.
Hypothesis eqb_ok : decides_eq eqb.

(** * Copying *)
Lemma hollow_blocks (f : sparse V) : s_blocks (hollow f) = map (fun b => Block (b_alloc b) (b_empty b) None) (s_blocks f).
Proof. reflexivity. Qed.
Lemma copy_states_id (f : sparse V) : sshape f -> copy_states zero (hollow f) = Ok (hollow f).
Proof.
  intros S. unfold copy_states. change (s_ext (hollow f)) with (s_ext f). change (s_dw (hollow f)) with (s_dw f).
  change (s_order (hollow f)) with (s_order f).
  destruct (setup_blocks_ok zero (s_ext f) (s_dw f) (s_order f) (ss_order _ S) (ss_win _ S)) as (g & -> & Sg & X1 & X2 & X3 & X4).
  cbn [bind].
  assert (BR : s_bres g = s_bres f) by (rewrite (ss_bres _ Sg), (ss_bres _ S), X2, X3; reflexivity).
  assert (XY : s_xy g = s_xy f) by (rewrite (ss_xy _ Sg), (ss_xy _ S), BR; reflexivity).
  assert (LN : length (s_blocks g) = length (s_blocks (hollow f))).
  { rewrite hollow_blocks, map_length. pose proof (ss_len _ Sg) as L1. pose proof (ss_len _ S) as L2. rewrite BR in L1. lia. }
  rewrite LN, Nat.eqb_refl, X1, X2, X3, BR, XY. f_equal. unfold hollow at 2. f_equal.
  rewrite hollow_blocks, map_map. apply map_ext. reflexivity.
Qed.
Lemma count_false (l : list bool) : (forall b, In b l -> b = false) -> filter (fun b => b) l = [].
Proof. induction l as [|b l IH]; cbn; auto. intros H. rewrite (H b), IH; auto. Qed.
Lemma hollow_alloc (f : sparse V) : map (fun b => b_alloc b) (s_blocks (hollow f)) = map (fun b => b_alloc b) (s_blocks f).
Proof. rewrite hollow_blocks, map_map. apply map_ext. reflexivity. Qed.
Lemma stored_eta (f : sparse V) elem : FDesc (map (fun b => b_alloc b) (s_blocks (hollow f))) (fd_nvox (stored f elem)) (fd_elem (stored f elem)) (fd_disk (stored f elem)) = stored f elem.
Proof. rewrite hollow_alloc. reflexivity. Qed.

Lemma copy_ok a w F i o x : linv a w F -> nth_error (l_objs w) i = Some (Some o) -> agree F (l_freed w) o x ->
  exists s' c F', copy_field zero (l_cache w) o = Ok (s', c) /\ cinv F' s' /\ unpinned s' /\ cached s' = cached (l_cache w) /\
    (forall t, (length (F t) <= length (F' t))%nat) /\ (forall t f d, is_open F t f d -> is_open F' t f d) /\
    o_type c = o_type o /\ o_lazy c = o_lazy o /\
    (o_lazy c = true -> (length (F (o_type c)) <= o_id c)%nat) /\
    (forall fr', (forall t f, In (t, f) fr' -> (f < length (F t))%nat) -> agree F' fr' c x).
Proof.
  intros I Eo (T & L & f & S & H). unfold copy_field. destruct (o_lazy o) eqn:Lo.
  - destruct H as (Ed & d & O & H). rewrite Ed, (copy_states_id f (sr_shape _ _ S)). cbn [bind].
    destruct (open_ref F _ _ _ d (li_c _ _ _ I) O) as (r & -> & Q1 & Q2 & Q3). rewrite Q1, Q2, Q3.
    set (d' := FDesc _ _ _ _).
    destruct (ci_live _ _ (li_c _ _ _ I) _ _ d O) as (Dk & _ & _).
    assert (D' : desc_ok d').
    { destruct H as [[_ (elem & ->)]|U].
      - unfold d'. rewrite stored_eta. exact Dk.
      - destruct Dk as (K1 & K2 & K3). split; [|split; auto]. unfold d'; cbn [fd_alloc fd_disk].
        rewrite hollow_alloc, count_false; [cbn; lia|]. intros b B. apply in_map_iff in B. destruct B as (k & <- & K). apply U, K. }
    pose proof (open_ok F _ (o_type o) d' (li_c _ _ _ I) D') as C'.
    exists (open_field (l_cache w) (o_type o) d'), (Obj (o_type o) (hollow f) true (length (c_refs (l_cache w) (o_type o)))), (fields_step F (COpen (o_type o) d')).
    assert (LF : forall t, (length (F t) <= length (fields_step F (COpen (o_type o) d') t))%nat).
    { intros t. cbn [fields_step]. destruct (Nat.eqb_spec t (o_type o)); rewrite ?app_length; lia. }
    assert (OP : forall t f0 d0, is_open F t f0 d0 -> is_open (fields_step F (COpen (o_type o) d')) t f0 d0).
    { intros t f0 d0 O0. unfold is_open in *. cbn [fields_step]. destruct (Nat.eqb_spec t (o_type o)); auto.
      rewrite nth_error_app1; auto. apply nth_error_Some. congruence. }
    assert (NI : length (c_refs (l_cache w) (o_type o)) = length (F (o_type o))) by apply (ci_len _ _ (li_c _ _ _ I)).
    split; [reflexivity|]. split; [exact C'|]. split; [apply open_unpinned, (li_unp _ _ _ I)|].
    split; [reflexivity|]. split; [exact LF|]. split; [exact OP|]. split; [reflexivity|]. split; [reflexivity|].
    split; [intros _; cbn [o_type o_id]; lia|].
    intros fr' B. split; [exact T|]. split; [cbn [o_lazy]; congruence|]. exists f. split; auto. cbn [o_lazy o_data o_type o_id].
    split; auto. exists d'. split.
    + unfold is_open. cbn [fields_step]. rewrite Nat.eqb_refl, NI, nth_app_new, Nat.eqb_refl. reflexivity.
    + destruct H as [[_ (elem & ->)]|U]; [|right; exact U]. left. split; [|exists elem; apply stored_eta].
      intros Q. specialize (B _ _ Q). lia.
  - rewrite H. pose proof (copy_data_id KSparse f (sr_shape _ _ S)) as E. cbn [copy_data] in E. rewrite E. cbn [bind].
    exists (l_cache w), (Obj (o_type o) f false 0), F. split; [reflexivity|]. split; [apply I|]. split; [apply I|].
    split; [reflexivity|]. split; [auto|]. split; [auto|]. split; [reflexivity|]. split; [auto|].
    split; [discriminate|]. intros fr' _. split; [exact T|]. split; [cbn [o_lazy]; congruence|]. exists f. split; [exact S|reflexivity].
Qed.

Lemma field_map_refines f m : field_map zero eqb f m -> srefines f m.
Proof.
  intros (l & f0 & L & E0 & E & ->). destruct (srefines_init zero) as (f0' & E0' & R0).
  assert (f0' = f0) by congruence. subst f0'.
  destruct (srefines_run zero eqb eqb_ok l f0 _ R0 L) as (f' & E' & R). assert (f' = f) by congruence. subst. exact R.
Qed.
End P.
