(** More about metadata in HDF5 files: any order of the attributes, any attributes. *)
From Coq Require Import ZArith List Bool String Lia Sorted Permutation.
From Verif Require Import Model.Base Model.OgawaM Spec.OgawaSpec Model.OgM Spec.OgSpec Proof.OgP Model.FieldIOM Model.FileM Spec.FileSpec Proof.FileP
  Model.MetaM Spec.MetaSpec Proof.MetaP Model.Hdf5FileM Spec.Hdf5MetaSpec Proof.Hdf5MetaP.
Import ListNotations.
Open Scope Z_scope.

Lemma get_perm m t : meta_inc m -> apart m -> (forall s, In s (msets m) -> good_name (ms_name s) /\ (ms_kind s = KStr -> ~ In 0 (ms_value s))) ->
  Permutation t (msets m) -> get_meta (map stored t) meta_empty = Ok m.
Proof.
  intros I D G P. pose proof (msets_nodup m I D) as ND.
  assert (NT : NoDup (map ms_name t)) by (eapply Permutation_NoDup; [|exact ND]; apply Permutation_map, Permutation_sym; auto).
  assert (NS : NoDup (map fst (map stored t))) by (rewrite map_map; exact NT).
  assert (IN : forall s, In s t <-> In s (msets m)) by (intros s; split; apply Permutation_in; auto using Permutation_sym).
  unfold get_meta. rewrite get_each_stored.
  - f_equal. set (m' := fold_left _ _ _).
    assert (I' : meta_inc m') by apply fold_set_inc, meta_empty_inc.
    assert (E : forall k, meta_map m' k = meta_map m k).
    { intros k. apply smap_ext; auto. intros n. unfold m'. rewrite run_find.
      replace (smap_find (meta_map meta_empty k) n) with (@None (list Z)) by (destruct k; reflexivity).
      fold (last_set t k n). destruct (last_set t k n) as [v|] eqn:L.
      - unfold last_set in L. apply last_set_some in L as [L|L]; [discriminate|]. apply IN, msets_in in L. cbn in L. symmetry. apply smap_find_in; auto.
        apply increasing_nodup, I.
      - destruct (smap_find (meta_map m k) n) as [v|] eqn:F; auto. apply smap_find_some in F.
        rewrite (last_set_unique t k n v) in L; [discriminate|auto|]. apply IN, msets_in. auto. }
    pose proof (E KStr). pose proof (E KInt). pose proof (E KFloat). pose proof (E KVecInt). pose proof (E KVecFloat).
    destruct m', m. cbn in *. congruence.
  - intros s Is. split; [apply G, IN; auto|]. split; [apply G, IN; auto|]. apply find_by_in; auto. change (In (stored s) (map stored t)). apply in_map; auto.
Qed.
Lemma run_has h s : In s h -> exists v, In (ms_name s, v) (meta_map (meta_run h) (ms_kind s)).
Proof.
  intros I. enough (X : smap_find (meta_map (meta_run h) (ms_kind s)) (ms_name s) <> None).
  { destruct (smap_find _ _) as [v|] eqn:E; [|congruence]. exists v. apply smap_find_some; auto. }
  unfold meta_run. rewrite run_find. generalize (smap_find (meta_map meta_empty (ms_kind s)) (ms_name s)).
  assert (K : forall l o, o <> None -> fold_left (fun acc t => if kind_eqb (ms_kind t) (ms_kind s) && bytes_eqb (ms_name t) (ms_name s) then Some (ms_value t) else acc) l o <> None).
  { induction l as [|t l IH]; intros o N; auto. cbn [fold_left]. apply IH. destruct (_ && _); auto. discriminate. }
  induction h as [|t h IH]; [destruct I|]. intros o. cbn [fold_left]. destruct I as [->|I]; [|apply IH; auto].
  apply K. destruct (kind_eqb_spec (ms_kind s) (ms_kind s)); [|congruence]. rewrite beq_refl. discriminate.
Qed.
(** What is written is accepted exactly for names that are not empty and of one type. *)
Lemma put_meta_iff h : Forall (fun s => ~ In 0 (ms_name s)) h ->
  snd (put_meta (meta_run h) []) = true <-> (Forall (fun s => ms_name s <> []) h /\ one_type h).
Proof.
  intros Z. assert (Z' : forall s, In s (msets (meta_run h)) -> ~ In 0 (ms_name s)).
  { intros s I. apply msets_in, run_in in I. rewrite Forall_forall in Z. apply (Z _ I). }
  rewrite put_meta_eq. split.
  - intros E. apply put_list_inv in E as (NE & ND).
    + assert (IN : forall s, In s h -> exists v, In (MSet (ms_kind s) (ms_name s) v) (msets (meta_run h))).
      { intros s I. destruct (run_has h s I) as (v & Iv). exists v. apply msets_in. auto. }
      split.
      * apply Forall_forall. intros s I. destruct (IN s I) as (v & Iv). rewrite Forall_forall in NE.
        apply (NE (stored (MSet (ms_kind s) (ms_name s) v))). apply in_map; auto.
      * intros a b Ia Ib E. destruct (IN a Ia) as (v & Iv), (IN b Ib) as (w & Iw). cbn [app] in ND. rewrite map_map in ND. cbn [stored fst] in ND.
        assert (U : forall l, NoDup (map ms_name l) -> forall x y, In x l -> In y l -> ms_name x = ms_name y -> x = y).
        { clear. induction l as [|z l IH]; intros ND x y Ix Iy E; [destruct Ix|]. cbn in ND. inversion ND as [|? ? NI ND']; subst.
          destruct Ix as [->|Ix], Iy as [->|Iy]; auto.
          - exfalso. apply NI. rewrite E. apply in_map; auto.
          - exfalso. apply NI. rewrite <- E. apply in_map; auto. }
        pose proof (U _ ND _ _ Iv Iw E) as X. injection X. auto.
    + apply Forall_forall. intros e I. apply in_map_iff in I as (s & <- & I). apply Z'; auto.
    + constructor.
  - intros (NE & OT). rewrite put_list_ok; auto.
    + apply Forall_forall. intros e I. apply in_map_iff in I as (s & <- & I). split; [|apply Z'; auto].
      apply msets_in, run_in in I. rewrite Forall_forall in NE. apply (NE _ I).
    + cbn [app]. rewrite map_map. apply msets_nodup; [apply run_inc|apply run_apart; auto].
Qed.

(** Any attributes. *)
Lemma get_one_any l n v m : four_bytes l -> ~ In 0 n -> find_by n l = Some v ->
  exists m', get_one l n v m = Ok m' /\
    forall k a d, meta_get m' k a d = if bytes_eqb n a then match attr_value k v with Some x => x | None => meta_get m k a d end else meta_get m k a d.
Proof.
  intros F Z E. unfold get_one.
  assert (ST : forall k0 x, (forall k, attr_value k v = if kind_eqb k0 k then Some x else None) ->
    forall k a d, meta_get (meta_set m k0 n x) k a d = if bytes_eqb n a then match attr_value k v with Some x => x | None => meta_get m k a d end else meta_get m k a d).
  { intros k0 x H k a d. unfold meta_get. rewrite find_meta_set. rewrite H. destruct (kind_eqb k0 k), (bytes_eqb n a); auto. }
  assert (NO : (forall k, attr_value k v = None) -> forall k a d, meta_get m k a d = if bytes_eqb n a then match attr_value k v with Some x => x | None => meta_get m k a d end else meta_get m k a d).
  { intros H k a d. rewrite H. destruct (bytes_eqb n a); auto. }
  destruct v as [s|fl sz [|k [|k2 ks]] d|]; try (eexists; split; [reflexivity|apply NO; try destruct fl; intros []; reflexivity]).
  - unfold get_str. rewrite cstr_id, E by auto. cbn [bind]. eexists. split; [reflexivity|]. apply ST. intros []; reflexivity.
  - pose proof (find_by_some _ _ _ E) as I.
    assert (GN : k = 1%nat \/ k = 3%nat -> get_num l n fl 4 [k] None = Ok d).
    { intros K. unfold get_num. rewrite cstr_id, E by auto. destruct (list_eq_dec Nat.eq_dec [k] [k]); [|congruence]. rewrite Bool.eqb_reflx. cbn [negb].
      rewrite (F _ _ _ _ _ I K). reflexivity. }
    destruct (Nat.eqb_spec k 1) as [->|N1].
    + rewrite GN by auto. cbn [bind]. eexists. split; [reflexivity|]. apply ST. destruct fl; intros []; reflexivity.
    + destruct (Nat.eqb_spec k 3) as [->|N3].
      * rewrite GN by auto. cbn [bind]. eexists. split; [reflexivity|]. apply ST. destruct fl; intros []; reflexivity.
      * eexists. split; [reflexivity|]. apply NO. destruct k as [|[|[|[|k]]]]; try congruence; destruct fl; intros []; reflexivity.
  - eexists. split; [reflexivity|]. apply NO. destruct fl; intros []; destruct k as [|[|[|[|k]]]]; reflexivity.
Qed.
Lemma get_each_any l : forall done todo m, l = done ++ todo -> four_bytes l -> NoDup (map fst l) -> (forall n, In n (map fst l) -> ~ In 0 n) ->
  exists m', get_each l todo m = Ok m' /\
    forall k a d, meta_get m' k a d = match find_by a todo with
      | Some v => match attr_value k v with Some x => x | None => meta_get m k a d end
      | None => meta_get m k a d
      end.
Proof.
  intros done todo. revert done. induction todo as [|(n, v) r IH]; intros done m E F ND Z; cbn [get_each]; [eauto|].
  assert (I : In (n, v) l) by (rewrite E; apply in_or_app; right; left; auto).
  destruct (get_one_any l n v m F) as (m1 & G & S).
  - apply Z. change n with (fst (n, v)). apply in_map; auto.
  - apply find_by_in; auto.
  - rewrite G. cbn [bind]. destruct (IH (done ++ [(n, v)]) m1) as (m2 & G2 & S2); auto; [rewrite E, <- app_assoc; reflexivity|].
    exists m2. split; auto. intros k a d. rewrite S2, S. cbn [find_by]. destruct (bytes_eqb_spec n a) as [->|]; auto.
    rewrite find_by_none; auto. rewrite E, map_app in ND. apply NoDup_remove_2 in ND. rewrite in_app_iff in ND. tauto.
Qed.
