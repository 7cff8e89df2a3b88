From Coq Require Import ZArith List Bool String Lia Arith Sorted.
From Verif Require Import Model.Base Model.OgawaM Spec.OgawaSpec Model.OgM Spec.OgSpec Proof.OgP Model.FieldIOM Model.FileM Spec.FileSpec Proof.FileP Proof.FileP2
  Model.MetaM Spec.MetaSpec Proof.MetaP Model.Hdf5M Model.Hdf5FileM Spec.Hdf5MetaSpec.
Import ListNotations.
Open Scope Z_scope.

(** * Named things *)
Lemma find_by_none {B} n (l : list (bytes * B)) : ~ In n (map fst l) -> find_by n l = None.
Proof. induction l as [|(m, x) l IH]; cbn; auto. intros H. rewrite beq_neq by tauto. apply IH. tauto. Qed.
Lemma find_by_some {B} n (l : list (bytes * B)) x : find_by n l = Some x -> In (n, x) l.
Proof.
  induction l as [|(m, y) l IH]; cbn; [discriminate|]. destruct (bytes_eqb_spec m n) as [->|]; [|auto]. intros [= ->]; auto.
Qed.
Lemma find_by_in {B} n (l : list (bytes * B)) x : NoDup (map fst l) -> In (n, x) l -> find_by n l = Some x.
Proof.
  induction l as [|(m, y) l IH]; cbn; [intros _ []|]. intros ND [E|I].
  - injection E as -> ->. rewrite beq_refl. reflexivity.
  - inversion ND as [|? ? NI ND']; subst. rewrite beq_neq; auto. intros ->. apply NI. change n with (fst (n, x)). apply in_map; auto.
Qed.
Lemma find_by_app {B} n (a b : list (bytes * B)) : find_by n (a ++ b) = match find_by n a with Some x => Some x | None => find_by n b end.
Proof. induction a as [|(m, x) a IH]; cbn; auto. destruct (bytes_eqb m n); auto. Qed.

(** * Writing *)
Fixpoint put_list (ps l : list (bytes * aval)) : list (bytes * aval) * bool :=
  match ps with
  | [] => (l, true)
  | (n, v) :: r => match put_av l n v with Some l' => put_list r l' | None => (l, false) end
  end.
Lemma put_each_eq put f m : (forall l n v, put l n v = put_av l n (f v)) ->
  forall l, put_each put m l = put_list (map (fun e => (fst e, f (snd e))) m) l.
Proof. intros H. induction m as [|(n, v) m IH]; intros l; cbn; auto. rewrite H. destruct (put_av l n (f v)); auto. Qed.
Lemma put_list_app a b : forall l, put_list (a ++ b) l = then_put (put_list a l) (put_list b).
Proof.
  induction a as [|(n, v) a IH]; intros l; cbn; auto. destruct (put_av l n v); auto.
Qed.
Definition held (k : mkind) (v : bytes) : aval :=
  match k with
  | KStr => VStr (match v with [] => [0] | _ => v end)
  | KInt => VNum false 4 [1%nat] v
  | KFloat => VNum true 4 [1%nat] v
  | KVecInt => VNum false 4 [3%nat] v
  | KVecFloat => VNum true 4 [3%nat] v
  end.
Definition msets (m : meta) : list mset :=
  flat_map (fun k => map (fun e => MSet k (fst e) (snd e)) (meta_map m k)) kinds.
Definition stored (s : mset) : bytes * aval := (ms_name s, held (ms_kind s) (ms_value s)).
Lemma put_meta_eq m l : put_meta m l = put_list (map stored (msets m)) l.
Proof.
  unfold put_meta, msets. cbn [kinds flat_map]. rewrite app_nil_r, !map_app, !map_map. unfold stored. cbn [ms_name ms_kind ms_value meta_map].
  rewrite put_list_app. rewrite (put_each_eq _ (held KStr)) by reflexivity. unfold then_put.
  destruct (put_list _ l) as (l1, [|]); cbn [fst snd]; auto.
  rewrite put_list_app. rewrite (put_each_eq _ (held KInt)) by reflexivity. unfold then_put. destruct (put_list _ l1) as (l2, [|]); cbn [fst snd]; auto.
  rewrite put_list_app. rewrite (put_each_eq _ (held KFloat)) by reflexivity. unfold then_put. destruct (put_list _ l2) as (l3, [|]); cbn [fst snd]; auto.
  rewrite put_list_app. rewrite (put_each_eq _ (held KVecInt)) by reflexivity. unfold then_put. destruct (put_list _ l3) as (l4, [|]); cbn [fst snd]; auto.
  rewrite (put_each_eq _ (held KVecFloat)) by reflexivity. auto.
Qed.
Lemma put_av_ok l n v : good_name n -> ~ In n (map fst l) -> put_av l n v = Some (l ++ [(n, v)]).
Proof.
  intros (N & Z) I. unfold put_av. rewrite cstr_id by auto. rewrite find_by_none by auto. destruct n; [congruence|]. reflexivity.
Qed.
Lemma put_list_ok ps : forall l, Forall (fun e => good_name (fst e)) ps -> NoDup (map fst (l ++ ps)) -> put_list ps l = (l ++ ps, true).
Proof.
  induction ps as [|(n, v) ps IH]; intros l G ND; cbn; [rewrite app_nil_r; auto|].
  inversion G; subst. rewrite put_av_ok; auto.
  - rewrite IH; [rewrite <- app_assoc; auto|auto|rewrite <- app_assoc; auto].
  - rewrite map_app in ND. cbn in ND. apply NoDup_remove_2 in ND. rewrite in_app_iff in ND. tauto.
Qed.
Lemma put_list_inv ps : forall l, Forall (fun e => ~ In 0 (fst e)) ps -> NoDup (map fst l) -> snd (put_list ps l) = true ->
  Forall (fun e => fst e <> []) ps /\ NoDup (map fst (l ++ ps)).
Proof.
  induction ps as [|(n, v) ps IH]; intros l G ND E; cbn in *; [rewrite app_nil_r; auto|].
  inversion G; subst. cbn in *. unfold put_av in E. rewrite cstr_id in E by auto.
  destruct n as [|c n]; [discriminate|]. cbn [is_nil] in E.
  destruct (find_by (c :: n) l) eqn:F; [discriminate|].
  assert (NI : ~ In (c :: n) (map fst l)).
  { intros I. apply in_map_iff in I as ((a, b) & E' & I). cbn in E'. subst a. rewrite (find_by_in _ _ _ ND I) in F. discriminate. }
  destruct (IH (l ++ [(c :: n, v)])) as (A & B); auto.
  - rewrite map_app. cbn. apply NoDup_rev in ND. rewrite <- (rev_involutive (_ ++ _)). apply NoDup_rev. rewrite rev_app_distr. cbn.
    constructor; auto. rewrite <- in_rev. auto.
  - split; [constructor; [discriminate|auto]|]. rewrite <- app_assoc in B. exact B.
Qed.

(** * The entries of metadata *)
Lemma smap_set_names m n v : forall x, In x (map fst (smap_set m n v)) <-> x = n \/ In x (map fst m).
Proof.
  induction m as [|(k, y) r IH]; intros x; cbn [smap_set]; [cbn; intuition|].
  destruct (bytes_ltb n k); [cbn; intuition|]. destruct (bytes_eqb_spec n k) as [->|]; cbn; [intuition|]. rewrite IH. intuition.
Qed.
Lemma smap_set_inc m n v : increasing (map fst m) -> increasing (map fst (smap_set m n v)).
Proof.
  unfold increasing. induction m as [|(k, y) r IH]; intros H; cbn [smap_set]; [repeat constructor|].
  cbn in H. inversion H as [|? ? H1 H2]; subst. destruct (bytes_ltb n k) eqn:E.
  - cbn. constructor; [constructor; auto|]. constructor; auto. eapply Forall_impl; [|exact H2]. intros a K. eapply ltb_trans; eauto.
  - destruct (bytes_eqb_spec n k) as [->|N]; [cbn; constructor; auto|]. cbn. constructor; auto.
    apply Forall_forall. intros x I. apply smap_set_names in I as [->|I]; [|apply (proj1 (Forall_forall _ _) H2); auto].
    destruct (bytes_ltb k n) eqn:F; auto. exfalso. apply N. apply ltb_total; auto.
Qed.
Lemma increasing_nodup l : increasing l -> NoDup l.
Proof.
  induction 1 as [|x l S IH F]; constructor; auto. intros I. apply (proj1 (Forall_forall _ _) F) in I. rewrite ltb_irrefl in I. discriminate.
Qed.
Definition meta_inc (m : meta) : Prop := forall k, increasing (map fst (meta_map m k)).
Lemma meta_set_inc m k n v : meta_inc m -> meta_inc (meta_set m k n v).
Proof. intros H k'. specialize (H k'). destruct k, k'; cbn in *; auto; apply smap_set_inc; auto. Qed.
Lemma meta_empty_inc : meta_inc meta_empty. Proof. intros []; constructor. Qed.
Lemma fold_set_inc l : forall m, meta_inc m -> meta_inc (fold_left (fun m s => meta_set m (ms_kind s) (ms_name s) (ms_value s)) l m).
Proof. induction l as [|s l IH]; intros m H; cbn; auto. apply IH, meta_set_inc; auto. Qed.
Lemma run_inc l : meta_inc (meta_run l). Proof. apply fold_set_inc, meta_empty_inc. Qed.
Lemma meta_set_in m k n v k' n' v' : In (n', v') (meta_map (meta_set m k n v) k') -> (k' = k /\ n' = n /\ v' = v) \/ In (n', v') (meta_map m k').
Proof.
  destruct k, k'; cbn; auto; intros H; apply smap_set_in in H as [[= -> ->]|H]; auto.
Qed.
Lemma fold_set_in l : forall m k n v, In (n, v) (meta_map (fold_left (fun m s => meta_set m (ms_kind s) (ms_name s) (ms_value s)) l m) k) ->
  In (MSet k n v) l \/ In (n, v) (meta_map m k).
Proof.
  induction l as [|s l IH]; intros m k n v I; cbn in *; auto. apply IH in I as [I|I]; auto.
  apply meta_set_in in I as [(-> & -> & ->)|I]; auto. left. left. destruct s; auto.
Qed.
Lemma run_in l k n v : In (n, v) (meta_map (meta_run l) k) -> In (MSet k n v) l.
Proof. intros I. apply fold_set_in in I as [I|I]; auto. destruct k; destruct I. Qed.
Lemma msets_in m s : In s (msets m) <-> In (ms_name s, ms_value s) (meta_map m (ms_kind s)).
Proof.
  unfold msets. rewrite in_flat_map. split.
  - intros (k & _ & I). apply in_map_iff in I as ((n, v) & <- & I). auto.
  - intros I. exists (ms_kind s). split; [destruct (ms_kind s); cbn; auto 6|]. apply in_map_iff. exists (ms_name s, ms_value s). destruct s; auto.
Qed.
Lemma nodup_app {B} (a b : list B) : NoDup a -> NoDup b -> (forall x, In x a -> ~ In x b) -> NoDup (a ++ b).
Proof.
  induction 1 as [|x a NI ND IH]; intros NB D; cbn; auto. constructor.
  - rewrite in_app_iff. intros [I|I]; auto. apply (D x); [left|]; auto.
  - apply IH; auto. intros y I. apply D. right; auto.
Qed.
Definition apart (m : meta) : Prop := forall k k' n v v', In (n, v) (meta_map m k) -> In (n, v') (meta_map m k') -> k = k'.
Lemma msets_nodup m : meta_inc m -> apart m -> NoDup (map ms_name (msets m)).
Proof.
  intros I D. assert (IN : forall k n, In n (map fst (meta_map m k)) -> exists v, In (n, v) (meta_map m k)).
  { intros k n H. apply in_map_iff in H as ((a, b) & <- & H). eauto. }
  assert (ND : forall k, NoDup (map fst (meta_map m k))) by (intros k; apply increasing_nodup, I).
  unfold msets.
  assert (G : forall ks, NoDup ks -> NoDup (map ms_name (flat_map (fun k => map (fun e => MSet k (fst e) (snd e)) (meta_map m k)) ks))).
  { induction 1 as [|k ks NI NK IH]; cbn [flat_map map]; [constructor|]. rewrite map_app, map_map. cbn [ms_name].
    apply nodup_app; auto. intros n H K. apply IN in H as (v & H). apply in_map_iff in K as (s & <- & K).
    apply in_flat_map in K as (k' & Ik & K). apply in_map_iff in K as ((n', v') & <- & K). cbn in *.
    rewrite (D _ _ _ _ _ H K) in NI. auto. }
  apply G. repeat constructor; cbn; intuition discriminate.
Qed.
Lemma run_apart l : one_type l -> apart (meta_run l).
Proof. intros O k k' n v v' A B. apply run_in in A, B. apply (O _ _ A B eq_refl). Qed.

(** * Reading *)
Lemma get_one_stored l s m : ~ In 0 (ms_name s) -> (ms_kind s = KStr -> ~ In 0 (ms_value s)) ->
  find_by (ms_name s) l = Some (held (ms_kind s) (ms_value s)) ->
  get_one l (ms_name s) (held (ms_kind s) (ms_value s)) m = Ok (meta_set m (ms_kind s) (ms_name s) (ms_value s)).
Proof.
  intros Z V F. unfold get_one, get_str, get_num. rewrite cstr_id by auto. rewrite F. destruct (ms_kind s); auto.
  cbn [held bind]. do 2 f_equal. destruct (ms_value s); auto. apply cstr_id; auto.
Qed.
Lemma get_each_stored l todo : forall m, (forall s, In s todo -> ~ In 0 (ms_name s) /\ (ms_kind s = KStr -> ~ In 0 (ms_value s)) /\
    find_by (ms_name s) l = Some (held (ms_kind s) (ms_value s))) ->
  get_each l (map stored todo) m = Ok (fold_left (fun m s => meta_set m (ms_kind s) (ms_name s) (ms_value s)) todo m).
Proof.
  induction todo as [|s todo IH]; intros m H; auto. cbn [map get_each fold_left]. unfold stored at 1.
  destruct (H s) as (A & B & C); [left; auto|]. rewrite get_one_stored by auto. cbn [bind]. apply IH. intros t I. apply H. right; auto.
Qed.
Lemma smap_find_in m n v : NoDup (map fst m) -> In (n, v) m -> smap_find m n = Some v.
Proof.
  induction m as [|(k, x) r IH]; cbn; [intros _ []|]. intros ND [E|I].
  - injection E as -> ->. rewrite beq_refl. reflexivity.
  - inversion ND as [|? ? NI ND']; subst. rewrite beq_neq; auto. intros ->. apply NI. change n with (fst (n, v)). apply in_map; auto.
Qed.
Lemma smap_find_some m n v : smap_find m n = Some v -> In (n, v) m.
Proof.
  induction m as [|(k, x) r IH]; cbn; [discriminate|]. destruct (bytes_eqb_spec k n) as [->|]; [|auto]. intros [= ->]; auto.
Qed.
(** A strictly increasing map is what its questions say. *)
Lemma smap_ext a : forall b, increasing (map fst a) -> increasing (map fst b) ->
  (forall n, smap_find a n = smap_find b n) -> a = b.
Proof.
  induction a as [|(n, v) a IH]; intros [|(m, w) b] A B H; auto.
  - specialize (H m). cbn in H. rewrite beq_refl in H. discriminate.
  - specialize (H n). cbn in H. rewrite beq_refl in H. discriminate.
  - pose proof (increasing_nodup _ A) as NA. pose proof (increasing_nodup _ B) as NB.
    inversion A as [|? ? A1 A2]; subst. inversion B as [|? ? B1 B2]; subst.
    assert (E : n = m).
    { destruct (bytes_eqb_spec n m) as [|N]; auto. exfalso.
      assert (In (n, v) b).
      { specialize (H n). cbn in H. rewrite beq_refl in H. rewrite beq_neq in H by congruence. apply smap_find_some; auto. }
      assert (In (m, w) a).
      { specialize (H m). cbn in H. rewrite beq_refl in H. rewrite beq_neq in H by congruence. apply smap_find_some; auto. }
      apply (in_map fst) in H0, H1. cbn [fst] in *.
      apply (proj1 (Forall_forall _ _) B2) in H0. apply (proj1 (Forall_forall _ _) A2) in H1.
      pose proof (ltb_trans _ _ _ H0 H1) as T. rewrite ltb_irrefl in T. discriminate. }
    subst m. f_equal.
    + specialize (H n). cbn in H. rewrite beq_refl in H. congruence.
    + apply IH; auto. intros x. specialize (H x). cbn in H. destruct (bytes_eqb_spec n x) as [->|]; auto.
      cbn [map fst] in NA, NB. inversion NA as [|? ? NI _]; subst. inversion NB as [|? ? NJ _]; subst.
      destruct (smap_find a x) eqn:F; [apply smap_find_some in F; apply (in_map fst) in F; contradiction|].
      destruct (smap_find b x) eqn:F'; [apply smap_find_some in F'; apply (in_map fst) in F'; contradiction|]. auto.
Qed.
Lemma last_set_unique l k n v : NoDup (map ms_name l) -> In (MSet k n v) l -> last_set l k n = Some v.
Proof.
  unfold last_set. generalize (@None (list Z)). induction l as [|s l IH]; intros o ND I; [destruct I|]. cbn [fold_left map] in *.
  inversion ND as [|? ? NI ND']; subst. destruct I as [->|I]; auto.
  cbn [ms_kind ms_name ms_value]. destruct (kind_eqb_spec k k); [|congruence]. rewrite beq_refl. cbn [andb].
  clear -NI. cbn in NI. induction l as [|t l IH]; auto. cbn [fold_left]. cbn in NI. rewrite (beq_neq (ms_name t)) by tauto. rewrite andb_false_r. apply IH. tauto.
Qed.
Lemma last_set_some l k n : forall o v, fold_left (fun acc s => if kind_eqb (ms_kind s) k && bytes_eqb (ms_name s) n then Some (ms_value s) else acc) l o = Some v ->
  o = Some v \/ In (MSet k n v) l.
Proof.
  induction l as [|s l IH]; intros o v H; cbn in *; auto. apply IH in H as [H|H]; auto.
  destruct (kind_eqb_spec (ms_kind s) k) as [<-|]; cbn in H; auto. destruct (bytes_eqb_spec (ms_name s) n) as [<-|]; auto.
  right. left. injection H as <-. destruct s; auto.
Qed.
Lemma get_put_meta m : meta_inc m -> apart m -> (forall s, In s (msets m) -> good_name (ms_name s) /\ (ms_kind s = KStr -> ~ In 0 (ms_value s))) ->
  put_meta m [] = (map stored (msets m), true) /\ get_meta (map stored (msets m)) meta_empty = Ok m.
Proof.
  intros I D G. pose proof (msets_nodup m I D) as ND.
  assert (NS : NoDup (map fst (map stored (msets m)))) by (rewrite map_map; exact ND). split.
  - rewrite put_meta_eq. apply put_list_ok; auto. apply Forall_forall. intros e Ie. apply in_map_iff in Ie as (s & <- & Is). apply G; auto.
  - unfold get_meta. rewrite get_each_stored.
    + f_equal. set (m' := fold_left _ _ _).
      assert (I' : meta_inc m') by apply fold_set_inc, meta_empty_inc.
      assert (E : forall k, meta_map m' k = meta_map m k).
      { intros k. apply smap_ext; auto. intros n. unfold m'. rewrite run_find.
        replace (smap_find (meta_map meta_empty k) n) with (@None (list Z)) by (destruct k; reflexivity).
        fold (last_set (msets m) k n). destruct (last_set (msets m) k n) as [v|] eqn:L.
        - unfold last_set in L. apply last_set_some in L as [L|L]; [discriminate|]. apply msets_in in L. cbn in L. symmetry. apply smap_find_in; auto.
          apply increasing_nodup, I.
        - destruct (smap_find (meta_map m k) n) as [v|] eqn:F; auto. apply smap_find_some in F.
          rewrite (last_set_unique (msets m) k n v) in L; [discriminate|auto|]. apply msets_in. auto. }
      pose proof (E KStr). pose proof (E KInt). pose proof (E KFloat). pose proof (E KVecInt). pose proof (E KVecFloat).
      destruct m', m. cbn in *. congruence.
    + intros s Is. split; [apply G; auto|]. split; [apply G; auto|]. apply find_by_in; auto. change (In (stored s) (map stored (msets m))). apply in_map; auto.
Qed.
Lemma storable_facts m : storable_meta m -> meta_inc m /\ apart m /\
  forall s, In s (msets m) -> good_name (ms_name s) /\ (ms_kind s = KStr -> ~ In 0 (ms_value s)).
Proof.
  intros (h & -> & H & O). split; [apply run_inc|]. split; [apply run_apart; auto|].
  intros s I. apply msets_in, run_in in I. replace (MSet _ _ _) with s in I by (destruct s; auto).
  apply (proj1 (Forall_forall _ _) H) in I as (A & B). split; auto. intros E. rewrite E in B. exact B.
Qed.
Lemma storable_round m : storable_meta m ->
  put_meta m [] = (map stored (msets m), true) /\ get_meta (map stored (msets m)) meta_empty = Ok m.
Proof. intros H. destruct (storable_facts m H) as (A & B & C). apply get_put_meta; auto. Qed.
