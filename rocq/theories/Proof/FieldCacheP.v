From Coq Require Import ZArith List Bool Lia Arith Permutation.
From Verif Require Import Model.Base Model.SparseM Model.CacheM Model.CloneM Model.FieldCacheM
  Spec.VoxelSpec Spec.SparseSpec Spec.CacheSpec Spec.FieldCacheSpec
  Proof.BaseP Proof.SparseP Proof.SparseP3 Proof.CacheP Proof.CacheP2 Proof.CacheP3 Proof.CacheP4.
Import ListNotations.
Open Scope Z_scope.

Section P.
Context {V : Type}.
Implicit Types (s : cache V) (e : entry) (fr : list (nat * nat)).

(** * No cached block dangles: the manager behaves as in the cache model *)
Definition sound fr s : Prop := forall e, In e (cached s) -> freedb fr e = false.

Lemma victim_in s e : victim s = Some e -> In e (cached s).
Proof.
  unfold victim. intros H. apply rot_cached_in. unfold rot. destruct (c_after s ++ c_before s) as [|x r]; [discriminate|].
  destruct (blk_at s x); [|discriminate]. destruct (_ || _); [discriminate|]. injection H as ->. left. reflexivity.
Qed.
Lemma evict_in_eq fr s : sound fr s -> evict_in fr s = evict_step s.
Proof.
  intros S. unfold evict_in. destruct (victim s) as [e|] eqn:E; auto. rewrite (S e (victim_in _ _ E)). reflexivity.
Qed.
Lemma dealloc_in_eq a fr need : forall fuel s, cinv a s -> sound fr s ->
  dealloc_in fuel fr s need = dealloc_blocks fuel s need.
Proof.
  induction fuel as [|n IH]; intros s I S; cbn [dealloc_in dealloc_blocks]; auto.
  destruct (must_evict s need); auto. rewrite (evict_in_eq fr s S).
  destruct (evict_step_to a s I) as (s' & -> & EV). apply IH; [apply (ev_inv _ _ _ EV)|].
  intros e H. apply S, (ev_sub _ _ _ EV), H.
Qed.
Lemma activate_in_eq a fr fuel s e : cinv a s -> sound fr s -> freedb fr e = false ->
  activate_in fuel fr s e = activate fuel s e.
Proof.
  intros I S F. destruct e as [[t f] i]. unfold activate_in, activate.
  destruct (ref_at s t f) as [r|]; auto. destruct (arr_get (r_file r) (Z.of_nat i)); auto.
  destruct (0 <=? a0); auto. destruct (blk_at s (t, f, i)) as [k|]; auto. destruct (cb_loaded k); auto.
  rewrite (dealloc_in_eq a) by auto. rewrite F. reflexivity.
Qed.
Lemma lazy_value_in_eq a fr fuel s t f lf p : cinv a s -> sound fr s -> (forall i, freedb fr (t, f, i) = false) ->
  (forall i b, nth_error (s_blocks lf) i = Some b -> b_alloc b = true -> names_block a (t, f, i)) ->
  lazy_value_in fuel fr s t f lf p = lazy_value fuel s t f lf p.
Proof.
  intros I S F N. unfold lazy_value_in, lazy_value. destruct (window_offset lf p) as [q| |]; auto.
  destruct (block_id lf (block_coord (s_order lf) q)) as [id| |]; auto.
  destruct (arr_get (s_blocks lf) id) as [b| |] eqn:B; auto. destruct (b_alloc b) eqn:A; auto.
  apply arr_get_inv in B. destruct B as [_ B]. specialize (N _ _ B A).
  destruct (ref_count_ok a s (t, f, Z.to_nat id) 1 I N) as (s1 & -> & I1 & _ & C1 & _). cbn [obind].
  rewrite (activate_in_eq a); auto. intros e H. apply S. congruence.
Qed.

(** * What a touch does to the list and to the reference counts *)
Lemma upd_blk_list s e g s' : upd_blk s e g = Ok s' -> cached s' = cached s.
Proof.
  destruct e as [[t f] i]. unfold upd_blk. destruct (ref_at s t f) as [r|]; [|discriminate].
  destruct (nth_error (r_blk r) i); [|discriminate]. intros [= <-]. reflexivity.
Qed.
Definition refs s e : option Z := option_map (@cb_refs V) (blk_at s e).
Lemma upd_blk_refs s e g s' : upd_blk s e g = Ok s' -> (forall k, cb_refs (g k) = cb_refs k) ->
  forall x, refs s' x = refs s x.
Proof.
  intros E G x. destruct (blk_at s e) as [k|] eqn:B.
  - destruct (upd_blk_ok s e g k B) as (s1 & E1 & U). assert (s1 = s') by congruence. subst s1.
    unfold refs. rewrite (ut_blk _ _ _ _ U). destruct (entry_eqb x e) eqn:Q; auto.
    apply entry_eqb_eq in Q. subst. rewrite B. cbn. rewrite G. reflexivity.
  - destruct e as [[t f] i]. unfold upd_blk, blk_at in *. destruct (ref_at s t f); [|discriminate].
    rewrite B in E. discriminate.
Qed.
Lemma evict_step_refs s s' : evict_step s = Ok s' -> forall x, refs s' x = refs s x.
Proof.
  assert (L : forall s0 b l m x, refs (with_list s0 b l m) x = refs s0 x) by reflexivity.
  assert (Q : forall s0 e rest s1, evict_at s0 e rest = Ok s1 -> forall x, refs s1 x = refs s0 x).
  { intros s0 e rest s1. unfold evict_at. destruct (blk_at s0 e) as [k|]; [|discriminate].
    destruct (cb_refs k >? 0); [intros [= <-]; auto|]. destruct (cb_used k).
    - intros H. apply bind_ok in H. destruct H as (s2 & E & H). injection H as <-. intros x. rewrite L.
      eapply upd_blk_refs; eauto.
    - intros H. apply bind_ok in H. destruct H as (s2 & E & H).
      assert (U : forall x, refs s2 x = refs s0 x) by (eapply upd_blk_refs; eauto).
      cbv zeta in H. destruct (entry_size s0 e >? 0); [injection H as <-; intros x; rewrite L; auto|].
      destruct rest; [discriminate|]. injection H as <-. intros x. rewrite !L. auto. }
  unfold evict_step. destruct (c_after s) as [|e rest]; [|intros H; eapply Q; eauto].
  destruct (c_before s) as [|e rest]; [intros [= <-]; auto|]. intros H x. rewrite (Q _ _ _ _ H). apply L.
Qed.
Lemma dealloc_refs need : forall fuel s s', dealloc_blocks fuel s need = Some (Ok s') -> forall x, refs s' x = refs s x.
Proof.
  induction fuel as [|n IH]; intros s s'; cbn [dealloc_blocks]; [discriminate|].
  destruct (must_evict s need); [|intros [= <-]; auto].
  destruct (evict_step s) as [s1| |] eqn:E; try discriminate. intros H x.
  rewrite (IH _ _ H). eapply evict_step_refs; eauto.
Qed.
Lemma activate_refs fuel s e s' : activate fuel s e = Some (Ok s') -> forall x, refs s' x = refs s x.
Proof.
  destruct e as [[t f] i]. unfold activate. destruct (ref_at s t f) as [r|]; [|discriminate].
  destruct (arr_get (r_file r) (Z.of_nat i)) as [ix| |]; try discriminate. intros H.
  assert (M : forall s1, mark_used s1 (t, f, i) = Ok s' -> forall x, refs s' x = refs s1 x)
    by (intros s1 Q; exact (upd_blk_refs _ _ _ _ Q (fun _ => eq_refl))).
  destruct (0 <=? ix); [|cbn [obind] in H; injection H as H; auto].
  destruct (blk_at s (t, f, i)) as [k|]; [|discriminate].
  destruct (cb_loaded k); [cbn [obind] in H; injection H as H; auto|].
  destruct (if c_limit s then dealloc_blocks fuel s (ref_block_size r) else Some (Ok s)) as [[s1| |]|] eqn:D; try discriminate.
  cbn [obind] in H. destruct (load_block s1 (t, f, i)) as [s2| |] eqn:LB; try discriminate. cbn [obind] in H.
  destruct (upd_blk s2 (t, f, i) _) as [s3| |] eqn:U; try discriminate. cbn [obind] in H. injection H as H.
  intros x. rewrite (M _ H). change (refs s3 x = refs s x).
  rewrite (upd_blk_refs _ _ _ _ U) by reflexivity.
  transitivity (refs s1 x).
  - unfold load_block in LB. destruct (ref_at s1 t f) as [r1|]; [|discriminate].
    apply bind_ok in LB. destruct LB as (ix1 & _ & LB). destruct (nth_error (r_disk r1) (Z.to_nat ix1)); [|discriminate].
    eapply upd_blk_refs; eauto.
  - destruct (c_limit s); [eapply dealloc_refs; eauto|injection D as <-; auto].
Qed.
Lemma dealloc_sub need : forall fuel s s', dealloc_blocks fuel s need = Some (Ok s') ->
  forall a, cinv a s -> forall x, In x (cached s') -> In x (cached s).
Proof.
  intros fuel s s' H a I. destruct (dealloc_blocks_ok a need fuel s _ I H) as (s1 & [= <-] & EV & _).
  apply (ev_sub _ _ _ EV).
Qed.
Lemma activate_sub a fuel s e s' : cinv a s -> activate fuel s e = Some (Ok s') ->
  forall x, In x (cached s') -> In x (cached s) \/ x = e.
Proof.
  intros I. destruct e as [[t f] i]. unfold activate. destruct (ref_at s t f) as [r|]; [|discriminate].
  destruct (arr_get (r_file r) (Z.of_nat i)) as [ix| |]; try discriminate. intros H.
  assert (M : forall s1, mark_used s1 (t, f, i) = Ok s' -> cached s' = cached s1)
    by (intros s1 Q; exact (upd_blk_list _ _ _ _ Q)).
  destruct (0 <=? ix); [|cbn [obind] in H; injection H as H; rewrite (M _ H); auto].
  destruct (blk_at s (t, f, i)) as [k|]; [|discriminate].
  destruct (cb_loaded k); [cbn [obind] in H; injection H as H; rewrite (M _ H); auto|].
  destruct (if c_limit s then dealloc_blocks fuel s (ref_block_size r) else Some (Ok s)) as [[s1| |]|] eqn:D; try discriminate.
  cbn [obind] in H. destruct (load_block s1 (t, f, i)) as [s2| |] eqn:LB; try discriminate. cbn [obind] in H.
  destruct (upd_blk s2 (t, f, i) _) as [s3| |] eqn:U; try discriminate. cbn [obind] in H. injection H as H.
  intros x. rewrite (M _ H). unfold cached at 1. cbn [with_list add_to_cache c_before c_after].
  assert (C3 : cached s3 = cached s1).
  { rewrite (upd_blk_list _ _ _ _ U). unfold load_block in LB. destruct (ref_at s1 t f) as [r1|]; [|discriminate].
    apply bind_ok in LB. destruct LB as (ix1 & _ & LB). destruct (nth_error (r_disk r1) (Z.to_nat ix1)); [|discriminate].
    eapply upd_blk_list; eauto. }
  assert (C1 : forall y, In y (cached s1) -> In y (cached s)).
  { destruct (c_limit s); [eapply dealloc_sub; eauto|injection D as <-; auto]. }
  rewrite <- app_assoc, in_app_iff. cbn [app In]. intros [X|[X|X]]; auto.
  - left. apply C1. rewrite <- C3. unfold cached. apply in_or_app. auto.
  - left. apply C1. rewrite <- C3. unfold cached. apply in_or_app. auto.
Qed.

(** A read leaves the state alone or touches one block of the field. *)
Lemma lazy_value_touch fuel s t f lf p s' v : lazy_value fuel s t f lf p = Some (Ok (s', v)) ->
  s' = s \/ exists i b, nth_error (s_blocks lf) i = Some b /\ b_alloc b = true /\ cstep fuel s (CTouch (t, f, i)) = Some (Ok s').
Proof.
  unfold lazy_value. destruct (window_offset lf p) as [q| |]; try discriminate.
  destruct (block_id lf (block_coord (s_order lf) q)) as [id| |]; try discriminate.
  destruct (arr_get (s_blocks lf) id) as [b| |] eqn:B; try discriminate.
  destruct (b_alloc b) eqn:A; [|intros [= <- <-]; auto]. intros H. right. exists (Z.to_nat id), b.
  apply arr_get_inv in B. split; [apply B|]. split; [exact A|]. cbn [cstep].
  destruct (ref_count s (t, f, Z.to_nat id) 1) as [s1| |]; try discriminate. cbn [obind] in *.
  destruct (activate fuel s1 (t, f, Z.to_nat id)) as [[s2| |]|]; try discriminate. cbn [obind] in *.
  destruct (blk_at s2 (t, f, Z.to_nat id)) as [k|]; [|discriminate]. destruct (cb_data k) as [d|]; [|discriminate].
  destruct (arr_get d _) as [v1| |]; try discriminate. cbn [obind] in *.
  destruct (ref_count s2 (t, f, Z.to_nat id) (-1)) as [s3| |]; try discriminate. cbn [obind] in *. congruence.
Qed.
Lemma ref_count_list s e d s' : ref_count s e d = Ok s' -> cached s' = cached s.
Proof.
  destruct e as [[t f] i]. unfold ref_count. destruct (ref_at s t f) as [r|]; [|discriminate].
  intros H. apply bind_ok in H. destruct H as (ix & _ & H). destruct (0 <=? ix); [eapply upd_blk_list; eauto|congruence].
Qed.
Lemma touch_sub a fuel s e s' : cinv a s -> names_block a e -> cstep fuel s (CTouch e) = Some (Ok s') ->
  forall x, In x (cached s') -> In x (cached s) \/ x = e.
Proof.
  intros I N. cbn [cstep]. destruct (ref_count_ok a s e 1 I N) as (s1 & -> & I1 & _ & C1 & _). cbn [obind].
  destruct (activate fuel s1 e) as [[s2| |]|] eqn:A; try discriminate. cbn [obind]. intros H x.
  injection H as H. rewrite (ref_count_list _ _ _ _ H). intros X.
  destruct (activate_sub a _ _ _ _ I1 A x X); auto. left. congruence.
Qed.
(** What [ref_count] does to the counts. *)
Lemma ref_count_refs a s e d s' : cinv a s -> names_block a e -> ref_count s e d = Ok s' ->
  (forall x, x <> e -> refs s' x = refs s x) /\
  (forall n, refs s e = Some n -> refs s' e = Some (n + (if (match stat s (fst (fst e)) (snd (fst e)) with
     | Some (fi, _, _, _) => match nth_error fi (snd e) with Some ix => 0 <=? ix | None => false end | None => false end) then d else 0))).
Proof.
  intros I N. destruct e as [[t f] i]. cbn [fst snd]. unfold ref_count, stat.
  destruct (ref_at s t f) as [r|] eqn:R; [|discriminate]. cbn [option_map]. intros H. apply bind_ok in H.
  destruct H as (ix & G & H). apply arr_get_inv in G. rewrite Nat2Z.id in G. destruct G as [_ G]. rewrite G.
  destruct (0 <=? ix).
  - destruct (blk_at s (t, f, i)) as [k|] eqn:B.
    + destruct (upd_blk_ok s (t, f, i) (fun k => CBlk (cb_loaded k) (cb_used k) (cb_loads k) (cb_refs k + d) (cb_data k)) k B) as (s1 & E1 & U).
      assert (s1 = s') by congruence. subst s1. unfold refs. split.
      * intros x X. rewrite (ut_blk _ _ _ _ U), entry_eqb_neq by auto. reflexivity.
      * intros n. rewrite (ut_blk _ _ _ _ U), entry_eqb_refl, B. cbn. congruence.
    + unfold upd_blk, blk_at in *. rewrite R in H, B. rewrite B in H. discriminate.
  - injection H as <-. split; auto. intros n ->. f_equal. lia.
Qed.
Definition unpinned s : Prop := forall e n, refs s e = Some n -> n = 0.
Lemma touch_unpinned a fuel s e s' : cinv a s -> names_block a e -> cstep fuel s (CTouch e) = Some (Ok s') ->
  unpinned s -> unpinned s'.
Proof.
  intros I N. cbn [cstep]. destruct (ref_count_ok a s e 1 I N) as (s1 & E1 & I1 & K1 & _). rewrite E1. cbn [obind].
  destruct (activate fuel s1 e) as [[s2| |]|] eqn:A; try discriminate. cbn [obind]. intros H U.
  injection H as H. destruct (activate_ok a fuel s1 e _ I1 N A) as (s2' & [= <-] & I2 & K2 & _).
  destruct (ref_count_refs a s e 1 s1 I N E1) as [O1 D1].
  destruct (ref_count_refs a s2 e (-1) s' I2 N H) as [O2 D2].
  intros x n R. destruct (entry_dec x e) as [->|X].
  - rewrite (kp_stat _ _ K2), (kp_stat _ _ K1) in D2.
    destruct (refs s e) as [m|] eqn:Re.
    + pose proof (U e m Re). subst m. pose proof (D1 0 eq_refl) as D1'. rewrite <- (activate_refs _ _ _ _ A) in D1'.
      specialize (D2 _ D1'). rewrite D2 in R.
      destruct (match stat s (fst (fst e)) (snd (fst e)) with Some _ => _ | None => _ end) in R; inversion R; lia.
    + exfalso. destruct e as [[t f] i]. destruct (named_block a s t f i I N) as (d & b & k & r & _ & _ & B & _).
      unfold refs in Re. rewrite B in Re. discriminate.
  - rewrite O2, (activate_refs _ _ _ _ A), O1 in R by auto. eapply U; eauto.
Qed.
Lemma unpinned_pinnedb s e : unpinned s -> pinnedb s e = false.
Proof.
  intros U. unfold pinnedb. destruct (blk_at s e) as [k|] eqn:B; auto.
  rewrite (U e (cb_refs k)); auto. unfold refs. rewrite B. reflexivity.
Qed.
End P.
