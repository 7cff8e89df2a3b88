From Coq Require Import ZArith List Bool Lia Arith Permutation.
From Verif Require Import Model.Base Model.SparseM Model.CacheM Model.CloneM Model.FieldCacheM
  Spec.VoxelSpec Spec.SparseSpec Spec.CacheSpec Spec.FieldCacheSpec
  Proof.BaseP Proof.SparseP Proof.SparseP3 Proof.CacheP Proof.CacheP2 Proof.CacheP3 Proof.CacheP4
  Proof.CloneP Proof.FieldCacheP Proof.FieldCacheP2.
Import ListNotations.
Open Scope Z_scope.

Section P.
Context {V : Type}.
Variable zero : V.
Variable eqb : V -> V -> bool.
Hypothesis eqb_ok : decides_eq eqb.
Implicit Types (s : cache V) (e : entry) (fr : list (nat * nat)) (F : fields V).

(** * Reading *)
Lemma unalloc_read fuel fr s t id (f : sparse V) p v : unalloc f -> sparse_value f p = Ok v ->
  lazy_value_in fuel fr s t id (hollow f) p = Some (Ok (s, v)).
Proof.
  intros U E. unfold lazy_value_in. change (window_offset (hollow f) p) with (window_offset f p).
  change (s_order (hollow f)) with (s_order f). unfold sparse_value in E.
  apply bind_ok in E. destruct E as (q & -> & E). apply bind_ok in E. destruct E as (id0 & Eid & E).
  change (block_id (hollow f) (block_coord (s_order f) q)) with (block_id f (block_coord (s_order f) q)).
  rewrite Eid. apply bind_ok in E. destruct E as (b & Eb & E). rewrite hollow_blocks.
  rewrite (arr_get_map _ _ _ _ Eb). cbn [b_alloc b_empty]. apply arr_get_inv in Eb. destruct Eb as [_ Eb].
  rewrite (U b (nth_error_In _ _ Eb)) in *. congruence.
Qed.
Lemma read_ok a w F i x p fuel r : linv a w F -> nth_error a i = Some (Some x) -> in_box p (sm_dw (af_map x)) ->
  l_read fuel w i p = Some r -> exists w', r = Ok (w', sm_val (af_map x) p) /\ linv a w' F.
Proof.
  intros I X B H. destruct (linv_at a w F i x I X) as (o & O & Ob & T & L & f & S & D). unfold l_read in H. rewrite Ob in H.
  cbn [obind] in H. pose proof (sr_val _ _ S p B) as Ev.
  assert (Bf : in_box p (s_dw f)) by (rewrite (sr_dw _ _ S); exact B).
  destruct (o_lazy o) eqn:Lo.
  - destruct D as (Ed & d & Op & D). rewrite Ed in H. destruct D as [[Nf (elem & ->)]|U].
    + rewrite (lazy_value_in_eq F) in H; [|apply I|apply I|intros k; apply freedb_not; exact Nf|].
      2:{ intros k b Eb _. exists (stored f elem). split; [exact Op|]. cbn. rewrite map_length.
          rewrite hollow_blocks, nth_error_map in Eb. apply nth_error_Some. destruct (nth_error (s_blocks f) k); discriminate. }
      destruct (lazy_value fuel (l_cache w) (o_type o) (o_id o) (hollow f) p) as [r1|] eqn:LV; [|discriminate].
      destruct (lazy_value_ok F _ _ _ f elem p (li_c _ _ _ I) (sr_shape _ _ S) Op Bf fuel r1 LV) as (s' & v & -> & Ev' & _).
      cbn [obind] in H. injection H as <-. assert (v = sm_val (af_map x) p) by congruence. subst v.
      exists (LWorld s' (l_freed w) (l_objs w)). split; [reflexivity|].
      destruct (lazy_value_touch _ _ _ _ _ _ _ _ LV) as [->|(k & b & Eb & _ & TC)]; [destruct w; exact I|].
      assert (N : names_block F (o_type o, o_id o, k)).
      { exists (stored f elem). split; [exact Op|]. cbn. rewrite map_length.
        rewrite hollow_blocks, nth_error_map in Eb. apply nth_error_Some. destruct (nth_error (s_blocks f) k); discriminate. }
      destruct (cstep_ok F fuel (l_cache w) (CTouch (o_type o, o_id o, k)) _ (li_c _ _ _ I) N TC) as (s1 & [= <-] & C1).
      constructor; cbn [l_cache l_freed l_objs]; try apply I; auto.
      * intros e He. destruct (touch_sub F _ _ _ _ (li_c _ _ _ I) N TC e He) as [Q| ->]; [apply (li_sound _ _ _ I e Q)|].
        apply freedb_not. exact Nf.
      * apply (touch_unpinned F _ _ _ _ (li_c _ _ _ I) N TC), I.
    + rewrite (unalloc_read fuel _ _ _ _ f p _ U Ev) in H. cbn [obind] in H. injection H as <-.
      exists w. split; [destruct w; reflexivity|exact I].
  - rewrite D, Ev in H. cbn [obind] in H. injection H as <-. exists w. auto.
Qed.
Lemma read_terminates a w F i x p : linv a w F -> nth_error a i = Some (Some x) -> in_box p (sm_dw (af_map x)) ->
  exists fuel r, l_read fuel w i p = Some r.
Proof.
  intros I X B. destruct (linv_at a w F i x I X) as (o & O & Ob & T & L & f & S & D). unfold l_read. rewrite Ob.
  cbn [obind]. pose proof (sr_val _ _ S p B) as Ev.
  assert (Bf : in_box p (s_dw f)) by (rewrite (sr_dw _ _ S); exact B).
  destruct (o_lazy o) eqn:Lo.
  - destruct D as (Ed & d & Op & D). rewrite Ed. destruct D as [[Nf (elem & ->)]|U].
    + destruct (lazy_value_terminates F (l_cache w) _ _ f elem p (li_c _ _ _ I) (sr_shape _ _ S) Op Bf) as (fuel & r & E).
      { intros _ e _. apply unpinned_pinnedb, I. }
      exists fuel. rewrite (lazy_value_in_eq F); [|apply I|apply I|intros k; apply freedb_not; exact Nf|].
      * rewrite E. destruct r as [[s v]| |]; cbn [obind]; eauto.
      * intros k b Eb _. exists (stored f elem). split; [exact Op|]. cbn. rewrite map_length.
        rewrite hollow_blocks, nth_error_map in Eb. apply nth_error_Some. destruct (nth_error (s_blocks f) k); discriminate.
    + exists 0%nat. rewrite (unalloc_read 0 _ _ _ _ f p _ U Ev). cbn [obind]. eauto.
  - exists 0%nat. rewrite D, Ev. cbn [obind]. eauto.
Qed.

(** * Replacing the block array *)
Lemma replaced_blocks (f g : sparse V) x : replaces x = true -> sparse_step zero eqb f x = Ok g ->
  forall b, In b (s_blocks g) -> b_alloc b = false /\ b_data b = None.
Proof.
  assert (Q : forall ex dw n (k : sparse V), setup_blocks zero ex dw n = Ok k -> forall b, In b (s_blocks k) -> b_alloc b = false /\ b_data b = None).
  { intros ex dw n k E. unfold setup_blocks in E. apply bind_ok in E. destruct E as (xy & _ & E).
    apply bind_ok in E. destruct E as (m & _ & E). injection E as <-. cbn [s_blocks]. intros b Hb. apply repeat_spec in Hb. subst. auto. }
  destruct x; try discriminate; intros _; cbn [sparse_step]; intros E; try (eapply Q; exact E).
  unfold sparse_clear in E. apply bind_ok in E. destruct E as (k & Ek & E). injection E as <-. cbn [s_blocks].
  intros b Hb. apply in_map_iff in Hb. destruct Hb as (b0 & <- & Hb). cbn. eapply Q; eauto.
Qed.
Lemma hollow_id (g : sparse V) : (forall b, In b (s_blocks g) -> b_alloc b = false /\ b_data b = None) -> hollow g = g.
Proof.
  intros H. destruct g as [e dw o br xy l]. unfold hollow. cbn [s_ext s_dw s_order s_bres s_xy s_blocks] in *. f_equal.
  induction l as [|b l IH]; auto. cbn [map]. rewrite IH by (intros k K; apply H; right; exact K).
  destruct (H b (or_introl eq_refl)) as [_ D]. destruct b; cbn in *. subst. reflexivity.
Qed.
Lemma replace_hollow (f : sparse V) x : replaces x = true -> sparse_step zero eqb (hollow f) x = sparse_step zero eqb f x.
Proof. destruct x; try discriminate; reflexivity. Qed.

Definition fr_with (w : lworld V) (o : obj V) : list (nat * nat) := l_freed (free_blocks w o).
Lemma fr_with_in w o t f : In (t, f) (fr_with w o) <-> In (t, f) (l_freed w) \/ (o_lazy o = true /\ t = o_type o /\ f = o_id o).
Proof.
  unfold fr_with, free_blocks. destruct (o_lazy o); cbn [l_freed In]; [|split; [auto|intros [|[? _]]; auto; discriminate]].
  split; [intros [[= <- <-]|]; auto|intros [|(_ & -> & ->)]; auto].
Qed.
Lemma fr_with_ok a w F i o x : linv a w F -> nth_error (l_objs w) i = Some (Some o) -> agree F (l_freed w) o x ->
  ~ in_memory w i ->
  sound (fr_with w o) (l_cache w) /\ (forall t f, In (t, f) (fr_with w o) -> (f < length (F t))%nat).
Proof.
  intros I O A N. split.
  - intros [[t f] k] H. apply freedb_not. rewrite fr_with_in. intros [Q|(L & -> & ->)].
    + pose proof (li_sound _ _ _ I _ H) as S. apply freedb_not in S. tauto.
    + apply N. exists o, k. auto.
  - intros t f. rewrite fr_with_in. intros [Q|(L & -> & ->)]; [apply (li_fr _ _ _ I _ _ Q)|eapply agree_id; eauto].
Qed.
Lemma fr_with_others a w F i o : linv a w F -> nth_error (l_objs w) i = Some (Some o) ->
  forall j o1, j <> i -> nth_error (l_objs w) j = Some (Some o1) -> o_lazy o1 = true ->
  In (o_type o1, o_id o1) (fr_with w o) -> In (o_type o1, o_id o1) (l_freed w).
Proof.
  intros I O j o1 N E L. rewrite fr_with_in. intros [Q|(Lo & T & D)]; auto. exfalso. apply N.
  apply (li_dist _ _ _ I j i o1 o E O L Lo T D).
Qed.

(** * One operation *)
Lemma lstep_ok a w F o a' v fuel r : linv a w F -> means zero eqb a o a' v -> careful_step w o ->
  lstep zero eqb fuel w o = Some r -> exists w' F', r = Ok (w', v) /\ linv a' w' F'.
Proof.
  intros I M C H. destruct M as [a t f m elem FM El|a t|a j x X|a i j x y X Y T|a i x op X SL LZ|a i x p X B|a i x X|a|a m|a b]; cbn [lstep] in H.
  - (* open *)
    injection H as <-. cbn [bind]. pose proof (field_map_refines zero eqb eqb_ok f m FM) as S.
    exists (l_open w t (hollow f) (stored f elem)), (fields_step F (COpen t (stored f elem))). split; [reflexivity|].
    pose proof (stored_ok f elem (sr_shape _ _ S) El) as D.
    assert (NI : length (c_refs (l_cache w) t) = length (F t)) by apply (ci_len _ _ (li_c _ _ _ I)).
    apply (linv_add a w F); auto; try apply I.
    + apply open_ok; auto. apply I.
    + apply open_unpinned, I.
    + intros t'. cbn [fields_step]. destruct (Nat.eqb_spec t' t); rewrite ?app_length; lia.
    + intros t' f0 d0 O0. unfold is_open in *. cbn [fields_step]. destruct (Nat.eqb_spec t' t); auto.
      rewrite nth_error_app1; auto. apply nth_error_Some. congruence.
    + split; [reflexivity|]. split; [reflexivity|]. exists f. split; [exact S|]. cbn [o_lazy o_data o_type o_id].
      split; [reflexivity|]. exists (stored f elem). split.
      * unfold is_open. cbn [fields_step]. rewrite Nat.eqb_refl, NI, nth_app_new, Nat.eqb_refl. reflexivity.
      * left. split; [|eauto]. intros Q. apply (li_fr _ _ _ I) in Q. lia.
    + intros _. cbn [o_type o_id]. lia.
  - (* new *)
    unfold l_new in H. destruct (srefines_init zero) as (f0 & E0 & R0). rewrite E0 in H. cbn [bind] in H. injection H as <-.
    eexists _, F. split; [reflexivity|]. apply (linv_add a w F); auto; try apply I.
    + split; [reflexivity|]. split; [reflexivity|]. exists f0. split; [exact R0|reflexivity].
    + discriminate.
  - (* copy *)
    destruct (linv_at a w F j x I X) as (o & O & Ob & A). unfold l_copy in H. rewrite Ob in H. cbn [bind] in H.
    destruct (copy_ok zero a w F j o x I O A) as (s' & c & F' & E & C' & U' & K & LE & OP & _ & _ & D & AG).
    rewrite E in H. cbn [bind] in H. injection H as <-. eexists _, F'. split; [reflexivity|].
    apply (linv_add a w F); auto.
    + intros e He. rewrite K in He. apply (li_sound _ _ _ I e He).
    + apply AG. apply (li_fr _ _ _ I).
  - (* assign *)
    destruct (linv_at a w F i x I X) as (oa & Oa & Oba & Aa). destruct (linv_at a w F j y I Y) as (o & O & Ob & A).
    unfold l_assign in H. rewrite Oba, Ob in H. cbn [bind] in H.
    destruct (Nat.eqb_spec i j) as [->|N].
    + injection H as <-. assert (y = x) by congruence. subst y. exists w, F. split; [reflexivity|].
      rewrite (list_set_id a j (Some x)); auto.
    + destruct Aa as (Ta & Aa'). destruct A as (Tb & A'). rewrite Ta, Tb, T, Nat.eqb_refl in H. cbn [negb] in H.
      assert (NM : ~ in_memory w i).
      { apply C. cbn [overwritten]. destruct (Nat.eqb_spec i j); [tauto|reflexivity]. }
      destruct (copy_ok zero a w F j o y I O (conj Tb A')) as (s' & c & F' & E & C' & U' & K & LE & OP & Tc & Lc & D & AG).
      replace (l_cache (free_blocks w oa)) with (l_cache w) in H by (unfold free_blocks; destruct (o_lazy oa); reflexivity).
      rewrite E in H. cbn [bind] in H. injection H as <-. eexists _, F'. split; [reflexivity|].
      unfold put. cbn [l_cache l_freed l_objs].
      replace (l_objs (free_blocks w oa)) with (l_objs w) by (unfold free_blocks; destruct (o_lazy oa); reflexivity).
      fold (fr_with w oa). destruct (fr_with_ok a w F i oa x I Oa (conj Ta Aa') NM) as [SO BO].
      apply (linv_put a w F i oa x); auto.
      * intros e He. rewrite K in He. apply (SO e He).
      * intros t f Q. specialize (BO _ _ Q). specialize (LE t). lia.
      * intros k o1 Nk Ek Lk. split; [auto|]. apply (fr_with_others a w F i oa I Oa k o1 Nk Ek Lk).
      * cbn [orel]. apply AG, BO.
      * intros k o1 o2 Nk Ek Lk [= <-] L2 Tk Dk. specialize (D L2).
        destruct (nth_some a k) as (xk & Xk). { rewrite <- (li_len _ _ _ I). apply nth_error_Some. congruence. }
        pose proof (li_rel _ _ _ I k _ xk Ek Xk) as R. destruct xk as [xk|]; [|destruct R].
        pose proof (agree_id _ _ _ _ R Lk). rewrite Tk, Dk in *. lia.
  - (* edit *)
    destruct (linv_at a w F i x I X) as (o & O & Ob & A). unfold l_edit in H. rewrite Ob in H. cbn [bind] in H.
    assert (A' := A). destruct A' as (T & L & f & S & D). destruct (srefines_step zero eqb eqb_ok f _ op S SL) as (g & Eg & Rg).
    destruct (o_lazy o) eqn:Lo.
    + rewrite <- L in LZ. specialize (LZ eq_refl). destruct D as (Ed & d & Op & D).
      assert (H' : quietly (Ok (put (free_blocks w o) i (Some (Obj (o_type o) g true (o_id o))))) = Some r).
      { rewrite <- H, Ed. destruct op; try discriminate; rewrite (replace_hollow f _ LZ), Eg; reflexivity. }
      clear H. injection H' as <-. cbn [bind]. eexists _, F. split; [reflexivity|]. unfold put.
      replace (l_cache (free_blocks w o)) with (l_cache w) by (unfold free_blocks; destruct (o_lazy o); reflexivity).
      replace (l_objs (free_blocks w o)) with (l_objs w) by (unfold free_blocks; destruct (o_lazy o); reflexivity).
      fold (fr_with w o).
      assert (NM : ~ in_memory w i) by (apply C; cbn [overwritten]; rewrite LZ; reflexivity).
      destruct (fr_with_ok a w F i o x I O A NM) as [SO BO].
      apply (linv_put a w F i o x); auto; try apply I.
      * intros k o1 Nk Ek Lk. split; [auto|]. apply (fr_with_others a w F i o I O k o1 Nk Ek Lk).
      * cbn [orel]. split; [exact T|]. split; [exact L|]. exists g. split; [exact Rg|]. cbn [o_lazy o_data o_type o_id].
        pose proof (replaced_blocks f g op LZ Eg) as RB. split; [symmetry; apply hollow_id, RB|].
        exists d. split; [exact Op|]. right. intros b Hb. apply (RB b Hb).
      * intros k o1 o2 Nk Ek Lk [= <-] _ Tk Dk. apply Nk. apply (li_dist _ _ _ I k i o1 o Ek O Lk Lo Tk Dk).
    + rewrite D, Eg in H. cbn [bind] in H. injection H as <-. eexists _, F. split; [reflexivity|]. unfold put.
      apply (linv_put a w F i o x); auto; try apply I.
      * cbn [orel]. split; [exact T|]. split; [exact L|]. exists g. split; [exact Rg|reflexivity].
      * intros k o1 o2 _ _ _ [= <-]. discriminate.
  - (* read *)
    destruct (l_read fuel w i p) as [r1|] eqn:E; [|discriminate].
    destruct (read_ok a w F i x p fuel r1 I X B E) as (w' & -> & I'). cbn [obind] in H. injection H as <-. eauto.
  - (* destroy *)
    destruct (linv_at a w F i x I X) as (o & O & Ob & A). unfold l_destroy in H. rewrite Ob in H. cbn [bind] in H.
    destruct (o_lazy o) eqn:Lo.
    + assert (A' := A). destruct A' as (T & L & f & S & D). rewrite Lo in D. destruct D as (Ed & d & Op & D).
      destruct (remove_ok F (l_cache w) _ _ d (li_c _ _ _ I) Op) as (s' & E & C'). rewrite E in H. cbn [bind] in H. injection H as <-.
      eexists _, _. split; [reflexivity|]. unfold put. cbn [l_cache l_freed l_objs].
      eapply (linv_put a w F i o x); eauto; try exact Logic.I.
      * intros e He. apply (li_sound _ _ _ I), (remove_sub _ _ _ _ E), He.
      * intros t f0 Q. pose proof (li_fr _ _ _ I _ _ Q). cbn [fields_step]. destruct (Nat.eqb_spec t (o_type o)); rewrite ?list_set_length; auto.
      * apply (remove_unpinned _ _ _ _ E), I.
      * intros k o1 Nk Ek Lk. split; [|auto]. intros d0. unfold is_open. cbn [fields_step].
        destruct (Nat.eqb_spec (o_type o1) (o_type o)) as [Te|]; auto. rewrite nth_set.
        destruct (Nat.eqb_spec (o_id o1) (o_id o)) as [De|]; auto. exfalso. apply Nk.
        apply (li_dist _ _ _ I k i o1 o Ek O Lk Lo Te De).
      * discriminate.
    + injection H as <-. eexists _, F. split; [reflexivity|]. unfold put.
      apply (linv_put a w F i o x); auto; try apply I.
      { exact Logic.I. } intros k o1 o2 _ _ _ Q2. discriminate Q2.
  - (* flush *)
    rewrite (flush_in_eq _ _ (li_sound _ _ _ I)) in H. destruct (flush_ok F (l_cache w) (li_c _ _ _ I)) as (s' & E & C' & K & _).
    rewrite E in H. cbn [bind] in H. injection H as <-. eexists _, F. split; [reflexivity|].
    constructor; cbn [l_cache l_freed l_objs]; try apply I; auto.
    + intros e He. rewrite K in He. destruct He.
    + intros e n R. unfold flush in E. rewrite (flush_refs _ _ _ E) in R. apply (li_unp _ _ _ I e n R).
  - injection H as <-. eexists _, F. split; [reflexivity|]. constructor; cbn [l_cache l_freed l_objs]; try apply I; auto.
    apply cinv_max, I.
  - injection H as <-. eexists _, F. split; [reflexivity|]. constructor; cbn [l_cache l_freed l_objs]; try apply I; auto.
    apply cinv_max, I.
Qed.

Lemma linv_init : linv [] (@l_init V) no_fields.
Proof.
  constructor; cbn; auto using cinv_init; try (intros; contradiction).
  - intros e [].
  - intros [[t f] i] n. unfold refs, blk_at, ref_at. cbn. destruct f; discriminate.
  - intros i o x. destruct i; discriminate.
  - intros i j o o'. destruct i; discriminate.
Qed.
Lemma lrun_ok : forall h a w F a' v fuel r, linv a w F -> means_all zero eqb a h a' v -> careful zero eqb fuel w h ->
  lrun zero eqb fuel w h = Some r -> exists w' F', r = Ok (w', v) /\ linv a' w' F'.
Proof.
  induction h as [|o h IH]; intros a w F a' v fuel r I M C H; cbn [lrun] in H; inversion M; subst.
  - injection H as <-. eauto.
  - cbn [careful] in C. destruct C as [C1 C2].
    destruct (lstep zero eqb fuel w o) as [r1|] eqn:E; [|discriminate].
    destruct (lstep_ok _ _ _ _ _ _ _ _ I H3 C1 E) as (w1 & F1 & -> & I1). cbn [obind] in H.
    destruct (lrun zero eqb fuel w1 h) as [r2|] eqn:E2; [|discriminate].
    destruct (IH _ _ _ _ _ _ _ I1 H6 (C2 _ _ eq_refl) E2) as (w2 & F2 & -> & I2). cbn [obind] in H. injection H as <-. eauto.
Qed.
Lemma lreached_inv a w : lreached zero eqb a w -> exists F, linv a w F.
Proof.
  intros (fuel & h & v & M & C & R). destruct (lrun_ok _ _ _ _ _ _ _ _ linv_init M C R) as (w' & F & [= <-] & I). eauto.
Qed.

(** * Throwing away blocks that are in the cache *)
Lemma flush_none (s : cache V) : cached s = [] -> flush s = Ok s.
Proof. intros E. unfold flush. rewrite E. reflexivity. Qed.
Lemma overwrite_cache a w F o a' v i fuel w' : linv a w F -> means zero eqb a o a' v -> overwritten o = Some i ->
  lstep zero eqb fuel w o = Some (Ok (w', v)) ->
  cached (l_cache w') = cached (l_cache w) /\
  exists ob, nth_error (l_objs w) i = Some (Some ob) /\ l_freed w' = fr_with w ob.
Proof.
  intros I M Ov H. destruct M as [a t f m elem FM El|a t|a j x X|a i0 j x y X Y T|a i0 x op X SL LZ|a i0 x p X B|a i0 x X|a|a m|a b]; cbn [overwritten] in Ov; try discriminate; cbn [lstep] in H.
  - destruct (Nat.eqb_spec i0 j) as [|N]; [discriminate|]. injection Ov as ->.
    destruct (linv_at a w F i x I X) as (oa & Oa & Oba & Aa). destruct (linv_at a w F j y I Y) as (ob & O & Ob & A).
    unfold l_assign in H. rewrite Oba, Ob in H. cbn [bind] in H. destruct (Nat.eqb_spec i j); [tauto|].
    destruct Aa as (Ta & Aa'). destruct A as (Tb & A'). rewrite Ta, Tb, T, Nat.eqb_refl in H. cbn [negb] in H.
    destruct (copy_ok zero a w F j ob y I O (conj Tb A')) as (s' & c & F' & E & C' & U' & K & _).
    replace (l_cache (free_blocks w oa)) with (l_cache w) in H by (unfold free_blocks; destruct (o_lazy oa); reflexivity).
    rewrite E in H. cbn [bind] in H. injection H as <-. cbn. split; [exact K|]. exists oa. auto.
  - destruct (replaces op) eqn:RP; [|discriminate]. injection Ov as ->.
    destruct (linv_at a w F i x I X) as (ob & O & Ob & A). unfold l_edit in H. rewrite Ob in H. cbn [bind] in H.
    destruct (o_lazy ob) eqn:Lo.
    + assert (Q : exists g, w' = put (free_blocks w ob) i (Some (Obj (o_type ob) g true (o_id ob)))).
      { destruct op; try discriminate; destruct (sparse_step zero eqb (o_data ob) _) as [g| |]; try discriminate;
          injection H as <-; eauto. }
      destruct Q as (g & ->). unfold put. cbn [l_cache l_freed].
      split; [unfold free_blocks; destruct (o_lazy ob); reflexivity|]. exists ob. auto.
    + destruct (sparse_step zero eqb (o_data ob) op) as [g| |]; try discriminate. injection H as <-. unfold put. cbn [l_cache l_freed].
      split; [reflexivity|]. exists ob. split; [exact O|]. unfold fr_with, free_blocks. rewrite Lo. reflexivity.
Qed.
Lemma flush_iff a w F o a' v i fuel w' : linv a w F -> means zero eqb a o a' v -> overwritten o = Some i ->
  lstep zero eqb fuel w o = Some (Ok (w', v)) ->
  (in_memory w i -> lstep zero eqb fuel w' LFlush = Some UB) /\
  (~ in_memory w i -> exists w2, lstep zero eqb fuel w' LFlush = Some (Ok (w2, []))).
Proof.
  intros I M Ov H. split.
  - intros (ob0 & k & O & L & K). destruct (overwrite_cache _ _ _ _ _ _ _ _ _ I M Ov H) as (C & ob & O' & Fr).
    assert (ob0 = ob) by congruence. subst ob0. cbn [lstep]. unfold flush_in.
    destruct (existsb (freedb (l_freed w')) (cached (l_cache w'))) eqn:E; [reflexivity|]. exfalso.
    assert (existsb (freedb (l_freed w')) (cached (l_cache w')) = true); [|congruence]. apply existsb_exists.
    exists (o_type ob, o_id ob, k). rewrite C. split; [exact K|]. apply freedb_iff. rewrite Fr. apply fr_with_in. auto.
  - intros N. assert (CS : careful_step w o) by (intros i' Ov'; assert (i' = i) by congruence; subst; exact N).
    destruct (lstep_ok a w F o a' v fuel _ I M CS H) as (w1 & F1 & E1 & I1).
    assert (w1 = w') by congruence. subst w1.
    cbn [lstep]. rewrite (flush_in_eq _ _ (li_sound _ _ _ I1)).
    destruct (flush_ok F1 (l_cache w') (li_c _ _ _ I1)) as (s2 & -> & _). eexists. reflexivity.
Qed.
End P.
