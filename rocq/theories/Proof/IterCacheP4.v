(** Every step keeps the invariant and reads the right value. *)
From Coq Require Import ZArith List Bool Lia Arith.
From Verif Require Import Model.Base Model.FieldM Model.SparseM Model.CacheM Model.IterCacheM
  Spec.VoxelSpec Spec.SparseSpec Spec.CacheSpec Spec.IterCacheSpec
  Proof.BaseP Proof.FieldP Proof.SparseP Proof.SparseP2 Proof.SparseP3 Proof.CacheP Proof.CacheP2 Proof.CacheP3 Proof.CacheP4
  Proof.IterCacheP Proof.IterCacheP2 Proof.IterCacheP3.
Import ListNotations.
Open Scope Z_scope.

Section S.
Context {V : Type}.
Variables (f : sparse V) (elem : Z) (t fid : nat).
Hypothesis S : sshape f.
Hypothesis F : few_blocks f.
Hypothesis Al : aligned f.
Notation dw := (s_dw f).
Notation ord := (s_order f).
Notation iinv := (iinv f elem t fid).
Notation irel := (irel f t fid).
Notation delta := (delta f t fid).

Lemma live_at A W i w p : iinv A W -> alive_at A i w p ->
  exists m, it_at W i = Some m /\ irel (iw_cache W) (Some (w, p)) (Some m).
Proof.
  intros I L. destruct (F2_nth _ _ _ (ii_r _ _ _ _ _ _ I) i _ L) as ([m|] & N & R); [|contradiction].
  exists m. unfold it_at. rewrite N. auto.
Qed.

(** The cache changed, the iterators did not, and no pinned block went away. *)
Lemma inv_cache A W s' a' p' : iinv A W -> cinv a' s' -> is_open a' t fid (stored f elem) ->
  (forall i k, blk_at (iw_cache W) (t, fid, i) = Some k -> 0 < cb_refs k -> cb_loaded k = true ->
     exists k', blk_at s' (t, fid, i) = Some k' /\ cb_loaded k' = true /\ cb_loads k' = cb_loads k) ->
  (forall e k, blk_at s' e = Some k -> in_file a' e -> cb_refs k = p' e + count_at f t fid e (is_its A)) ->
  (forall e, 0 <= p' e) -> (forall t' f' i, p' (t', f', i) <> 0 -> (f' < length (a' t'))%nat) ->
  iinv (ISpec a' p' (is_its A)) (IWorld s' (iw_its W)).
Proof.
  intros I C O K P N D. constructor; cbn [is_fields is_pins is_its iw_cache iw_its]; auto.
  eapply its_keep; eauto.
Qed.

Lemma moved_keep (a : fields V) (s s' : cache V) d e k : moved a s s' d -> blk_at s e = Some k -> cb_loaded k = true ->
  exists k', blk_at s' e = Some k' /\ cb_loaded k' = true /\ cb_loads k' = cb_loads k.
Proof. intros M K L. destruct (M e k K) as (k' & K' & L' & N' & _). exists k'. split; auto. split; congruence. Qed.
(** Blocks do not appear from nowhere. *)
Lemma blk_back a (s s' : cache V) e k' : cinv a s -> cinv a s' -> blk_at s' e = Some k' -> exists k, blk_at s e = Some k.
Proof.
  intros I I' K. destruct e as [[t' f'] i]. destruct (ci_open_of_blk a s' I' t' f' i k' K) as (d & O & L).
  destruct (ci_live _ _ I _ _ _ O) as (_ & _ & B). apply B in L. destruct (blk_at s (t', f', i)); [eauto|contradiction].
Qed.
Lemma moved_refs (a : fields V) (s s' : cache V) d n : cinv a s -> cinv a s' -> moved a s s' d ->
  (forall e k, blk_at s e = Some k -> in_file a e -> cb_refs k = n e) ->
  forall e k, blk_at s' e = Some k -> in_file a e -> cb_refs k = n e + d e.
Proof.
  intros I I' M H e k K Fi. destruct (blk_back a s s' e k I I' K) as (k0 & K0). destruct (M e k0 K0) as (k1 & K1 & _ & _ & R).
  rewrite K in K1. injection K1 as <-. rewrite R, (H e k0 K0) by auto. auto.
Qed.
Lemma holds_refs a (s s' : cache V) n : cinv a s -> cinv a s' -> holds s s' ->
  (forall e k, blk_at s e = Some k -> in_file a e -> cb_refs k = n e) ->
  forall e k, blk_at s' e = Some k -> in_file a e -> cb_refs k = n e.
Proof.
  intros I I' M H e k K Fi. destruct (blk_back a s s' e k I I' K) as (k0 & K0). destruct (M e k0 K0) as (k1 & K1 & R & _).
  rewrite K in K1. injection K1 as <-. rewrite R. auto.
Qed.

Lemma make_ok A W w p : iinv A W -> standing f w p ->
  exists s' m, miter_make (iw_cache W) t fid (hollow f) w p = Ok (s', m) /\
    iinv (ispec_step A (IMake w p)) (IWorld s' (iw_its W ++ [Some m])).
Proof.
  intros I P. assert (I0 := I). destruct I as [C O R Pp N D]. destruct W as [s its]. cbn [iw_cache iw_its] in *.
  unfold miter_make. rewrite make_hollow. destruct (make_managed f w p S F P) as (it & -> & Ep & Eb & G). cbn [bind].
  destruct (stand_coords f w p S P) as (X & Y & Zc).
  assert (L0 : 0 <= lid (s_bres f) (bc f p)) by (unfold lid; pose proof (Z.mul_nonneg_nonneg (vx (s_bres f)) (vy (s_bres f)) ltac:(lia) ltac:(lia)); pose proof (Z.mul_nonneg_nonneg (vz (bc f p)) _ Zc H); pose proof (Z.mul_nonneg_nonneg (vy (bc f p)) (vx (s_bres f)) ltac:(lia) ltac:(lia)); lia).
  unfold move_pin. rewrite Eb. replace (-1 =? _) with false by lia.
  unfold unpin. replace (has_block (hollow f) (-1)) with false by reflexivity. cbn [bind].
  destruct (pin_eff f elem t fid S (is_fields A) s w p C O P) as (s' & E & C' & M). rewrite E. cbn [bind].
  exists s', (MIter it w 0). split; auto. cbn [ispec_step]. constructor; cbn [is_fields is_pins is_its iw_cache iw_its]; auto.
  - apply Forall2_app.
    + apply (its_keep f elem t fid S A (IWorld s its)); auto. intros i k K _ L. eapply moved_keep; eauto.
    + constructor; [|constructor]. cbn [IterCacheP3.irel mi_win mi_it mi_gen]. split; auto. split; auto. split; auto. split; auto. intros B.
      destruct (G B) as [G1 G2]. split; auto. rewrite G2. discriminate.
  - intros e k K Fi. rewrite count_app. rewrite (moved_refs (is_fields A) s s' _ _ C C' M Pp e k K Fi). lia.
Qed.

Lemma next_ok A W i w p m : iinv A W -> alive_at A i w p -> it_at W i = Some m -> in_box p w ->
  exists s' m', miter_next (iw_cache W) t fid (hollow f) m = Ok (s', m') /\
    iinv (ispec_step A (INext i)) (IWorld s' (list_set (iw_its W) i (Some m'))).
Proof.
  intros I L Im B. assert (I0 := I). destruct (live_at A W i w p I L) as (m0 & Im' & X). rewrite Im in Im'. injection Im' as <-.
  destruct I as [C O R Pp N D]. destruct W as [s its]. cbn [iw_cache iw_its] in *. cbn [IterCacheP3.irel] in X.
  destruct X as (X1 & X2 & X3 & X4 & X5). destruct (X5 B) as [G K].
  unfold miter_next. rewrite next_hollow, X1. destruct X2 as (Nw & Sw & X2).
  destruct (next_managed f w (mi_it m) S F Sw) as (it' & -> & Ep & Q & Eb & G'); auto; [congruence|]. cbn [bind].
  assert (P1 : standing f w p) by (split; auto). assert (P2 : standing f w (si_pos it')) by (split; auto).
  rewrite X4, Eb.
  destruct (move_eff f elem t fid S (is_fields A) s w p w (si_pos it') C O P1 P2) as (s' & -> & C' & M). cbn [bind].
  exists s', (MIter it' w (mi_gen m)). split; auto. cbn [ispec_step]. unfold alive_at in L. rewrite L.
  rewrite <- X3, <- Ep.
  constructor; cbn [is_fields is_pins is_its iw_cache iw_its]; auto.
  - apply F2_set.
    + apply (its_keep f elem t fid S A (IWorld s its)); auto. intros j k Kj _ Lj. eapply moved_keep; eauto.
    + cbn [IterCacheP3.irel mi_win mi_it mi_gen]. split; auto. split; auto. split; auto. split; auto. intros Bq.
      destruct (G' Bq) as [G1 G2]. split; auto. intros Ac Em. destruct (G2 Ac Em) as (Ac' & Em' & Eb').
      destruct (K Ac' Em') as (k & Kb & Kl & Kn). rewrite Eb'.
      destruct (moved_keep _ _ _ _ _ _ M Kb Kl) as (k' & K1 & K2 & K3). exists k'. split; auto. split; auto. congruence.
  - intros e k Ke Fi. rewrite (count_set f t fid e _ i _ _ L).
    rewrite (moved_refs (is_fields A) s s' _ _ C C' M Pp e k Ke Fi). lia.
Qed.

Lemma drop_ok A W i w p m : iinv A W -> alive_at A i w p -> it_at W i = Some m ->
  exists s', miter_drop (iw_cache W) t fid (hollow f) m = Ok s' /\
    iinv (ispec_step A (IDrop i)) (IWorld s' (list_set (iw_its W) i None)).
Proof.
  intros I L Im. assert (I0 := I). destruct (live_at A W i w p I L) as (m0 & Im' & X). rewrite Im in Im'. injection Im' as <-.
  destruct I as [C O R Pp N D]. destruct W as [s its]. cbn [iw_cache iw_its] in *. cbn [IterCacheP3.irel] in X.
  destruct X as (X1 & X2 & X3 & X4 & X5). unfold miter_drop. rewrite X4.
  destruct (unpin_eff f elem t fid S (is_fields A) s w p C O X2) as (s' & E & C' & M). exists s'. split; auto.
  cbn [ispec_step]. constructor; cbn [is_fields is_pins is_its iw_cache iw_its]; auto.
  - apply F2_set; [|exact Logic.I]. apply (its_keep f elem t fid S A (IWorld s its)); auto. intros j k Kj _ Lj. eapply moved_keep; eauto.
  - intros e k Ke Fi. rewrite (count_set f t fid e _ i _ _ L).
    rewrite (moved_refs (is_fields A) s s' _ _ C C' M Pp e k Ke Fi). destruct e as [[? ?] ?]. unfold IterCacheP3.delta at 3. cbn [stands_in].
    destruct (_ && _); lia.
Qed.

Lemma read_ok A W i w p m fuel r : iinv A W -> alive_at A i w p -> it_at W i = Some m -> in_box p w ->
  miter_deref fuel (iw_cache W) t fid (hollow f) m = Some r ->
  exists s' v m', r = Ok (s', (v, m')) /\ sparse_value f p = Ok v /\
    iinv A (IWorld s' (list_set (iw_its W) i (Some m'))).
Proof.
  intros I L Im B H. assert (I0 := I). destruct (live_at A W i w p I L) as (m0 & Im' & X). rewrite Im in Im'. injection Im' as <-.
  destruct I as [C O R Pp N D]. destruct W as [s its]. cbn [iw_cache iw_its] in *. assert (X' := X). cbn [IterCacheP3.irel] in X.
  destruct X as (X1 & X2 & X3 & X4 & X5). destruct (X5 B) as [G K]. assert (Bd : in_box p dw) by (apply X2; auto).
  destruct (sparse_value_ok f p S Bd) as (v & Hv).
  assert (L' : (i < length (is_its A))%nat) by (apply nth_error_Some; unfold alive_at in L; congruence).
  assert (LS : list_set (is_its A) i (Some (w, p)) = is_its A).
  { clear - L. unfold alive_at in L. revert L. generalize (is_its A). intros l. revert i. induction l; intros [|i] L; cbn in *; try discriminate.
    - congruence.
    - f_equal. auto. }
  unfold miter_deref in H. destruct (negb (si_empty (mi_it m)) && negb (si_active (mi_it m))) eqn:E.
  - assert (Em : si_empty (mi_it m) = false) by (destruct (si_empty (mi_it m)); auto; discriminate).
    destruct (good_alloc f w p _ X2 X3 G Em) as (b & Eb & Ab & _).
    assert (Nm : names_block (is_fields A) (t, fid, Z.to_nat (si_block (mi_it m)))).
    { apply (has_block_names f elem); auto. apply (arr_get_has f _ b); auto. }
    destruct (activate fuel s _) as [ra|] eqn:Ac; [|discriminate].
    destruct (activate_ok _ fuel s _ ra C Nm Ac) as (s1 & -> & C1 & _ & Ld & _). cbn [obind] in H.
    pose proof (activate_holds _ _ _ _ Ac) as Ho.
    assert (Eb' := Eb). apply arr_get_inv in Eb'. destruct Eb' as [Rg Nb].
    destruct (Ld _ _ _ _ eq_refl O) as (k & dd & Kb & Kl & Kd & _).
    { cbn [stored fd_alloc]. rewrite nth_error_map, Nb. cbn. congruence. }
    rewrite Kb in H. change (s_order (hollow f)) with ord in H. rewrite X3, (aligned_cell f S Al p) in H.
    set (m1 := MIter (SIter p (PCell (si_block (mi_it m)) (cid (2 ^ ord) (vc f p))) (si_empty (mi_it m))
                        (si_ticker (mi_it m)) (si_block (mi_it m)) true) (mi_win m) (cb_loads k)) in *.
    rewrite (fetch_cell f elem t fid S (is_fields A) s1 m1 w p b k v C1 O X2 Bd Eb Ab X4 eq_refl Kb Kl eq_refl Hv) in H.
    cbn [obind] in H. injection H as <-. exists s1, v, m1. split; auto. split; auto.
    constructor; cbn [is_fields is_pins is_its iw_cache iw_its]; auto.
    + rewrite <- LS. apply F2_set.
      * apply (its_keep f elem t fid S A (IWorld s its)); auto. intros j k0 Kj Pj Lj.
        destruct (Ho _ _ Kj) as (k' & K1 & K2 & K3). destruct (K3 Pj Lj). eauto.
      * cbn [IterCacheP3.irel]. unfold m1; cbn [mi_win mi_it mi_gen si_pos si_block si_active si_empty]. split; auto. split; auto. split; auto. split; auto. intros _.
        split; [|intros; exists k; auto]. destruct G as (b0 & Gb & Gi & Gt & Ge & Gp & Ga). exists b0.
        cbn [si_pos si_p si_empty si_ticker si_block si_active]. rewrite X3 in *. repeat split; auto. intros A0. congruence.
    + apply (holds_refs _ s s1 _ C C1 Ho Pp).
  - assert (Rd : miter_fetch s t fid (hollow f) m = Ok v).
    { destruct (si_empty (mi_it m)) eqn:Em.
      - destruct G as (b & Gb & Gi & Gt & Ge & Gp & Ga). assert (A0 : b_alloc b = false) by (rewrite Ge in Em; destruct (b_alloc b); auto; discriminate).
        unfold miter_fetch. rewrite (Gp A0). cbn [hollow s_blocks]. rewrite X3 in *. rewrite X4. rewrite (arr_get_map _ _ _ _ Gb). cbn.
        rewrite (block_value f S _ b p Gb Bd eq_refl) in Hv. unfold read_block in Hv. rewrite A0 in Hv. congruence.
      - cbn in E. assert (Ac : si_active (mi_it m) = true) by (destruct (si_active (mi_it m)); auto; discriminate).
        destruct (K Ac eq_refl) as (k & Kb & Kl & Kn).
        destruct (good_alloc f w p _ X2 X3 G Em) as (b & Eb & Ab & _).
        apply (fetch_cell f elem t fid S (is_fields A) s m w p b k v); auto.
        destruct G as (b0 & Gb & Gi & Gt & Ge & Gp & Ga). rewrite Ge in Em. assert (A0 : b_alloc b0 = true) by (destruct (b_alloc b0); auto; discriminate).
        rewrite X3 in *. destruct (Ga A0) as [[_ Q]|Q]; [congruence|auto]. }
    rewrite Rd in H. cbn [obind] in H. injection H as <-. exists s, v, m. split; auto. split; auto.
    constructor; cbn [is_fields is_pins is_its iw_cache iw_its]; auto.
    rewrite <- LS. apply F2_set; auto.
Qed.
(** What opening and destroying other fields does to blocks. *)
Lemma open_blk a (s : cache V) t' d : cinv a s -> forall e k, blk_at (open_field s t' d) e = Some k ->
  blk_at s e = Some k \/ (exists i, e = (t', length (a t'), i)) /\ cb_refs k = 0.
Proof.
  intros I [[t0 f0] i] k. unfold blk_at, ref_at, open_field. cbn [c_refs].
  destruct (Nat.eqb_spec t0 t') as [->|]; [|auto]. rewrite <- (ci_len _ _ I t').
  destruct (lt_dec f0 (length (c_refs s t'))) as [L|L].
  - rewrite nth_error_app1 by auto. auto.
  - rewrite nth_error_app2 by lia. destruct (f0 - length (c_refs s t'))%nat as [|n] eqn:E.
    + cbn. intros H. right. split; [exists i; f_equal; f_equal; lia|].
      apply nth_error_In, in_map_iff in H. destruct H as (x & <- & _). reflexivity.
    + cbn. destruct n; discriminate.
Qed.
Lemma open_keeps a (s : cache V) t' d : cinv a s -> forall e k, blk_at s e = Some k -> blk_at (open_field s t' d) e = Some k.
Proof.
  intros I [[t0 f0] i] k. unfold blk_at, ref_at, open_field. cbn [c_refs].
  destruct (Nat.eqb_spec t0 t') as [->|]; [|auto]. destruct (nth_error (c_refs s t') f0) eqn:E; [|discriminate].
  rewrite nth_error_app1 by (apply nth_error_Some; congruence). rewrite E. auto.
Qed.
Lemma destroy_blk (s s' : cache V) t' f' : remove_field s t' f' = Ok s' ->
  forall e, blk_at s' e = if same_field t' f' e then None else blk_at s e.
Proof.
  unfold remove_field. destruct (ref_at s t' f') as [r|] eqn:R; [|discriminate]. intros [= <-] [[t0 f0] i].
  unfold blk_at, ref_at, same_field in *. cbn [with_list set_ref c_refs].
  destruct (Nat.eqb_spec t0 t') as [->|]; cbn [andb]; [|reflexivity].
  destruct (Nat.eqb_spec f0 f') as [->|]; cbn [andb].
  - rewrite list_set_same by (apply nth_error_Some; congruence). cbn. destruct i; reflexivity.
  - rewrite list_set_other by auto. reflexivity.
Qed.

Lemma other_ok A W c fuel r : iinv A W -> iop_ok dw t fid A (IOther c) -> cstep fuel (iw_cache W) c = Some r ->
  exists s', r = Ok s' /\ iinv (ispec_step A (IOther c)) (IWorld s' (iw_its W)).
Proof.
  intros I [Ok1 Ok2] H. destruct (cstep_ok (is_fields A) fuel (iw_cache W) c r (ii_c _ _ _ _ _ _ I) Ok1 H) as (s' & -> & C').
  exists s'. split; auto. assert (I0 := I). destruct I as [C O R Pp N D].
  set (s := iw_cache W) in *.
  assert (HOLD : forall s1, cinv (is_fields A) s1 -> holds s s1 -> iinv A (IWorld s1 (iw_its W))).
  { intros s1 C1 Ho. destruct A as [a p its]. cbn [is_fields is_pins is_its] in *. apply (inv_cache (ISpec a p its) W); auto.
    - intros i k K P L. destruct (Ho _ _ K) as (k' & K1 & _ & K3). destruct (K3 P L). eauto.
    - apply (holds_refs _ s s1 _ C C1 Ho Pp). }
  assert (PIN : forall e z, names_block (is_fields A) e -> ref_count s e z = Ok s' -> 0 <= is_pins A e + z ->
     iinv (ISpec (is_fields A) (fun e' => if entry_eqb e' e then is_pins A e' + z else is_pins A e') (is_its A)) (IWorld s' (iw_its W))).
  { intros e z Nm E Z0. destruct (ref_count_eff (is_fields A) s e z C Nm) as (s1 & E1 & C1 & M). rewrite E in E1. injection E1 as <-.
    assert (M' : moved (is_fields A) s s' (fun e0 => if entry_eqb e0 e then z else 0)) by exact M.
    apply (inv_cache A W); auto.
    - intros i k K _ L. eapply moved_keep; eauto.
    - intros e0 k K Fi. rewrite (moved_refs _ s s' _ _ C C1 M' Pp e0 k K Fi). destruct (entry_eqb e0 e); lia.
    - intros e0. destruct (entry_eqb e0 e) eqn:Q; auto. apply entry_eqb_eq in Q. subst. auto.
    - intros t0 f0 i. destruct (entry_eqb (t0, f0, i) e) eqn:Q; [|apply D]. apply entry_eqb_eq in Q. subst e. intros _.
      destruct Nm as (d & Od & _). apply nth_error_Some. unfold is_open in Od. congruence. }
  destruct c; cbn [ispec_step]; cbn [cstep] in H.
  - (* open *) injection H as <-. cbn [op_ok] in Ok1. apply (inv_cache A W); auto.
    + unfold is_open, fields_step in *. destruct (Nat.eqb_spec t t0) as [->|]; auto. rewrite nth_error_app1; auto.
      apply nth_error_Some. congruence.
    + intros i k K _ L. exists k. split; [|auto]. apply (open_keeps (is_fields A)); auto.
    + intros e k K Fi. destruct (open_blk (is_fields A) s t0 d C e k K) as [K0|[(i & ->) R0]].
      * apply Pp; auto. destruct e as [[t1 f1] i]. destruct (ci_open_of_blk _ _ C t1 f1 i k K0) as (d1 & O1 & _).
        destruct Fi as (d2 & O2 & T). exists d2. split; auto. unfold is_open, fields_step in *. destruct (Nat.eqb t1 t0); auto.
        rewrite nth_error_app1 in O2; auto. apply nth_error_Some. congruence.
      * rewrite R0. destruct (Z.eq_dec (is_pins A (t0, length (is_fields A t0), i)) 0) as [->|Q]; [|apply D in Q; lia].
        unfold count_at. destruct (Nat.eqb_spec t0 t) as [->|]; auto.
        destruct (Nat.eqb_spec (length (is_fields A t)) fid) as [Q|]; auto. exfalso. unfold is_open in O.
        assert (fid < length (is_fields A t))%nat by (apply nth_error_Some; congruence). lia.
    + intros t1 f1 i Q. apply D in Q. unfold fields_step. destruct (Nat.eqb t1 t0); auto. rewrite app_length. lia.
  - (* touch *) apply obind_ok in H. destruct H as (s1 & E1 & H). apply obind_ok in H. destruct H as (s2 & E2 & E3).
    assert (E1' : ref_count s e 1 = Ok s1) by congruence. assert (E3' : ref_count s2 e (-1) = Ok s') by congruence.
    destruct (ref_count_eff (is_fields A) s e 1 C Ok1) as (s1' & Q1 & C1 & M1). rewrite E1' in Q1. injection Q1 as <-.
    destruct (activate_ok (is_fields A) fuel s1 e _ C1 Ok1 E2) as (s2' & [= <-] & C2 & _).
    destruct (ref_count_eff (is_fields A) s2 e (-1) C2 Ok1) as (s3' & Q3 & C3 & M3). rewrite E3' in Q3. injection Q3 as <-.
    pose proof (activate_holds _ _ _ _ E2) as Ho.
    assert (P1 := moved_refs (is_fields A) s s1 (fun e0 => if entry_eqb e0 e then 1 else 0) _ C C1 M1 Pp).
    assert (P2 := holds_refs (is_fields A) s1 s2 _ C1 C2 Ho P1).
    assert (P3 := moved_refs (is_fields A) s2 s' (fun e0 => if entry_eqb e0 e then -1 else 0) _ C2 C3 M3 P2).
    destruct A as [a p its]. cbn [is_fields is_pins is_its fields_step] in *. apply (inv_cache (ISpec a p its) W); auto.
    + intros i k K P L. destruct (M1 _ _ K) as (k1 & K1 & L1 & N1 & R1).
      assert (Fi : 0 < cb_refs k1).
      { destruct (ref_count_ok a s e 1 C Ok1) as (sx & Ex & _ & _ & _ & _ & Bx & _). rewrite E1' in Ex. injection Ex as <-.
        destruct (entry_dec (t, fid, i) e) as [Q|Q].
        - destruct e as [[te fe] ie]. injection Q as <- <- <-. unfold ref_count in E1'. destruct (ref_at s t fid) as [rr|]; [|discriminate].
          apply bind_ok in E1'. destruct E1' as (ix & _ & E1'). destruct (0 <=? ix).
          + apply upd_blk_inv in E1'. destruct E1' as (kk & Kk & U). rewrite (ut_blk _ _ _ _ U), entry_eqb_refl in K1. injection K1 as <-.
            fold s in K. rewrite K in Kk. injection Kk as <-. cbn. lia.
          + injection E1' as <-. fold s in K. congruence.
        - rewrite (Bx _ Q) in K1. fold s in K. congruence. }
      destruct (Ho _ _ K1) as (k2 & K2 & R2 & H2). destruct (H2 Fi) as (L2 & N2); [congruence|].
      destruct (M3 _ _ K2) as (k3 & K3 & L3 & N3 & _). exists k3. split; auto. split; congruence.
    + intros e0 k K Fi. rewrite (P3 e0 k K Fi). cbv beta. cbn [is_pins is_its]. clear. destruct (entry_eqb e0 e); lia.
  - (* activate *) pose proof (activate_holds _ _ _ _ H) as Ho. destruct A as [a p its]. apply HOLD; auto.
  - (* pin *) assert (E : ref_count s e 1 = Ok s') by congruence. apply PIN; auto. specialize (N e). lia.
  - (* unpin *) assert (E : ref_count s e (-1) = Ok s') by congruence.
    apply (PIN e (-1)); auto. lia.
  - contradiction.
  - injection H as <-. destruct A as [a p its]. apply HOLD; auto. exact (holds_refl s).
  - injection H as <-. destruct A as [a p its]. apply HOLD; auto. exact (holds_refl s).
  - (* destroy *) assert (E : remove_field s t0 f0 = Ok s') by congruence. pose proof (destroy_blk s s' t0 f0 E) as Bl.
    assert (SF : forall i, same_field t0 f0 (t, fid, i) = false).
    { intros i. unfold same_field. destruct (Nat.eqb_spec t t0) as [->|]; auto. destruct (Nat.eqb_spec fid f0) as [->|]; auto.
      exfalso. apply Ok2. reflexivity. }
    apply (inv_cache A W); auto.
    + unfold is_open, fields_step in *. destruct (Nat.eqb_spec t t0) as [->|]; auto. rewrite list_set_other by (intros ->; apply Ok2; reflexivity). exact O.
    + intros i k K _ L. exists k. rewrite Bl, SF. auto.
    + intros e k K Fi. rewrite Bl in K. destruct (same_field t0 f0 e) eqn:Q; [discriminate|]. apply Pp; auto.
      destruct e as [[t1 f1] i]. destruct Fi as (d & Od & T). exists d. split; auto. unfold is_open, fields_step in *. unfold same_field in Q.
      destruct (Nat.eqb_spec t1 t0) as [->|]; auto. destruct (Nat.eqb_spec f1 f0) as [->|]; [discriminate|]. rewrite list_set_other in Od; auto.
    + intros t1 f1 i Q. apply D in Q. unfold fields_step. destruct (Nat.eqb t1 t0); auto. rewrite list_set_length. auto.
Qed.

Lemma istep_ok A W o fuel r : iinv A W -> iop_ok dw t fid A o -> istep fuel t fid (hollow f) W o = Some r ->
  exists W' out, r = Ok (W', out) /\ iinv (ispec_step A o) W' /\
    Forall2 (fun p v => sparse_value f p = Ok v) (positions_read A [o]) out.
Proof.
  intros I Ho H. destruct o; cbn [istep] in H; cbn [positions_read].
  - destruct (make_ok A W w p I Ho) as (s' & m & E & I'). rewrite E in H. cbn [obind] in H. injection H as <-.
    eexists; eexists. split; [reflexivity|]. split; [exact I'|constructor].
  - destruct Ho as (w & p & L & B). destruct (live_at A W i w p I L) as (m & Im & _). rewrite Im in H.
    destruct (next_ok A W i w p m I L Im B) as (s' & m' & E & I'). rewrite E in H. cbn [obind] in H. injection H as <-.
    eexists; eexists. split; [reflexivity|]. split; [exact I'|constructor].
  - destruct Ho as (w & p & L & B). destruct (live_at A W i w p I L) as (m & Im & _). rewrite Im in H.
    destruct (miter_deref fuel (iw_cache W) t fid (hollow f) m) as [r0|] eqn:E; [|discriminate].
    destruct (read_ok A W i w p m fuel r0 I L Im B E) as (s' & v & m' & -> & Ev & I'). cbn [obind] in H. injection H as <-.
    eexists; eexists. split; [reflexivity|]. split; [exact I'|]. unfold alive_at in L. rewrite L. constructor; auto.
  - destruct Ho as (w & p & L). destruct (live_at A W i w p I L) as (m & Im & _). rewrite Im in H.
    destruct (drop_ok A W i w p m I L Im) as (s' & E & I'). rewrite E in H. cbn [obind] in H. injection H as <-.
    eexists; eexists. split; [reflexivity|]. split; [exact I'|constructor].
  - contradiction.
  - destruct (cstep fuel (iw_cache W) o) as [r0|] eqn:E; [|discriminate].
    destruct (other_ok A W o fuel r0 I Ho E) as (s' & -> & I'). cbn [obind] in H. injection H as <-.
    eexists; eexists. split; [reflexivity|]. split; [exact I'|constructor].
Qed.
Lemma irun_ok : forall l A W fuel r, iinv A W -> ilegal dw t fid A l -> irun fuel t fid (hollow f) W l = Some r ->
  exists W' out, r = Ok (W', out) /\ iinv (ispec_run A l) W' /\
    Forall2 (fun p v => sparse_value f p = Ok v) (positions_read A l) out.
Proof.
  induction l as [|o l IH]; intros A W fuel r I L H; cbn [irun ilegal] in *.
  - injection H as <-. exists W, []. split; auto. split; auto. constructor.
  - destruct L as [Ho L]. destruct (istep fuel t fid (hollow f) W o) as [r0|] eqn:E; [|discriminate].
    destruct (istep_ok A W o fuel r0 I Ho E) as (W1 & out & -> & I1 & F1). cbn [obind] in H.
    destruct (irun fuel t fid (hollow f) W1 l) as [r1|] eqn:E1; [|discriminate].
    destruct (IH _ _ fuel r1 I1 L E1) as (W2 & out2 & -> & I2 & F2). cbn [obind] in H. injection H as <-.
    exists W2, (out ++ out2). split; auto. split; auto. cbn [positions_read] in *. rewrite app_nil_r in F1. apply Forall2_app; auto.
Qed.
End S.
