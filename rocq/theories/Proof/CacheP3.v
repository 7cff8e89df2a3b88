From Coq Require Import ZArith List Bool Lia Arith Permutation.
From Verif Require Import Model.Base Model.SparseM Model.CacheM Spec.VoxelSpec Spec.SparseSpec Spec.CacheSpec
  Proof.BaseP Proof.SparseP Proof.CacheP Proof.CacheP2.
Import ListNotations.
Open Scope Z_scope.

Definition count_true (l : list bool) : nat := length (filter (fun b => b) l).

Lemma file_indices_length : forall al n, length (file_indices n al) = length al.
Proof. induction al as [|[] al IH]; intros n; simpl; auto. Qed.
Lemma file_indices_nth : forall al n i b, nth_error al i = Some b ->
  nth_error (file_indices n al) i = Some (if b then n + Z.of_nat (count_true (firstn i al)) else -1).
Proof.
  induction al as [|b0 al IH]; intros n i b H; [destruct i; discriminate|].
  destruct i as [|i]; simpl in H.
  - injection H as ->. simpl. destruct b; simpl; f_equal. unfold count_true; simpl. lia.
  - destruct b0; simpl; rewrite (IH _ _ _ H); destruct b; auto; f_equal; unfold count_true; simpl; lia.
Qed.
Lemma count_true_lt : forall al i, nth_error al i = Some true -> (count_true (firstn i al) < count_true al)%nat.
Proof.
  unfold count_true. induction al as [|b al IH]; intros i H; [destruct i; discriminate|].
  destruct i as [|i]; simpl in H.
  - injection H as ->. simpl. lia.
  - specialize (IH i H). destruct b; simpl; lia.
Qed.

Section C.
Context {V : Type}.
Implicit Types (s : cache V) (e : entry).

Lemma upd_to_trans s e k1 s1 k2 s2 : upd_to s e k1 s1 -> upd_to s1 e k2 s2 -> upd_to s e k2 s2.
Proof.
  intros [ut_blk0 ut_stat0 ut_len0 ut_before0 ut_after0 ut_mem0 ut_max0 ut_limit0]
    [ut_blk1 ut_stat1 ut_len1 ut_before1 ut_after1 ut_mem1 ut_max1 ut_limit1]. constructor; try congruence.
  - intros e'. rewrite ut_blk1, ut_blk0. destruct (entry_eqb e' e); auto.
Qed.

Lemma cinv_load a s e k k' s' d : cinv a s -> blk_at s e = Some k -> cb_loaded k = false ->
  upd_to s e k' s' -> cb_loaded k' = true -> cb_data k' = Some d -> has_content s e d ->
  cinv a (with_list s' (c_before s ++ [e]) (c_after s) (c_mem s + entry_size s e)).
Proof.
  intros I B L U L' D HC. destruct I as [ci_len0 ci_live0 ci_dead0 ci_blk0 ci_in0 ci_nodup0 ci_mem0],
    U as [ut_blk0 ut_stat0 ut_len0 ut_before0 ut_after0 ut_mem0 ut_max0 ut_limit0].
  pose proof (ci_blk0 e k B) as Hk. rewrite L in Hk. destruct Hk as [NI _].
  set (S' := with_list s' (c_before s ++ [e]) (c_after s) (c_mem s + entry_size s e)).
  assert (CS : forall x, In x (cached S') <-> x = e \/ In x (cached s)).
  { intros x. unfold S', cached; cbn. rewrite !in_app_iff. simpl. intuition. }
  constructor.
  - intros t. cbn. rewrite ut_len0. auto.
  - intros t f d0 O. destruct (ci_live0 t f d0 O) as (H1 & H2 & H3). split; [auto|split].
    + rewrite <- H2. apply ut_stat0.
    + intros i. change (blk_at S') with (blk_at s').
      rewrite H3, ut_blk0. destruct (entry_eqb (t, f, i) e) eqn:E; [|tauto].
      apply entry_eqb_eq in E. subst e. rewrite B. split; discriminate.
  - intros t f N i. change (blk_at S') with (blk_at s').
    rewrite ut_blk0. destruct (entry_eqb (t, f, i) e) eqn:E; [|auto].
    apply entry_eqb_eq in E. subst e. rewrite (ci_dead0 t f N) in B. discriminate.
  - intros e' k0. change (blk_at S') with (blk_at s').
    rewrite ut_blk0. destruct (entry_eqb e' e) eqn:E.
    + apply entry_eqb_eq in E. subst e'. intros [= <-]. rewrite L', CS. split; auto.
      exists d. split; auto. eapply (has_content_same s); eauto.
    + intros B'. specialize (ci_blk0 e' k0 B').
      assert (e' <> e) by (intros ->; rewrite entry_eqb_refl in E; discriminate).
      destruct (cb_loaded k0); rewrite CS; [|tauto].
      destruct ci_blk0 as (? & d0 & ? & ?). split; auto. exists d0. split; auto.
      eapply (has_content_same s); eauto.
  - intros e'. change (blk_at S') with (blk_at s').
    rewrite ut_blk0, CS. intros H. destruct (entry_eqb e' e) eqn:E; [discriminate|].
    destruct H as [->|H]; [rewrite entry_eqb_refl in E; discriminate|]. auto.
  - unfold S', cached; cbn. rewrite <- app_assoc. simpl.
    eapply Permutation_NoDup; [apply Permutation_middle|]. constructor; auto.
  - change (c_mem s + entry_size s e = bytes s' ((c_before s ++ [e]) ++ c_after s)).
    rewrite (bytes_same s s') by auto. rewrite ci_mem0. unfold cached. rewrite !bytes_app. simpl. lia.
Qed.

(** Facts about a named block. *)
Lemma named_block a s t f i : cinv a s -> names_block a (t, f, i) ->
  exists d b k r, is_open a t f d /\ nth_error (fd_alloc d) i = Some b /\ blk_at s (t, f, i) = Some k /\
    ref_at s t f = Some r /\ desc_ok d /\
    r_nvox r = fd_nvox d /\ r_elem r = fd_elem d /\ r_disk r = fd_disk d /\
    stat s t f = Some (r_file r, r_nvox r, r_elem r, r_disk r) /\
    arr_get (r_file r) (Z.of_nat i) =
      Ok (if b then Z.of_nat (count_true (firstn i (fd_alloc d))) else -1) /\
    (b = true -> exists dd, nth_error (fd_disk d) (count_true (firstn i (fd_alloc d))) = Some dd).
Proof.
  intros I (d & O & L). destruct (ci_live _ _ I t f d O) as (D & S & B).
  destruct (nth_error (fd_alloc d) i) as [b|] eqn:N; [|apply nth_error_None in N; lia].
  apply B in L. destruct (blk_at s (t, f, i)) as [k|] eqn:K; [|tauto].
  destruct (ref_at s t f) as [r|] eqn:R; [|unfold stat in S; rewrite R in S; discriminate].
  unfold stat in *. rewrite R in S. cbn [option_map] in S. injection S as S1 S2 S3 S4.
  exists d, b, k, r. split; [auto|]. split; [auto|]. split; [auto|]. split; [auto|]. split; [auto|].
  split; [auto|]. split; [auto|]. split; [auto|]. split; [rewrite R; auto|].
  split.
  - unfold arr_get. destruct (Z.of_nat i <? 0) eqn:Z0; [lia|]. rewrite Nat2Z.id, S1.
    rewrite (file_indices_nth _ _ _ _ N). f_equal.
  - intros ->. destruct D as (D & _). pose proof (count_true_lt _ _ N).
    destruct (nth_error (fd_disk d) (count_true (firstn i (fd_alloc d)))) eqn:E; [eauto|].
    apply nth_error_None in E. unfold count_true in *. lia.
Qed.

Record kept s s' : Prop := {
  kp_stat : forall t f, stat s' t f = stat s t f;
  kp_max : c_max s' = c_max s; kp_limit : c_limit s' = c_limit s }.

Lemma ref_count_ok a s e d : cinv a s -> names_block a e ->
  exists s', ref_count s e d = Ok s' /\ cinv a s' /\ kept s s' /\ cached s' = cached s /\
    c_mem s' = c_mem s /\
    (forall e', e' <> e -> blk_at s' e' = blk_at s e') /\
    (forall k, blk_at s e = Some k -> exists k', blk_at s' e = Some k' /\
       cb_loaded k' = cb_loaded k /\ cb_data k' = cb_data k /\ cb_used k' = cb_used k).
Proof.
  intros I N. destruct e as [[t f] i].
  destruct (named_block a s t f i I N) as (de & b & k & r & O & Nb & K & R & D & _ & _ & _ & S & G & _).
  unfold ref_count. rewrite R, G. cbn [bind].
  destruct b.
  - destruct (0 <=? Z.of_nat (count_true (firstn i (fd_alloc de)))) eqn:Z0; [|lia].
    destruct (upd_blk_ok s (t, f, i) (fun k => CBlk (cb_loaded k) (cb_used k) (cb_loads k) (cb_refs k + d) (cb_data k)) k K)
      as (s' & E & U).
    exists s'. split; [auto|]. split; [eapply cinv_flags; eauto|]. destruct U. split; [constructor; auto|].
    split; [unfold cached; congruence|]. split; [auto|]. split.
    + intros e' Ne. rewrite ut_blk, entry_eqb_neq; auto.
    + intros k0 K0. rewrite K in K0. injection K0 as <-. eexists. split; [rewrite ut_blk, entry_eqb_refl; reflexivity|auto].
  - simpl. exists s. split; [auto|]. split; [auto|]. split; [constructor; auto|]. split; [auto|]. split; [auto|].
    split; [auto|]. intros k0 K0. exists k0. auto.
Qed.

Lemma activate_ok a fuel s e r : cinv a s -> names_block a e -> activate fuel s e = Some r ->
  exists s', r = Ok s' /\ cinv a s' /\ kept s s' /\
   (forall t f i d, e = (t, f, i) -> is_open a t f d -> nth_error (fd_alloc d) i = Some true ->
      exists k dd, blk_at s' e = Some k /\ cb_loaded k = true /\ cb_data k = Some dd /\
        nth_error (fd_disk d) (count_true (firstn i (fd_alloc d))) = Some dd) /\
   (c_limit s = true -> ~ loaded s e -> loaded s' e -> c_mem s' <= c_max s \/ cached s' = [e]) /\
   (loaded s e -> cached s' = cached s /\ c_mem s' = c_mem s).
Proof.
  intros I N. destruct e as [[t f] i].
  destruct (named_block a s t f i I N) as (d & b & k & r0 & O & Nb & K & R & D & Dn & De & Dd & S & G & CT).
  unfold activate. rewrite R, G.
  assert (FIN : forall s1 k1, cinv a s1 -> kept s s1 -> blk_at s1 (t, f, i) = Some k1 ->
    exists s', mark_used s1 (t, f, i) = Ok s' /\ cinv a s' /\ kept s s' /\ cached s' = cached s1 /\
      c_mem s' = c_mem s1 /\
      exists k', blk_at s' (t, f, i) = Some k' /\ cb_loaded k' = cb_loaded k1 /\ cb_data k' = cb_data k1).
  { intros s1 k1 I1 K1 B1. unfold mark_used.
    destruct (upd_blk_ok s1 (t, f, i) (fun k => CBlk (cb_loaded k) true (cb_loads k) (cb_refs k) (cb_data k)) k1 B1)
      as (s' & E & U).
    exists s'. split; [auto|]. split; [eapply cinv_flags; eauto|].
    destruct U. destruct K1. split; [constructor; [intros; rewrite ut_stat; auto| |]; congruence|].
    split; [unfold cached; congruence|]. split; [auto|]. eexists. split; [rewrite ut_blk, entry_eqb_refl; reflexivity|auto]. }
  assert (UNIQ : forall d', is_open a t f d' -> d' = d).
  { intros d' O'. unfold is_open in *. congruence. }
  destruct b.
  2:{ (* not in the file *)
    change (0 <=? -1) with false. cbn [obind]. intros [= <-].
    destruct (FIN s k I (Build_kept s s (fun _ _ => eq_refl) eq_refl eq_refl) K) as (s' & E & I' & KP_ & C' & M' & k' & B' & L' & D').
    exists s'. split; [auto|]. split; [auto|]. split; [auto|]. split; [|split].
    - intros t0 f0 i0 d0 [= <- <- <-] O' T. rewrite (UNIQ _ O') in T. congruence.
    - intros _ NL L. exfalso. apply NL. exists k. split; auto. destruct L as (k1 & B1 & L1). congruence.
    - auto. }
  destruct (0 <=? Z.of_nat (count_true (firstn i (fd_alloc d)))) eqn:Z0; [|lia].
  rewrite K. destruct (cb_loaded k) eqn:LK.
  { cbn [obind]. intros [= <-].
    destruct (FIN s k I (Build_kept s s (fun _ _ => eq_refl) eq_refl eq_refl) K) as (s' & E & I' & KP_ & C' & M' & k' & B' & L' & D').
    exists s'. split; [auto|]. split; [auto|]. split; [auto|].
    pose proof (ci_blk _ _ I _ _ K) as HK. rewrite LK in HK. destruct HK as (_ & dd & Hd & fi & n & m & dk & ix & Hs & Hi & _ & Hx).
    rewrite S in Hs. injection Hs as <- <- <- <-.
    split; [|split].
    - intros t0 f0 i0 d0 [= <- <- <-] O' T. rewrite (UNIQ _ O') in *. exists k', dd.
      split; [auto|]. split; [congruence|]. split; [congruence|].
      apply arr_get_inv in G. rewrite Nat2Z.id in G. destruct G as [_ G]. rewrite G in Hi. injection Hi as <-.
      rewrite Nat2Z.id, Dd in Hx. auto.
    - intros _ NL. exfalso. apply NL. exists k. auto.
    - auto. }
  destruct (CT eq_refl) as (dd & Hdd).
  (* the load *)
  assert (LOAD : forall s1, cinv a s1 -> kept s s1 -> blk_at s1 (t, f, i) = Some k ->
     exists s4 k4, obind (Some (load_block s1 (t, f, i))) (fun s2 =>
        obind (Some (upd_blk s2 (t, f, i) (fun k => CBlk (cb_loaded k) (cb_used k) (cb_loads k + 1) (cb_refs k) (cb_data k))))
          (fun s3 => let s4 := add_to_cache s3 (t, f, i) in
             Some (Ok (with_list s4 (c_before s4) (c_after s4) (c_mem s4 + ref_block_size r0))))) = Some (Ok s4) /\
       cinv a s4 /\ kept s s4 /\ blk_at s4 (t, f, i) = Some k4 /\ cb_loaded k4 = true /\ cb_data k4 = Some dd /\
       cached s4 = c_before s1 ++ [(t, f, i)] ++ c_after s1 /\ c_mem s4 = c_mem s1 + ref_block_size r0).
  { intros s1 I1 KP1 B1. unfold load_block.
    destruct (named_block a s1 t f i I1 N) as (d1 & b1 & k1 & r1 & O1 & Nb1 & K1 & R1 & D1 & Dn1 & De1 & Dd1 & S1 & G1 & _).
    rewrite (UNIQ _ O1) in *. rewrite Nb in Nb1. injection Nb1 as <-.
    rewrite R1, G1. cbn [bind]. rewrite Nat2Z.id, Dd1, Hdd.
    destruct (upd_blk_ok s1 (t, f, i) (fun k => CBlk true (cb_used k) (cb_loads k) (cb_refs k) (Some dd)) k B1) as (s2 & -> & U2).
    cbn [obind].
    destruct (upd_blk_ok s2 (t, f, i) (fun k => CBlk (cb_loaded k) (cb_used k) (cb_loads k + 1) (cb_refs k) (cb_data k))
                _ ltac:(rewrite (ut_blk _ _ _ _ U2), entry_eqb_refl; reflexivity)) as (s3 & -> & U3).
    cbn [obind]. pose proof (upd_to_trans _ _ _ _ _ _ U2 U3) as U.
    assert (SZ : ref_block_size r0 = entry_size s1 (t, f, i)).
    { rewrite (entry_size_same s s1) by apply KP1. unfold entry_size. rewrite R. reflexivity. }
    assert (HC : has_content s1 (t, f, i) dd).
    { exists (r_file r1), (r_nvox r1), (r_elem r1), (r_disk r1), (Z.of_nat (count_true (firstn i (fd_alloc d)))).
      split; [auto|]. apply arr_get_inv in G1. rewrite Nat2Z.id in G1. split; [apply G1|]. split; [lia|].
      rewrite Nat2Z.id, Dd1. auto. }
    exists (with_list s3 (c_before s1 ++ [(t, f, i)]) (c_after s1) (c_mem s1 + entry_size s1 (t, f, i))).
    eexists.
    split. { cbv zeta. unfold add_to_cache, with_list; cbn [c_refs c_before c_after c_mem c_max c_limit].
             rewrite (ut_before _ _ _ _ U), (ut_after _ _ _ _ U), (ut_mem _ _ _ _ U), SZ. reflexivity. }
    split. { eapply (cinv_load a s1 (t, f, i) k); [exact I1|exact B1|exact LK|exact U| | |exact HC]; reflexivity. }
    split. { constructor; [intros; rewrite <- (kp_stat _ _ KP1); apply (ut_stat _ _ _ _ U)
                         |rewrite <- (kp_max _ _ KP1); apply (ut_max _ _ _ _ U)
                         |rewrite <- (kp_limit _ _ KP1); apply (ut_limit _ _ _ _ U)]. }
    split. { change (blk_at (with_list _ _ _ _) (t, f, i)) with (blk_at s3 (t, f, i)).
             rewrite (ut_blk _ _ _ _ U), entry_eqb_refl. reflexivity. }
    split; [reflexivity|]. split; [reflexivity|].
    split; [unfold cached; cbn; rewrite <- app_assoc; reflexivity|].
    cbn. rewrite SZ. reflexivity. }
  assert (NLs : ~ In (t, f, i) (cached s)).
  { pose proof (ci_blk _ _ I _ _ K) as HK. rewrite LK in HK. tauto. }
  assert (END : forall s1, cinv a s1 -> kept s s1 -> blk_at s1 (t, f, i) = Some k ->
     (c_limit s = true -> cached s1 = [] \/ c_mem s1 + ref_block_size r0 <= c_max s) ->
     forall rr, obind (obind (Some (load_block s1 (t, f, i))) (fun s2 =>
        obind (Some (upd_blk s2 (t, f, i) (fun k => CBlk (cb_loaded k) (cb_used k) (cb_loads k + 1) (cb_refs k) (cb_data k))))
          (fun s3 => let s4 := add_to_cache s3 (t, f, i) in
             Some (Ok (with_list s4 (c_before s4) (c_after s4) (c_mem s4 + ref_block_size r0))))))
        (fun s1 => Some (mark_used s1 (t, f, i))) = Some rr ->
     exists s', rr = Ok s' /\ cinv a s' /\ kept s s' /\
       (forall t0 f0 i0 d0, (t, f, i) = (t0, f0, i0) -> is_open a t0 f0 d0 -> nth_error (fd_alloc d0) i0 = Some true ->
          exists k dd, blk_at s' (t, f, i) = Some k /\ cb_loaded k = true /\ cb_data k = Some dd /\
            nth_error (fd_disk d0) (count_true (firstn i0 (fd_alloc d0))) = Some dd) /\
       (c_limit s = true -> ~ loaded s (t, f, i) -> loaded s' (t, f, i) -> c_mem s' <= c_max s \/ cached s' = [(t, f, i)]) /\
       (loaded s (t, f, i) -> cached s' = cached s /\ c_mem s' = c_mem s)).
  { intros s1 I1 KP1 B1 LIM rr H.
    destruct (LOAD s1 I1 KP1 B1) as (s4 & k4 & E4 & I4 & KP4 & B4 & L4 & D4 & C4 & M4).
    rewrite E4 in H. cbn [obind] in H. injection H as <-.
    destruct (FIN s4 k4 I4 KP4 B4) as (s' & E & I' & KP_ & C' & M' & k' & B' & L' & D').
    exists s'. split; [auto|]. split; [auto|]. split; [auto|]. split; [|split].
    - intros t0 f0 i0 d0 [= <- <- <-] O' T. rewrite (UNIQ _ O') in *. exists k', dd.
      split; [auto|]. split; [congruence|]. split; [congruence|]. auto.
    - intros Lim _ _. rewrite M', C', M4, C4. destruct (LIM Lim) as [E0|E0]; [|auto].
      right. unfold cached in E0. apply app_eq_nil in E0. destruct E0 as [-> ->]. reflexivity.
    - intros (k0 & B0 & L0). congruence. }
  destruct (c_limit s) eqn:LIM.
  - destruct (dealloc_blocks fuel s (ref_block_size r0)) as [r1|] eqn:DB; [|cbn [obind]; discriminate].
    destruct (dealloc_blocks_ok a _ fuel s r1 I DB) as (s1 & -> & EV & ME). cbn [obind].
    intros H. destruct EV. apply (END s1); auto.
    + constructor; auto; congruence.
    + rewrite ev_blk; auto.
    + intros _. unfold must_evict in ME. rewrite ev_max in ME.
      destruct (cached s1); [auto|]. simpl in ME. right. apply Z.ltb_ge in ME. lia.
  - cbn [obind]. intros H. apply (END s); auto.
    + constructor; auto.
    + discriminate.
Qed.

(** A loaded or absent block keeps activation from ever looping; otherwise it returns
    when the eviction loop does. *)
Lemma activate_terminates a s e : cinv a s -> names_block a e ->
  (c_limit s = true -> ~ loaded s e -> room s (entry_size s e)) -> exists fuel r, activate fuel s e = Some r.
Proof.
  intros I N RM. destruct e as [[t f] i].
  destruct (named_block a s t f i I N) as (d & b & k & r0 & O & Nb & K & R & D & Dn & De & Dd & S & G & CT).
  unfold activate. rewrite R, G, K.
  destruct (0 <=? _); [|exists 0%nat; cbn; eauto].
  destruct (cb_loaded k) eqn:L; [exists 0%nat; cbn; eauto|].
  destruct (c_limit s) eqn:LIM.
  - assert (NL : ~ loaded s (t, f, i)) by (intros (k0 & K0 & L0); congruence).
    destruct (dealloc_blocks_bound a s _ I (RM eq_refl NL)) as (s1 & E).
    exists (length (cached s) * (length (cached s) + 1) + 1)%nat.
    assert (entry_size s (t, f, i) = ref_block_size r0) as Q by (unfold entry_size; rewrite R; auto).
    rewrite Q in E. rewrite E. cbn [obind].
    destruct (load_block s1 (t, f, i)) as [s2| |]; cbn [obind]; eauto.
    destruct (upd_blk s2 (t, f, i) _); cbn [obind]; eauto.
  - exists 0%nat. cbn [obind].
    destruct (load_block s (t, f, i)) as [s2| |]; cbn [obind]; eauto.
    destruct (upd_blk s2 (t, f, i) _); cbn [obind]; eauto.
Qed.

(** * Flush *)
Lemma flush_list_ok a : forall l s, cinv a s -> Permutation (cached s) l ->
  exists s', flush_list s l = Ok s' /\ cinv a s' /\ kept s s' /\ cached s' = [].
Proof.
  induction l as [|e l IH]; intros s I P.
  - apply Permutation_sym, Permutation_nil in P. exists s. split; [reflexivity|]. split; [auto|].
    split; [constructor; auto|auto].
  - cbn [flush_list].
    assert (Hin : In e (cached s)) by (eapply Permutation_in; [apply Permutation_sym; eauto|simpl; auto]).
    pose proof (ci_in _ _ I e Hin). destruct (blk_at s e) as [k|] eqn:B; [|tauto].
    destruct (upd_blk_ok s e unload k B) as (s1 & -> & U). cbn [bind].
    assert (I1 : cinv a (with_list s1 [] l (c_mem s - entry_size s e))).
    { eapply cinv_unload; eauto. }
    destruct (IH _ I1 (Permutation_refl _)) as (s' & E & I' & KP_ & C').
    exists s'. split; [auto|]. split; [auto|]. split; [|auto].
    destruct U, KP_. constructor.
    + intros. rewrite kp_stat0. apply ut_stat.
    + rewrite kp_max0. cbn. auto.
    + rewrite kp_limit0. cbn. auto.
Qed.
Lemma flush_ok a s : cinv a s -> exists s', flush s = Ok s' /\ cinv a s' /\ cached s' = [] /\ c_mem s' = 0.
Proof.
  intros I. destruct (flush_list_ok a (cached s) s I (Permutation_refl _)) as (s' & E & I' & _ & C).
  exists s'. split; [exact E|]. split; [auto|]. split; [auto|]. rewrite (ci_mem _ _ I'), C. reflexivity.
Qed.

(** * Destruction of a field *)
Lemma bytes_split s p l : bytes s l = bytes s (filter p l) + bytes s (filter (fun e => negb (p e)) l).
Proof. induction l; simpl; [lia|]. destruct (p a); simpl; lia. Qed.
Lemma bytes_const s l n : (forall e, In e l -> entry_size s e = n) -> bytes s l = Z.of_nat (length l) * n.
Proof.
  induction l as [|x l IH]; intros H; [reflexivity|]. cbn [bytes fold_right length].
  fold (bytes s l). rewrite (H x) by (simpl; auto). rewrite IH by (intros; apply H; simpl; auto). lia.
Qed.
Lemma bytes_in s s' l : (forall e, In e l -> entry_size s' e = entry_size s e) -> bytes s' l = bytes s l.
Proof. induction l; intros H; simpl; [auto|]. rewrite IHl, H; simpl; auto. intros; apply H; simpl; auto. Qed.

Lemma remove_ok a s t f d : cinv a s -> is_open a t f d ->
  exists s', remove_field s t f = Ok s' /\ cinv (fields_step a (CDestroy t f)) s'.
Proof.
  intros I O. destruct (ci_live _ _ I t f d O) as (D & S & B).
  destruct (ref_at s t f) as [r|] eqn:R; [|unfold stat in S; rewrite R in S; discriminate].
  unfold remove_field. rewrite R. eexists. split; [reflexivity|].
  set (r' := CRef _ _ _ _ _). set (keep := fun e => negb (same_field t f e)).
  set (S' := with_list _ _ _ _).
  assert (La : (f < length (a t))%nat) by (apply nth_error_Some; unfold is_open in O; congruence).
  assert (Lc : (f < length (c_refs s t))%nat) by (rewrite (ci_len _ _ I); auto).
  assert (RA : forall t' f', ref_at S' t' f' = if Nat.eqb t' t && Nat.eqb f' f then Some r' else ref_at s t' f').
  { intros t' f'. unfold ref_at, S'; cbn. destruct (Nat.eqb_spec t' t) as [->|]; cbn [andb]; [|reflexivity].
    destruct (Nat.eqb_spec f' f) as [->|].
    - rewrite list_set_same; auto.
    - rewrite list_set_other; auto. }
  assert (BA : forall e, blk_at S' e = if same_field t f e then None else blk_at s e).
  { intros [[t' f'] i]. unfold blk_at, same_field. rewrite RA. destruct (Nat.eqb t' t && Nat.eqb f' f); auto.
    cbn. destruct i; auto. }
  assert (CS : cached S' = filter keep (cached s)).
  { unfold S', cached; cbn. rewrite filter_app. reflexivity. }
  assert (SZ : forall e, entry_size S' e = entry_size s e).
  { intros [[t' f'] i]. unfold entry_size. rewrite RA. destruct (Nat.eqb_spec t' t) as [->|]; cbn [andb]; auto.
    destruct (Nat.eqb_spec f' f) as [->|]; auto. rewrite R. reflexivity. }
  assert (ST : forall t' f', Nat.eqb t' t && Nat.eqb f' f = false -> stat S' t' f' = stat s t' f').
  { intros t' f' E. unfold stat. rewrite RA, E. reflexivity. }
  constructor.
  - intros t'. unfold S', fields_step; cbn. destruct (Nat.eqb_spec t' t) as [->|]; [rewrite !list_set_length|]; apply (ci_len _ _ I).
  - intros t' f' d' O'. unfold is_open, fields_step in O'. cbn in O'.
    assert (E : Nat.eqb t' t && Nat.eqb f' f = false /\ is_open a t' f' d').
    { destruct (Nat.eqb_spec t' t) as [->|]; [|auto]. destruct (Nat.eqb_spec f' f) as [->|].
      - rewrite list_set_same in O' by auto. discriminate.
      - rewrite list_set_other in O' by auto. auto. }
    destruct E as [E O'']. destruct (ci_live _ _ I t' f' d' O'') as (D' & S1 & B1).
    split; [auto|]. split; [rewrite ST; auto|].
    intros i. rewrite B1, BA. unfold same_field. rewrite E. tauto.
  - intros t' f' N i. rewrite BA. unfold same_field. unfold fields_step in N. cbn in N.
    destruct (Nat.eqb_spec t' t) as [->|]; cbn [andb].
    + destruct (Nat.eqb_spec f' f) as [->|]; auto. rewrite list_set_other in N by auto. apply (ci_dead _ _ I); auto.
    + apply (ci_dead _ _ I); auto.
  - intros e k. rewrite BA. destruct (same_field t f e) eqn:SF; [discriminate|]. intros K.
    pose proof (ci_blk _ _ I e k K) as H.
    assert (INE : In e (cached S') <-> In e (cached s)).
    { rewrite CS, filter_In. unfold keep. rewrite SF. simpl. tauto. }
    destruct (cb_loaded k); rewrite INE; [|tauto]. destruct H as (? & dd & ? & HC). split; auto. exists dd. split; auto.
    destruct e as [[t' f'] i]. unfold has_content in *. rewrite ST; auto.
  - intros e. rewrite CS, filter_In, BA. unfold keep. intros [H1 H2]. destruct (same_field t f e); [discriminate|].
    apply (ci_in _ _ I); auto.
  - rewrite CS. apply NoDup_filter, (ci_nodup _ _ I).
  - rewrite CS. rewrite (bytes_in s S') by auto.
    change (c_mem S') with (c_mem s - Z.of_nat (length (filter (same_field t f) (cached s))) * ref_block_size r).
    rewrite (ci_mem _ _ I), (bytes_split s (same_field t f) (cached s)).
    rewrite (bytes_const s (filter (same_field t f) (cached s)) (ref_block_size r)).
    + unfold keep. lia.
    + intros [[t' f'] i] H. apply filter_In in H. destruct H as [_ H]. unfold same_field in H.
      apply andb_true_iff in H. rewrite !Nat.eqb_eq in H. destruct H as [-> ->].
      unfold entry_size. rewrite R. auto.
Qed.

(** * Opening a field *)
Lemma open_ok a s t d : cinv a s -> desc_ok d -> cinv (fields_step a (COpen t d)) (open_field s t d).
Proof.
  intros I D. unfold open_field.
  set (r := CRef _ _ _ _ _). set (S' := Cache _ _ _ _ _ _).
  assert (LA : length (a t) = length (c_refs s t)) by (symmetry; apply (ci_len _ _ I)).
  assert (RA : forall t' f', ref_at S' t' f' =
     if Nat.eqb t' t && Nat.eqb f' (length (a t)) then Some r else ref_at s t' f').
  { intros t' f'. unfold ref_at, S'; cbn. destruct (Nat.eqb_spec t' t) as [->|]; cbn [andb]; [|reflexivity].
    destruct (Nat.eqb_spec f' (length (a t))) as [->|].
    - rewrite LA, nth_error_app2, Nat.sub_diag by lia. reflexivity.
    - destruct (lt_dec f' (length (c_refs s t))).
      + rewrite nth_error_app1; auto.
      + assert (nth_error (c_refs s t) f' = None) as -> by (apply nth_error_None; lia).
        apply nth_error_None. rewrite app_length; simpl. lia. }
  assert (NEW : forall i, blk_at s (t, length (a t), i) = None).
  { intros i. unfold blk_at, ref_at. assert (nth_error (c_refs s t) (length (a t)) = None) as ->; auto.
    apply nth_error_None. lia. }
  assert (BA : forall t' f' i, blk_at S' (t', f', i) =
     if Nat.eqb t' t && Nat.eqb f' (length (a t)) then nth_error (r_blk r) i else blk_at s (t', f', i)).
  { intros t' f' i. unfold blk_at. rewrite RA. destruct (Nat.eqb t' t && Nat.eqb f' (length (a t))); auto. }
  assert (RB : forall i k, nth_error (r_blk r) i = Some k -> cb_loaded k = false /\ cb_data k = None).
  { intros i k H. unfold r in H; cbn in H. apply nth_error_In, in_map_iff in H. destruct H as (x & <- & _). auto. }
  assert (KEEP : forall e, blk_at s e <> None -> blk_at S' e = blk_at s e /\ entry_size S' e = entry_size s e).
  { intros [[t' f'] i] H. rewrite BA. unfold entry_size. rewrite RA.
    destruct (Nat.eqb_spec t' t) as [->|]; cbn [andb]; auto. destruct (Nat.eqb_spec f' (length (a t))) as [->|]; auto.
    rewrite NEW in H. tauto. }
  constructor.
  - intros t'. unfold S', fields_step; cbn. destruct (Nat.eqb_spec t' t) as [->|].
    + rewrite !app_length. simpl. rewrite LA. auto.
    + apply (ci_len _ _ I).
  - intros t' f' d' O'. unfold is_open, fields_step in O'. cbn in O'.
    destruct (Nat.eqb t' t && Nat.eqb f' (length (a t))) eqn:E.
    + apply andb_true_iff in E. rewrite !Nat.eqb_eq in E. destruct E as [-> ->].
      rewrite Nat.eqb_refl, nth_error_app2, Nat.sub_diag in O' by lia. cbn in O'. injection O' as <-.
      split; [auto|]. split.
      * unfold stat. rewrite RA, !Nat.eqb_refl. reflexivity.
      * intros i. rewrite BA, !Nat.eqb_refl. cbn [andb]. rewrite <- (map_length (fun _ : bool => @CBlk V false false 0 0 None)).
        symmetry. apply nth_error_Some.
    + assert (O'' : is_open a t' f' d').
      { unfold is_open. destruct (Nat.eqb_spec t' t) as [->|]; auto. cbn [andb] in E. apply Nat.eqb_neq in E.
        destruct (lt_dec f' (length (a t))).
        - rewrite nth_error_app1 in O'; auto.
        - assert (nth_error (a t ++ [Some d]) f' = None) by (apply nth_error_None; rewrite app_length; simpl; lia). congruence. }
      destruct (ci_live _ _ I t' f' d' O'') as (D' & S1 & B1). split; [auto|]. split.
      * unfold stat in *. rewrite RA, E. auto.
      * intros i. rewrite B1, BA, E. tauto.
  - intros t' f' N i. unfold fields_step in N. cbn in N. rewrite BA.
    destruct (Nat.eqb_spec t' t) as [->|]; cbn [andb]; [|apply (ci_dead _ _ I); auto].
    destruct (Nat.eqb_spec f' (length (a t))) as [->|].
    + rewrite nth_error_app2, Nat.sub_diag in N by lia. discriminate.
    + destruct (lt_dec f' (length (a t))).
      * rewrite nth_error_app1 in N by auto. apply (ci_dead _ _ I); auto.
      * assert (nth_error (a t ++ [Some d]) f' = None) by (apply nth_error_None; rewrite app_length; simpl; lia). congruence.
  - intros [[t' f'] i] k. rewrite BA. change (cached S') with (cached s).
    destruct (Nat.eqb t' t && Nat.eqb f' (length (a t))) eqn:E.
    + intros H. destruct (RB i k H) as [-> ->]. split; auto. intros H1. apply (ci_in _ _ I) in H1.
      apply andb_true_iff in E. rewrite !Nat.eqb_eq in E. destruct E as [-> ->]. rewrite NEW in H1. tauto.
    + intros H. pose proof (ci_blk _ _ I _ _ H) as Q. destruct (cb_loaded k); auto.
      destruct Q as (? & dd & ? & HC). split; auto. exists dd. split; auto.
      unfold has_content, stat in *. rewrite RA, E. auto.
  - intros e H. change (cached S') with (cached s) in H. pose proof (ci_in _ _ I e H) as Q. rewrite (proj1 (KEEP e Q)). auto.
  - apply (ci_nodup _ _ I).
  - change (cached S') with (cached s). change (c_mem S') with (c_mem s). rewrite (bytes_in s S'); [apply (ci_mem _ _ I)|].
    intros e H. apply KEEP, (ci_in _ _ I); auto.
Qed.

Lemma cinv_init : cinv no_fields (@cache_init V).
Proof.
  constructor; unfold no_fields, is_open, cached; cbn.
  - auto.
  - intros t f d H. destruct f; discriminate.
  - intros t f H. destruct f; discriminate.
  - intros [[t f] i] k H. unfold blk_at, ref_at in H; cbn in H. destruct f; discriminate.
  - intros e [].
  - constructor.
  - reflexivity.
Qed.

Lemma cstep_ok a fuel s o r : cinv a s -> op_ok a o -> cstep fuel s o = Some r ->
  exists s', r = Ok s' /\ cinv (fields_step a o) s'.
Proof.
  intros I O. destruct o; cbn [cstep op_ok] in *; cbn [fields_step].
  - intros [= <-]. eexists. split; [reflexivity|]. apply open_ok; auto.
  - destruct (ref_count_ok a s e 1 I O) as (s1 & -> & I1 & _). cbn [obind].
    destruct (activate fuel s1 e) as [r1|] eqn:A; [|discriminate].
    destruct (activate_ok a fuel s1 e r1 I1 O A) as (s2 & -> & I2 & _). cbn [obind].
    destruct (ref_count_ok a s2 e (-1) I2 O) as (s3 & -> & I3 & _). intros [= <-]. eauto.
  - intros A. destruct (activate_ok a fuel s e r I O A) as (s2 & -> & I2 & _). eauto.
  - destruct (ref_count_ok a s e 1 I O) as (s1 & -> & I1 & _). intros [= <-]. eauto.
  - destruct (ref_count_ok a s e (-1) I O) as (s1 & -> & I1 & _). intros [= <-]. eauto.
  - destruct (flush_ok a s I) as (s1 & -> & I1 & _). intros [= <-]. eauto.
  - intros [= <-]. eexists. split; [reflexivity|]. apply cinv_max; auto.
  - intros [= <-]. eexists. split; [reflexivity|]. apply cinv_max; auto.
  - destruct O as (d & O). destruct (remove_ok a s t f d I O) as (s1 & -> & I1). intros [= <-]. eauto.
Qed.
Lemma crun_ok : forall l a fuel s r, cinv a s -> clegal a l -> crun fuel s l = Some r ->
  exists s', r = Ok s' /\ cinv (fields_run a l) s'.
Proof.
  induction l as [|o l IH]; intros a fuel s r I L H; cbn [crun clegal] in *.
  - injection H as <-. eauto.
  - destruct L as [O L]. destruct (cstep fuel s o) as [r1|] eqn:E; [|discriminate].
    destruct (cstep_ok a fuel s o r1 I O E) as (s1 & -> & I1). cbn [obind] in H.
    apply (IH _ fuel s1 r I1 L H).
Qed.
Lemma reached_cinv a s : cache_reached a s -> cinv a s.
Proof.
  intros (h & fuel & L & R & ->). destruct (crun_ok h no_fields fuel _ _ cinv_init L R) as (s' & [= <-] & I). auto.
Qed.
End C.
