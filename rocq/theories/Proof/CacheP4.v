From Coq Require Import ZArith List Bool Lia Arith Permutation.
From Verif Require Import Model.Base Model.SparseM Model.CacheM Spec.VoxelSpec Spec.SparseSpec Spec.CacheSpec
  Proof.BaseP Proof.SparseP Proof.CacheP Proof.CacheP2 Proof.CacheP3.
Import ListNotations.
Open Scope Z_scope.

Section C.
Context {V : Type}.

Lemma payload_nth o : forall (bl : list (block V)) i b, Forall (block_shape o) bl ->
  nth_error bl i = Some b -> b_alloc b = true ->
  nth_error (flat_map block_payload bl) (count_true (firstn i (map (fun b => b_alloc b) bl))) = b_data b.
Proof.
  induction bl as [|x bl IH]; intros i b F N A; [destruct i; discriminate|].
  inversion F as [|? ? Sx Fx]; subst. destruct i as [|i]; cbn [nth_error] in N.
  - injection N as ->. cbn. unfold block_payload, block_shape in *. rewrite A in *.
    destruct Sx as (d & -> & _). reflexivity.
  - cbn [map firstn flat_map]. rewrite <- (IH i b Fx N A).
    unfold block_payload at 1. unfold block_shape, count_true in *. cbn [filter].
    destruct (b_alloc x) eqn:Ax.
    + destruct Sx as (d & -> & _). cbn [app length nth_error]. reflexivity.
    + reflexivity.
Qed.
Lemma payload_length o : forall bl : list (block V), Forall (block_shape o) bl ->
  length (flat_map block_payload bl) = count_true (map (fun b => b_alloc b) bl).
Proof.
  induction 1 as [|x bl Sx F IH]; auto. cbn [flat_map map]. rewrite app_length, IH.
  unfold block_payload, block_shape, count_true in *. cbn [filter].
  destruct (b_alloc x); [destruct Sx as (d & -> & _)|]; cbn; lia.
Qed.
Lemma stored_ok (f : sparse V) elem : sshape f -> 0 < elem -> desc_ok (stored f elem).
Proof.
  intros S E. pose proof (ss_blk _ S) as F. pose proof (ss_order _ S) as O. unfold order_ok in O.
  pose proof (pow2_pos (s_order f) ltac:(lia)) as P.
  split; [|split].
  - apply Nat.eq_le_incl. symmetry. exact (payload_length _ _ F).
  - cbn. rewrite cells_per_block_eq by lia. apply Z.mul_pos_pos; [|lia].
    apply Z.mul_pos_pos; [apply Z.mul_pos_pos|]; lia.
  - cbn. rewrite cells_per_block_eq by lia. apply Forall_forall. intros d H. apply in_flat_map in H.
    destruct H as (b & Hb & Hd). rewrite Forall_forall in F. specialize (F b Hb).
    unfold block_payload, block_shape in *. destruct (b_alloc b); [|destruct Hd].
    destruct F as (d' & E' & L). rewrite E' in Hd. destruct Hd as [<-|[]]. auto.
Qed.

Lemma lazy_value_ok a (s : cache V) t fid (f : sparse V) elem p : cinv a s -> sshape f ->
  is_open a t fid (stored f elem) -> in_box p (s_dw f) ->
  forall fuel r, lazy_value fuel s t fid (hollow f) p = Some r ->
  exists s' v, r = Ok (s', v) /\ sparse_value f p = Ok v /\
    (s' = s \/ exists e, names_block a e /\ cstep fuel s (CTouch e) = Some (Ok s')).
Proof.
  intros I S O B fuel r. unfold lazy_value.
  change (window_offset (hollow f) p) with (window_offset f p).
  change (s_order (hollow f)) with (s_order f).
  destruct (sparse_value_ok f p S B) as (v & Ev). assert (Ev' := Ev). unfold sparse_value in Ev.
  apply bind_ok in Ev. destruct Ev as (q & -> & Ev). apply bind_ok in Ev. destruct Ev as (id & Eid & Ev).
  change (block_id (hollow f) (block_coord (s_order f) q)) with (block_id f (block_coord (s_order f) q)).
  rewrite Eid. apply bind_ok in Ev. destruct Ev as (b & Eb & Ev).
  change (s_blocks (hollow f)) with (map (fun b => Block (b_alloc b) (b_empty b) None) (s_blocks f)).
  rewrite (arr_get_map _ _ _ _ Eb). cbn [b_alloc b_empty].
  destruct (b_alloc b) eqn:A.
  2:{ intros [= <-]. exists s, (b_empty b). split; [auto|]. split; [|auto]. congruence. }
  apply arr_get_inv in Eb. destruct Eb as [Hid Eb].
  set (e := (t, fid, Z.to_nat id)).
  assert (N : names_block a e).
  { exists (stored f elem). split; [auto|]. cbn. rewrite map_length. apply nth_error_Some. congruence. }
  destruct (ref_count_ok a s e 1 I N) as (s1 & E1 & I1 & _). rewrite E1. cbn [obind].
  destruct (activate fuel s1 e) as [r1|] eqn:AC; [|discriminate].
  destruct (activate_ok a fuel s1 e r1 I1 N AC) as (s2 & -> & I2 & _ & H & _). cbn [obind].
  destruct (H _ _ _ _ eq_refl O) as (k & dd & Bk & _ & Dk & Hd).
  { cbn. rewrite nth_error_map, Eb. cbn. rewrite A. reflexivity. }
  cbn [stored fd_disk fd_alloc] in Hd.
  rewrite (payload_nth (s_order f) _ _ _ (ss_blk _ S) Eb A) in Hd.
  rewrite Bk, Dk. unfold block_cell in Ev. rewrite Hd in Ev. rewrite Ev. cbn [obind].
  destruct (ref_count_ok a s2 e (-1) I2 N) as (s3 & E3 & I3 & _). rewrite E3. cbn [obind].
  intros [= <-]. exists s3, v. split; [auto|]. split; [auto|]. right. exists e. split; [auto|].
  unfold cstep. rewrite E1. cbn [obind]. rewrite AC. cbn [obind]. rewrite E3. reflexivity.
Qed.

Lemma activate_diverges a (s : cache V) t f i d : cinv a s -> is_open a t f d ->
  nth_error (fd_alloc d) i = Some true -> c_limit s = true -> ~ loaded s (t, f, i) ->
  ~ room s (entry_size s (t, f, i)) -> forall fuel, activate fuel s (t, f, i) = None.
Proof.
  intros I O A L NL NR fuel.
  assert (N : names_block a (t, f, i)).
  { exists d. split; auto. apply nth_error_Some. congruence. }
  destruct (named_block a s t f i I N) as (d1 & b & k & r0 & O1 & Nb & K & R & D & Dn & De & Dd & S & G & CT).
  unfold is_open in *. assert (d1 = d) by congruence. subst d1. assert (b = true) by congruence. subst b.
  unfold activate. rewrite R, G, K. destruct (0 <=? _) eqn:Z0; [|lia].
  destruct (cb_loaded k) eqn:Lk; [destruct NL; exists k; auto|]. rewrite L.
  assert (Q : entry_size s (t, f, i) = ref_block_size r0) by (unfold entry_size; rewrite R; auto).
  rewrite <- Q, (dealloc_blocks_diverges a _ fuel s I NR). reflexivity.
Qed.

(** More fuel does not change a result. *)
Lemma dealloc_mono need : forall n m (s : cache V) r, dealloc_blocks n s need = Some r -> (n <= m)%nat ->
  dealloc_blocks m s need = Some r.
Proof.
  induction n as [|n IH]; intros m s r H L; [discriminate|]. destruct m as [|m]; [lia|].
  cbn [dealloc_blocks] in *. destruct (must_evict s need); auto. destruct (evict_step s); auto.
  apply IH; auto. lia.
Qed.
Lemma activate_mono n m (s : cache V) e r : activate n s e = Some r -> (n <= m)%nat -> activate m s e = Some r.
Proof.
  intros H L. destruct e as [[t f] i]. unfold activate in *. destruct (ref_at s t f); auto.
  destruct (arr_get (r_file c) (Z.of_nat i)); auto. destruct (0 <=? a); auto.
  destruct (blk_at s (t, f, i)); auto. destruct (cb_loaded c0); auto. destruct (c_limit s); auto.
  destruct (dealloc_blocks n s (ref_block_size c)) as [r1|] eqn:E; [|discriminate].
  rewrite (dealloc_mono _ _ _ _ _ E L). auto.
Qed.
Lemma cstep_mono n m (s : cache V) o r : cstep n s o = Some r -> (n <= m)%nat -> cstep m s o = Some r.
Proof.
  intros H L. destruct o; cbn [cstep] in *; auto.
  - destruct (ref_count s e 1); auto. cbn [obind] in *.
    destruct (activate n a e) as [r1|] eqn:E; [|discriminate]. rewrite (activate_mono _ _ _ _ _ E L). auto.
  - eapply activate_mono; eauto.
Qed.
Lemma crun_mono : forall l n m (s : cache V) r, crun n s l = Some r -> (n <= m)%nat -> crun m s l = Some r.
Proof.
  induction l as [|o l IH]; intros n m s r H L; cbn [crun] in *; auto.
  destruct (cstep n s o) as [r1|] eqn:E; [|discriminate]. rewrite (cstep_mono _ _ _ _ _ E L).
  destruct r1; cbn [obind] in *; eauto.
Qed.
Lemma crun_app : forall l1 l2 n (s : cache V), crun n s (l1 ++ l2) = obind (crun n s l1) (fun s' => crun n s' l2).
Proof.
  induction l1 as [|o l1 IH]; intros l2 n s; cbn [crun app obind]; auto.
  destruct (cstep n s o) as [[s'| |]|]; cbn [obind]; auto.
Qed.
Lemma clegal_app : forall l1 l2 (a : fields V), clegal a l1 -> clegal (fields_run a l1) l2 -> clegal a (l1 ++ l2).
Proof. induction l1 as [|o l1 IH]; intros l2 a; cbn; auto. intros [H1 H2] H3. split; auto. Qed.
Lemma reached_step a (s : cache V) o fuel s' : cache_reached a s -> op_ok a o -> cstep fuel s o = Some (Ok s') ->
  cache_reached (fields_step a o) s'.
Proof.
  intros (h & n & L & R & ->) O E. exists (h ++ [o]), (n + fuel)%nat. split; [|split].
  - apply clegal_app; auto. cbn. auto.
  - rewrite crun_app, (crun_mono _ _ _ _ _ R (Nat.le_add_r _ _)). cbn [obind crun].
    rewrite (cstep_mono _ (n + fuel) _ _ _ E) by lia. reflexivity.
  - unfold fields_run. rewrite fold_left_app. reflexivity.
Qed.

Lemma lazy_value_terminates a (s : cache V) t fid (f : sparse V) elem p : cinv a s -> sshape f ->
  is_open a t fid (stored f elem) -> in_box p (s_dw f) ->
  (c_limit s = true -> forall e, In e (cached s) -> pinnedb s e = false) ->
  exists fuel r, lazy_value fuel s t fid (hollow f) p = Some r.
Proof.
  intros I S O B NP. unfold lazy_value.
  change (window_offset (hollow f) p) with (window_offset f p).
  change (s_order (hollow f)) with (s_order f).
  destruct (sparse_value_ok f p S B) as (v & Ev). unfold sparse_value in Ev.
  apply bind_ok in Ev. destruct Ev as (q & -> & Ev). apply bind_ok in Ev. destruct Ev as (id & Eid & Ev).
  change (block_id (hollow f) (block_coord (s_order f) q)) with (block_id f (block_coord (s_order f) q)).
  rewrite Eid. apply bind_ok in Ev. destruct Ev as (b & Eb & Ev).
  change (s_blocks (hollow f)) with (map (fun b => Block (b_alloc b) (b_empty b) None) (s_blocks f)).
  rewrite (arr_get_map _ _ _ _ Eb). cbn [b_alloc b_empty].
  destruct (b_alloc b) eqn:A; [|exists 0%nat; eauto].
  apply arr_get_inv in Eb. destruct Eb as [Hid Eb].
  set (e := (t, fid, Z.to_nat id)).
  assert (N : names_block a e).
  { exists (stored f elem). split; [auto|]. cbn. rewrite map_length. apply nth_error_Some. congruence. }
  destruct (ref_count_ok a s e 1 I N) as (s1 & -> & I1 & K1 & C1 & M1 & O1 & P1). cbn [obind].
  destruct (activate_terminates a s1 e I1 N) as (fuel & r & E).
  - intros L NL. left. intros x Hx. rewrite C1 in Hx. rewrite (kp_limit _ _ K1) in L.
    assert (x <> e). { intros ->. apply NL. apply (ci_cached_loaded a s1 I1). rewrite C1. auto. }
    unfold pinnedb. rewrite (O1 x H). apply (NP L x Hx).
  - exists fuel. rewrite E. destruct r as [s2| |]; cbn [obind]; eauto.
    destruct (blk_at s2 e) as [k|]; eauto. destruct (cb_data k); eauto.
    destruct (arr_get l _); cbn [obind]; eauto. destruct (ref_count s2 e (-1)); cbn [obind]; eauto.
Qed.
End C.
