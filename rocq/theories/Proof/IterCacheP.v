(** What eviction and activation leave alone: reference counts, and everything about
    blocks that are pinned and loaded. *)
From Coq Require Import ZArith List Bool Lia Arith Permutation.
From Verif Require Import Model.Base Model.FieldM Model.SparseM Model.CacheM Spec.VoxelSpec Spec.SparseSpec Spec.CacheSpec
  Proof.BaseP Proof.SparseP Proof.CacheP Proof.CacheP2 Proof.CacheP3 Proof.CacheP4.
Import ListNotations.
Open Scope Z_scope.

Section C.
Context {V : Type}.
Implicit Types (s : cache V) (e : entry).

Definition holds s s' : Prop := forall e k, blk_at s e = Some k -> exists k', blk_at s' e = Some k' /\
  cb_refs k' = cb_refs k /\
  (0 < cb_refs k -> cb_loaded k = true -> cb_loaded k' = true /\ cb_loads k' = cb_loads k).

Lemma holds_refl s : holds s s.
Proof. intros e k K. exists k. auto. Qed.
Lemma holds_trans s1 s2 s3 : holds s1 s2 -> holds s2 s3 -> holds s1 s3.
Proof.
  intros A B e k K. destruct (A e k K) as (k1 & K1 & R1 & L1). destruct (B e k1 K1) as (k2 & K2 & R2 & L2).
  exists k2. split; auto. split; [congruence|]. intros P L. destruct (L1 P L) as (L1' & N1).
  destruct L2 as (L2' & N2); auto; [lia|]. split; congruence.
Qed.
Lemma holds_upd s e k k' s' : upd_to s e k' s' -> blk_at s e = Some k -> cb_refs k' = cb_refs k ->
  (0 < cb_refs k -> cb_loaded k = true -> cb_loaded k' = true /\ cb_loads k' = cb_loads k) -> holds s s'.
Proof.
  intros U K R L e0 k0 K0. rewrite (ut_blk _ _ _ _ U). destruct (entry_eqb e0 e) eqn:E.
  - apply entry_eqb_eq in E. subst e0. rewrite K in K0. injection K0 as <-. eauto.
  - eauto.
Qed.
Lemma upd_blk_inv s e g s' : upd_blk s e g = Ok s' -> exists k, blk_at s e = Some k /\ upd_to s e (g k) s'.
Proof.
  intros H. destruct (blk_at s e) as [k|] eqn:K.
  - exists k. split; auto. destruct (upd_blk_ok s e g k K) as (s1 & E & U). congruence.
  - exfalso. destruct e as [[t f] i]. unfold blk_at, upd_blk in *. destruct (ref_at s t f); [|discriminate].
    rewrite K in H. discriminate.
Qed.

Lemma evict_at_holds s e rest s' : evict_at s e rest = Ok s' -> holds s s'.
Proof.
  unfold evict_at. destruct (blk_at s e) as [k|] eqn:K; [|discriminate].
  destruct (cb_refs k >? 0) eqn:P; [intros [= <-]; exact (holds_refl s)|].
  destruct (cb_used k).
  - intros H. apply bind_ok in H. destruct H as (s1 & E & [= <-]).
    apply upd_blk_inv in E. destruct E as (k0 & K0 & U). rewrite K in K0. injection K0 as <-.
    intros e0 k0 K0. change (blk_at (with_list s1 _ _ _) e0) with (blk_at s1 e0). revert e0 k0 K0.
    apply (holds_upd s e k _ s1 U K); auto.
  - intros H. apply bind_ok in H. destruct H as (s1 & E & H).
    apply upd_blk_inv in E. destruct E as (k0 & K0 & U). rewrite K in K0. injection K0 as <-.
    assert (Hs : holds s s1) by (apply (holds_upd s e k _ s1 U K); [auto|lia]).
    assert (B : forall e0, blk_at s' e0 = blk_at s1 e0).
    { destruct (entry_size s e >? 0); [injection H as <-; auto|]. destruct rest; [discriminate|]. injection H as <-. auto. }
    intros e0 k0 K0. rewrite B. auto.
Qed.
Lemma evict_step_holds s s' : evict_step s = Ok s' -> holds s s'.
Proof.
  unfold evict_step. destruct (c_after s).
  - destruct (c_before s); [intros [= <-]; apply holds_refl|]. intros H. apply evict_at_holds in H. exact H.
  - apply evict_at_holds.
Qed.
Lemma dealloc_holds need : forall fuel s s', dealloc_blocks fuel s need = Some (Ok s') -> holds s s'.
Proof.
  induction fuel as [|n IH]; intros s s'; cbn [dealloc_blocks]; [discriminate|].
  destruct (must_evict s need); [|intros [= <-]; apply holds_refl].
  destruct (evict_step s) as [s1| |] eqn:E; try discriminate. intros H.
  eapply holds_trans; [apply (evict_step_holds _ _ E)|eauto].
Qed.

Lemma obind_ok {A B} (r : option (res A)) (f : A -> option (res B)) b :
  obind r f = Some (Ok b) -> exists a, r = Some (Ok a) /\ f a = Some (Ok b).
Proof. destruct r as [[a| |]|]; cbn; try discriminate. eauto. Qed.

Lemma activate_holds fuel s e s' : activate fuel s e = Some (Ok s') -> holds s s'.
Proof.
  destruct e as [[t f] i]. unfold activate. destruct (ref_at s t f) as [r|] eqn:R; [|discriminate].
  destruct (arr_get (r_file r) (Z.of_nat i)) as [ix| |]; try discriminate.
  intros H. apply obind_ok in H. destruct H as (s1 & H1 & H2'). assert (H2 : mark_used s1 (t, f, i) = Ok s') by congruence. clear H2'.
  assert (Hm : holds s1 s').
  { unfold mark_used in H2. apply upd_blk_inv in H2. destruct H2 as (k & K & U).
    apply (holds_upd _ _ k _ _ U K); auto. }
  eapply holds_trans; [|exact Hm]. clear Hm H2 s'.
  destruct (0 <=? ix); [|injection H1 as <-; apply holds_refl].
  destruct (blk_at s (t, f, i)) as [k|] eqn:K; [|discriminate].
  destruct (cb_loaded k) eqn:L; [injection H1 as <-; apply holds_refl|].
  apply obind_ok in H1. destruct H1 as (s2 & D & H1). apply obind_ok in H1. destruct H1 as (s3 & LB & H1).
  apply obind_ok in H1. destruct H1 as (s4 & UB4 & H1). injection H1 as H1. apply (f_equal (fun o => match o with Some x => x | None => UB end)) in UB4, LB. cbv beta iota in UB4, LB.
  assert (H2 : holds s s2).
  { destruct (c_limit s); [apply (dealloc_holds _ _ _ _ D)|injection D as <-; apply holds_refl]. }
  unfold load_block in LB. destruct (ref_at s2 t f) as [r2|]; [|discriminate].
  apply bind_ok in LB. destruct LB as (ix2 & _ & LB). destruct (nth_error (r_disk r2) (Z.to_nat ix2)) as [d|]; [|discriminate].
  apply upd_blk_inv in LB. destruct LB as (k2 & K2 & U2). apply upd_blk_inv in UB4. destruct UB4 as (k3 & K3 & U3).
  rewrite (ut_blk _ _ _ _ U2), entry_eqb_refl in K3. injection K3 as <-.
  pose proof (upd_to_trans _ _ _ _ _ _ U2 U3) as U.
  intros e0 k0 K0. subst s1. change (blk_at (with_list _ _ _ _) e0) with (blk_at s4 e0).
  rewrite (ut_blk _ _ _ _ U). destruct (H2 e0 k0 K0) as (k1 & K1 & R1 & L1). destruct (entry_eqb e0 (t, f, i)) eqn:E.
  - apply entry_eqb_eq in E. subst e0. eexists. split; [reflexivity|]. rewrite K in K0. injection K0 as <-.
    rewrite K2 in K1. injection K1 as <-. cbn. split; auto. congruence.
  - eauto.
Qed.

(** A block that is in the file. *)
Definition in_file (a : fields V) e : Prop :=
  let '(t, f, i) := e in exists d, is_open a t f d /\ nth_error (fd_alloc d) i = Some true.

(** Counting references changes one count and nothing else. *)
Lemma ref_count_eff a s e d : cinv a s -> names_block a e ->
  exists s', ref_count s e d = Ok s' /\ cinv a s' /\
    forall e0 k0, blk_at s e0 = Some k0 -> exists k1, blk_at s' e0 = Some k1 /\
      cb_loaded k1 = cb_loaded k0 /\ cb_loads k1 = cb_loads k0 /\
      (in_file a e0 -> cb_refs k1 = cb_refs k0 + if entry_eqb e0 e then d else 0).
Proof.
  intros I N. destruct (ref_count_ok a s e d I N) as (s' & E & I' & _). exists s'. split; auto. split; auto.
  destruct e as [[t f] i].
  destruct (named_block a s t f i I N) as (de & b & k & r & O & Nb & K & R & D & _ & _ & _ & S & G & _).
  unfold ref_count in E. rewrite R, G in E. cbn [bind] in E. intros e0 k0 K0. destruct b.
  - destruct (0 <=? Z.of_nat (count_true (firstn i (fd_alloc de)))) eqn:Z0; [|lia].
    apply upd_blk_inv in E. destruct E as (k2 & K2 & U). rewrite (ut_blk _ _ _ _ U).
    destruct (entry_eqb e0 (t, f, i)) eqn:Q.
    + apply entry_eqb_eq in Q. subst e0. eexists. split; [reflexivity|]. rewrite K2 in K0. injection K0 as <-. cbn. auto.
    + exists k0. repeat split; auto. intros. lia.
  - cbn in E. injection E as <-. exists k0. repeat split; auto. intros F.
    destruct (entry_eqb e0 (t, f, i)) eqn:Q; [|lia]. apply entry_eqb_eq in Q. subst e0.
    destruct F as (d' & O' & T). unfold is_open in *. congruence.
Qed.

(** A loaded block holds the data of the stored field. *)
Lemma loaded_data a s t fid (f : sparse V) elem i b k : cinv a s -> sshape f -> is_open a t fid (stored f elem) ->
  nth_error (s_blocks f) i = Some b -> b_alloc b = true -> blk_at s (t, fid, i) = Some k -> cb_loaded k = true ->
  cb_data k = b_data b.
Proof.
  intros I S O Eb A K L. pose proof (ci_blk _ _ I _ _ K) as H. rewrite L in H. destruct H as (_ & d & D & HC).
  rewrite D. destruct HC as (fi & n & m & dk & ix & Hs & Hi & Hp & Hx).
  destruct (ci_live _ _ I _ _ _ O) as (_ & St & _). rewrite St in Hs. injection Hs as <- <- <- <-.
  cbn [stored fd_alloc fd_disk] in *.
  rewrite (file_indices_nth _ _ i true) in Hi by (rewrite nth_error_map, Eb; cbn; congruence).
  injection Hi as <-. rewrite ?Z.add_0_l, Nat2Z.id, (payload_nth (s_order f) _ _ _ (ss_blk _ S) Eb A) in Hx. congruence.
Qed.
End C.
