(** C61: sparse fields whose blocks are loaded on demand are values: copies, assignments and
    destructions of fields never change what another field reads.  The exceptions are stated
    too. *)
From Coq Require Import ZArith List Bool Lia Arith.
From Verif Require Import Model.Base Model.SparseM Model.CacheM Model.FieldCacheM
  Spec.VoxelSpec Spec.SparseSpec Spec.CacheSpec Spec.FieldCacheSpec
  Proof.BaseP Proof.SparseP4 Proof.CacheP Proof.FieldCacheP2 Proof.FieldCacheP3 Props.SparseProps Props.CacheProps.
Import ListNotations.
Open Scope Z_scope.

(** Whatever fields of whatever types are opened, copied, assigned, cleared, resized, read
    and destroyed, under whatever cache limits: every read gives the value of the field's
    map, and nothing is undefined. *)
Theorem C61_same_values {V} (zero : V) eqb fuel h a outs r : decides_eq eqb ->
  means_all zero eqb [] h a outs -> careful zero eqb fuel l_init h ->
  lrun zero eqb fuel l_init h = Some r -> exists w, r = Ok (w, outs).
Proof.
  intros D M C R. destruct (lrun_ok zero eqb D _ _ _ _ _ _ _ _ (linv_init (V:=V)) M C R) as (w & F & -> & _). eauto.
Qed.

(** Reads come to an end. *)
Theorem C61_read_terminates {V} (zero : V) eqb a w i x p : decides_eq eqb ->
  lreached zero eqb a w -> nth_error a i = Some (Some x) -> in_box p (sm_dw (af_map x)) ->
  exists fuel w', l_read fuel w i p = Some (Ok (w', sm_val (af_map x) p)).
Proof.
  intros D L X B. destruct (lreached_inv zero eqb D a w L) as (F & I).
  destruct (read_terminates a w F i x p I X B) as (fuel & r & E).
  destruct (read_ok a w F i x p fuel r I X B E) as (w' & -> & _). eauto.
Qed.

(** After an operation that throws away the block array of field [i], emptying the cache is
    undefined exactly when a block of the field was in it. *)
Theorem C61_flush_after_overwrite {V} (zero : V) eqb a w o a' v i fuel w' : decides_eq eqb ->
  lreached zero eqb a w -> means zero eqb a o a' v -> overwritten o = Some i ->
  lstep zero eqb fuel w o = Some (Ok (w', v)) ->
  (in_memory w i -> lstep zero eqb fuel w' LFlush = Some UB) /\
  (~ in_memory w i -> exists w2, lstep zero eqb fuel w' LFlush = Some (Ok (w2, []))).
Proof.
  intros D L. destruct (lreached_inv zero eqb D a w L) as (F & I). apply (flush_iff zero eqb D a w F); auto.
Qed.

(** Writing a voxel of a dynamically loaded field has no effect, whatever is written. *)
Theorem C61_write_is_lost {V} (zero : V) eqb a w i x p v : decides_eq eqb ->
  lreached zero eqb a w -> nth_error a i = Some (Some x) -> af_lazy x = true -> in_box p (sm_dw (af_map x)) ->
  exists fuel w', lrun zero eqb fuel w [LEdit i (SWrite p v); LRead i p] = Some (Ok (w', [sm_val (af_map x) p])).
Proof.
  intros D L X Lz B. destruct (C61_read_terminates zero eqb a w i x p D L X B) as (fuel & w' & E).
  destruct (lreached_inv zero eqb D a w L) as (F & I).
  destruct (linv_at a w F i x I X) as (o & O & Ob & T & Lo & _). exists fuel, w'. cbn [lrun lstep]. unfold l_edit.
  rewrite Ob. cbn [bind]. rewrite Lo, Lz. cbn [quietly bind obind]. rewrite E. reflexivity.
Qed.

(** * Concrete histories *)
Definition ex_f : sparse Z := match ex_field with Ok f => f | _ => Sparse (Box (V3 0 0 0) (V3 0 0 0)) (Box (V3 0 0 0) (V3 0 0 0)) 0 (V3 0 0 0) 0 [] end.
Definition ex_open : lop Z := LOpen 1 (hollow ex_f) (stored ex_f 4).
Definition ex_map : smap Z := sspec_run 0 (sspec_init 0) ex_field_ops.
Lemma ex_field_map : field_map 0 Z.eqb ex_f ex_map.
Proof.
  assert (E : exists f0, sparse_init 0 = Ok f0) by (eexists; vm_compute; reflexivity). destruct E as (f0 & E0).
  exists ex_field_ops, f0. split; [apply slegalb_ok; vm_compute; reflexivity|]. split; [exact E0|]. split; [|reflexivity].
  assert (E : ex_field = Ok ex_f) by (vm_compute; reflexivity). unfold ex_field in E. rewrite E0 in E. exact E.
Qed.

Definition in_memoryb (w : lworld Z) (i : nat) : bool :=
  match nth_error (l_objs w) i with
  | Some (Some o) => o_lazy o && existsb (fun e => Nat.eqb (fst (fst e)) (o_type o) && Nat.eqb (snd (fst e)) (o_id o)) (cached (l_cache w))
  | _ => false
  end.
Lemma in_memoryb_ok w i : in_memoryb w i = true <-> in_memory w i.
Proof.
  unfold in_memoryb, in_memory. destruct (nth_error (l_objs w) i) as [[o|]|]; cycle 1.
  - split; [discriminate|]. intros (o & k & [=] & _).
  - split; [discriminate|]. intros (o & k & [=] & _).
  - rewrite andb_true_iff, existsb_exists. split.
    + intros (L & [[t f] k] & I & E). apply andb_true_iff in E. cbn in E. destruct E as [E1 E2].
      apply Nat.eqb_eq in E1, E2. subst. exists o, k. auto.
    + intros (o1 & k & [= <-] & L & I). split; [exact L|]. exists (o_type o, o_id o, k). split; [exact I|].
      cbn. rewrite !Nat.eqb_refl. reflexivity.
Qed.
Fixpoint carefulb (fuel : nat) (w : lworld Z) (h : list (lop Z)) : bool :=
  match h with
  | [] => true
  | o :: r =>
      (match overwritten o with Some i => negb (in_memoryb w i) | None => true end) &&
      match lstep 0 Z.eqb fuel w o with Some (Ok (w', _)) => carefulb fuel w' r | _ => true end
  end.
Lemma carefulb_ok fuel : forall h w, carefulb fuel w h = true -> careful 0 Z.eqb fuel w h.
Proof.
  induction h as [|o h IH]; intros w; cbn [carefulb careful]; auto. rewrite andb_true_iff. intros [A B]. split.
  - intros i E M. rewrite E in A. apply in_memoryb_ok in M. rewrite M in A. discriminate.
  - intros w' v E. rewrite E in B. apply IH, B.
Qed.
Lemma zeqb_ok : decides_eq Z.eqb.
Proof. intros x y. apply Z.eqb_eq. Qed.

(** Open, read, copy; clear the copy before it is read; a second copy; destroy the original;
    evict; assign an in-memory field to the first copy.  One block fits in the cache. *)
Definition ex_h : list (lop Z) :=
  [ex_open; LSetMax 32; LSetLimit true; LRead 0 (V3 0 0 0); LCopy 0; LCopy 0; LEdit 1 (SClear 7);
   LRead 1 (V3 0 0 0); LRead 2 (V3 5 1 1); LDestroy 0; LRead 2 (V3 0 0 0); LNew 1; LFlush; LAssign 1 3; LAssign 3 2;
   LRead 3 (V3 5 1 1); LRead 2 (V3 2 0 0)].
Lemma ex_rd a i x p v : nth_error a i = Some (Some x) -> box_has (sm_dw (af_map x)) p = true -> sm_val (af_map x) p = v ->
  means 0 Z.eqb a (LRead i p) a [v].
Proof. intros X B <-. apply m_read; auto. apply box_has_iff, B. Qed.
Lemma ex_means : exists a, means_all 0 Z.eqb [] ex_h a [10; 7; 11; 10; 11; 3].
Proof.
  change ([10; 7; 11; 10; 11; 3]) with
    ([] ++ [] ++ [] ++ [10] ++ [] ++ [] ++ [] ++ [7] ++ [11] ++ [] ++ [10] ++ [] ++ [] ++ [] ++ [] ++ [11] ++ [3] ++ (@nil Z)).
  eexists. unfold ex_h.
  eapply ma_cons; [apply (m_open 0 Z.eqb [] 1 ex_f ex_map 4 ex_field_map); lia|].
  eapply ma_cons; [apply m_max|]. eapply ma_cons; [apply m_limit|].
  eapply ma_cons. { eapply ex_rd; vm_compute; reflexivity. }
  eapply ma_cons; [eapply m_copy; reflexivity|]. eapply ma_cons; [eapply m_copy; reflexivity|].
  eapply ma_cons; [eapply m_edit; [reflexivity|apply slegalb_ok; vm_compute; reflexivity|reflexivity]|].
  eapply ma_cons. { eapply ex_rd; vm_compute; reflexivity. }
  eapply ma_cons. { eapply ex_rd; vm_compute; reflexivity. }
  eapply ma_cons; [eapply m_destroy; reflexivity|].
  eapply ma_cons. { eapply ex_rd; vm_compute; reflexivity. }
  eapply ma_cons; [apply m_new|]. eapply ma_cons; [apply m_flush|].
  eapply ma_cons; [eapply m_assign; reflexivity|]. eapply ma_cons; [eapply m_assign; reflexivity|].
  eapply ma_cons. { eapply ex_rd; vm_compute; reflexivity. }
  eapply ma_cons. { eapply ex_rd; vm_compute; reflexivity. }
  apply ma_nil.
Qed.
Definition out_of {V} (r : option (res (lworld V * list V))) : option (res (list V)) :=
  match r with Some (Ok (_, v)) => Some (Ok v) | Some Exn => Some Exn | Some UB => Some UB | None => None end.
Example C61_example :
  (exists a, means_all 0 Z.eqb [] ex_h a [10; 7; 11; 10; 11; 3]) /\ careful 0 Z.eqb 20 l_init ex_h /\
  out_of (lrun 0 Z.eqb 20 l_init ex_h) = Some (Ok [10; 7; 11; 10; 11; 3]).
Proof.
  split; [exact ex_means|]. split; [apply carefulb_ok; vm_compute; reflexivity|]. vm_compute. reflexivity.
Qed.
Example C61_reached_example : exists a w, lreached 0 Z.eqb a w /\ length a = 4%nat /\ in_memory w 3.
Proof.
  destruct ex_means as (a & M). pose proof (carefulb_ok 20 ex_h l_init) as C. specialize (C ltac:(vm_compute; reflexivity)).
  assert (E : match lrun 0 Z.eqb 20 l_init ex_h with
              | Some (Ok (w, v)) => in_memoryb w 3 = true /\ v = [10; 7; 11; 10; 11; 3] /\ length (l_objs w) = 4%nat
              | _ => False end) by (vm_compute; repeat split).
  destruct (lrun 0 Z.eqb 20 l_init ex_h) as [[[w v]| |]|] eqn:R; try contradiction. destruct E as (IM & -> & LN).
  assert (L : lreached 0 Z.eqb a w) by (exists 20%nat, ex_h, [10; 7; 11; 10; 11; 3]; auto).
  exists a, w. split; [exact L|]. split; [|apply in_memoryb_ok, IM].
  destruct (lreached_inv 0 Z.eqb zeqb_ok a w L) as (F & I). rewrite <- (li_len _ _ _ I). exact LN.
Qed.

(** * What does not hold *)

(** Clearing a field, or assigning to it, while one of its blocks is in the cache: the next
    flush or eviction is undefined. *)
Theorem C61_overwrite_in_memory_refuted :
  exists h a outs, means_all 0 Z.eqb [] h a outs /\ ~ careful 0 Z.eqb 20 l_init h /\ lrun 0 Z.eqb 20 l_init h = Some UB.
Proof.
  exists [ex_open; LRead 0 (V3 0 0 0); LEdit 0 (SClear 7); LFlush]. eexists.
  exists ([] ++ [10] ++ [] ++ [] ++ []). split; [|split].
  - eapply ma_cons; [apply (m_open 0 Z.eqb [] 1 ex_f ex_map 4 ex_field_map); lia|].
    eapply ma_cons. { eapply ex_rd; vm_compute; reflexivity. }
    eapply ma_cons; [eapply m_edit; [reflexivity|apply slegalb_ok; vm_compute; reflexivity|reflexivity]|].
    eapply ma_cons; [apply m_flush|]. apply ma_nil.
  - intros C. cbn [careful] in C. destruct C as [_ C].
    destruct (lstep 0 Z.eqb 20 l_init ex_open) as [[[w1 v1]| |]|] eqn:E1; try (vm_compute in E1; discriminate E1).
    specialize (C _ _ eq_refl). destruct C as [_ C].
    assert (Q : match lstep 0 Z.eqb 20 w1 (LRead 0 (V3 0 0 0)) with Some (Ok (w2, _)) => in_memoryb w2 0 = true | _ => False end).
    { assert (Q : match lstep 0 Z.eqb 20 l_init ex_open with
                  | Some (Ok (w1, _)) => match lstep 0 Z.eqb 20 w1 (LRead 0 (V3 0 0 0)) with Some (Ok (w2, _)) => in_memoryb w2 0 = true | _ => False end
                  | _ => False end) by (vm_compute; reflexivity). rewrite E1 in Q. exact Q. }
    destruct (lstep 0 Z.eqb 20 w1 (LRead 0 (V3 0 0 0))) as [[[w2 v2]| |]|] eqn:E2; try contradiction.
    specialize (C _ _ eq_refl). destruct C as [C _]. apply (C 0%nat eq_refl). apply in_memoryb_ok, Q.
  - vm_compute. reflexivity.
Qed.

(** Making a block of a dynamically loaded field empty and copying the field: the copy reads
    the voxels of other blocks, although the field itself still reads its own. *)
Theorem C61_copy_after_block_empty_refuted :
  out_of (lrun 0 Z.eqb 20 l_init
            [ex_open; LEdit 0 (SBlockEmpty (V3 0 0 0) 9); LCopy 0; LRead 0 (V3 5 1 1); LRead 1 (V3 5 1 1)])
  = Some (Ok [11; 3]).
Proof. vm_compute. reflexivity. Qed.

(** [releaseBlocks] on a dynamically loaded field reads blocks that are not in memory. *)
Theorem C61_release_refuted :
  lrun 0 Z.eqb 20 l_init [ex_open; LEdit 0 SRelease] = Some UB.
Proof. vm_compute. reflexivity. Qed.

Print Assumptions C61_same_values.
Print Assumptions C61_read_terminates.
Print Assumptions C61_flush_after_overwrite.
Print Assumptions C61_write_is_lost.
Print Assumptions C61_overwrite_in_memory_refuted.
Print Assumptions C61_copy_after_block_empty_refuted.
Print Assumptions C61_release_refuted.
