(** Properties C12 - C14: the block cache of dynamically loaded sparse fields,
    sequential histories. *)
From Coq Require Import ZArith List Bool Lia Permutation.
From Verif Require Import Model.Base Model.FieldM Model.SparseM Model.CacheM
  Spec.VoxelSpec Spec.SparseSpec Spec.CacheSpec
  Proof.BaseP Proof.SparseP Proof.SparseP4 Proof.CacheP Proof.CacheP2 Proof.CacheP3 Proof.CacheP4.
Import ListNotations.
Open Scope Z_scope.

(** ** C12 *)

(** No allowed history is undefined behaviour or throws: it either completes or is
    still inside an eviction loop. *)
Theorem C12_histories_never_fail :
  forall (V : Type) fuel (h : list (cop V)) r, clegal no_fields h ->
  crun fuel cache_init h = Some r -> exists s, r = Ok s.
Proof.
  intros V fuel h r L R. destruct (crun_ok h no_fields fuel _ _ cinv_init L R) as (s & -> & _). eauto.
Qed.

(** After any allowed history, reading a voxel of a dynamically loaded field gives
    the value the field had when it was stored; the manager is again in a state some
    allowed history reaches. *)
Theorem C12_lazy_read_returns_file_value :
  forall (V : Type) (zero : V) eqb (f : sparse V) a s t id elem p fuel r,
  decides_eq eqb -> sparse_reached zero eqb f ->
  cache_reached a s -> is_open a t id (stored f elem) -> in_box p (s_dw f) ->
  lazy_value fuel s t id (hollow f) p = Some r ->
  exists s' v, r = Ok (s', v) /\ sparse_value f p = Ok v /\ cache_reached a s'.
Proof.
  intros V zero eqb f a s t id elem p fuel r De Rf Rc O B H.
  pose proof (reached_shape zero eqb f De Rf) as S.
  destruct (lazy_value_ok a s t id f elem p (reached_cinv a s Rc) S O B fuel r H) as (s' & v & -> & Ev & Hs).
  exists s', v. split; [auto|]. split; [auto|]. destruct Hs as [->|(e & N & E)]; auto.
  apply (reached_step a s (CTouch e) fuel s' Rc N E).
Qed.

(** The read returns whenever limiting is off or no cached block is pinned. *)
Theorem C12_lazy_read_terminates :
  forall (V : Type) (zero : V) eqb (f : sparse V) a s t id elem p,
  decides_eq eqb -> sparse_reached zero eqb f ->
  cache_reached a s -> is_open a t id (stored f elem) -> in_box p (s_dw f) ->
  (c_limit s = true -> forall e, In e (cached s) -> pinnedb s e = false) ->
  exists fuel s' v, lazy_value fuel s t id (hollow f) p = Some (Ok (s', v)) /\ sparse_value f p = Ok v.
Proof.
  intros V zero eqb f a s t id elem p De Rf Rc O B NP.
  pose proof (reached_shape zero eqb f De Rf) as S. pose proof (reached_cinv a s Rc) as I.
  destruct (lazy_value_terminates a s t id f elem p I S O B NP) as (fuel & r & E).
  destruct (lazy_value_ok a s t id f elem p I S O B fuel r E) as (s' & v & -> & Ev & _).
  exists fuel, s', v. auto.
Qed.

(** ** C13 *)

(** In every reached state the cache list holds exactly the loaded blocks, each once,
    and the reported memory use is the sum of their sizes. *)
Theorem C13_accounting_exact :
  forall (V : Type) a (s : cache V), cache_reached a s ->
  NoDup (cached s) /\ (forall e, In e (cached s) <-> loaded s e) /\ c_mem s = bytes s (cached s).
Proof.
  intros V a s R. pose proof (reached_cinv a s R) as I.
  split; [apply (ci_nodup _ _ I)|]. split; [apply (ci_cached_loaded a s I)|apply (ci_mem _ _ I)].
Qed.

(** With limiting on, an activation that loads a block leaves the memory use within
    the limit, unless that block is the only one in memory. *)
Theorem C13_limit_respected :
  forall (V : Type) a (s : cache V) e fuel s', cache_reached a s -> names_block a e ->
  c_limit s = true -> activate fuel s e = Some (Ok s') -> ~ loaded s e -> loaded s' e ->
  c_mem s' <= c_max s \/ cached s' = [e].
Proof.
  intros V a s e fuel s' R N L A NL Ls'.
  destruct (activate_ok a fuel s e _ (reached_cinv a s R) N A) as (s1 & [= <-] & _ & _ & _ & H & _). auto.
Qed.

(** Activating a block that is already loaded changes neither the list nor the memory
    use. *)
Theorem C13_activate_loaded :
  forall (V : Type) a (s : cache V) e fuel s', cache_reached a s -> names_block a e ->
  activate fuel s e = Some (Ok s') -> loaded s e -> cached s' = cached s /\ c_mem s' = c_mem s.
Proof.
  intros V a s e fuel s' R N A L.
  destruct (activate_ok a fuel s e _ (reached_cinv a s R) N A) as (s1 & [= <-] & _ & _ & _ & _ & H). auto.
Qed.

(** A flush unloads everything. *)
Theorem C13_flush_empties :
  forall (V : Type) a (s : cache V), cache_reached a s ->
  exists s', flush s = Ok s' /\ c_mem s' = 0 /\ forall e, ~ loaded s' e.
Proof.
  intros V a s R. destruct (flush_ok a s (reached_cinv a s R)) as (s' & E & I & C & M).
  exists s'. split; [auto|]. split; [auto|]. intros e H. apply (ci_cached_loaded a s' I) in H. rewrite C in H. destruct H.
Qed.

(** After a field is destroyed none of its blocks is in the cache and nothing else is
    lost. *)
Theorem C13_destroy_forgets :
  forall (V : Type) a (s : cache V) t f d, cache_reached a s -> is_open a t f d ->
  exists s', remove_field s t f = Ok s' /\
    forall t' f' i, In (t', f', i) (cached s') <-> In (t', f', i) (cached s) /\ (t', f') <> (t, f).
Proof.
  intros V a s t f d R O. destruct (remove_ok a s t f d (reached_cinv a s R) O) as (s' & E & I).
  exists s'. split; [auto|]. unfold remove_field in E. destruct (ref_at s t f); [|discriminate].
  injection E as <-. intros t' f' i. unfold cached at 1; cbn [c_before c_after with_list].
  rewrite <- filter_app, filter_In. fold (cached s). cbn [same_field].
  rewrite negb_true_iff, andb_false_iff, !Nat.eqb_neq. split; intros [H1 H2]; split; auto.
  - intros [= -> ->]. tauto.
  - destruct (PeanoNat.Nat.eq_dec t' t); [|auto]. destruct (PeanoNat.Nat.eq_dec f' f); [|auto]. subst. tauto.
Qed.

(** ** C14 *)

(** The eviction loop ends exactly when no cached block is pinned, or the pinned ones
    leave room for the bytes wanted. *)
Theorem C14_terminates_iff :
  forall (V : Type) a (s : cache V) need, cache_reached a s ->
  (exists fuel s', dealloc_blocks fuel s need = Some (Ok s')) <->
  ((forall e, In e (cached s) -> pinnedb s e = false) \/ bytes s (pinned s) + need <= c_max s).
Proof.
  intros V a s need R. pose proof (reached_cinv a s R) as I. split.
  - intros (fuel & s' & E).
    destruct (forallb (fun e => negb (pinnedb s e)) (cached s)) eqn:F.
    + left. rewrite forallb_forall in F. intros e He. apply negb_true_iff. auto.
    + destruct (Z_le_gt_dec (bytes s (pinned s) + need) (c_max s)) as [L|G]; [auto|].
      exfalso. rewrite (dealloc_blocks_diverges a need fuel s I) in E; [discriminate|].
      intros [H|H]; [|lia].
      assert (forallb (fun e => negb (pinnedb s e)) (cached s) = true); [|congruence].
      apply forallb_forall. intros e He. rewrite (H e He). reflexivity.
  - intros RM. destruct (dealloc_blocks_bound a s need I RM) as (s' & E). eauto.
Qed.

(** When it ends, it does so within n(n+1) clock steps for n cached blocks. *)
Theorem C14_step_bound :
  forall (V : Type) a (s : cache V) need, cache_reached a s ->
  (exists fuel s', dealloc_blocks fuel s need = Some (Ok s')) ->
  exists s', dealloc_blocks (length (cached s) * (length (cached s) + 1) + 1) s need = Some (Ok s').
Proof.
  intros V a s need R H. apply (C14_terminates_iff V a s need R) in H.
  apply (dealloc_blocks_bound a s need (reached_cinv a s R) H).
Qed.

(** As long as some cached block is unpinned, fewer than two full passes of the hand
    free one, and only an unpinned one. *)
Theorem C14_two_passes :
  forall (V : Type) a (s : cache V), cache_reached a s ->
  (exists e, In e (cached s) /\ pinnedb s e = false) ->
  exists m s1 s2 e, (m < 2 * length (cached s))%nat /\
    evict_steps m s = Ok s1 /\ Permutation (cached s1) (cached s) /\
    evict_step s1 = Ok s2 /\ Permutation (cached s) (e :: cached s2) /\ pinnedb s e = false.
Proof.
  intros V a s R U. pose proof (reached_cinv a s R) as I.
  destruct (two_passes a (work (kinds s)) s I U (le_n _)) as (m & s1 & s2 & e & Hm & E1 & P1 & E2 & P2 & _ & Pn & _).
  pose proof (work_bound _ (kinds_unpinned s U)) as W. rewrite kinds_length in W.
  exists m, s1, s2, e. split; [lia|]. auto 10.
Qed.

(** If every cached block is pinned and the limit is exceeded, the loop never ends
    (the reading thread hangs): "eviction always terminates" is false. *)
Definition all_pinned_file : fdesc Z := FDesc [true; true] 1 4 [[10]; [11]].
Definition all_pinned_history : list (cop Z) :=
  [COpen 0 all_pinned_file; CSetMax 4; CSetLimit true; CPin (0, 0, 0)%nat; CActivate (0, 0, 0)%nat].
Theorem C14_all_pinned_livelock_refuted :
  exists s, cache_reached (fields_run no_fields all_pinned_history) s /\
    names_block (fields_run no_fields all_pinned_history) (0, 0, 1)%nat /\
    forall fuel, activate fuel s (0, 0, 1)%nat = None.
Proof.
  assert (OK : desc_ok all_pinned_file).
  { split; [reflexivity|]. split; [reflexivity|]. repeat constructor. }
  assert (NB : forall i, (i < 2)%nat -> names_block (fields_run no_fields all_pinned_history) (0, 0, i)%nat).
  { intros i Hi. exists all_pinned_file. split; [reflexivity|exact Hi]. }
  assert (RE : exists s, crun 1 cache_init all_pinned_history = Some (Ok s) /\ c_limit s = true /\
             blk_at s (0, 0, 1)%nat = Some (CBlk false false 0 0 None) /\ In (0, 0, 0)%nat (cached s) /\
             pinnedb s (0, 0, 0)%nat = true /\ c_max s < bytes s (pinned s) + entry_size s (0, 0, 1)%nat).
  { eexists. split; [vm_compute; reflexivity|]. repeat split; vm_compute; auto. }
  destruct RE as (s & E & L & B & I0 & P0 & BB). exists s.
  assert (R : cache_reached (fields_run no_fields all_pinned_history) s).
  { exists all_pinned_history, 1%nat. split; [|split; [exact E|reflexivity]].
    cbn [clegal all_pinned_history op_ok]. split; [exact OK|]. split; [exact Logic.I|]. split; [exact Logic.I|].
    split; [apply (NB 0%nat); lia|]. split; [apply (NB 0%nat); lia|exact Logic.I]. }
  split; [exact R|]. split; [apply NB; lia|].
  apply (activate_diverges (fields_run no_fields all_pinned_history) s 0 0 1 all_pinned_file).
  - apply reached_cinv; auto.
  - reflexivity.
  - reflexivity.
  - exact L.
  - intros (k & Bk & Lk). rewrite B in Bk. injection Bk as <-. discriminate.
  - intros [H|H]; [|lia]. rewrite (H _ I0) in P0. discriminate.
Qed.

(** ** Examples *)

(** Two float-like files of three and two blocks of 2 voxels (8 bytes each), a limit
    of two blocks, and touches that force evictions. *)
Definition ex_file1 : fdesc Z := FDesc [true; false; true; true] 2 4 [[1; 2]; [3; 4]; [5; 6]].
Definition ex_file2 : fdesc Z := FDesc [true; true] 2 4 [[7; 8]; [9; 10]].
Definition ex_hist : list (cop Z) :=
  [COpen 1 ex_file1; COpen 1 ex_file2; CSetMax 16; CSetLimit true;
   CTouch (1, 0, 0)%nat; CTouch (1, 0, 2)%nat; CPin (1, 0, 2)%nat; CTouch (1, 1, 1)%nat; CTouch (1, 0, 0)%nat;
   CFlush; CTouch (1, 0, 3)%nat; CTouch (1, 1, 0)%nat; CTouch (1, 0, 2)%nat].
Lemma ex_hist_legal : clegal no_fields ex_hist.
Proof.
  assert (OK1 : desc_ok ex_file1) by (split; [reflexivity|split; [reflexivity|repeat constructor]]).
  assert (OK2 : desc_ok ex_file2) by (split; [reflexivity|split; [reflexivity|repeat constructor]]).
  cbn [clegal ex_hist op_ok names_block fields_step].
  repeat match goal with
         | |- _ /\ _ => split
         | |- True => exact Logic.I
         | |- desc_ok _ => assumption
         | |- exists d, is_open _ 1 0 d /\ _ => exists ex_file1; split; [reflexivity|cbn; lia]
         | |- exists d, is_open _ 1 1 d /\ _ => exists ex_file2; split; [reflexivity|cbn; lia]
         end.
Qed.
Lemma run_view {V T} (g : cache V -> T) r x :
  match r with Some (Ok s) => Some (g s) | _ => None end = Some x -> exists s, r = Some (Ok s) /\ g s = x.
Proof. destruct r as [[s| |]|]; try discriminate. intros [= <-]. eauto. Qed.
Example C13_example : exists s, crun 20 cache_init ex_hist = Some (Ok s) /\
  (cached s, c_mem s, c_max s) = ([(1, 0, 2)%nat; (1, 1, 0)%nat], 16, 16) /\
  cache_reached (fields_run no_fields ex_hist) s.
Proof.
  destruct (run_view (fun s : cache Z => (cached s, c_mem s, c_max s)) (crun 20 cache_init ex_hist)
              ([(1, 0, 2)%nat; (1, 1, 0)%nat], 16, 16)) as (s & E & H); [vm_compute; reflexivity|].
  exists s. split; [exact E|]. split; [exact H|].
  exists ex_hist, 20%nat. split; [exact ex_hist_legal|]. split; [exact E|reflexivity].
Qed.

(** A stored field with two allocated blocks out of three read back lazily under a
    one-block limit. *)
Definition ex_field_ops : list (sop Z) :=
  [SSize (Box (V3 0 0 0) (V3 5 1 1)) (Box (V3 0 0 0) (V3 5 1 1)); SOrder 1; SClear 3;
   SWrite (V3 0 0 0) 10; SWrite (V3 5 1 1) 11].
Definition ex_field : res (sparse Z) := let* f0 := sparse_init 0 in sparse_run 0 Z.eqb f0 ex_field_ops.
Example C12_example : exists f, ex_field = Ok f /\ slegal 0 (sspec_init 0) ex_field_ops /\
  exists s r1 r2,
  crun 10 cache_init [COpen 1 (stored f 4); CSetMax 32; CSetLimit true; CTouch (1, 0, 2)%nat] = Some (Ok s) /\
  lazy_value 10 s 1 0 (hollow f) (V3 0 0 0) = Some (Ok (r1, 10)) /\
  lazy_value 10 r1 1 0 (hollow f) (V3 5 1 1) = Some (Ok (r2, 11)) /\
  (cached s, cached r1, cached r2) = ([(1, 0, 2)%nat], [(1, 0, 0)%nat], [(1, 0, 2)%nat]) /\
  is_open (fields_run no_fields [COpen 1 (stored f 4)]) 1 0 (stored f 4).
Proof.
  eexists. split; [vm_compute; reflexivity|]. split; [apply slegalb_ok; vm_compute; reflexivity|].
  match goal with |- context [stored ?g 4] => set (f := g) end.
  assert (E : match crun 10 cache_init [COpen 1 (stored f 4); CSetMax 32; CSetLimit true; CTouch (1, 0, 2)%nat] with
              | Some (Ok s) =>
                  match lazy_value 10 s 1 0 (hollow f) (V3 0 0 0) with
                  | Some (Ok (r1, v1)) =>
                      match lazy_value 10 r1 1 0 (hollow f) (V3 5 1 1) with
                      | Some (Ok (r2, v2)) => Some (cached s, cached r1, cached r2, v1, v2)
                      | _ => None end
                  | _ => None end
              | _ => None end = Some ([(1, 0, 2)%nat], [(1, 0, 0)%nat], [(1, 0, 2)%nat], 10, 11)).
  { vm_compute. reflexivity. }
  destruct (crun 10 _ _) as [[s| |]|]; try discriminate E. exists s.
  destruct (lazy_value 10 s 1 0 (hollow f) (V3 0 0 0)) as [[[r1 v1]| |]|] eqn:E1; try discriminate E. exists r1.
  destruct (lazy_value 10 r1 1 0 (hollow f) (V3 5 1 1)) as [[[r2 v2]| |]|] eqn:E2; try discriminate E. exists r2.
  injection E as E_1 E_2 E_3 -> ->. split; [reflexivity|]. split; [reflexivity|]. split; [reflexivity|].
  rewrite E_1, E_2, E_3. split; reflexivity.
Qed.

Print Assumptions C12_histories_never_fail.
Print Assumptions C12_lazy_read_returns_file_value.
Print Assumptions C12_lazy_read_terminates.
Print Assumptions C13_accounting_exact.
Print Assumptions C13_limit_respected.
Print Assumptions C13_activate_loaded.
Print Assumptions C13_flush_empties.
Print Assumptions C13_destroy_forgets.
Print Assumptions C14_terminates_iff.
Print Assumptions C14_step_bound.
Print Assumptions C14_two_passes.
Print Assumptions C14_all_pinned_livelock_refuted.
