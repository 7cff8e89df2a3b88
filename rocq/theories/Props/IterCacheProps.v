(** Property C55: iterators over dynamically loaded sparse fields. *)
From Coq Require Import ZArith List Bool Lia.
From Verif Require Import Model.Base Model.FieldM Model.SparseM Model.CacheM Model.IterCacheM
  Spec.VoxelSpec Spec.SparseSpec Spec.CacheSpec Spec.IterCacheSpec
  Proof.BaseP Proof.FieldP Proof.SparseP Proof.SparseP3 Proof.SparseP4 Proof.CacheP Proof.CacheP2 Proof.CacheP3 Proof.CacheP4
  Proof.IterCacheP Proof.IterCacheP2 Proof.IterCacheP3 Proof.IterCacheP4 Props.SparseProps.
Import ListNotations.
Open Scope Z_scope.

(** What is assumed of the field and the manager when the program starts: the field was
    built by some history, stored, and opened lazily as field [fid] of type [t]; its
    window starts on the block grid; nobody has given back more references than taken. *)
Definition lazily_open {V} (f : sparse V) (a : fields V) (s : cache V) (t fid : nat) : Prop :=
  (exists zero eqb, decides_eq eqb /\ sparse_reached zero eqb f) /\
  cache_reached a s /\ (exists elem, is_open a t fid (stored f elem)) /\
  on_block_grid (s_dw f) (s_order f) /\ at_most_2_30_blocks (s_dw f) (s_order f) /\
  (forall e, 0 <= pins_of s e).

Lemma start_inv {V} (f : sparse V) a s t fid : lazily_open f a s t fid ->
  exists elem, sshape f /\ few_blocks f /\ aligned f /\ iinv f elem t fid (ISpec a (pins_of s) []) (IWorld s []).
Proof.
  intros ((zero & eqb & De & Rf) & Rc & (elem & O) & Al & Fw & N). exists elem.
  pose proof (reached_shape zero eqb f De Rf) as Sf. pose proof (reached_cinv a s Rc) as C. split; auto. split; [|split; auto].
  { unfold few_blocks. rewrite (ss_bres _ Sf). exact Fw. }
  constructor; cbn [is_fields is_pins is_its iw_cache iw_its]; auto.
  - intros e k K _. unfold pins_of. rewrite K. destruct e as [[t' f'] i]. unfold count_at, how_many_in. cbn. destruct (_ && _); lia.
  - intros t' f' i H. unfold pins_of in H. destruct (blk_at s (t', f', i)) as [k|] eqn:K; [|congruence].
    destruct (ci_open_of_blk _ _ C _ _ _ _ K) as (d & Od & _). apply nth_error_Some. unfold is_open in Od. congruence.
Qed.

(** Every legal program runs without undefined behaviour, and each read through an
    iterator yields the stored field's value at the iterator's position, whatever is
    loaded and evicted in between. *)
Theorem C55_reads : forall (V : Type) (f : sparse V) a s t fid ops fuel r, lazily_open f a s t fid ->
  ilegal (s_dw f) t fid (ISpec a (pins_of s) []) ops ->
  irun fuel t fid (hollow f) (IWorld s []) ops = Some r ->
  exists W out, r = Ok (W, out) /\
    Forall2 (fun p v => sparse_value f p = Ok v) (positions_read (ISpec a (pins_of s) []) ops) out.
Proof.
  intros V f a s t fid ops fuel r L Lg H. destruct (start_inv f a s t fid L) as (elem & Sf & Ff & Af & I).
  destruct (irun_ok f elem t fid Sf Ff Af ops _ _ fuel r I Lg H) as (W & out & -> & _ & R). eauto.
Qed.
Print Assumptions C55_reads.

(** At any time the reference count of a block in the file is the number of live
    iterators that stand in it plus the references others hold. *)
Theorem C55_counts : forall (V : Type) (f : sparse V) a s t fid ops fuel W out, lazily_open f a s t fid ->
  ilegal (s_dw f) t fid (ISpec a (pins_of s) []) ops ->
  irun fuel t fid (hollow f) (IWorld s []) ops = Some (Ok (W, out)) ->
  let A := ispec_run (ISpec a (pins_of s) []) ops in
  (forall b bl, nth_error (s_blocks f) b = Some bl -> b_alloc bl = true ->
     pins_of (iw_cache W) (t, fid, b) = is_pins A (t, fid, b) + how_many_in (s_dw f) (s_order f) b (is_its A)) /\
  (forall t' f' i d, (t', f') <> (t, fid) -> is_open (is_fields A) t' f' d -> nth_error (fd_alloc d) i = Some true ->
     pins_of (iw_cache W) (t', f', i) = is_pins A (t', f', i)).
Proof.
  intros V f a s t fid ops fuel W out L Lg H A. destruct (start_inv f a s t fid L) as (elem & Sf & Ff & Af & I).
  destruct (irun_ok f elem t fid Sf Ff Af ops _ _ fuel _ I Lg H) as (W' & out' & [= <- <-] & [C O R P N D] & _). fold A in C, O, R, P, N, D.
  assert (K : forall e, in_file (is_fields A) e -> exists k, blk_at (iw_cache W) e = Some k /\ pins_of (iw_cache W) e = cb_refs k).
  { intros [[t' f'] i] (d & Od & T). destruct (ci_live _ _ C _ _ _ Od) as (_ & _ & B). unfold pins_of.
    destruct (blk_at (iw_cache W) (t', f', i)) as [k|] eqn:K; [eauto|]. exfalso. apply (proj1 (B i)); auto. apply nth_error_Some. congruence. }
  split.
  - intros b bl Nb Ab. assert (Fi : in_file (is_fields A) (t, fid, b)) by (apply (in_file_block f elem _ _ _ _ O); eauto).
    destruct (K _ Fi) as (k & Kb & ->). rewrite (P _ _ Kb Fi). unfold count_at. rewrite !Nat.eqb_refl. reflexivity.
  - intros t' f' i d Ne Od T. assert (Fi : in_file (is_fields A) (t', f', i)) by (exists d; auto).
    destruct (K _ Fi) as (k & Kb & ->). rewrite (P _ _ Kb Fi). unfold count_at.
    destruct (Nat.eqb_spec t' t) as [->|]; [|cbn; lia]. destruct (Nat.eqb_spec f' fid) as [->|]; [congruence|cbn; lia].
Qed.
Print Assumptions C55_counts.

(** ... so a block a live iterator stands in cannot be evicted, and when all iterators are
    gone the field's counts are what the others hold. *)
Theorem C55_pinned : forall (V : Type) (f : sparse V) a s t fid ops fuel W out i w p b bl, lazily_open f a s t fid ->
  ilegal (s_dw f) t fid (ISpec a (pins_of s) []) ops ->
  irun fuel t fid (hollow f) (IWorld s []) ops = Some (Ok (W, out)) ->
  alive_at (ispec_run (ISpec a (pins_of s) []) ops) i w p ->
  block_number (s_dw f) (s_order f) p = Some b -> nth_error (s_blocks f) b = Some bl -> b_alloc bl = true ->
  pinnedb (iw_cache W) (t, fid, b) = true.
Proof.
  intros V f a s t fid ops fuel W out i w p b bl L Lg H Ai Bn Nb Ab.
  destruct (C55_counts V f a s t fid ops fuel W out L Lg H) as [Q _]. specialize (Q b bl Nb Ab).
  destruct (start_inv f a s t fid L) as (elem & Sf & Ff & Af & I).
  destruct (irun_ok f elem t fid Sf Ff Af ops _ _ fuel _ I Lg H) as (W' & out' & [= <- <-] & [_ _ _ _ N _] & _).
  specialize (N (t, fid, b)). unfold alive_at in Ai. apply nth_error_In in Ai.
  assert (1 <= how_many_in (s_dw f) (s_order f) b (is_its (ispec_run (ISpec a (pins_of s) []) ops))).
  { pose proof (count_in f t fid (t, fid, b) _ _ Ai) as Ci. unfold count_at, delta, stands_in in Ci.
    rewrite Bn, !Nat.eqb_refl in Ci. exact Ci. }
  unfold pins_of at 1 in Q. unfold pinnedb. destruct (blk_at (iw_cache W) (t, fid, b)); [|lia].
  apply Z.gtb_lt. lia.
Qed.
Print Assumptions C55_pinned.
Theorem C55_balanced : forall (V : Type) (f : sparse V) a s t fid ops fuel W out b bl, lazily_open f a s t fid ->
  ilegal (s_dw f) t fid (ISpec a (pins_of s) []) ops ->
  irun fuel t fid (hollow f) (IWorld s []) ops = Some (Ok (W, out)) ->
  (forall x, In x (is_its (ispec_run (ISpec a (pins_of s) []) ops)) -> x = None) ->
  nth_error (s_blocks f) b = Some bl -> b_alloc bl = true ->
  pins_of (iw_cache W) (t, fid, b) = is_pins (ispec_run (ISpec a (pins_of s) []) ops) (t, fid, b).
Proof.
  intros V f a s t fid ops fuel W out b bl L Lg H Nn Nb Ab.
  destruct (C55_counts V f a s t fid ops fuel W out L Lg H) as [Q _]. rewrite (Q b bl Nb Ab). clear Q H Lg.
  assert (Z0 : forall l : list alive, (forall x, In x l -> x = None) -> how_many_in (s_dw f) (s_order f) b l = 0).
  { unfold how_many_in. induction l as [|x l IH]; intros Al; auto. cbn [filter].
    rewrite (Al x (or_introl eq_refl)). cbn. apply IH. intros y Y. apply Al. right; auto. }
  rewrite (Z0 _ Nn). lia.
Qed.
Print Assumptions C55_balanced.

(** The usual loop over a box of the window reads every voxel once, in order, and leaves
    the counts as they were. *)
Lemma traversal_reads {V} (f : sparse V) a pins t fid w : box_nonempty w -> sub_box w (s_dw f) ->
  ilegal (s_dw f) t fid (ISpec a pins []) (traversal w) /\
  positions_read (ISpec a pins []) (@traversal V w) = enum w /\
  is_pins (ispec_run (ISpec a pins []) (@traversal V w)) = pins /\
  forall x, In x (is_its (ispec_run (ISpec a pins []) (@traversal V w))) -> x = None.
Proof.
  intros N Sb. unfold traversal. cbn [ilegal positions_read ispec_run fold_left ispec_step is_its is_fields is_pins app].
  assert (K : forall l p, chain (it_next w) p l (it_end w) -> (forall q, In q l -> in_box q w) ->
    let A := ISpec a pins [Some (w, p); Some (w, it_end w)] in
    let ops := @read_and_advance V (length l) ++ [IDrop 1; IDrop 0] in
    ilegal (s_dw f) t fid A ops /\ positions_read A ops = l /\ is_pins (fold_left ispec_step ops A) = pins /\
    forall x, In x (is_its (fold_left ispec_step ops A)) -> x = None).
  { induction l as [|q l IH]; intros p C I A ops.
    - cbn. cbn in C. split; [|split; [auto|split; [auto|]]].
      + split; [exists w, (it_end w); reflexivity|]. split; [exists w, p; reflexivity|exact Logic.I].
      + intros x [<-|[<-|[]]]; auto.
    - cbn in C. destruct C as [-> C]. destruct (IH (it_next w q) C (fun x X => I x (or_intror X))) as (J1 & J2 & J3 & J4).
      unfold ops, A. cbn [length read_and_advance app ilegal positions_read fold_left].
      change (ispec_step (ISpec a pins [Some (w, q); Some (w, it_end w)]) (IRead 0)) with (@ISpec V a pins [Some (w, q); Some (w, it_end w)]).
      change (ispec_step (ISpec a pins [Some (w, q); Some (w, it_end w)]) (INext 0)) with (@ISpec V a pins [Some (w, it_next w q); Some (w, it_end w)]).
      assert (B : in_box q w) by (apply I; left; auto).
      split; [|split; [|split; auto]].
      + split; [exists w, q; split; [reflexivity|auto]|]. split; [exists w, q; split; [reflexivity|auto]|]. exact J1.
      + cbn [is_its nth_error app]. f_equal. exact J2. }
  destruct (K (enum w) (bmin w)) as (K1 & K2 & K3 & K4).
  - apply enum_chain; auto.
  - intros q. apply enum_In.
  - replace (Z.to_nat (box_count w)) with (length (enum w)) by (rewrite <- enum_length, Nat2Z.id; reflexivity).
    split; [|split; [exact K2|split; [exact K3|exact K4]]].
    split; [|split; [|exact K1]].
    + split; auto. split; auto. left. apply in_box_min; auto.
    + split; auto.
Qed.
Theorem C55_traversal : forall (V : Type) (f : sparse V) a s t fid w fuel r, lazily_open f a s t fid ->
  box_nonempty w -> sub_box w (s_dw f) ->
  irun fuel t fid (hollow f) (IWorld s []) (traversal w) = Some r ->
  exists W out, r = Ok (W, out) /\ Forall2 (fun p v => sparse_value f p = Ok v) (enum w) out /\
    forall b bl, nth_error (s_blocks f) b = Some bl -> b_alloc bl = true ->
      pins_of (iw_cache W) (t, fid, b) = pins_of s (t, fid, b).
Proof.
  intros V f a s t fid w fuel r L N Sb H. destruct (traversal_reads f a (pins_of s) t fid w N Sb) as (T1 & T2 & T3 & T4).
  destruct (C55_reads V f a s t fid _ fuel r L T1 H) as (W & out & -> & R). exists W, out. split; auto.
  rewrite T2 in R. split; auto. intros b bl Nb Ab. rewrite (C55_balanced V f a s t fid _ fuel W out b bl L T1 H T4 Nb Ab).
  rewrite T3. reflexivity.
Qed.
Print Assumptions C55_traversal.

(** A field of two blocks, 32 bytes each, in a cache with room for one. *)
Definition ex_window (top : Z) : box := Box (V3 0 0 0) (V3 3 0 top).
Definition ex_history (top : Z) : list (sop Z) :=
  [SSize (ex_window top) (ex_window top); SOrder 1; SWrite (V3 0 0 0) 5; SWrite (V3 2 0 top) 7].
Definition ex_field (top : Z) : sparse Z :=
  match sparse_init 0 with Ok f0 => match sparse_run 0 Z.eqb f0 (ex_history top) with Ok f => f | _ => f0 end
  | _ => Sparse (ex_window top) (ex_window top) 0 (V3 0 0 0) 0 [] end.
Definition ex_cache_ops (top : Z) : list (cop Z) := [COpen 0 (stored (ex_field top) 4); CSetMax 32; CSetLimit true].
Definition ex_fields (top : Z) : fields Z := fields_run no_fields (ex_cache_ops top).
Definition ex_cache (top : Z) : cache Z := match crun 0 cache_init (ex_cache_ops top) with Some (Ok s) => s | _ => cache_init end.
Lemma ex_open top : top = 0 \/ top = 1 -> lazily_open (ex_field top) (ex_fields top) (ex_cache top) 0 0.
Proof.
  intros T. split; [|split; [|split; [|split; [|split]]]].
  - exists 0, Z.eqb. split; [apply Zeqb_decides|].
    assert (L : slegal 0 (sspec_init 0) (ex_history top)) by (apply slegalb_ok; destruct T as [-> | ->]; vm_compute; reflexivity).
    destruct (C04_sparse_refines_map Z 0 Z.eqb (ex_history top) Zeqb_decides L) as (f0 & f & E0 & E & _).
    exists (ex_history top), f0. split; auto. split; auto. unfold ex_field. rewrite E0, E. reflexivity.
  - exists (ex_cache_ops top), 0%nat. split; [|split; reflexivity]. cbn [clegal op_ok ex_cache_ops]. split; [|repeat split].
    destruct T as [-> | ->]; (split; [vm_compute; reflexivity|]; split; [vm_compute; reflexivity|]; vm_compute; repeat constructor).
  - exists 4. reflexivity.
  - destruct T as [-> | ->]; vm_compute; auto.
  - destruct T as [-> | ->]; vm_compute; discriminate.
  - intros [[t f] i]. unfold pins_of. destruct t as [|t]; [|destruct f; vm_compute; discriminate].
    destruct f as [|f]; [|destruct f; vm_compute; discriminate].
    destruct T as [-> | ->]; (destruct i as [|[|i]]; [vm_compute; discriminate..|destruct i; vm_compute; discriminate]).
Qed.
Example C55_example :
  match irun 9 0 0 (hollow (ex_field 1)) (IWorld (ex_cache 1) []) (traversal (ex_window 1)) with
  | Some (Ok (W, out)) => (out, cached (iw_cache W), c_mem (iw_cache W))
  | _ => ([], [], 0)
  end = ([5; 0; 0; 0; 0; 0; 7; 0], [(0, 0, 1)]%nat, 32).
Proof. vm_compute. reflexivity. Qed.

(** Copies of an iterator do not count: destroying a copy gives back the original's
    reference, the block can be evicted, and the original then reads freed memory. *)
Theorem C55_copy_refuted : exists (f : sparse Z) a s, lazily_open f a s 0 0 /\
  irun 9 0 0 (hollow f) (IWorld s [])
    [IMake (s_dw f) (V3 0 0 0); IRead 0; ICopy 0; IDrop 1; IOther (CTouch (0, 0, 1)%nat); IRead 0] = Some UB.
Proof.
  exists (ex_field 1), (ex_fields 1), (ex_cache 1). split; [apply ex_open; auto|]. vm_compute. reflexivity.
Qed.
Print Assumptions C55_copy_refuted.
(** When copy and original are both gone the count is below zero. *)
Theorem C55_copy_count_refuted : exists (f : sparse Z) a s W out, lazily_open f a s 0 0 /\
  irun 9 0 0 (hollow f) (IWorld s []) [IMake (s_dw f) (V3 0 0 0); ICopy 0; IDrop 0; IDrop 1] = Some (Ok (W, out)) /\
  pins_of (iw_cache W) (0, 0, 0)%nat = -1.
Proof.
  assert (K : match irun 9 0 0 (hollow (ex_field 1)) (IWorld (ex_cache 1) [])
                      [IMake (s_dw (ex_field 1)) (V3 0 0 0); ICopy 0; IDrop 0; IDrop 1] with
              | Some (Ok (W, _)) => pins_of (iw_cache W) (0, 0, 0)%nat = -1 | _ => False end) by (vm_compute; reflexivity).
  exists (ex_field 1), (ex_fields 1), (ex_cache 1).
  destruct (irun _ _ _ _ _ _) as [[[W out]| |]|] eqn:E; try contradiction.
  exists W, out. split; [apply ex_open; auto|]. split; auto.
Qed.
Print Assumptions C55_copy_count_refuted.
(** Flushing the cache while an iterator is in use frees what it points to. *)
Theorem C55_flush_refuted : exists (f : sparse Z) a s, lazily_open f a s 0 0 /\
  irun 9 0 0 (hollow f) (IWorld s []) [IMake (s_dw f) (V3 0 0 0); IRead 0; IOther CFlush; IRead 0] = Some UB.
Proof.
  exists (ex_field 1), (ex_fields 1), (ex_cache 1). split; [apply ex_open; auto|]. vm_compute. reflexivity.
Qed.
Print Assumptions C55_flush_refuted.

(** The past-the-end iterator of a window whose depth is not a multiple of the block
    size stands in a block and holds it.  With room for one block the loop never ends:
    the next block can not be loaded while the end iterator lives. *)
Lemma irun_app {V} fuel t fid (h : sparse V) l1 : forall l2 W W1 o1,
  irun fuel t fid h W l1 = Some (Ok (W1, o1)) -> irun fuel t fid h W1 l2 = None -> irun fuel t fid h W (l1 ++ l2) = None.
Proof.
  induction l1 as [|o l IH]; intros l2 W W1 o1; cbn [irun app]; [congruence|].
  destruct (istep fuel t fid h W o) as [[[W2 o2]| |]|]; cbn [obind]; try discriminate; auto.
  destruct (irun fuel t fid h W2 l) as [[[W3 o3]| |]|] eqn:E; cbn [obind]; try discriminate.
  intros [= <- <-] N. rewrite (IH l2 _ _ _ E N). reflexivity.
Qed.
Definition ex_stuck : list (iop Z) :=
  [IMake (ex_window 0) (V3 0 0 0); IMake (ex_window 0) (it_end (ex_window 0)); IRead 0; INext 0; IRead 0; INext 0].
Theorem C55_end_iterator_livelock_refuted : exists (f : sparse Z) a s, lazily_open f a s 0 0 /\
  (forall fuel, irun fuel 0 0 (hollow f) (IWorld s []) (traversal (s_dw f)) = None) /\
  (forall i, (i < length (s_blocks f))%nat -> entry_size s (0, 0, i)%nat <= c_max s).
Proof.
  exists (ex_field 0), (ex_fields 0), (ex_cache 0). split; [apply ex_open; auto|]. split.
  2:{ change (length (s_blocks (ex_field 0))) with 2%nat. intros [|[|i]] H; [vm_compute; discriminate..|lia]. }
  intros fuel. change (s_dw (ex_field 0)) with (ex_window 0).
  destruct fuel as [|n]; [vm_compute; reflexivity|].
  change (traversal (ex_window 0)) with (ex_stuck ++ ([IRead 0; INext 0; IRead 0; INext 0; IDrop 1; IDrop 0] : list (iop Z))).
  assert (K : irun (S n) 0 0 (hollow (ex_field 0)) (IWorld (ex_cache 0) []) ex_stuck =
              irun 1 0 0 (hollow (ex_field 0)) (IWorld (ex_cache 0) []) ex_stuck) by (vm_compute; reflexivity).
  assert (L : ilegal (s_dw (ex_field 0)) 0 0 (ISpec (ex_fields 0) (pins_of (ex_cache 0)) []) ex_stuck).
  { assert (Nb : box_nonempty (ex_window 0)) by (split; [|split]; vm_compute; discriminate).
    assert (I0 : in_box (V3 0 0 0) (ex_window 0)) by (repeat split; vm_compute; discriminate).
    assert (I1 : in_box (V3 1 0 0) (ex_window 0)) by (repeat split; vm_compute; discriminate).
    assert (Sb : sub_box (ex_window 0) (s_dw (ex_field 0))) by (intros q Q; exact Q).
    cbn [ilegal ex_stuck]. split; [split; [auto|split; [auto|left; auto]]|]. split; [split; [auto|split; [auto|right; reflexivity]]|].
    split; [exists (ex_window 0), (V3 0 0 0); split; [reflexivity|auto]|].
    split; [exists (ex_window 0), (V3 0 0 0); split; [reflexivity|auto]|].
    split; [exists (ex_window 0), (V3 1 0 0); split; [reflexivity|auto]|].
    split; [exists (ex_window 0), (V3 1 0 0); split; [reflexivity|auto]|]. exact Logic.I. }
  destruct (start_inv _ _ _ _ _ (ex_open 0 (or_introl eq_refl))) as (elem & Sf & Ff & Af & I).
  assert (C : match irun 1 0 0 (hollow (ex_field 0)) (IWorld (ex_cache 0) []) ex_stuck with
    | Some (Ok (W, _)) => c_limit (iw_cache W) = true /\
        blk_at (iw_cache W) (0, 0, 1)%nat = Some (CBlk false false 0 1 None) /\ In (0, 0, 0)%nat (cached (iw_cache W)) /\
        pinnedb (iw_cache W) (0, 0, 0)%nat = true /\
        c_max (iw_cache W) < bytes (iw_cache W) (pinned (iw_cache W)) + entry_size (iw_cache W) (0, 0, 1)%nat /\
        exists m, it_at W 0 = Some m /\ si_empty (mi_it m) = false /\ si_active (mi_it m) = false /\ si_block (mi_it m) = 1
    | _ => False end).
  { vm_compute. repeat split; auto. eexists. repeat split. }
  destruct (irun 1 0 0 (hollow (ex_field 0)) (IWorld (ex_cache 0) []) ex_stuck) as [[[W o]| |]|] eqn:E; try contradiction.
  destruct C as (C1 & C2 & C3 & C4 & C5 & m & M & M1 & M2 & M3).
  apply irun_app with (1 := K). cbn [irun istep]. rewrite M. unfold miter_deref. rewrite M1, M2, M3. cbn [negb andb].
  destruct (irun_ok _ elem 0 0 Sf Ff Af ex_stuck _ _ 1 _ I L E) as (W' & o' & [= <- <-] & [Ic _ _ _ _ _] & _).
  change (Z.to_nat 1) with 1%nat.
  assert (AD : activate (S n) (iw_cache W) (0, 0, 1)%nat = None).
  { apply (activate_diverges _ (iw_cache W) 0 0 1 (stored (ex_field 0) 4) Ic).
    - reflexivity.
    - reflexivity.
    - exact C1.
    - intros (k & Bk & Lk). rewrite C2 in Bk. injection Bk as <-. discriminate.
    - intros [H|H]; [|lia]. rewrite (H _ C3) in C4. discriminate. }
  rewrite AD. reflexivity.
Qed.
Print Assumptions C55_end_iterator_livelock_refuted.
