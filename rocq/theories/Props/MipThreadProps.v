(** C35: building MIP levels with several threads. *)
From Coq Require Import ZArith Reals List Bool Lia Lra.
From Verif Require Import Model.Base Model.RealM Model.FieldM Model.DenseM Model.SparseM Model.OpsM Model.LoopM Model.FilterM Model.MipM Model.MipRaceM
  Spec.VoxelSpec Spec.DenseSpec Spec.SparseSpec Spec.OpsSpec Spec.FilterSpec Spec.MipSpec Spec.MipRaceSpec
  Proof.BaseP Proof.RealP Proof.LoopP Proof.DenseP Proof.SparseP Proof.SparseP3 Proof.OpsP Proof.FilterP Proof.ResampleP Proof.ResampleP2
  Proof.MipP Proof.MipP2 Proof.MipP3 Proof.MipP4 Proof.MipRaceP Props.ResampleProps Props.MipProps.
Import ListNotations.
Open Scope R_scope.

(** Any two numbers of threads and schedules give the same levels, or both throw. *)
Theorem C35_schedule_independent k flt (base : fld k) b offset v min_size n sched n' sched' fuel :
  sum_filter flt -> (k = KSparse -> narrow flt) -> (0 < n)%nat -> (0 < n')%nat -> f_reached 0 0 reqb k base ->
  f_ext base = res_box b -> holds base (res_box b) v -> res_ok b -> fits_new k (res_box b) -> (25 <= fuel)%nat ->
  (make_mip fuel flt base min_size offset n sched = Some Exn /\ make_mip fuel flt base min_size offset n' sched' = Some Exn) \/
  exists fs gs, make_mip fuel flt base min_size offset n sched = Some (Ok (Some fs)) /\
    make_mip fuel flt base min_size offset n' sched' = Some (Ok (Some gs)) /\ Forall2 same_field fs gs.
Proof.
  intros F NR N N' Rb X H Ro Fb L.
  destruct (C34_levels k flt base b offset v min_size n sched fuel) as (fs & m & [D1 D2] & [A1 A2] & S1 & S2); auto.
  destruct (C34_levels k flt base b offset v min_size n' sched' fuel) as (gs & m' & [D1' D2'] & [A1' A2'] & S1' & S2'); auto.
  assert (m' = m) as ->.
  { destruct (lt_eq_lt_dec m m') as [[Q|Q]|Q]; auto; exfalso; [apply D2, D1'; auto|apply D2', D1; auto]. }
  destruct (Classical_Prop.classic (stalls b offset m)) as [S|S]; [left; auto|right].
  exists fs, gs. split; auto. split; auto. clear - A1 A2 A1' A2'.
  assert (K : forall l f g, nth_error fs l = Some f -> nth_error gs l = Some g -> same_field f g).
  { intros l f g Ef Eg. destruct (A2 l f Ef) as [X [Dw V]], (A2' l g Eg) as [X' [Dw' V']]. split; [congruence|]. split; [congruence|].
    intros p P. rewrite Dw in P. rewrite V, V' by auto. reflexivity. }
  assert (Le : length fs = length gs) by congruence. clear - K Le. revert gs K Le.
  induction fs as [|f fs IH]; intros [|g gs] K Le; try discriminate; constructor.
  - apply (K 0%nat); auto.
  - apply IH; [intros l; apply (K (S l))|]. cbn in Le. lia.
Qed.
Print Assumptions C35_schedule_independent.

(** The work items: every voxel of the target is in exactly one. *)
Theorem C35_items_partition r bs : (1 <= bs)%Z ->
  NoDup (mip_blocks r bs) /\
  (forall p, in_box p (res_box r) <-> exists b, In b (mip_blocks r bs) /\ in_box p b) /\
  (forall b b' p, In b (mip_blocks r bs) -> In b' (mip_blocks r bs) -> in_box p b -> in_box p b' -> b = b').
Proof.
  intros B. split; [apply mip_blocks_nodup; auto|]. split.
  - intros p. split; [apply mip_blocks_cover; auto|]. intros (b & I & P). apply (proj1 (mip_blocks_sub r bs b B I)). auto.
  - intros b b' p I I' P P'. eapply mip_blocks_disjoint; eauto. exists p. auto.
Qed.
Print Assumptions C35_items_partition.

(** One pass over a new target: each item is taken by exactly one of the threads, and
    the target ends up with the filtered values. *)
Theorem C35_each_item_once k flt a add (src : fld (V := R) k) o old new v n sched :
  let r := pass_res a old new in let items := mip_blocks r (threading_block_size src) in
  sum_filter flt -> (k = KSparse -> narrow flt) -> f_reached 0 0 reqb k src -> holds src (res_box o) v ->
  res_ok o -> res_ok r -> fits_new k (res_box r) -> (forall b, b <> a -> vget b r = vget b o) ->
  (0 <= vget a add <= 1)%Z -> (0 < n)%nat ->
  exists tgt t0 s, f_new 0 k = Ok tgt /\ f_size 0 0 tgt (res_box r) (res_box r) = Ok t0 /\
    mip_threads flt a (vget a add) src items n sched t0 = Ok s /\
    mip_separable flt a add src tgt old new n sched = Ok (ms_tgt s) /\
    map snd (ms_log s) = seq 0 (length items) /\ (forall i j, In (i, j) (ms_log s) -> (i < n)%nat) /\
    holds (ms_tgt s) (res_box r) (fun p => halved_row (fl_eval flt) (vget a add) (vget a o) (fun s => v (vset a p s)) (vget a p)).
Proof.
  intros r items F NR Rs H Ro Rr Fr Eq A N. apply sum_filter_ok in F as [F1 F2].
  destruct (inv_new 0 0 k) as (tgt & Et & It & Ft).
  destruct (mip_separable_sum k flt a add src tgt o old new v n sched) as (t & s & E & _ & _ & _ & Hh & Es & <- & L & W); auto.
  { apply (inv_reached 0 0 k reqb); auto. exact reqb_decides. }
  { apply Ft. auto. }
  fold r in Es. destruct (f_size 0 0 tgt (res_box r) (res_box r)) as [t0| |] eqn:E0; cbn [bind] in Es; try discriminate.
  exists tgt, t0, s. auto 10.
Qed.
Print Assumptions C35_each_item_once.

(** Voxels of different items never share a block of a sparse target (block order 4), if
    the blocks of the source are at least that large. *)
Theorem C35_separate_blocks (src : sparse R) r b b' p p' : (4 <= s_order src)%Z ->
  let items := mip_blocks r (threading_block_size (k := KSparse) src) in
  In b items -> In b' items -> b <> b' -> in_box p b -> in_box p' b' -> block_coord 4 p <> block_coord 4 p'.
Proof.
  intros Ord items I I' Ne P P' E. apply Ne. unfold items in *. cbn [threading_block_size] in *. rewrite Z.shiftl_1_l in *.
  set (bs := (2 ^ s_order src)%Z) in *.
  assert (Q : exists q : Z, (bs = 16 * q /\ 1 <= q)%Z).
  { exists (2 ^ (s_order src - 4))%Z. unfold bs. replace (s_order src) with (4 + (s_order src - 4))%Z at 1 by lia.
    rewrite Z.pow_add_r by lia. split; [reflexivity|]. pose proof (Z.pow_pos_nonneg 2 (s_order src - 4)). lia. }
  destruct Q as (q & Bq & Q1).
  assert (B1 : (1 <= bs)%Z) by lia.
  apply mip_blocks_in in I as (i & j & k & Ii & J & K & ->), I' as (i' & j' & k' & Ii' & J' & K' & ->).
  assert (U : forall n n' x x' u u', In x (starts n bs) -> In x' (starts n' bs) -> (x <= u <= x + (bs - 1))%Z -> (x' <= u' <= x' + (bs - 1))%Z ->
    (Z.shiftr u 4 = Z.shiftr u' 4)%Z -> x = x').
  { intros n n' x x' u u' X X' Hu Hu' S. rewrite !Z.shiftr_div_pow2 in S by lia. change (2 ^ 4)%Z with 16%Z in S.
    apply starts_in in X as (m & M & -> & _), X' as (m' & M' & -> & _); auto.
    assert (Du : (u / bs = m)%Z) by (symmetry; apply Z.div_unique with (u - m * bs)%Z; lia).
    assert (Du' : (u' / bs = m')%Z) by (symmetry; apply Z.div_unique with (u' - m' * bs)%Z; lia).
    rewrite Bq in Du, Du'. rewrite <- Z.div_div in Du, Du' by lia. f_equal. congruence. }
  destruct P as (X & Y & Z0), P' as (X' & Y' & Z0'). cbn [item bmin bmax vx vy vz] in *.
  unfold block_coord in E. injection E as Ex Ey Ez.
  rewrite (U _ _ i i' (vx p) (vx p') Ii Ii') by (auto; lia). rewrite (U _ _ j j' (vy p) (vy p') J J') by (auto; lia).
  rewrite (U _ _ k k' (vz p) (vz p') K K') by (auto; lia). reflexivity.
Qed.
Print Assumptions C35_separate_blocks.

(** Stores of one thread into a block, with any interleaving of other work: the block is
    allocated once and keeps all stores. *)
Theorem C35_one_writer {V} (n : nat) (e : V) (jobs : list (list (nat * V))) i mine sched :
  nth_error jobs i = Some mine -> (forall j l, j <> i -> nth_error jobs j = Some l -> l = []) -> mine <> [] -> inside n mine ->
  exists s ws, race_run n e sched (fresh_block, start_writers jobs) = Ok (s, ws) /\
    ((forall w, In w ws -> w_jobs w = []) -> forall c, (c < n)%nat -> read_cell e s c = Ok (after_writes (fun _ => e) mine c)).
Proof.
  intros E Oth NE In0.
  destruct (lone_run n e i mine sched In0 (fresh_block, start_writers jobs)) as ([s ws] & Er & L).
  { left. exists WCheck. split; [|reflexivity]. unfold start_writers. split.
    - rewrite nth_error_map, E. reflexivity.
    - intros j w N Ew. rewrite nth_error_map in Ew. destruct (nth_error jobs j) as [l|] eqn:El; [|discriminate].
      injection Ew as <-. cbn. eauto. }
  exists s, ws. split; auto. intros Dn. eapply lone_read; eauto.
Qed.
Print Assumptions C35_one_writer.

(** Stores of any number of threads into an allocated block, different threads into
    different cells: none is lost, under any interleaving. *)
Theorem C35_allocated_block {V} (n : nat) (e : V) cells (jobs : list (list (nat * V))) sched :
  length cells = n -> (forall l, In l jobs -> inside n l) -> separate jobs ->
  exists s ws, race_run n e sched (loaded_block cells, start_writers jobs) = Ok (s, ws) /\
    ((forall w, In w ws -> w_jobs w = []) ->
       forall c, (c < n)%nat -> read_cell e s c = Ok (after_writes (fun c => nth c cells e) (concat jobs) c)).
Proof.
  intros L In0 S.
  destruct (ready_run n e (after_writes (fun c => nth c cells e) (concat jobs)) sched (loaded_block cells, start_writers jobs))
    as ([s ws] & Er & Rd).
  { exists (fun c => nth c cells e). cbn [fst snd]. split; [|split; [|split]].
    - split; [reflexivity|]. exists 0%nat, (map Some cells). cbn. split; auto. split; auto. rewrite map_length. split; auto.
      intros c C. rewrite nth_error_map. rewrite (nth_error_nth' cells e) by lia. reflexivity.
    - apply Forall_forall. intros w W. apply in_map_iff in W as (l & <- & Il). split; cbn; auto.
    - unfold start_writers, jobs_of. rewrite map_map. cbn. rewrite map_id. auto.
    - intros c. unfold start_writers, jobs_of. rewrite map_map. cbn. rewrite map_id. reflexivity. }
  exists s, ws. split; auto. intros Dn. eapply ready_read; eauto.
Qed.
Print Assumptions C35_allocated_block.

(** With source blocks of order 3 two items share a block of the target. *)
Theorem C35_shared_block_refuted (src : sparse R) r : s_order src = 3%Z -> (9 <= vx r /\ 1 <= vy r /\ 1 <= vz r)%Z ->
  exists tgt b b' p p', f_new 0 KSparse = Ok tgt /\ s_order tgt = 4%Z /\
    In b (mip_blocks r (threading_block_size (k := KSparse) src)) /\ In b' (mip_blocks r (threading_block_size (k := KSparse) src)) /\
    b <> b' /\ in_box p b /\ in_box p' b' /\ block_coord (s_order tgt) p = block_coord (s_order tgt) p'.
Proof.
  intros Ord Hr. cbn [threading_block_size]. rewrite Ord. change (Z.shiftl 1 3) with 8%Z.
  destruct (srefines_init (0 : R)) as (t & Et & Ht). exists t.
  exists (item r 8 0 0 0), (item r 8 8 0 0), (V3 0 0 0), (V3 8 0 0). split; [exact Et|]. split; [apply Ht|].
  assert (S0 : forall m, (1 <= m)%Z -> In 0%Z (starts m 8)) by (intros m M; apply starts_in; [lia|]; exists 0%Z; lia).
  assert (S8 : In 8%Z (starts (vx r) 8)) by (apply starts_in; [lia|]; exists 1%Z; lia).
  split; [apply mip_blocks_in; exists 0%Z, 0%Z, 0%Z; repeat split; apply S0; lia|].
  split; [apply mip_blocks_in; exists 8%Z, 0%Z, 0%Z; repeat split; try (apply S0; lia); auto|].
  split; [unfold item; intros Q; injection Q as Q; discriminate|].
  split; [unfold in_box, item; cbn; lia|]. split; [unfold in_box, item; cbn; lia|]. 
  destruct Ht as [_ _ _ O4 _]. rewrite O4. reflexivity.
Qed.
Print Assumptions C35_shared_block_refuted.

(** What can then happen to two stores of different threads, [x] into cell 0 and [y] into
    cell 1 of an unallocated block with empty value [e]. *)
Definition two_writers {V} (x y : V) : list (list (nat * V)) := [[(0%nat, x)]; [(1%nat, y)]].

(** Both threads allocate the block: the first store is lost. *)
Theorem C35_lost_write_refuted {V} (e x y : V) : x <> e ->
  exists sched s ws, race_run 2 e sched (fresh_block, start_writers (two_writers x y)) = Ok (s, ws) /\
    (forall w, In w ws -> w_jobs w = []) /\ read_cell e s 0 = Ok e /\ read_cell e s 1 = Ok y.
Proof.
  intros _. exists ([0; 1] ++ repeat 0 10 ++ repeat 1 10)%nat. eexists. eexists. split; [lazy; reflexivity|].
  split; [intros w [<-|[<-|[]]]; reflexivity|]. split; reflexivity.
Qed.
Print Assumptions C35_lost_write_refuted.

(** The second allocation frees the array the first thread is about to store into. *)
Theorem C35_use_after_free_refuted {V} (e x y : V) :
  exists sched, race_run 2 e sched (fresh_block, start_writers (two_writers x y)) = UB.
Proof. exists ([0; 1] ++ repeat 0 8 ++ repeat 1 3 ++ [0])%nat. reflexivity. Qed.
Print Assumptions C35_use_after_free_refuted.

(** The block counts as allocated before it is filled: the fill overwrites a store. *)
Theorem C35_fill_race_refuted {V} (e x y : V) : y <> e ->
  exists sched s ws, race_run 2 e sched (fresh_block, start_writers (two_writers x y)) = Ok (s, ws) /\
    (forall w, In w ws -> w_jobs w = []) /\ read_cell e s 0 = Ok x /\ read_cell e s 1 = Ok e.
Proof.
  intros _. exists (repeat 0 5 ++ repeat 1 3 ++ repeat 0 10)%nat. eexists. eexists. split; [lazy; reflexivity|].
  split; [intros w [<-|[<-|[]]]; reflexivity|]. split; reflexivity.
Qed.
Print Assumptions C35_fill_race_refuted.

(** With no threads nothing is filtered: every voxel of the target is 0. *)
Theorem C35_no_threads_refuted k flt a add (src : fld (V := R) k) old new sched :
  let r := pass_res a old new in res_ok r -> fits_new k (res_box r) ->
  exists tgt t, f_new 0 k = Ok tgt /\ mip_separable flt a add src tgt old new 0 sched = Ok t /\ holds t (res_box r) (fun _ => 0).
Proof.
  intros r Rr Fr. destruct (inv_new 0 0 k) as (tgt & Et & It & Ft). exists tgt.
  destruct (size_ok 0 0 k tgt (res_box r) (res_box r) It (proj2 (Ft _) Fr) (res_box_nonempty r Rr)) as (t0 & E0 & I0 & X0 & D0 & F0 & V0).
  exists t0. split; auto. split.
  - unfold mip_separable. fold r. rewrite size_v_res, E0. cbn [bind]. unfold mip_threads, mip_run. cbn [repeat seq each].
    assert (Q : forall bl l (s : mstate k), ms_threads s = [] -> each (mip_step flt a (vget a add) src bl) l s = Ok s).
    { intros bl l s Hs. induction l as [|i l IH]; cbn [each]; auto. unfold mip_step at 1. rewrite Hs.
      destruct i; cbn [nth_error bind]; exact IH. }
    rewrite Q by reflexivity. reflexivity.
  - split; auto. intros p P. rewrite V0 by auto. destruct k; reflexivity.
Qed.
Print Assumptions C35_no_threads_refuted.

(** The hypotheses are satisfiable: see also [C34_example]. *)
Example C35_example : exists src : fld (V := R) KDense,
  f_reached 0 0 reqb KDense src /\ holds src (res_box (cube 4)) right_face /\
  res_ok (pass_res AxX (cube 4) (V3 2 2 2)) /\ fits_new KDense (res_box (pass_res AxX (cube 4) (V3 2 2 2))) /\
  (forall b, b <> AxX -> vget b (pass_res AxX (cube 4) (V3 2 2 2)) = vget b (cube 4)) /\
  length (mip_blocks (V3 20 4 33) 16) = 6%nat /\
  separate (two_writers 1 2) /\ (forall l, In l (two_writers 1 2) -> inside 2 l) /\
  (exists s, race_run 2 0 (repeat 0%nat 13) (fresh_block, start_writers [[(0%nat, 1); (1%nat, 2)]]) = Ok (s, [Writer WCheck []])) /\
  (exists s, race_run 2 0 [0; 1; 0; 1; 0; 1]%nat (loaded_block [3; 4], start_writers (two_writers 1 2)) =
     Ok (s, [Writer WCheck []; Writer WCheck []])).
Proof.
  destruct (base_field 4 right_face) as (f & Rf & X & H); auto. exists f. split; auto. split; auto.
  split; [unfold res_ok; cbn; lia|]. split; [cbn [fits_new pass_res]; solve_int_box|].
  split; [intros [] N; try reflexivity; contradiction|]. split; [reflexivity|]. split; [|split; [|split; eexists; lazy; reflexivity]].
  - intros [|[|i]] [|[|j]] li lj c N Ei Ej; cbn in Ei, Ej; try (destruct i; discriminate); try (destruct j; discriminate); try contradiction;
      injection Ei as <-; injection Ej as <-; cbn; lia.
  - intros l [<-|[<-|[]]] c v [Q|[]]; injection Q as <- <-; lia.
Qed.
