(** One MIP filtering pass: work items, loop bounds, skipped blocks. *)
From Coq Require Import ZArith Reals List Bool Lia Lra Psatz.
From Verif Require Import Model.Base Model.RealM Model.VecM Model.FieldM Model.DenseM Model.SparseM Model.OpsM Model.LoopM Model.FilterM Model.MipM
  Spec.VoxelSpec Spec.SparseSpec Spec.OpsSpec Spec.FilterSpec Spec.MipSpec
  Proof.BaseP Proof.RealP Proof.FieldP Proof.LoopP Proof.SparseP Proof.OpsP Proof.FilterP Proof.ResampleP Proof.ResampleP2 Proof.MipP.
Import ListNotations.
Open Scope Z_scope.

Lemma in_box_max b : box_nonempty b -> in_box (bmax b) b.
Proof. unfold box_nonempty, in_box. lia. Qed.

(** * The work items partition the target *)
Lemma stride_in fuel : forall k n step x, 1 <= step -> n - k <= Z.of_nat fuel ->
  In x (stride fuel k n step) <-> exists m, 0 <= m /\ x = k + m * step /\ x < n.
Proof.
  induction fuel as [|f IH]; intros k n step x S L.
  - cbn. split; [contradiction|]. intros (m & M & -> & X). nia.
  - cbn [stride]. destruct (k <? n) eqn:E.
    + cbn [In]. rewrite IH by lia. split.
      * intros [<-|(m & M & -> & X)]; [exists 0; lia|exists (m + 1); lia].
      * intros (m & M & -> & X). destruct (Z.eq_dec m 0) as [->|N]; [left; lia|right; exists (m - 1); lia].
    + cbn. split; [contradiction|]. intros (m & M & -> & X). nia.
Qed.
Lemma starts_in n step x : 1 <= step -> In x (starts n step) <-> exists m, 0 <= m /\ x = m * step /\ x < n.
Proof.
  intros S. unfold starts. destruct (Z_lt_le_dec n 0).
  - replace (Z.to_nat n) with 0%nat by lia. cbn. split; [contradiction|]. intros (m & M & -> & X). nia.
  - rewrite stride_in by lia. split; intros (m & H); exists m; lia.
Qed.
Lemma stride_nodup fuel : forall k n step, 1 <= step -> NoDup (stride fuel k n step) /\ forall x, In x (stride fuel k n step) -> k <= x.
Proof.
  induction fuel as [|f IH]; intros k n step S; cbn [stride]; [split; [constructor|intros x []]|].
  destruct (k <? n); [|split; [constructor|intros x []]]. destruct (IH (k + step) n step S) as [H1 H2]. split.
  - constructor; auto. intros I. apply H2 in I. lia.
  - intros x [<-|I]; [lia|]. apply H2 in I. lia.
Qed.

Definition item (r : v3) (bs i j k : Z) : box :=
  Box (V3 i j k) (V3 (Z.min (i + (bs - 1)) (vx r - 1)) (Z.min (j + (bs - 1)) (vy r - 1)) (Z.min (k + (bs - 1)) (vz r - 1))).
Lemma mip_blocks_in r bs b : In b (mip_blocks r bs) <->
  exists i j k, In i (starts (vx r) bs) /\ In j (starts (vy r) bs) /\ In k (starts (vz r) bs) /\ b = item r bs i j k.
Proof.
  unfold mip_blocks. rewrite in_flat_map. split.
  - intros (k & K & H). apply in_flat_map in H as (j & J & H). apply in_map_iff in H as (i & <- & I). exists i, j, k. auto.
  - intros (i & j & k & I & J & K & ->). exists k. split; auto. apply in_flat_map. exists j. split; auto.
    apply in_map_iff. exists i. auto.
Qed.
Lemma mip_blocks_sub r bs b : 1 <= bs -> In b (mip_blocks r bs) -> sub_box b (res_box r) /\ box_nonempty b.
Proof.
  intros B H. apply mip_blocks_in in H as (i & j & k & I & J & K & ->).
  apply starts_in in I as (mi & I1 & I2 & I3), J as (mj & J1 & J2 & J3), K as (mk & K1 & K2 & K3); auto.
  assert (0 <= i) by nia. assert (0 <= j) by nia. assert (0 <= k) by nia. split.
  - intros p (X & Y & Z0). unfold in_box, res_box. cbn in *. lia.
  - unfold box_nonempty. cbn. lia.
Qed.
Lemma start_of x n bs : 1 <= bs -> 0 <= x <= n - 1 -> In (bs * (x / bs)) (starts n bs) /\
  bs * (x / bs) <= x <= Z.min (bs * (x / bs) + (bs - 1)) (n - 1).
Proof.
  intros B X. pose proof (Z.div_mod x bs ltac:(lia)). pose proof (Z.mod_pos_bound x bs ltac:(lia)).
  assert (0 <= x / bs) by (apply Z.div_pos; lia). split; [|lia]. apply starts_in; auto. exists (x / bs). lia.
Qed.
Lemma mip_blocks_cover r bs p : 1 <= bs -> in_box p (res_box r) -> exists b, In b (mip_blocks r bs) /\ in_box p b.
Proof.
  intros B (X & Y & Z0). cbn in X, Y, Z0.
  destruct (start_of _ _ bs B X) as [X1 X2], (start_of _ _ bs B Y) as [Y1 Y2], (start_of _ _ bs B Z0) as [Z1 Z2].
  eexists. split; [apply mip_blocks_in; do 3 eexists; split; [exact X1|split; [exact Y1|split; [exact Z1|reflexivity]]]|].
  unfold in_box, item. cbn. lia.
Qed.
Lemma start_unique bs i i' n n' x : 1 <= bs -> In i (starts n bs) -> In i' (starts n' bs) ->
  i <= x <= i + (bs - 1) -> i' <= x <= i' + (bs - 1) -> i = i'.
Proof.
  intros B I J X Y. apply starts_in in I as (m & M & -> & _), J as (m' & M' & -> & _); auto.
  assert (m = m') by nia. congruence.
Qed.
Lemma mip_blocks_disjoint r bs b b' : 1 <= bs -> In b (mip_blocks r bs) -> In b' (mip_blocks r bs) -> overlap b b' -> b = b'.
Proof.
  intros B H H' (p & P & P'). apply mip_blocks_in in H as (i & j & k & I & J & K & ->), H' as (i' & j' & k' & I' & J' & K' & ->).
  destruct P as (X & Y & Z0), P' as (X' & Y' & Z0'). cbn in *.
  rewrite (start_unique bs i i' _ _ (vx p) B I I') by lia. rewrite (start_unique bs j j' _ _ (vy p) B J J') by lia.
  rewrite (start_unique bs k k' _ _ (vz p) B K K') by lia. reflexivity.
Qed.
Lemma mip_blocks_nodup r bs : 1 <= bs -> NoDup (mip_blocks r bs).
Proof.
  intros B. unfold mip_blocks. apply (flat_map_nodup _ (fun b => vz (bmin b))).
  - intros k b H. apply in_flat_map in H as (j & _ & H). apply in_map_iff in H as (i & <- & _). reflexivity.
  - intros k. apply (flat_map_nodup _ (fun b => vy (bmin b))).
    + intros j b H. apply in_map_iff in H as (i & <- & _). reflexivity.
    + intros j. apply FinFun.Injective_map_NoDup; [intros x y E; congruence|]. apply stride_nodup; auto.
    + apply stride_nodup; auto.
  - apply stride_nodup; auto.
Qed.

(** * The loop bounds *)
Open Scope R_scope.
Lemma mip_voxel_range k flt a add (src : fld (V := R) k) old p :
  0 < fl_support flt <= 100 -> f_dw src = res_box old -> (0 <= add <= 1)%Z -> (0 <= vget a p <= 2 ^ 24)%Z ->
  exists lo hi, (0 <= lo)%Z /\ (hi <= vget a old - 1)%Z /\
    (forall s, (0 <= s <= vget a old - 1)%Z -> mip_distance add s (vget a p) <= fl_support flt -> (lo <= s <= hi)%Z) /\
    mip_voxel flt a add src p = filter_line flt (fun s => f_get src (vset a p s))
      (fun s => fl_eval flt (Rabs (voxel_centre s - (voxel_centre (vget a p) * 2 - IZR add)) * (1 / 2))) lo hi.
Proof.
  intros SP Ds A P. unfold mip_voxel. rewrite Ds. set (c := voxel_centre (vget a p) * 2 - IZR add).
  assert (P1 : 0 <= IZR (vget a p) <= 16777216) by (split; [apply (IZR_le 0)|apply (IZR_le _ (2 ^ 24))]; lia).
  assert (A1 : 0 <= IZR add <= 1) by (split; [apply (IZR_le 0)|apply (IZR_le _ 1)]; lia).
  assert (C : 0 <= c <= 33554433) by (unfold c, voxel_centre; lra).
  unfold int_floor, int_ceil. pose proof (rfloor_spec (c - fl_support flt * 2)) as F. pose proof (rceil_spec (c + fl_support flt * 2)) as G.
  assert (-202 < rfloor (c - fl_support flt * 2))%Z by (apply lt_IZR; lra).
  assert (rfloor (c - fl_support flt * 2) <= 33554433)%Z by (apply le_IZR; lra).
  assert (0 <= rceil (c + fl_support flt * 2))%Z by (apply le_IZR; lra).
  assert (rceil (c + fl_support flt * 2) < 33554700)%Z by (apply lt_IZR; lra).
  rewrite !i32_ok by (unfold int_min, int_max; lia). cbn [bind].
  rewrite !i32_ok by (unfold int_min, int_max; lia). cbn [bind].
  destruct (res_box_axis old a) as (_ & -> & ->).
  eexists. eexists. split; [|split; [|split; [|reflexivity]]]; [lia|lia|].
  intros s S D. unfold mip_distance in D. replace (2 * (IZR (vget a p) + 1 / 2) - IZR add) with c in D by (unfold c, voxel_centre; ring).
  assert (D' : Rabs (IZR s + 1 / 2 - c) <= fl_support flt * 2) by lra. apply Rabs_le_inv in D'.
  assert (rfloor (c - fl_support flt * 2) < s + 1)%Z by (apply lt_IZR; rewrite plus_IZR; lra).
  assert (s < rceil (c + fl_support flt * 2))%Z by (apply lt_IZR; lra). lia.
Qed.
Lemma mip_dist_eq add s t : Rabs (voxel_centre s - (voxel_centre t * 2 - IZR add)) * (1 / 2) = mip_distance add s t.
Proof.
  unfold mip_distance, voxel_centre. replace (2 * (IZR t + 1 / 2) - IZR add) with ((IZR t + 1 / 2) * 2 - IZR add) by ring. lra.
Qed.
Lemma mip_distance_nonneg add s t : 0 <= mip_distance add s t.
Proof. unfold mip_distance. pose proof (Rabs_pos (IZR s + 1 / 2 - (2 * (IZR t + 1 / 2) - IZR add))). lra. Qed.

(** * Skipped blocks *)
(** Source voxels within the support of a target box. *)
Lemma support_region flt add s t lo hi : narrow flt -> (0 <= add <= 1)%Z -> (lo <= t <= hi)%Z ->
  mip_distance add s t <= fl_support flt -> (2 * (lo - 1) <= s <= 2 * (hi + 1))%Z.
Proof.
  intros N A T D. unfold narrow in N. unfold mip_distance in D.
  assert (D' : Rabs (IZR s + 1 / 2 - (2 * (IZR t + 1 / 2) - IZR add)) < 5 / 2) by lra.
  apply Rabs_def2 in D'.
  assert (A1 : 0 <= IZR add <= 1) by (split; [apply (IZR_le 0)|apply (IZR_le _ 1)]; lia).
  assert (s < 2 * t + 3)%Z by (apply lt_IZR; rewrite plus_IZR, mult_IZR; lra).
  assert (2 * t - 3 < s)%Z by (apply lt_IZR; rewrite minus_IZR, mult_IZR; lra). lia.
Qed.

Lemma block_occupied_ok (f : sparse R) c : sshape f -> block_in_grid (s_dw f) (s_order f) c ->
  exists o, block_occupied f c = Ok o /\
    (o = false -> forall q, in_box q (s_dw f) -> bc f q = c -> sparse_value f q = Ok 0).
Proof.
  intros I C. unfold block_occupied, block_is_allocated, get_block_empty_value.
  destruct (block_id_ok f c I C) as [-> L]. cbn [bind].
  destruct (arr_get_ok (s_blocks f) (lid (s_bres f) c) L) as (b & E). rewrite E. cbn [bind].
  destruct (b_alloc b) eqn:A; cbn [bind].
  - exists true. split; auto. discriminate.
  - eexists. split; [reflexivity|]. intros O q Q Ec. rewrite sparse_value_eq by auto. rewrite Ec, E. cbn [bind].
    unfold read_block. rewrite A. destruct (reqb_spec (b_empty b) 0) as [->|]; [reflexivity|discriminate].
Qed.

Lemma bc_mono (f : sparse R) p q : sshape f -> (vx p <= vx q /\ vy p <= vy q /\ vz p <= vz q)%Z ->
  (vx (bc f p) <= vx (bc f q) /\ vy (bc f p) <= vy (bc f q) /\ vz (bc f p) <= vz (bc f q))%Z.
Proof.
  intros [O _ _ _ _ _] H. unfold order_ok in O. pose proof (pow2_pos (s_order f) ltac:(lia)) as P.
  unfold bc. cbn.
  repeat split; apply Z.div_le_mono; lia.
Qed.

Lemma input_empty_ok (src : sparse R) b supp a : sshape src -> 0 < supp < 5 / 4 ->
  (- 2 ^ 26 <= vget a (bmin b) <= 2 ^ 26)%Z -> (- 2 ^ 26 <= vget a (bmax b) <= 2 ^ 26)%Z ->
  exists e, sparse_input_empty src b supp a = Ok e /\
    (e = true -> forall q, in_box q (s_dw src) ->
       in_box q (Box (vset a (bmin b) (2 * (vget a (bmin b) - 1))) (vset a (bmax b) (2 * (vget a (bmax b) + 1)))) ->
       sparse_value src q = Ok 0).
Proof.
  intros I SP L H. unfold sparse_input_empty, int_ceil. rewrite (rceil_unique (supp * (1 / 2)) 1) by lra.
  rewrite (i32_ok 1) by (unfold int_min, int_max; lia). cbn [bind].
  change (Z.max 0 1) with 1%Z.
  rewrite !i32_ok by (unfold int_min, int_max; lia). cbn [bind].
  set (bb := Box _ _). set (c := clip_bounds bb (s_dw src)). unfold block_coords.
  destruct (box_empty c) eqn:E; cbn [bind].
  - exists true. split; auto. intros _ q Q1 Q2. exfalso. apply box_empty_true in E. apply E.
    apply in_box_nonempty with q. apply clip_bounds_spec. auto.
  - apply box_empty_false in E. assert (In0 : forall p, in_box p c -> in_box p (s_dw src)) by (intros p P; apply clip_bounds_spec in P; tauto).
    assert (Pmin : in_box (bmin c) c) by (apply in_box_min; auto).
    assert (Pmax : in_box (bmax c) c) by (apply in_box_max; auto).
    assert (W : window_ok (s_dw src) (s_order src)) by apply I.
    rewrite !window_offset_ok by auto. cbn [bind].
    pose proof (bc_in_grid src _ I (In0 _ Pmin)) as Gmin. pose proof (bc_in_grid src _ I (In0 _ Pmax)) as Gmax.
    assert (Or : (0 <= s_order src)%Z) by (destruct I as [Or _ _ _ _ _]; unfold order_ok in Or; lia).
    rewrite !block_coord_eq by auto.
    change (V3 (vx (v3_sub (bmin c) (bmin (s_dw src))) / _) _ _) with (bc src (bmin c)).
    change (V3 (vx (v3_sub (bmax c) (bmin (s_dw src))) / _) _ _) with (bc src (bmax c)).
    set (l := box_voxels _).
    assert (Gl : forall d, In d l -> block_in_grid (s_dw src) (s_order src) d).
    { intros d D. apply voxels_in in D as (X & Y & Z0). cbn [bmin bmax] in X, Y, Z0. unfold block_in_grid in *. lia. }
    destruct (each_inv (fun d (empty : bool) => if empty then let* o := block_occupied src d in Ok (negb o) else Ok false)
      (fun done e => e = true -> forall q, in_box q (s_dw src) -> In (bc src q) done -> sparse_value src q = Ok 0) l [] true)
      as (e & Ee & He).
    + intros _ q _ [].
    + intros d x t e Eq J. destruct e.
      * destruct (block_occupied_ok src x I) as (o & -> & O); [apply Gl; cbn [app] in Eq; rewrite Eq; apply in_or_app; right; left; auto|].
        cbn [bind]. eexists. split; [reflexivity|]. intros N q Q B. apply in_app_or in B as [B|[B|[]]]; [auto|].
        apply O; auto. destruct o; auto; discriminate.
      * eexists. split; [reflexivity|discriminate].
    + exists e. split; auto. intros -> q Q1 Q2. apply He; auto. cbn [app]. apply voxels_in.
      assert (Qc : in_box q c) by (apply clip_bounds_spec; auto). destruct Qc as (X & Y & Z0).
      pose proof (bc_mono src (bmin c) q I ltac:(lia)). pose proof (bc_mono src q (bmax c) I ltac:(lia)).
      unfold in_box. cbn [bmin bmax]. lia.
Qed.

(** * One pass of any filter *)
Lemma mip_separable_gen k flt a add (src tgt : fld (V := R) k) o old new v n sched (G : v3 -> R) :
  let r := pass_res a old new in
  0 < fl_support flt <= 100 -> (k = KSparse -> narrow flt) -> inv k src -> inv k tgt -> holds src (res_box o) v ->
  res_ok r -> fits k tgt (res_box r) -> (forall b, b <> a -> vget b r = vget b o) -> (0 <= vget a add <= 1)%Z -> (0 < n)%nat ->
  (forall p, in_box p (res_box r) -> exists x, mip_voxel flt a (vget a add) src p = Ok x /\ val0 x = G p) ->
  (forall p, in_box p (res_box r) -> (forall s, (0 <= s <= vget a o - 1)%Z -> mip_distance (vget a add) s (vget a p) <= fl_support flt ->
     v (vset a p s) = 0) -> G p = 0) ->
  exists t s, mip_separable flt a add src tgt old new n sched = Ok t /\ inv k t /\ f_ext t = res_box r /\
    (forall b, fits k t b <-> fits k tgt b) /\ holds t (res_box r) G /\
    (let* t0 := f_size 0 0 tgt (res_box r) (res_box r) in
     mip_threads flt a (vget a add) src (mip_blocks r (threading_block_size src)) n sched t0) = Ok s /\
    ms_tgt s = t /\ map snd (ms_log s) = seq 0 (length (mip_blocks r (threading_block_size src))) /\
    (forall i j, In (i, j) (ms_log s) -> (i < n)%nat).
Proof.
  intros r SP NR Is It [Ds Vs] Rr Fr Eq A N HV HZ. unfold mip_separable. fold r. rewrite size_v_res.
  destruct (size_ok 0 0 k tgt (res_box r) (res_box r) It Fr (res_box_nonempty r Rr)) as (t0 & E0 & I0 & X0 & D0 & F0 & V0).
  rewrite E0. cbn [bind].
  assert (BS : (1 <= threading_block_size src)%Z).
  { destruct k; cbn [threading_block_size]; [lia|]. cbn [inv] in Is. destruct Is as [O _ _ _ _ _]. unfold order_ok in O.
    rewrite Z.shiftl_1_l. pose proof (pow2_pos (s_order src) ltac:(lia)). lia. }
  assert (V0' : forall p, in_box p (f_dw t0) -> f_get t0 p = Ok 0).
  { intros p P. rewrite V0 by congruence. destruct k; reflexivity. }
  destruct (threads_ok flt a (vget a add) src (mip_blocks r (threading_block_size src)) t0 G) with (n := n) (sched := sched)
    as (s & E & I & X & D & F & V & L & W); auto.
  - intros p P. apply HV. congruence.
  - rewrite D0. intros b B. destruct (mip_blocks_sub r _ b BS B) as [Sb Nb]. split; auto.
    destruct k; cbn [check_input_empty].
    + exists false. split; auto. discriminate.
    + specialize (NR eq_refl). cbn [inv f_dw f_get] in *.
      assert (Bmin : in_box (bmin b) (res_box r)) by (apply Sb, in_box_min; auto).
      assert (Bmax : in_box (bmax b) (res_box r)) by (apply Sb, in_box_max; auto).
      pose proof (res_ok_axis r a Rr). pose proof (in_res_axis _ _ a Bmin). pose proof (in_res_axis _ _ a Bmax).
      destruct (input_empty_ok src b (fl_support flt) a Is) as (e & Ee & He); try lia; [unfold narrow in NR; lra|].
      exists e. split; auto. intros -> p P. apply HZ; [apply Sb; auto|]. intros z Z1 Z2.
      assert (Q : in_box (vset a p z) (res_box o)) by (apply in_res_vset with r; auto).
      assert (Rg := support_region flt (vget a add) z (vget a p) (vget a (bmin b)) (vget a (bmax b)) NR A
        ltac:(destruct P as (? & ? & ?); destruct a; cbn; lia) Z2).
      pose proof (Vs _ Q) as VV. rewrite He in VV; auto; [congruence|congruence|].
      destruct P as (PX & PY & PZ). unfold in_box. destruct a; cbn in *; lia.
  - rewrite D0. intros p P. apply mip_blocks_cover; auto.
  - rewrite E. cbn [bind]. exists (ms_tgt s), s. split; auto. split; auto. split; [congruence|].
    split; [intros b; rewrite F; apply F0|]. split; [split; [congruence|intros p P; apply V; congruence]|].
    split; auto.
Qed.

Lemma weighted_mean_zero n w v : (forall s, (0 <= s <= n - 1)%Z -> w s = 0 \/ v s = 0) -> weighted_mean n w v = 0.
Proof.
  intros H. unfold weighted_mean. destruct (Rlt_dec _ _); auto. rewrite sum_to_lsum.
  rewrite (lsum_zero (fun s => v s * w s)); [unfold Rdiv; ring|]. intros s S. apply zrange_in in S.
  destruct (Z_lt_le_dec n 0); [lia|]. destruct (H s) as [->| ->]; [lia|ring|ring].
Qed.

(** One voxel of a summing filter. *)
Lemma mip_voxel_sum k flt a add (src : fld (V := R) k) o r v p :
  sum_kind flt -> vanishes flt -> holds src (res_box o) v -> res_ok o -> res_ok r ->
  (forall b, b <> a -> vget b r = vget b o) -> (0 <= add <= 1)%Z -> in_box p (res_box r) ->
  exists x, mip_voxel flt a add src p = Ok x /\
    val0 x = halved_row (fl_eval flt) add (vget a o) (fun s => v (vset a p s)) (vget a p).
Proof.
  intros SK [SP VN] [Ds Vs] Ro Rr Eq A P. pose proof (in_res_axis _ _ a P). pose proof (res_ok_axis r a Rr).
  destruct (mip_voxel_range k flt a add src o p) as (lo & hi & L & H' & B & ->); auto; [lia|].
  match goal with |- context [filter_line _ _ ?w _ _] =>
    destruct (filter_line_sum flt (fun s => f_get src (vset a p s)) (fun s => v (vset a p s)) w lo hi (vget a o)) as (x & -> & E); auto end.
  - pose proof (res_ok_axis o a Ro). lia.
  - intros s S. apply Vs. apply in_res_vset with r; auto. lia.
  - intros s S NS. rewrite mip_dist_eq. apply VN.
    destruct (Rlt_le_dec (fl_support flt) (mip_distance add s (vget a p))) as [|DD]; auto. apply B in DD; auto. contradiction.
  - exists x. split; auto. rewrite E. apply weighted_mean_ext. intros s S. split; auto. rewrite mip_dist_eq. reflexivity.
Qed.

Lemma mip_separable_sum k flt a add (src tgt : fld (V := R) k) o old new v n sched :
  let r := pass_res a old new in
  sum_kind flt -> vanishes flt -> (k = KSparse -> narrow flt) -> inv k src -> inv k tgt -> holds src (res_box o) v ->
  res_ok o -> res_ok r -> fits k tgt (res_box r) -> (forall b, b <> a -> vget b r = vget b o) -> (0 <= vget a add <= 1)%Z -> (0 < n)%nat ->
  exists t s, mip_separable flt a add src tgt old new n sched = Ok t /\ inv k t /\ f_ext t = res_box r /\
    (forall b, fits k t b <-> fits k tgt b) /\
    holds t (res_box r) (fun p => halved_row (fl_eval flt) (vget a add) (vget a o) (fun s => v (vset a p s)) (vget a p)) /\
    (let* t0 := f_size 0 0 tgt (res_box r) (res_box r) in
     mip_threads flt a (vget a add) src (mip_blocks r (threading_block_size src)) n sched t0) = Ok s /\
    ms_tgt s = t /\ map snd (ms_log s) = seq 0 (length (mip_blocks r (threading_block_size src))) /\
    (forall i j, In (i, j) (ms_log s) -> (i < n)%nat).
Proof.
  intros r SK [SP VN] NR Is It Hs Ro Rr Fr Eq A N. apply mip_separable_gen with (o := o) (v := v); auto; fold r.
  - intros p P. apply mip_voxel_sum with r; auto. split; auto.
  - intros p P Z0. apply weighted_mean_zero. intros s S.
    destruct (Rlt_le_dec (fl_support flt) (mip_distance (vget a add) s (vget a p))); auto.
Qed.
