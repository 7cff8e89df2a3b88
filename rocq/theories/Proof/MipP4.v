(** [makeMIP]: the sanity check, averages and bounds. *)
From Coq Require Import ZArith Reals List Bool Lia Lra Psatz.
From Verif Require Import Model.Base Model.RealM Model.VecM Model.FieldM Model.DenseM Model.SparseM Model.OpsM Model.LoopM Model.FilterM Model.MipM
  Spec.VoxelSpec Spec.DenseSpec Spec.SparseSpec Spec.OpsSpec Spec.FilterSpec Spec.MipSpec
  Proof.BaseP Proof.RealP Proof.FieldP Proof.LoopP Proof.SparseP Proof.OpsP Proof.FilterP Proof.ResampleP Proof.ResampleP2
  Proof.MipP Proof.MipP2 Proof.MipP3.
Import ListNotations.
Open Scope Z_scope.

Lemma v3_same (a b : v3) : a = b \/ a <> b.
Proof. destruct (v3_eqb a b) eqn:E; [left; apply v3_eqb_eq; auto|right; intros H; apply v3_eqb_eq in H; congruence]. Qed.
Lemma le3_same a b : le3 a b -> (vx a >=? vx b) && (vy a >=? vy b) && (vz a >=? vz b) = true <-> a = b.
Proof.
  intros (X & Y & Z0). rewrite !andb_true_iff. split; [|intros ->; lia]. intros H. apply v3_ext; lia.
Qed.
Lemma sanity_seq (g : nat -> v3) m : forall a, (forall i, (a <= i < a + m)%nat -> le3 (g (S i)) (g i)) ->
  sanity_from (g a) (map g (seq (S a) m)) = true <-> forall i, (a <= i < a + m)%nat -> g (S i) <> g i.
Proof.
  induction m as [|m IH]; intros a L; cbn [seq map sanity_from].
  - split; auto. intros _ i I. lia.
  - assert (La := L a ltac:(lia)). assert (La' := La). destruct La' as (X & Y & Z0).
    replace ((vx (g (S a)) >? vx (g a)) || (vy (g (S a)) >? vy (g a)) || (vz (g (S a)) >? vz (g a))) with false by lia.
    pose proof (le3_same _ _ La) as E. destruct (_ && _ && _).
    + split; [discriminate|]. intros H. exfalso. apply (H a); [lia|]. apply E. auto.
    + rewrite IH by (intros i I; apply L; lia). split.
      * intros H i I. destruct (Nat.eq_dec i a) as [->|N]; [intros N; apply E in N; discriminate|apply H; lia].
      * intros H i I. apply H. lia.
Qed.

Lemma box_size_res' r : res_ok r -> box_size (res_box r) = v3_sub r (V3 1 1 1).
Proof.
  intros R. pose proof (box_size_res r R) as H. unfold v3_add in H. destruct (box_size (res_box r)) as [x y z].
  destruct r as [a b c]. unfold v3_sub. cbn in *. injection H as <- <- <-. f_equal; lia.
Qed.
Lemma v3_sub_inj a b c : v3_sub a c = v3_sub b c -> a = b.
Proof. unfold v3_sub. intros H. injection H as X Y Z0. apply v3_ext; lia. Qed.

Lemma nth_error_eq {A} : forall l m : list A, (forall i, nth_error l i = nth_error m i) -> l = m.
Proof.
  induction l as [|a l IH]; intros [|b m] H; auto; try (specialize (H 0%nat); discriminate).
  f_equal; [specialize (H 0%nat); cbn in H; congruence|]. apply IH. intros i. apply (H (S i)).
Qed.
Lemma sanity_levels {k} (fs : list (fld (V := R) k)) m (r : nat -> v3) :
  length fs = S m -> (forall i f, nth_error fs i = Some f -> f_ext f = res_box (r i)) ->
  (forall i, (i <= m)%nat -> res_ok (r i)) -> (forall i, (i < m)%nat -> le3 (r (S i)) (r i)) ->
  sanity_checks (map (fun f => f_ext f) fs) = true <-> forall i, (i < m)%nat -> r (S i) <> r i.
Proof.
  intros L X R Le. set (g := fun i => v3_sub (r i) (V3 1 1 1)).
  assert (E : map box_size (map (fun f => f_ext f) fs) = map g (seq 0 (S m))).
  { rewrite map_map. apply nth_error_eq. intros i. rewrite !nth_error_map.
    destruct (nth_error fs i) as [f|] eqn:F.
    - assert (I : (i < S m)%nat) by (rewrite <- L; apply nth_error_Some; congruence).
      rewrite (nth_error_nth' _ 0%nat) by (rewrite seq_length; auto). rewrite seq_nth by auto. cbn.
      rewrite (X i f F), box_size_res' by (apply R; lia). reflexivity.
    - apply nth_error_None in F. rewrite (proj2 (nth_error_None (seq 0 (S m)) i)) by (rewrite seq_length; lia). reflexivity. }
  unfold sanity_checks. rewrite E. cbn [seq map]. rewrite sanity_seq.
  - split; intros H i I; specialize (H i ltac:(lia)); intros N; apply H; [unfold g; congruence|apply v3_sub_inj in N; auto].
  - intros i I. destruct (Le i ltac:(lia)) as (X1 & Y1 & Z1). unfold le3, g, v3_sub. cbn. lia.
Qed.

Lemma make_mip_gen k flt (base : fld (V := R) k) b o ms n sched fuel (lev : nat -> fld (V := R) k -> Prop) :
  (forall l f, lev l f -> f_ext f = res_box (level_res b o l) /\ f_dw f = res_box (level_res b o l)) ->
  (forall l prev tgt, (l < 24)%nat -> inv k prev -> lev l prev -> inv k tgt -> (forall w, fits k tgt w <-> fits_new k w) ->
     res_ok (level_res b o l) -> res_ok (level_res b o (S l)) -> le3 (level_res b o (S l)) (level_res b o l) ->
     fits_new k (res_box (level_res b o l)) ->
     exists t, mip_resample flt (res_box b) prev tgt (Z.of_nat (S l)) (halvings o l) n (sched (S l)) = Ok t /\ inv k t /\ lev (S l) t) ->
  inv k base -> lev 0%nat base -> res_ok b -> fits_new k (res_box b) -> (25 <= fuel)%nat ->
  exists fs m, depth b o ms m /\ length fs = S m /\ (forall l f, nth_error fs l = Some f -> lev l f) /\
    (~ stalls b o m -> make_mip fuel flt base ms o n sched = Some (Ok (Some fs))) /\
    (stalls b o m -> make_mip fuel flt base ms o n sched = Some Exn).
Proof.
  intros HR HS I H Rb Fb Lf. destruct (HR _ _ H) as [X D]. rewrite level_res_0 in X, D.
  destruct (levels_gen k flt b o ms n sched lev HR HS Rb Fb 24 0 base fuel) as (fs & m & E & L & A & B & C); auto; try lia.
  { rewrite level_res_0. unfold le3. lia. }
  cbn [Nat.add] in A, B, C.
  assert (Ls : forall l f, nth_error fs l = Some f -> lev l f).
  { intros i f F. assert (i < S m)%nat by (rewrite <- L; apply nth_error_Some; congruence).
    destruct (A i) as (f' & F' & G); [lia|]. rewrite F in F'. injection F' as <-. exact G. }
  assert (Lb : forall i, (i <= m)%nat -> le3 (level_res b o i) b).
  { induction i as [|i IH]; intros J; [rewrite level_res_0; unfold le3; lia|].
    destruct (B i) as [_ S]; [lia|]. specialize (IH ltac:(lia)). unfold le3 in *. lia. }
  assert (Sn : sanity_checks (map (fun f => f_ext f) fs) = true <-> ~ stalls b o m).
  { rewrite (sanity_levels fs m (level_res b o)); auto.
    - split; [intros Q (i & Hi & Ei); apply (Q i); auto|intros Q i Hi Ei; apply Q; exists i; auto].
    - intros i f F. apply Ls in F. apply (HR _ _ F).
    - intros i Hi. apply level_res_ok; auto.
    - intros i Hi. apply B; auto. }
  exists fs, m. split; [split; auto; intros i Hi; apply B; auto|]. split; auto. split; auto.
  unfold make_mip. rewrite X, D. replace (box_eqb (res_box b) (res_box b)) with true by (symmetry; apply box_eqb_eq; auto).
  cbn [negb]. rewrite box_size_res by auto.
  replace (halvings o 0) with o in E by (unfold halvings; cbn; rewrite !Z.div_1_r; destruct o; auto).
  rewrite level_res_0 in E. rewrite E.
  destruct (sanity_checks _); split; intros Q; auto; exfalso.
  - apply (proj1 Sn eq_refl Q).
  - apply (proj2 Sn) in Q. discriminate.
Qed.

Lemma make_mip_ok k flt (base : fld (V := R) k) b o v ms n sched fuel :
  sum_kind flt -> vanishes flt -> (k = KSparse -> narrow flt) -> (0 < n)%nat -> inv k base ->
  f_ext base = res_box b -> holds base (res_box b) v -> res_ok b -> fits_new k (res_box b) -> (25 <= fuel)%nat ->
  exists fs m, depth b o ms m /\ levels_are (fl_eval flt) b o v m fs /\
    (~ stalls b o m -> make_mip fuel flt base ms o n sched = Some (Ok (Some fs))) /\
    (stalls b o m -> make_mip fuel flt base ms o n sched = Some Exn).
Proof.
  intros SK VN NR N I X H Rb Fb Lf.
  destruct (make_mip_gen k flt base b o ms n sched fuel (is_level flt b o v)) as (fs & m & D & L & A & B & C); auto.
  - intros l f [E [F _]]. auto.
  - intros l prev tgt L Ip [_ Hp] It Ft R1 R2 Le Fo.
    destruct (mip_resample_ok k flt b prev tgt (level_res b o l) (level_res b o (S l)) o l _ n (sched (S l)) SK VN NR N Ip Hp)
      as (t & E & I1 & X1 & F1 & H1); auto; [lia|]. exists t. split; auto. split; auto. split; auto.
  - split; rewrite level_res_0; auto.
  - exists fs, m. split; auto. split; [split; auto|auto].
Qed.

(** * Zero offset *)
Definition zero3 : v3 := V3 0 0 0.
Lemma level_add_zero l : level_add 0 l = 0.
Proof. destruct l as [|m]; cbn [level_add]; auto. Qed.
Lemma level_size_zero b l : level_size b 0 (S l) = (level_size b 0 l + 1) / 2.
Proof. rewrite !level_size_cdiv, cdiv_S, !level_add_zero. rewrite !Z.add_0_r. reflexivity. Qed.
Lemma no_stall_zero b ms m : depth b zero3 ms m -> ~ stalls b zero3 m.
Proof.
  intros [H _] (l & L & E). destruct (H l L) as [_ (X & _)]. apply (f_equal vx) in E. cbn [level_res vx zero3] in *.
  rewrite level_size_zero in E. pose proof (Z.div_mod (level_size (vx b) 0 l + 1) 2 ltac:(lia)).
  pose proof (Z.mod_pos_bound (level_size (vx b) 0 l + 1) 2 ltac:(lia)). lia.
Qed.

(** * The box filter *)
Open Scope R_scope.
(** The mean of voxels [c] and [c + 1], as far as they exist. *)
Definition pair_mean (n : Z) (v : Z -> R) (c : Z) : R :=
  match (0 <=? c)%Z && (c <? n)%Z, (0 <=? c + 1)%Z && (c + 1 <? n)%Z with
  | true, true => (v c + v (c + 1)%Z) / 2
  | true, false => v c
  | false, true => v (c + 1)%Z
  | false, false => 0
  end.
Lemma lsum_single f n c : (forall s, (0 <= s <= n - 1)%Z -> s <> c -> f s = 0) -> (0 <= n)%Z ->
  sum_to (Z.to_nat n) f = if (0 <=? c)%Z && (c <? n)%Z then f c else 0.
Proof.
  intros H N. destruct ((0 <=? c)%Z && (c <? n)%Z) eqn:E.
  - rewrite <- (lsum_range n f c c) by (try lia; intros s S1 S2; apply H; lia).
    unfold zrange. replace (Z.to_nat (c - c + 1)) with 1%nat by lia. cbn. rewrite Z.add_0_r. ring.
  - rewrite sum_to_lsum, Z2Nat.id by auto. apply lsum_zero. intros s S. apply zrange_in in S. apply H; lia.
Qed.
Lemma sum_to_add n f g : sum_to n (fun s => f s + g s) = sum_to n f + sum_to n g.
Proof. induction n; cbn; [ring|rewrite IHn; ring]. Qed.
Lemma sum_to_ext n f g : (forall s, (0 <= s < Z.of_nat n)%Z -> f s = g s) -> sum_to n f = sum_to n g.
Proof. induction n as [|n IH]; intros H; cbn; auto. rewrite IH by (intros; apply H; lia). rewrite H by lia. reflexivity. Qed.
Lemma lsum_two f n c : (forall s, (0 <= s <= n - 1)%Z -> s <> c -> s <> (c + 1)%Z -> f s = 0) -> (0 <= n)%Z ->
  sum_to (Z.to_nat n) f = (if (0 <=? c)%Z && (c <? n)%Z then f c else 0) + (if (0 <=? c + 1)%Z && (c + 1 <? n)%Z then f (c + 1)%Z else 0).
Proof.
  intros H N.
  rewrite (sum_to_ext _ f (fun s => (if (s =? c)%Z then f s else 0) + (if (s =? c + 1)%Z then f s else 0))).
  - rewrite sum_to_add. rewrite (lsum_single (fun s => if (s =? c)%Z then f s else 0) n c), (lsum_single (fun s => if (s =? c + 1)%Z then f s else 0) n (c + 1)); auto.
    + rewrite !Z.eqb_refl. reflexivity.
    + intros s S E. destruct (Z.eqb_spec s (c + 1)); [contradiction|auto].
    + intros s S E. destruct (Z.eqb_spec s c); [contradiction|auto].
  - intros s S. destruct (Z.eqb_spec s c); destruct (Z.eqb_spec s (c + 1)); try lia; try ring. rewrite H by lia. ring.
Qed.
Lemma box_weight add s t : box_eval 1 (mip_distance add s t) = if (s =? 2 * t - add)%Z || (s =? 2 * t - add + 1)%Z then 1 else 0.
Proof.
  unfold box_eval, mip_distance.
  set (x := IZR s + 1 / 2 - (2 * (IZR t + 1 / 2) - IZR add)).
  assert (X : x = IZR (s - (2 * t - add)) - 1 / 2) by (unfold x; rewrite !minus_IZR, mult_IZR; lra).
  replace (Rabs x / 2 / 1) with (Rabs x / 2) by field.
  destruct (rleb_spec (Rabs x / 2) (1 / 2)) as [L|L].
  - assert (L' : Rabs x <= 1) by lra. apply Rabs_le_inv in L'. rewrite X in L'.
    assert (-1 < s - (2 * t - add))%Z by (apply lt_IZR; lra). assert (s - (2 * t - add) < 2)%Z by (apply lt_IZR; lra).
    replace ((s =? 2 * t - add)%Z || (s =? 2 * t - add + 1)%Z) with true by lia. reflexivity.
  - destruct ((s =? 2 * t - add)%Z || (s =? 2 * t - add + 1)%Z) eqn:E; auto. exfalso. apply L.
    assert (s - (2 * t - add) = 0 \/ s - (2 * t - add) = 1)%Z as [Z0|Z0] by lia; rewrite X, Z0;
      [rewrite Rabs_left by lra|rewrite Rabs_pos_eq by lra]; lra.
Qed.
Lemma halved_row_box add n v t : (0 <= n)%Z -> halved_row (box_eval 1) add n v t = pair_mean n v (2 * t - add).
Proof.
  intros N. unfold halved_row, weighted_mean. set (c := (2 * t - add)%Z).
  rewrite (lsum_two (fun s => box_eval 1 (mip_distance add s t)) n c); auto.
  2: { intros s S A B. rewrite box_weight. fold c. replace ((s =? c)%Z || (s =? c + 1)%Z) with false by lia. reflexivity. }
  rewrite (lsum_two (fun s => v s * box_eval 1 (mip_distance add s t)) n c); auto.
  2: { intros s S A B. rewrite box_weight. fold c. replace ((s =? c)%Z || (s =? c + 1)%Z) with false by lia. ring. }
  rewrite !box_weight. fold c. rewrite Z.eqb_refl. replace ((c + 1 =? c)%Z || (c + 1 =? c + 1)%Z) with true by lia. cbn [orb].
  unfold pair_mean. destruct ((0 <=? c)%Z && (c <? n)%Z), ((0 <=? c + 1)%Z && (c + 1 <? n)%Z); destruct (Rlt_dec _ _); try lra; field.
Qed.

(** * Bounds *)
Lemma halved_row_bounds flt n v t a b : mean_filter flt -> (1 <= n)%Z -> (0 <= t <= (n + 1) / 2 - 1)%Z ->
  (forall s, (0 <= s <= n - 1)%Z -> a <= v s <= b) -> a <= halved_row (fl_eval flt) 0 n v t <= b.
Proof.
  intros F N T V. apply mean_filter_ok in F as (_ & F1 & F2).
  pose proof (Z.div_mod (n + 1) 2 ltac:(lia)). pose proof (Z.mod_pos_bound (n + 1) 2 ltac:(lia)).
  apply weighted_mean_bounds with (2 * t)%Z; auto; [intros s S; apply F1, mip_distance_nonneg|lia|].
  apply F2. split; [apply mip_distance_nonneg|]. unfold mip_distance. rewrite mult_IZR.
  replace (2 * IZR t + 1 / 2 - (2 * (IZR t + 1 / 2) - 0)) with (- (1 / 2)) by lra. rewrite Rabs_left; lra.
Qed.
Lemma level_val_bounds flt b v lo hi : mean_filter flt -> res_ok b -> (forall q, in_box q (res_box b) -> lo <= v q <= hi) ->
  forall l p, in_box p (res_box (level_res b zero3 l)) -> lo <= level_val (fl_eval flt) b zero3 v l p <= hi.
Proof.
  intros F (Bx & By & Bz) V. induction l as [|l IH]; intros p P; cbn [level_val].
  - apply V. rewrite level_res_0 in P. auto.
  - destruct P as (X & Y & Z0). cbn [level_res res_box bmin bmax vx vy vz zero3] in *. rewrite level_size_zero in X, Y, Z0.
    pose proof (level_size_pos (vx b) 0 l ltac:(lia)). pose proof (level_size_pos (vy b) 0 l ltac:(lia)). pose proof (level_size_pos (vz b) 0 l ltac:(lia)).
    unfold halved. cbn [level_adds zero3 vx vy vz]. rewrite !level_add_zero.
    apply halved_row_bounds; auto. intros z Hz. apply halved_row_bounds; auto. intros y Hy. apply halved_row_bounds; auto. intros x Hx.
    apply IH. unfold in_box. cbn [level_res res_box bmin bmax vx vy vz zero3] in *. lia.
Qed.
