(** Proofs about the filter loop. *)
From Coq Require Import ZArith Reals List Bool Lia Lra Psatz.
From Verif Require Import Model.Base Model.RealM Model.VecM Model.FieldM Model.OpsM Model.LoopM Model.FilterM
  Spec.VoxelSpec Spec.OpsSpec Spec.FilterSpec Proof.BaseP Proof.RealP Proof.LoopP Proof.OpsP.
Import ListNotations.
Open Scope R_scope.

(** * Sums over lists *)
Fixpoint lsum (f : Z -> R) (l : list Z) : R := match l with [] => 0 | s :: t => f s + lsum f t end.
Lemma lsum_app f l m : lsum f (l ++ m) = lsum f l + lsum f m.
Proof. induction l; cbn; [ring|rewrite IHl; ring]. Qed.
Lemma lsum_ext f g l : (forall s, In s l -> f s = g s) -> lsum f l = lsum g l.
Proof. induction l; cbn; intros H; auto. rewrite H, IHl; auto. Qed.
Lemma lsum_zero f l : (forall s, In s l -> f s = 0) -> lsum f l = 0.
Proof. induction l; cbn; intros H; auto. rewrite H, IHl; auto. ring. Qed.
Lemma lsum_nonneg f l : (forall s, In s l -> 0 <= f s) -> 0 <= lsum f l.
Proof. induction l; cbn; intros H; [lra|]. specialize (IHl (fun s I => H s (or_intror I))). specialize (H a (or_introl eq_refl)). lra. Qed.
Lemma lsum_pos f l x : (forall s, In s l -> 0 <= f s) -> In x l -> 0 < f x -> 0 < lsum f l.
Proof.
  intros H I P. apply in_split in I as (l1 & l2 & ->). rewrite lsum_app. cbn.
  assert (0 <= lsum f l1) by (apply lsum_nonneg; intros; apply H, in_or_app; auto).
  assert (0 <= lsum f l2) by (apply lsum_nonneg; intros; apply H, in_or_app; right; right; auto). lra.
Qed.
Lemma lsum_le f g l : (forall s, In s l -> f s <= g s) -> lsum f l <= lsum g l.
Proof. induction l; cbn; intros H; [lra|]. specialize (IHl (fun s I => H s (or_intror I))). specialize (H a (or_introl eq_refl)). lra. Qed.
Lemma lsum_scale c f l : lsum (fun s => c * f s) l = c * lsum f l.
Proof. induction l; cbn; [ring|rewrite IHl; ring]. Qed.

Lemma zrange_empty lo hi : (hi < lo)%Z -> zrange lo hi = [].
Proof. intros H. unfold zrange. replace (Z.to_nat (hi - lo + 1)) with 0%nat by lia. reflexivity. Qed.
Lemma zrange_split lo m hi : (lo <= m + 1)%Z -> (m <= hi)%Z -> zrange lo hi = zrange lo m ++ zrange (m + 1) hi.
Proof.
  intros A B. unfold zrange. replace (Z.to_nat (hi - lo + 1)) with (Z.to_nat (m - lo + 1) + Z.to_nat (hi - (m + 1) + 1))%nat by lia.
  rewrite seq_app, map_app. f_equal. set (a := Z.to_nat (m - lo + 1)). set (n := Z.to_nat (hi - (m + 1) + 1)).
  assert (G : forall c, map (fun i => lo + Z.of_nat i)%Z (seq (a + c) n) = map (fun i => m + 1 + Z.of_nat i)%Z (seq c n)).
  { induction n as [|n IH]; intros c; cbn; auto. f_equal; [lia|]. rewrite <- Nat.add_succ_r. apply IH. }
  cbn [Nat.add]. rewrite <- (G 0%nat), Nat.add_0_r. reflexivity.
Qed.
Lemma sum_to_lsum n f : sum_to n f = lsum f (zrange 0 (Z.of_nat n - 1)).
Proof.
  induction n as [|n IH]; [reflexivity|]. cbn [sum_to]. rewrite IH.
  rewrite (zrange_split 0 (Z.of_nat n - 1) (Z.of_nat (S n) - 1)) by lia. rewrite lsum_app. f_equal.
  replace (Z.of_nat n - 1 + 1)%Z with (Z.of_nat n) by lia. unfold zrange.
  replace (Z.to_nat (Z.of_nat (S n) - 1 - Z.of_nat n + 1)) with 1%nat by lia. cbn. rewrite Z.add_0_r. ring.
Qed.
(** Terms outside a sub-range vanish. *)
Lemma lsum_range n f lo hi : (0 <= n)%Z -> (0 <= lo)%Z -> (hi <= n - 1)%Z ->
  (forall s, (0 <= s <= n - 1)%Z -> ~ (lo <= s <= hi)%Z -> f s = 0) ->
  lsum f (zrange lo hi) = sum_to (Z.to_nat n) f.
Proof.
  intros N L H V. rewrite sum_to_lsum, Z2Nat.id by auto.
  destruct (Z_lt_le_dec hi lo) as [E|E].
  - rewrite (zrange_empty lo hi) by auto. symmetry. apply lsum_zero. intros s I. apply zrange_in in I. apply V; lia.
  - rewrite (zrange_split 0 (lo - 1) (n - 1)) by lia. replace (lo - 1 + 1)%Z with lo by lia.
    rewrite (zrange_split lo hi (n - 1)) by lia. rewrite !lsum_app.
    rewrite (lsum_zero f (zrange 0 (lo - 1))) by (intros s I; apply zrange_in in I; apply V; lia).
    rewrite (lsum_zero f (zrange (hi + 1) (n - 1))) by (intros s I; apply zrange_in in I; apply V; lia). ring.
Qed.

(** * The loop of a summing filter *)
Definition val0 (o : option R) : R := match o with Some v => v | None => 0 end.
Lemma each_sum (val : Z -> res R) (v w : Z -> R) l : (forall s, In s l -> val s = Ok (v s)) -> forall a b,
  each (fun s aw => let* x := val s in Ok (fst aw + x * w s, snd aw + w s)) l (a, b) =
    Ok (a + lsum (fun s => v s * w s) l, b + lsum w l).
Proof.
  induction l as [|s l IH]; intros H a b; cbn [each lsum].
  - rewrite !Rplus_0_r. reflexivity.
  - rewrite H by (left; auto). cbn [bind fst snd]. rewrite IH by (intros; apply H; right; auto).
    f_equal. f_equal; ring.
Qed.
Definition sum_kind (flt : filter) : Prop := fl_op flt = None /\ fl_init flt = 0.
Lemma filter_line_sum flt val v w lo hi n : sum_kind flt -> (0 <= n)%Z -> (0 <= lo)%Z -> (hi <= n - 1)%Z ->
  (forall s, (lo <= s <= hi)%Z -> val s = Ok (v s)) ->
  (forall s, (0 <= s <= n - 1)%Z -> ~ (lo <= s <= hi)%Z -> w s = 0) ->
  exists o, filter_line flt val w lo hi = Ok o /\ val0 o = weighted_mean n w v.
Proof.
  intros [F I] N L H V W. unfold filter_line. rewrite F, I.
  rewrite (each_sum val v w) by (intros s J; apply zrange_in in J; auto).
  eexists. split; [reflexivity|]. cbn [fst snd]. rewrite !Rplus_0_l.
  rewrite !(lsum_range n) by (auto; intros s J K; rewrite W by auto; ring).
  unfold weighted_mean. destruct (rltb_spec 0 (sum_to (Z.to_nat n) w)) as [P|P]; destruct (Rlt_dec _ _); try contradiction; cbn; auto.
  destruct (reqb_spec (sum_to (Z.to_nat n) (fun s => v s * w s)) 0) as [E|E]; cbn; auto. rewrite E. unfold Rdiv. ring.
Qed.

(** * Weighted means *)
Lemma weighted_mean_ext n w w' v v' : (forall s, (0 <= s <= n - 1)%Z -> w s = w' s /\ v s = v' s) ->
  weighted_mean n w v = weighted_mean n w' v'.
Proof.
  intros H. unfold weighted_mean. rewrite !sum_to_lsum.
  destruct (Z_lt_le_dec n 0); [replace (Z.to_nat n) with 0%nat by lia; cbn; destruct (Rlt_dec 0 0); auto|].
  rewrite Z2Nat.id by auto.
  rewrite (lsum_ext w w') by (intros s I; apply zrange_in in I; apply H; lia).
  rewrite (lsum_ext (fun s => v s * w s) (fun s => v' s * w' s)); auto.
  intros s I. apply zrange_in in I. destruct (H s I) as [-> ->]. reflexivity.
Qed.
Lemma weighted_mean_bounds n w v a b x : (forall s, (0 <= s <= n - 1)%Z -> 0 <= w s) ->
  (0 <= x <= n - 1)%Z -> 0 < w x -> (forall s, (0 <= s <= n - 1)%Z -> a <= v s <= b) ->
  a <= weighted_mean n w v <= b.
Proof.
  intros W X P V. unfold weighted_mean. rewrite !sum_to_lsum, Z2Nat.id by lia.
  set (l := zrange 0 (n - 1)).
  assert (Wl : forall s, In s l -> 0 <= w s) by (intros s I; apply W, zrange_in, I).
  assert (T : 0 < lsum w l) by (apply (lsum_pos w l x); auto; apply zrange_in; lia).
  destruct (Rlt_dec _ _); [|contradiction].
  assert (A : a * lsum w l <= lsum (fun s => v s * w s) l).
  { rewrite <- lsum_scale. apply lsum_le. intros s I. apply Rmult_le_compat_r; [auto|]. apply V, zrange_in, I. }
  assert (B : lsum (fun s => v s * w s) l <= b * lsum w l).
  { rewrite <- lsum_scale. apply lsum_le. intros s I. apply Rmult_le_compat_r; [auto|]. apply V, zrange_in, I. }
  split; [apply Rmult_le_reg_r with (lsum w l)|apply Rmult_le_reg_r with (lsum w l)]; auto;
    unfold Rdiv; rewrite Rmult_assoc, Rinv_l, Rmult_1_r by lra; auto.
Qed.
