(** Proofs about pre-filtered minimum and maximum fields. *)
From Coq Require Import ZArith Reals List Bool Lra Lia.
From Verif Require Import Model.Base Model.LoopM Model.RealM Model.VecM Model.MatM Model.CurveM Model.CoordM Model.MapM Model.DenseM Model.OpsM
  Model.FilterM Model.MipM Model.CopyM Model.RayM Model.GroupM Model.MipMapM Model.MinMaxM
  Spec.VoxelSpec Spec.CoordSpec Spec.MapSpec Spec.GroupSpec Spec.MinMaxSpec Proof.LoopP Proof.MatP Proof.PointP Proof.MapP Proof.RealP Proof.CoordP
  Proof.GroupP.
Import ListNotations.
Open Scope R_scope.

Section Query.
Variables (op : R -> R -> R) (le : R -> R -> Prop).
Hypotheses (le_refl : forall a, le a a) (le_trans : forall a b c, le a b -> le b c -> le a c)
  (op_l : forall a b, le (op a b) a) (op_r : forall a b, le (op a b) b) (op_or : forall a b, op a b = a \/ op a b = b).

Lemma fold_prefilt g l : forall a, le (fold_left (prefilt_one op g) l a) a /\
  (forall v, In v l -> le (fold_left (prefilt_one op g) l a) (g_value g v)) /\
  (fold_left (prefilt_one op g) l a = a \/ exists v, In v l /\ fold_left (prefilt_one op g) l a = g_value g v).
Proof.
  induction l as [|v l IH]; intros a; cbn [fold_left]; [split; [|split]; auto; contradiction|].
  destruct (IH (prefilt_one op g a v)) as (A & B & C). set (c := fold_left _ _ _) in *. unfold prefilt_one in A, C. split; [|split].
  - eapply le_trans; [exact A|apply op_r].
  - intros u [<-|I]; [|apply B; auto]. eapply le_trans; [exact A|apply op_l].
  - destruct C as [C|(u & I & C)]; [|right; exists u; split; cbn; auto].
    destruct (op_or (g_value g v) a) as [E|E]; rewrite E in C; [right; exists v; cbn; auto|auto].
Qed.

(** What a level shows of a query. *)
Lemma level_box_ok g b : affine_field g -> exists d, level_box g b = Some d /\ (forall v, in_box v d -> in_box v (g_dw g)) /\
  forall v w, in_box v (g_dw g) -> natural_voxel v -> at_voxel g v w -> inside (rmin b) (rmax b) w -> in_box v d.
Proof.
  intros A. unfold level_box. destruct (query_bounds g b A) as (ob & vb & -> & -> & H). eexists. split; [reflexivity|]. split.
  - intros v V. apply clip_in in V. apply V.
  - intros v w I (J & P) (p & Q & C) W. apply clip_in. split; auto. apply discrete_in with p; auto. apply (H w); auto.
Qed.
Definition shows (q : option rbox) (levels : list gfield) (g : gfield) (d : box) : Prop :=
  In g levels /\ (forall v, in_box v d -> in_box v (g_dw g)) /\
  forall v w, in_box v (g_dw g) -> natural_voxel v -> at_voxel g v w -> in_query q w -> in_box v d.
Lemma choose_level_ok b levels : levels <> [] -> (forall g, In g levels -> affine_field g) ->
  exists g d, choose_level b levels = Some (Some (g, d)) /\ shows (Some b) levels g d.
Proof.
  induction levels as [|g r IH]; intros N A; [congruence|]. cbn [choose_level].
  destruct (level_box_ok g b) as (d & -> & S1 & S2); [apply A; cbn; auto|].
  assert (S : shows (Some b) (g :: r) g d) by (split; [cbn; auto|split; auto]).
  destruct (few d); [exists g, d; auto|]. destruct r as [|g' r]; [exists g, d; auto|].
  destruct IH as (g1 & d1 & E & I & T); [congruence|intros; apply A; cbn; auto|]. exists g1, d1. split; auto. split; [cbn; auto|auto].
Qed.
Lemma choose_ok q levels : levels <> [] -> (forall g, In g levels -> affine_field g) ->
  exists g d, choose q levels = Some (Some (g, d)) /\ shows q levels g d.
Proof.
  intros N A. destruct q as [b|]; [apply choose_level_ok; auto|]. cbn [choose]. unfold coarsest.
  destruct (rev levels) as [|g r] eqn:E; [apply (f_equal (@length _)) in E; rewrite rev_length in E; destruct levels; [congruence|discriminate]|].
  exists g, (g_dw g). split; auto. split; [|split; auto]. apply in_rev. rewrite E. cbn. auto.
Qed.

Lemma prefilt_ok q bases levels : Forall2 (prefilters le) bases levels -> forall a,
  exists c, prefilt_vec op q levels a = Some c /\ bounds_all le bases q a c.
Proof.
  induction 1 as [|base lv bases levels (N & P) _ IH]; intros a.
  - exists a. split; auto. split; [|split]; auto. contradiction.
  - cbn [prefilt_vec]. destruct (choose_ok q lv N) as (g & d & -> & I & S1 & S2); [intros; apply P; auto|].
    destruct (P g I) as (_ & L1 & L2). destruct (fold_prefilt g (box_voxels d) a) as (A & B & C).
    set (a' := fold_left _ _ _) in *. clearbody a'. destruct (IH a') as (c & -> & X & Y & Z).
    exists c. split; auto. split; [|split].
    + eapply le_trans; eauto.
    + intros h v [<-|J] M; [|apply Y; auto]. destruct M as (V & W & T & w & Qw & At).
      destruct (L1 v w V (conj W T) At) as (u & U1 & U2 & U3 & U4). eapply le_trans; [exact X|]. eapply le_trans; [|exact U4].
      apply B. apply voxels_in. apply (S2 u w); auto.
    + destruct Z as [->|(h & v & J & V & E)]; [|right; exists h, v; split; cbn; auto].
      destruct C as [->|(u & J & E)]; auto. right. apply voxels_in in J. destruct (L2 u (S1 u J)) as (v & V & E').
      exists base, v. split; [cbn; auto|]. split; auto. congruence.
Qed.
End Query.

(** How many voxels a query visits. *)
Lemma zrange_length lo hi : length (zrange lo hi) = Z.to_nat (hi - lo + 1).
Proof. unfold zrange. rewrite map_length, seq_length. reflexivity. Qed.
Lemma flat_map_length {A B : Type} (f : A -> list B) n l : (forall a, length (f a) = n) -> length (flat_map f l) = (length l * n)%nat.
Proof. intros E. induction l as [|a l IH]; cbn [flat_map length Nat.mul]; auto. rewrite app_length, E, IH. reflexivity. Qed.
Lemma voxels_length b : length (box_voxels b) =
  (Z.to_nat (vz (bmax b) - vz (bmin b) + 1) * (Z.to_nat (vy (bmax b) - vy (bmin b) + 1) * Z.to_nat (vx (bmax b) - vx (bmin b) + 1)))%nat.
Proof.
  unfold box_voxels. rewrite (flat_map_length _ (Z.to_nat (vy (bmax b) - vy (bmin b) + 1) * Z.to_nat (vx (bmax b) - vx (bmin b) + 1))).
  - rewrite zrange_length. reflexivity.
  - intros z. rewrite (flat_map_length _ (Z.to_nat (vx (bmax b) - vx (bmin b) + 1))); [rewrite zrange_length; reflexivity|].
    intros y. rewrite map_length, zrange_length. reflexivity.
Qed.
Lemma few_voxels b : few b = true -> (length (box_voxels b) <= 27)%nat.
Proof.
  intros F. rewrite voxels_length. unfold few, box_size in F.
  destruct (box_empty b) eqn:Em.
  - unfold box_empty in Em. rewrite !orb_true_iff, !Z.ltb_lt in Em.
    assert (Z : forall x, (x < 0)%Z -> Z.to_nat (x + 1) = O) by (intros; lia).
    destruct Em as [[Em|Em]|Em]; [rewrite (Z (vx (bmax b) - vx (bmin b))%Z) by lia|rewrite (Z (vy (bmax b) - vy (bmin b))%Z) by lia|rewrite (Z (vz (bmax b) - vz (bmin b))%Z) by lia];
      rewrite ?Nat.mul_0_r, ?Nat.mul_0_l; lia.
  - unfold v3_sub in F. cbn [vx vy vz] in F. apply Z.leb_le in F.
    assert (N : forall x, (x <= 2)%Z -> (Z.to_nat (x + 1) <= 3)%nat) by (intros; lia).
    pose proof (N (vx (bmax b) - vx (bmin b))%Z ltac:(lia)). pose proof (N (vy (bmax b) - vy (bmin b))%Z ltac:(lia)).
    pose proof (N (vz (bmax b) - vz (bmin b))%Z ltac:(lia)).
    change 27%nat with (3 * (3 * 3))%nat. repeat apply Nat.mul_le_mono; auto.
Qed.
Lemma small_few b d : (forall v, in_box v d -> in_box v b) ->
  (vx (bmax b) - vx (bmin b) <= 2 /\ vy (bmax b) - vy (bmin b) <= 2 /\ vz (bmax b) - vz (bmin b) <= 2)%Z -> few d = true.
Proof.
  intros I S. unfold few, box_size. destruct (box_empty d) eqn:Em; [reflexivity|]. unfold box_empty in Em. rewrite !orb_false_iff, !Z.ltb_ge in Em.
  destruct (I (bmin d)) as (A1 & A2 & A3); [unfold in_box; lia|]. destruct (I (bmax d)) as (B1 & B2 & B3); [unfold in_box; lia|].
  apply Z.leb_le. unfold v3_sub. cbn [vx vy vz]. lia.
Qed.
Lemma choose_few q levels : ends_small levels -> (forall g, In g levels -> affine_field g) ->
  exists g d, choose q levels = Some (Some (g, d)) /\ In g levels /\ (forall v, in_box v d -> in_box v (g_dw g)) /\ (length (box_voxels d) <= 27)%nat.
Proof.
  intros (r & g & -> & S) A. destruct q as [b|]; cbn [choose].
  - induction r as [|g1 r IH]; cbn [app choose_level].
    + destruct (level_box_ok g b) as (d & -> & S1 & _); [apply A; cbn; auto|]. pose proof (small_few _ _ S1 S) as F. rewrite F. exists g, d.
      split; auto. split; [cbn; auto|]. split; auto. apply few_voxels; auto.
    + destruct (level_box_ok g1 b) as (d & -> & S1 & _); [apply A; cbn; auto|]. destruct (few d) eqn:F.
      * exists g1, d. split; auto. split; [cbn; auto|]. split; auto. apply few_voxels; auto.
      * destruct IH as (g2 & d2 & E & I & H); [intros; apply A; cbn; auto|]. exists g2, d2.
        destruct (r ++ [g]) eqn:Er; [destruct r; discriminate|]. split; auto. split; [cbn; auto|auto].
  - unfold coarsest. rewrite rev_unit. exists g, (g_dw g). split; auto. split; [apply in_app_iff; cbn; auto|]. split; auto.
    apply few_voxels. apply (small_few (g_dw g)); auto.
Qed.
Lemma fold_values op g l a : fold_left (prefilt_one op g) l a = fold_right op a (map (g_value g) (rev l)).
Proof. rewrite <- fold_left_rev_right. induction (rev l) as [|v r IH]; cbn; auto. rewrite IH. reflexivity. Qed.
Lemma prefilt_cost op q l : Forall (fun levels => ends_small levels /\ forall g, In g levels -> affine_field g) l -> forall a,
  exists values c, prefilt_vec op q l a = Some c /\ combines op (concat l) values a c /\ (length values <= 27 * length l)%nat.
Proof.
  induction 1 as [|levels l (S & A) _ IH]; intros a.
  - exists [], a. split; auto. split; [split; auto; contradiction|cbn; lia].
  - cbn [prefilt_vec]. destruct (choose_few q levels S A) as (g & d & -> & I & D & L). rewrite fold_values.
    set (new := map (g_value g) (rev (box_voxels d))). destruct (IH (fold_right op a new)) as (vs & c & -> & (-> & V) & N).
    exists (vs ++ new), (fold_right op (fold_right op a new) vs). split; auto. split; [split|].
    + rewrite fold_right_app. reflexivity.
    + intros x X. apply in_app_iff in X. destruct X as [X|X].
      * destruct (V x X) as (g' & v & G & X'). exists g', v. split; auto. cbn [concat]. apply in_app_iff. auto.
      * unfold new in X. apply in_map_iff in X. destruct X as (v & <- & X). apply in_rev, voxels_in in X. exists g, v. split; auto.
        cbn [concat]. apply in_app_iff. auto.
    + rewrite app_length. unfold new. rewrite map_length, rev_length. cbn [length]. lia.
Qed.
