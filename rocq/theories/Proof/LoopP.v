From Coq Require Import ZArith List Lia FinFun.
From Verif Require Import Model.Base Model.LoopM Spec.VoxelSpec.
Import ListNotations.
Open Scope Z_scope.
Lemma zrange_in x lo hi : In x (zrange lo hi) <-> (lo <= x <= hi)%Z.
Proof.
  unfold zrange. rewrite in_map_iff. setoid_rewrite in_seq. split; [intros (n & <- & H); lia|].
  intros H. exists (Z.to_nat (x - lo)). lia.
Qed.
Lemma voxels_in v b : In v (box_voxels b) <-> in_box v b.
Proof.
  unfold box_voxels, in_box. rewrite in_flat_map. split.
  - intros (k & K & H). apply zrange_in in K. apply in_flat_map in H as (j & J & H). apply zrange_in in J.
    apply in_map_iff in H as (i & <- & I). apply zrange_in in I. cbn. lia.
  - intros (X & Y & Z). exists (vz v). split; [apply zrange_in; auto|]. apply in_flat_map. exists (vy v). split; [apply zrange_in; auto|].
    apply in_map_iff. exists (vx v). split; [destruct v; auto|apply zrange_in; auto].
Qed.

Lemma zrange_nodup lo hi : NoDup (zrange lo hi).
Proof. unfold zrange. apply Injective_map_NoDup; [intros a b; lia|apply seq_NoDup]. Qed.
Lemma nodup_app {A} (l m : list A) : NoDup l -> NoDup m -> (forall x, In x l -> ~ In x m) -> NoDup (l ++ m).
Proof.
  intros L M D. induction L as [|a l I L IH]; cbn; auto. constructor.
  - rewrite in_app_iff. intros [H|H]; [auto|]. apply (D a); [left; auto|auto].
  - apply IH. intros x X. apply D. right. auto.
Qed.
Lemma flat_map_nodup {A B} (f : A -> list B) (key : B -> A) l : (forall a b, In b (f a) -> key b = a) ->
  (forall a, NoDup (f a)) -> NoDup l -> NoDup (flat_map f l).
Proof.
  intros K N D. induction D as [|a l I D IH]; cbn; [constructor|]. apply nodup_app; auto.
  intros b H1 H2. apply in_flat_map in H2 as (c & H3 & H2). apply K in H1, H2. congruence.
Qed.
Lemma voxels_nodup b : NoDup (box_voxels b).
Proof.
  unfold box_voxels. apply (flat_map_nodup _ vz); [| |apply zrange_nodup].
  - intros z v H. apply in_flat_map in H as (y & _ & H). apply in_map_iff in H as (x & <- & _). reflexivity.
  - intros z. apply (flat_map_nodup _ vy); [| |apply zrange_nodup].
    + intros y v H. apply in_map_iff in H as (x & <- & _). reflexivity.
    + intros y. apply Injective_map_NoDup; [intros a c E; injection E; auto|apply zrange_nodup].
Qed.

(** A loop that preserves an invariant indexed by the positions already visited. *)
Lemma each_inv {A S} (f : A -> S -> res S) (I : list A -> S -> Prop) l : forall done s,
  I done s -> (forall d a t s, done ++ l = d ++ a :: t -> I d s -> exists s', f a s = Ok s' /\ I (d ++ [a]) s') ->
  exists s', each f l s = Ok s' /\ I (done ++ l) s'.
Proof.
  induction l as [|a l IH]; intros done s H F; cbn [each].
  - exists s. rewrite app_nil_r. auto.
  - destruct (F done a l s eq_refl H) as (s1 & -> & H1). cbn [bind].
    destruct (IH (done ++ [a]) s1 H1) as (s2 & -> & H2).
    + intros d b t s' Q. apply (F d b t). rewrite <- Q, <- app_assoc. reflexivity.
    + exists s2. split; auto. rewrite <- app_assoc in H2. exact H2.
Qed.
