(** Laws of the generic field operations. *)
From Coq Require Import ZArith List Bool Lia.
From Verif Require Import Model.Base Model.FieldM Model.DenseM Model.SparseM Model.OpsM Model.LoopM
  Spec.VoxelSpec Spec.DenseSpec Spec.SparseSpec Spec.OpsSpec
  Proof.BaseP Proof.DenseP Proof.SparseP Proof.SparseP3 Proof.SparseP4 Proof.LoopP.
Import ListNotations.
Open Scope Z_scope.

Section P.
Context {V : Type}.
Variables dflt zero : V.

Definition inv (k : kind) : fld (V := V) k -> Prop :=
  match k with KDense => fun f => shape f | KSparse => fun f => sshape f end.
(** The value of every voxel after [setSize]. *)
Definition fill (k : kind) : V := match k with KDense => dflt | KSparse => zero end.

Lemma inv_new k : exists f, f_new zero k = Ok f /\ inv k f /\ forall b, fits k f b <-> fits_new k b.
Proof.
  destruct k; cbn [f_new fits fits_new].
  - eexists. split; [reflexivity|]. split; [apply (refines_init dflt)|tauto].
  - destruct (srefines_init zero) as (f & E & H). exists f. split; auto. split; [apply H|].
    destruct H as [_ _ _ O _]. rewrite O. cbn. tauto.
Qed.

Lemma inv_reached k eqb f : decides_eq eqb -> f_reached dflt zero eqb k f -> inv k f.
Proof.
  intros D H. destruct k; cbn [f_reached inv] in *.
  - destruct H as (l & L & E). destruct (refines_run dflt l _ _ (refines_init dflt) L) as (g & E' & G).
    rewrite E in E'. injection E' as <-. apply G.
  - apply (reached_shape zero eqb); auto.
Qed.

Lemma get_ok k (f : fld k) p : inv k f -> in_box p (f_dw f) -> exists v, f_get f p = Ok v.
Proof.
  destruct k; cbn [inv f_dw f_get]; intros I B.
  - rewrite dense_value_lin by auto. destruct (dense_index_ok f p I B) as [_ L]. apply arr_get_ok; auto.
  - apply sparse_value_ok; auto.
Qed.

Lemma set_ok k (f : fld k) p v : inv k f -> in_box p (f_dw f) ->
  exists f', f_set f p v = Ok f' /\ inv k f' /\ f_ext f' = f_ext f /\ f_dw f' = f_dw f /\
    (forall b, fits k f' b <-> fits k f b) /\ f_get f' p = Ok v /\
    forall q, in_box q (f_dw f) -> q <> p -> f_get f' q = f_get f q.
Proof.
  destruct k; cbn [inv f_dw f_ext f_get f_set fits]; intros I B.
  - destruct (dense_write_ok f p v I B) as (f' & E & S & X & D & G & O). exists f'. tauto.
  - destruct (sparse_write_ok f p v I B) as (f' & b & b' & E & S & X & D & O & _).
    exists f'. split; auto. split; auto. split; auto. split; auto.
    split; [rewrite O; tauto|].
    pose proof (sparse_write_value f p v f' I B E) as H. split.
    + rewrite H by auto. destruct (v3_dec p p); congruence.
    + intros q Q N. rewrite H by auto. destruct (v3_dec q p); congruence.
Qed.

Lemma size_ok k (f : fld k) e dw : inv k f -> fits k f dw -> box_nonempty dw ->
  exists f', f_size dflt zero f e dw = Ok f' /\ inv k f' /\ f_ext f' = e /\ f_dw f' = dw /\
    (forall b, fits k f' b <-> fits k f b) /\ forall q, in_box q dw -> f_get f' q = Ok (fill k).
Proof.
  destruct k; cbn [inv f_dw f_ext f_get f_size fits fill]; intros I W N.
  - destruct (dense_set_size_ok dflt e dw f W) as (f' & t & E & S & X & D & T & G).
    exists f'. rewrite E. cbn [bind]. destruct t; [exfalso; apply T; auto|]. tauto.
  - destruct (setup_blocks_ok zero e dw (s_order f) (ss_order _ I) W) as (f' & E & S & X & D & O & L).
    exists f'. split; [exact E|]. split; auto. split; auto. split; auto. split; [rewrite O; tauto|].
    intros q Q. rewrite (setup_blocks_value f' (block_init zero)); auto; try congruence.
    rewrite L at 1. rewrite L, repeat_length. reflexivity.
Qed.

(** A loop over voxels that writes [v] where [g p = Ok (Some v)]. *)
Lemma fill_ok k (g : v3 -> res (option V)) (h : v3 -> option V) l (f : fld k) : inv k f ->
  (forall p, In p l -> in_box p (f_dw f) /\ g p = Ok (h p)) ->
  exists f', each (fun p s => let* o := g p in match o with Some v => f_set s p v | None => Ok s end) l f = Ok f' /\
    inv k f' /\ f_ext f' = f_ext f /\ f_dw f' = f_dw f /\ (forall b, fits k f' b <-> fits k f b) /\
    forall q, in_box q (f_dw f) ->
      (In q l -> f_get f' q = match h q with Some v => Ok v | None => f_get f q end) /\
      (~ In q l -> f_get f' q = f_get f q).
Proof.
  intros I H.
  destruct (each_inv (fun p s => let* o := g p in match o with Some v => f_set s p v | None => Ok s end)
    (fun done s => inv k s /\ f_ext s = f_ext f /\ f_dw s = f_dw f /\ (forall b, fits k s b <-> fits k f b) /\
      forall q, in_box q (f_dw f) ->
      (In q done -> f_get s q = match h q with Some v => Ok v | None => f_get f q end) /\
      (~ In q done -> f_get s q = f_get f q)) l [] f) as (f' & E & C).
  - split; [exact I|]. split; [reflexivity|]. split; [reflexivity|]. split; [tauto|].
    intros q Q. split; [intros []|auto].
  - intros d a t s Eq (Is & Xs & Ds & Fs & Vs). cbn [app] in Eq.
    destruct (H a) as [Ba Ga]; [rewrite Eq; apply in_or_app; right; left; auto|].
    rewrite Ga. cbn [bind]. destruct (h a) as [v|] eqn:Ha.
    + destruct (set_ok k s a v Is) as (s' & -> & Is' & Xs' & Ds' & Fs' & G1 & G2); [congruence|].
      exists s'. split; auto. split; auto. split; [congruence|]. split; [congruence|].
      split; [intros b; rewrite Fs', Fs; tauto|].
      intros q Q. destruct (v3_dec q a) as [->|N].
      * split; [intros _; rewrite Ha; auto|]. intros NI. exfalso. apply NI, in_or_app. right. left. auto.
      * rewrite G2 by (auto; congruence). destruct (Vs q Q) as [V1 V2]. split.
        -- intros HI. apply V1. apply in_app_or in HI. destruct HI as [|[<-|[]]]; auto. congruence.
        -- intros HI. apply V2. intros J. apply HI, in_or_app. auto.
    + exists s. split; auto. split; auto. split; [congruence|]. split; [congruence|]. split; auto.
      intros q Q. destruct (Vs q Q) as [V1 V2]. split.
      * intros HI. destruct (in_dec v3_dec q d) as [J|J]; [auto|].
        apply in_app_or in HI. destruct HI as [|[<-|[]]]; [contradiction|]. rewrite Ha. auto.
      * intros HI. apply V2. intros J. apply HI, in_or_app. auto.
  - exists f'. cbn [app] in C. tauto.
Qed.
End P.
