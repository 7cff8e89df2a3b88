(** C81: sampling a sparse field through its own interpolator gives the bits of the generic one. *)
From Coq Require Import ZArith Reals List Bool Lia Lra.
From Flocq Require Import Core BinarySingleNaN.
From Verif Require Import Model.Base Model.FieldM Model.VecM Model.SparseM Model.FloatM Model.FloatSparseM.
From Verif Require Import Spec.VoxelSpec Spec.SparseSpec Spec.InterpSpec Spec.FloatSpec Spec.FloatSparseSpec.
From Verif Require Import Proof.SparseP Proof.SparseP2 Proof.SparseP3 Proof.SparseP4 Proof.FloatP Proof.FloatP2 Proof.FloatSparseP Props.FloatProps.
Import ListNotations.
Open Scope Z_scope.

(** Values of 16 or 32 bits, all finite: the same outcome at every position, signs of noughts included; for every field
    reached by any history of operations, releases by [operator==] among them. *)
Theorem C81_bits : forall t zero (f : sparse (val t)) x y z, t <> VDouble -> sparse_reached zero (fs_eq t) f -> box_nonempty (s_dw f) -> finite_field f ->
  fs_sample t f x y z = fs_generic t (s_dw f) (sparse_value f) x y z.
Proof.
  intros t zero f x y z N R NE FF. pose proof (any_shape _ _ _ R) as SH. destruct (fast_path t f x y z SH NE) as [E|(e & E & G & q & b & A & I & GB & AL & EM)]; auto.
  rewrite E, G. assert (V : sparse_value f q = Ok e). { rewrite (value_in_block f q (bc f q) b) by auto. unfold read_block. rewrite AL, EM. reflexivity. }
  pose proof (FF q e I V) as Fe. assert (AF : all_finite (t := t) (s_dw f) (fun _ => e)) by (intros p J; exact Fe).
  destruct (f_sample t (fun _ => e) (s_dw f) x y z) as [r| |] eqn:S.
  - destruct (C70_bounded t (fun _ => e) (s_dw f) x y z r N NE AF S) as (Fr & _).
    pose proof (C70_constant t (fun _ => e) (s_dw f) x y z r (B2R e) N NE AF (fun _ _ => eq_refl) S) as Q.
    destruct (Req_dec (B2R e) 0) as [Z|Z]; [|f_equal; apply same_bits; auto].
    destruct e as [s|s| |s m ex H]; try discriminate Fe; [|exfalso; revert Z; cbn; intros Z; apply eq_0_F2R in Z; destruct s; discriminate Z].
    f_equal. symmetry. apply (constant_zero t s (s_dw f) x y z); auto.
  - unfold fs_sample in E. unfold f_sample in S. destruct (f_corner x) as [[[[? ?] ?] ?]| |]; cbn [bind] in E, S; try discriminate. destruct (f_corner y) as [[[[? ?] ?] ?]| |]; cbn [bind] in E, S; try discriminate.
    destruct (f_corner z) as [[[[? ?] ?] ?]| |]; cbn [bind] in E, S; discriminate.
  - unfold fs_sample in E. unfold f_sample in S. destruct (f_corner x) as [[[[? ?] ?] ?]| |]; cbn [bind] in E, S; try discriminate. destruct (f_corner y) as [[[[? ?] ?] ?]| |]; cbn [bind] in E, S; try discriminate.
    destruct (f_corner z) as [[[[? ?] ?] ?]| |]; cbn [bind] in E, S; discriminate.
Qed.

(** Any values, also infinite and not numbers, of any type: the same bits where the voxels around the position are in
    allocated blocks. *)
Theorem C81_allocated : forall t zero (f : sparse (val t)) x y z, sparse_reached zero (fs_eq t) f -> box_nonempty (s_dw f) ->
  (forall q c, around (s_dw f) (at_ x y z) q -> in_block (s_dw f) (s_order f) q c -> block_is_allocated f c = Ok true) ->
  fs_sample t f x y z = fs_generic t (s_dw f) (sparse_value f) x y z.
Proof.
  intros t zero f x y z R NE H. pose proof (any_shape _ _ _ R) as SH. destruct (fast_path t f x y z SH NE) as [E|(e & E & G & q & b & A & I & GB & AL & EM)]; auto. exfalso.
  specialize (H q (bc f q) A). rewrite (block_is_allocated_eq f (bc f q) b SH (bc_in_grid f q SH I) GB), AL in H. discriminate H. apply in_block_bc; auto. apply SH.
Qed.

(** Values of 64 bits: within a few units in the last place of the sample. *)
Theorem C81_double : forall zero (f : sparse (val VDouble)) x y z r s, sparse_reached zero (fs_eq VDouble) f -> box_nonempty (s_dw f) -> finite_field f ->
  (forall q v, in_box q (s_dw f) -> sparse_value f q = Ok v -> (Rabs (B2R v) <= 2 ^ 1019)%R) ->
  fs_sample VDouble f x y z = Ok r -> fs_generic VDouble (s_dw f) (sparse_value f) x y z = Ok s ->
  is_finite r = true /\ is_finite s = true /\ (Rabs (B2R s - B2R r) <= few_ulps (B2R r))%R.
Proof.
  intros zero f x y z r s R NE FF NO ER ES. pose proof (any_shape _ _ _ R) as SH.
  assert (FU : (0 <= few_ulps (B2R r))%R). { unfold few_ulps. pose proof (Rabs_pos (B2R r)). assert (0 < / 2 ^ 1071)%R by (apply Rinv_0_lt_compat, pow_lt; lra). assert (0 < / 2 ^ 49)%R by (apply Rinv_0_lt_compat, pow_lt; lra). unfold Rdiv. nra. }
  destruct (fast_path VDouble f x y z SH NE) as [E|(e & E & G & q & b & A & I & GB & AL & EM)].
  - rewrite ER, ES in E. injection E as ->. assert (X : exists m : v3 -> val VDouble, forall q, in_box q (s_dw f) -> sparse_value f q = Ok (m q)).
    { exists (fun q => match sparse_value f q with Ok v => v | _ => B754_nan end). intros q I. destruct (sparse_value_ok f q SH I) as [v Ev]. rewrite Ev. auto. }
    destruct X as (m & M). rewrite (generic_value VDouble _ _ m) in ES by auto.
    destruct (C70_double m (s_dw f) x y z s NE) as (F & _); auto; [intros q I; apply (FF q); auto|intros _ q I; apply (NO q); auto|].
    split; auto. split; auto. rewrite Rminus_diag_eq, Rabs_R0 by auto. auto.
  - rewrite ER in E. injection E as ->. rewrite ES in G. symmetry in G.
    assert (V : sparse_value f q = Ok e). { rewrite (value_in_block f q (bc f q) b) by auto. unfold read_block. rewrite AL, EM. reflexivity. }
    destruct (C70_double (fun _ => e) (s_dw f) x y z s NE) as (F & L & _); auto; [intros p J; apply (FF q); auto|intros _ p J; apply (NO q); auto|].
    split; [apply (FF q); auto|]. split; auto. destruct (L (B2R e) (B2R e)); [intros; lra|]. apply Rabs_le. lra.
Qed.

(** Positions in the range of [int] have a sample. *)
Theorem C81_defined : forall t zero (f : sparse (val t)) x y z, sparse_reached zero (fs_eq t) f -> box_nonempty (s_dw f) ->
  in_int_range x -> in_int_range y -> in_int_range z -> exists r, fs_sample t f x y z = Ok r.
Proof.
  intros t zero f x y z R NE X Y Z. pose proof (any_shape _ _ _ R) as SH. destruct (fast_path t f x y z SH NE) as [E|(e & E & _)]; [|eauto]. rewrite E.
  assert (M : exists m : v3 -> val t, forall q, in_box q (s_dw f) -> sparse_value f q = Ok (m q)).
  { exists (fun q => match sparse_value f q with Ok v => v | _ => B754_nan end). intros q I. destruct (sparse_value_ok f q SH I) as [v Ev]. rewrite Ev. auto. }
  destruct M as (m & M). rewrite (generic_value t _ _ m) by auto. apply C70_defined; auto.
Qed.

(** Releasing the blocks of equal voxels changes no voxel, except that a nought may change its sign. *)
Theorem C81_release : forall t zero (f : sparse (val t)), sparse_reached zero (fs_eq t) f -> box_nonempty (s_dw f) ->
  exists g n, sparse_release f (check_all_equal (fs_eq t)) = Ok (g, n) /\
    forall q, in_box q (s_dw f) -> exists v w, sparse_value f q = Ok v /\ sparse_value g q = Ok w /\ (w = v \/ exists s s', v = B754_zero s /\ w = B754_zero s').
Proof.
  intros t zero f R NE. pose proof (any_shape _ _ _ R) as SH. destruct (release_shape f (check_all_equal (fs_eq t)) SH) as (g & n & E & _). exists g, n. split; auto.
  destruct (release_eq t f g n SH NE E) as (_ & H). intros q I. destruct (H q I) as (v & w & EV & EW & [Q|Q]); exists v, w; split; auto; split; auto.
  apply fs_eq_zero in Q. destruct Q as [->|(F1 & F2 & Z1 & Z2)]; auto. right.
  assert (Zr : forall u : val t, is_finite u = true -> B2R u = 0%R -> exists s, u = B754_zero s).
  { intros [s|s| |s m ex B] Fu Zu; try discriminate Fu; [eauto|]. exfalso. cbn in Zu. apply eq_0_F2R in Zu. destruct s; discriminate Zu. }
  destruct (Zr v F1 Z1) as (s & ->). destruct (Zr w F2 Z2) as (s' & ->). eauto.
Qed.

(** ** What does not hold *)
Definition ex_box : box := Box (V3 0 0 0) (V3 7 3 3).
Definition ex_ops {V} (v : V) (l : list (sop V)) : list (sop V) := [SSize ex_box ex_box; SOrder 2; SClear v] ++ l.
Definition ex_field {t} (v : val t) (l : list (sop (val t))) : sparse (val t) :=
  match (let* f := sparse_init (B754_zero false : val t) in sparse_run (B754_zero false) (fs_eq t) f (ex_ops v l)) with Ok f => f | _ => Sparse ex_box ex_box 0 (V3 0 0 0) 0 [] end.
Lemma ex_reached t (v : val t) : sparse_reached (B754_zero false) (fs_eq t) (ex_field v []).
Proof.
  destruct (srefines_init (B754_zero false : val t)) as (f0 & E0 & R0). exists (ex_ops v []), f0. split; [|split; auto].
  - apply slegalb_ok. vm_compute. reflexivity.
  - unfold ex_field. rewrite E0. cbn [bind]. vm_compute in E0. injection E0 as <-. vm_compute. reflexivity.
Qed.
Lemma ex_reached1 t (v w : val t) : sparse_reached (B754_zero false) (fs_eq t) (ex_field v [SWrite (V3 1 1 1) w]).
Proof.
  destruct (srefines_init (B754_zero false : val t)) as (f0 & E0 & R0). exists (ex_ops v [SWrite (V3 1 1 1) w]), f0. split; [|split; auto].
  - apply slegalb_ok. vm_compute. reflexivity.
  - unfold ex_field. rewrite E0. cbn [bind]. vm_compute in E0. injection E0 as <-. vm_compute. reflexivity.
Qed.
Lemma ex_dw t (v w : val t) : s_dw (ex_field v []) = ex_box /\ s_dw (ex_field v [SWrite (V3 1 1 1) w]) = ex_box.
Proof. split; vm_compute; reflexivity. Qed.
Lemma ex_value1 t (v w : val t) q : in_box q ex_box -> sparse_value (ex_field v [SWrite (V3 1 1 1) w]) q = Ok v \/ sparse_value (ex_field v [SWrite (V3 1 1 1) w]) q = Ok w.
Proof.
  destruct q as [i j k]. unfold in_box, ex_box. cbn [vx vy vz bmin bmax]. intros (I & J & K).
  assert (I' : i = 0 \/ i = 1 \/ i = 2 \/ i = 3 \/ i = 4 \/ i = 5 \/ i = 6 \/ i = 7) by lia. assert (J' : j = 0 \/ j = 1 \/ j = 2 \/ j = 3) by lia. assert (K' : k = 0 \/ k = 1 \/ k = 2 \/ k = 3) by lia. clear I J K.
  destruct J' as [->|[->|[->| ->]]]; destruct K' as [->|[->|[->| ->]]]; destruct I' as [->|[->|[->|[->|[->|[->|[->| ->]]]]]]]; vm_compute; auto.
Qed.
Lemma ex_value t (v : val t) q : in_box q ex_box -> sparse_value (ex_field v []) q = Ok v.
Proof.
  destruct q as [i j k]. unfold in_box, ex_box. cbn [vx vy vz bmin bmax]. intros (I & J & K).
  assert (I' : i = 0 \/ i = 1 \/ i = 2 \/ i = 3 \/ i = 4 \/ i = 5 \/ i = 6 \/ i = 7) by lia. assert (J' : j = 0 \/ j = 1 \/ j = 2 \/ j = 3) by lia. assert (K' : k = 0 \/ k = 1 \/ k = 2 \/ k = 3) by lia. clear I J K.
  destruct J' as [->|[->|[->| ->]]]; destruct K' as [->|[->|[->| ->]]]; destruct I' as [->|[->|[->|[->|[->|[->|[->| ->]]]]]]]; vm_compute; reflexivity.
Qed.
Lemma ex_fast t (v : val t) : fs_sample t (ex_field v []) at_02 f_half f_half = Ok v.
Proof. vm_compute. reflexivity. Qed.
(** In an unallocated block of [double] the generic interpolator is off by a unit in the last place, the sparse one is not. *)
Theorem C81_double_refuted : exists zero (f : sparse (val VDouble)) x y z r s, sparse_reached zero (fs_eq VDouble) f /\ box_nonempty (s_dw f) /\
  (forall q, in_box q (s_dw f) -> sparse_value f q = Ok c3) /\
  fs_sample VDouble f x y z = Ok r /\ fs_generic VDouble (s_dw f) (sparse_value f) x y z = Ok s /\ r = c3 /\ (B2R s < 3)%R.
Proof.
  exists (B754_zero false), (ex_field (t := VDouble) c3 []), at_02, f_half, f_half, c3.
  assert (Q : sf (fs_generic VDouble (s_dw (ex_field (t := VDouble) c3 [])) (sparse_value (ex_field (t := VDouble) c3 [])) at_02 f_half f_half) = SpecFloat.S754_finite false 6755399441055743 (-51)) by (vm_compute; reflexivity).
  destruct (fs_generic VDouble (s_dw (ex_field (t := VDouble) c3 [])) (sparse_value (ex_field (t := VDouble) c3 [])) at_02 f_half f_half) as [s| |] eqn:E; try discriminate Q. exists s.
  rewrite (proj1 (ex_dw VDouble c3 c3)).
  split; [apply ex_reached|]. split; [unfold box_nonempty; cbn; lia|]. split; [|split; [|split; [reflexivity|split; [reflexivity|]]]].
  - apply ex_value.
  - apply ex_fast.
  - cbn [sf] in Q. destruct s; try discriminate Q. cbn in Q. injection Q as -> -> ->. cbn. unfold F2R. cbn. lra.
Qed.

(** And where it is infinite the generic one gives what is not a number, at the centre of a voxel. *)
Theorem C81_infinite_refuted : forall t, exists zero (f : sparse (val t)) x y z q r s, sparse_reached zero (fs_eq t) f /\ in_box q (s_dw f) /\ at_ x y z = centre q /\
  (forall q, in_box q (s_dw f) -> sparse_value f q = Ok (B754_infinity false)) /\
  fs_sample t f x y z = Ok r /\ fs_generic t (s_dw f) (sparse_value f) x y z = Ok s /\ r = B754_infinity false /\ is_nan s = true.
Proof.
  intros t. exists (B754_zero false), (ex_field (B754_infinity false) []), f_half, f_half, f_half, (V3 0 0 0), (B754_infinity false), B754_nan. rewrite (proj1 (ex_dw t (B754_infinity false) (B754_infinity false))).
  split; [apply ex_reached|]. split; [unfold in_box; cbn; lia|]. split; [unfold at_, centre; destruct half_ok as (_ & E); rewrite E; cbn [vx vy vz]; f_equal; lra|].
  split; [apply ex_value|]. split; [destruct t; vm_compute; reflexivity|]. split; [destruct t; vm_compute; reflexivity|auto].
Qed.
(** A release may turn a nought over: a block of noughts of both signs. *)
Definition zeros (t : vtype) : list (sop (val t)) := [SWrite (V3 1 1 1) (B754_zero true)].
Theorem C81_release_sign_refuted : forall t, exists zero (f g : sparse (val t)) n q, sparse_reached zero (fs_eq t) f /\ sparse_release f (check_all_equal (fs_eq t)) = Ok (g, n) /\ in_box q (s_dw f) /\
  sparse_value f q = Ok (B754_zero true) /\ sparse_value g q = Ok (B754_zero false).
Proof.
  intros t. set (f := ex_field (t := t) (B754_zero false) (zeros t)).
  exists (B754_zero false), f, (match sparse_release f (check_all_equal (fs_eq t)) with Ok (g, _) => g | _ => f end), 1, (V3 1 1 1).
  split; [apply ex_reached1|split; [vm_compute; reflexivity|split; [|split; vm_compute; reflexivity]]].
  unfold f, zeros. rewrite (proj2 (ex_dw t _ _)). unfold in_box; cbn; lia.
Qed.

(** ** Instances *)
(** A field of [float] with an allocated and an unallocated block, sampled in both: the hypotheses are met, and the samples. *)
Definition c2f : f32 := binary_normalize 24 128 gt_24 lt_128 mode_NE 2 0 false.
Definition ex_mixed : sparse (val VFloat) := ex_field (t := VFloat) c3f [SWrite (V3 1 1 1) (c2f : val VFloat)].
Example C81_ex_hyps : sparse_reached (B754_zero false) (fs_eq VFloat) ex_mixed /\ box_nonempty (s_dw ex_mixed) /\ finite_field ex_mixed /\
  block_is_allocated ex_mixed (V3 0 0 0) = Ok true /\ block_is_allocated ex_mixed (V3 1 0 0) = Ok false.
Proof.
  assert (D : s_dw ex_mixed = ex_box) by apply ex_dw.
  split; [apply ex_reached1|split; [rewrite D; unfold box_nonempty; cbn; lia|split; [|split; vm_compute; reflexivity]]].
  intros q v I E. rewrite D in I. destruct (ex_value1 VFloat c3f c2f q I) as [Q|Q]; unfold ex_mixed in E; rewrite E in Q; injection Q as ->; reflexivity.
Qed.
Definition at_2 : f64 := of_int 2.
Definition at_6 : f64 := of_int 6.
Example C81_ex : sf (fs_sample VFloat ex_mixed at_2 at_2 at_2) = SpecFloat.S754_finite false 12058624 (-22) /\
  sf (fs_generic VFloat (s_dw ex_mixed) (sparse_value ex_mixed) at_2 at_2 at_2) = SpecFloat.S754_finite false 12058624 (-22) /\
  sf (fs_sample VFloat ex_mixed at_6 at_2 at_2) = B2SF c3f.
Proof. repeat split; vm_compute; reflexivity. Qed.

Print Assumptions C81_bits.
Print Assumptions C81_allocated.
Print Assumptions C81_double.
Print Assumptions C81_defined.
Print Assumptions C81_release.
Print Assumptions C81_double_refuted.
Print Assumptions C81_infinite_refuted.
Print Assumptions C81_release_sign_refuted.
