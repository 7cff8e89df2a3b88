(** MIP levels of minimum and maximum filters. *)
From Coq Require Import ZArith Reals List Bool Lia Lra Psatz.
From Verif Require Import Model.Base Model.RealM Model.VecM Model.FieldM Model.DenseM Model.SparseM Model.OpsM Model.LoopM Model.FilterM Model.MipM
  Spec.VoxelSpec Spec.DenseSpec Spec.SparseSpec Spec.OpsSpec Spec.FilterSpec Spec.MipSpec
  Proof.BaseP Proof.RealP Proof.FieldP Proof.LoopP Proof.SparseP Proof.OpsP Proof.FilterP Proof.ResampleP Proof.ResampleP2
  Proof.MipP Proof.MipP2 Proof.MipP3 Proof.MipP4.
Import ListNotations.
Open Scope R_scope.

Lemma near_pair s t : mip_distance 0 s t <= 1 / 2 <-> (s / 2 = t)%Z.
Proof.
  pose proof (box_weight 0 s t) as H. pose proof (box_eval_pos 1 (mip_distance 0 s t) ltac:(lra)) as P.
  replace (1 / 2) with (1 / 2 * 1) in * by ring. replace (1 / 2 * 1) with (1 / 2) in * by ring. rewrite <- P, H.
  pose proof (Z.div_mod s 2 ltac:(lia)). pose proof (Z.mod_pos_bound s 2 ltac:(lia)).
  destruct ((s =? 2 * t - 0)%Z || (s =? 2 * t - 0 + 1)%Z) eqn:E; split; intros; try lra; try lia.
Qed.

Section Extremum.
Variable op : R -> R -> R.
Variable rel : R -> R -> Prop.
Variable top : R.
Hypothesis rel_refl : forall a, rel a a.
Hypothesis rel_trans : forall a b c, rel a b -> rel b c -> rel a c.
Hypothesis op_l : forall a b, rel (op a b) a.
Hypothesis op_r : forall a b, rel (op a b) b.
Hypothesis op_in : forall a b, op a b = a \/ op a b = b.
Variable inside : R -> Prop.
Hypothesis inside_top : forall a, inside a -> op top a = a /\ a <> top.

Lemma mip_voxel_ext k flt a (src : fld (V := R) k) o r v p :
  ext_kind op top flt 1 -> holds src (res_box o) v -> (forall q, in_box q (res_box o) -> inside (v q)) -> res_ok o -> res_ok r ->
  (forall b, b <> a -> vget b r = vget b o) -> vget a r = ((vget a o + 1) / 2)%Z -> in_box p (res_box r) ->
  exists x, mip_voxel flt a 0 src p = Ok (Some x) /\
    (exists s, (0 <= s <= vget a o - 1)%Z /\ (s / 2 = vget a p)%Z /\ x = v (vset a p s)) /\
    (forall s, (0 <= s <= vget a o - 1)%Z -> (s / 2 = vget a p)%Z -> rel x (v (vset a p s))).
Proof.
  intros (Ko & Ki & Ke & Ks & Kw) [Ds Vs] In' Ro Rr Eq Er P. pose proof (in_res_axis _ _ a P) as Q. pose proof (res_ok_axis r a Rr).
  pose proof (res_ok_axis o a Ro).
  destruct (mip_voxel_range k flt a 0 src o p) as (lo & hi & L & H' & B & ->); auto; [rewrite Ks; lra|lia|lia|].
  rewrite Ks in B. unfold filter_line. rewrite Ko, Ki.
  destruct (each_extremum op rel top rel_refl rel_trans op_l op_r op_in inside inside_top
    (fun s => f_get src (vset a p s)) (fun s => v (vset a p s))
    (fun s => fl_eval flt (Rabs (voxel_centre s - (voxel_centre (vget a p) * 2 - IZR 0)) * (1 / 2))) (zrange lo hi)) as (acc & -> & C).
  - intros s S. apply zrange_in in S. apply Vs. apply in_res_vset with r; auto. lia.
  - intros s S. apply zrange_in in S. apply In'. apply in_res_vset with r; auto. lia.
  - cbn [bind].
    assert (PW : forall s, 0 < fl_eval flt (Rabs (voxel_centre s - (voxel_centre (vget a p) * 2 - IZR 0)) * (1 / 2)) <-> (s / 2 = vget a p)%Z).
    { intros s. rewrite mip_dist_eq, Ke, box_eval_pos by lra. apply near_pair. }
    pose proof (Z.div_mod (vget a o + 1) 2 ltac:(lia)). pose proof (Z.mod_pos_bound (vget a o + 1) 2 ltac:(lia)).
    assert (PB : forall s, (0 <= s <= vget a o - 1)%Z -> (s / 2 = vget a p)%Z -> In s (zrange lo hi)).
    { intros s S D. apply zrange_in, B; auto. apply near_pair in D. lra. }
    destruct C as [[_ C]|[(s & S1 & S2 & ->) C]].
    + exfalso. assert (D : (2 * vget a p / 2 = vget a p)%Z) by (rewrite Z.mul_comm; apply Z.div_mul; lia).
      apply (C (2 * vget a p)%Z); [apply PB; auto; lia|]. apply PW; auto.
    + apply zrange_in in S1. assert (SR : (0 <= s <= vget a o - 1)%Z) by lia.
      destruct (inside_top (v (vset a p s))) as [_ NT]; [apply In'; apply in_res_vset with r; auto|].
      destruct (reqb_spec (v (vset a p s)) top); [contradiction|].
      eexists. split; [reflexivity|]. split.
      * exists s. split; auto. split; [apply PW; auto|reflexivity].
      * intros y Y DY. apply C; [apply PB; auto|]. apply PW; auto.
Qed.

Lemma mip_separable_ext k flt a (src tgt : fld (V := R) k) o old new v n sched :
  let r := pass_res a old new in
  ext_kind op top flt 1 -> inv k src -> inv k tgt -> holds src (res_box o) v -> (forall q, in_box q (res_box o) -> inside (v q)) ->
  res_ok o -> res_ok r -> fits k tgt (res_box r) -> (forall b, b <> a -> vget b r = vget b o) -> vget a r = ((vget a o + 1) / 2)%Z -> (0 < n)%nat ->
  exists t u, mip_separable flt a (V3 0 0 0) src tgt old new n sched = Ok t /\ inv k t /\ f_ext t = res_box r /\
    (forall b, fits k t b <-> fits k tgt b) /\ holds t (res_box r) u /\
    forall p, in_box p (res_box r) ->
      (exists s, (0 <= s <= vget a o - 1)%Z /\ (s / 2 = vget a p)%Z /\ u p = v (vset a p s)) /\
      (forall s, (0 <= s <= vget a o - 1)%Z -> (s / 2 = vget a p)%Z -> rel (u p) (v (vset a p s))).
Proof.
  intros r K Is It Hs In' Ro Rr Fr Eq Er N.
  set (G := fun p => match mip_voxel flt a 0 src p with Ok x => val0 x | _ => 0 end).
  assert (Z0 : vget a (V3 0 0 0) = 0%Z) by (destruct a; reflexivity).
  assert (HG : forall p, in_box p (res_box r) -> exists x, mip_voxel flt a 0 src p = Ok (Some x) /\ G p = x /\
      (exists s, (0 <= s <= vget a o - 1)%Z /\ (s / 2 = vget a p)%Z /\ x = v (vset a p s)) /\
      (forall s, (0 <= s <= vget a o - 1)%Z -> (s / 2 = vget a p)%Z -> rel x (v (vset a p s)))).
  { intros p P. destruct (mip_voxel_ext k flt a src o r v p) as (x & E & A & B); auto. exists x. split; auto. split; auto.
    unfold G. rewrite E. reflexivity. }
  assert (K' := K). destruct K' as (_ & _ & _ & Ks & _).
  destruct (mip_separable_gen k flt a (V3 0 0 0) src tgt o old new v n sched G) as (t & s & E & I & X & F & H & _); auto; fold r; auto.
  - rewrite Ks. lra.
  - intros _. unfold narrow. rewrite Ks. lra.
  - rewrite Z0. lia.
  - rewrite Z0. intros p P. destruct (HG p P) as (x & E & Gx & _). exists (Some x). split; auto.
  - rewrite Z0. intros p P Hz. destruct (HG p P) as (x & _ & -> & (s & S1 & S2 & ->) & _). apply Hz; auto.
    apply near_pair in S2. rewrite Ks. lra.
  - exists t, G. split; auto. split; auto. split; auto. split; auto. split; auto.
    intros p P. destruct (HG p P) as (x & _ & -> & A & B). split; auto.
Qed.

Definition halves (q p : v3) : Prop := (vx q / 2 = vx p /\ vy q / 2 = vy p /\ vz q / 2 = vz p)%Z.
Lemma mip_resample_ext k flt b (src tgt : fld (V := R) k) old new l v n sched :
  ext_kind op top flt 1 -> (0 < n)%nat -> inv k src -> holds src (res_box old) v -> (forall q, in_box q (res_box old) -> inside (v q)) ->
  inv k tgt -> (forall w, fits k tgt w <-> fits_new k w) ->
  res_ok b -> res_ok old -> (l <= 24)%nat -> new = level_res b zero3 (S l) -> new = V3 ((vx old + 1) / 2) ((vy old + 1) / 2) ((vz old + 1) / 2) ->
  res_ok new -> le3 new old -> fits_new k (res_box old) ->
  exists t u, mip_resample flt (res_box b) src tgt (Z.of_nat (S l)) (halvings zero3 l) n sched = Ok t /\ inv k t /\
    f_ext t = res_box new /\ holds t (res_box new) u /\
    forall p, in_box p (res_box new) ->
      (exists q, in_box q (res_box old) /\ halves q p /\ u p = v q) /\
      (forall q, in_box q (res_box old) -> halves q p -> rel (u p) (v q)).
Proof.
  intros K N Is Hs In' It Ft Rb Ro L En Eh Rn Le Fo. unfold mip_resample.
  rewrite box_size_res by auto. rewrite mip_resolution_ok by auto. cbn [bind]. rewrite <- En.
  assert (Dw : f_dw src = res_box old) by apply Hs. rewrite Dw, box_size_res by auto.
  destruct (inv_new (0 : R)%R (0 : R)%R k) as (tmp & -> & Itmp & Ftmp). cbn [bind].
  rewrite add_of_ok. assert (level_adds zero3 (S l) = V3 0 0 0) as -> by (unfold level_adds; cbn [zero3 vx vy vz]; rewrite !level_add_zero; auto).
  assert (Hx : vx new = ((vx old + 1) / 2)%Z) by (rewrite Eh; auto).
  assert (Hy : vy new = ((vy old + 1) / 2)%Z) by (rewrite Eh; auto).
  assert (Hz : vz new = ((vz old + 1) / 2)%Z) by (rewrite Eh; auto). clear Eh En.
  assert (Ro' := Ro). assert (Rn' := Rn). destruct Ro' as (Ox & Oy & Oz). destruct Rn' as (Nx & Ny & Nz). destruct Le as (Lx & Ly & Lz).
  assert (R1 : res_ok (pass_res AxX old new)) by (unfold res_ok; cbn; auto).
  assert (R2 : res_ok (pass_res AxY old new)) by (unfold res_ok; cbn; auto).
  assert (F1 : fits_new k (res_box (pass_res AxX old new))) by (apply fits_new_mono with old; auto; unfold le3; cbn; lia).
  assert (F2 : fits_new k (res_box (pass_res AxY old new))) by (apply fits_new_mono with old; auto; unfold le3; cbn; lia).
  assert (F3 : fits_new k (res_box (pass_res AxZ old new))) by (apply fits_new_mono with old; auto; unfold le3; cbn; lia).
  destruct (mip_separable_ext k flt AxX src tgt old old new v n (sched AxX)) as (t1 & u1 & -> & I1 & X1 & G1 & H1 & U1); auto.
  { apply Ft; auto. } { intros [] D; cbn; auto; congruence. }
  cbn [bind].
  assert (In1 : forall q, in_box q (res_box (pass_res AxX old new)) -> inside (u1 q)).
  { intros q Q. destruct (U1 q Q) as [(s & S & _ & ->) _]. apply In'. eapply in_res_vset; [exact Q|intros [] D; cbn; auto; congruence|exact S]. }
  destruct (mip_separable_ext k flt AxY t1 tmp (pass_res AxX old new) old new u1 n (sched AxY)) as (t2 & u2 & -> & I2 & X2 & G2 & H2 & U2); auto.
  { apply Ftmp; auto. } { intros [] D; cbn; auto; congruence. }
  cbn [bind].
  assert (In2 : forall q, in_box q (res_box (pass_res AxY old new)) -> inside (u2 q)).
  { intros q Q. destruct (U2 q Q) as [(s & S & _ & ->) _]. apply In1. eapply in_res_vset; [exact Q|intros [] D; cbn; auto; congruence|exact S]. }
  destruct (mip_separable_ext k flt AxZ t2 t1 (pass_res AxY old new) old new u2 n (sched AxZ)) as (t3 & u3 & -> & I3 & X3 & G3 & H3 & U3); auto.
  { apply G1, Ft; auto. } { intros [] D; cbn; auto; congruence. }
  exists t3, u3. split; auto. split; auto. split; auto. split; auto.
  cbn [pass_res] in U1, U2, U3.
  intros p Q. assert (Q' := Q). destruct Q' as (Qx & Qy & Qz). cbn in Qx, Qy, Qz. split.
  - destruct (U3 p Q) as [(s3 & S3 & D3 & ->) _]. cbn [vget vset vx vy vz] in *.
    destruct (U2 (V3 (vx p) (vy p) s3)) as [(s2 & S2 & D2 & ->) _]; [unfold in_box, res_box; cbn in *; lia|]. cbn [vget vset vx vy vz] in *.
    destruct (U1 (V3 (vx p) s2 s3)) as [(s1 & S1 & D1 & ->) _]; [unfold in_box, res_box; cbn in *; lia|]. cbn [vget vset vx vy vz] in *.
    exists (V3 s1 s2 s3). split; [unfold in_box, res_box; cbn; lia|]. split; auto. unfold halves. cbn. auto.
  - intros q B (E1 & E2 & E3). destruct B as (Bx & By & Bz). cbn in Bx, By, Bz.
    destruct (U3 p Q) as [_ C3]. apply rel_trans with (u2 (V3 (vx p) (vy p) (vz q))); [apply (C3 (vz q)); auto|].
    destruct (U2 (V3 (vx p) (vy p) (vz q))) as [_ C2]; [unfold in_box, res_box; cbn in *; lia|].
    apply rel_trans with (u1 (V3 (vx p) (vy q) (vz q))); [apply (C2 (vy q)); auto|].
    destruct (U1 (V3 (vx p) (vy q) (vz q))) as [_ C1]; [unfold in_box, res_box; cbn in *; lia|].
    replace q with (V3 (vx q) (vy q) (vz q)) at 3 by (destruct q; auto). apply (C1 (vx q)); auto.
Qed.

Lemma div_pow_S x l : (x / 2 ^ Z.of_nat (S l) = x / 2 ^ Z.of_nat l / 2)%Z.
Proof.
  rewrite Nat2Z.inj_succ, Z.pow_succ_r, Z.mul_comm by lia. symmetry. apply Z.div_div; [|lia].
  pose proof (pow2_pos (Z.of_nat l) ltac:(lia)). lia.
Qed.
Lemma level_size_div b l x : (0 <= x < b)%Z -> (0 <= x / 2 ^ Z.of_nat l <= level_size b 0 l - 1)%Z.
Proof.
  intros X. rewrite level_size_cdiv, level_add_zero. pose proof (cdiv_spec b l) as C. pose proof (pow2_pos (Z.of_nat l) ltac:(lia)) as P.
  split; [apply Z.div_pos; lia|]. assert (x / 2 ^ Z.of_nat l < cdiv b l)%Z; [|lia]. apply Z.div_lt_upper_bound; [auto|]. lia.
Qed.

Lemma make_mip_ext k flt (base : fld (V := R) k) b v ms n sched fuel :
  ext_kind op top flt 1 -> (0 < n)%nat -> inv k base ->
  f_ext base = res_box b -> holds base (res_box b) v -> (forall q, in_box q (res_box b) -> inside (v q)) ->
  res_ok b -> fits_new k (res_box b) -> (25 <= fuel)%nat ->
  exists fs m, make_mip fuel flt base ms zero3 n sched = Some (Ok (Some fs)) /\ depth b zero3 ms m /\ length fs = S m /\
    forall l f, nth_error fs l = Some f -> extreme_level rel b v l f.
Proof.
  intros K N I X H In' Rb Fb Lf.
  destruct (make_mip_gen k flt base b zero3 ms n sched fuel (extreme_level rel b v)) as (fs & m & D & L & A & B & C); auto.
  - intros l f (E & F & _). split; [exact E|rewrite F; exact E].
  - intros l prev tgt L Ip (Xp & Dp & Hp) It Ft R1 R2 Le Fo.
    set (u := fun p => match f_get prev p with Ok x => x | _ => 0 end).
    assert (Hu : holds prev (res_box (level_res b zero3 l)) u).
    { split; [rewrite Dp; exact Xp|]. intros p P. destruct (Hp p) as (x & E & _); [rewrite Dp, Xp; auto|]. unfold u. rewrite E. reflexivity. }
    assert (Hup : forall p, in_box p (res_box (level_res b zero3 l)) ->
      (exists q, in_box q (res_box b) /\ covered l q p /\ u p = v q) /\ (forall q, in_box q (res_box b) -> covered l q p -> rel (u p) (v q))).
    { intros p P. destruct (Hp p) as (x & E & Q); [rewrite Dp, Xp; auto|]. unfold u. rewrite E. exact Q. }
    destruct (mip_resample_ext k flt b prev tgt (level_res b zero3 l) (level_res b zero3 (S l)) l u n (sched (S l)))
      as (t & w & E & I1 & X1 & H1 & W); auto; [|lia| |].
    { intros q Q. destruct (Hup q Q) as [(q' & Q1 & _ & ->) _]. auto. }
    { unfold level_res. cbn [vx vy vz zero3]. rewrite !level_size_zero. reflexivity. }
    exists t. split; auto. split; auto. split; [exact X1|]. destruct H1 as [Dt Vt]. split; [congruence|].
    intros p P. rewrite Dt in P. exists (w p). split; [apply Vt; auto|]. destruct (W p P) as [(q & Q1 & Q2 & Eq) W2]. rewrite Eq in *.
    split.
    + destruct (Hup q Q1) as [(q' & Q1' & Q2' & E') _]. exists q'. split; auto. split; auto.
      unfold covered, halves in *. rewrite !div_pow_S. destruct Q2' as (-> & -> & ->). auto.
    + intros q0 B0 C0. unfold covered in C0. rewrite !div_pow_S in C0.
      set (q1 := V3 (vx q0 / 2 ^ Z.of_nat l) (vy q0 / 2 ^ Z.of_nat l) (vz q0 / 2 ^ Z.of_nat l)).
      assert (B1 : in_box q1 (res_box (level_res b zero3 l))).
      { destruct B0 as (X0 & Y0 & Z0). cbn in X0, Y0, Z0. unfold in_box, res_box, level_res, q1. cbn [bmin bmax vx vy vz zero3].
        split; [|split]; apply level_size_div; lia. }
      apply rel_trans with (u q1); [apply (W2 q1 B1 C0)|]. apply (Hup q1 B1); auto. unfold covered, q1. auto.
  - split; [rewrite level_res_0; auto|]. destruct H as [Db Vb]. split; [congruence|]. intros p P. rewrite Db in P.
    exists (v p). split; [apply Vb; auto|]. unfold covered. cbn [Z.of_nat]. change (2 ^ 0)%Z with 1%Z. split.
    + exists p. rewrite !Z.div_1_r. auto.
    + intros q Q. rewrite !Z.div_1_r. intros (E1 & E2 & E3). replace q with p by (apply v3_ext; auto). apply rel_refl.
  - exists fs, m. split; [apply B, (no_stall_zero b ms m D)|]. auto.
Qed.
End Extremum.
