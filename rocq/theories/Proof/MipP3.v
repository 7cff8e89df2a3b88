(** The levels of a MIP field. *)
From Coq Require Import ZArith Reals List Bool Lia Lra Psatz.
From Verif Require Import Model.Base Model.RealM Model.VecM Model.FieldM Model.DenseM Model.SparseM Model.OpsM Model.LoopM Model.FilterM Model.MipM
  Spec.VoxelSpec Spec.DenseSpec Spec.SparseSpec Spec.OpsSpec Spec.FilterSpec Spec.MipSpec
  Proof.BaseP Proof.RealP Proof.FieldP Proof.LoopP Proof.SparseP Proof.OpsP Proof.FilterP Proof.ResampleP Proof.ResampleP2 Proof.MipP Proof.MipP2.
Import ListNotations.
Open Scope Z_scope.

(** * Resolutions *)
Definition le3 (a b : v3) : Prop := vx a <= vx b /\ vy a <= vy b /\ vz a <= vz b.
Lemma blocks_along_mono o r s : 0 <= o -> r <= s -> blocks_along o r <= blocks_along o s.
Proof. intros O H. unfold blocks_along. apply Z.div_le_mono; [apply pow2_pos; auto|lia]. Qed.
Lemma res_of_res_box r : res_ok r -> res_of (res_box r) = r.
Proof.
  intros (X & Y & Z0). unfold res_of. replace (box_empty (res_box r)) with false by (unfold box_empty, res_box; cbn; lia).
  destruct r; cbn in *. f_equal; lia.
Qed.
Lemma mul3_mono a b c a' b' c' : 0 <= a <= a' -> 0 <= b <= b' -> 0 <= c <= c' -> 0 <= a * b <= a' * b' /\ 0 <= a * b * c <= a' * b' * c'.
Proof.
  intros A B C. assert (H : 0 <= a * b <= a' * b') by (split; [nia|apply Z.mul_le_mono_nonneg; lia]).
  split; auto. split; [nia|apply Z.mul_le_mono_nonneg; lia].
Qed.
Lemma fits_new_mono k r b : res_ok r -> res_ok b -> le3 r b -> fits_new k (res_box b) -> fits_new k (res_box r).
Proof.
  intros R B (X & Y & Z0) F. assert (R' := R). destruct R as (Rx & Ry & Rz).
  assert (Cn : forall c, In c [vx (bmin (res_box r)); vy (bmin (res_box r)); vz (bmin (res_box r)); vx (bmax (res_box r)); vy (bmax (res_box r)); vz (bmax (res_box r))]
    -> - 2 ^ 30 < c < 2 ^ 30 - 1).
  { intros c C. cbn in C. destruct C as [<-|[<-|[<-|[<-|[<-|[<-|[]]]]]]]; lia. }
  destruct k; cbn [fits_new] in *.
  - split; [exact Cn|]. destruct F as (_ & F1 & F2). cbn [bmin bmax res_box vx vy vz] in *.
    rewrite Z.sub_0_r, Z.sub_add in F1, F2. rewrite !Z.sub_0_r, !Z.sub_add in *.
    destruct (mul3_mono (vx r) (vy r) (vz r) (vx b) (vy b) (vz b)) as [M1 M2]; lia.
  - unfold window_ok, blocks_of in *. rewrite res_of_res_box in * by auto. destruct F as (F1 & F2 & F3 & F4 & F5). cbn [vx vy vz] in *.
    split; [exact Cn|split; [lia|split; [lia|split; [lia|]]]].
    pose proof (blocks_along_mono 4 _ _ ltac:(lia) X). pose proof (blocks_along_mono 4 _ _ ltac:(lia) Y).
    pose proof (blocks_along_mono 4 _ _ ltac:(lia) Z0).
    pose proof (blocks_along_pos 4 (vx r) ltac:(lia) ltac:(lia)). pose proof (blocks_along_pos 4 (vy r) ltac:(lia) ltac:(lia)).
    pose proof (blocks_along_pos 4 (vz r) ltac:(lia) ltac:(lia)).
    eapply Z.le_lt_trans; [|exact F5]. apply mul3_mono; lia.
Qed.

Lemma level_add_range o l : 0 <= level_add o l <= 1.
Proof. destruct l as [|m]; cbn [level_add]; [lia|]. destruct (Z.odd _); lia. Qed.
(** ceil(b / 2^(l+1)) = ceil(ceil(b / 2^l) / 2). *)
Definition cdiv (b : Z) (l : nat) : Z := (b + 2 ^ Z.of_nat l - 1) / 2 ^ Z.of_nat l.
Lemma cdiv_spec b l : (cdiv b l - 1) * 2 ^ Z.of_nat l < b <= cdiv b l * 2 ^ Z.of_nat l.
Proof.
  unfold cdiv. pose proof (pow2_pos (Z.of_nat l) ltac:(lia)) as P.
  pose proof (Z.div_mod (b + 2 ^ Z.of_nat l - 1) (2 ^ Z.of_nat l) ltac:(lia)).
  pose proof (Z.mod_pos_bound (b + 2 ^ Z.of_nat l - 1) (2 ^ Z.of_nat l) P). nia.
Qed.
Lemma cdiv_unique b l c : (c - 1) * 2 ^ Z.of_nat l < b <= c * 2 ^ Z.of_nat l -> cdiv b l = c.
Proof. intros H. pose proof (cdiv_spec b l). pose proof (pow2_pos (Z.of_nat l) ltac:(lia)). nia. Qed.
Lemma cdiv_S b l : cdiv b (S l) = (cdiv b l + 1) / 2.
Proof.
  apply cdiv_unique. pose proof (cdiv_spec b l) as H. rewrite Nat2Z.inj_succ, Z.pow_succ_r by lia.
  pose proof (pow2_pos (Z.of_nat l) ltac:(lia)) as P. set (c := cdiv b l) in *.
  pose proof (Z.div_mod (c + 1) 2 ltac:(lia)). pose proof (Z.mod_pos_bound (c + 1) 2 ltac:(lia)).
  set (d := (c + 1) / 2) in *. nia.
Qed.
Lemma cdiv_0 b : cdiv b 0 = b.
Proof. apply cdiv_unique. cbn. lia. Qed.
Lemma cdiv_pos b l : 1 <= b -> 1 <= cdiv b l.
Proof. intros B. pose proof (cdiv_spec b l). pose proof (pow2_pos (Z.of_nat l) ltac:(lia)). nia. Qed.
Lemma level_size_cdiv b o l : level_size b o l = cdiv b l + level_add o l.
Proof. reflexivity. Qed.
Lemma level_size_0 b o : level_size b o 0 = b.
Proof. rewrite level_size_cdiv, cdiv_0. cbn. lia. Qed.
Lemma level_res_0 b o : level_res b o 0 = b.
Proof. unfold level_res. rewrite !level_size_0. destruct b; auto. Qed.
Lemma level_size_step b o l : 2 < level_size b o l -> level_size b o (S l) <= level_size b o l.
Proof.
  rewrite !level_size_cdiv, cdiv_S. pose proof (level_add_range o l). pose proof (level_add_range o (S l)).
  intros H1. pose proof (Z.div_mod (cdiv b l + 1) 2 ltac:(lia)). pose proof (Z.mod_pos_bound (cdiv b l + 1) 2 ltac:(lia)). lia.
Qed.
Lemma level_size_pos b o l : 1 <= b -> 1 <= level_size b o l.
Proof. intros B. rewrite level_size_cdiv. pose proof (cdiv_pos b l B). pose proof (level_add_range o l). lia. Qed.
Lemma level_size_last b o : 1 <= b <= 2 ^ 24 -> level_size b o 24 <= 2.
Proof.
  intros B. rewrite level_size_cdiv. pose proof (level_add_range o 24).
  assert (cdiv b 24 = 1); [|lia]. apply cdiv_unique. change (Z.of_nat 24) with 24. lia.
Qed.

(** * One level *)
Definition halvings (o : v3) (l : nat) : v3 := V3 (vx o / 2 ^ Z.of_nat l) (vy o / 2 ^ Z.of_nat l) (vz o / 2 ^ Z.of_nat l).
Lemma half_offset_ok o : half_offset o = o / 2.
Proof.
  unfold half_offset. pose proof (Z.div_mod o 2 ltac:(lia)). pose proof (Z.mod_pos_bound o 2 ltac:(lia)).
  destruct (o <? 0) eqn:E.
  - replace (o - 1) with (- (1 - o)) by lia. rewrite Z.quot_opp_l by lia. rewrite Z.quot_div_nonneg by lia.
    pose proof (Z.div_mod (1 - o) 2 ltac:(lia)). pose proof (Z.mod_pos_bound (1 - o) 2 ltac:(lia)). lia.
  - apply Z.quot_div_nonneg; lia.
Qed.
Lemma halvings_S o l : half_offsets (halvings o l) = halvings o (S l).
Proof.
  assert (H : forall x, half_offset (x / 2 ^ Z.of_nat l) = x / 2 ^ Z.of_nat (S l)).
  { intros x. rewrite half_offset_ok, Nat2Z.inj_succ, Z.pow_succ_r, Z.mul_comm by lia.
    apply Z.div_div; [pose proof (pow2_pos (Z.of_nat l) ltac:(lia))|]; lia. }
  unfold half_offsets, halvings. cbn. rewrite !H. reflexivity.
Qed.
Lemma add_axis_ok o : add_axis o = if Z.odd o then 1 else 0.
Proof.
  unfold add_axis. destruct (Z.odd o) eqn:E.
  - destruct (Z.eqb_spec (Z.rem o 2) 0) as [H|H]; auto. exfalso. apply Z.rem_divide in H as (m & ->); [|lia].
    rewrite Z.odd_mul in E. cbn in E. rewrite andb_false_r in E. discriminate.
  - assert (H : Z.even o = true) by (rewrite <- Z.negb_odd, E; auto). apply Z.even_spec in H as (m & ->).
    rewrite Z.mul_comm, Z.rem_mul by lia. reflexivity.
Qed.
Lemma add_of_ok o l : add_of (halvings o l) = level_adds o (S l).
Proof. unfold add_of, level_adds, halvings. cbn [vx vy vz level_add]. rewrite !add_axis_ok. reflexivity. Qed.

Lemma mip_resolution_ok b o l : res_ok b -> (l <= 24)%nat ->
  mip_resolution b (Z.of_nat (S l)) (add_of (halvings o l)) = Ok (level_res b o (S l)).
Proof.
  intros (X & Y & Z0) L. unfold mip_resolution. replace (Z.of_nat (S l) <=? 30) with true by lia.
  rewrite add_of_ok. unfold mip_res_axis, ceil_shift. rewrite !float_of_int_small by lia. reflexivity.
Qed.

Lemma mip_resample_ok k flt b (src tgt : fld (V := R) k) old new o l v n sched :
  sum_kind flt -> vanishes flt -> (k = KSparse -> narrow flt) -> (0 < n)%nat ->
  inv k src -> holds src (res_box old) v -> inv k tgt -> (forall w, fits k tgt w <-> fits_new k w) ->
  res_ok b -> res_ok old -> (l <= 24)%nat -> new = level_res b o (S l) -> res_ok new -> le3 new old -> fits_new k (res_box old) ->
  exists t, mip_resample flt (res_box b) src tgt (Z.of_nat (S l)) (halvings o l) n sched = Ok t /\ inv k t /\
    f_ext t = res_box new /\ (forall w, fits k t w <-> fits_new k w) /\
    holds t (res_box new) (halved (fl_eval flt) (level_adds o (S l)) old v).
Proof.
  intros SK VN NR N Is Hs It Ft Rb Ro L En Rn Le Fo. unfold mip_resample.
  rewrite box_size_res by auto. rewrite mip_resolution_ok by auto. cbn [bind]. rewrite <- En.
  assert (Dw : f_dw src = res_box old) by apply Hs. rewrite Dw, box_size_res by auto.
  destruct (inv_new (0 : R)%R (0 : R)%R k) as (tmp & -> & Itmp & Ftmp). cbn [bind].
  rewrite add_of_ok. set (add := level_adds o (S l)).
  assert (A : forall a, 0 <= vget a add <= 1) by (intros []; cbn [vget add level_adds vx vy vz]; apply level_add_range).
  assert (Ro' := Ro). assert (Rn' := Rn). destruct Ro' as (Ox & Oy & Oz). destruct Rn' as (Nx & Ny & Nz). destruct Le as (Lx & Ly & Lz).
  assert (R1 : res_ok (pass_res AxX old new)) by (unfold res_ok; cbn; auto).
  assert (R2 : res_ok (pass_res AxY old new)) by (unfold res_ok; cbn; auto).
  assert (F1 : fits_new k (res_box (pass_res AxX old new))) by (apply fits_new_mono with old; auto; unfold le3; cbn; lia).
  assert (F2 : fits_new k (res_box (pass_res AxY old new))) by (apply fits_new_mono with old; auto; unfold le3; cbn; lia).
  assert (F3 : fits_new k (res_box (pass_res AxZ old new))) by (apply fits_new_mono with old; auto; unfold le3; cbn; lia).
  destruct (mip_separable_sum k flt AxX add src tgt old old new v n (sched AxX)) as (t1 & _ & -> & I1 & X1 & G1 & H1 & _); auto.
  { apply Ft; auto. } { intros [] D; cbn; auto; congruence. }
  cbn [bind].
  match type of H1 with holds _ _ ?v1 =>
  destruct (mip_separable_sum k flt AxY add t1 tmp (pass_res AxX old new) old new v1 n (sched AxY)) as (t2 & _ & -> & I2 & X2 & G2 & H2 & _); auto end.
  { apply Ftmp; auto. } { intros [] D; cbn; auto; congruence. }
  cbn [bind].
  match type of H2 with holds _ _ ?v2 =>
  destruct (mip_separable_sum k flt AxZ add t2 t1 (pass_res AxY old new) old new v2 n (sched AxZ)) as (t3 & _ & -> & I3 & X3 & G3 & H3 & _); auto end.
  { apply G1, Ft; auto. } { intros [] D; cbn; auto; congruence. }
  exists t3. split; auto. split; auto. split; auto. split; [intros w; rewrite G3, G1; apply Ft|]. exact H3.
Qed.

(** * All levels *)
Lemma mip_continue_ok r m : mip_continue r m = true <-> continues r m.
Proof. unfold mip_continue, continues. rewrite !andb_true_iff, !orb_true_iff. lia. Qed.

Definition is_level {k} (flt : filter) b o v (l : nat) (f : fld (V := R) k) : Prop :=
  f_ext f = res_box (level_res b o l) /\ holds f (res_box (level_res b o l)) (level_val (fl_eval flt) b o v l).

Lemma level_res_ok b o l : res_ok b -> le3 (level_res b o l) b -> res_ok (level_res b o l).
Proof.
  intros (X & Y & Z0) (Lx & Ly & Lz). pose proof (level_size_pos (vx b) (vx o) l). pose proof (level_size_pos (vy b) (vy o) l).
  pose proof (level_size_pos (vz b) (vz o) l). unfold res_ok. cbn in *. lia.
Qed.

Lemma levels_gen k flt b o ms n sched (lev : nat -> fld (V := R) k -> Prop) :
  (forall l f, lev l f -> f_ext f = res_box (level_res b o l) /\ f_dw f = res_box (level_res b o l)) ->
  (forall l prev tgt, (l < 24)%nat -> inv k prev -> lev l prev -> inv k tgt -> (forall w, fits k tgt w <-> fits_new k w) ->
     res_ok (level_res b o l) -> res_ok (level_res b o (S l)) -> le3 (level_res b o (S l)) (level_res b o l) ->
     fits_new k (res_box (level_res b o l)) ->
     exists t, mip_resample flt (res_box b) prev tgt (Z.of_nat (S l)) (halvings o l) n (sched (S l)) = Ok t /\ inv k t /\ lev (S l) t) ->
  res_ok b -> fits_new k (res_box b) ->
  forall d l (prev : fld (V := R) k) fuel, (l + d = 24)%nat -> (d < fuel)%nat -> inv k prev -> lev l prev ->
  le3 (level_res b o l) b ->
  exists fs m, mip_levels fuel flt (res_box b) ms n sched (S l) prev (level_res b o l) (halvings o l) = Some (Ok fs) /\
    length fs = S m /\ (forall i, (i <= m)%nat -> exists f, nth_error fs i = Some f /\ lev (l + i)%nat f) /\
    (forall i, (i < m)%nat -> continues (level_res b o (l + i)) ms /\ le3 (level_res b o (S (l + i))) (level_res b o (l + i))) /\
    ~ continues (level_res b o (l + m)) ms.
Proof.
  intros HR HS Rb Fb. induction d as [|d IH]; intros l prev fuel Ld Lf Ip Hp Le; (destruct fuel as [|fuel]; [lia|]); cbn [mip_levels].
  - assert (l = 24)%nat by lia. subst l.
    assert (~ continues (level_res b o 24) ms) as NC.
    { intros [_ (C & _)]. cbn [level_res vx] in C. pose proof (level_size_last (vx b) (vx o) ltac:(apply Rb)). lia. }
    destruct (mip_continue _ ms) eqn:C; [apply mip_continue_ok in C; contradiction|].
    exists [prev], 0%nat. split; auto. split; auto. rewrite Nat.add_0_r. split; [|split; [intros; lia|auto]].
    intros i I. assert (i = 0)%nat by lia. subst i. exists prev. rewrite Nat.add_0_r. auto.
  - destruct (mip_continue (level_res b o l) ms) eqn:C.
    + apply mip_continue_ok in C. assert (C' := C). destruct C as [_ (Cx & Cy & Cz)]. cbn [level_res vx vy vz] in Cx, Cy, Cz.
      assert (Ls : le3 (level_res b o (S l)) (level_res b o l)) by (unfold le3, level_res; cbn [vx vy vz]; split; [|split]; apply level_size_step; auto).
      assert (Lb : le3 (level_res b o (S l)) b) by (unfold le3 in *; lia).
      destruct (inv_new (0 : R)%R (0 : R)%R k) as (tgt & -> & It & Ft). cbn [bind].
      destruct (HS l prev tgt) as (t & -> & I1 & H1); auto; try (apply level_res_ok; auto); [lia|apply fits_new_mono with b; auto; apply level_res_ok; auto|].
      destruct (HR _ _ H1) as [_ Dt].
      rewrite Dt, box_size_res by (apply level_res_ok; auto). rewrite halvings_S.
      destruct (IH (S l) t fuel) as (fs & m & -> & Lm & A & B & D); auto; [lia|lia|].
      exists (prev :: fs), (S m). split; auto. split; [cbn; congruence|]. split; [|split].
      * intros [|i] I; [exists prev; rewrite Nat.add_0_r; auto|].
        destruct (A i) as (f & E & Hf); [lia|]. exists f. split; auto. rewrite <- Nat.add_succ_comm. auto.
      * intros [|i] I; [rewrite Nat.add_0_r; auto|]. rewrite <- Nat.add_succ_comm. apply B. lia.
      * rewrite <- Nat.add_succ_comm. auto.
    + exists [prev], 0%nat. split; auto. split; auto. rewrite Nat.add_0_r. split; [|split; [intros; lia|]].
      * intros i I. assert (i = 0)%nat by lia. subst i. exists prev. rewrite Nat.add_0_r. auto.
      * intros H. apply mip_continue_ok in H. congruence.
Qed.
