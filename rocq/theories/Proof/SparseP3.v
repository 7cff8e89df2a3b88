From Coq Require Import ZArith List Bool Lia ZifyBool.
From Verif Require Import Model.Base Model.FieldM Model.SparseM Spec.VoxelSpec Spec.SparseSpec
  Proof.BaseP Proof.FieldP Proof.DenseP Proof.SparseP Proof.SparseP2.
Import ListNotations.
Open Scope Z_scope.

Section R.
Context {V : Type}.
Variable zero : V.
Variable eqb : V -> V -> bool.
Hypothesis eqb_ok : forall a b, eqb a b = true <-> a = b.

Record srefines (f : sparse V) (a : smap V) : Prop := {
  sr_shape : sshape f;
  sr_ext : s_ext f = sm_ext a;
  sr_dw : s_dw f = sm_dw a;
  sr_ord : s_order f = sm_order a;
  sr_val : forall p, in_box p (sm_dw a) -> sparse_value f p = Ok (sm_val a p) }.

Lemma setup_refines e dw o : order_ok o -> window_ok dw o ->
  exists f, setup_blocks zero e dw o = Ok f /\ srefines f (SMap (AMap e dw (fun _ => zero)) o).
Proof.
  intros O W. destruct (setup_blocks_ok zero e dw o O W) as (f & E & S & X1 & X2 & X3 & X4).
  exists f. split; auto. constructor; auto.
  intros p B. unfold sm_dw in B; simpl in B. unfold sm_val; simpl.
  apply (setup_blocks_value f (block_init zero)); auto; [congruence|].
  rewrite X4 at 1. f_equal. rewrite X4, repeat_length. auto.
Qed.

Lemma clear_refines f v : sshape f ->
  exists g, sparse_clear zero f v = Ok g /\
    srefines g (SMap (AMap (s_ext f) (s_dw f) (fun _ => v)) (s_order f)).
Proof.
  intros S. destruct S as [O W _ _ _ _].
  destruct (setup_blocks_ok zero (s_ext f) (s_dw f) (s_order f) O W)
    as (g & E & Sg & X1 & X2 & X3 & X4).
  unfold sparse_clear. rewrite E. cbn [bind]. eexists. split; [reflexivity|].
  set (g' := Sparse _ _ _ _ _ _).
  assert (B : s_blocks g' = repeat (Block false v None) (length (s_blocks g))).
  { unfold g'; cbn [s_blocks]. rewrite X4, repeat_length. clear.
    generalize (Z.to_nat (vx (blocks_of (s_dw f) (s_order f)) * vy (blocks_of (s_dw f) (s_order f)) *
                  vz (blocks_of (s_dw f) (s_order f)))).
    induction n; simpl; congruence. }
  assert (S' : sshape g').
  { destruct Sg as [O' W' R' X' L' F']. constructor; auto.
    - rewrite B, repeat_length. exact L'.
    - rewrite B. apply Forall_forall. intros b I. apply repeat_spec in I. subst; reflexivity. }
  constructor; auto.
  intros p Bp. unfold sm_dw in Bp; simpl in Bp. unfold sm_val; cbn [sm_map a_val].
  apply (setup_blocks_value g' (Block false v None)); auto.
  - unfold g'; cbn [s_dw]. congruence.
  - rewrite B at 2. rewrite repeat_length. exact B.
Qed.

Lemma set_block_empty_ok (f : sparse V) c v : sshape f ->
  block_in_grid (s_dw f) (s_order f) c ->
  exists g, sparse_set_block_empty f c v = Ok g /\ sshape g /\ s_ext g = s_ext f /\
    s_dw g = s_dw f /\ s_order g = s_order f /\ s_bres g = s_bres f /\
    s_blocks g = list_set (s_blocks f) (Z.to_nat (lid (s_bres f) c)) (dealloc_block v) /\
    forall p, in_box p (s_dw f) ->
      sparse_value g p = if in_blockb (s_dw f) (s_order f) p c then Ok v else sparse_value f p.
Proof.
  intros S G. destruct (block_id_ok f c S G) as [Eid L].
  destruct (arr_get_ok _ _ L) as [b Eb]. pose proof (block_shape_get f _ _ S Eb) as Sb.
  unfold sparse_set_block_empty. rewrite Eid. cbn [bind]. rewrite Eb. cbn [bind].
  assert (Eq : (if b_alloc b then dealloc_block v else Block (b_alloc b) v (b_data b))
               = dealloc_block v).
  { unfold block_shape in Sb. destruct (b_alloc b); auto. rewrite Sb. auto. }
  rewrite Eq, arr_set_ok by auto. cbn [bind]. eexists. split; [reflexivity|].
  assert (Sd : block_shape (s_order f) (dealloc_block v)) by reflexivity.
  split; [apply set_block_shape; auto|].
  cbn [s_ext s_dw s_order s_bres s_blocks]. do 5 (split; auto). intros p B.
  rewrite (replace_block_value f (lid (s_bres f) c) b (dealloc_block v) p) by auto.
  assert (O := ss_order _ S).
  destruct (lid (s_bres f) (bc f p) =? lid (s_bres f) c) eqn:E.
  - apply Z.eqb_eq in E. apply (lid_inj f) in E; auto; [|apply bc_in_grid; auto].
    apply in_block_bc in E; auto. apply in_blockb_iff in E. rewrite E. reflexivity.
  - destruct (in_blockb _ _ _ _) eqn:F; auto. apply in_blockb_iff in F.
    apply in_block_bc in F; auto. rewrite F, Z.eqb_refl in E. discriminate.
Qed.

Lemma release_values (f g : sparse V) n : sshape f ->
  sparse_release f (check_all_equal eqb) = Ok (g, n) ->
  sshape g /\ s_ext g = s_ext f /\ s_dw g = s_dw f /\ s_order g = s_order f /\
  s_bres g = s_bres f /\
  forall p, in_box p (s_dw f) -> sparse_value g p = sparse_value f p.
Proof.
  intros S E. destruct (box_empty (s_dw f)) eqn:N.
  - destruct (release_shape f (check_all_equal eqb) S) as (g' & n' & E' & Sg & X1 & X2 & X3 & X4 & _).
    rewrite E in E'. injection E' as <- <-. do 5 (split; auto).
    intros p B. apply in_box_nonempty in B. apply box_empty_false in B. congruence.
  - apply box_empty_false in N.
    destruct (release_blocks f (check_all_equal eqb) S N)
      as (g' & n' & E' & Sg & X1 & X2 & X3 & X4 & Cn & K).
    rewrite E in E'. injection E' as <- <-. do 5 (split; auto). intros p B.
    destruct (K (bc f p) (bc_in_grid f p S B)) as (b & b' & Eb & Eb' & IC & BC & R).
    rewrite (value_in_block f p (bc f p) b) by auto.
    assert (BCg : bc g p = bc f p) by (unfold bc; rewrite X2, X3; auto).
    assert (VCg : vc g p = vc f p) by (unfold vc; rewrite X2, X3; auto).
    rewrite (value_in_block g p (bc f p) b') by (auto; congruence).
    destruct R as [[A ->]|(first & A & Ef & [[-> H]|[-> _]])].
    + unfold read_block. rewrite A. auto.
    + unfold read_block at 1, dealloc_block. cbn [b_alloc b_empty].
      destruct (sparse_value_ok f p S B) as [v Ev].
      specialize (H p v B eq_refl Ev). unfold check_all_equal in H.
      apply negb_false_iff in H. apply eqb_ok in H.
      rewrite (value_in_block f p (bc f p) b) in Ev by auto. rewrite Ev. congruence.
    + unfold read_block. rewrite X3, VCg. auto.
Qed.

Lemma srefines_step f a o : srefines f a -> slegal zero a [o] ->
  exists f', sparse_step zero eqb f o = Ok f' /\ srefines f' (sspec_step zero a o).
Proof.
  intros [S X W O D] [L _]. destruct o; simpl in L |- *.
  - unfold sparse_set_size. rewrite O. apply setup_refines; auto. rewrite <- O. apply (ss_order _ S).
  - unfold sparse_set_order. destruct L. rewrite X, W. apply setup_refines; auto.
  - destruct (clear_refines f v S) as (g & E & R). exists g. split; auto.
    rewrite X, W, O in R. auto.
  - assert (B : in_box p (s_dw f)) by congruence.
    destruct (sparse_write_ok f p v S B) as (g & b & b' & Eg & Sg & X1 & X2 & X3 & X4 & _).
    exists g. split; auto. constructor; auto; [exact (eq_trans X1 X)|exact (eq_trans X2 W)|exact (eq_trans X3 O)|].
    intros q Q. change (in_box q (sm_dw a)) in Q.
    rewrite (sparse_write_value f p v g) by (auto; congruence).
    unfold sm_val; cbn [sm_map a_val]. unfold upd.
    destruct (v3_dec q p) as [->|N0]; [auto|]. apply D; auto.
  - rewrite <- W, <- O in L. destruct (set_block_empty_ok f c v S L)
      as (g & E & Sg & X1 & X2 & X3 & X4 & _ & K).
    exists g. split; auto. constructor; auto; [exact (eq_trans X1 X)|exact (eq_trans X2 W)|exact (eq_trans X3 O)|].
    intros q Q. change (in_box q (sm_dw a)) in Q. rewrite K by congruence.
    unfold sm_val; cbn [sm_map a_val]. rewrite W, O. destruct (in_blockb _ _ _ _); [auto|apply D; auto].
  - destruct (release_shape f (check_all_equal eqb) S) as (g & n & E & _).
    destruct (release_values f g n S E) as (Sg & X1 & X2 & X3 & X4 & K).
    exists g. rewrite E. cbn [bind]. split; auto. constructor; auto; try congruence.
    intros p B. rewrite K by congruence. auto.
Qed.

Lemma slegal_cons a o l : slegal zero a (o :: l) <->
  slegal zero a [o] /\ slegal zero (sspec_step zero a o) l.
Proof. simpl. tauto. Qed.

Lemma srefines_run l : forall f a, srefines f a -> slegal zero a l ->
  exists f', sparse_run zero eqb f l = Ok f' /\ srefines f' (sspec_run zero a l).
Proof.
  induction l as [|o l IH]; intros f a R L.
  - exists f. auto.
  - apply slegal_cons in L. destruct L as [L1 L2].
    destruct (srefines_step f a o R L1) as (f1 & E1 & R1).
    destruct (IH f1 _ R1 L2) as (f2 & E2 & R2).
    exists f2. split; auto. cbn [sparse_run]. rewrite E1. auto.
Qed.

Lemma srefines_init : exists f, sparse_init zero = Ok f /\ srefines f (sspec_init zero).
Proof.
  unfold sparse_init, sspec_init. cbv zeta. apply setup_refines.
  - unfold order_ok; lia.
  - split; [|vm_compute; repeat split; discriminate || reflexivity].
    simpl. intros c H. decompose [or] H; subst; lia || contradiction.
Qed.
End R.

(** * Grains *)
Section G.
Context {V : Type}.

Lemma sparse_grain_bounds_ok (f : sparse V) c : sshape f ->
  block_in_grid (s_dw f) (s_order f) c ->
  exists b w, sparse_grain_bounds f (lid (s_bres f) c) = Ok (b, w) /\
    forall p, in_box p b <-> in_box p (s_dw f) /\ in_block (s_dw f) (s_order f) p c.
Proof.
  intros S G. destruct S as [O _ R _ _ _]. unfold order_ok in O.
  unfold block_in_grid in G. rewrite <- R in G.
  unfold sparse_grain_bounds, lid. destruct (s_bres f) as [rx ry rz] eqn:ER.
  cbn [vx vy vz] in *. rewrite index_to_coord_spec with (rz := rz) by lia. cbn [bind].
  eexists; eexists. split; [reflexivity|]. intros p. rewrite clip_bounds_spec.
  rewrite Z.shiftl_1_l. unfold in_block, in_box at 1, v3_add; cbn [bmin bmax vx vy vz].
  split; intros H; split; try tauto; lia.
Qed.

Lemma lid_onto (f : sparse V) g : sshape f -> 0 <= g < Z.of_nat (length (s_blocks f)) ->
  exists c, block_in_grid (s_dw f) (s_order f) c /\ g = lid (s_bres f) c.
Proof.
  intros S L. destruct S as [O _ R _ Ln _]. rewrite Ln in L.
  pose proof (blocks_of_pos (s_dw f) (s_order f) ltac:(unfold order_ok in O; lia)) as P.
  rewrite <- R in P.
  destruct (index_to_coord_back (vx (s_bres f)) (vy (s_bres f)) (vz (s_bres f)) g)
    as (i & j & k & _ & I & J & K & E); try lia.
  exists (V3 i j k). split; [|exact E]. unfold block_in_grid. rewrite <- R.
  cbn [vx vy vz]. auto.
Qed.

Lemma sparse_grain_unique (f : sparse V) p : sshape f -> in_box p (s_dw f) ->
  exists! g, 0 <= g < sparse_num_grains f /\
    exists b w, sparse_grain_bounds f g = Ok (b, w) /\ in_box p b.
Proof.
  intros S B. assert (O := ss_order _ S). unfold sparse_num_grains.
  exists (lid (s_bres f) (bc f p)). pose proof (bc_in_grid f p S B) as G. split.
  - split; [apply block_id_ok; auto|].
    destruct (sparse_grain_bounds_ok f (bc f p) S G) as (b & w & E & K).
    exists b, w. split; auto. apply K. split; auto. apply in_block_bc; auto.
  - intros g [L (b & w & E & I)]. destruct (lid_onto f g S L) as (c & Gc & ->).
    destruct (sparse_grain_bounds_ok f c S Gc) as (b' & w' & E' & K).
    rewrite E in E'. injection E' as <- <-. apply K in I. destruct I as [_ I].
    apply in_block_bc in I; auto. congruence.
Qed.
End G.

(** * Iterators *)
Section I.
Context {V : Type}.

(** At most 2^30 blocks: the end iterator's block index must not overflow. *)
Definition few_blocks (f : sparse V) : Prop :=
  vx (s_bres f) * vy (s_bres f) * vz (s_bres f) <= 2 ^ 30.

Definition aligned (f : sparse V) : Prop :=
  vx (bmin (s_dw f)) mod 2 ^ s_order f = 0 /\ vy (bmin (s_dw f)) mod 2 ^ s_order f = 0 /\
  vz (bmin (s_dw f)) mod 2 ^ s_order f = 0.

Definition good_si (managed : bool) (f : sparse V) (it : siter) : Prop :=
  exists b, arr_get (s_blocks f) (lid (s_bres f) (bc f (si_pos it))) = Ok b /\
    si_block it = lid (s_bres f) (bc f (si_pos it)) /\
    si_ticker it = vx (vc f (si_pos it)) /\
    si_empty it = negb (b_alloc b) /\
    (b_alloc b = false -> si_p it = PEmpty (si_block it)) /\
    (b_alloc b = true -> (managed = true /\ si_active it = false) \/
        si_p it = PCell (si_block it) (cid (2 ^ s_order f) (vc f (si_pos it)))).

Lemma siter_setup_in managed (f : sparse V) it : sshape f -> in_box (si_pos it) (s_dw f) ->
  exists it', siter_setup managed f it = Ok it' /\ si_pos it' = si_pos it /\ good_si managed f it'.
Proof.
  intros S B. assert (O := ss_order _ S). assert (W := ss_win _ S).
  assert (O' := O). unfold order_ok in O'.
  unfold siter_setup. rewrite window_offset_ok by auto. cbn [bind].
  rewrite block_coord_eq by lia. change (V3 _ _ _) with (bc f (si_pos it)) at 1.
  destruct (block_id_ok f _ S (bc_in_grid f _ S B)) as [Eid L].
  rewrite Eid. cbn [bind].
  assert (Ex := ss_xy _ S). assert (El := ss_len _ S).
  destruct W as (_ & _ & _ & _ & W). rewrite <- (ss_bres _ S) in W.
  rewrite Ex. rewrite i32_ok by (unfold int_min, int_max; lia). cbn [bind].
  replace (_ >=? _) with false by lia.
  destruct (arr_get_ok _ _ L) as [b Eb]. rewrite Eb. cbn [bind].
  rewrite voxel_in_block_eq by lia. change (V3 _ _ _) with (vc f (si_pos it)).
  rewrite cell_index_cid by lia.
  destruct (b_alloc b) eqn:A.
  - eexists. split; [reflexivity|]. split; [reflexivity|]. exists b.
    cbn [si_pos si_p si_empty si_ticker si_block si_active]. rewrite A.
    repeat split; auto; try discriminate. intros _.
    destruct managed; [left; auto|right; reflexivity].
  - eexists. split; [reflexivity|]. split; [reflexivity|]. exists b.
    cbn [si_pos si_p si_empty si_ticker si_block si_active]. rewrite A.
    repeat split; auto. discriminate.
Qed.

(** Set-up at the end position of a sub-box: no undefined behaviour. *)
Lemma siter_setup_end managed (f : sparse V) w it : sshape f -> few_blocks f ->
  box_nonempty w -> sub_box w (s_dw f) -> si_pos it = it_end w ->
  exists it', siter_setup managed f it = Ok it' /\ si_pos it' = it_end w.
Proof.
  intros S F N W P. assert (B : in_box (bmin w) w) by (apply in_box_min; auto).
  assert (B2 : in_box (V3 (vx (bmin w)) (vy (bmin w)) (vz (bmax w))) w).
  { unfold in_box, box_nonempty in *; simpl; lia. }
  apply W in B2.
  destruct (box_has (s_dw f) (it_end w)) eqn:H.
  - apply box_has_iff in H. destruct (siter_setup_in managed f it S) as (it' & E & Ep & _).
    { congruence. } exists it'. split; auto. congruence.
  - assert (O := ss_order _ S). assert (O' := O). unfold order_ok in O'.
    pose proof (pow2_pos (s_order f) ltac:(lia)) as Pw.
    assert (Z1 : vz (bmax w) = vz (bmax (s_dw f))).
    { apply box_has_false in H. unfold in_box, it_end in *. simpl in *. lia. }
    unfold siter_setup. rewrite P.
    assert (Ws := ss_win _ S). destruct Ws as (C & _).
    assert (C1 := C (vx (bmin (s_dw f))) ltac:(simpl; auto)).
    assert (C2 := C (vy (bmin (s_dw f))) ltac:(simpl; auto)).
    assert (C3 := C (vz (bmin (s_dw f))) ltac:(simpl; auto)).
    assert (C4 := C (vx (bmax (s_dw f))) ltac:(simpl; auto)).
    assert (C5 := C (vy (bmax (s_dw f))) ltac:(simpl; auto 6)).
    assert (C6 := C (vz (bmax (s_dw f))) ltac:(simpl; auto 7)).
    clear C. unfold in_box in B2. cbn [vx vy vz] in B2.
    unfold window_offset, it_end. cbn [vx vy vz].
    repeat (rewrite i32_ok by (unfold int_min, int_max; lia); cbn [bind]).
    rewrite block_coord_eq by lia. cbn [vx vy vz].
    assert (NB : box_nonempty (s_dw f)) by (unfold box_nonempty; lia).
    pose proof (res_of_in _ _ (proj2 (box_has_iff _ _) (proj1 (box_has_iff _ _)
       ltac:(apply box_has_iff; apply W; apply in_box_min; auto)))) as RI || idtac.
    assert (Rb := ss_bres _ S).
    assert (RI : 0 <= vx (bmin w) - vx (bmin (s_dw f)) < vx (res_of (s_dw f)) /\
                 0 <= vy (bmin w) - vy (bmin (s_dw f)) < vy (res_of (s_dw f)) /\
                 vz (bmax (s_dw f)) + 1 - vz (bmin (s_dw f)) = vz (res_of (s_dw f))).
    { unfold res_of. rewrite (proj2 (box_empty_false _) NB). simpl. lia. }
    destruct RI as (R1 & R2 & R3). rewrite Z1, R3.
    pose proof (blocks_along_lt (s_order f) _ _ ltac:(lia) R1) as Q1.
    pose proof (blocks_along_lt (s_order f) _ _ ltac:(lia) R2) as Q2.
    set (bi := (vx (bmin w) - vx (bmin (s_dw f))) / 2 ^ s_order f) in *.
    set (bj := (vy (bmin w) - vy (bmin (s_dw f))) / 2 ^ s_order f) in *.
    assert (Q3 : 0 <= vz (res_of (s_dw f)) / 2 ^ s_order f <= vz (s_bres f)).
    { rewrite Rb. unfold blocks_of, blocks_along; cbn [vz].
      pose proof (res_of_pos (s_dw f)). split; [apply Z.div_pos; lia|].
      apply Z.div_le_mono; lia. }
    set (bk := vz (res_of (s_dw f)) / 2 ^ s_order f) in *.
    assert (E1 : blocks_along (s_order f) (vx (res_of (s_dw f))) = vx (s_bres f)) by (rewrite Rb; auto).
    assert (E2 : blocks_along (s_order f) (vy (res_of (s_dw f))) = vy (s_bres f)) by (rewrite Rb; auto).
    rewrite E1 in Q1. rewrite E2 in Q2.
    assert (Ex := ss_xy _ S). assert (El := ss_len _ S). unfold few_blocks in F.
    assert (Pz : 0 < vz (s_bres f)).
    { rewrite Rb. pose proof (blocks_of_pos (s_dw f) (s_order f) ltac:(lia)). lia. }
    assert (T1 : 0 <= bj * vx (s_bres f) + bi < vx (s_bres f) * vy (s_bres f)).
    { clear - Q1 Q2. nia. }
    assert (T0 : 0 <= bj * vx (s_bres f)) by (apply Z.mul_nonneg_nonneg; lia).
    set (xy := vx (s_bres f) * vy (s_bres f)) in *.
    assert (T2 : 0 <= bk * xy <= xy * vz (s_bres f)) by (clear - T1 Q3; nia).
    assert (T3 : xy <= xy * vz (s_bres f)) by (clear - T1 Pz; nia).
    unfold block_id. cbn [vx vy vz]. rewrite Ex. fold xy.
    revert T0 T1 T2 T3 F. generalize (bj * vx (s_bres f)) (bk * xy). intros u t T0 T1 T2 T3 F.
    repeat (rewrite i32_ok by (unfold int_min, int_max; lia); cbn [bind]).
    destruct (_ >=? _) eqn:Ge.
    + eexists. split; [reflexivity|]. reflexivity.
    + assert (IL : 0 <= t + u + bi < Z.of_nat (length (s_blocks f))) by lia.
      destruct (arr_get_ok _ _ IL) as [b Eb]. rewrite Eb. cbn [bind].
      destruct (b_alloc b); eexists; (split; [reflexivity|reflexivity]).
Qed.

Lemma mod_sub_aligned m x s : 0 < s -> m mod s = 0 -> (x - m) mod s = x mod s.
Proof.
  intros P H. rewrite (Z.div_mod m s) by lia. rewrite H, Z.add_0_r.
  replace (x - s * (m / s)) with (x + (- (m / s)) * s) by ring.
  apply Z.mod_add. lia.
Qed.

(** Dereferencing a good iterator reads the voxel it names. *)
Lemma siter_deref_good managed (f : sparse V) it : sshape f -> in_box (si_pos it) (s_dw f) ->
  (managed = true -> aligned f) -> good_si managed f it ->
  exists v it', siter_deref managed f it = Ok (v, it') /\ sparse_value f (si_pos it) = Ok v /\
    si_pos it' = si_pos it /\ good_si managed f it' /\
    (managed = true -> si_empty it' = false -> si_active it' = true) /\
    (si_empty it' = false -> si_p it' = PCell (si_block it') (cid (2 ^ s_order f) (vc f (si_pos it')))).
Proof.
  intros S B Al (b & Eb & Ei & Et & Ee & Pe & Pa).
  assert (O := ss_order _ S). assert (O' := O). unfold order_ok in O'.
  pose proof (pow2_pos (s_order f) ltac:(lia)) as Pw.
  assert (Ev : sparse_value f (si_pos it) = read_block f b (si_pos it)).
  { apply (value_in_block f _ (bc f (si_pos it))); auto. }
  pose proof (block_shape_get f _ _ S Eb) as Sb.
  destruct (sparse_value_ok f _ S B) as [v Hv].
  unfold siter_deref. destruct (negb (si_empty it) && managed && negb (si_active it)) eqn:M.
  - assert (Hm : managed = true) by lia. destruct (Al Hm) as (A1 & A2 & A3).
    assert (A : b_alloc b = true) by (rewrite Ee in M; destruct (b_alloc b); auto; simpl in M; lia).
    rewrite voxel_in_block_eq, cell_index_cid by lia.
    assert (VC : V3 (vx (si_pos it) mod 2 ^ s_order f) (vy (si_pos it) mod 2 ^ s_order f)
                    (vz (si_pos it) mod 2 ^ s_order f) = vc f (si_pos it)).
    { unfold vc. rewrite !mod_sub_aligned; auto. }
    rewrite VC.
    assert (Rd : sptr_read f (PCell (si_block it) (cid (2 ^ s_order f) (vc f (si_pos it)))) = Ok v).
    { unfold sptr_read. rewrite Ei, Eb. cbn [bind]. rewrite <- Hv, Ev. unfold read_block.
      rewrite A. auto. }
    rewrite Rd. cbn [bind]. eexists; eexists. split; [reflexivity|]. split; [auto|].
    cbn [si_pos si_p si_empty si_ticker si_block si_active]. split; auto.
    split; [|split; auto]. exists b. cbn [si_pos si_p si_empty si_ticker si_block si_active].
    repeat split; auto. intros K; congruence.
  - destruct (b_alloc b) eqn:A.
    + assert (P : si_p it = PCell (si_block it) (cid (2 ^ s_order f) (vc f (si_pos it)))).
      { destruct (Pa eq_refl) as [[K1 K2]|K]; auto. rewrite Ee, K1, K2 in M. discriminate. }
      rewrite P. unfold sptr_read. rewrite Ei, Eb. cbn [bind].
      assert (Rd : block_cell b (cid (2 ^ s_order f) (vc f (si_pos it))) = Ok v).
      { rewrite <- Hv, Ev. unfold read_block. rewrite A. auto. }
      rewrite Rd. cbn [bind]. exists v, it. split; auto. split; auto. split; auto.
      split; [exists b; rewrite A; repeat split; auto|]. split; auto.
      intros Hm He. rewrite Hm, He in M. simpl in M. destruct (si_active it); auto.
    + rewrite (Pe eq_refl). unfold sptr_read. rewrite Ei, Eb. cbn [bind].
      assert (Rd : b_empty b = v).
      { assert (Ok (b_empty b) = Ok v); [|congruence].
        rewrite <- Hv, Ev. unfold read_block. rewrite A. auto. }
      rewrite Rd. exists v, it. split; auto. split; auto. split; auto.
      split; [exists b; rewrite A; repeat split; auto; discriminate|].
      split; intros; rewrite Ee in *; discriminate.
Qed.

(** Advancing. *)
Lemma siter_next_good managed (f : sparse V) w it : sshape f -> few_blocks f ->
  sub_box w (s_dw f) -> in_box (si_pos it) w -> good_si managed f it ->
  (managed = true -> si_empty it = false -> si_active it = true) ->
  (si_empty it = false -> si_p it = PCell (si_block it) (cid (2 ^ s_order f) (vc f (si_pos it)))) ->
  exists it', siter_next managed f w it = Ok it' /\ si_pos it' = it_next w (si_pos it) /\
    (in_box (si_pos it') w -> good_si managed f it').
Proof.
  intros S F W B G Act Ptr. assert (N := in_box_nonempty _ _ B).
  unfold siter_next. set (q := it_next w (si_pos it)).
  assert (O := ss_order _ S). assert (O' := O). unfold order_ok in O'.
  pose proof (pow2_pos (s_order f) ltac:(lia)) as Pw.
  assert (Q : in_box q w \/ q = it_end w).
  { unfold q, it_next, it_end, in_box in *.
    destruct (vx (si_pos it) =? vx (bmax w)) eqn:E1; [destruct (vy (si_pos it) =? vy (bmax w)) eqn:E2|]; simpl; 
      try (left; lia).
    destruct (Z.eq_dec (vz (si_pos it)) (vz (bmax w))); [right; f_equal; lia|left; lia]. }
  assert (exists m, (if negb (si_empty it) && (negb managed || si_active it)
             then sptr_inc (si_p it) else Ok (si_p it)) = Ok m /\
     (si_empty it = false -> m = PCell (si_block it) (cid (2 ^ s_order f) (vc f (si_pos it)) + 1)) /\
     (si_empty it = true -> m = si_p it)) as (m & -> & M1 & M2).
  { destruct (si_empty it) eqn:Em.
    - eexists. split; [reflexivity|]. split; [discriminate|auto].
    - assert (negb managed || si_active it = true).
      { destruct managed; [rewrite Act by auto|]; auto. }
      rewrite H, (Ptr eq_refl). simpl. eexists. split; [reflexivity|]. split; auto. discriminate. }
  cbn [bind]. rewrite Z.shiftl_1_l.
  destruct ((vx (si_pos it) =? vx (bmax w)) || (si_ticker it + 1 =? 2 ^ s_order f)) eqn:R.
  - destruct Q as [Q|Q].
    + destruct (siter_setup_in managed f (SIter q m (si_empty it) 0 (si_block it) (si_active it)) S)
        as (it' & E & Ep & G'); [apply W; auto|].
      exists it'. split; auto.
    + destruct (siter_setup_end managed f w (SIter q m (si_empty it) 0 (si_block it) (si_active it)) S F N W)
        as (it' & E & Ep); [auto|].
      exists it'. split; auto. split; [congruence|]. rewrite Ep. intros K.
      exfalso. unfold in_box, it_end in K; simpl in K. lia.
  - eexists. split; [reflexivity|]. split; [reflexivity|]. intros _.
    destruct G as (b & Eb & Ei & Et & Ee & Pe & Pa).
    assert (Qx : q = V3 (vx (si_pos it) + 1) (vy (si_pos it)) (vz (si_pos it))).
    { unfold q, it_next. replace (vx (si_pos it) =? vx (bmax w)) with false by lia. auto. }
    assert (T : vx (vc f (si_pos it)) + 1 < 2 ^ s_order f).
    { pose proof (vc_range f (si_pos it) O). rewrite Et in R. lia. }
    assert (BC : bc f q = bc f (si_pos it) /\
        vc f q = V3 (vx (vc f (si_pos it)) + 1) (vy (vc f (si_pos it))) (vz (vc f (si_pos it)))).
    { rewrite Qx. unfold bc, vc in *; cbn [vx vy vz] in *.
      set (s := 2 ^ s_order f) in *. set (x := vx (si_pos it) - vx (bmin (s_dw f))) in *.
      replace (vx (si_pos it) + 1 - vx (bmin (s_dw f))) with (x + 1) by (unfold x; lia).
      pose proof (Z.div_mod x s ltac:(lia)). pose proof (Z.mod_pos_bound x s Pw).
      replace ((x + 1) / s) with (x / s) by (apply Z.div_unique with (x mod s + 1); lia).
      replace ((x + 1) mod s) with (x mod s + 1) by (apply Z.mod_unique with (x / s); lia).
      auto. }
    destruct BC as [BC VC].
    exists b. cbn [si_pos si_p si_empty si_ticker si_block si_active].
    rewrite BC, VC. cbn [vx]. repeat split; auto.
    + rewrite Et. auto.
    + intros A. rewrite M2; auto. rewrite Ee, A. auto.
    + intros A. right. rewrite M1 by (rewrite Ee, A; auto). f_equal. unfold cid; cbn [vx vy vz]. lia.
Qed.

Lemma siter_loop_good managed (f : sparse V) w : sshape f -> few_blocks f ->
  sub_box w (s_dw f) -> (managed = true -> aligned f) ->
  forall l it fuel, chain (it_next w) (si_pos it) l (it_end w) ->
  (forall p, In p l -> in_box p w) ->
  (in_box (si_pos it) w -> good_si managed f it) ->
  (length l < fuel)%nat ->
  exists vs, siter_loop fuel managed f w it = Some (Ok (combine l vs)) /\ length vs = length l /\
    forall p v, In (p, v) (combine l vs) -> sparse_value f p = Ok v.
Proof.
  intros S F W Al. induction l as [|h t IH]; intros it fuel C I G L; simpl in *.
  - destruct fuel; [lia|]. simpl. rewrite C, v3_eqb_refl. exists []. simpl. split; auto. split; auto. intros ? ? [].
  - destruct fuel; [lia|]. destruct C as [Ch C].
    assert (B : in_box (si_pos it) w) by (rewrite Ch; apply I; auto).
    cbn [siter_loop]. rewrite v3_eqb_neq.
    2:{ intros K. rewrite K in B. unfold in_box, it_end in B; simpl in B; lia. }
    destruct (siter_deref_good managed f it S (W _ B) Al (G B))
      as (v & it1 & E1 & Ev & Ep & G1 & A1 & P1).
    rewrite E1. cbn [bind].
    destruct (siter_next_good managed f w it1 S F W) as (it2 & E2 & Ep2 & G2); auto.
    { congruence. }
    rewrite E2. cbn [bind]. rewrite <- Ch, <- Ep, <- Ep2 in C.
    destruct (IH it2 fuel C (fun p K => I p (or_intror K)) G2 ltac:(lia)) as (vs & E3 & Ls & K).
    rewrite E3. cbn [bind]. exists (v :: vs). rewrite <- Ch. simpl. rewrite Ls.
    split; auto. split; auto. intros p v' [Eq|In']; [injection Eq as <- <-; auto|auto].
Qed.

Lemma sparse_iterate_sub_ok managed (f : sparse V) w fuel : sshape f -> few_blocks f ->
  box_nonempty w -> sub_box w (s_dw f) -> (managed = true -> aligned f) ->
  box_count w < Z.of_nat fuel ->
  exists l, sparse_iterate_sub fuel managed f w = Some (Ok l) /\ map fst l = enum w /\
    forall p v, In (p, v) l -> sparse_value f p = Ok v.
Proof.
  intros S F N W Al L. unfold sparse_iterate_sub, siter_make.
  destruct (siter_setup_end managed f w (SIter (it_end w) PNull false 0 (-1) false) S F N W eq_refl)
    as (e & -> & _).
  unfold it_begin_sub. rewrite (proj2 (box_empty_false w) N).
  assert (B : in_box (bmin w) w) by (apply in_box_min; auto).
  destruct (siter_setup_in managed f (SIter (bmin w) PNull false 0 (-1) false) S (W _ B))
    as (it & -> & Ep & G). cbn [si_pos] in Ep.
  destruct (siter_loop_good managed f w S F W Al (enum w) it fuel) as (vs & E & Ls & K); auto.
  - rewrite Ep. apply enum_chain; auto.
  - intros p. apply enum_In.
  - rewrite <- enum_length in L. lia.
  - exists (combine (enum w) vs). split; auto. split; auto.
    clear - Ls. revert vs Ls. induction (enum w); destruct vs; simpl; intros; try discriminate; f_equal; auto.
Qed.

(** * The mutable iterator *)
Lemma list_set_twice {A} (l : list A) n a b : list_set (list_set l n a) n b = list_set l n b.
Proof. revert n. induction l; destruct n; simpl; auto. f_equal; auto. Qed.
Lemma list_set_self {A} (l : list A) n a : nth_error l n = Some a -> list_set l n a = l.
Proof. revert n. induction l; destruct n; simpl; intros; try discriminate; f_equal; auto; congruence. Qed.

Lemma sparse_eta (f : sparse V) :
  Sparse (s_ext f) (s_dw f) (s_order f) (s_bres f) (s_xy f) (s_blocks f) = f.
Proof. destruct f; auto. Qed.

Lemma sparse_write_eq (f : sparse V) p v b : sshape f -> in_box p (s_dw f) ->
  arr_get (s_blocks f) (lid (s_bres f) (bc f p)) = Ok b ->
  sparse_write f p v =
    let b1 := if b_alloc b then b else block_resize b (cells_per_block (s_order f)) in
    match b_data b1 with
    | None => UB
    | Some d =>
      let* d' := arr_set d (cid (2 ^ s_order f) (vc f p)) v in
      let* bl := arr_set (s_blocks f) (lid (s_bres f) (bc f p)) (Block (b_alloc b1) (b_empty b1) (Some d')) in
      Ok (Sparse (s_ext f) (s_dw f) (s_order f) (s_bres f) (s_xy f) bl)
    end.
Proof.
  intros S B Eb. assert (O := ss_order _ S). unfold order_ok in O.
  unfold sparse_write. rewrite window_offset_ok by (auto; apply (ss_win _ S)). cbn [bind].
  rewrite block_coord_eq by lia. change (V3 _ _ _) with (bc f p) at 1.
  destruct (block_id_ok f _ S (bc_in_grid f _ S B)) as [-> _]. cbn [bind]. rewrite Eb. cbn [bind].
  rewrite voxel_in_block_eq, cell_index_cid by lia. reflexivity.
Qed.

(** One step of the fill loop is exactly [lvalue(x,y,z) = v]. *)
Lemma witer_step (f f2 : sparse V) it v : sshape f -> in_box (si_pos it) (s_dw f) ->
  good_si false f it -> sparse_write f (si_pos it) v = Ok f2 ->
  exists f1 it1, witer_deref f it = Ok (f1, it1) /\ sptr_write f1 (si_p it1) v = Ok f2 /\
    si_pos it1 = si_pos it /\ good_si false f2 it1 /\ si_empty it1 = false /\
    si_p it1 = PCell (si_block it1) (cid (2 ^ s_order f) (vc f (si_pos it1))).
Proof.
  intros S B G Wr. assert (G' := G). destruct G' as (b & Eb & Ei & Et & Ee & Pe & Pa).
  assert (O := ss_order _ S). assert (O' := O). unfold order_ok in O'.
  destruct (sparse_write_ok f _ v S B) as (g & b0 & b' & Eg & Sg & X1 & X2 & X3 & X4 & Eb0 & Bl & Al & _).
  rewrite Wr in Eg. injection Eg as <-. rewrite Eb in Eb0. injection Eb0 as <-.
  destruct (block_id_ok f _ S (bc_in_grid f _ S B)) as [Eid L].
  assert (Eb' := Eb). apply arr_get_inv in Eb'. destruct Eb' as [_ Nb].
  rewrite (sparse_write_eq f _ v b) in Wr by auto. cbv zeta in Wr.
  assert (Good : forall it1, si_pos it1 = si_pos it -> si_block it1 = lid (s_bres f) (bc f (si_pos it)) ->
     si_ticker it1 = vx (vc f (si_pos it)) -> si_empty it1 = false ->
     si_p it1 = PCell (si_block it1) (cid (2 ^ s_order f) (vc f (si_pos it1))) -> good_si false f2 it1).
  { intros it1 H1 H2 H3 H4 H5. exists b'. 
    replace (bc f2 (si_pos it1)) with (bc f (si_pos it)) by (unfold bc; rewrite X2, X3, H1; auto).
    replace (vc f2 (si_pos it1)) with (vc f (si_pos it)) by (unfold vc; rewrite X2, X3, H1; auto).
    rewrite X3, X4, Bl, arr_get_set_same by auto. rewrite H4, Al.
    repeat split; auto; try discriminate. intros _. right. rewrite H5, H1. auto. }
  destruct (b_alloc b) eqn:A.
  - assert (P : si_p it = PCell (si_block it) (cid (2 ^ s_order f) (vc f (si_pos it)))).
    { destruct (Pa eq_refl) as [[K1 K2]|K]; auto. discriminate. }
    exists f, it. unfold witer_deref. rewrite Ee. simpl negb. cbv iota. split; auto.
    split; [|split; [auto|split; [apply Good; auto|split; auto]]].
    rewrite P. unfold sptr_write. rewrite Ei, Eb. cbn [bind].
    destruct (b_data b); auto.
  - set (b1 := block_resize b (cells_per_block (s_order f))) in *.
    assert (E1 : sparse_touch f (si_pos it) =
       Ok (Sparse (s_ext f) (s_dw f) (s_order f) (s_bres f) (s_xy f)
            (list_set (s_blocks f) (Z.to_nat (lid (s_bres f) (bc f (si_pos it)))) b1))).
    { unfold sparse_touch. rewrite window_offset_ok by (auto; apply (ss_win _ S)). cbn [bind].
      rewrite block_coord_eq by lia. change (V3 _ _ _) with (bc f (si_pos it)) at 1.
      rewrite Eid. cbn [bind]. rewrite Eb. cbn [bind]. rewrite A. fold b1.
      rewrite arr_set_ok by auto. reflexivity. }
    set (f1 := Sparse _ _ _ _ _ _) in E1.
    assert (Sb1 : block_shape (s_order f) b1).
    { unfold block_shape, b1, block_resize. cbn [b_alloc b_data]. eexists. split; [reflexivity|].
      rewrite repeat_length, cells_per_block_eq by lia.
      pose proof (pow2_pos (s_order f) ltac:(lia)).
      rewrite Z2Nat.id; auto. repeat apply Z.mul_nonneg_nonneg; lia. }
    assert (S1 : sshape f1) by (apply set_block_shape; auto).
    destruct (siter_setup_in false f1 it S1 B) as (it1 & E2 & Ep & G1).
    destruct G1 as (bb & Ebb & Ei1 & Et1 & Ee1 & Pe1 & Pa1). rewrite Ep in *.
    change (bc f1 (si_pos it)) with (bc f (si_pos it)) in *.
    change (vc f1 (si_pos it)) with (vc f (si_pos it)) in *.
    change (s_bres f1) with (s_bres f) in *. change (s_order f1) with (s_order f) in *.
    assert (bb = b1).
    { unfold f1 in Ebb. cbn [s_blocks] in Ebb. rewrite arr_get_set_same in Ebb by auto. congruence. }
    subst bb. change (b_alloc b1) with true in *. simpl in Ee1.
    assert (P : si_p it1 = PCell (si_block it1) (cid (2 ^ s_order f) (vc f (si_pos it)))).
    { destruct (Pa1 eq_refl) as [[K1 K2]|K]; auto. discriminate. }
    exists f1, it1. unfold witer_deref. rewrite Ee. simpl negb. cbv iota. rewrite E1. cbn [bind].
    rewrite E2. cbn [bind]. split; auto.
    split; [|split; [auto|split; [apply Good; auto; rewrite Ep; auto|split; auto; rewrite Ep; auto]]].
    rewrite P. unfold sptr_write. rewrite Ei1, Ebb. cbn [bind].
    change (b_data b1) with (Some (repeat (b_empty b) (Z.to_nat (cells_per_block (s_order f))))) in *.
    cbv iota in *. destruct (arr_set (repeat _ _) _ v) as [d'| |]; cbn [bind] in *; auto.
    change (s_blocks f1) with (list_set (s_blocks f) (Z.to_nat (lid (s_bres f) (bc f (si_pos it)))) b1) in *.
    rewrite arr_set_ok in Wr by auto.
    rewrite arr_set_ok by (rewrite list_set_length; auto). cbn [bind] in *.
    rewrite list_set_twice. exact Wr.
Qed.

Lemma write_few (f f2 : sparse V) p v : sshape f -> in_box p (s_dw f) ->
  sparse_write f p v = Ok f2 -> sshape f2 /\ s_ext f2 = s_ext f /\ s_dw f2 = s_dw f /\
  s_bres f2 = s_bres f /\ s_order f2 = s_order f.
Proof.
  intros S B E. destruct (sparse_write_ok f p v S B) as (g & b & b' & Eg & Sg & X1 & X2 & X3 & X4 & _).
  rewrite E in Eg. injection Eg as <-. auto.
Qed.

Lemma witer_loop_good g w : forall l (f : sparse V) it fuel,
  sshape f -> few_blocks f -> sub_box w (s_dw f) ->
  chain (it_next w) (si_pos it) l (it_end w) ->
  (forall p, In p l -> in_box p w) ->
  (in_box (si_pos it) w -> good_si false f it) ->
  (length l < fuel)%nat ->
  exists f', witer_loop fuel g w f it = Some (Ok f') /\ sshape f' /\
    s_ext f' = s_ext f /\ s_dw f' = s_dw f /\ s_order f' = s_order f /\
    forall p, in_box p (s_dw f) ->
      sparse_value f' p = if in_dec v3_dec p l then Ok (g p) else sparse_value f p.
Proof.
  induction l as [|h t IH]; intros f it fuel S F W C I G L; simpl in C.
  - destruct fuel; [lia|]. simpl. rewrite C, v3_eqb_refl. exists f. auto 6.
  - destruct fuel; [lia|]. destruct C as [Ch C].
    assert (B : in_box (si_pos it) w) by (rewrite Ch; apply I; left; auto).
    assert (Bd : in_box (si_pos it) (s_dw f)) by (apply W; auto).
    cbn [witer_loop]. rewrite v3_eqb_neq.
    2:{ intros K. rewrite K in B. unfold in_box, it_end in B; simpl in B; lia. }
    destruct (sparse_write_ok f (si_pos it) (g (si_pos it)) S Bd) as (f2 & _ & _ & Wr & _).
    destruct (witer_step f f2 it (g (si_pos it)) S Bd (G B) Wr)
      as (f1 & it1 & E1 & E2 & Ep & G1 & Em & P1).
    rewrite E1. cbn [bind]. rewrite Ep, E2. cbn [bind].
    destruct (write_few f f2 _ _ S Bd Wr) as (S2 & X0 & X1 & X2 & X3).
    assert (F2 : few_blocks f2) by (unfold few_blocks; rewrite X2; auto).
    assert (W2 : sub_box w (s_dw f2)) by (rewrite X1; auto).
    destruct (siter_next_good false f2 w it1 S2 F2 W2) as (it2 & E3 & Ep2 & G2); auto.
    { congruence. } { discriminate. }
    { intros _. rewrite X3. replace (vc f2 (si_pos it1)) with (vc f (si_pos it1)); auto.
      unfold vc. rewrite X1, X3. auto. }
    rewrite E3. cbn [bind]. rewrite <- Ch, <- Ep, <- Ep2 in C.
    destruct (IH f2 it2 fuel S2 F2 W2 C (fun p K => I p (or_intror K)) G2)
      as (f' & E4 & S' & Y1 & Y2 & Y3 & K); [simpl in L; lia|].
    exists f'. split; auto. split; auto. split; [congruence|]. split; [congruence|].
    split; [congruence|]. intros p Bp. rewrite K by congruence.
    rewrite (sparse_write_value f _ _ f2 S Bd Wr) by auto.
    destruct (in_dec v3_dec p t) as [i|i]; destruct (in_dec v3_dec p (h :: t)) as [j|j]; auto.
    + exfalso. apply j. right; auto.
    + destruct j as [->|j]; [|contradiction].
      destruct (v3_dec p (si_pos it)); [subst; auto|congruence].
    + destruct (v3_dec p (si_pos it)); auto. exfalso. apply j. left. congruence.
Qed.

Lemma sparse_fill_sub_ok (f : sparse V) g w fuel : sshape f -> few_blocks f ->
  box_nonempty w -> sub_box w (s_dw f) -> box_count w < Z.of_nat fuel ->
  exists f', sparse_fill_sub fuel f w g = Some (Ok f') /\ sshape f' /\
    s_ext f' = s_ext f /\ s_dw f' = s_dw f /\ s_order f' = s_order f /\
    forall p, in_box p (s_dw f) ->
      (in_box p w -> sparse_value f' p = Ok (g p)) /\
      (~ in_box p w -> sparse_value f' p = sparse_value f p).
Proof.
  intros S F N W L. unfold sparse_fill_sub, siter_make.
  destruct (siter_setup_end false f w (SIter (it_end w) PNull false 0 (-1) false) S F N W eq_refl)
    as (e & -> & _).
  unfold it_begin_sub. rewrite (proj2 (box_empty_false w) N).
  assert (B : in_box (bmin w) w) by (apply in_box_min; auto).
  destruct (siter_setup_in false f (SIter (bmin w) PNull false 0 (-1) false) S (W _ B))
    as (it & -> & Ep & G). cbn [si_pos] in Ep.
  destruct (witer_loop_good g w (enum w) f it fuel) as (f' & E & S' & X1 & X2 & X3 & K); auto.
  - rewrite Ep. apply enum_chain; auto.
  - intros p. apply enum_In.
  - rewrite <- enum_length in L. lia.
  - exists f'. do 5 (split; auto). intros p Bp. rewrite K by auto.
    destruct (in_dec v3_dec p (enum w)) as [i|i]; rewrite enum_In in i; split; tauto.
Qed.
End I.
