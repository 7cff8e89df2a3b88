(** Properties C04 - C09 (sparse fields held in memory). *)
From Coq Require Import ZArith List Bool Lia ZifyBool.
From Verif Require Import Model.Base Model.FieldM Model.SparseM Spec.VoxelSpec Spec.SparseSpec
  Proof.BaseP Proof.FieldP Proof.DenseP Proof.SparseP Proof.SparseP2 Proof.SparseP3 Proof.SparseP4.
Import ListNotations.
Open Scope Z_scope.

(** ** C04 *)

(** After any legal history a sparse field answers every in-window read exactly as
    the plain map does; no operation of the history is undefined behaviour. *)
Theorem C04_sparse_refines_map :
  forall (V : Type) (zero : V) eqb (l : list (sop V)), decides_eq eqb ->
  slegal zero (sspec_init zero) l ->
  exists f0 f, sparse_init zero = Ok f0 /\ sparse_run zero eqb f0 l = Ok f /\
    s_ext f = sm_ext (sspec_run zero (sspec_init zero) l) /\
    s_dw f = sm_dw (sspec_run zero (sspec_init zero) l) /\
    s_order f = sm_order (sspec_run zero (sspec_init zero) l) /\
    forall p, in_box p (s_dw f) ->
      sparse_value f p = Ok (sm_val (sspec_run zero (sspec_init zero) l) p).
Proof.
  intros V zero eqb l De L. destruct (srefines_init zero) as (f0 & E0 & R0).
  destruct (srefines_run zero eqb De l f0 _ R0 L) as (f & E & [S X W O D]).
  exists f0, f. do 5 (split; auto). intros p B. apply D. congruence.
Qed.
Print Assumptions C04_sparse_refines_map.

(** The histories used in the examples below: two 4^3 blocks along x and one along
    y and z, window not at the origin. *)
Definition ex_win : box := Box (V3 (-3) 2 5) (V3 3 4 6).
Definition ex_ops : list (sop Z) :=
  [SSize ex_win ex_win; SOrder 2; SClear 7; SWrite (V3 0 3 6) 9; SWrite (V3 2 2 5) 7;
   SBlockEmpty (V3 1 0 0) 4; SWrite (V3 3 4 6) 11].
Lemma ex_legal : slegal 0 (sspec_init 0) ex_ops.
Proof.
  apply slegalb_ok. vm_compute. reflexivity.
Qed.

Example C04_example :
  slegal 0 (sspec_init 0) ex_ops /\
  exists f0 f, sparse_init 0 = Ok f0 /\ sparse_run 0 Z.eqb f0 ex_ops = Ok f /\
    sparse_value f (V3 0 3 6) = Ok 9 /\ sparse_value f (V3 2 2 5) = Ok 4 /\
    sparse_value f (V3 3 4 6) = Ok 11 /\ sparse_value f (V3 (-3) 4 5) = Ok 7.
Proof.
  split; [apply ex_legal|]. do 2 eexists. split; [vm_compute; reflexivity|]. split; [vm_compute; reflexivity|].
  repeat split; vm_compute; reflexivity.
Qed.
Lemma Zeqb_decides : decides_eq Z.eqb.
Proof. intros a b. apply Z.eqb_eq. Qed.

(** ** C05 *)

(** [releaseBlocks(CheckAllEqual)] on any reachable field succeeds and changes no
    in-window value... *)
Theorem C05_release_all_equal_keeps_values :
  forall (V : Type) (zero : V) eqb f, decides_eq eqb -> sparse_reached zero eqb f ->
  exists g n, sparse_release f (check_all_equal eqb) = Ok (g, n) /\
    s_ext g = s_ext f /\ s_dw g = s_dw f /\ s_order g = s_order f /\
    forall p, in_box p (s_dw f) -> sparse_value g p = sparse_value f p.
Proof.
  intros V zero eqb f De R. pose proof (reached_shape zero eqb f De R) as S.
  destruct (release_shape f (check_all_equal eqb) S) as (g & n & E & _).
  destruct (release_values eqb De f g n S E) as (_ & X1 & X2 & X3 & _ & K).
  exists g, n. auto 6.
Qed.
Print Assumptions C05_release_all_equal_keeps_values.

(** ... a block stays allocated exactly when it was allocated and holds two different
    in-window values ... *)
Theorem C05_release_all_equal_exact :
  forall (V : Type) (zero : V) eqb f g n, decides_eq eqb -> sparse_reached zero eqb f ->
  (exists p, in_box p (s_dw f)) ->
  sparse_release f (check_all_equal eqb) = Ok (g, n) ->
  forall c, block_in_grid (s_dw f) (s_order f) c ->
  (block_is_allocated g c = Ok true <->
   block_is_allocated f c = Ok true /\
   exists p q, in_box p (s_dw f) /\ in_box q (s_dw f) /\
     in_block (s_dw f) (s_order f) p c /\ in_block (s_dw f) (s_order f) q c /\
     sparse_value f p <> sparse_value f q) /\
  (block_is_allocated g c = Ok true \/ block_is_allocated g c = Ok false).
Proof.
  intros V zero eqb f g n De R [p0 B0] E c G. pose proof (reached_shape zero eqb f De R) as S.
  pose proof (in_box_nonempty _ _ B0) as N. assert (O := ss_order _ S).
  destruct (release_blocks f (check_all_equal eqb) S N)
    as (g' & n' & E' & Sg & X1 & X2 & X3 & X4 & Cn & K).
  rewrite E in E'. injection E' as <- <-.
  destruct (K c G) as (b & b' & Eb & Eb' & IC & BC & D).
  rewrite (block_is_allocated_eq f c b) by auto.
  rewrite (block_is_allocated_eq g c b'); auto; [|congruence|congruence].
  split; [|destruct (b_alloc b'); auto].
  destruct D as [[A ->]|(first & A & Ef & [[-> H]|[-> (p & v & Bp & Bc & Ev & Bad)]])].
  - rewrite A. split; [discriminate|]. intros [H _]; discriminate.
  - simpl. split; [discriminate|]. intros (_ & p & q & Bp & Bq & Cp & Cq & Ne). exfalso.
    apply (in_block_bc f) in Cp, Cq; auto.
    destruct (sparse_value_ok f p S Bp) as [v Ev]. destruct (sparse_value_ok f q S Bq) as [u Eu].
    pose proof (H p v Bp Cp Ev) as H1. pose proof (H q u Bq Cq Eu) as H2.
    unfold check_all_equal in *. apply negb_false_iff in H1, H2. apply De in H1, H2. congruence.
  - rewrite A. split; auto. intros _. split; auto. exists p, (corner f c).
    rewrite !(in_block_bc f) by auto. do 4 (split; auto). rewrite Ev, Ef. intros Q.
    injection Q as Q. unfold check_all_equal in Bad. apply negb_true_iff in Bad.
    rewrite (proj2 (De v first) Q) in Bad. discriminate.
Qed.
Print Assumptions C05_release_all_equal_exact.

(** ... and the count returned by [releaseBlocks], for any functor, is the number of
    blocks that were allocated before and are not after. *)
Theorem C05_release_count :
  forall (V : Type) (zero : V) eqb f g n bad freed, decides_eq eqb -> sparse_reached zero eqb f ->
  sparse_release f bad = Ok (g, n) ->
  lists_blocks (s_dw f) (s_order f)
    (fun c => block_is_allocated f c = Ok true /\ block_is_allocated g c = Ok false) freed ->
  n = Z.of_nat (length freed).
Proof.
  intros V zero eqb f g n bad freed De R E L. pose proof (reached_shape zero eqb f De R) as S.
  destruct (release_shape f bad S) as (g' & n' & E' & Sg & X1 & X2 & X3 & X4 & Cn & K).
  rewrite E in E'. injection E' as <- <-.
  set (grid := filter (fun c => true) (enum (block_window f))).
  (* split the allocated blocks into kept and freed *)
  set (isA := fun (h : sparse V) c => match block_is_allocated h c with Ok true => true | _ => false end).
  set (all := filter (isA f) (enum (block_window f))).
  set (kept := filter (isA g) (enum (block_window f))).
  assert (Aok : forall h c b, sshape h -> block_in_grid (s_dw h) (s_order h) c ->
     arr_get (s_blocks h) (lid (s_bres h) c) = Ok b -> isA h c = b_alloc b).
  { intros h c b Sh Gh Eh. unfold isA. rewrite (block_is_allocated_eq h c b) by auto.
    destruct (b_alloc b); auto. }
  assert (L1 : lists_blocks (s_dw f) (s_order f) (fun c => isA f c = true) all).
  { split; [apply NoDup_filter, enum_nodup|]. intros c. unfold all.
    rewrite filter_In, enum_In, block_window_grid by auto. tauto. }
  assert (L2 : lists_blocks (s_dw g) (s_order g) (fun c => isA g c = true) kept).
  { split; [apply NoDup_filter, enum_nodup|]. intros c. unfold kept.
    rewrite filter_In, enum_In, X2, X3, block_window_grid by auto. tauto. }
  rewrite Cn, !count_alloc_where.
  rewrite (count_blocks f (fun b => b_alloc b) _ all S) with (2 := L1).
  2:{ intros c b Gc Eb. rewrite (Aok f c b) by auto. tauto. }
  rewrite (count_blocks g (fun b => b_alloc b) _ kept Sg) with (2 := L2).
  2:{ intros c b Gc Eb. rewrite (Aok g c b) by auto. tauto. }
  assert (P : Permutation.Permutation all (kept ++ freed)).
  { destruct L as [Nf If]. destruct L1 as [N1 I1]. destruct L2 as [N2 I2].
    assert (KA : forall c, block_in_grid (s_dw f) (s_order f) c -> isA g c = true -> isA f c = true).
    { intros c Gc H. destruct (K c Gc) as (b & b' & Eb & Eb' & D).
      rewrite (Aok f c b) by auto. rewrite (Aok g c b') in H; [|auto|congruence|congruence].
      destruct D as [[A ->]|(A & _)]; auto. }
    assert (Al : forall h c, isA h c = true <-> block_is_allocated h c = Ok true).
    { intros h c. unfold isA. destruct (block_is_allocated h c) as [[|]| |]; split; congruence. }
    apply Permutation.NoDup_Permutation; auto.
    - (* disjoint *)
      assert (Dj : forall c, In c kept -> In c freed -> False).
      { intros c H1 H2. apply I2 in H1. apply If in H2. destruct H1 as [_ H1], H2 as (_ & _ & H2).
        apply Al in H1. congruence. }
      clear - N2 Nf Dj. induction N2 as [|c l Hc N2 IH]; cbn [app]; auto. constructor.
      + rewrite in_app_iff. intros [H|H]; auto. apply (Dj c); [left|]; auto.
      + apply IH. intros d H1 H2. apply (Dj d); auto. right; auto.
    - intros c. rewrite in_app_iff, I1, I2, If, X2, X3. split.
      + intros [Gc H]. destruct (isA g c) eqn:Hg; [left; auto|right].
        split; auto. rewrite <- Al. split; auto.
        destruct (K c Gc) as (b & b' & Eb & Eb' & D).
        rewrite (block_is_allocated_eq g c b'); [|auto|congruence|congruence].
        rewrite (Aok g c b') in Hg; [|auto|congruence|congruence]. congruence.
      + intros [[Gc H]|[Gc [H _]]]; split; auto. apply Al; auto. }
  apply Permutation.Permutation_length in P. rewrite app_length in P. lia.
Qed.
Print Assumptions C05_release_count.

(** [releaseBlocks(CheckMaxAbs(m))]: [any_less v m] is the code's test "|v| < m in
    some component".  A voxel's value changes only if no in-window voxel of its block
    is below the threshold, and then it becomes the value of the block's first
    in-window voxel, itself not below the threshold. *)
Theorem C05_release_max_abs :
  forall (V : Type) (zero : V) eqb any_less (m : V) f, decides_eq eqb -> sparse_reached zero eqb f ->
  exists g n, sparse_release f (check_max_abs any_less m) = Ok (g, n) /\
    s_dw g = s_dw f /\ s_order g = s_order f /\
    forall p c, in_box p (s_dw f) -> in_block (s_dw f) (s_order f) p c ->
      sparse_value g p = sparse_value f p \/
      (forall q v, in_box q (s_dw f) -> in_block (s_dw f) (s_order f) q c ->
         sparse_value f q = Ok v -> any_less v m = false) /\
      exists q v, in_box q (s_dw f) /\ in_block (s_dw f) (s_order f) q c /\
         sparse_value f q = Ok v /\ any_less v m = false /\ sparse_value g p = Ok v.
Proof.
  intros V zero eqb any_less m f De R. pose proof (reached_shape zero eqb f De R) as S.
  assert (O := ss_order _ S).
  destruct (release_shape f (check_max_abs any_less m) S) as (g & n & E & Sg & X1 & X2 & X3 & X4 & _).
  exists g, n. do 3 (split; auto). intros p c Bp Cp.
  pose proof (in_box_nonempty _ _ Bp) as N.
  destruct (release_blocks f (check_max_abs any_less m) S N) as (g' & n' & E' & _ & _ & _ & _ & _ & _ & K).
  rewrite E in E'. injection E' as <- <-.
  apply (in_block_bc f) in Cp; auto. subst c.
  destruct (K (bc f p) (bc_in_grid f p S Bp)) as (b & b' & Eb & Eb' & IC & BC & D).
  assert (BCg : bc g p = bc f p) by (unfold bc; rewrite X2, X3; auto).
  assert (VCg : vc g p = vc f p) by (unfold vc; rewrite X2, X3; auto).
  assert (Vg : sparse_value g p = read_block g b' p).
  { apply (value_in_block g p (bc f p)); auto; congruence. }
  assert (Vf : sparse_value f p = read_block f b p) by (apply (value_in_block f p (bc f p)); auto).
  assert (RB : forall x, read_block g x p = read_block f x p).
  { intros x. unfold read_block. rewrite VCg, X3. auto. }
  destruct D as [[A ->]|(first & A & Ef & [[-> H]|[-> _]])].
  - left. rewrite Vg, Vf, RB. auto.
  - right. split.
    + intros q v Bq Cq Ev. apply (in_block_bc f) in Cq; auto. apply (H q v Bq Cq Ev).
    + exists (corner f (bc f p)), first. rewrite (in_block_bc f) by auto.
      do 3 (split; auto). split; [apply (H (corner f (bc f p))); auto|]. rewrite Vg. reflexivity.
  - left. rewrite Vg, Vf, RB. auto.
Qed.
Print Assumptions C05_release_max_abs.

(** The documentation's reading "release blocks whose values are all within the
    threshold" is false: a block with values -5 and 5 is released by CheckMaxAbs(3)
    and the second voxel changes from 5 to -5. *)
Theorem C05_max_abs_small_change_refuted :
  exists f p, sparse_reached 0 Z.eqb f /\ in_box p (s_dw f) /\
    exists g n, sparse_release f (check_max_abs (fun v m => Z.abs v <? m) 3) = Ok (g, n) /\
      sparse_value f p = Ok 5 /\ sparse_value g p = Ok (-5).
Proof.
  set (w := Box (V3 0 0 0) (V3 1 0 0)).
  set (l := [SSize w w; SOrder 1; SWrite (V3 0 0 0) (-5); SWrite (V3 1 0 0) 5]).
  assert (L : slegal 0 (sspec_init 0) l).
  { apply slegalb_ok. vm_compute. reflexivity. }
  destruct (C04_sparse_refines_map Z 0 Z.eqb l Zeqb_decides L) as (f0 & f & E0 & E & _).
  assert (E2 := E). vm_compute in E0. injection E0 as <-. vm_compute in E2. injection E2 as <-.
  eexists. exists (V3 1 0 0). split.
  { exists l. eexists. split; [exact L|]. split; [vm_compute; reflexivity|exact E]. }
  split; [vm_compute; repeat split; discriminate|].
  eexists; eexists. split; [vm_compute; reflexivity|]. split; vm_compute; reflexivity.
Qed.
Print Assumptions C05_max_abs_small_change_refuted.

Example C05_example :
  exists f0 f g, sparse_init 0 = Ok f0 /\ sparse_run 0 Z.eqb f0 ex_ops = Ok f /\
    block_is_allocated f (V3 1 0 0) = Ok true /\ block_is_allocated f (V3 0 0 0) = Ok true /\
    sparse_run 0 Z.eqb f (map (fun p => SWrite p 9)
      (filter (fun p => vx p <? 1) (enum ex_win))) = Ok g /\
    exists h, sparse_release g (check_all_equal Z.eqb) = Ok (h, 1) /\
      block_is_allocated h (V3 0 0 0) = Ok false /\ block_is_allocated h (V3 1 0 0) = Ok true /\
      sparse_value h (V3 (-1) 3 6) = Ok 9.
Proof.
  do 3 eexists. split; [vm_compute; reflexivity|]. split; [vm_compute; reflexivity|]. split; [vm_compute; reflexivity|].
  split; [vm_compute; reflexivity|]. split; [vm_compute; reflexivity|].
  eexists. split; [vm_compute; reflexivity|]. repeat split; vm_compute; reflexivity.
Qed.

(** ** C06 *)

(** Every in-window voxel of a reachable field has a block inside the block array and
    a cell inside the block, and distinct voxels never share a (block, cell) pair. *)
Theorem C06_block_grid_covers_window :
  forall (V : Type) (zero : V) eqb f, decides_eq eqb -> sparse_reached zero eqb f ->
  exists blk cell : v3 -> Z,
    (forall p, in_box p (s_dw f) ->
       0 <= blk p < Z.of_nat (length (s_blocks f)) /\ 0 <= cell p < 2 ^ (3 * s_order f) /\
       (let* q := window_offset f p in
        let* id := block_id f (block_coord (s_order f) q) in
        Ok (id, cell_index (s_order f) (voxel_in_block (s_order f) q))) = Ok (blk p, cell p)) /\
    (forall p q, in_box p (s_dw f) -> in_box q (s_dw f) ->
       blk p = blk q -> cell p = cell q -> p = q).
Proof.
  intros V zero eqb f De R. pose proof (reached_shape zero eqb f De R) as S.
  assert (O := ss_order _ S). assert (O' := O). unfold order_ok in O'.
  exists (fun p => lid (s_bres f) (bc f p)), (fun p => cid (2 ^ s_order f) (vc f p)). split.
  - intros p B. destruct (block_id_ok f _ S (bc_in_grid f p S B)) as [E L].
    split; auto. split.
    { pose proof (vc_range f p O). replace (2 ^ (3 * s_order f)) with
        (2 ^ s_order f * 2 ^ s_order f * 2 ^ s_order f)
        by (rewrite <- !Z.pow_add_r by lia; f_equal; lia). apply cid_range; lia. }
    rewrite window_offset_ok by (auto; apply (ss_win _ S)). cbn [bind].
    rewrite block_coord_eq by lia. change (V3 _ _ _) with (bc f p) at 1. rewrite E. cbn [bind].
    rewrite voxel_in_block_eq, cell_index_cid by lia. reflexivity.
  - intros p q Bp Bq E1 E2. apply (addr_inj f); auto.
    + apply (lid_inj f); auto; apply bc_in_grid; auto.
    + apply cid_inj; auto.
Qed.
Print Assumptions C06_block_grid_covers_window.

(** Beyond 2^24 voxels on an axis the single-precision block count is too small: with
    2^24 + 1 voxels and the default block order, reading the last voxel leaves the
    block array. *)
Theorem C06_long_axis_refuted :
  exists dw p, in_box p dw /\ (forall c, in_box c dw -> 0 <= vx c <= 2 ^ 24 /\ vy c = 0 /\ vz c = 0) /\
  forall (V : Type) (zero : V) f0, sparse_init zero = Ok f0 ->
  exists f, sparse_set_size zero f0 dw dw = Ok f /\ sparse_value f p = UB.
Proof.
  exists (Box (V3 0 0 0) (V3 (2 ^ 24) 0 0)), (V3 (2 ^ 24) 0 0).
  split; [vm_compute; repeat split; discriminate|]. split.
  { intros c B. unfold in_box in B. cbn [bmin bmax vx vy vz] in B. lia. }
  intros V zero f0 E0. unfold sparse_init in E0. cbv zeta in E0.
  assert (O : s_order f0 = 4).
  { unfold setup_blocks in E0. apply bind_ok in E0. destruct E0 as (xy & _ & E0).
    apply bind_ok in E0. destruct E0 as (n & _ & E0). injection E0 as <-. reflexivity. }
  unfold sparse_set_size. rewrite O. unfold setup_blocks.
  change (block_res_axis 4 (vx (box_size (Box (V3 0 0 0) (V3 (2 ^ 24) 0 0))))) with (2 ^ 20).
  change (block_res_axis 4 (vy (box_size (Box (V3 0 0 0) (V3 (2 ^ 24) 0 0))))) with 1.
  change (block_res_axis 4 (vz (box_size (Box (V3 0 0 0) (V3 (2 ^ 24) 0 0))))) with 1.
  cbv zeta. rewrite i32_ok by (unfold int_min, int_max; lia). cbn [bind].
  rewrite i32_ok by (unfold int_min, int_max; lia). cbn [bind].
  eexists. split; [reflexivity|]. unfold sparse_value, window_offset.
  cbn [s_dw bmin vx vy vz s_order s_blocks].
  repeat (rewrite i32_ok by (unfold int_min, int_max; lia); cbn [bind]).
  change (block_coord 4 (V3 (2 ^ 24 - 0) (0 - 0) (0 - 0))) with (V3 (2 ^ 20) 0 0).
  unfold block_id. cbn [s_xy s_bres vx vy vz].
  repeat (rewrite i32_ok by (unfold int_min, int_max; lia); cbn [bind]).
  rewrite arr_get_repeat_oob; auto. lia.
Qed.
Print Assumptions C06_long_axis_refuted.

Example C06_example :
  exists f0 f, sparse_init 0 = Ok f0 /\ sparse_run 0 Z.eqb f0 ex_ops = Ok f /\
    length (s_blocks f) = 2%nat /\
    window_offset f (V3 3 4 6) = Ok (V3 6 2 1) /\
    block_id f (block_coord 2 (V3 6 2 1)) = Ok 1 /\ cell_index 2 (voxel_in_block 2 (V3 6 2 1)) = 26.
Proof. do 2 eexists. split; [vm_compute; reflexivity|]. split; [vm_compute; reflexivity|]. repeat split; vm_compute; reflexivity. Qed.

(** ** C07 *)

(** Writing a voxel allocates its block, changes the allocation of no other block and
    the empty value of no block; no other voxel changes.  (Reads return no new state
    in the model: [fastValue] is a const method without side effects here.) *)
Theorem C07_write_is_local :
  forall (V : Type) (zero : V) eqb f p v, decides_eq eqb -> sparse_reached zero eqb f ->
  in_box p (s_dw f) ->
  exists g, sparse_write f p v = Ok g /\
    (forall c, block_in_grid (s_dw f) (s_order f) c ->
       get_block_empty_value g c = get_block_empty_value f c /\
       (in_block (s_dw f) (s_order f) p c -> block_is_allocated g c = Ok true) /\
       (~ in_block (s_dw f) (s_order f) p c ->
          block_is_allocated g c = block_is_allocated f c)) /\
    (forall q, in_box q (s_dw f) -> q <> p -> sparse_value g q = sparse_value f q) /\
    sparse_value g p = Ok v.
Proof.
  intros V zero eqb f p v De R B. pose proof (reached_shape zero eqb f De R) as S.
  assert (O := ss_order _ S).
  destruct (sparse_write_ok f p v S B) as (g & b & b' & Eg & Sg & X1 & X2 & X3 & X4 & Eb & Bl & Al & Em & _).
  exists g. split; auto.
  destruct (block_id_ok f _ S (bc_in_grid f p S B)) as [_ L].
  split; [|split].
  - intros c G. destruct (block_id_ok f c S G) as [Ec Lc].
    assert (Eg' : block_id g c = Ok (lid (s_bres f) c)).
    { destruct (block_id_ok g c Sg) as [K _]; [congruence|]. rewrite K, X4. auto. }
    unfold get_block_empty_value, block_is_allocated. rewrite Ec, Eg'. cbn [bind].
    rewrite Bl. destruct (Z.eq_dec (lid (s_bres f) c) (lid (s_bres f) (bc f p))) as [Q|Q].
    + assert (c = bc f p) by (apply (lid_inj f); auto; apply bc_in_grid; auto). subst c.
      rewrite arr_get_set_same by auto. cbn [bind]. rewrite Eb. cbn [bind]. rewrite Em, Al.
      split; auto. split; auto. intros K. exfalso. apply K. apply (in_block_bc f); auto.
    + rewrite arr_get_set_other by (auto; lia). split; auto. split; auto.
      intros K. apply (in_block_bc f) in K; auto. subst c. congruence.
  - intros q Bq Ne. rewrite (sparse_write_value f p v g) by auto.
    destruct (v3_dec q p); auto. contradiction.
  - rewrite (sparse_write_value f p v g) by auto. destruct (v3_dec p p); congruence.
Qed.
Print Assumptions C07_write_is_local.

(** A voxel of an unallocated block reads as the block's empty value, so a fresh
    block reads as its previous empty value except at the voxel written. *)
Theorem C07_unallocated_reads_empty_value :
  forall (V : Type) (zero : V) eqb f p c, decides_eq eqb -> sparse_reached zero eqb f ->
  in_box p (s_dw f) -> in_block (s_dw f) (s_order f) p c ->
  block_is_allocated f c = Ok false -> sparse_value f p = get_block_empty_value f c.
Proof.
  intros V zero eqb f p c De R B Cp A. pose proof (reached_shape zero eqb f De R) as S.
  assert (O := ss_order _ S). apply (in_block_bc f) in Cp; auto. subst c.
  rewrite sparse_value_eq by auto. unfold get_block_empty_value, block_is_allocated in *.
  destruct (block_id_ok f _ S (bc_in_grid f p S B)) as [E L]. rewrite E in *. cbn [bind] in *.
  destruct (arr_get_ok _ _ L) as [b Eb]. rewrite Eb in *. cbn [bind] in *.
  unfold read_block. injection A as A. rewrite A. auto.
Qed.
Print Assumptions C07_unallocated_reads_empty_value.

(** [voxelCount] and the data part of [memSize] are the number of allocated blocks
    times the block volume. *)
Theorem C07_voxel_count_and_memory :
  forall (V : Type) (zero : V) eqb f l, decides_eq eqb -> sparse_reached zero eqb f ->
  lists_blocks (s_dw f) (s_order f) (fun c => block_is_allocated f c = Ok true) l ->
  sparse_voxel_count f = Z.of_nat (length l) * 2 ^ (3 * s_order f) /\
  sparse_data_cells f = Z.of_nat (length l) * 2 ^ (3 * s_order f).
Proof.
  intros V zero eqb f l De R L. pose proof (reached_shape zero eqb f De R) as S.
  assert (O := ss_order _ S). unfold order_ok in O. rewrite data_cells_eq by auto.
  assert (E : sparse_voxel_count f = Z.of_nat (length l) * 2 ^ (3 * s_order f)); auto.
  unfold sparse_voxel_count. rewrite voxel_count_eq.
  rewrite (count_blocks f _ _ l S) with (2 := L).
  - rewrite cells_per_block_eq by lia.
    replace (2 ^ (3 * s_order f)) with (2 ^ s_order f * 2 ^ s_order f * 2 ^ s_order f)
      by (rewrite <- !Z.pow_add_r by lia; f_equal; lia). lia.
  - intros c b G Eb. rewrite (block_is_allocated_eq f c b) by auto.
    split; [injection 1; auto|intros ->; auto].
Qed.
Print Assumptions C07_voxel_count_and_memory.

Example C07_example :
  exists f0 f, sparse_init 0 = Ok f0 /\
    sparse_run 0 Z.eqb f0 [SSize ex_win ex_win; SOrder 2; SClear 7; SWrite (V3 0 3 6) 9] = Ok f /\
    block_is_allocated f (V3 0 0 0) = Ok true /\ block_is_allocated f (V3 1 0 0) = Ok false /\
    sparse_value f (V3 (-1) 3 6) = Ok 7 /\ sparse_voxel_count f = 64.
Proof. do 2 eexists. split; [vm_compute; reflexivity|]. split; [vm_compute; reflexivity|]. repeat split; vm_compute; reflexivity. Qed.

(** ** C08 *)

(** Reading through the const iterator over any non-empty sub-box of the window of a
    reachable in-memory field (at most 2^30 blocks). *)
Theorem C08_const_iterator :
  forall (V : Type) (zero : V) eqb f w fuel, decides_eq eqb -> sparse_reached zero eqb f ->
  vx (blocks_of (s_dw f) (s_order f)) * vy (blocks_of (s_dw f) (s_order f)) *
    vz (blocks_of (s_dw f) (s_order f)) <= 2 ^ 30 ->
  (exists p, in_box p w) -> (forall p, in_box p w -> in_box p (s_dw f)) ->
  box_count w < Z.of_nat fuel ->
  exists l, sparse_iterate_sub fuel false f w = Some (Ok l) /\
    visits_box (map fst l) w /\
    forall p v, In (p, v) l -> sparse_value f p = Ok v.
Proof.
  intros V zero eqb f w fuel De R F [p B] W L. pose proof (reached_shape zero eqb f De R) as S.
  destruct (sparse_iterate_sub_ok false f w fuel S) as (l & E & M & K); auto.
  - unfold few_blocks. rewrite (ss_bres _ S). auto.
  - eapply in_box_nonempty; eauto.
  - discriminate.
  - exists l. split; auto. split; auto. rewrite M. apply enum_visits.
Qed.
Print Assumptions C08_const_iterator.

(** Assigning [g(x,y,z)] through the mutable iterator over a sub-box sets exactly the
    sub-box's voxels, whatever blocks were allocated. *)
Theorem C08_mutable_iterator_fill :
  forall (V : Type) (zero : V) eqb f w g fuel, decides_eq eqb -> sparse_reached zero eqb f ->
  vx (blocks_of (s_dw f) (s_order f)) * vy (blocks_of (s_dw f) (s_order f)) *
    vz (blocks_of (s_dw f) (s_order f)) <= 2 ^ 30 ->
  (exists p, in_box p w) -> (forall p, in_box p w -> in_box p (s_dw f)) ->
  box_count w < Z.of_nat fuel ->
  exists f', sparse_fill_sub fuel f w g = Some (Ok f') /\ s_dw f' = s_dw f /\ s_ext f' = s_ext f /\
    forall p, in_box p (s_dw f) ->
      (in_box p w -> sparse_value f' p = Ok (g p)) /\
      (~ in_box p w -> sparse_value f' p = sparse_value f p).
Proof.
  intros V zero eqb f w g fuel De R F [p B] W L. pose proof (reached_shape zero eqb f De R) as S.
  destruct (sparse_fill_sub_ok f g w fuel S) as (f' & E & S' & X1 & X2 & X3 & K); auto.
  - unfold few_blocks. rewrite (ss_bres _ S). auto.
  - eapply in_box_nonempty; eauto.
  - exists f'. auto.
Qed.
Print Assumptions C08_mutable_iterator_fill.

(** The const iterator of a dynamically loaded field (block contents as loaded from
    the file) reads the right values when the window's minimum is a multiple of the
    block side on every axis... *)
Theorem C08_dynamic_iterator_aligned :
  forall (V : Type) (zero : V) eqb f w fuel, decides_eq eqb -> sparse_reached zero eqb f ->
  vx (blocks_of (s_dw f) (s_order f)) * vy (blocks_of (s_dw f) (s_order f)) *
    vz (blocks_of (s_dw f) (s_order f)) <= 2 ^ 30 ->
  (exists p, in_box p w) -> (forall p, in_box p w -> in_box p (s_dw f)) ->
  (2 ^ s_order f | vx (bmin (s_dw f))) -> (2 ^ s_order f | vy (bmin (s_dw f))) ->
  (2 ^ s_order f | vz (bmin (s_dw f))) ->
  box_count w < Z.of_nat fuel ->
  exists l, sparse_iterate_sub fuel true f w = Some (Ok l) /\
    visits_box (map fst l) w /\
    forall p v, In (p, v) l -> sparse_value f p = Ok v.
Proof.
  intros V zero eqb f w fuel De R F [p B] W D1 D2 D3 L.
  pose proof (reached_shape zero eqb f De R) as S.
  assert (O := ss_order _ S). unfold order_ok in O. pose proof (pow2_pos (s_order f) ltac:(lia)).
  destruct (sparse_iterate_sub_ok true f w fuel S) as (l & E & M & K); auto.
  - unfold few_blocks. rewrite (ss_bres _ S). auto.
  - eapply in_box_nonempty; eauto.
  - intros _. unfold aligned. rewrite !Z.mod_divide by lia. auto.
  - exists l. split; auto. split; auto. rewrite M. apply enum_visits.
Qed.
Print Assumptions C08_dynamic_iterator_aligned.

(** ... and the wrong values otherwise: the iterator forgets to subtract the window's
    minimum when it activates a block. *)
Theorem C08_dynamic_iterator_offset_refuted :
  exists f w l p v, sparse_reached 0 Z.eqb f /\ w = s_dw f /\
    sparse_iterate_sub 10 true f w = Some (Ok l) /\ In (p, v) l /\ in_box p (s_dw f) /\
    sparse_value f p <> Ok v.
Proof.
  set (w := Box (V3 1 0 0) (V3 2 0 0)).
  set (l := [SSize w w; SOrder 1; SWrite (V3 1 0 0) 5; SWrite (V3 2 0 0) 6]).
  assert (L : slegal 0 (sspec_init 0) l).
  { apply slegalb_ok. vm_compute. reflexivity. }
  destruct (C04_sparse_refines_map Z 0 Z.eqb l Zeqb_decides L) as (f0 & f & E0 & E & _).
  assert (E2 := E). vm_compute in E0. injection E0 as <-. vm_compute in E2. injection E2 as <-.
  eexists. exists w. eexists. exists (V3 1 0 0), 6. split.
  { exists l. eexists. split; [exact L|]. split; [vm_compute; reflexivity|exact E]. }
  split; [reflexivity|]. split; [vm_compute; reflexivity|]. split; [left; reflexivity|].
  split; [vm_compute; repeat split; discriminate|]. vm_compute. discriminate.
Qed.
Print Assumptions C08_dynamic_iterator_offset_refuted.

(** It can also read outside the block. *)
Theorem C08_dynamic_iterator_overread_refuted :
  exists f w, sparse_reached 0 Z.eqb f /\ w = s_dw f /\ sparse_iterate_sub 10 true f w = Some UB.
Proof.
  set (w := Box (V3 1 0 0) (V3 2 1 1)).
  set (l := [SSize w w; SOrder 1; SWrite (V3 1 0 0) 5; SWrite (V3 2 0 0) 6]).
  assert (L : slegal 0 (sspec_init 0) l).
  { apply slegalb_ok. vm_compute. reflexivity. }
  destruct (C04_sparse_refines_map Z 0 Z.eqb l Zeqb_decides L) as (f0 & f & E0 & E & _).
  assert (E2 := E). vm_compute in E0. injection E0 as <-. vm_compute in E2. injection E2 as <-.
  eexists. exists w. split.
  { exists l. eexists. split; [exact L|]. split; [vm_compute; reflexivity|exact E]. }
  split; [reflexivity|]. vm_compute. reflexivity.
Qed.
Print Assumptions C08_dynamic_iterator_overread_refuted.

Example C08_example :
  exists f0 f f', sparse_init 0 = Ok f0 /\ sparse_run 0 Z.eqb f0 ex_ops = Ok f /\
    sparse_iterate_sub 9 false f (Box (V3 0 3 6) (V3 3 4 6)) =
      Some (Ok [(V3 0 3 6, 9); (V3 1 3 6, 4); (V3 2 3 6, 4); (V3 3 3 6, 4);
                (V3 0 4 6, 7); (V3 1 4 6, 4); (V3 2 4 6, 4); (V3 3 4 6, 11)]) /\
    sparse_fill_sub 9 f0 (Box (V3 0 0 0) (V3 0 0 0)) (fun p => 3) = Some (Ok f').
Proof. do 3 eexists. split; [vm_compute; reflexivity|]. split; [vm_compute; reflexivity|]. split; vm_compute; reflexivity. Qed.

(** ** C09, sparse fields *)

(** Every in-window voxel of a reachable field lies in exactly one grain. *)
Theorem C09_sparse_grains_partition :
  forall (V : Type) (zero : V) eqb f p, decides_eq eqb -> sparse_reached zero eqb f ->
  in_box p (s_dw f) ->
  exists! g, 0 <= g < sparse_num_grains f /\
    exists b w, sparse_grain_bounds f g = Ok (b, w) /\ in_box p b.
Proof.
  intros V zero eqb f p De R B. apply sparse_grain_unique; auto. eapply reached_shape; eauto.
Qed.
Print Assumptions C09_sparse_grains_partition.

(** Grain boxes never leave the window, and each lies in one block; the flag says
    whether the grain is a whole block. *)
Theorem C09_sparse_grain_is_block :
  forall (V : Type) (zero : V) eqb f g, decides_eq eqb -> sparse_reached zero eqb f ->
  0 <= g < sparse_num_grains f ->
  exists b w c, sparse_grain_bounds f g = Ok (b, w) /\ block_in_grid (s_dw f) (s_order f) c /\
    forall p, in_box p b <-> in_box p (s_dw f) /\ in_block (s_dw f) (s_order f) p c.
Proof.
  intros V zero eqb f g De R L. pose proof (reached_shape zero eqb f De R) as S.
  destruct (lid_onto f g S L) as (c & G & ->).
  destruct (sparse_grain_bounds_ok f c S G) as (b & w & E & K). exists b, w, c. auto.
Qed.
Print Assumptions C09_sparse_grain_is_block.

(** The block iterator visits every block once, in x-fastest order. *)
Theorem C09_block_iterator_visits :
  forall (V : Type) (zero : V) eqb f fuel, decides_eq eqb -> sparse_reached zero eqb f ->
  (exists p, in_box p (s_dw f)) ->
  vx (blocks_of (s_dw f) (s_order f)) * vy (blocks_of (s_dw f) (s_order f)) *
    vz (blocks_of (s_dw f) (s_order f)) < Z.of_nat fuel ->
  exists l, block_iterate fuel f = Some l /\
    visits_box l (block_window f) /\
    forall c, In c l <-> block_in_grid (s_dw f) (s_order f) c.
Proof.
  intros V zero eqb f fuel De R [p B] L. pose proof (reached_shape zero eqb f De R) as S.
  exists (enum (block_window f)). split.
  - apply block_iterate_ok; auto; [eapply in_box_nonempty; eauto|].
    assert (O := ss_order _ S). unfold order_ok in O.
    pose proof (blocks_of_pos (s_dw f) (s_order f) ltac:(lia)) as P.
    rewrite <- (ss_bres _ S) in P, L.
    unfold box_count, extent, block_window, v3_sub. cbn [bmin bmax vx vy vz].
    rewrite !Z.max_r by lia. replace (vx (s_bres f) - 1 - 0 + 1) with (vx (s_bres f)) by lia.
    replace (vy (s_bres f) - 1 - 0 + 1) with (vy (s_bres f)) by lia.
    replace (vz (s_bres f) - 1 - 0 + 1) with (vz (s_bres f)) by lia. auto.
  - split; [apply enum_visits|]. intros c. rewrite enum_In. apply block_window_grid; auto.
Qed.
Print Assumptions C09_block_iterator_visits.

(** Its bounding boxes are the blocks' voxels when the window starts at the origin... *)
Theorem C09_block_iterator_bounds_at_origin :
  forall (V : Type) (zero : V) eqb f c p, decides_eq eqb -> sparse_reached zero eqb f ->
  (exists q, in_box q (s_dw f)) -> bmin (s_dw f) = V3 0 0 0 ->
  block_in_grid (s_dw f) (s_order f) c ->
  (in_box p (block_iter_bounds f c) <-> in_box p (s_dw f) /\ in_block (s_dw f) (s_order f) p c).
Proof.
  intros V zero eqb f c p De R [q Bq] M G. pose proof (reached_shape zero eqb f De R) as S.
  pose proof (in_box_nonempty _ _ Bq) as N. assert (O := ss_order _ S). unfold order_ok in O.
  pose proof (pow2_pos (s_order f) ltac:(lia)) as P.
  unfold block_in_grid, blocks_of in G. cbn [vx vy vz] in G.
  pose proof (res_of_pos (s_dw f)) as RP.
  pose proof (blocks_along_start (s_order f) (vx (res_of (s_dw f))) (vx c) ltac:(lia) ltac:(lia) (proj1 G)) as Gx.
  pose proof (blocks_along_start (s_order f) (vy (res_of (s_dw f))) (vy c) ltac:(lia) ltac:(lia) (proj1 (proj2 G))) as Gy.
  pose proof (blocks_along_start (s_order f) (vz (res_of (s_dw f))) (vz c) ltac:(lia) ltac:(lia) (proj2 (proj2 G))) as Gz.
  assert (0 <= vx c * 2 ^ s_order f) by (apply Z.mul_nonneg_nonneg; lia).
  assert (0 <= vy c * 2 ^ s_order f) by (apply Z.mul_nonneg_nonneg; lia).
  assert (0 <= vz c * 2 ^ s_order f) by (apply Z.mul_nonneg_nonneg; lia).
  unfold res_of in Gx, Gy, Gz. rewrite (proj2 (box_empty_false _) N) in Gx, Gy, Gz.
  rewrite M in Gx, Gy, Gz. cbn [vx vy vz] in Gx, Gy, Gz.
  unfold block_iter_bounds, clip_point, in_block, v3_add. rewrite Z.shiftl_1_l, M.
  unfold in_box. cbn [bmin bmax vx vy vz]. rewrite M. cbn [vx vy vz].
  assert (A : forall a s m x, 0 <= a * s -> a * s < m - 0 + 1 -> 0 < s ->
     (Z.min (Z.max (a * s) 0) m <= x <= Z.min (Z.max (a * s + (s - 1)) 0) m <->
      0 <= x <= m /\ a * s <= x - 0 < (a + 1) * s)) by (intros; lia).
  rewrite !A by auto. tauto.
Qed.
Print Assumptions C09_block_iterator_bounds_at_origin.

(** ... and can miss voxels otherwise. *)
Theorem C09_block_iterator_bounds_refuted :
  exists f p, sparse_reached 0 Z.eqb f /\ in_box p (s_dw f) /\
    forall c, block_in_grid (s_dw f) (s_order f) c -> ~ in_box p (block_iter_bounds f c).
Proof.
  set (w := Box (V3 10 0 0) (V3 13 0 0)).
  set (l := [SSize w w; SOrder 1] : list (sop Z)).
  assert (L : slegal 0 (sspec_init 0) l).
  { apply slegalb_ok. vm_compute. reflexivity. }
  destruct (C04_sparse_refines_map Z 0 Z.eqb l Zeqb_decides L) as (f0 & f & E0 & E & _ & Dw & Or & _).
  cbn in Dw, Or. exists f, (V3 12 0 0). split; [exists l, f0; auto|].
  rewrite Dw, Or. split; [vm_compute; repeat split; discriminate|].
  intros c G. unfold block_in_grid in G. change (blocks_of w 1) with (V3 2 1 1) in G.
  cbn [vx vy vz] in G. unfold block_iter_bounds. rewrite Dw, Or.
  unfold in_box, clip_point, v3_add, w. cbn [bmin bmax vx vy vz].
  change (Z.shiftl 1 1) with 2. lia.
Qed.
Print Assumptions C09_block_iterator_bounds_refuted.

Example C09_sparse_example :
  exists f0 f, sparse_init 0 = Ok f0 /\ sparse_run 0 Z.eqb f0 ex_ops = Ok f /\
    sparse_num_grains f = 2 /\
    sparse_grain_bounds f 1 = Ok (Box (V3 1 2 5) (V3 3 4 6), false).
Proof. do 2 eexists. split; [vm_compute; reflexivity|]. split; [vm_compute; reflexivity|]. split; vm_compute; reflexivity. Qed.
