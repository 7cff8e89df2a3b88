From Coq Require Import ZArith List Bool Lia ZifyBool Sorting.Permutation.
From Verif Require Import Model.Base Model.FieldM Model.SparseM Spec.VoxelSpec Spec.SparseSpec
  Proof.BaseP Proof.FieldP Proof.DenseP Proof.SparseP Proof.SparseP2 Proof.SparseP3.
Import ListNotations.
Open Scope Z_scope.

Section C.
Context {V : Type}.

Lemma reached_shape zero eqb (f : sparse V) : decides_eq eqb -> sparse_reached zero eqb f -> sshape f.
Proof.
  intros De (l & f0 & L & E0 & E).
  destruct (srefines_init zero) as (f0' & E0' & R0).
  rewrite E0 in E0'. injection E0' as <-.
  destruct (srefines_run zero eqb De l f0 _ R0 L) as (f' & E' & [S _ _ _ _]).
  rewrite E in E'. injection E' as <-. auto.
Qed.

Lemma block_is_allocated_eq (f : sparse V) c b : sshape f -> block_in_grid (s_dw f) (s_order f) c ->
  arr_get (s_blocks f) (lid (s_bres f) c) = Ok b -> block_is_allocated f c = Ok (b_alloc b).
Proof.
  intros S G E. unfold block_is_allocated. destruct (block_id_ok f c S G) as [-> _].
  cbn [bind]. rewrite E. auto.
Qed.

(** Counting blocks by index *)
Definition idx_where (P : block V -> bool) (bl : list (block V)) : list nat :=
  filter (fun n => match nth_error bl n with Some b => P b | None => false end)
         (seq 0 (length bl)).

Lemma filter_seq_shift {A} (P : A -> bool) (x : A) l k :
  length (filter (fun n => match nth_error (x :: l) n with Some b => P b | None => false end)
            (seq (S k) (length l))) =
  length (filter (fun n => match nth_error l n with Some b => P b | None => false end)
            (seq k (length l))).
Proof.
  generalize (length l). intros m. revert k. induction m; intros k; auto.
  cbn [seq filter]. cbn [nth_error]. destruct (nth_error l k) as [b|]; [destruct (P b)|];
  cbn [length]; rewrite IHm; auto.
Qed.

Fixpoint count_where (P : block V -> bool) (bl : list (block V)) : Z :=
  match bl with [] => 0 | b :: t => (if P b then 1 else 0) + count_where P t end.

Lemma count_idx P bl : count_where P bl = Z.of_nat (length (idx_where P bl)).
Proof.
  induction bl as [|b t IH]; auto. cbn [count_where]. rewrite IH.
  unfold idx_where at 2. cbn [length seq filter nth_error].
  destruct (P b).
  - cbn [length]. rewrite filter_seq_shift. unfold idx_where. lia.
  - rewrite filter_seq_shift. unfold idx_where. lia.
Qed.

Lemma count_blocks (f : sparse V) (P : block V -> bool) (Q : v3 -> Prop) l : sshape f ->
  (forall c b, block_in_grid (s_dw f) (s_order f) c ->
     arr_get (s_blocks f) (lid (s_bres f) c) = Ok b -> (Q c <-> P b = true)) ->
  lists_blocks (s_dw f) (s_order f) Q l ->
  count_where P (s_blocks f) = Z.of_nat (length l).
Proof.
  intros S H [N I]. rewrite count_idx. f_equal.
  rewrite <- (map_length (fun c => Z.to_nat (lid (s_bres f) c)) l).
  apply Permutation_length. apply NoDup_Permutation.
  - apply NoDup_filter. apply seq_NoDup.
  - assert (D : forall c d, In c l -> In d l ->
       Z.to_nat (lid (s_bres f) c) = Z.to_nat (lid (s_bres f) d) -> c = d).
    { intros c d Hc Hd E. apply I in Hc, Hd. destruct Hc as [Gc _], Hd as [Gd _].
      destruct (block_id_ok f c S Gc) as [_ Lc]. destruct (block_id_ok f d S Gd) as [_ Ld].
      apply (lid_inj f); auto. lia. }
    clear I. induction N as [|c l Hn N IH]; cbn [map]; constructor.
    + intros K. apply in_map_iff in K. destruct K as (d & E & Hd).
      apply Hn. rewrite (D c d); auto; [left; auto|right; auto].
    + apply IH. intros; apply D; auto; right; auto.
  - intros n. unfold idx_where. rewrite filter_In, in_seq, in_map_iff. split.
    + intros [Ln Hn]. destruct (nth_error (s_blocks f) n) as [b|] eqn:E; [|discriminate].
      destruct (lid_onto f (Z.of_nat n) S ltac:(lia)) as (c & Gc & Ec).
      exists c. rewrite <- Ec, Nat2Z.id. split; auto. apply I. split; auto.
      apply (H c b); auto. rewrite <- Ec. apply arr_get_some; [lia|]. rewrite Nat2Z.id; auto.
    + intros (c & Ec & Hc). apply I in Hc. destruct Hc as [Gc Qc].
      destruct (block_id_ok f c S Gc) as [_ Lc]. destruct (arr_get_ok _ _ Lc) as [b Eb].
      apply (H c b Gc Eb) in Qc. apply arr_get_inv in Eb. destruct Eb as [_ Eb].
      subst n. rewrite Eb. split; auto. lia.
Qed.

Lemma voxel_count_eq (f : sparse V) n0 :
  fold_left (fun n b => if b_alloc b then n + cells_per_block (s_order f) else n) (s_blocks f) n0
  = n0 + cells_per_block (s_order f) * count_where (fun b => b_alloc b) (s_blocks f).
Proof.
  generalize (s_blocks f). intros bl. revert n0.
  induction bl as [|b t IH]; intros n0; cbn [fold_left count_where]; [lia|].
  rewrite IH. destruct (b_alloc b); lia.
Qed.

Lemma data_cells_eq (f : sparse V) : sshape f ->
  sparse_data_cells f = sparse_voxel_count f.
Proof.
  intros S. unfold sparse_data_cells, sparse_voxel_count.
  assert (F := ss_blk _ S). generalize 0 as n0. revert F. generalize (cells_per_block (s_order f)) (s_order f) (s_blocks f).
  intros cells o bl F. induction F as [|b t Hb F IH]; auto.
  intros n0. cbn [fold_left]. rewrite <- IH. unfold block_shape in Hb.
  destruct (b_alloc b); [destruct Hb as (d & -> & _)|rewrite Hb]; auto.
Qed.

(** Freed blocks, as the difference of two counts *)
Lemma count_alloc_where (bl : list (block V)) : count_alloc bl = count_where (fun b => b_alloc b) bl.
Proof. induction bl; simpl; auto. rewrite IHbl. auto. Qed.

Lemma arr_get_repeat_oob {A} (a : A) n i : Z.of_nat n <= i -> arr_get (repeat a n) i = UB.
Proof.
  intros H. unfold arr_get. destruct (i <? 0); auto.
  replace (nth_error (repeat a n) (Z.to_nat i)) with (@None A); auto.
  symmetry. apply nth_error_None. rewrite repeat_length. lia.
Qed.

(** block iterator *)
Lemma block_iterate_ok (f : sparse V) fuel : sshape f -> box_nonempty (s_dw f) ->
  box_count (block_window f) < Z.of_nat fuel ->
  block_iterate fuel f = Some (enum (block_window f)).
Proof.
  intros S N L. assert (O := ss_order _ S). unfold order_ok in O.
  pose proof (blocks_of_pos (s_dw f) (s_order f) ltac:(lia)) as P.
  rewrite <- (ss_bres _ S) in P.
  assert (NB : box_nonempty (block_window f)).
  { unfold box_nonempty, block_window, v3_sub; simpl. lia. }
  rewrite <- enum_length in L. pose proof (iterate_sub_enum (block_window f) fuel ltac:(lia)) as H.
  rewrite <- H. unfold block_iterate, iterate_sub, it_begin_sub.
  rewrite (proj2 (box_empty_false _) NB).
  assert (E : it_end (block_window f) = V3 0 0 (vz (s_bres f))).
  { unfold it_end, block_window, v3_sub; simpl. f_equal. lia. }
  rewrite E. destruct (v3_eqb _ _) eqn:Q; auto.
  apply v3_eqb_eq in Q. unfold data_resolution, v3_add, v3_sub in Q. simpl in Q. inversion Q.
  unfold box_nonempty in N. lia.
Qed.
Lemma block_window_grid (f : sparse V) c : sshape f ->
  in_box c (block_window f) <-> block_in_grid (s_dw f) (s_order f) c.
Proof.
  intros S. unfold block_in_grid. rewrite <- (ss_bres _ S).
  unfold in_box, block_window, v3_sub; simpl. lia.
Qed.
End C.

(** A boolean check of legality, for examples. *)
Definition window_okb (dw : box) (o : Z) : bool :=
  forallb (fun c => (- 2 ^ 30 <? c) && (c <? 2 ^ 30 - 1))
    [vx (bmin dw); vy (bmin dw); vz (bmin dw); vx (bmax dw); vy (bmax dw); vz (bmax dw)] &&
  (vx (res_of dw) <=? 2 ^ 24) && (vy (res_of dw) <=? 2 ^ 24) && (vz (res_of dw) <=? 2 ^ 24) &&
  (vx (blocks_of dw o) * vy (blocks_of dw o) * vz (blocks_of dw o) <? 2 ^ 31).
Lemma window_okb_ok dw o : window_okb dw o = true -> window_ok dw o.
Proof.
  unfold window_okb, window_ok. rewrite !andb_true_iff, forallb_forall.
  intros ((((A & B) & C) & D) & E). split; [|lia].
  intros c I. apply A in I. lia.
Qed.
Fixpoint slegalb {V} (zero : V) (a : smap V) (l : list (sop V)) : bool :=
  match l with
  | [] => true
  | o :: t =>
      match o with
      | SSize _ dw => window_okb dw (sm_order a)
      | SOrder n => (0 <=? n) && (n <=? 10) && window_okb (sm_dw a) n
      | SClear _ => true
      | SWrite p _ => box_has (sm_dw a) p
      | SBlockEmpty c _ =>
          box_has (Box (V3 0 0 0) (v3_sub (blocks_of (sm_dw a) (sm_order a)) (V3 1 1 1))) c
      | SRelease => true
      end && slegalb zero (sspec_step zero a o) t
  end.
Lemma slegalb_ok {V} (zero : V) l : forall a, slegalb zero a l = true -> slegal zero a l.
Proof.
  induction l as [|o t IH]; intros a H; [exact I|].
  cbn [slegalb] in H. apply andb_true_iff in H. destruct H as [H T].
  cbn [slegal]. split; [|apply IH; auto]. destruct o; auto.
  - apply window_okb_ok; auto.
  - rewrite !andb_true_iff in H. split; [unfold order_ok; lia|apply window_okb_ok; tauto].
  - apply box_has_iff; auto.
  - apply box_has_iff in H. unfold in_box, v3_sub in H. cbn [bmin bmax vx vy vz] in H.
    unfold block_in_grid. lia.
Qed.
