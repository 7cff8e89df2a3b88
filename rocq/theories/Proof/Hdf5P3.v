From Coq Require Import ZArith List Bool String Lia.
From Verif Require Import Model.Base Model.FieldM Model.DenseM Model.SparseM Spec.VoxelSpec Spec.DenseSpec Spec.SparseSpec
  Proof.BaseP Proof.FieldP Proof.DenseP Proof.SparseP Proof.FieldIOP Spec.FieldIOSpec Proof.FieldIOP2 Model.Hdf5M Spec.Hdf5Spec
  Proof.Hdf5P Proof.Hdf5P2.
Import ListNotations.
Open Scope Z_scope.

Lemma eta {V} (f : sparse V) : Sparse (s_ext f) (s_dw f) (s_order f) (s_bres f) (s_xy f) (s_blocks f) = f.
Proof. now destruct f. Qed.

Section V.
Context {A V : Type}.
Variables (convert : htype -> htype -> A -> A) (of_flag : bool -> A) (to_flag : A -> bool).
Hypothesis fa : faithful convert of_flag to_flag.
Variables (ty : htype) (comps : nat) (split : V -> list A) (join : list A -> V) (zero : V).
Hypothesis mo : made_of ty comps split join.
Variable f : sparse V.
Hypothesis S0 : sshape f.
Variables (g g' : hgroup A).
Hypothesis Rm : room_in g.
(** [data] may be missing from the data sets. *)
Variable more : list (string * hset A).
Hypothesis Sa : same_layer (added g (sparse_attrs ty comps f) (flag_sets of_flag ty comps split f ++ more)) g'.

Notation set_f bl := (Sparse (s_ext f) (s_dw f) (s_order f) (s_bres f) (s_xy f) bl).

Ltac head :=
  destruct (nblocks_pos f S0) as (X & Y & Z0 & NB & XY & IB);
  unfold sparse_h5_header; att Rm Sa; cbn [Z.eqb Pos.eqb negb]; do 8 (att Rm Sa); cbn [nth];
  unfold i32 at 1; replace (in_int _) with true
    by (symmetry; apply in_int_iff; assert (0 < vx (s_bres f) * vy (s_bres f)) by (apply Z.mul_pos_pos; lia); lia);
  cbn [bind]; rewrite <- (ss_len _ S0); fold (nblk f); unfold i32 at 1;
  replace (in_int (Z.of_nat (nblk f))) with true by (symmetry; apply in_int_iff; unfold nblk; lia); cbn [bind];
  rewrite Z.eqb_refl; cbn [negb];
  rewrite (bits_type ty) by apply mo.

Lemma header_other {V'} (ty' : htype) (comps' : nat) (join' : list A -> V') (zero' : V') dyn :
  ty' <> ty \/ comps' <> comps -> sparse_h5_header convert to_flag ty' comps' join' zero' dyn g' = Ok None.
Proof.
  intros D. head. replace (htype_eqb ty ty' && (Z.of_nat comps =? Z.of_nat comps')) with false; auto.
  symmetry. apply andb_false_iff. destruct D as [D|D]; [left|right; lia].
  destruct (htype_eqb ty ty') eqn:E; auto. apply htype_eqb_iff in E. congruence.
Qed.

Hypothesis W4 : window_ok (s_dw f) 4.
Hypothesis IV : in_int (vpb comps f) = true.
Lemma header_same dyn : sparse_h5_header convert to_flag ty comps join zero dyn g' =
  Ok (Some (set_f (map (prep zero (negb dyn) (nvox f)) (s_blocks f)), 2 ^ (s_order f * 3), vpb comps f, Z.of_nat (occ (s_blocks f)))).
Proof.
  head. rewrite htype_eqb_refl, Z.eqb_refl. cbn [andb negb]. pose proof (order_nn f S0) as O.
  destruct (setup_blocks_ok zero (s_ext f) (s_dw f) 4) as (f4 & B4 & _); [unfold order_ok; lia|auto|]. rewrite B4. cbn [bind].
  replace ((s_order f <? 0) || (10 <? s_order f)) with false by lia.
  destruct (setup_blocks_ok zero (s_ext f) (s_dw f) (s_order f) (ss_order _ S0) (ss_win _ S0)) as (f' & B' & S' & X1 & X2 & X3 & X4).
  rewrite B'. cbn [bind]. fold (vpb comps f). unfold i32. rewrite IV. cbn [bind].
  replace (Z.of_nat (nblk f) <? 0) with false by lia. rewrite Nat2Z.id.
  pose proof (comps_pos ty comps split join mo) as CP. assert (NP : (0 < nblk f)%nat) by (unfold nblk; lia).
  assert (G1 : get_simple convert g' "block_is_allocated_data" HChar 1 = Ok (map (fun b => of_flag (b_alloc b)) (s_blocks f))).
  { unfold get_simple. dset Rm Sa. unfold get_dims. cbn [hs_dims List.length Nat.eqb bind hd hs_type hs_data].
    change (Z.of_nat 1) with 1. rewrite Z.div_1_r, Nat2Z.id, (convert_same convert of_flag to_flag fa), map_length, Nat.mul_1_r.
    fold (nblk f). rewrite Nat.leb_refl. destruct (nblk f); [lia|reflexivity]. }
  assert (G2 : get_simple convert g' "block_empty_value_data" ty comps = Ok (split_all split (map b_empty (s_blocks f)))).
  { unfold get_simple. dset Rm Sa. unfold get_dims. cbn [hs_dims List.length Nat.eqb bind hd hs_type hs_data].
    rewrite Nat2Z.inj_mul, Z.div_mul, Nat2Z.id, (convert_same convert of_flag to_flag fa), (split_len ty comps split join mo), map_length by lia.
    fold (nblk f). rewrite Nat.leb_refl. destruct (nblk f); [lia|reflexivity]. }
  rewrite G1. cbn [bind]. rewrite G2. cbn [bind].
  rewrite (split_len ty comps split join mo), Nat.div_mul, (join_split0 ty comps split join mo) by (auto; lia).
  assert (Ln : s_blocks f' = repeat (block_init zero) (nblk f)).
  { rewrite X4. f_equal. unfold nblk. rewrite <- (ss_bres _ S0), <- (ss_len _ S0), Nat2Z.id. auto. }
  rewrite Ln. unfold nblk at 1 2. rewrite (set_blocks_ok convert of_flag to_flag fa). cbn [bind].
  assert (BR : s_bres f' = s_bres f) by (rewrite (ss_bres _ S'), (ss_bres _ S0), X2, X3; auto).
  assert (BXY : s_xy f' = s_xy f) by (rewrite (ss_xy _ S'), (ss_xy _ S0), BR; auto).
  rewrite X1, X2, X3, BR, BXY. reflexivity.
Qed.

Hypothesis Mo : more = if Nat.eqb (occ (s_blocks f)) 0 then [] else [("data"%string, data_set ty comps split f)].
Lemma open_same : occ (s_blocks f) <> 0%nat -> open_h5 g' (vpb comps f) (Z.of_nat (occ (s_blocks f))) = Ok (data_set ty comps split f).
Proof.
  intros N. unfold open_h5. pose proof Sa as Sa'. rewrite Mo, (proj2 (Nat.eqb_neq _ _) N) in Sa'.
  dset Rm Sa'. unfold get_dims, data_set. cbn [hs_dims List.length Nat.eqb bind nth]. now rewrite !Z.eqb_refl.
Qed.

Lemma existsb_occ (bl : list (block V)) : occ bl <> 0%nat -> existsb b_alloc bl = true.
Proof.
  unfold occ. induction bl as [|b bl IH]; cbn; [congruence|]. destruct (b_alloc b); cbn; auto.
Qed.

Lemma read_same limit : 0 < limit -> sparse_h5_read convert to_flag ty comps join zero limit g' = Some (Ok (Some f)).
Proof.
  intros L. unfold sparse_h5_read. rewrite header_same. cbn [negb].
  assert (EF : forall bl, s_blocks f = bl -> set_f bl = f) by (intros bl <-; apply eta).
  pose proof (blocks_full f S0) as BF.
  destruct (Nat.eq_dec (occ (s_blocks f)) 0) as [Z0|NZ].
  - rewrite Z0. change (Z.of_nat 0 <=? 0) with true. cbv beta iota. rewrite full_prep by auto. rewrite EF; auto.
  - replace (Z.of_nat (occ (s_blocks f)) <=? 0) with false by lia. cbn [s_blocks s_ext s_dw s_order s_bres s_xy].
    rewrite existsb_occ by (rewrite occ_prep; auto). rewrite open_same by auto. rewrite (vpb_nat comps f S0).
    fold (nvox f). unfold data_set.
    rewrite (passes_ok convert of_flag to_flag fa ty comps split join zero mo); auto.
    + rewrite EF; auto.
    + eapply rows_full; eauto.
    + rewrite map_length. lia.
    + lia.
Qed.

(** * Dynamic loading *)
Lemma numbers_eq (bl : list (block V)) : forall k i, nth_error (row_numbers bl k) i =
  match nth_error bl i with
  | Some b => Some (if b_alloc b then Some (k + occ (firstn i bl))%nat else None)
  | None => None
  end.
Proof.
  induction bl as [|b bl IH]; intros k [|i]; cbn [row_numbers nth_error]; auto.
  - destruct (b_alloc b); cbn; auto. now rewrite Nat.add_0_r.
  - cbn [firstn]. unfold occ. cbn [filter]. destruct (b_alloc b); cbn [nth_error List.length]; rewrite IH; [|reflexivity].
    destruct (nth_error bl i) as [c|]; auto. destruct (b_alloc c); auto. unfold occ. do 2 f_equal. lia.
Qed.
Lemma row_at i b : nth_error (s_blocks f) i = Some b -> b_alloc b = true ->
  firstn 1 (skipn (occ (firstn i (s_blocks f))) (rows_of split (s_blocks f))) = [row split b] /\
  (occ (firstn i (s_blocks f)) + 1 <= List.length (rows_of split (s_blocks f)))%nat.
Proof.
  intros E Al. rewrite <- rows_skipn. assert (K : skipn i (s_blocks f) = b :: skipn (S i) (s_blocks f)).
  { clear -E. revert i E. induction (s_blocks f) as [|c l IH]; intros [|i] E; try discriminate; cbn in *.
    - now injection E as ->.
    - apply IH. auto. }
  rewrite K. unfold rows_of at 1. cbn [filter]. rewrite Al. split; [reflexivity|].
  rewrite occ_rows. unfold occ. rewrite <- (firstn_skipn i (s_blocks f)) at 2. rewrite filter_app, app_length, K. cbn [filter].
  rewrite Al. cbn. lia.
Qed.

Lemma lazy_same p : exists h, sparse_h5_header convert to_flag ty comps join zero true g' = Ok (Some h) /\
  lazy_h5_value convert ty comps join g' h p = sparse_value f p.
Proof.
  eexists. split; [apply header_same|]. cbn [negb]. unfold lazy_h5_value, sparse_value. set (bl := map _ _).
  replace (window_offset (set_f bl) p) with (window_offset f p) by reflexivity.
  destruct (window_offset f p) as [q| |]; cbn [bind]; auto.
  replace (block_id (set_f bl) (block_coord (s_order (set_f bl)) q)) with (block_id f (block_coord (s_order f) q)) by reflexivity.
  destruct (block_id f (block_coord (s_order f) q)) as [id| |]; cbn [bind]; auto.
  cbn [s_blocks s_order]. unfold arr_get at 1. unfold arr_get at 2. destruct (id <? 0) eqn:N; auto.
  unfold bl at 1. rewrite nth_error_map. destruct (nth_error (s_blocks f) (Z.to_nat id)) as [b|] eqn:E; cbn [option_map bind]; auto.
  unfold prep at 1 3. cbn [andb b_alloc b_empty]. destruct (b_alloc b) eqn:Al; auto.
  rewrite numbers_eq. unfold bl at 1. rewrite nth_error_map, E. cbn [option_map]. unfold prep at 1. cbn [andb b_alloc]. rewrite Al.
  assert (OC : occ (s_blocks f) <> 0%nat).
  { intros Z0. apply nth_error_In in E. assert (In b (filter b_alloc (s_blocks f))) as I by (apply filter_In; auto).
    unfold occ in Z0. destruct (filter b_alloc (s_blocks f)); [destruct I|discriminate]. }
  destruct (row_at _ _ E Al) as [R1 R2]. cbn [Nat.add].
  replace (occ (firstn (Z.to_nat id) bl)) with (occ (firstn (Z.to_nat id) (s_blocks f))) by (unfold bl; rewrite firstn_map, occ_prep; auto).
  unfold h5_block. rewrite open_same by auto. cbn [bind]. rewrite (vpb_nat comps f S0). unfold data_set.
  rewrite (rows_at_ok convert of_flag to_flag fa); auto.
  2:{ eapply rows_full; eauto. apply blocks_full; auto. }
  rewrite R1. cbn [List.concat]. pose proof (blocks_full f S0) as BF. rewrite Forall_forall in BF.
  pose proof (BF b (nth_error_In _ _ E)) as H. unfold full in H. rewrite Al in H. destruct H as (d & D & L).
  unfold row. rewrite D, (join_split ty comps split join mo d []) || (rewrite D; fold (nvox f); rewrite <- L; rewrite (join_split ty comps split join mo)).
  cbn [bind]. unfold block_cell. now rewrite D.
Qed.
End V.
