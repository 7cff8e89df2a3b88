(** Geometry of managed iterators: the hollow field steers them like the field, and the
    block index of an iterator is the number of the block it stands in. *)
From Coq Require Import ZArith List Bool Lia Arith.
From Verif Require Import Model.Base Model.FieldM Model.SparseM Model.CacheM Model.IterCacheM
  Spec.VoxelSpec Spec.SparseSpec Spec.CacheSpec Spec.IterCacheSpec
  Proof.BaseP Proof.FieldP Proof.SparseP Proof.SparseP3.
Import ListNotations.
Open Scope Z_scope.

Section G.
Context {V : Type}.

Lemma arr_get_map_res {A B} (g : A -> B) l i : arr_get (map g l) i =
  match arr_get l i with Ok b => Ok (g b) | Exn => Exn | UB => UB end.
Proof.
  unfold arr_get. destruct (i <? 0); auto. rewrite nth_error_map. destruct (nth_error l (Z.to_nat i)); auto.
Qed.
Lemma setup_hollow (f : sparse V) it : siter_setup true (hollow f) it = siter_setup true f it.
Proof.
  unfold siter_setup, window_offset, block_id. cbn [hollow s_dw s_order s_xy s_bres s_blocks].
  destruct (i32 (vx (si_pos it) - vx (bmin (s_dw f)))); auto. cbn [bind].
  destruct (i32 (vy (si_pos it) - vy (bmin (s_dw f)))); auto. cbn [bind].
  destruct (i32 (vz (si_pos it) - vz (bmin (s_dw f)))); auto. cbn [bind].
  match goal with |- bind ?r _ = bind ?r _ => destruct r as [id| |]; auto end. cbn [bind].
  match goal with |- bind ?r _ = bind ?r _ => destruct r as [lim| |]; auto end. cbn [bind].
  destruct (id >=? lim); auto. rewrite arr_get_map_res.
  destruct (arr_get (s_blocks f) id); auto.
Qed.
Lemma make_hollow (f : sparse V) p : siter_make true (hollow f) p = siter_make true f p.
Proof. apply setup_hollow. Qed.
Lemma next_hollow (f : sparse V) w it : siter_next true (hollow f) w it = siter_next true f w it.
Proof.
  unfold siter_next. destruct (if negb (si_empty it) && _ then _ else _); auto. cbn [bind].
  change (s_order (hollow f)) with (s_order f). rewrite setup_hollow. reflexivity.
Qed.
Lemma has_block_hollow (f : sparse V) i : has_block (hollow f) i = has_block f i.
Proof.
  unfold has_block. cbn [hollow s_blocks]. rewrite map_length, arr_get_map_res. destruct (arr_get (s_blocks f) i); auto.
Qed.

(** Where iterators may stand. *)
Definition standing (f : sparse V) (w : box) (p : v3) : Prop :=
  box_nonempty w /\ sub_box w (s_dw f) /\ (in_box p w \/ p = it_end w).

Lemma stand_coords (f : sparse V) w p : sshape f -> standing f w p ->
  0 <= vx (bc f p) < vx (s_bres f) /\ 0 <= vy (bc f p) < vy (s_bres f) /\ 0 <= vz (bc f p).
Proof.
  intros S (N & W & P). assert (O := ss_order _ S). unfold order_ok in O.
  pose proof (pow2_pos (s_order f) ltac:(lia)) as Pw.
  assert (exists q, in_box q w /\ vx q = vx p /\ vy q = vy p /\ vz q <= vz p) as (q & Q & X & Y & Zq).
  { destruct P as [P| ->]; [exists p; split; [auto|lia]|].
    - exists (V3 (vx (bmin w)) (vy (bmin w)) (vz (bmax w))). unfold in_box, box_nonempty, it_end in *. cbn. lia. }
  pose proof (bc_in_grid f q S (W _ Q)) as G. unfold block_in_grid in G. rewrite <- (ss_bres _ S) in G.
  unfold bc in *. cbn [vx vy vz] in *. rewrite X, Y in G. destruct G as (G1 & G2 & G3). split; auto. split; auto.
  apply Z.div_pos; [|lia]. apply W in Q. unfold in_box in Q. lia.
Qed.

(** The model's block index decides which block the specification says it stands in. *)
Lemma stands_lid (f : sparse V) w p b : sshape f -> standing f w p ->
  stands_in (s_dw f) (s_order f) b (Some (w, p)) =
  (lid (s_bres f) (bc f p) =? Z.of_nat b) && (Z.of_nat b <? Z.of_nat (length (s_blocks f))).
Proof.
  intros S P. destruct (stand_coords f w p S P) as (X & Y & Zc). unfold stands_in, block_number.
  rewrite (ss_len _ S). rewrite (ss_bres _ S) in *. unfold bc in *. cbn [vx vy vz] in *. unfold lid. cbn [vx vy vz].
  set (n := blocks_of (s_dw f) (s_order f)) in *.
  set (i := (vx p - _) / _) in *. set (j := (vy p - _) / _) in *. set (k := (vz p - _) / _) in *.
  replace (0 <=? i) with true by lia. replace (i <? vx n) with true by lia.
  replace (0 <=? j) with true by lia. replace (j <? vy n) with true by lia. replace (0 <=? k) with true by lia. cbn [andb].
  assert (XY : 0 <= i + j * vx n < vx n * vy n) by nia.
  destruct (k <? vz n) eqn:K.
  - assert (0 <= k * (vx n * vy n)) by nia.
    assert (i + j * vx n + k * (vx n * vy n) < vx n * vy n * vz n) by nia.
    destruct (Nat.eqb_spec (Z.to_nat (i + j * vx n + k * (vx n * vy n))) b).
    + subst b. rewrite Z2Nat.id by lia. rewrite Z.eqb_refl, andb_true_l. symmetry. apply Z.ltb_lt. exact H0.
    + replace (_ =? _) with false; auto. lia.
  - assert (vx n * vy n * vz n <= i + j * vx n + k * (vx n * vy n)) by nia.
    destruct (i + j * vx n + k * (vx n * vy n) =? Z.of_nat b) eqn:E; auto. rewrite andb_true_l. symmetry. apply Z.ltb_ge. apply Z.eqb_eq in E. rewrite <- E. exact H.
Qed.

(** Any successful set-up leaves the block of the position. *)
Lemma setup_block (f : sparse V) managed it it' : sshape f -> siter_setup managed f it = Ok it' ->
  si_pos it' = si_pos it /\ si_block it' = lid (s_bres f) (bc f (si_pos it)).
Proof.
  intros S H. assert (O := ss_order _ S). unfold order_ok in O. unfold siter_setup in H.
  apply bind_ok in H. destruct H as (q & Q & H). apply bind_ok in H. destruct H as (id & I & H).
  apply bind_ok in H. destruct H as (lim & _ & H).
  assert (E : si_pos it' = si_pos it /\ si_block it' = id).
  { destruct (id >=? lim); [injection H as <-; auto|]. apply bind_ok in H. destruct H as (b & _ & H).
    destruct (b_alloc b); injection H as <-; auto. }
  destruct E as [-> ->]. split; auto.
  unfold window_offset in Q. apply bind_ok in Q. destruct Q as (x & X & Q). apply bind_ok in Q. destruct Q as (y & Y & Q).
  apply bind_ok in Q. destruct Q as (z & Zz & [= <-]). apply i32_inv in X, Y, Zz.
  destruct X as [-> _], Y as [-> _], Zz as [-> _]. rewrite block_coord_eq in I by lia. cbn [vx vy vz] in I.
  change (V3 _ _ _) with (bc f (si_pos it)) in I.
  unfold block_id in I. apply bind_ok in I. destruct I as (a & A & I). apply bind_ok in I. destruct I as (b & B & I).
  apply bind_ok in I. destruct I as (c & C & I). apply i32_inv in A, B, C, I.
  destruct A as [-> _], B as [-> _], C as [-> _], I as [-> _]. rewrite (ss_xy _ S). unfold lid. lia.
Qed.

Lemma setup_inactive (f : sparse V) it it' : sshape f -> siter_setup true f it = Ok it' ->
  in_box (si_pos it) (s_dw f) -> si_active it' = false.
Proof.
  intros S H B. unfold siter_setup in H.
  apply bind_ok in H. destruct H as (q & Q & H). apply bind_ok in H. destruct H as (id & I & H).
  apply bind_ok in H. destruct H as (lim & L & H). destruct (id >=? lim) eqn:G.
  - exfalso. rewrite window_offset_ok in Q by (auto; apply (ss_win _ S)). injection Q as <-.
    assert (O := ss_order _ S). unfold order_ok in O. rewrite block_coord_eq in I by lia.
    change (V3 _ _ _) with (bc f (si_pos it)) in I.
    destruct (block_id_ok f _ S (bc_in_grid f _ S B)) as [E1 E2]. rewrite E1 in I. injection I as <-.
    apply i32_inv in L. destruct L as [-> _]. rewrite (ss_xy _ S) in G. rewrite (ss_len _ S) in E2. lia.
  - apply bind_ok in H. destruct H as (b & _ & H). destruct (b_alloc b); injection H as <-; auto.
Qed.

(** Advancing a managed iterator, read or not. *)
Lemma next_managed (f : sparse V) w it : sshape f -> few_blocks f ->
  sub_box w (s_dw f) -> in_box (si_pos it) w -> good_si true f it ->
  exists it', siter_next true f w it = Ok it' /\ si_pos it' = it_next w (si_pos it) /\
    (in_box (si_pos it') w \/ si_pos it' = it_end w) /\
    si_block it' = lid (s_bres f) (bc f (si_pos it')) /\
    (in_box (si_pos it') w -> good_si true f it' /\
       (si_active it' = true -> si_empty it' = false ->
          si_active it = true /\ si_empty it = false /\ si_block it' = si_block it)).
Proof.
  intros S F W B G. assert (N := in_box_nonempty _ _ B).
  unfold siter_next. set (q := it_next w (si_pos it)).
  assert (O := ss_order _ S). assert (O' := O). unfold order_ok in O'.
  pose proof (pow2_pos (s_order f) ltac:(lia)) as Pw.
  assert (Q : in_box q w \/ q = it_end w).
  { unfold q, it_next, it_end, in_box in *.
    destruct (vx (si_pos it) =? vx (bmax w)) eqn:E1; [destruct (vy (si_pos it) =? vy (bmax w)) eqn:E2|]; simpl;
      try (left; lia).
    destruct (Z.eq_dec (vz (si_pos it)) (vz (bmax w))); [right; f_equal; lia|left; lia]. }
  destruct G as (b & Eb & Ei & Et & Ee & Pe & Pa).
  assert (exists m, (if negb (si_empty it) && (negb true || si_active it)
             then sptr_inc (si_p it) else Ok (si_p it)) = Ok m /\
     (si_empty it = false -> si_active it = true -> m = PCell (si_block it) (cid (2 ^ s_order f) (vc f (si_pos it)) + 1)) /\
     (si_empty it = true -> m = si_p it)) as (m & -> & M1 & M2).
  { destruct (si_empty it) eqn:Em; [eexists; split; [reflexivity|]; split; [discriminate|auto]|].
    destruct (si_active it) eqn:Am; [|eexists; split; [reflexivity|]; split; discriminate].
    destruct (b_alloc b) eqn:A; [|discriminate]. destruct (Pa eq_refl) as [[_ K]|K]; [discriminate|].
    rewrite K. cbn. eexists. split; [reflexivity|]. split; [auto|discriminate]. }
  cbn [bind]. rewrite Z.shiftl_1_l.
  destruct ((vx (si_pos it) =? vx (bmax w)) || (si_ticker it + 1 =? 2 ^ s_order f)) eqn:R.
  - set (it0 := SIter q m (si_empty it) 0 (si_block it) (si_active it)).
    assert (exists it', siter_setup true f it0 = Ok it' /\ (in_box q w -> good_si true f it')) as (it' & E & G').
    { destruct Q as [Q|Q].
      - destruct (siter_setup_in true f it0 S) as (it' & E & Ep & G'); [apply W; auto|]. eauto.
      - destruct (siter_setup_end true f w it0 S F N W) as (it' & E & Ep); [auto|]. exists it'. split; auto.
        rewrite Q. unfold in_box, it_end. cbn. lia. }
    destruct (setup_block f true it0 it' S E) as [Ep Eblk]. change (si_pos it0) with q in *.
    exists it'. rewrite Ep. split; auto. split; auto. split; auto. split; auto. intros Qi. split; auto.
    rewrite (setup_inactive f it0 it' S E) by (apply W; auto). discriminate.
  - assert (Qx : q = V3 (vx (si_pos it) + 1) (vy (si_pos it)) (vz (si_pos it))).
    { unfold q, it_next. replace (vx (si_pos it) =? vx (bmax w)) with false by lia. auto. }
    assert (T : vx (vc f (si_pos it)) + 1 < 2 ^ s_order f).
    { pose proof (vc_range f (si_pos it) O). rewrite Et in R. lia. }
    assert (BC : bc f q = bc f (si_pos it) /\
        vc f q = V3 (vx (vc f (si_pos it)) + 1) (vy (vc f (si_pos it))) (vz (vc f (si_pos it)))).
    { rewrite Qx. unfold bc, vc in *; cbn [vx vy vz] in *.
      set (s := 2 ^ s_order f) in *. set (x := vx (si_pos it) - vx (bmin (s_dw f))) in *.
      replace (vx (si_pos it) + 1 - vx (bmin (s_dw f))) with (x + 1) by (unfold x; lia).
      pose proof (Z.div_mod x s ltac:(lia)). pose proof (Z.mod_pos_bound x s Pw).
      replace ((x + 1) / s) with (x / s) by (apply Z.div_unique with (x mod s + 1); lia).
      replace ((x + 1) mod s) with (x mod s + 1) by (apply Z.mod_unique with (x / s); lia).
      auto. }
    destruct BC as [BC VC].
    eexists. split; [reflexivity|]. cbn [si_pos si_p si_empty si_ticker si_block si_active].
    split; [reflexivity|]. split; [auto|]. split; [rewrite BC; auto|]. intros _. split; [|auto].
    exists b. cbn [si_pos si_p si_empty si_ticker si_block si_active].
    rewrite BC, VC. cbn [vx]. split; auto. split; auto. split; [rewrite Et; auto|]. split; auto. split.
    + intros A. rewrite M2; auto. rewrite Ee, A. auto.
    + intros A. destruct (si_active it) eqn:Ac; [|auto]. right.
      rewrite M1 by (rewrite ?Ee, ?A; auto). f_equal. unfold cid; cbn [vx vy vz]. lia.
Qed.

Lemma make_managed (f : sparse V) w p : sshape f -> few_blocks f -> standing f w p ->
  exists it, siter_make true f p = Ok it /\ si_pos it = p /\ si_block it = lid (s_bres f) (bc f p) /\
    (in_box p w -> good_si true f it /\ si_active it = false).
Proof.
  intros S F (N & W & P). unfold siter_make. set (it0 := SIter p PNull false 0 (-1) false).
  assert (exists it, siter_setup true f it0 = Ok it /\ (in_box p w -> good_si true f it)) as (it & E & G).
  { destruct P as [P|P].
    - destruct (siter_setup_in true f it0 S) as (it' & E & Ep & G'); [apply W; auto|]. eauto.
    - destruct (siter_setup_end true f w it0 S F N W) as (it' & E & Ep); [auto|]. exists it'. split; auto.
      rewrite P. unfold in_box, it_end. cbn. lia. }
  destruct (setup_block f true it0 it S E) as [Ep Eb]. exists it. split; auto. split; auto. split; auto. intros B.
  split; auto. apply (setup_inactive f it0 it S E). apply W; auto.
Qed.
End G.
