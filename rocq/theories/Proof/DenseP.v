From Coq Require Import ZArith List Bool Lia ZifyBool Sorting.Sorted.
From Verif Require Import Model.Base Model.FieldM Model.DenseM Spec.VoxelSpec Spec.DenseSpec
  Proof.BaseP Proof.FieldP.
Import ListNotations.
Open Scope Z_scope.

Lemma v3_eta p : V3 (vx p) (vy p) (vz p) = p.
Proof. destruct p; auto. Qed.

Lemma axis_size_ok lo hi : int_min <= hi - lo <= int_max - 1 -> axis_size lo hi = Ok (hi - lo + 1).
Proof.
  intros H. unfold axis_size. rewrite i32_ok by lia. cbn [bind]. apply i32_ok. unfold int_min, int_max in *. lia.
Qed.

Ltac int_box_facts H :=
  let C := fresh "C" in let P := fresh "P" in let Q := fresh "Q" in
  destruct H as (C & P & Q);
  pose proof (C _ (or_introl eq_refl));
  pose proof (C _ (or_intror (or_introl eq_refl)));
  pose proof (C _ (or_intror (or_intror (or_introl eq_refl))));
  pose proof (C _ (or_intror (or_intror (or_intror (or_introl eq_refl)))));
  pose proof (C _ (or_intror (or_intror (or_intror (or_intror (or_introl eq_refl))))));
  pose proof (C _ (or_intror (or_intror (or_intror (or_intror (or_intror (or_introl eq_refl)))))));
  clear C.

Ltac solve_int_box :=
  let c := fresh "c" in let H := fresh "H" in
  split; [intros c H; simpl in H; repeat (destruct H as [H|H]; [subst c; simpl; lia|]); contradiction
         | simpl; lia].

Section P.
Context {V : Type}.
Variable dflt : V.

(** Storage shape: memory sizes agree with the window, the buffer has one cell
    per voxel. *)
Record shape (f : dense V) : Prop := {
  sh_int : int_box (d_dw f);
  sh_mem : d_mem f = data_resolution (d_dw f);
  sh_xy : d_memXY f = vx (d_mem f) * vy (d_mem f);
  sh_len : box_nonempty (d_dw f) ->
           Z.of_nat (length (d_data f)) = vx (d_mem f) * vy (d_mem f) * vz (d_mem f) }.

Definition lin (w : box) (p : v3) : Z :=
  let r := data_resolution w in
  (vx p - vx (bmin w)) + (vy p - vy (bmin w)) * vx r + (vz p - vz (bmin w)) * (vx r * vy r).

Lemma lin_bound w p : in_box p w ->
  0 <= lin w p < vx (data_resolution w) * vy (data_resolution w) * vz (data_resolution w).
Proof.
  intros B. unfold lin. apply linear_index_bound; unfold in_box in B;
    unfold data_resolution; simpl; lia.
Qed.
Lemma lin_inj w p q : in_box p w -> in_box q w -> lin w p = lin w q -> p = q.
Proof.
  intros B C E. unfold in_box in *. unfold lin, data_resolution in E; simpl in E.
  apply linear_index_inj in E; try lia. apply v3_ext; lia.
Qed.

Lemma dense_index_ok f p : shape f -> in_box p (d_dw f) ->
  dense_index f (vx p) (vy p) (vz p) = Ok (lin (d_dw f) p) /\
  0 <= lin (d_dw f) p < Z.of_nat (length (d_data f)).
Proof.
  intros [I M X L] B. pose proof (in_box_nonempty _ _ B) as N.
  specialize (L N). pose proof (lin_bound _ _ B) as LB.
  assert (K : lin (d_dw f) p < 2 ^ 31).
  { int_box_facts I. unfold data_resolution in LB; simpl in LB.
    unfold box_nonempty in N. lia. }
  split; [|rewrite L, M; auto].
  unfold dense_index. rewrite X, M.
  int_box_facts I. unfold in_box in B.
  assert (R : vx (data_resolution (d_dw f)) = vx (bmax (d_dw f)) - vx (bmin (d_dw f)) + 1) by auto.
  assert (R2 : vy (data_resolution (d_dw f)) = vy (bmax (d_dw f)) - vy (bmin (d_dw f)) + 1) by auto.
  unfold lin in *. revert K LB.
  set (rx := vx (data_resolution (d_dw f))) in *.
  set (ry := vy (data_resolution (d_dw f))) in *.
  set (i := vx p - vx (bmin (d_dw f))).
  set (j := vy p - vy (bmin (d_dw f))).
  set (k := vz p - vz (bmin (d_dw f))).
  intros K LB.
  assert (0 <= i < 2^31) by lia. assert (0 <= j < 2^31) by lia. assert (0 <= k < 2^31) by lia.
  assert (0 <= rx) by lia. assert (0 <= ry) by lia.
  assert (0 <= j * rx) by (apply Z.mul_nonneg_nonneg; lia).
  assert (0 <= k * (rx * ry)) by (repeat apply Z.mul_nonneg_nonneg; lia).
  clear P Q R R2 M X L LB. clearbody rx ry i j k.
  do 3 (rewrite i32_ok by (unfold int_min, int_max; lia); cbn [bind]).
  generalize dependent (k * (rx * ry)). generalize dependent (j * rx). intros jr ? kr ? ?.
  repeat (rewrite i32_ok by (unfold int_min, int_max; lia); cbn [bind]). auto.
Qed.

Lemma dense_value_lin f p : shape f -> in_box p (d_dw f) ->
  dense_value f p = arr_get (d_data f) (lin (d_dw f) p).
Proof. intros S B. unfold dense_value. destruct (dense_index_ok f p S B) as [-> _]. auto. Qed.

Lemma dense_write_ok f p v : shape f -> in_box p (d_dw f) ->
  exists f', dense_write f p v = Ok f' /\ shape f' /\
    d_ext f' = d_ext f /\ d_dw f' = d_dw f /\
    dense_value f' p = Ok v /\
    forall q, in_box q (d_dw f) -> q <> p -> dense_value f' q = dense_value f q.
Proof.
  intros S B. destruct (dense_index_ok f p S B) as [E L].
  unfold dense_write. rewrite E. simpl. rewrite arr_set_ok by auto. simpl.
  eexists. split; [reflexivity|]. set (f' := Dense _ _ _ _ _).
  assert (S' : shape f').
  { destruct S as [I M X Ln]. constructor; simpl; auto.
    rewrite list_set_length. auto. }
  repeat split; try apply S'; auto.
  - rewrite dense_value_lin; auto. simpl. apply arr_get_set_same; auto.
  - intros q Q N. rewrite !dense_value_lin; auto. simpl.
    apply arr_get_set_other; [lia|]. intros F. apply N. symmetry.
    apply (lin_inj _ _ _ B Q). auto.
Qed.

Lemma dense_clear_ok f v : shape f ->
  shape (dense_clear f v) /\ d_dw (dense_clear f v) = d_dw f /\ d_ext (dense_clear f v) = d_ext f /\
  forall q, in_box q (d_dw f) -> dense_value (dense_clear f v) q = Ok v.
Proof.
  intros S.
  assert (S' : shape (dense_clear f v)).
  { destruct S as [I M X Ln]. constructor; simpl; auto. rewrite map_length; auto. }
  repeat split; try apply S'; auto.
  intros q Q. rewrite dense_value_lin; auto. simpl.
  destruct (dense_index_ok f q S Q) as [_ L].
  destruct (arr_get_ok (d_data f) (lin (d_dw f) q) L) as [a A].
  apply (arr_get_map (fun _ => v)) in A. auto.
Qed.

Lemma dense_set_size_ok e dw f : int_box dw ->
  exists f' t, dense_set_size dflt e dw f = Ok (f', t) /\ shape f' /\
    d_ext f' = e /\ d_dw f' = dw /\ (t = true <-> ~ box_nonempty dw) /\
    forall q, in_box q dw -> dense_value f' q = Ok dflt.
Proof.
  intros I. unfold dense_set_size.
  assert (I' := I). int_box_facts I'.
  set (rx := vx (bmax dw) - vx (bmin dw) + 1) in *.
  set (ry := vy (bmax dw) - vy (bmin dw) + 1) in *.
  set (rz := vz (bmax dw) - vz (bmin dw) + 1) in *.
  rewrite (axis_size_ok (vx (bmin dw))), (axis_size_ok (vy (bmin dw))), (axis_size_ok (vz (bmin dw)))
    by (unfold int_min, int_max; lia). fold rx ry rz. simpl bind.
  rewrite i32_ok; unfold int_min, int_max; [simpl bind|lia].
  destruct (_ || _) eqn:E.
  - do 2 eexists. split; [reflexivity|].
    assert (NN : ~ box_nonempty dw) by (unfold box_nonempty; lia).
    split; [|repeat split; auto].
    + constructor; simpl; auto. intros N; contradiction.
    + intros q QB. apply in_box_nonempty in QB. contradiction.
  - assert (NN : box_nonempty dw) by (unfold box_nonempty; lia).
    rewrite i32_ok by (unfold int_min, int_max; lia). simpl bind.
    do 2 eexists. split; [reflexivity|]. set (f' := Dense _ _ _ _ _).
    assert (0 < rx /\ 0 < ry /\ 0 < rz) as (PX & PY & PZ) by (unfold box_nonempty in NN; lia).
    assert (S' : shape f').
    { constructor; simpl; auto. intros _. rewrite repeat_length.
      rewrite Z2Nat.id; auto. repeat apply Z.mul_nonneg_nonneg; lia. }
    split; auto. split; auto. split; auto. split.
    + split; intros NB; [discriminate|contradiction].
    + intros q QB. rewrite dense_value_lin; auto. simpl. apply arr_get_repeat.
      pose proof (lin_bound _ _ QB) as LB. rewrite Z2Nat.id; auto.
      repeat apply Z.mul_nonneg_nonneg; lia.
Qed.

(** * Refinement *)
Record refines (f : dense V) (a : amap V) : Prop := {
  rf_shape : shape f;
  rf_ext : d_ext f = a_ext a;
  rf_dw : d_dw f = a_dw a;
  rf_val : forall p, in_box p (a_dw a) -> dense_value f p = Ok (a_val a p) }.

Lemma refines_init : refines dense_init (spec_init dflt).
Proof.
  constructor; simpl; auto.
  - constructor; simpl; auto.
    split; [|simpl; lia].
      intros c H. simpl in H. decompose [or] H; subst; lia || contradiction.
  - unfold in_box; simpl. lia.
Qed.

Lemma refines_step f a o :
  refines f a -> legal dflt a [o] ->
  exists f', dense_step dflt f o = Ok f' /\ refines f' (spec_step dflt a o).
Proof.
  intros [S E W D] [L _]. destruct o as [e dw|v|p v]; simpl in *.
  - destruct (dense_set_size_ok e dw f L) as (f' & t & Eq & S' & E' & W' & _ & D').
    rewrite Eq. simpl. eexists; split; eauto. constructor; simpl; auto.
  - destruct (dense_clear_ok f v S) as (S' & W' & E' & D').
    eexists; split; eauto. constructor; simpl; auto; try congruence.
    intros p B. apply D'. congruence.
  - rewrite <- W in L.
    destruct (dense_write_ok f p v S L) as (f' & Eq & S' & E' & W' & Dp & Dq).
    exists f'. split; auto. constructor; simpl; auto; try congruence.
    intros q B. destruct (v3_dec q p) as [->|N].
    + rewrite upd_same. auto.
    + rewrite upd_other by auto. rewrite Dq by congruence. auto.
Qed.

Lemma refines_run l : forall f a, refines f a -> legal dflt a l ->
  exists f', dense_run dflt f l = Ok f' /\ refines f' (spec_run dflt a l).
Proof.
  induction l as [|o l IH]; intros f a R L.
  - exists f; auto.
  - destruct L as [L1 L2].
    destruct (refines_step f a o R) as (f1 & E1 & R1); [split; simpl; auto|].
    destruct (IH f1 _ R1 L2) as (f2 & E2 & R2).
    exists f2. split; auto. simpl. rewrite E1. auto.
Qed.

(** * The dense iterator *)
Definition good_it (f : dense V) (w : box) (it : diter) : Prop :=
  in_box (di_pos it) w /\ di_p it = Some (lin (d_dw f) (di_pos it)).

Lemma dense_ptr_ok f p : shape f -> in_box p (d_dw f) -> dense_ptr f p = Ok (lin (d_dw f) p).
Proof.
  intros S B. unfold dense_ptr. destruct (dense_index_ok f p S B) as [-> L]. simpl.
  replace (_ && _) with true; auto. lia.
Qed.

Lemma diter_next_good f w it : shape f -> sub_box w (d_dw f) -> good_it f w it ->
  (it_next w (di_pos it) = it_end w /\ diter_next f w it = Ok (DIter (di_pos it) None)) \/
  (exists it', diter_next f w it = Ok it' /\ good_it f w it' /\
               di_pos it' = it_next w (di_pos it)).
Proof.
  intros S W [B E]. destruct it as [p q]; simpl in *. subst q.
  unfold diter_next, it_next; simpl. unfold in_box in B.
  destruct (vx p =? vx (bmax w)) eqn:X.
  - destruct (vy p =? vy (bmax w)) eqn:Y.
    + destruct (vz p =? vz (bmax w)) eqn:Z0.
      * left. split; auto. unfold it_end. f_equal. lia.
      * right. set (q := V3 _ _ _). assert (Q : in_box q w) by (unfold in_box, q; simpl; lia).
        rewrite (dense_ptr_ok f q S (W _ Q)). simpl. eexists. split; [reflexivity|].
        repeat split; auto; apply Q.
    + right. set (q := V3 _ _ _). assert (Q : in_box q w) by (unfold in_box, q; simpl; lia).
      rewrite (dense_ptr_ok f q S (W _ Q)). simpl. eexists. split; [reflexivity|].
      repeat split; auto; apply Q.
  - right. eexists. split; [reflexivity|]. split; auto. split; simpl.
    + unfold in_box; simpl; lia.
    + f_equal. unfold lin; simpl. lia.
Qed.

Lemma diter_loop_good f w e : shape f -> sub_box w (d_dw f) -> di_p e = None ->
  forall l it fuel, good_it f w it -> chain (it_next w) (di_pos it) l (it_end w) ->
  (length l < fuel)%nat ->
  exists its, diter_loop fuel f w e it = Some (Ok its) /\ map di_pos its = l /\
              Forall (good_it f w) its.
Proof.
  intros S W E. induction l as [|h t IH]; intros it fuel G C L; simpl in *.
  - exfalso. destruct G as [B _]. rewrite C in B. unfold in_box, it_end in B; simpl in B. lia.
  - destruct fuel; [lia|]. destruct C as [Ch C]. simpl.
    destruct (G) as [B P]. rewrite P, E. simpl.
    destruct (diter_next_good f w it S W G) as [[N D]|(it' & D & G' & N)].
    + rewrite D. assert (t = []).
      { destruct t; auto. simpl in C. exfalso. destruct C as [C0 C].
        rewrite <- Ch, N in C0. subst v.
        (* the end position never returns to itself *)
        assert (M : forall l s, chain (it_next w) s l (it_end w) ->
                    before (it_end w) s -> vx (bmin w) <= vx s <= vx (bmax w) ->
                    vy (bmin w) <= vy s <= vy (bmax w) -> False).
        { induction l as [|h' l' IHl]; simpl; intros s K Bf X Y.
          - subst s. exact (before_irrefl _ Bf).
          - destruct K as [-> K]. apply IHl in K; auto.
            + unfold before, it_next, it_end in *; simpl in *.
              destruct (vx h' =? vx (bmax w)) eqn:?; [destruct (vy h' =? vy (bmax w)) eqn:?|]; simpl; lia.
            + unfold it_next; destruct (vx h' =? vx (bmax w)) eqn:?;
              [destruct (vy h' =? vy (bmax w)) eqn:?|]; simpl; lia.
            + unfold it_next; destruct (vx h' =? vx (bmax w)) eqn:?;
              [destruct (vy h' =? vy (bmax w)) eqn:?|]; simpl; lia. }
        apply M in C; auto; unfold in_box in B;
          unfold before, it_next, it_end; simpl;
          destruct (vx (bmin w) =? vx (bmax w)) eqn:?;
          try destruct (vy (bmin w) =? vy (bmax w)) eqn:?; simpl; lia. }
      subst t. destruct fuel; [simpl in L; lia|].
      simpl. rewrite E. simpl. exists [it]. repeat split; auto. simpl. congruence.
    + rewrite D. rewrite <- Ch, <- N in C.
      destruct (IH it' fuel G' C) as (its & E1 & E2 & F); [lia|].
      rewrite E1. simpl. exists (it :: its). repeat split; auto. simpl. congruence.
Qed.

Lemma dense_iterate_sub_ok f w fuel :
  shape f -> box_nonempty w -> sub_box w (d_dw f) -> box_count w < Z.of_nat fuel ->
  exists its, dense_iterate_sub fuel f w = Some (Ok its) /\
    map di_pos its = enum w /\ Forall (good_it f w) its.
Proof.
  intros S N W L. unfold dense_iterate_sub, diter_begin_sub, diter_end_sub.
  rewrite (proj2 (box_empty_false w) N).
  assert (B : in_box (bmin w) w) by (apply in_box_min; auto).
  unfold diter_make at 1. rewrite (proj2 (box_has_iff w (bmin w)) B).
  rewrite dense_ptr_ok by auto. simpl.
  unfold diter_make. replace (box_has w (it_end w)) with false.
  2:{ symmetry. apply box_has_false. unfold in_box, it_end; simpl. lia. }
  apply diter_loop_good; auto.
  - split; simpl; auto.
  - apply enum_chain; auto.
  - rewrite <- enum_length in L. lia.
Qed.

Lemma dense_iterate_ok f fuel :
  shape f -> box_nonempty (d_dw f) -> box_count (d_dw f) < Z.of_nat fuel ->
  exists its, dense_iterate fuel f = Some (Ok its) /\
    map di_pos its = enum (d_dw f) /\ Forall (good_it f (d_dw f)) its.
Proof.
  intros S N L.
  assert (W : sub_box (d_dw f) (d_dw f)) by (intros p; auto).
  destruct (dense_iterate_sub_ok f (d_dw f) fuel S N W L) as (its & E & R).
  exists its. split; auto. rewrite <- E. unfold dense_iterate, dense_iterate_sub, diter_begin, diter_begin_sub.
  rewrite (proj2 (box_empty_false _) N).
  destruct (v3_eqb (data_resolution (d_dw f)) (V3 0 0 0)) eqn:F; auto.
  apply v3_eqb_eq in F. unfold data_resolution, v3_add, v3_sub in F. simpl in F. inversion F.
  unfold box_nonempty in N. lia.
Qed.

(** * Grains *)
Lemma dense_grain_unique w p : box_nonempty w -> int_box w -> in_box p w ->
  exists n, dense_num_grains w = Ok n /\
  exists! g, 0 <= g < n /\ exists b, dense_grain_bounds w g = Ok b /\ in_box p b.
Proof.
  intros N I B. unfold dense_num_grains, dense_grain_bounds, box_size.
  rewrite (proj2 (box_empty_false w) N). unfold box_nonempty, in_box in *.
  cbn [vx vy vz v3_add v3_sub].
  set (ry := vy (bmax w) - vy (bmin w) + 1) in *.
  set (rz := vz (bmax w) - vz (bmin w) + 1) in *.
  assert (PY : 0 < ry) by lia. assert (PZ : 0 < rz) by lia.
  assert (T : 0 < ry * rz) by (apply Z.mul_pos_pos; lia).
  assert (U : ry * rz < 2 ^ 31).
  { int_box_facts I. clear - PY PZ T N Q.
    set (rx := vx (bmax w) - vx (bmin w) + 1) in *.
    assert (0 < rx) by lia. rewrite <- Z.mul_assoc in Q.
    fold ry rz in Q. set (t := ry * rz) in *. nia. }
  exists (ry * rz). split; [apply i32_ok; unfold int_min, int_max; lia|].
  destruct (ry =? 0) eqn:E; [lia|].
  exists ((vy p - vy (bmin w)) + (vz p - vz (bmin w)) * ry). split.
  - split.
    { assert (0 <= vy p - vy (bmin w) < ry) by lia.
      assert (0 <= vz p - vz (bmin w) < rz) by lia.
      set (y := vy p - vy (bmin w)) in *. set (z := vz p - vz (bmin w)) in *.
      clear - H H0. nia. }
    eexists. split; [reflexivity|]. apply clip_bounds_spec.
    split; [|unfold in_box; lia]. unfold in_box; cbn [bmin bmax vx vy vz].
    rewrite Z.mod_add, Z.mod_small by lia. rewrite Z.div_add, Z.div_small by lia.
    unfold v3_add; simpl. lia.
  - intros g (G & b & Eb & Pb). injection Eb as <-. apply clip_bounds_spec in Pb.
    unfold in_box in Pb; cbn [bmin bmax vx vy vz v3_add] in Pb.
    pose proof (Z.div_mod g ry ltac:(lia)) as DM.
    set (a := g / ry) in *. set (c := g mod ry) in *.
    replace (vy p - vy (bmin w)) with c by lia. replace (vz p - vz (bmin w)) with a by lia.
    rewrite DM. ring.
Qed.
End P.
