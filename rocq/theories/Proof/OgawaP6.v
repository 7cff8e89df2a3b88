From Coq Require Import ZArith List Bool Lia Arith.
From Verif Require Import Model.Base Model.OgawaM Spec.OgawaSpec Proof.BaseP Proof.OgawaP Proof.OgawaP2 Proof.OgawaP3 Proof.OgawaP4 Proof.OgawaP5.
Import ListNotations.
Open Scope Z_scope.

Lemma list_set_twice {A} (l : list A) n a b : list_set (list_set l n a) n b = list_set l n b.
Proof. revert n. induction l; intros [|n]; simpl; auto. f_equal. auto. Qed.

Lemma open_group_push s g gr v : open_group_of s g = Some gr ->
  open_group_of (push_child s g gr v) g = Some (OGroup (og_children gr ++ [v]) None (og_parent gr)).
Proof.
  unfold open_group_of, push_child, set_group. cbn [o_groups]. destruct (nth_error (o_groups s) g) as [g0|] eqn:E; [|discriminate].
  destruct (og_pos g0) eqn:P; [discriminate|]. intros [= ->]. rewrite (list_set_same _ _ _ _ E). cbn [og_pos]. rewrite P. auto.
Qed.
Lemma empty_data_twice s g bufs : concat bufs = [] ->
  o_add_data s g bufs = o_add_empty (o_add_empty s g EMPTY_DATA) g EMPTY_DATA.
Proof.
  intros E. unfold o_add_data, o_add_empty. destruct (open_group_of s g) as [gr|] eqn:O; [|rewrite O; auto].
  rewrite E. cbn [length Z.of_nat Z.eqb]. rewrite (open_group_push s g gr EMPTY_DATA O).
  unfold push_child, set_group. cbn [o_file o_log o_groups og_children og_pos og_parent]. rewrite list_set_twice, <- app_assoc.
  assert (og_pos gr = None) as ->; auto. unfold open_group_of in O. destruct (nth_error (o_groups s) g) as [g0|]; [|discriminate].
  destruct (og_pos g0) eqn:P; [discriminate|]. congruence.
Qed.
Lemma as_stored_run ops : forall s, o_run ops s = o_run (as_stored ops) s.
Proof.
  induction ops as [|o ops IH]; intros s; auto. unfold as_stored. cbn [flat_map].
  unfold o_run. rewrite fold_left_app. cbn [fold_left]. fold (o_run ops (o_step s o)). rewrite IH. unfold o_run, as_stored. f_equal.
  destruct o; auto. destruct (concat bufs) eqn:E; auto. cbn [fold_left o_step]. apply empty_data_twice; auto.
Qed.
Lemma as_stored_ok ops : data_ok (as_stored ops).
Proof.
  intros g bufs H. unfold as_stored in H. apply in_flat_map in H as (o & _ & H). destruct o; cbn in H;
    try (destruct H as [H|[]]; discriminate).
  destruct (concat bufs0) eqn:E; [destruct H as [H|[H|[]]]; discriminate|]. destruct H as [H|[]]. injection H as -> ->. congruence.
Qed.

(** The reader's calls on a group, in terms of the tree the reader sees. *)
Lemma walk_children d light f g t : walk (S d) light f g = Some t ->
  exists ts, t = Group ts /\ length ts = Z.to_nat (ig_num g) /\
  forall i c, nth_error ts i = Some c ->
    match c with
    | Data b => i_get_group f light g (Z.of_nat i) = Some None /\ i_get_data f g (Z.of_nat i) = Some (Some b)
                \/ exists h, i_get_group f light g (Z.of_nat i) = Some (Some h) /\ walk d light f h = Some (Data b)
    | Group _ => exists h, i_get_group f light g (Z.of_nat i) = Some (Some h) /\ walk d light f h = Some c
    end.
Proof.
  cbn [walk].
  set (child := fun i => match i_get_group f light g (Z.of_nat i) with
           | Some (Some h) => walk d light f h
           | Some None => match i_get_data f g (Z.of_nat i) with Some (Some b) => Some (Data b) | _ => None end
           | None => None
           end).
  set (all := fix all (l0 : list nat) : option (list tree) :=
     match l0 with
     | [] => Some []
     | i :: r => match child i with Some t0 => match all r with Some ts => Some (t0 :: ts) | None => None end | None => None end
     end).
  change (match all (seq 0 (Z.to_nat (ig_num g))) with Some ts => Some (Group ts) | None => None end = Some t -> exists ts, t = Group ts /\ length ts = Z.to_nat (ig_num g) /\
  forall i c, nth_error ts i = Some c ->
    match c with
    | Data b => i_get_group f light g (Z.of_nat i) = Some None /\ i_get_data f g (Z.of_nat i) = Some (Some b)
                \/ exists h, i_get_group f light g (Z.of_nat i) = Some (Some h) /\ walk d light f h = Some (Data b)
    | Group _ => exists h, i_get_group f light g (Z.of_nat i) = Some (Some h) /\ walk d light f h = Some c
    end).
  assert (A : forall n a ts, all (seq a n) = Some ts -> length ts = n /\ forall i c, nth_error ts i = Some c -> child (a + i)%nat = Some c).
  { induction n as [|n IH]; intros a ts H.
    - cbn in H. injection H as <-. split; auto. intros [|i] c; discriminate.
    - cbn [seq all] in H. destruct (child a) as [t0|] eqn:C; [|discriminate].
      fold all in H. destruct (all (seq (S a) n)) as [ts'|] eqn:R; [|discriminate]. injection H as <-.
      destruct (IH (S a) ts' R) as (L & N). split; [simpl; auto|]. intros [|i] c H; cbn in H.
      + rewrite Nat.add_0_r. congruence.
      + rewrite Nat.add_succ_r. apply N; auto. }
  destruct (all (seq 0 (Z.to_nat (ig_num g)))) as [ts|] eqn:E; [|discriminate]. intros [= <-].
  destruct (A _ _ _ E) as (L & N). exists ts. split; auto. split; auto. intros i c H. specialize (N i c H). cbn [Nat.add] in N.
  unfold child in N. destruct (i_get_group f light g (Z.of_nat i)) as [[h|]|]; [|destruct (i_get_data f g (Z.of_nat i)) as [[b|]|]|]; try discriminate.
  - destruct c; eauto.
  - injection N as <-. auto.
Qed.
Lemma walk_is_group d light f g b : walk d light f g <> Some (Data b).
Proof.
  intros H. destruct d; [discriminate|]. destruct (walk_children _ _ _ _ _ H) as (ts & E & _). discriminate.
Qed.
