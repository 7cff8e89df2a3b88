From Coq Require Import ZArith List Bool Lia ZifyBool Sorting.Sorted.
From Verif Require Import Model.Base Spec.VoxelSpec.
Import ListNotations.
Open Scope Z_scope.

(** * Outcomes *)
Lemma bind_ok {A B} (r : res A) (f : A -> res B) b :
  bind r f = Ok b <-> exists a, r = Ok a /\ f a = Ok b.
Proof.
  destruct r; simpl; split; intros H.
  - eauto.
  - destruct H as (? & E & ?). injection E as <-. auto.
  - discriminate.
  - destruct H as (? & E & ?). discriminate.
  - discriminate.
  - destruct H as (? & E & ?). discriminate.
Qed.

Lemma i32_ok z : int_min <= z <= int_max -> i32 z = Ok z.
Proof. unfold i32, in_int. intros. replace (_ && _) with true; auto. lia. Qed.

Lemma i32_inv z r : i32 z = Ok r -> r = z /\ int_min <= z <= int_max.
Proof. unfold i32, in_int. destruct (_ && _) eqn:E; intros H; inversion H. lia. Qed.

(** * Vectors *)
Lemma v3_eqb_eq a b : v3_eqb a b = true <-> a = b.
Proof.
  unfold v3_eqb. destruct a, b; simpl. split; intros H.
  - f_equal; lia.
  - inversion H; subst. lia.
Qed.
Lemma v3_eqb_refl a : v3_eqb a a = true.
Proof. apply v3_eqb_eq; reflexivity. Qed.
Lemma v3_eqb_neq a b : a <> b -> v3_eqb a b = false.
Proof. intros. destruct (v3_eqb a b) eqn:E; auto. apply v3_eqb_eq in E. contradiction. Qed.
Lemma box_eqb_eq a b : box_eqb a b = true <-> a = b.
Proof.
  unfold box_eqb. rewrite andb_true_iff, !v3_eqb_eq. destruct a, b; simpl. split.
  - intros [-> ->]; auto.
  - intros H; inversion H; auto.
Qed.
Lemma v3_ext a b : vx a = vx b -> vy a = vy b -> vz a = vz b -> a = b.
Proof. destruct a, b; simpl; intros; subst; auto. Qed.

Lemma box_has_iff b p : box_has b p = true <-> in_box p b.
Proof. unfold box_has, in_box. lia. Qed.
Lemma box_has_false b p : box_has b p = false <-> ~ in_box p b.
Proof. rewrite <- box_has_iff. destruct (box_has b p); split; intros; auto; discriminate || congruence. Qed.
Lemma box_empty_false b : box_empty b = false <-> box_nonempty b.
Proof. unfold box_empty, box_nonempty. lia. Qed.
Lemma box_empty_true b : box_empty b = true <-> ~ box_nonempty b.
Proof. unfold box_empty, box_nonempty. lia. Qed.
Lemma in_box_nonempty p b : in_box p b -> box_nonempty b.
Proof. unfold in_box, box_nonempty. lia. Qed.
Lemma in_box_min b : box_nonempty b -> in_box (bmin b) b.
Proof. unfold in_box, box_nonempty. lia. Qed.

Lemma upd_same {V} (m : v3 -> V) p v : upd m p v p = v.
Proof. unfold upd. destruct (v3_dec p p); congruence. Qed.
Lemma upd_other {V} (m : v3 -> V) p q v : q <> p -> upd m p v q = m q.
Proof. unfold upd. destruct (v3_dec q p); congruence. Qed.

(** * Arrays *)
Lemma list_set_length {A} (l : list A) n a : length (list_set l n a) = length l.
Proof. revert n; induction l; destruct n; simpl; auto. Qed.
Lemma list_set_same {A} (l : list A) n a :
  (n < length l)%nat -> nth_error (list_set l n a) n = Some a.
Proof. revert n; induction l; destruct n; simpl; intros; try lia; auto. apply IHl; lia. Qed.
Lemma list_set_other {A} (l : list A) n m a :
  n <> m -> nth_error (list_set l n a) m = nth_error l m.
Proof. revert n m; induction l; destruct n, m; simpl; intros; try lia; auto. Qed.

Lemma arr_set_ok {A} (l : list A) i a :
  0 <= i < Z.of_nat (length l) -> arr_set l i a = Ok (list_set l (Z.to_nat i) a).
Proof. intros. unfold arr_set. replace (_ && _) with true; auto. lia. Qed.
Lemma arr_set_inv {A} (l l' : list A) i a :
  arr_set l i a = Ok l' -> 0 <= i < Z.of_nat (length l) /\ l' = list_set l (Z.to_nat i) a.
Proof. unfold arr_set. destruct (_ && _) eqn:E; intros H; inversion H. split; auto. lia. Qed.
Lemma arr_get_some {A} (l : list A) i a :
  0 <= i -> nth_error l (Z.to_nat i) = Some a -> arr_get l i = Ok a.
Proof. intros H E. unfold arr_get. rewrite E. destruct (i <? 0) eqn:?; auto. lia. Qed.
Lemma arr_get_inv {A} (l : list A) i a :
  arr_get l i = Ok a -> 0 <= i < Z.of_nat (length l) /\ nth_error l (Z.to_nat i) = Some a.
Proof.
  unfold arr_get. destruct (i <? 0) eqn:E; [discriminate|].
  destruct (nth_error l (Z.to_nat i)) eqn:F; intros H; inversion H; subst.
  split; auto. assert (nth_error l (Z.to_nat i) <> None) by congruence.
  apply nth_error_Some in H0. lia.
Qed.
Lemma arr_get_ok {A} (l : list A) i :
  0 <= i < Z.of_nat (length l) -> exists a, arr_get l i = Ok a.
Proof.
  intros. destruct (nth_error l (Z.to_nat i)) eqn:E.
  - exists a. apply arr_get_some; auto; lia.
  - apply nth_error_None in E. lia.
Qed.
Lemma arr_get_set_same {A} (l : list A) i a :
  0 <= i < Z.of_nat (length l) -> arr_get (list_set l (Z.to_nat i) a) i = Ok a.
Proof. intros. apply arr_get_some; [lia|]. apply list_set_same. lia. Qed.
Lemma arr_get_set_other {A} (l : list A) i j a :
  0 <= i -> i <> j -> arr_get (list_set l (Z.to_nat i) a) j = arr_get l j.
Proof.
  intros. unfold arr_get. destruct (j <? 0) eqn:E; auto.
  rewrite list_set_other; auto. lia.
Qed.
Lemma arr_get_repeat {A} (a : A) n i : 0 <= i < Z.of_nat n -> arr_get (repeat a n) i = Ok a.
Proof.
  intros. apply arr_get_some; [lia|].
  apply nth_error_repeat. lia.
Qed.
Lemma arr_get_map {A B} (f : A -> B) l i a : arr_get l i = Ok a -> arr_get (map f l) i = Ok (f a).
Proof.
  intros H. apply arr_get_inv in H. destruct H as [? E].
  apply arr_get_some; [lia|]. rewrite nth_error_map, E. reflexivity.
Qed.

(** * Loops *)
Fixpoint chain {S} (next : S -> S) (s : S) (l : list S) (e : S) : Prop :=
  match l with
  | [] => s = e
  | h :: t => s = h /\ chain next (next h) t e
  end.

Lemma chain_app {S} (next : S -> S) l1 l2 s m e :
  chain next s l1 m -> chain next m l2 e -> chain next s (l1 ++ l2) e.
Proof.
  revert s; induction l1; simpl; intros.
  - subst; auto.
  - destruct H; split; auto.
Qed.

Lemma for_loop_chain {S} (stop : S -> bool) next l s e fuel :
  chain next s l e ->
  (forall x, In x l -> stop x = false) -> stop e = true ->
  (length l < fuel)%nat -> for_loop fuel stop next s = Some l.
Proof.
  revert s fuel; induction l; intros s fuel C N E L; simpl in *.
  - destruct fuel; [lia|]. subst. simpl. rewrite E; auto.
  - destruct fuel; [lia|]. destruct C as [-> C]. simpl.
    rewrite (N a) by auto. erewrite IHl; eauto. lia.
Qed.

Fixpoint zseq (a : Z) (n : nat) : list Z :=
  match n with O => [] | S m => a :: zseq (a + 1) m end.
Lemma zseq_In a n x : In x (zseq a n) <-> a <= x < a + Z.of_nat n.
Proof.
  revert a; induction n; simpl; intros.
  - lia.
  - rewrite IHn. lia.
Qed.
Lemma zseq_length a n : length (zseq a n) = n.
Proof. revert a; induction n; simpl; auto. Qed.
Lemma zseq_app a n m : zseq a (n + m) = zseq a n ++ zseq (a + Z.of_nat n) m.
Proof.
  revert a; induction n; intros; simpl.
  - replace (a + 0) with a by lia. auto.
  - rewrite IHn. do 2 f_equal. f_equal. lia.
Qed.
Lemma zseq_sorted a n : StronglySorted Z.lt (zseq a n).
Proof.
  revert a; induction n; simpl; intros; constructor; auto.
  apply Forall_forall. intros x H. apply zseq_In in H. lia.
Qed.
Lemma zseq_nodup a n : NoDup (zseq a n).
Proof.
  revert a; induction n; simpl; intros; constructor; auto.
  rewrite zseq_In. lia.
Qed.

Lemma StronglySorted_app {A} (R : A -> A -> Prop) l1 l2 :
  StronglySorted R l1 -> StronglySorted R l2 ->
  (forall x y, In x l1 -> In y l2 -> R x y) -> StronglySorted R (l1 ++ l2).
Proof.
  induction l1; simpl; intros H1 H2 H; auto.
  inversion H1; subst. constructor.
  - apply IHl1; auto.
  - apply Forall_app; split; auto. apply Forall_forall. intros; auto.
Qed.
Lemma StronglySorted_NoDup {A} (R : A -> A -> Prop) l :
  (forall x, ~ R x x) -> StronglySorted R l -> NoDup l.
Proof.
  intros I; induction 1; constructor; auto.
  intro F. rewrite Forall_forall in H0. apply (I a). auto.
Qed.

(** * Enumeration of a box, x fastest *)
Definition row (b : box) (y z : Z) : list v3 :=
  map (fun x => V3 x y z)
      (zseq (vx (bmin b)) (Z.to_nat (vx (bmax b) - vx (bmin b) + 1))).
Definition slice (b : box) (z : Z) : list v3 :=
  flat_map (fun y => row b y z)
           (zseq (vy (bmin b)) (Z.to_nat (vy (bmax b) - vy (bmin b) + 1))).
Definition enum (b : box) : list v3 :=
  flat_map (slice b) (zseq (vz (bmin b)) (Z.to_nat (vz (bmax b) - vz (bmin b) + 1))).

Lemma row_In b y z p :
  In p (row b y z) <-> vx (bmin b) <= vx p <= vx (bmax b) /\ vy p = y /\ vz p = z.
Proof.
  unfold row. rewrite in_map_iff. split.
  - intros (x & <- & H). apply zseq_In in H. simpl. lia.
  - intros (H & <- & <-). exists (vx p). split; [destruct p; auto|].
    apply zseq_In. lia.
Qed.
Lemma slice_In b z p :
  In p (slice b z) <-> vx (bmin b) <= vx p <= vx (bmax b) /\
                       vy (bmin b) <= vy p <= vy (bmax b) /\ vz p = z.
Proof.
  unfold slice. rewrite in_flat_map. split.
  - intros (y & H & K). apply zseq_In in H. apply row_In in K. lia.
  - intros H. exists (vy p). rewrite zseq_In, row_In. lia.
Qed.
Lemma enum_In b p : In p (enum b) <-> in_box p b.
Proof.
  unfold enum, in_box. rewrite in_flat_map. split.
  - intros (z & H & K). apply zseq_In in H. apply slice_In in K. lia.
  - intros H. exists (vz p). rewrite zseq_In, slice_In. lia.
Qed.

Lemma row_sorted b y z : StronglySorted before (row b y z).
Proof.
  unfold row. generalize (vx (bmin b)) (Z.to_nat (vx (bmax b) - vx (bmin b) + 1)).
  intros a n; revert a; induction n; simpl; intros; constructor; auto.
  apply Forall_forall. intros q H. apply in_map_iff in H. destruct H as (x & <- & H).
  apply zseq_In in H. unfold before; simpl. lia.
Qed.
Lemma slice_sorted b z : StronglySorted before (slice b z).
Proof.
  unfold slice. generalize (vy (bmin b)) (Z.to_nat (vy (bmax b) - vy (bmin b) + 1)).
  intros a n; revert a; induction n; simpl; intros; [constructor|].
  apply StronglySorted_app; auto using row_sorted.
  intros p q H K. apply row_In in H. apply in_flat_map in K.
  destruct K as (y & K & L). apply zseq_In in K. apply row_In in L.
  unfold before. lia.
Qed.
Lemma enum_sorted b : StronglySorted before (enum b).
Proof.
  unfold enum. generalize (vz (bmin b)) (Z.to_nat (vz (bmax b) - vz (bmin b) + 1)).
  intros a n; revert a; induction n; simpl; intros; [constructor|].
  apply StronglySorted_app; auto using slice_sorted.
  intros p q H K. apply slice_In in H. apply in_flat_map in K.
  destruct K as (y & K & L). apply zseq_In in K. apply slice_In in L.
  unfold before. lia.
Qed.
Lemma before_irrefl p : ~ before p p.
Proof. unfold before. lia. Qed.
Lemma enum_nodup b : NoDup (enum b).
Proof. eapply StronglySorted_NoDup; [apply before_irrefl|apply enum_sorted]. Qed.
Lemma enum_visits b : visits_box (enum b) b.
Proof. split; [apply enum_In|split; [apply enum_nodup|apply enum_sorted]]. Qed.

Lemma flat_map_const_length {A B} (f : A -> list B) l n :
  (forall x, In x l -> length (f x) = n) -> length (flat_map f l) = (length l * n)%nat.
Proof.
  induction l; simpl; intros H; auto.
  rewrite app_length, IHl, H; auto.
Qed.
Lemma enum_length b : Z.of_nat (length (enum b)) = box_count b.
Proof.
  unfold enum, box_count, extent.
  rewrite (flat_map_const_length _ _
    (Z.to_nat (vy (bmax b) - vy (bmin b) + 1) * Z.to_nat (vx (bmax b) - vx (bmin b) + 1))%nat).
  - rewrite zseq_length. lia.
  - intros z _. unfold slice.
    rewrite (flat_map_const_length _ _ (Z.to_nat (vx (bmax b) - vx (bmin b) + 1))).
    + rewrite zseq_length; auto.
    + intros. unfold row. rewrite map_length, zseq_length; auto.
Qed.
