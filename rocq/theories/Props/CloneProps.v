(** C50: copies of fields are independent. *)
From Coq Require Import ZArith Reals List Bool Lia Lra.
From Verif Require Import Model.Base Model.FieldM Model.DenseM Model.SparseM Model.OpsM Model.RealM Model.VecM Model.MapM Model.CopyM Model.MetaM Model.CloneM
  Spec.VoxelSpec Spec.OpsSpec Spec.CopySpec Spec.CloneSpec Proof.BaseP Proof.OpsP Proof.CopyP Proof.CloneP.
Import ListNotations.
Open Scope Z_scope.

Definition no_world {V k} : world (V := V) k := World [] [].

(** Whatever is done to a number of fields - made, cloned, resized, remapped, written to,
    labelled, their mappings changed through the pointer - what a user sees of each of them is
    as if each had its own data, mapping and metadata; nothing is undefined. *)
Theorem C50_values {V} (dflt zero : V) k (os : list hop) :
  legal_ops (k := k) dflt zero [] os -> forallb (fun o => negb (is_assign o)) os = true ->
  exists w l, h_run (k := k) dflt zero no_world os = Ok w /\ v_run dflt zero [] os = Ok l /\ forall i, seen w i = nth_error l i.
Proof.
  intros L N. destruct (run_weak dflt zero os no_world [] (weak_empty k) L) as (w & l & E & E' & W & S). exists w, l. split; auto. split; auto.
  apply S; auto. apply strong_empty.
Qed.
Print Assumptions C50_values.

(** In particular no operation on other fields changes what is seen of a field. *)
Lemma v_other {V} (dflt zero : V) k (l : list (vfield k)) o l' j : v_step dflt zero l o = Ok l' -> target o <> Some j -> (j < length l)%nat ->
  nth_error l' j = nth_error l j /\ (length l <= length l')%nat.
Proof.
  assert (U : forall i g, v_update l i g = Ok l' -> Some i <> Some j -> (j < length l)%nat -> nth_error l' j = nth_error l j /\ (length l <= length l')%nat).
  { intros i g E N J. unfold v_update in E. destruct (nth_error l i); [|discriminate]. destruct (g v); cbn [bind] in E; try discriminate. injection E as <-.
    rewrite list_set_length. split; auto. apply list_set_other. congruence. }
  assert (W : forall a, l ++ [a] = l' -> (j < length l)%nat -> nth_error l' j = nth_error l j /\ (length l <= length l')%nat).
  { intros a <- J. rewrite app_length. split; [apply nth_error_app1; auto|lia]. }
  destruct o; cbn [v_step target]; intros E N J; try (eapply U; eauto; fail).
  - destruct (c_new zero k); cbn [bind] in E; try discriminate. injection E as E. eapply W; eauto.
  - destruct (nth_error l j0); [|discriminate]. injection E as E. eapply W; eauto.
  - destruct (nth_error l j0); [|discriminate]. eapply U; eauto.
Qed.
Lemma v_others {V} (dflt zero : V) k os : forall (l : list (vfield k)) l' j, v_run dflt zero l os = Ok l' -> Forall (fun o => target o <> Some j) os -> (j < length l)%nat ->
  nth_error l' j = nth_error l j.
Proof.
  induction os as [|o os IH]; intros l l' j E F J; cbn [v_run] in E; [congruence|]. inversion F as [|? ? N F']; subst.
  destruct (v_step dflt zero l o) as [l1| |] eqn:E1; cbn [bind] in E; try discriminate. destruct (v_other dflt zero k l o l1 j E1 N J) as [<- L]. apply IH; auto. lia.
Qed.
Lemma h_run_app {V} (dflt zero : V) k os os' : forall w : world k, h_run dflt zero w (os ++ os') = let* w' := h_run dflt zero w os in h_run dflt zero w' os'.
Proof. induction os as [|o os IH]; intros w; cbn [app h_run bind]; auto. destruct (h_step dflt zero w o); cbn [bind]; auto. Qed.
Lemma legal_app {V} (dflt zero : V) k os os' : forall (l : list (vfield k)), legal_ops dflt zero l (os ++ os') ->
  legal_ops dflt zero l os /\ forall l', v_run dflt zero l os = Ok l' -> legal_ops dflt zero l' os'.
Proof.
  induction os as [|o os IH]; intros l L; cbn [app legal_ops v_run] in *; [split; auto; intros l' E; injection E as <-; auto|].
  destruct L as [L1 L2]. split; [split; auto; intros l1 E; apply (IH l1); auto|]. intros l' E. destruct (v_step dflt zero l o) as [l1| |]; cbn [bind] in E; try discriminate.
  apply (IH l1); auto.
Qed.

Theorem C50_untouched {V} (dflt zero : V) k (os os' : list hop) j w :
  legal_ops (k := k) dflt zero [] (os ++ os') -> forallb (fun o => negb (is_assign o)) (os ++ os') = true ->
  h_run (k := k) dflt zero no_world os = Ok w -> (j < length (w_fields w))%nat -> Forall (fun o => target o <> Some j) os' ->
  exists w', h_run dflt zero w os' = Ok w' /\ seen w' j = seen w j.
Proof.
  intros L N E J F. destruct (legal_app _ _ _ _ _ _ L) as [L1 L2]. rewrite forallb_app in N. apply andb_true_iff in N as [N1 N2].
  destruct (run_weak dflt zero os no_world [] (weak_empty k) L1) as (w0 & l & E0 & El & W & S). rewrite E in E0. injection E0 as <-.
  specialize (S (strong_empty k) N1). destruct (run_weak dflt zero os' w l W (L2 l El)) as (w' & l' & E1 & E2 & W' & S'). specialize (S' S N2).
  exists w'. split; auto. rewrite (proj2 S'), (proj2 S). eapply v_others; eauto. rewrite <- (proj1 W). auto.
Qed.
Print Assumptions C50_untouched.

(** A clone is seen exactly as its source is, and cloning changes nothing else; this holds
    after assignments too. *)
Theorem C50_clone {V} (dflt zero : V) k (os : list hop) j w :
  legal_ops (k := k) dflt zero [] os -> h_run (k := k) dflt zero no_world os = Ok w -> (j < length (w_fields w))%nat ->
  exists w', h_step dflt zero w (HClone j) = Ok w' /\ seen w' (length (w_fields w)) = seen w j /\ seen w j <> None /\
    forall i, (i < length (w_fields w))%nat -> seen w' i = seen w i.
Proof.
  intros L E J. destruct (run_weak dflt zero os no_world [] (weak_empty k) L) as (w0 & l & E0 & El & W & S). rewrite E in E0. injection E0 as <-.
  pose proof W as [Le H]. rewrite Le in J. destruct (weak_at w l j W J) as (f & v & Ef & Ev & D & F & P). destruct (map_of_ok w f P) as (m & Em & En).
  cbn [h_step]. unfold h_clone. rewrite (at_field_ok _ _ _ Ef). cbn [bind]. rewrite Em. cbn [bind]. rewrite copy_data_id by (destruct D as (-> & _); apply F).
  cbn [bind]. rewrite meta_assign_id. eexists. split; [reflexivity|]. rewrite (seen_in w j f m Ef En). split; [|split; [discriminate|]].
  - unfold seen. cbn [w_fields w_maps]. rewrite nth_app_new, Nat.eqb_refl. cbn [h_map]. rewrite nth_app_new, Nat.eqb_refl. reflexivity.
  - intros i I. unfold seen. cbn [w_fields w_maps]. rewrite nth_error_app1 by auto. destruct (nth_error (w_fields w) i) as [g|] eqn:Eg; auto.
    destruct (H i g Eg) as (_ & _ & _ & _ & Pg). rewrite nth_error_app1 by auto. reflexivity.
Qed.
Print Assumptions C50_clone.

(** Right after [a = b], [a] is seen exactly as [b] is, and the other fields as before. *)
Theorem C50_assign {V} (dflt zero : V) k (os : list hop) i j w :
  legal_ops (k := k) dflt zero [] os -> h_run (k := k) dflt zero no_world os = Ok w -> (i < length (w_fields w))%nat -> (j < length (w_fields w))%nat ->
  exists w', h_step dflt zero w (HAssign i j) = Ok w' /\ seen w' i = seen w j /\ forall q, q <> i -> seen w' q = seen w q.
Proof.
  intros L E I J. destruct (run_weak dflt zero os no_world [] (weak_empty k) L) as (w0 & l & E0 & El & W & S). rewrite E in E0. injection E0 as <-.
  pose proof W as [Le H]. rewrite Le in I, J. destruct (weak_at w l j W J) as (f & v & Ef & Ev & D & F & P). destruct (weak_at w l i W I) as (f' & v' & Ef' & _ & _ & _ & _).
  cbn [h_step]. unfold h_assign. rewrite (at_field_ok _ _ _ Ef), (at_field_ok _ _ _ Ef'). cbn [bind]. destruct (Nat.eqb_spec i j) as [<-|N]; [exists w; auto|].
  rewrite copy_data_id by (destruct D as (-> & _); apply F). cbn [bind]. rewrite meta_assign_id. eexists. split; [reflexivity|]. split.
  - unfold seen. cbn [w_fields w_maps]. rewrite list_set_same by lia. rewrite Ef. reflexivity.
  - intros q Nq. unfold seen. cbn [w_fields w_maps]. rewrite list_set_other by auto. reflexivity.
Qed.
Print Assumptions C50_assign.

(** With assignments in the history everything but the mapping is still as if each field had
    its own. *)
Theorem C50_assigned_data {V} (dflt zero : V) k (os : list hop) : legal_ops (k := k) dflt zero [] os ->
  exists w l, h_run (k := k) dflt zero no_world os = Ok w /\ v_run dflt zero [] os = Ok l /\ length (w_fields w) = length l /\
    forall i, (i < length l)%nat -> exists a b, seen w i = Some a /\ nth_error l i = Some b /\
      c_fld (v_fld a) = c_fld (v_fld b) /\ v_name a = v_name b /\ v_attr a = v_attr b /\ v_meta a = v_meta b.
Proof.
  intros L. destruct (run_weak dflt zero os no_world [] (weak_empty k) L) as (w & l & E & E' & W & _). exists w, l. split; auto. split; auto. split; [apply W|].
  intros i I. destruct (weak_at w l i W I) as (f & v & Ef & Ev & (D1 & D2 & D3 & D4) & F & P). destruct (map_of_ok w f P) as (m & Em & En).
  eexists _, v. rewrite (seen_in w i f m Ef En). split; [reflexivity|]. cbn. auto.
Qed.
Print Assumptions C50_assigned_data.

(** The mapping is not: [a = b] makes the two fields share it, and when [a] is then resized,
    the mapping of [b] changes, and no longer is that of the extents of [b]. *)
Definition one : box := Box (V3 0 0 0) (V3 0 0 0).
Definition sharing : list (hop (V := Z)) := [HNew; HNew; HAssign 1 0; HSize 1 one one].
Lemma sharing_legal : legal_ops (k := KDense) 0 0 [] sharing.
Proof.
  unfold sharing. cbn [legal_ops legal_op]. split; auto. intros l1 E1. assert (L1 : length l1 = 1%nat).
  { cbn in E1. injection E1 as <-. reflexivity. }
  split; auto. intros l2 E2. assert (L2 : length l2 = 2%nat).
  { cbn in E2. injection E2 as <-. rewrite app_length, L1. reflexivity. }
  split; [lia|]. intros l3 E3. assert (L3 : length l3 = 2%nat).
  { cbn [v_step] in E3. destruct (nth_error l2 0) eqn:E; [|discriminate]. unfold v_update in E3. destruct (nth_error l2 1); [|discriminate]. cbn [bind] in E3. injection E3 as <-. rewrite list_set_length. auto. }
  split; auto. split; [|split; [unfold box_nonempty, one; cbn; lia|eexists; reflexivity]].
  destruct (nth_some l3 1) as (a & Ea); [lia|]. exists a. split; auto. cbn [fits]. split; [intros c H; cbn in H; intuition lia|]. split; cbn; lia.
Qed.
Theorem C50_assign_refuted :
  ~ (forall (os : list (hop (V := Z))) w l, legal_ops (k := KDense) 0 0 [] os ->
       h_run (k := KDense) 0 0 no_world os = Ok w -> v_run 0 0 [] os = Ok l -> forall i, seen w i = nth_error l i).
Proof.
  intros H. destruct (C50_assigned_data 0 0 KDense sharing sharing_legal) as (w & l & Ew & El & _).
  specialize (H sharing w l sharing_legal Ew El 0%nat). unfold sharing, no_world in Ew, El. cbn in Ew. cbn in El. injection Ew as <-. injection El as <-.
  cbn in H. injection H as H1. lra.
Qed.
Print Assumptions C50_assign_refuted.

Theorem C50_assign_extents_refuted :
  ~ (forall (os : list (hop (V := Z))) w i a, legal_ops (k := KDense) 0 0 [] os -> Forall (fun o => match o with HChange _ _ => False | _ => True end) os ->
       h_run (k := KDense) 0 0 no_world os = Ok w -> seen w i = Some a -> fitted (v_fld a)).
Proof.
  intros H. destruct (C50_assigned_data 0 0 KDense sharing sharing_legal) as (w & l & Ew & _ & _).
  specialize (H sharing w 0%nat). unfold sharing, no_world in Ew. cbn in Ew. injection Ew as <-. cbn in H. specialize (H _ sharing_legal ltac:(repeat constructor) eq_refl eq_refl).
  cbn in H. injection H as H1. lra.
Qed.
Print Assumptions C50_assign_extents_refuted.

(** A field is sized, written to, cloned, and the clone written to: the history is legal, and
    the fields hold 7 and 9. *)
Definition cloning : list (hop (V := Z)) := [HNew; HSize 0 one one; HWrite 0 (V3 0 0 0) 7; HClone 0; HWrite 1 (V3 0 0 0) 9].
Example C50_example : legal_ops (k := KDense) 0 0 [] cloning /\ forallb (fun o => negb (is_assign o)) cloning = true /\
  exists w a b, h_run (k := KDense) 0 0 no_world cloning = Ok w /\ seen w 0 = Some a /\ seen w 1 = Some b /\
    f_get (c_fld (v_fld a)) (V3 0 0 0) = Ok 7 /\ f_get (c_fld (v_fld b)) (V3 0 0 0) = Ok 9.
Proof.
  assert (L : legal_ops (k := KDense) 0 0 [] cloning).
  { unfold cloning. cbn [legal_ops legal_op]. split; auto. intros l1 E1. cbn in E1. injection E1 as <-. split.
    - split; [eexists; split; [reflexivity|]|split; [unfold box_nonempty, one; cbn; lia|eexists; reflexivity]]. cbn [fits]. split; [intros c H; cbn in H; intuition lia|]. split; cbn; lia.
    - intros l2 E2. cbn in E2. injection E2 as <-. split; [eexists; split; [reflexivity|cbn; unfold in_box; cbn; lia]|]. intros l3 E3. cbn in E3. injection E3 as <-.
      split; [cbn; lia|]. intros l4 E4. cbn in E4. injection E4 as <-. split; auto. eexists; split; [reflexivity|cbn; unfold in_box; cbn; lia]. }
  split; auto. split; [reflexivity|]. destruct (C50_values 0 0 KDense cloning L eq_refl) as (w & l & Ew & El & S). exists w. pose proof (S 0%nat) as S0. pose proof (S 1%nat) as S1.
  unfold cloning in El. cbn in El. injection El as <-. cbn in S0, S1. eexists _, _. split; [exact Ew|]. split; [exact S0|]. split; [exact S1|]. split; reflexivity.
Qed.
