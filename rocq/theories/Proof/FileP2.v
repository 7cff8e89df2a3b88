From Coq Require Import ZArith List Bool String Lia Arith Permutation Sorted.
From Verif Require Import Model.Base Model.OgawaM Spec.OgawaSpec Model.OgM Spec.OgSpec Proof.OgP Model.FieldIOM Model.FileM Spec.FileSpec Proof.FileP.
Import ListNotations.
Open Scope Z_scope.

Lemma ltb_irrefl a : bytes_ltb a a = false.
Proof. induction a; cbn; auto. rewrite Z.ltb_irrefl. auto. Qed.
Lemma ltb_trans a : forall b c, bytes_ltb a b = true -> bytes_ltb b c = true -> bytes_ltb a c = true.
Proof.
  induction a as [|x a IH]; intros [|y b] [|z c]; cbn; auto; try discriminate.
  destruct (Z.ltb_spec x y), (Z.ltb_spec y x), (Z.ltb_spec y z), (Z.ltb_spec z y), (Z.ltb_spec x z), (Z.ltb_spec z x);
    try lia; try discriminate; auto. apply IH.
Qed.
Lemma ltb_total a : forall b, bytes_ltb a b = false -> bytes_ltb b a = false -> a = b.
Proof.
  induction a as [|x a IH]; intros [|y b]; cbn; auto; try discriminate.
  destruct (Z.ltb_spec x y), (Z.ltb_spec y x); try lia; try discriminate. intros. f_equal; auto. lia.
Qed.
Definition lef (a b : bytes) : Prop := bytes_ltb b a = false.
Lemma lef_trans a b c : lef a b -> lef b c -> lef a c.
Proof.
  unfold lef. intros H K. destruct (bytes_ltb c a) eqn:E; auto.
  destruct (bytes_ltb a b) eqn:F; [rewrite (ltb_trans _ _ _ E F) in K; discriminate|].
  rewrite (ltb_total _ _ F H) in E. congruence.
Qed.
Lemma insert_in x l y : In y (insert_name x l) <-> y = x \/ In y l.
Proof. induction l as [|z l IH]; cbn; [intuition|]. destruct (bytes_ltb z x); cbn; rewrite ?IH; intuition. Qed.
Lemma sort_in l y : In y (sort_names l) <-> In y l.
Proof. induction l; cbn; [tauto|]. rewrite insert_in. unfold sort_names in IHl. rewrite IHl. intuition. Qed.
Lemma insert_sorted x l : StronglySorted lef l -> StronglySorted lef (insert_name x l).
Proof.
  induction 1 as [|y l S IH F]; cbn; [repeat constructor|]. destruct (bytes_ltb y x) eqn:E.
  - constructor; auto. apply Forall_forall. intros z I. apply insert_in in I as [->|I].
    + unfold lef. destruct (bytes_ltb x y) eqn:K; auto. pose proof (ltb_trans _ _ _ E K) as T. rewrite ltb_irrefl in T. discriminate.
    + apply (proj1 (Forall_forall _ _) F); auto.
  - constructor; [constructor; auto|]. constructor; auto. apply Forall_forall. intros z I.
    apply lef_trans with y; auto. apply (proj1 (Forall_forall _ _) F); auto.
Qed.
Lemma sort_sorted l : StronglySorted lef (sort_names l).
Proof. induction l; cbn; [constructor|]. apply insert_sorted; auto. Qed.
Lemma drop_in l y : In y (drop_repeats l) <-> In y l.
Proof.
  induction l as [|x l IH]; [tauto|]. destruct l as [|z l]; [cbn; tauto|].
  change (drop_repeats (x :: z :: l)) with (if bytes_eqb x z then drop_repeats (z :: l) else x :: drop_repeats (z :: l)).
  destruct (bytes_eqb_spec x z) as [->|N].
  - rewrite IH. cbn. intuition.
  - cbn [In]. rewrite IH. cbn. tauto.
Qed.
Lemma drop_increasing l : StronglySorted lef l -> increasing (drop_repeats l).
Proof.
  unfold increasing. induction 1 as [|x l S IH F]; [constructor|]. destruct l as [|z l]; [repeat constructor|].
  change (drop_repeats (x :: z :: l)) with (if bytes_eqb x z then drop_repeats (z :: l) else x :: drop_repeats (z :: l)).
  destruct (bytes_eqb_spec x z) as [->|N]; auto. constructor; auto.
  apply Forall_forall. intros y I. apply (proj1 (drop_in (z :: l) y)) in I.
  destruct (bytes_ltb x y) eqn:E; auto.
  pose proof (proj1 (Forall_forall _ _) F y I) as L. exfalso.
  assert (x = y) by (apply ltb_total; auto). subst y. destruct I as [->|I]; [congruence|].
  inversion S; subst. pose proof (proj1 (Forall_forall _ _) H2 x I) as L2. inversion F; subst.
  apply N. apply ltb_total; auto.
Qed.
Lemma unique_ok l : increasing (make_unique l) /\ forall y, In y (make_unique l) <-> In y l.
Proof. split; [apply drop_increasing, sort_sorted|]. intros y. unfold make_unique. rewrite drop_in. apply sort_in. Qed.

Section W.
Context {M : Type}.
Variable ident : M -> M -> bool.
Variable map_kids : M -> list tree.
Variable hp : nat -> M.
Variables (f : ofile) (G : list gpart) (acc : list wr) (version : bytes) (globals : option (list tree)).

Lemma num_eq (l : list gpart) u : num_int_partitions (map (full map_kids hp) l) u = List.length (of_user u l).
Proof.
  unfold num_int_partitions, of_user. induction l as [|g l IH]; cbn [map filter]; auto.
  cbn [full ip_name]. unfold g_name at 1. rewrite before_int. destruct (bytes_eqb (g_user g) u); cbn [List.length]; congruence.
Qed.

Lemma in_acc u la fresh : inv ident map_kids hp fresh f G acc ->
  (exists w, In w acc /\ w_user w = u /\ w_layer w = la) <->
  exists g, In g G /\ g_user g = u /\ In la (map w_layer (g_ws g)).
Proof.
  intros V. pose proof (proj1 (Forall_forall _ _) (i_ok _ _ _ _ _ _ _ V)) as OK. split.
  - intros (w & I & U & L). apply (Permutation_in _ (Permutation_sym (i_perm _ _ _ _ _ _ _ V))) in I.
    apply in_flat_map in I as (g & Ig & Iw). exists g. destruct (OK g Ig) as (_ & _ & _ & D).
    pose proof (proj1 (Forall_forall _ _) D w Iw) as (E & _). split; auto. split; [congruence|]. rewrite <- L. apply in_map; auto.
  - intros (g & Ig & U & L). apply in_map_iff in L as (w & L & Iw). destruct (OK g Ig) as (_ & _ & _ & D).
    pose proof (proj1 (Forall_forall _ _) D w Iw) as (E & _). exists w. split; [|split; congruence].
    apply (Permutation_in _ (i_perm _ _ _ _ _ _ _ V)). apply in_flat_map. eauto.
Qed.

Lemma layer_names_eq u : inv ident map_kids hp True f G acc ->
  exists l, layer_names_in (file_tree version f globals) u = Ok l /\ increasing l /\
    forall la, In la l <-> exists w, In w acc /\ w_user w = u /\ w_layer w = la.
Proof.
  intros V. unfold layer_names_in. rewrite (read_info_eq _ _ _ _ _ _ _ version globals V). cbn [bind].
  eexists. split; [reflexivity|]. unfold layer_names_of. split; [apply unique_ok|]. intros la.
  rewrite (proj2 (unique_ok _)). rewrite in_flat_map. rewrite (in_acc u la True V). rewrite num_eq. split.
  - intros (i & Ii & I). destruct (find_ipart (int_partition u i) (map (full map_kids hp) G)) as [p|] eqn:E; [|destruct I].
    unfold find_ipart in E. apply find_some in E as (Ip & E). apply in_map_iff in Ip as (g & <- & Ig).
    cbn [full ip_name ip_layers] in *. exists g. split; auto. split; auto.
    destruct (bytes_eqb_spec (g_name g) (int_partition u i)) as [E'|]; try discriminate. apply int_partition_inj in E'. tauto.
  - intros (g & Ig & U & I). exists (g_idx g).
    assert (NU : ~ In 47 u) by (pose proof (proj1 (Forall_forall _ _) (i_ok _ _ _ _ _ _ _ V) g Ig) as (_ & H & _); congruence).
    destruct (i_contig _ _ _ _ _ _ _ V Logic.I u NU) as (C & _). split.
    + rewrite <- C. apply in_map. unfold of_user. apply filter_In. split; auto. rewrite U. apply beq_refl.
    + replace (int_partition u (g_idx g)) with (g_name g) by (unfold g_name; congruence).
      rewrite (find_full _ _ _ _ _ _ _ V g Ig). auto.
Qed.
Lemma partition_names_eq fresh : inv ident map_kids hp fresh f G acc ->
  exists l, partition_names (file_tree version f globals) = Ok l /\ increasing l /\
    (forall w, In w acc -> In (w_user w) l) /\ (forall u, In u l -> exists g, In g G /\ g_user g = u).
Proof.
  intros V. unfold partition_names. rewrite (read_info_eq _ _ _ _ _ _ _ version globals V). cbn [bind].
  eexists. split; [reflexivity|]. split; [apply unique_ok|].
  assert (E : forall u, In u (make_unique (map (fun p => remove_id (ip_name p)) (map (full map_kids hp) G))) <-> exists g, In g G /\ g_user g = u).
  { intros u. rewrite (proj2 (unique_ok _)). rewrite map_map. cbn [full ip_name]. rewrite in_map_iff. unfold g_name.
    split; intros (g & A & B); exists g; rewrite ?remove_int in *; auto. }
  split; [|intros u; apply E]. intros w I. apply E.
  destruct (proj1 (in_acc (w_user w) (w_layer w) fresh V)) as (g & Ig & U & _); eauto.
Qed.
End W.

Section Src.
Context {M : Type}.
Variable ident : M -> M -> bool.
Variable map_kids : M -> list tree.
Variable map_ok : M -> bool.
Variable hp : nat -> M.
Lemma upd_names n h l : (forall p, p_name (h p) = p_name p) -> map p_name (upd_part n h l) = map p_name l.
Proof. intros H. induction l as [|p l IH]; cbn; auto. destruct (bytes_eqb (p_name p) n); cbn; rewrite ?H; congruence. Qed.
Lemma create_names f n r f2 oc : create_partition map_kids map_ok hp f n r = (f2, oc) ->
  incl (map p_name (o_parts f2)) (n :: map p_name (o_parts f)).
Proof.
  unfold create_partition. destruct (has_slash n); [injection 1 as <- <-; intros x I; right; auto|].
  destruct (map_ok (hp r)); cbn [negb]; injection 1 as <- <-; cbn [o_parts]; rewrite ?upd_names by reflexivity;
    rewrite map_app; cbn; intros x I; apply in_app_iff in I as [I|[<-|[]]]; [right|left|right|left]; auto.
Qed.
Lemma add_names f n la r b f2 oc : add_layer ident hp f n la r b = Ok (f2, oc) -> map p_name (o_parts f2) = map p_name (o_parts f).
Proof.
  unfold add_layer. destruct (find_part _ _) as [p|]; [|discriminate]. destruct (p_map p); [|injection 1 as <- <-; auto].
  destruct (ident _ _); cbn [negb]; [|injection 1 as <- <-; auto]. destruct (has_slash la); injection 1 as <- <-; auto.
  cbn [o_parts]. apply upd_names. reflexivity.
Qed.
Lemma create_add_names f n la r b f2 oc :
  (let (f2, oc) := create_partition map_kids map_ok hp f n r in
   match oc with Accepted => add_layer ident hp f2 n la r b | _ => Ok (f2, oc) end) = Ok (f2, oc) ->
  incl (map p_name (o_parts f2)) (n :: map p_name (o_parts f)).
Proof.
  destruct (create_partition map_kids map_ok hp f n r) as (f1, o1) eqn:E. pose proof (create_names _ _ _ _ _ E) as N.
  destruct o1; intros H; [|injection H as <- <-; auto|injection H as <- <-; auto]. apply add_names in H. rewrite H. auto.
Qed.
Lemma write_src f u la r b f2 oc : write_layer ident map_kids map_ok hp f u la r b = Ok (f2, oc) ->
  forall n, In n (map p_name (o_parts f2)) -> In n (map p_name (o_parts f)) \/ remove_id n = u.
Proof.
  unfold write_layer, int_partition_name. destruct (matching ident hp r u (o_parts f)) as [[m|]| |] eqn:E; cbn [bind]; try discriminate.
  - destruct (find_part m (o_parts f)) as [p|].
    + assert (RM : remove_id m = u).
      { clear -E. induction (o_parts f) as [|p l IH]; cbn in E; [discriminate|].
        destruct (bytes_eqb_spec (remove_id (p_name p)) u) as [Eq|]; auto. destruct (p_map p); [|discriminate].
        destruct (ident _ _); auto. injection E as <-; auto. }
      destruct (existsb _ _).
      * unfold next_name. rewrite RM. intros H n I. apply create_add_names in H. apply H in I as [<-|I]; auto. right. apply remove_int.
      * intros H n I. apply add_names in H. rewrite H in I. auto.
    + intros H n I. apply create_add_names in H. apply H in I as [<-|I]; auto. right.
      clear -E. induction (o_parts f) as [|p l IH]; cbn in E; [discriminate|].
        destruct (bytes_eqb_spec (remove_id (p_name p)) u) as [Eq|]; auto. destruct (p_map p); [|discriminate].
        destruct (ident _ _); auto. injection E as <-; auto.
  - unfold next_name. cbn [o_parts]. destruct (find_part _ (o_parts f)) as [p|].
    + destruct (existsb _ _).
      * rewrite remove_int. intros H n I. apply create_add_names in H. apply H in I as [<-|I]; auto. right. apply remove_int.
      * intros H n I. apply add_names in H. rewrite H in I. auto.
    + intros H n I. apply create_add_names in H. apply H in I as [<-|I]; auto. right. apply remove_int.
Qed.
Lemma write_all_src ws : forall f f2 ocs, write_all ident map_kids map_ok hp f ws = Ok (f2, ocs) ->
  forall n, In n (map p_name (o_parts f2)) -> In n (map p_name (o_parts f)) \/ exists w, In w ws /\ remove_id n = w_user w.
Proof.
  induction ws as [|w ws IH]; cbn; intros f f2 ocs H n I; [injection H as <- <-; auto|].
  destruct (write_layer _ _ _ _ _ _ _ _ _) as [[f1 oc]| |] eqn:E; try discriminate. cbn [bind] in H.
  destruct (write_all _ _ _ _ f1 ws) as [[f3 o3]| |] eqn:E2; try discriminate. injection H as <- <-.
  destruct (IH _ _ _ E2 n I) as [H|(w' & H & K)]; [|right; exists w'; auto].
  destruct (write_src _ _ _ _ _ _ _ E n H) as [K|K]; auto. right. exists w; auto.
Qed.
End Src.
