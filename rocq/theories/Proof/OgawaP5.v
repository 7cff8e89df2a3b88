From Coq Require Import ZArith List Bool Lia Arith.
From Verif Require Import Model.Base Model.OgawaM Spec.OgawaSpec Proof.BaseP Proof.OgawaP Proof.OgawaP2 Proof.OgawaP3 Proof.OgawaP4.
Import ListNotations.
Open Scope Z_scope.

Lemma hdr_close a R : write_at (hdr 0 a ++ R) 5 [255] = hdr 255 a ++ R.
Proof. unfold hdr, write_at. rewrite <- !app_assoc. reflexivity. Qed.

Lemma roundtrip ops light : data_ok ops -> all_closed ops ->
  Z.of_nat (length (o_file (o_run ops o_open))) < 2 ^ 63 ->
  reads_as (o_file (o_run ops o_open)) false light (built ops) /\
  reads_as (o_file (o_close (o_run ops o_open))) true light (built ops).
Proof.
  intros D C L. destruct (run_inv ops o_open _ [] init_inv D) as (cs & I). fold (t_run ops) in I.
  set (s := o_run ops o_open) in *. rewrite (v_file _ _ _ I) in L |- *. split.
  - apply (read_root s (t_run ops) cs 0 (root_pos (o_groups s)) I C L light); auto.
  - unfold o_close, emit. cbn [o_file]. rewrite (v_file _ _ _ I), hdr_close.
    apply (read_root s (t_run ops) cs 255 (root_pos (o_groups s)) I C); auto.
Qed.

(** * Crashes *)
Definition body (lg : list (nat * list Z)) : Prop :=
  exists rest, lg = (0%nat, header) :: rest /\ Forall (fun e => (16 <= fst e)%nat) rest.

Lemma hdr_keep p bs R : (16 <= p)%nat -> exists R', write_at (hdr 0 0 ++ R) p bs = hdr 0 0 ++ R'.
Proof.
  intros H. unfold write_at. rewrite firstn_app, (firstn_all2 (n := p) (hdr 0 0)) by (rewrite hdr_length; auto).
  rewrite <- app_assoc. eauto.
Qed.
Lemma replay_app a b : replay (a ++ b) = fold_left (fun f e => write_at f (fst e) (snd e)) b (replay a).
Proof. unfold replay. apply fold_left_app. Qed.
Lemma keep_all es : Forall (fun e : nat * list Z => (16 <= fst e)%nat) es -> forall R,
  exists R', fold_left (fun f e => write_at f (fst e) (snd e)) es (hdr 0 0 ++ R) = hdr 0 0 ++ R'.
Proof.
  induction 1 as [|e es He H IH]; intros R; [exists R; auto|]. cbn [fold_left].
  destruct (hdr_keep (fst e) (snd e) R He) as (R' & ->). apply IH.
Qed.
Lemma body_replay lg : body lg -> exists R, replay lg = hdr 0 0 ++ R.
Proof.
  intros (rest & -> & H). change ((0%nat, header) :: rest) with ([(0%nat, header)] ++ rest). rewrite replay_app.
  change (replay [(0%nat, header)]) with (hdr 0 0 ++ []). apply keep_all. auto.
Qed.
Lemma body_firstn lg k : body lg -> (1 <= k)%nat -> body (firstn k lg).
Proof.
  intros (rest & -> & H) Hk. destruct k; [lia|]. simpl. eexists. split; eauto.
  rewrite <- (firstn_skipn k rest) in H. apply Forall_app in H. tauto.
Qed.
Lemma body_app lg es : body lg -> Forall (fun e => (16 <= fst e)%nat) es -> body (lg ++ es).
Proof. intros (rest & -> & H) He. exists (rest ++ es). split; auto. apply Forall_app; auto. Qed.

Lemma empty_reads R light : reads_as (hdr 0 0 ++ R) false light (Group []).
Proof.
  exists empty_igroup. split; [|exists 1%nat; reflexivity].
  assert (R8 : read64 (hdr 0 0 ++ R) 8 = Some 0).
  { unfold hdr. rewrite <- app_assoc. change 8 with (Z.of_nat (length [79; 103; 97; 119; 97; 0; 0; 1])).
    apply read64_mid. lia. }
  unfold i_open. assert (SI : stream_init (hdr 0 0 ++ R) = IStream true false 1) by reflexivity.
  rewrite SI. cbn [is_valid is_version is_frozen]. rewrite R8. reflexivity.
Qed.

(** What one call appends to the log. *)
Lemma write_buffers_log bufs : forall s, (16 <= length (o_file s))%nat ->
  exists es, o_log (write_buffers s bufs) = o_log s ++ es /\ Forall (fun e => (16 <= fst e)%nat) es.
Proof.
  induction bufs as [|b r IH]; intros s L; cbn [write_buffers]; [exists []; rewrite app_nil_r; auto|].
  destruct b as [|x b]; [apply IH; auto|].
  destruct (IH (append s (x :: b))) as (es & E & H).
  { destruct (append_facts s (x :: b)) as (-> & _). rewrite app_length. lia. }
  exists ((length (o_file s), x :: b) :: es). split; [|constructor; auto].
  rewrite E. unfold append, emit. cbn [o_log]. rewrite <- app_assoc. auto.
Qed.
Lemma file_len s l cs : Inv s l cs -> (16 <= length (o_file s))%nat.
Proof. intros I. rewrite (v_file _ _ _ I), app_length, hdr_length. lia. Qed.

Definition tail_ok (o : oop) (es : list (nat * list Z)) : Prop :=
  if match o with OFreeze O => true | _ => false end
  then exists e1 pos, es = e1 ++ [(8%nat, enc64 pos)] /\ Forall (fun e => (16 <= fst e)%nat) e1
  else Forall (fun e => (16 <= fst e)%nat) es.

Lemma step_log s l cs o : Inv s l cs -> can_add l 0 = true ->
  exists es, o_log (o_step s o) = o_log s ++ es /\ tail_ok o es.
Proof.
  intros I RO. pose proof (file_len _ _ _ I) as L.
  assert (NIL : exists es, o_log s = o_log s ++ es /\ Forall (fun e => (16 <= fst e)%nat) es)
    by (exists []; rewrite app_nil_r; auto).
  destruct o as [g|g bufs|g|g|g]; unfold tail_ok; cbn [o_step].
  - unfold o_add_group. destruct (open_group_of s g); auto.
  - unfold o_add_data. destruct (open_group_of s g) as [gr|]; auto.
    destruct (_ =? 0); auto. unfold push_child, set_group. cbn [o_log].
    set (s1 := append s _). assert (L1 : (16 <= length (o_file s1))%nat).
    { unfold s1. rewrite (proj1 (append_facts _ _)), app_length. lia. }
    destruct (write_buffers_log bufs s1 L1) as (es & -> & H).
    exists ((length (o_file s), enc64 (Z.of_nat (length (concat bufs)))) :: es). split; [|constructor; auto].
    unfold s1, append, emit. cbn [o_log]. rewrite <- app_assoc. auto.
  - unfold o_add_empty. destruct (open_group_of s g); auto.
  - unfold o_add_empty. destruct (open_group_of s g); auto.
  - unfold o_freeze. pose proof (open_group_iff s l cs g I) as O. destruct (open_group_of s g) as [gr|].
    2:{ destruct g; auto. congruence. }
    destruct O as (E & P & t & T & C & CA).
    set (pos := match og_children gr with [] => 0 | _ :: _ => Z.of_nat (length (o_file s)) end).
    match goal with |- context [set_group (match og_children gr with [] => s | c :: ch => _ end) g _] =>
      set (s1 := match og_children gr with [] => s | c :: ch => append (append s (enc64 (Z.of_nat (length (c :: ch))))) (flat_map enc64 (c :: ch)) end) end.
    assert (S1 : exists es, o_log s1 = o_log s ++ es /\ Forall (fun e => (16 <= fst e)%nat) es).
    { unfold s1. destruct (og_children gr) as [|c ch]; auto. eexists. split.
      - unfold append at 1, emit. cbn [o_log]. unfold append at 1, emit. cbn [o_log]. rewrite <- app_assoc. reflexivity.
      - constructor; auto. constructor; auto. cbn [fst]. rewrite (proj1 (append_facts _ _)), app_length. lia. }
    destruct S1 as (es & E1 & H1).
    destruct (og_parent gr) as [[p i]|] eqn:PP.
    + assert (g <> 0%nat). { intros ->. assert (None = Some (p, i)); [|congruence]. rewrite <- PP. symmetry. apply (v_root _ _ _ I 0%nat gr E). auto. }
      assert (X : exists es0, o_log (match nth_error (o_groups (set_group s1 g (OGroup (og_children gr) (Some pos) (Some (p, i))))) p with
        | Some pg => set_group match og_pos pg with
           | Some pp => emit (set_group s1 g (OGroup (og_children gr) (Some pos) (Some (p, i)))) (Z.to_nat pp + (i + 1) * 8) (enc64 pos)
           | None => set_group s1 g (OGroup (og_children gr) (Some pos) (Some (p, i))) end p
              (OGroup (list_set (og_children pg) i pos) (og_pos pg) (og_parent pg))
        | None => set_group s1 g (OGroup (og_children gr) (Some pos) (Some (p, i))) end) = o_log s ++ es0 /\ Forall (fun e => (16 <= fst e)%nat) es0).
      { unfold set_group at 1. cbn [o_groups].
        assert (G1 : o_groups s1 = o_groups s).
        { unfold s1. destruct (og_children gr); auto. }
        rewrite G1. destruct (v_parent _ _ _ I g gr p i E PP) as (tp & B1 & B2).
        destruct (v_sub _ _ _ I p tp i g B1 B2) as (Lpg & _).
        rewrite list_set_other by lia. destruct (nth_error (o_groups s) p) as [pg|] eqn:PG; [|exists es; auto].
        destruct (og_pos pg) as [pp|] eqn:PO; [|exists es; auto].
        unfold emit, set_group. cbn [o_log]. rewrite E1, <- app_assoc. eexists. split; [reflexivity|].
        apply Forall_app. split; auto. constructor; auto. cbn [fst].
        assert (i < length (og_children pg))%nat.
        { assert (length (og_children pg) = length (t_items tp)) as -> by (eapply Forall2_length'; apply (v_kids _ _ _ I p); auto).
          apply nth_error_Some. congruence. }
        destruct (v_frozen _ _ _ I p pg pp PG PO) as [(X & _)|(k & Hk & ->)]; [rewrite X in H0; simpl in H0; lia|].
        unfold off. lia. }
      destruct g; [lia|]. exact X.
    + assert (g = 0%nat) as -> by (apply (v_root _ _ _ I g gr E); auto).
      unfold emit, set_group. cbn [o_log]. rewrite E1, <- app_assoc. eexists. split; [reflexivity|]. eauto.
Qed.

(** Closed groups only hold closed groups. *)
Definition deep (l : list tgroup) : Prop :=
  forall p t h, nth_error l p = Some t -> t_closed t = true -> In (Sub h) (t_items t) ->
  exists th, nth_error l h = Some th /\ t_closed th = true.

Lemma add_item_nth l g it p t : nth_error (add_item l g it) p = Some t ->
  exists t0, nth_error l p = Some t0 /\ t_closed t = t_closed t0 /\ (t_closed t = true -> t = t0).
Proof.
  unfold add_item. destruct (nth_error l g) as [tg|] eqn:G; [|eauto]. destruct (t_closed tg) eqn:C; [eauto|].
  destruct (Nat.eq_dec g p) as [<-|N].
  - rewrite (list_set_same _ _ _ _ G). intros [= <-]. exists tg. cbn. split; auto. split; auto. congruence.
  - rewrite list_set_other by auto. eauto.
Qed.
Lemma add_item_nth' l g it p t : nth_error l p = Some t -> t_closed t = true -> nth_error (add_item l g it) p = Some t.
Proof.
  intros H C. unfold add_item. destruct (nth_error l g) as [tg|] eqn:G; auto. destruct (t_closed tg) eqn:CG; auto.
  rewrite list_set_other; auto. intros ->. congruence.
Qed.
Lemma deep_step l o : deep l -> ready l o -> deep (t_step l o).
Proof.
  intros D RD. assert (AI : forall g it, deep (add_item l g it)).
  { intros g it p t h H C IN. destruct (add_item_nth _ _ _ _ _ H) as (t0 & H0 & _ & E).
    assert (t = t0) as -> by auto. destruct (D p t0 h H0 C IN) as (th & A1 & A2). exists th. split; auto. apply add_item_nth'; auto. }
  destruct o as [g|g bufs|g|g|g]; cbn [t_step]; auto.
  - destruct (can_add l g); auto. intros p t h H C IN. apply nth_snoc in H as [H|[_ ->]]; [|discriminate].
    destruct (AI g _ p t h H C IN) as (th & A1 & A2). exists th. split; auto. apply nth_snoc_old; auto.
  - destruct (nth_error l g) as [tg|] eqn:G; auto. intros p t h H C IN.
    assert (X : exists th, nth_error l h = Some th /\ t_closed th = true).
    { destruct (Nat.eq_dec g p) as [<-|N].
      - rewrite (list_set_same _ _ _ _ G) in H. injection H as <-. apply (RD tg h G IN).
      - rewrite list_set_other in H by auto. eapply D; eauto. }
    destruct X as (th & A1 & A2). destruct (Nat.eq_dec g h) as [<-|N].
    + rewrite (list_set_same _ _ _ _ G). eauto.
    + rewrite list_set_other by auto. eauto.
Qed.
Lemma deep_all s l cs : Inv s l cs -> deep l -> can_add l 0 = false -> forall g t, nth_error l g = Some t -> t_closed t = true.
Proof.
  intros I D R g. induction g as [g IH] using lt_wf_ind. intros t T.
  destruct (nth_error (o_groups s) g) as [gr|] eqn:E.
  2:{ apply nth_error_None in E. rewrite (v_len _ _ _ I) in E. apply nth_error_None in E. congruence. }
  destruct (og_parent gr) as [[p i]|] eqn:PP.
  - destruct (v_parent _ _ _ I g gr p i E PP) as (tp & B1 & B2). destruct (v_sub _ _ _ I p tp i g B1 B2) as (L & _).
    destruct (D p tp g B1 (IH p L tp B1) (nth_error_In _ _ B2)) as (th & A1 & A2). congruence.
  - assert (g = 0%nat) as -> by (apply (v_root _ _ _ I g gr E); auto).
    unfold can_add in R. rewrite T in R. destruct (t_closed t); auto.
Qed.
Lemma closed_noop s l cs o : Inv s l cs -> (forall g t, nth_error l g = Some t -> t_closed t = true) -> o_step s o = s.
Proof.
  intros I A. assert (N : forall g, open_group_of s g = None).
  { intros g. pose proof (open_group_iff s l cs g I) as O. destruct (open_group_of s g); auto.
    destruct O as (_ & _ & t & T & C & _). rewrite (A g t T) in C. discriminate. }
  destruct o; cbn [o_step]; unfold o_add_group, o_add_data, o_add_empty, o_freeze; rewrite N; auto.
Qed.
Lemma closed_noop_t l o : (0 < length l)%nat -> (forall g t, nth_error l g = Some t -> t_closed t = true) -> can_add (t_step l o) 0 = false.
Proof.
  intros L A. assert (N : forall g, can_add l g = false).
  { intros g. unfold can_add. destruct (nth_error l g) eqn:E; auto. rewrite (A _ _ E). auto. }
  destruct o as [g|g bufs|g|g|g]; cbn [t_step]; rewrite ?N, ?add_item_no; auto.
  destruct (nth_error l g) as [tg|] eqn:G; auto. unfold can_add. destruct (Nat.eq_dec g 0) as [->|NE].
  - rewrite (list_set_same _ _ _ _ G). auto.
  - rewrite list_set_other by auto. apply N.
Qed.
Lemma root_step l o : can_add l 0 = true -> (match o with OFreeze O => true | _ => false end) = negb (can_add (t_step l o) 0).
Proof.
  intros C. unfold can_add in C. destruct (nth_error l 0) as [t|] eqn:T; [|discriminate].
  assert (AI : forall g it, can_add (add_item l g it) 0 = true).
  { intros g it. unfold can_add, add_item. destruct (nth_error l g) as [tg|] eqn:G; [|rewrite T; auto].
    destruct (t_closed tg) eqn:CG; [rewrite T; auto|]. destruct (Nat.eq_dec g 0) as [->|N].
    - rewrite (list_set_same _ _ _ _ G). auto.
    - rewrite list_set_other, T; auto. }
  destruct o as [g|g bufs|g|g|g]; cbn [t_step].
  - destruct (can_add l g) eqn:CA; [|unfold can_add; rewrite T, C; auto].
    specialize (AI g (Sub (length l))). unfold can_add in *. destruct (nth_error (add_item _ _ _) 0) eqn:X; [|discriminate].
    rewrite (nth_snoc_old _ _ _ _ X), AI. auto.
  - rewrite AI. auto.
  - rewrite AI. auto.
  - rewrite AI. auto.
  - destruct g as [|g].
    + rewrite T. unfold can_add. rewrite (list_set_same _ _ _ _ T). auto.
    + unfold can_add. destruct (nth_error l (S g)); [rewrite list_set_other by auto|]; rewrite T, C; auto.
Qed.

Definition log_ok (s : ostate) (l : list tgroup) : Prop :=
  if can_add l 0 then body (o_log s)
  else exists lg pos, o_log s = lg ++ [(8%nat, enc64 pos)] /\ body lg.

Lemma run_log ops : forall s l cs, Inv s l cs -> data_ok ops -> deep l -> raii_from l ops -> log_ok s l ->
  log_ok (o_run ops s) (fold_left t_step ops l).
Proof.
  induction ops as [|o ops IH]; intros s l cs I DO D R LO; auto. destruct R as (RD & R).
  destruct (step_inv s l cs o I) as (cs1 & I1); [intros g bufs ->; eapply DO; left; eauto|].
  cbn [o_run fold_left]. apply (IH _ _ cs1 I1); auto.
  - intros g bufs H. eapply DO. right. eauto.
  - apply deep_step; auto.
  - unfold log_ok in *. destruct (can_add l 0) eqn:CA.
    + destruct (step_log s l cs o I CA) as (es & -> & TO). unfold tail_ok in TO. rewrite (root_step l o CA) in TO.
      destruct (can_add (t_step l o) 0); cbn [negb] in TO.
      * apply body_app; auto.
      * destruct TO as (e1 & pos & -> & H). exists (o_log s ++ e1), pos. rewrite app_assoc. split; auto. apply body_app; auto.
    + pose proof (deep_all s l cs I D CA) as A. rewrite (closed_noop s l cs o I A), closed_noop_t; auto. apply (v_pos _ _ _ I).
Qed.
Lemma init_log : log_ok o_open [TGroup [] false].
Proof. exists []. auto. Qed.
Lemma init_deep : deep [TGroup [] false].
Proof. intros [|p] t h H; [|destruct p; discriminate]. injection H as <-. discriminate. Qed.

Lemma closed_log ops : raii ops -> data_ok ops -> all_closed ops ->
  exists lg pos, o_log (o_close (o_run ops o_open)) = lg ++ [(8%nat, enc64 pos); (5%nat, [255])] /\ body lg /\
    replay (lg ++ [(8%nat, enc64 pos)]) = o_file (o_run ops o_open).
Proof.
  intros R D C. pose proof (run_log ops _ _ _ init_inv D init_deep R init_log) as LO.
  destruct (run_inv ops o_open _ [] init_inv D) as (cs & I). fold (t_run ops) in *. unfold log_ok in LO.
  destruct (can_add (t_run ops) 0) eqn:CA.
  - unfold can_add in CA. destruct (nth_error (t_run ops) 0) eqn:T; [|discriminate]. rewrite (C _ (nth_error_In _ _ T)) in CA. discriminate.
  - destruct LO as (lg & pos & E & B). exists lg, pos. unfold o_close, emit. cbn [o_log]. rewrite E, <- app_assoc. split; auto. split; auto.
    rewrite <- E. apply (v_log _ _ _ I).
Qed.

Lemma crash_ok ops light k : raii ops -> data_ok ops -> all_closed ops ->
  Z.of_nat (length (o_file (o_run ops o_open))) < 2 ^ 63 -> (1 <= k)%nat ->
  let log := o_log (o_close (o_run ops o_open)) in
  let f := replay (firstn k log) in
  reads_as f false light (Group []) \/ reads_as f (Nat.leb (length log) k) light (built ops).
Proof.
  intros R D C L Hk log f. destruct (closed_log ops R D C) as (lg & pos & E & B & RP). fold log in E.
  destruct (roundtrip ops light D C L) as (R1 & R2).
  destruct (le_lt_dec k (length lg)) as [K|K].
  - left. unfold f. rewrite E, firstn_app. replace (k - length lg)%nat with O by lia. rewrite firstn_O, app_nil_r.
    destruct (body_replay _ (body_firstn lg k B Hk)) as (X & ->). apply empty_reads.
  - right. assert (LL : length log = S (S (length lg))) by (rewrite E, app_length; simpl; lia). rewrite LL.
    unfold f. rewrite E, firstn_app, firstn_all2 by lia.
    destruct (k - length lg)%nat as [|[|m]] eqn:KK; [lia| |].
    + cbn [firstn]. rewrite RP. replace (Nat.leb (S (S (length lg))) k) with false; auto. symmetry. apply Nat.leb_gt. lia.
    + replace (Nat.leb (S (S (length lg))) k) with true by (symmetry; apply Nat.leb_le; lia).
      cbn [firstn]. rewrite firstn_nil.
      replace (lg ++ [(8%nat, enc64 pos); (5%nat, [255])]) with ((lg ++ [(8%nat, enc64 pos)]) ++ [(5%nat, [255])]) by (rewrite <- app_assoc; auto).
      rewrite replay_snoc, RP. apply R2.
Qed.
Lemma torn_ok ops light k p bs j : raii ops -> data_ok ops -> all_closed ops ->
  let log := o_log (o_close (o_run ops o_open)) in
  nth_error log k = Some (p, bs) -> (16 <= p)%nat ->
  reads_as (write_at (replay (firstn k log)) p (firstn j bs)) false light (Group []).
Proof.
  intros R D C log H Hp. destruct (closed_log ops R D C) as (lg & pos & E & B & _). fold log in E. rewrite E in *.
  assert (K : (k < length lg)%nat).
  { destruct (le_lt_dec (length lg) k) as [K|K]; auto. exfalso. rewrite nth_error_app2 in H by auto.
    destruct (k - length lg)%nat as [|[|[|m]]]; cbn in H; injection H || discriminate; intros; subst; lia. }
  rewrite firstn_app. replace (k - length lg)%nat with O by lia. rewrite firstn_O, app_nil_r.
  assert (K1 : (1 <= k)%nat).
  { destruct k; [|lia]. destruct B as (rest & -> & _). cbn in H. injection H as <- <-. lia. }
  destruct (body_replay _ (body_firstn lg k B K1)) as (X & ->). destruct (hdr_keep p (firstn j bs) X Hp) as (R' & ->).
  apply empty_reads.
Qed.
Lemma open_ok ops light k : raii ops -> data_ok ops -> can_add (t_run ops) 0 = true -> (1 <= k)%nat ->
  reads_as (replay (firstn k (o_log (o_run ops o_open)))) false light (Group []).
Proof.
  intros R D CA Hk. pose proof (run_log ops _ _ _ init_inv D init_deep R init_log) as LO. fold (t_run ops) in LO.
  unfold log_ok in LO. rewrite CA in LO. destruct (body_replay _ (body_firstn _ k LO Hk)) as (X & ->). apply empty_reads.
Qed.
