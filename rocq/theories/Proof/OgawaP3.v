From Coq Require Import ZArith List Bool Lia Arith.
From Verif Require Import Model.Base Model.OgawaM Spec.OgawaSpec Proof.BaseP Proof.OgawaP Proof.OgawaP2.
Import ListNotations.
Open Scope Z_scope.

Lemma Forall2_intro {A B} (P : A -> B -> Prop) l : forall l', length l = length l' ->
  (forall i a b, nth_error l i = Some a -> nth_error l' i = Some b -> P a b) -> Forall2 P l l'.
Proof.
  induction l as [|a l IH]; intros [|b l'] L H; try discriminate; constructor.
  - apply (H 0%nat); auto.
  - apply IH; [simpl in L; lia|]. intros i x y H1 H2. apply (H (S i)); auto.
Qed.
Lemma hdr_patch fz a b R : write_at (hdr fz a ++ R) 8 (enc64 b) = hdr fz b ++ R.
Proof.
  unfold hdr. rewrite <- !app_assoc.
  change 8%nat with (length [79; 103; 97; 119; 97; fz; 0; 1]). apply write_at_mid. rewrite !enc64_length. auto.
Qed.

(** The final groups after freezing [g] at [pos], and its parent's slot. *)
Definition frozen_groups (gs : list ogroup) (g : nat) (gr : ogroup) (pos : Z) : list ogroup :=
  let gs2 := list_set gs g (OGroup (og_children gr) (Some pos) (og_parent gr)) in
  match og_parent gr with
  | None => gs2
  | Some (p, i) =>
      match nth_error gs2 p with
      | None => gs2
      | Some pg => list_set gs2 p (OGroup (list_set (og_children pg) i pos) (og_pos pg) (og_parent pg))
      end
  end.

Lemma freeze_inv_core s l cs g gr t pos new file' log' :
  Inv s l cs -> nth_error (o_groups s) g = Some gr -> og_pos gr = None -> nth_error l g = Some t ->
  (og_children gr = [] /\ pos = 0 /\ new = [] \/
   og_children gr <> [] /\ pos = Z.of_nat (length (o_file s)) /\ new = [KGroup g]) ->
  let gs' := frozen_groups (o_groups s) g gr pos in
  file' = hdr 0 (root_pos gs') ++ render gs' (cs ++ new) -> replay log' = file' ->
  Inv (OState file' log' gs') (list_set l g (TGroup (t_items t) true)) (cs ++ new).
Proof.
  intros I E P T NEW gs' FILE LOG. set (gs := o_groups s) in *.
  set (gs2 := list_set gs g (OGroup (og_children gr) (Some pos) (og_parent gr))) in *.
  assert (NC : ~ In (KGroup g) cs) by (eapply unfrozen_not_chunk; eauto).
  (* the parent *)
  assert (PAR : (g = 0%nat /\ gs' = gs2 /\ og_parent gr = None) \/
    exists p i pg tp, og_parent gr = Some (p, i) /\ (p < g)%nat /\ nth_error gs p = Some pg /\ nth_error l p = Some tp /\
      nth_error (t_items tp) i = Some (Sub g) /\ (i < length (og_children pg))%nat /\
      gs' = list_set gs2 p (OGroup (list_set (og_children pg) i pos) (og_pos pg) (og_parent pg))).
  { unfold gs', frozen_groups. fold gs2. destruct (og_parent gr) as [[p i]|] eqn:PP.
    - right. destruct (v_parent _ _ _ I g gr p i E PP) as (tp & B1 & B2).
      destruct (v_sub _ _ _ I p tp i g B1 B2) as (L & _).
      destruct (nth_error gs p) as [pg|] eqn:PG.
      2:{ apply nth_error_None in PG. unfold gs in PG. rewrite (v_len _ _ _ I) in PG. apply nth_error_None in PG. congruence. }
      exists p, i, pg, tp. assert (G2 : nth_error gs2 p = Some pg) by (unfold gs2; rewrite list_set_other; auto; lia).
      rewrite G2. repeat split; auto.
      assert (length (og_children pg) = length (t_items tp)) as -> by (eapply Forall2_length'; apply (v_kids _ _ _ I p); auto).
      apply nth_error_Some. congruence.
    - left. split; auto. apply (v_root _ _ _ I g gr E). auto. }
  (* groups before and after *)
  assert (PE : forall h gh, nth_error gs' h = Some gh -> exists gh0, nth_error gs h = Some gh0 /\ og_parent gh = og_parent gh0 /\
     og_pos gh = (if Nat.eqb h g then Some pos else og_pos gh0) /\ length (og_children gh) = length (og_children gh0) /\
     (forall j, nth_error (og_children gh) j =
        if (match og_parent gr with Some (p, i) => Nat.eqb p h && Nat.eqb i j | None => false end)
        then Some pos else nth_error (og_children gh0) j)).
  { intros h gh H. destruct PAR as [(-> & -> & PN)|(p & i & pg & tp & PP & Lp & PG & TP & IT & Li & ->)].
    - rewrite PN. unfold gs2 in H. destruct (Nat.eq_dec h 0) as [->|N].
      + rewrite (list_set_same _ _ _ _ E) in H. injection H as <-. exists gr. cbn. auto.
      + rewrite list_set_other in H by auto. exists gh. apply Nat.eqb_neq in N. rewrite N. auto.
    - rewrite PP. assert (G2 : nth_error gs2 p = Some pg) by (unfold gs2; rewrite list_set_other; auto; lia).
      destruct (Nat.eqb_spec p h) as [<-|Np].
      + rewrite (list_set_same _ _ _ _ G2) in H. injection H as <-. exists pg. cbn [og_parent og_pos og_children andb].
        rewrite list_set_len. destruct (Nat.eqb_spec p g); [lia|]. repeat split; auto.
        intros j. destruct (Nat.eqb_spec i j) as [<-|Nj]; [|apply list_set_other; auto].
        destruct (nth_error (og_children pg) i) eqn:X; [eapply list_set_same; eauto|apply nth_error_None in X; lia].
      + rewrite list_set_other in H by auto. cbn [andb]. unfold gs2 in H. destruct (Nat.eqb_spec h g) as [->|N].
        * rewrite (list_set_same _ _ _ _ E) in H. injection H as <-. exists gr. auto.
        * rewrite list_set_other in H by auto. exists gh. auto. }
  assert (LE : length gs' = length gs).
  { destruct PAR as [(-> & -> & _)|(p & i & pg & tp & PP & Lp & PG & TP & IT & Li & ->)]; unfold gs2; rewrite ?list_set_len; auto. }
  assert (PE' : forall h gh, nth_error gs h = Some gh -> exists gh1, nth_error gs' h = Some gh1).
  { intros h gh H. destruct (nth_error gs' h) eqn:X; eauto. apply nth_error_None in X.
    assert (h < length gs)%nat by (apply nth_error_Some; congruence). lia. }
  assert (KL : forall h, length (kids gs' h) = length (kids gs h)).
  { intros h. unfold kids. destruct (nth_error gs' h) as [gh|] eqn:X.
    - destruct (PE h gh X) as (gh0 & -> & _ & _ & -> & _). auto.
    - apply nth_error_None in X. rewrite LE in X. apply nth_error_None in X. rewrite X. auto. }
  assert (OE : forall k, (k <= length cs)%nat -> off gs' (cs ++ new) k = off gs cs k).
  { intros k Hk. rewrite (off_ext gs' gs) by auto.
    unfold off. rewrite firstn_app. replace (k - length cs)%nat with O by lia. rewrite firstn_O, app_nil_r. auto. }
  assert (SUBG : forall h th j, nth_error l h = Some th -> nth_error (t_items th) j = Some (Sub g) -> og_parent gr = Some (h, j)).
  { intros h th j H1 H2. destruct (v_sub _ _ _ I h th j g H1 H2) as (_ & gh & A2 & A3). fold gs in A2. congruence. }
  assert (TE : forall h th, nth_error (list_set l g (TGroup (t_items t) true)) h = Some th ->
     exists th0, nth_error l h = Some th0 /\ t_items th = t_items th0 /\ t_closed th = (Nat.eqb h g || t_closed th0)).
  { intros h th. destruct (Nat.eqb_spec h g) as [->|N].
    - rewrite (list_set_same _ _ _ _ T). intros [= <-]. exists t. auto.
    - rewrite list_set_other by auto. intros H. exists th. auto. }
  assert (TE' : forall h th, nth_error l h = Some th -> exists th1, nth_error (list_set l g (TGroup (t_items t) true)) h = Some th1 /\ t_items th1 = t_items th).
  { intros h th H. destruct (Nat.eq_dec g h) as [<-|N].
    - rewrite (list_set_same _ _ _ _ T). eexists; split; eauto. cbn. congruence.
    - rewrite list_set_other by auto. eauto. }
  constructor; cbn [o_file o_log o_groups].
  - rewrite LE, list_set_len. apply (v_len _ _ _ I).
  - rewrite list_set_len. apply (v_pos _ _ _ I).
  - auto.
  - auto.
  - intros h gh th H1 H2. destruct (PE h gh H1) as (gh0 & A1 & _ & -> & _). destruct (TE h th H2) as (th0 & B1 & _ & ->).
    destruct (Nat.eqb h g); cbn; [split; congruence|]. apply (v_closed _ _ _ I h); auto.
  - intros h gh th H1 H2. destruct (PE h gh H1) as (gh0 & A1 & _ & _ & AL & AN). destruct (TE h th H2) as (th0 & B1 & -> & _).
    pose proof (v_kids _ _ _ I h gh0 th0 A1 B1) as F.
    apply Forall2_intro; [rewrite AL; eapply Forall2_length'; eauto|].
    intros j v it Hv Hi. rewrite AN in Hv.
    destruct (match og_parent gr with Some (p, i) => Nat.eqb p h && Nat.eqb i j | None => false end) eqn:C.
    + injection Hv as <-. destruct (og_parent gr) as [[p i]|] eqn:PP; [|discriminate].
      apply andb_true_iff in C as [C1 C2]. apply Nat.eqb_eq in C1, C2. subst p i.
      destruct (v_parent _ _ _ I g gr h j E PP) as (tp & B2 & B3). assert (tp = th0) as -> by congruence.
      rewrite B3 in Hi. injection Hi as <-. cbn [child_ok].
      destruct (PE' g gr E) as (g1 & G1). exists g1. split; auto.
      destruct (PE g g1 G1) as (gx & _ & _ & -> & _). rewrite Nat.eqb_refl. auto.
    + pose proof (Forall2_nth _ _ _ _ _ _ F Hv Hi) as OK. destruct it as [h'|b|]; cbn [child_ok] in *; auto.
      * destruct OK as (gh' & A2 & ->). fold gs in A2. destruct (PE' h' gh' A2) as (g1 & G1). exists g1. split; auto.
        destruct (PE h' g1 G1) as (gh0' & A3 & _ & -> & _). assert (gh0' = gh') as -> by congruence.
        destruct (Nat.eqb_spec h' g) as [->|N]; auto. exfalso.
        rewrite (SUBG h th0 j B1 Hi) in C. rewrite !Nat.eqb_refl in C. discriminate.
      * destruct OK as [OK|(Hb & k & Hk & ->)]; auto. right. split; auto. exists k.
        assert (k < length cs)%nat by (apply nth_error_Some; congruence).
        rewrite nth_error_app1, OE by lia. auto.
  - intros k h Hk. destruct (lt_dec k (length cs)) as [L|L].
    + rewrite nth_error_app1 in Hk by auto. destruct (v_chunk _ _ _ I k h Hk) as (gr0 & A1 & A2 & A3). fold gs in A1, A3.
      destruct (PE' h gr0 A1) as (g1 & G1). exists g1. split; auto.
      destruct (PE h g1 G1) as (gh0 & B1 & _ & B2 & B3 & _). assert (gh0 = gr0) as -> by congruence. split.
      * intros X. rewrite X in B3. destruct (og_children gr0); [congruence|discriminate].
      * rewrite B2, OE by lia. destruct (Nat.eqb_spec h g) as [->|N]; auto. congruence.
    + rewrite nth_error_app2 in Hk by lia. destruct NEW as [(_ & _ & ->)|(NE & PO & ->)].
      * destruct (k - length cs)%nat; discriminate.
      * assert (k = length cs) as ->. { destruct (k - length cs)%nat eqn:X; [lia|]. simpl in Hk. destruct n; discriminate. }
        rewrite Nat.sub_diag in Hk. injection Hk as <-. destruct (PE' g gr E) as (g1 & G1). exists g1. split; auto.
        destruct (PE g g1 G1) as (gh0 & B1 & _ & B2 & B3 & _). assert (gh0 = gr) as -> by congruence. split.
        -- intros X. rewrite X in B3. destruct (og_children gr); [congruence|discriminate].
        -- rewrite B2, Nat.eqb_refl, OE by lia. rewrite PO. f_equal. rewrite (v_file _ _ _ I), app_length, hdr_length.
           unfold off. rewrite firstn_all. auto.
  - intros h gh p0 H1 H2. destruct (PE h gh H1) as (gh0 & A1 & _ & A2 & A3 & _). rewrite A2 in H2.
    destruct (Nat.eqb_spec h g) as [->|N].
    + injection H2 as <-. assert (gh0 = gr) as -> by congruence. destruct NEW as [(NE & -> & _)|(NE & PO & ->)].
      * left. split; auto. rewrite NE in A3. destruct (og_children gh); auto; discriminate.
      * right. exists (length cs). rewrite nth_snoc_new. split; auto. rewrite OE by lia.
        rewrite PO. rewrite (v_file _ _ _ I), app_length, hdr_length. unfold off. rewrite firstn_all. auto.
    + destruct (v_frozen _ _ _ I h gh0 p0 A1 H2) as [(X & ->)|(k & Hk & ->)].
      * left. split; auto. rewrite X in A3. destruct (og_children gh); auto; discriminate.
      * right. exists k. assert (k < length cs)%nat by (apply nth_error_Some; congruence).
        rewrite nth_error_app1 by auto. rewrite OE by lia. auto.
  - intros h gh H1. destruct (PE h gh H1) as (gh0 & A1 & -> & _). apply (v_root _ _ _ I h); auto.
  - intros h gh p0 i0 H1 H2. destruct (PE h gh H1) as (gh0 & A1 & A2 & _). rewrite A2 in H2.
    destruct (v_parent _ _ _ I h gh0 p0 i0 A1 H2) as (tp & B1 & B2). destruct (TE' p0 tp B1) as (th1 & C1 & C2).
    exists th1. rewrite C2. auto.
  - intros p0 tp i0 h H1 H2. destruct (TE p0 tp H1) as (tp0 & B1 & B2 & _). rewrite B2 in H2.
    destruct (v_sub _ _ _ I p0 tp0 i0 h B1 H2) as (A1 & gh & A2 & A3). split; auto.
    destruct (PE' h gh A2) as (g1 & G1). exists g1. split; auto.
    destruct (PE h g1 G1) as (gh0 & C1 & -> & _). fold gs in A2. congruence.
Qed.

Lemma KGroup_unique s l cs k k' g : Inv s l cs -> nth_error cs k = Some (KGroup g) -> nth_error cs k' = Some (KGroup g) -> k' = k.
Proof.
  intros I H H'. destruct (v_chunk _ _ _ I k g H) as (gr & E & _ & P). destruct (v_chunk _ _ _ I k' g H') as (gr' & E' & _ & P').
  assert (gr' = gr) as -> by congruence. eapply (off_inj (o_groups s)); eauto. apply Nat2Z.inj. congruence.
Qed.

Lemma freeze_inv s l cs g : Inv s l cs -> exists cs', Inv (o_freeze s g) (t_step l (OFreeze g)) cs'.
Proof.
  intros I. unfold o_freeze, t_step. pose proof (open_group_iff s l cs g I) as O.
  destruct (open_group_of s g) as [gr|].
  2:{ exists cs. unfold can_add in O. destruct (nth_error l g) as [t|] eqn:T; auto.
      destruct (t_closed t) eqn:C; [|discriminate]. assert (list_set l g (TGroup (t_items t) true) = l) as ->; auto.
      clear -T C. revert g T. induction l as [|x l IH]; intros [|g] T; simpl in *; try discriminate; auto.
      - injection T as ->. destruct t; simpl in *. subst. auto.
      - rewrite IH; auto. }
  destruct O as (E & P & t & T & C & CA). rewrite T.
  set (gs := o_groups s) in *.
  set (pos := match og_children gr with [] => 0 | _ :: _ => Z.of_nat (length (o_file s)) end).
  set (new := match og_children gr with [] => [] | _ :: _ => [KGroup g] end).
  set (s1 := match og_children gr with
             | [] => s
             | c :: ch => append (append s (enc64 (Z.of_nat (length (c :: ch))))) (flat_map enc64 (c :: ch))
             end).
  assert (NC : ~ In (KGroup g) cs) by (eapply unfrozen_not_chunk; eauto).
  assert (S1 : o_file s1 = o_file s ++ render gs new /\ o_groups s1 = gs /\ replay (o_log s1) = o_file s1).
  { unfold s1, new. destruct (og_children gr) as [|c ch] eqn:K.
    - cbn [render flat_map]. rewrite app_nil_r. split; auto. split; auto. apply (v_log _ _ _ I).
    - destruct (append_facts s (enc64 (Z.of_nat (length (c :: ch))))) as (A1 & A2 & A3).
      destruct (append_facts (append s (enc64 (Z.of_nat (length (c :: ch))))) (flat_map enc64 (c :: ch))) as (B1 & B2 & B3).
      rewrite B1, B2, A1, A2. split; [|split; auto].
      + rewrite <- app_assoc. f_equal. unfold render. cbn [flat_map cbytes]. unfold kids. rewrite E, K, app_nil_r. auto.
      + rewrite B3, A1; auto. rewrite A1. apply A3. apply (v_log _ _ _ I). }
  destruct S1 as (F1 & G1 & L1).
  assert (NEW : og_children gr = [] /\ pos = 0 /\ new = [] \/
   og_children gr <> [] /\ pos = Z.of_nat (length (o_file s)) /\ new = [KGroup g]).
  { unfold pos, new. destruct (og_children gr); [left|right]; auto. repeat split; auto. discriminate. }
  exists (cs ++ new).
  pose proof (fun f lg => freeze_inv_core s l cs g gr t pos new f lg I E P T NEW) as CORE. cbv zeta in CORE.
  fold gs in CORE. unfold frozen_groups in CORE.
  replace (set_group s1 g (OGroup (og_children gr) (Some pos) (og_parent gr))) with
    (OState (o_file s1) (o_log s1) (list_set gs g (OGroup (og_children gr) (Some pos) (og_parent gr))))
    by (unfold set_group; rewrite G1; auto).
  set (gs2 := list_set gs g (OGroup (og_children gr) (Some pos) (og_parent gr))) in *. cbn [o_groups].
  assert (FS1 : o_file s1 = hdr 0 (root_pos gs) ++ render gs (cs ++ new)).
  { rewrite F1, (v_file _ _ _ I), render_app, app_assoc. auto. }
  assert (K2 : forall h, kids gs2 h = kids gs h).
  { intros h. unfold gs2. rewrite kids_set by congruence. destruct (Nat.eqb_spec g h) as [<-|]; auto. unfold kids. rewrite E. auto. }
  destruct (og_parent gr) as [[p i]|] eqn:PP.
  - destruct (v_parent _ _ _ I g gr p i E PP) as (tp & B1 & B2).
    destruct (v_sub _ _ _ I p tp i g B1 B2) as (L & _).
    destruct (nth_error gs p) as [pg|] eqn:PG.
    2:{ apply nth_error_None in PG. unfold gs in PG. rewrite (v_len _ _ _ I) in PG. apply nth_error_None in PG. congruence. }
    assert (G2 : nth_error gs2 p = Some pg) by (unfold gs2; rewrite list_set_other; auto; lia).
    rewrite G2 in *. cbn [set_group o_file o_log o_groups emit].
    set (gs3 := list_set gs2 p (OGroup (list_set (og_children pg) i pos) (og_pos pg) (og_parent pg))) in *.
    assert (LI : (i < length (og_children pg))%nat).
    { assert (length (og_children pg) = length (t_items tp)) as -> by (eapply Forall2_length'; apply (v_kids _ _ _ I p); auto).
      apply nth_error_Some. congruence. }
    assert (KP : kids gs3 p = list_set (kids gs p) i pos).
    { unfold gs3. rewrite kids_set by congruence. rewrite Nat.eqb_refl. cbn. unfold kids. rewrite PG. auto. }
    assert (KO : forall h, h <> p -> kids gs3 h = kids gs h).
    { intros h N. unfold gs3. rewrite kids_set by congruence. destruct (Nat.eqb_spec p h); [congruence|]. apply K2. }
    assert (RP : root_pos gs3 = root_pos gs).
    { assert (g <> 0%nat) by lia. unfold root_pos, gs3. destruct (Nat.eq_dec p 0) as [->|N].
      - rewrite (list_set_same _ _ _ _ G2), PG. auto.
      - rewrite list_set_other by auto. unfold gs2. rewrite list_set_other by auto. auto. }
    destruct (og_pos pg) as [pp|] eqn:PO.
    + (* the parent is on file: patch its slot *)
      destruct (v_frozen _ _ _ I p pg pp PG PO) as [(X & _)|(k & Hk & ->)]; [rewrite X in LI; simpl in LI; lia|].
      assert (Lk : (k < length cs)%nat) by (apply nth_error_Some; congruence).
      assert (W : write_at (o_file s1) (Z.to_nat (Z.of_nat (off gs cs k)) + (i + 1) * 8) (enc64 pos) = hdr 0 (root_pos gs3) ++ render gs3 (cs ++ new)).
      { rewrite Nat2Z.id, RP, FS1.
        assert (off gs cs k = off gs (cs ++ new) k) as ->.
        { unfold off. rewrite firstn_app. replace (k - length cs)%nat with O by lia. rewrite firstn_O, app_nil_r. auto. }
        apply patch_file with (p := p); auto.
        - rewrite nth_error_app1; auto.
        - intros k' H'. destruct (lt_dec k' (length cs)) as [L'|L'].
          + rewrite nth_error_app1 in H' by auto. eapply KGroup_unique; eauto.
          + rewrite nth_error_app2 in H' by lia. apply nth_error_In in H'. unfold new in H'.
            destruct (og_children gr); [destruct H'|]. destruct H' as [H'|[]]. injection H' as ->. lia.
        - unfold kids. rewrite PG. auto. }
      unfold emit, set_group. cbn [o_file o_log o_groups]. apply CORE; [exact W|]. rewrite replay_snoc, L1. auto.
    + unfold set_group. cbn [o_file o_log o_groups]. apply CORE; auto. rewrite FS1, RP. f_equal. apply render_ext. intros h H. symmetry. apply KO. intros ->.
      apply in_app_or in H as [H|H].
      * eapply (unfrozen_not_chunk s l cs p pg); eauto.
      * unfold new in H. destruct (og_children gr); [destruct H|]. destruct H as [H|[]]. injection H as ->. lia.
  - (* the root: patch the header *)
    assert (g = 0%nat) as -> by (apply (v_root _ _ _ I g gr E); auto).
    unfold emit. cbn [o_file o_log o_groups].
    assert (RP : root_pos gs = 0) by (unfold root_pos; rewrite E, P; auto).
    assert (RP2 : root_pos gs2 = pos) by (unfold root_pos, gs2; rewrite (list_set_same _ _ _ _ E); auto).
    assert (W : write_at (o_file s1) 8 (enc64 pos) = hdr 0 (root_pos gs2) ++ render gs2 (cs ++ new)).
    { rewrite FS1, hdr_patch, RP2. f_equal. apply render_ext. intros; symmetry; apply K2. }
    apply CORE; [exact W|]. rewrite replay_snoc, L1. auto.
Qed.

Lemma step_inv s l cs o : Inv s l cs -> (forall g bufs, o = OAddData g bufs -> concat bufs <> []) ->
  exists cs', Inv (o_step s o) (t_step l o) cs'.
Proof.
  intros I D. destruct o.
  - apply (add_group_inv _ _ cs); auto.
  - apply (add_data_inv _ _ cs); eauto.
  - apply (add_empty_inv _ _ cs); auto.
  - apply (add_empty_inv _ _ cs); auto.
  - apply (freeze_inv _ _ cs); auto.
Qed.
Lemma run_inv ops : forall s l cs, Inv s l cs -> data_ok ops ->
  exists cs', Inv (o_run ops s) (fold_left t_step ops l) cs'.
Proof.
  induction ops as [|o ops IH]; intros s l cs I D; [exists cs; auto|].
  destruct (step_inv s l cs o I) as (cs1 & I1); [intros g bufs ->; eapply D; left; eauto|].
  simpl. eapply IH; eauto. intros g bufs H. eapply D. right. eauto.
Qed.
