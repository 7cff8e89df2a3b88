From Coq Require Import ZArith List Bool Lia Arith.
From Verif Require Import Model.Base Model.OgawaM Spec.OgawaSpec Proof.BaseP Proof.OgawaP.
Import ListNotations.
Open Scope Z_scope.

Definition pos0 (o : option Z) : Z := match o with Some p => p | None => 0 end.
Definition root_pos (gs : list ogroup) : Z :=
  match nth_error gs 0 with Some gr => pos0 (og_pos gr) | None => 0 end.

(** A child slot holds what the item says. *)
Definition child_ok (gs : list ogroup) (cs : list chunk) (v : Z) (it : item) : Prop :=
  match it with
  | Bytes b => (b = [] /\ v = EMPTY_DATA) \/
               (b <> [] /\ exists k, nth_error cs k = Some (KData b) /\ v = Z.lor (Z.of_nat (off gs cs k)) EMPTY_DATA)
  | NoGroup => v = 0
  | Sub h => exists gh, nth_error gs h = Some gh /\ v = pos0 (og_pos gh)
  end.

Record Inv (s : ostate) (l : list tgroup) (cs : list chunk) : Prop := {
  v_len : length (o_groups s) = length l;
  v_pos : (0 < length l)%nat;
  v_file : o_file s = hdr 0 (root_pos (o_groups s)) ++ render (o_groups s) cs;
  v_log : replay (o_log s) = o_file s;
  v_closed : forall g gr t, nth_error (o_groups s) g = Some gr -> nth_error l g = Some t ->
             (t_closed t = true <-> og_pos gr <> None);
  v_kids : forall g gr t, nth_error (o_groups s) g = Some gr -> nth_error l g = Some t ->
           Forall2 (child_ok (o_groups s) cs) (og_children gr) (t_items t);
  v_chunk : forall k g, nth_error cs k = Some (KGroup g) ->
            exists gr, nth_error (o_groups s) g = Some gr /\ og_children gr <> [] /\
                       og_pos gr = Some (Z.of_nat (off (o_groups s) cs k));
  v_frozen : forall g gr p, nth_error (o_groups s) g = Some gr -> og_pos gr = Some p ->
             (og_children gr = [] /\ p = 0) \/
             exists k, nth_error cs k = Some (KGroup g) /\ p = Z.of_nat (off (o_groups s) cs k);
  v_root : forall g gr, nth_error (o_groups s) g = Some gr -> (og_parent gr = None <-> g = 0%nat);
  v_parent : forall g gr p i, nth_error (o_groups s) g = Some gr -> og_parent gr = Some (p, i) ->
             exists t, nth_error l p = Some t /\ nth_error (t_items t) i = Some (Sub g);
  v_sub : forall p t i h, nth_error l p = Some t -> nth_error (t_items t) i = Some (Sub h) ->
          (p < h)%nat /\ exists gh, nth_error (o_groups s) h = Some gh /\ og_parent gh = Some (p, i) }.

Lemma init_inv : Inv o_open [TGroup [] false] [].
Proof.
  constructor.
  - reflexivity.
  - simpl; lia.
  - vm_compute. reflexivity.
  - vm_compute. reflexivity.
  - intros [|g] gr t; simpl; [|destruct g; discriminate]. intros [= <-] [= <-]. simpl. split; congruence.
  - intros [|g] gr t; simpl; [|destruct g; discriminate]. intros [= <-] [= <-]. constructor.
  - intros [|k] g; discriminate.
  - intros [|g] gr p E; [|destruct g; discriminate E]. injection E as <-. discriminate.
  - intros [|g] gr; simpl; [|destruct g; discriminate]. intros [= <-]. simpl. tauto.
  - intros [|g] gr p i; simpl; [|destruct g; discriminate]. intros [= <-]. discriminate.
  - intros [|g] t i h; simpl; [|destruct g; discriminate]. intros [= <-]. destruct i; discriminate.
Qed.

(** Both sides agree on whether a group accepts children. *)
Lemma open_group_iff s l cs g : Inv s l cs ->
  match open_group_of s g with
  | Some gr => nth_error (o_groups s) g = Some gr /\ og_pos gr = None /\
               exists t, nth_error l g = Some t /\ t_closed t = false /\ can_add l g = true
  | None => can_add l g = false
  end.
Proof.
  intros I. unfold open_group_of, can_add. destruct (nth_error (o_groups s) g) as [gr|] eqn:E.
  - destruct (nth_error l g) as [t|] eqn:T.
    2:{ apply nth_error_None in T. rewrite <- (v_len _ _ _ I) in T. apply nth_error_None in T. congruence. }
    pose proof (v_closed _ _ _ I g gr t E T) as C.
    destruct (og_pos gr) eqn:P.
    + destruct (t_closed t); auto. assert (false = true) by (apply C; congruence). congruence.
    + split; auto. split; auto. exists t. split; auto. destruct (t_closed t); auto.
      exfalso. apply C; auto.
  - apply nth_error_None in E. rewrite (v_len _ _ _ I) in E. apply nth_error_None in E. rewrite E. auto.
Qed.

Lemma Forall2_imp {A B} (P Q : A -> B -> Prop) l l' : (forall a b, P a b -> Q a b) -> Forall2 P l l' -> Forall2 Q l l'.
Proof. intros H. induction 1; constructor; auto. Qed.
Lemma Forall2_nth {A B} (P : A -> B -> Prop) l l' i a b : Forall2 P l l' -> nth_error l i = Some a -> nth_error l' i = Some b -> P a b.
Proof. intros F. revert i. induction F; intros [|i]; simpl; try discriminate; eauto. congruence. Qed.
Lemma Forall2_length' {A B} (P : A -> B -> Prop) l l' : Forall2 P l l' -> length l = length l'.
Proof. induction 1; simpl; auto. Qed.

Lemma unfrozen_not_chunk s l cs g gr : Inv s l cs -> nth_error (o_groups s) g = Some gr -> og_pos gr = None ->
  ~ In (KGroup g) cs.
Proof.
  intros I E P H. apply In_nth_error in H as (k & H). destruct (v_chunk _ _ _ I k g H) as (gr' & E' & _ & P'). congruence.
Qed.

(** Adding an item to an open group: [new] chunks are appended to the file. *)
Lemma add_inv s l cs g gr t v it new log' :
  Inv s l cs -> nth_error (o_groups s) g = Some gr -> og_pos gr = None ->
  nth_error l g = Some t -> t_closed t = false ->
  (forall h, it <> Sub h) ->
  (forall h, ~ In (KGroup h) new) ->
  child_ok (o_groups s) (cs ++ new) v it ->
  replay log' = o_file s ++ render (o_groups s) new ->
  Inv (OState (o_file s ++ render (o_groups s) new) log'
              (list_set (o_groups s) g (OGroup (og_children gr ++ [v]) (og_pos gr) (og_parent gr))))
      (list_set l g (TGroup (t_items t ++ [it]) false)) (cs ++ new).
Proof.
  intros I E P T C NS NK CH LG.
  set (gs := o_groups s) in *. set (gs' := list_set gs g _).
  assert (NC : ~ In (KGroup g) (cs ++ new)).
  { intros H. apply in_app_or in H as [H|H]; [|eapply NK; eauto]. eapply unfrozen_not_chunk; eauto. }
  assert (KE : forall h, In (KGroup h) (cs ++ new) -> kids gs' h = kids gs h).
  { intros h H. unfold gs'. rewrite kids_set by congruence. destruct (Nat.eqb_spec g h) as [<-|]; auto. tauto. }
  assert (OE : forall k, (k < length cs)%nat -> off gs' (cs ++ new) k = off gs cs k).
  { intros k Hk. rewrite (off_ext gs' gs) by (intros; rewrite KE; auto).
    unfold off. rewrite firstn_app. replace (k - length cs)%nat with O by lia. rewrite firstn_O, app_nil_r. auto. }
  assert (PE : forall h gh, nth_error gs' h = Some gh -> exists gh0, nth_error gs h = Some gh0 /\ og_pos gh = og_pos gh0 /\
     og_parent gh = og_parent gh0 /\ og_children gh = (if Nat.eqb g h then og_children gh0 ++ [v] else og_children gh0)).
  { intros h gh. unfold gs'. destruct (Nat.eqb_spec g h) as [<-|N].
    - rewrite (list_set_same _ _ _ _ E). intros [= <-]. exists gr. auto.
    - rewrite list_set_other by auto. intros H. exists gh. auto. }
  assert (PE' : forall h gh, nth_error gs h = Some gh -> exists gh1, nth_error gs' h = Some gh1 /\ og_pos gh1 = og_pos gh /\ og_parent gh1 = og_parent gh).
  { intros h gh H. unfold gs'. destruct (Nat.eq_dec g h) as [<-|N].
    - rewrite (list_set_same _ _ _ _ E). eexists. split; eauto. assert (gh = gr) as -> by congruence. auto.
    - rewrite list_set_other by auto. eauto. }
  assert (TE : forall h th, nth_error (list_set l g (TGroup (t_items t ++ [it]) false)) h = Some th ->
     exists th0, nth_error l h = Some th0 /\ t_closed th = t_closed th0 /\
       t_items th = if Nat.eqb g h then t_items th0 ++ [it] else t_items th0).
  { intros h th. destruct (Nat.eqb_spec g h) as [<-|N].
    - rewrite (list_set_same _ _ _ _ T). intros [= <-]. exists t. auto.
    - rewrite list_set_other by auto. intros H. exists th. auto. }
  assert (CE : forall w i, child_ok gs cs w i -> child_ok gs' (cs ++ new) w i).
  { intros w i. destruct i as [h|b|]; cbn [child_ok]; auto.
    - intros (gh & Hh & ->). destruct (PE' h gh Hh) as (gh1 & H1 & H2 & _). exists gh1. rewrite H2. auto.
    - intros [H|(Hb & k & Hk & ->)]; auto. right. split; auto. exists k.
      assert (k < length cs)%nat by (apply nth_error_Some; congruence).
      rewrite nth_error_app1, OE by auto. auto. }
  constructor; cbn [o_file o_log o_groups].
  - unfold gs'. rewrite !list_set_len. apply (v_len _ _ _ I).
  - rewrite list_set_len. apply (v_pos _ _ _ I).
  - fold gs'. assert (root_pos gs' = root_pos gs) as ->.
    { unfold root_pos. destruct (nth_error gs 0) eqn:E0.
      - destruct (PE' 0%nat o E0) as (gh1 & -> & -> & _). auto.
      - apply nth_error_None in E0. unfold gs'. rewrite (proj2 (nth_error_None _ 0)); auto. rewrite list_set_len. auto. }
    rewrite (render_ext gs' gs) by auto. rewrite render_app, app_assoc. f_equal. apply (v_file _ _ _ I).
  - auto.
  - intros h gh th H1 H2. destruct (PE h gh H1) as (gh0 & A1 & -> & _). destruct (TE h th H2) as (th0 & B1 & -> & _).
    apply (v_closed _ _ _ I h); auto.
  - intros h gh th H1 H2. destruct (PE h gh H1) as (gh0 & A1 & _ & _ & ->). destruct (TE h th H2) as (th0 & B1 & _ & ->).
    pose proof (Forall2_imp _ _ _ _ CE (v_kids _ _ _ I h gh0 th0 A1 B1)) as F.
    destruct (Nat.eqb g h); auto. apply Forall2_app; auto. constructor; [|constructor].
    fold gs'. destruct it as [h'|b|]; cbn [child_ok] in *; auto.
    + destruct (NS h'); auto.
    + destruct CH as [H|(Hb & k & Hk & ->)]; auto. right. split; auto. exists k. split; auto.
      rewrite (off_ext gs' gs) by (intros; rewrite KE; auto). auto.
  - intros k h H. assert (Hk : nth_error cs k = Some (KGroup h)).
    { destruct (lt_dec k (length cs)) as [L|L]; [rewrite nth_error_app1 in H; auto|].
      rewrite nth_error_app2 in H by lia. apply nth_error_In in H. destruct (NK h); auto. }
    destruct (v_chunk _ _ _ I k h Hk) as (gr0 & A1 & A2 & A3). fold gs in A1, A3. exists gr0.
    assert (N : g <> h) by (intros <-; fold gs in A1; congruence).
    unfold gs'. rewrite list_set_other by auto. split; auto. split; auto.
    fold gs'. rewrite OE; auto. apply nth_error_Some. congruence.
  - intros h gh p H1 H2. destruct (PE h gh H1) as (gh0 & A1 & A2 & _ & ->). rewrite A2 in H2.
    destruct (Nat.eqb_spec g h) as [<-|N]; [congruence|].
    destruct (v_frozen _ _ _ I h gh0 p A1 H2) as [H|(k & Hk & ->)]; auto. right. exists k.
    assert (k < length cs)%nat by (apply nth_error_Some; congruence).
    rewrite nth_error_app1 by auto. fold gs'. rewrite OE by auto. auto.
  - intros h gh H1. destruct (PE h gh H1) as (gh0 & A1 & _ & -> & _). apply (v_root _ _ _ I h); auto.
  - intros h gh p i H1 H2. destruct (PE h gh H1) as (gh0 & A1 & _ & A3 & _). rewrite A3 in H2.
    destruct (v_parent _ _ _ I h gh0 p i A1 H2) as (tp & B1 & B2).
    destruct (Nat.eq_dec g p) as [<-|N].
    + rewrite (list_set_same _ _ _ _ T). eexists. split; eauto. cbn. assert (tp = t) as -> by congruence. apply nth_snoc_old; auto.
    + rewrite list_set_other by auto. eauto.
  - intros p tp i h H1 H2. destruct (TE p tp H1) as (tp0 & B1 & _ & B2). rewrite B2 in H2.
    assert (H3 : nth_error (t_items tp0) i = Some (Sub h)).
    { destruct (Nat.eqb g p); auto. apply nth_snoc in H2 as [H2|[_ H2]]; auto. destruct (NS h); auto. }
    destruct (v_sub _ _ _ I p tp0 i h B1 H3) as (A1 & gh & A2 & A3). split; auto.
    destruct (PE' h gh A2) as (gh1 & C1 & _ & C3). exists gh1. rewrite C3. auto.
Qed.

(** Replaying appended writes. *)
Lemma replay_snoc l p bs : replay (l ++ [(p, bs)]) = write_at (replay l) p bs.
Proof. unfold replay. rewrite fold_left_app. reflexivity. Qed.
Lemma emit_replay s p bs : replay (o_log s) = o_file s -> replay (o_log (emit s p bs)) = o_file (emit s p bs).
Proof. intros H. unfold emit. cbn [o_file o_log]. rewrite replay_snoc, H. auto. Qed.
Lemma append_facts s bs : o_file (append s bs) = o_file s ++ bs /\ o_groups (append s bs) = o_groups s /\
  (replay (o_log s) = o_file s -> replay (o_log (append s bs)) = o_file s ++ bs).
Proof.
  unfold append, emit. cbn [o_file o_log o_groups]. rewrite write_at_end. split; auto. split; auto. intros H. rewrite replay_snoc, H, write_at_end. auto.
Qed.
Lemma write_buffers_facts bufs : forall s, o_file (write_buffers s bufs) = o_file s ++ concat bufs /\
  o_groups (write_buffers s bufs) = o_groups s /\
  (replay (o_log s) = o_file s -> replay (o_log (write_buffers s bufs)) = o_file s ++ concat bufs).
Proof.
  induction bufs as [|b r IH]; intros s; cbn [write_buffers concat].
  - rewrite app_nil_r. auto.
  - destruct b as [|x b].
    + destruct (IH s) as (A1 & A2 & A3). auto.
    + destruct (append_facts s (x :: b)) as (B1 & B2 & B3). destruct (IH (append s (x :: b))) as (A1 & A2 & A3).
      rewrite A1, A2, B1, B2, <- !app_assoc. split; auto. split; auto.
      intros H. rewrite A3 by (rewrite B1; auto). rewrite B1, <- app_assoc. auto.
Qed.

Lemma add_item_eq l g t it : nth_error l g = Some t -> t_closed t = false ->
  add_item l g it = list_set l g (TGroup (t_items t ++ [it]) false).
Proof. intros H C. unfold add_item. rewrite H, C. auto. Qed.
Lemma add_item_no l g it : can_add l g = false -> add_item l g it = l.
Proof. unfold can_add, add_item. destruct (nth_error l g); auto. destruct (t_closed t); auto. discriminate. Qed.

Lemma add_data_inv s l cs g bufs : Inv s l cs -> concat bufs <> [] ->
  exists cs', Inv (o_add_data s g bufs) (add_item l g (Bytes (concat bufs))) cs'.
Proof.
  intros I NE. unfold o_add_data. pose proof (open_group_iff s l cs g I) as O.
  destruct (open_group_of s g) as [gr|]; [|rewrite add_item_no by auto; eauto].
  destruct O as (E & P & t & T & C & CA). rewrite (add_item_eq l g t) by auto.
  destruct (Z.eqb_spec (Z.of_nat (length (concat bufs))) 0) as [Z0|NZ].
  { destruct (concat bufs); [congruence|simpl in Z0; lia]. }
  set (total := Z.of_nat (length (concat bufs))) in *.
  destruct (append_facts s (enc64 total)) as (A1 & A2 & A3).
  destruct (write_buffers_facts bufs (append s (enc64 total))) as (B1 & B2 & B3).
  exists (cs ++ [KData (concat bufs)]). unfold push_child, set_group. rewrite B1, B2, A1, A2.
  assert (R : render (o_groups s) [KData (concat bufs)] = enc64 total ++ concat bufs).
  { unfold render. simpl. rewrite app_nil_r. auto. }
  rewrite <- app_assoc, <- R.
  apply add_inv; auto.
  - discriminate.
  - intros h [H|[]]. discriminate.
  - cbn [child_ok]. right. split; auto. exists (length cs). rewrite nth_snoc_new. split; auto. rewrite off_last.
    f_equal. rewrite (v_file _ _ _ I), app_length, hdr_length. auto.
  - rewrite R, app_assoc, B3.
    + rewrite A1. auto.
    + rewrite A1. apply A3. apply (v_log _ _ _ I).
Qed.

Lemma add_empty_inv s l cs g v it : Inv s l cs -> (it = NoGroup /\ v = 0) \/ (it = Bytes [] /\ v = EMPTY_DATA) ->
  exists cs', Inv (o_add_empty s g v) (add_item l g it) cs'.
Proof.
  intros I H. unfold o_add_empty. pose proof (open_group_iff s l cs g I) as O.
  destruct (open_group_of s g) as [gr|]; [|rewrite add_item_no by auto; eauto].
  destruct O as (E & P & t & T & C & CA). rewrite (add_item_eq l g t) by auto.
  exists cs. unfold push_child, set_group.
  pose proof (add_inv s l cs g gr t v it [] (o_log s) I E P T C) as A.
  cbn [render flat_map In] in A. rewrite !app_nil_r in A.
  apply A; auto.
  - destruct H as [[-> ->]|[-> ->]]; discriminate.
  - destruct H as [[-> ->]|[-> ->]]; cbn [child_ok]; auto.
  - apply (v_log _ _ _ I).
Qed.

Lemma add_group_inv s l cs g : Inv s l cs -> exists cs', Inv (o_add_group s g) (t_step l (OAddGroup g)) cs'.
Proof.
  intros I. unfold o_add_group, t_step. pose proof (open_group_iff s l cs g I) as O.
  destruct (open_group_of s g) as [gr|]; [|rewrite O; eauto].
  destruct O as (E & P & t & T & C & CA). rewrite CA, (add_item_eq l g t) by auto.
  exists cs. cbn [push_child set_group o_file o_log o_groups]. set (gs := o_groups s) in *.
  set (n := length l). assert (LN : length gs = n) by apply (v_len _ _ _ I).
  set (ng := OGroup [] None (Some (g, length (og_children gr)))).
  set (g1 := OGroup (og_children gr ++ [0]) (og_pos gr) (og_parent gr)).
  set (gs' := list_set gs g g1 ++ [ng]).
  assert (LG : (g < n)%nat) by (rewrite <- LN; apply nth_error_Some; congruence).
  assert (NC : ~ In (KGroup g) cs) by (eapply unfrozen_not_chunk; eauto).
  assert (LI : length (og_children gr) = length (t_items t)) by (eapply Forall2_length'; apply (v_kids _ _ _ I g); auto).
  assert (KE : forall h, In (KGroup h) cs -> kids gs' h = kids gs h).
  { intros h H. unfold gs'. rewrite kids_snoc by auto. rewrite kids_set by congruence. destruct (Nat.eqb_spec g h) as [<-|]; auto. tauto. }
  assert (OE : forall k, off gs' cs k = off gs cs k) by (intros k; apply off_ext; intros; rewrite KE; auto).
  assert (PE : forall h gh, nth_error gs' h = Some gh -> (h = n /\ gh = ng) \/ exists gh0, nth_error gs h = Some gh0 /\ (h < n)%nat /\ og_pos gh = og_pos gh0 /\
     og_parent gh = og_parent gh0 /\ og_children gh = (if Nat.eqb g h then og_children gh0 ++ [0] else og_children gh0)).
  { intros h gh H. unfold gs' in H. apply nth_snoc in H as [H|[-> ->]]; [right|left; rewrite list_set_len; auto].
    assert (h < n)%nat by (rewrite <- LN, <- (list_set_len gs g g1); apply nth_error_Some; congruence).
    destruct (Nat.eqb_spec g h) as [<-|N].
    - rewrite (list_set_same _ _ _ _ E) in H. injection H as <-. exists gr. auto.
    - rewrite list_set_other in H by auto. exists gh. repeat split; auto. }
  assert (PE' : forall h gh, nth_error gs h = Some gh -> exists gh1, nth_error gs' h = Some gh1 /\ og_pos gh1 = og_pos gh /\ og_parent gh1 = og_parent gh).
  { intros h gh H. unfold gs'. destruct (Nat.eq_dec g h) as [<-|N].
    - exists g1. split; [apply nth_snoc_old; apply (list_set_same _ _ _ _ E)|]. assert (gh = gr) as -> by congruence. auto.
    - exists gh. split; auto. apply nth_snoc_old. rewrite list_set_other; auto. }
  assert (NG : nth_error gs' n = Some ng).
  { unfold gs'. rewrite <- LN, <- (list_set_len gs g g1). apply nth_snoc_new. }
  set (l' := list_set l g (TGroup (t_items t ++ [Sub n]) false) ++ [TGroup [] false]).
  assert (TE : forall h th, nth_error l' h = Some th -> (h = n /\ th = TGroup [] false) \/ (h < n)%nat /\
     exists th0, nth_error l h = Some th0 /\ t_closed th = t_closed th0 /\
       t_items th = if Nat.eqb g h then t_items th0 ++ [Sub n] else t_items th0).
  { intros h th H. unfold l' in H. apply nth_snoc in H as [H|[-> ->]]; [right|left; rewrite list_set_len; auto].
    split; [unfold n; rewrite <- (list_set_len l g (TGroup (t_items t ++ [Sub n]) false)); apply nth_error_Some; congruence|].
    destruct (Nat.eqb_spec g h) as [<-|N].
    - rewrite (list_set_same _ _ _ _ T) in H. injection H as <-. exists t. auto.
    - rewrite list_set_other in H by auto. exists th. auto. }
  assert (CE : forall w i, child_ok gs cs w i -> child_ok gs' cs w i).
  { intros w i. destruct i as [h|b|]; cbn [child_ok]; auto.
    - intros (gh & Hh & ->). destruct (PE' h gh Hh) as (gh1 & H1 & H2 & _). exists gh1. rewrite H2. auto.
    - intros [H|(Hb & k & Hk & ->)]; auto. right. split; auto. exists k. rewrite OE. auto. }
  constructor; cbn [o_file o_log o_groups set_group push_child]; fold gs'; fold l'.
  - unfold gs', l'. rewrite !app_length, !list_set_len. simpl. rewrite LN. auto.
  - unfold l'. rewrite app_length. simpl. lia.
  - assert (root_pos gs' = root_pos gs) as ->.
    { unfold root_pos. destruct (nth_error gs 0) eqn:E0.
      - destruct (PE' 0%nat o E0) as (gh1 & -> & -> & _). auto.
      - apply nth_error_None in E0. lia. }
    rewrite (render_ext gs' gs) by auto. apply (v_file _ _ _ I).
  - apply (v_log _ _ _ I).
  - intros h gh th H1 H2. destruct (PE h gh H1) as [[-> ->]|(gh0 & A1 & A0 & -> & _)].
    + destruct (TE n th H2) as [[_ ->]|(L & _)]; [|lia]. cbn. split; congruence.
    + destruct (TE h th H2) as [[-> _]|(_ & th0 & B1 & -> & _)]; [lia|]. apply (v_closed _ _ _ I h); auto.
  - intros h gh th H1 H2. destruct (PE h gh H1) as [[-> ->]|(gh0 & A1 & A0 & _ & _ & ->)].
    + destruct (TE n th H2) as [[_ ->]|(L & _)]; [|lia]. constructor.
    + destruct (TE h th H2) as [[-> _]|(_ & th0 & B1 & _ & ->)]; [lia|].
      pose proof (Forall2_imp _ _ _ _ CE (v_kids _ _ _ I h gh0 th0 A1 B1)) as F.
      destruct (Nat.eqb g h); auto. apply Forall2_app; auto. constructor; [|constructor].
      simpl. exists ng. rewrite NG. auto.
  - intros k h Hk. destruct (v_chunk _ _ _ I k h Hk) as (gr0 & A1 & A2 & A3). fold gs in A1, A3. exists gr0.
    assert (N : g <> h) by (intros <-; apply NC; eapply nth_error_In; eauto).
    split; [unfold gs'; apply nth_snoc_old; rewrite list_set_other; auto|]. split; auto. rewrite OE. auto.
  - intros h gh p H1 H2. destruct (PE h gh H1) as [[-> ->]|(gh0 & A1 & A0 & A2 & _ & ->)]; [discriminate|]. rewrite A2 in H2.
    destruct (Nat.eqb_spec g h) as [<-|N]; [congruence|].
    destruct (v_frozen _ _ _ I h gh0 p A1 H2) as [H|(k & Hk & ->)]; auto. right. exists k. rewrite OE. auto.
  - intros h gh H1. destruct (PE h gh H1) as [[-> ->]|(gh0 & A1 & A0 & _ & -> & _)].
    + cbn. split; [discriminate|]. intros. lia.
    + apply (v_root _ _ _ I h); auto.
  - intros h gh p i H1 H2. destruct (PE h gh H1) as [[-> ->]|(gh0 & A1 & A0 & _ & A3 & _)].
    + cbn in H2. injection H2 as <- <-. exists (TGroup (t_items t ++ [Sub n]) false). split.
      * unfold l'. apply nth_snoc_old. apply (list_set_same _ _ _ _ T).
      * cbn. rewrite LI. apply nth_snoc_new.
    + rewrite A3 in H2. destruct (v_parent _ _ _ I h gh0 p i A1 H2) as (tp & B1 & B2).
      destruct (Nat.eq_dec g p) as [<-|N].
      * exists (TGroup (t_items t ++ [Sub n]) false). split; [unfold l'; apply nth_snoc_old; apply (list_set_same _ _ _ _ T)|].
        cbn. assert (tp = t) as -> by congruence. apply nth_snoc_old; auto.
      * exists tp. split; auto. unfold l'. apply nth_snoc_old. rewrite list_set_other; auto.
  - intros p tp i h H1 H2. destruct (TE p tp H1) as [[-> ->]|(L & tp0 & B1 & _ & B2)]; [destruct i; discriminate|].
    rewrite B2 in H2.
    assert (H3 : nth_error (t_items tp0) i = Some (Sub h) \/ (g = p /\ i = length (t_items tp0) /\ h = n)).
    { destruct (Nat.eqb_spec g p); auto. apply nth_snoc in H2 as [H2|[H0 H2]]; auto. right. injection H2 as ->. auto. }
    destruct H3 as [H3|(-> & -> & ->)].
    + destruct (v_sub _ _ _ I p tp0 i h B1 H3) as (A1 & gh & A2 & A3). split; auto.
      destruct (PE' h gh A2) as (gh1 & C1 & _ & C3). exists gh1. rewrite C3. auto.
    + split; auto. exists ng. split; auto. cbn. assert (tp0 = t) as -> by congruence. rewrite LI. auto.
Qed.
