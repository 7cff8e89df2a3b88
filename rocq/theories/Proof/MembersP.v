From Coq Require Import ZArith List Bool String Lia Arith.
From Verif Require Import Model.Base Model.OgawaM Spec.OgawaSpec Model.OgM Spec.OgSpec Proof.OgP Model.FieldIOM Spec.FieldIOSpec Proof.FieldIOP Model.FileM Spec.FileSpec Proof.FileP
  Model.MetaM Spec.MetaSpec Proof.MetaP Model.Hdf5M Model.Hdf5FileM Spec.Hdf5MetaSpec Proof.Hdf5MetaP Spec.Hdf5FileSpec Proof.Hdf5FileP
  Model.MembersM Spec.MembersSpec.
Import ListNotations.
Open Scope Z_scope.

(** * Words *)
Lemma is_sep_iff c : is_sep c = true <-> sep c.
Proof. unfold is_sep, sep. rewrite orb_true_iff, !Z.eqb_eq. tauto. Qed.
Lemma is_sep_not c : is_sep c = false <-> ~ sep c.
Proof. rewrite <- is_sep_iff. destruct (is_sep c); intuition congruence. Qed.
Lemma run_snoc w c : (w = [] \/ run w) -> ~ sep c -> run (w ++ [c]).
Proof.
  intros W N. split; [destruct w; discriminate|]. intros x I. apply in_app_iff in I as [I|[<-|[]]]; auto.
  destruct W as [->|[_ W]]; [destruct I|auto].
Qed.
Lemma tokens_run w s : forall cur, (forall c, In c w -> ~ sep c) -> tokens cur (w ++ s) = tokens (cur ++ w) s.
Proof.
  induction w as [|c w IH]; intros cur H; cbn [app tokens]; [rewrite app_nil_r; reflexivity|].
  rewrite (proj2 (is_sep_not c)) by (apply H; left; auto). rewrite IH by (intros x I; apply H; right; auto).
  rewrite <- app_assoc. reflexivity.
Qed.
Lemma tokens_word w c s : run w -> sep c -> tokens [] (w ++ c :: s) = w :: tokens [] s.
Proof.
  intros [N R] S. rewrite tokens_run by auto. cbn [app tokens]. rewrite (proj2 (is_sep_iff c) S). destruct w; [congruence|reflexivity].
Qed.
Lemma splits_tokens s l : splits s l -> tokens [] s = l.
Proof.
  induction 1 as [|c s l S H IH|w W|w c s l W S H IH].
  - reflexivity.
  - cbn [tokens]. rewrite (proj2 (is_sep_iff c) S). exact IH.
  - rewrite <- (app_nil_r w) at 1. rewrite tokens_run by apply W. cbn [app tokens]. destruct W. destruct w; [congruence|reflexivity].
  - rewrite tokens_word; congruence.
Qed.
Lemma tokens_splits_gen s : forall cur, cur = [] \/ run cur -> splits (cur ++ s) (tokens cur s).
Proof.
  induction s as [|c s IH]; intros cur C; cbn [tokens].
  - rewrite app_nil_r. destruct cur; [constructor|]. destruct C as [|C]; [discriminate|]. apply sp_last, C.
  - destruct (is_sep c) eqn:E.
    + apply is_sep_iff in E. destruct cur as [|x cur].
      * cbn [app]. apply sp_sep; auto. apply (IH [] (or_introl eq_refl)).
      * destruct C as [|C]; [discriminate|]. apply sp_word; auto. apply (IH [] (or_introl eq_refl)).
    + apply is_sep_not in E. replace (cur ++ c :: s) with ((cur ++ [c]) ++ s) by (rewrite <- app_assoc; reflexivity).
      apply IH. right. apply run_snoc; auto.
Qed.
Lemma tokens_splits s : splits s (tokens [] s).
Proof. apply (tokens_splits_gen s []). auto. Qed.

(** * Pairs *)
Lemma before_none s : ~ In 46 s -> before_last_dot s = None.
Proof.
  induction s as [|c s IH]; cbn [before_last_dot]; auto. intros H. rewrite IH by (intros I; apply H; right; auto).
  destruct (Z.eqb_spec c 46); auto. subst. exfalso. apply H. left; auto.
Qed.
Lemma before_some p i : ~ In 46 i -> before_last_dot (p ++ [46] ++ i) = Some p.
Proof.
  intros H. induction p as [|c p IH]; cbn [app before_last_dot]; [|cbn [app] in IH; rewrite IH; reflexivity].
  rewrite before_none by auto. reflexivity.
Qed.
Lemma dot_cases s : (exists p i, s = p ++ [46] ++ i /\ ~ In 46 i) \/ ~ In 46 s.
Proof.
  induction s as [|c s [(p & i & -> & N)|N]].
  - right. intros [].
  - left. exists (c :: p), i. auto.
  - destruct (Z.eq_dec c 46) as [->|Q]; [left; exists [], s; auto|right; intros [I|I]; auto].
Qed.
Lemma reported_regroup l t : reported l t -> regroup l = Ok t.
Proof.
  induction 1 as [|p i b l t N H IH|p b l t N H IH]; [reflexivity| |]; cbn [regroup]; rewrite IH; cbn [bind]; unfold remove_id.
  - rewrite before_some by auto. reflexivity.
  - rewrite before_none by auto. reflexivity.
Qed.
Lemma regroup_cases : forall n l, (List.length l <= n)%nat ->
  (Nat.even (List.length l) = true -> exists t, reported l t) /\ (Nat.even (List.length l) = false -> regroup l = UB).
Proof.
  induction n as [|n IH]; intros l L.
  - destruct l; [|cbn in L; lia]. split; [exists []; constructor|discriminate].
  - destruct l as [|a [|b l]]; [split; [exists []; constructor|discriminate]|split; [discriminate|reflexivity]|].
    cbn [List.length Nat.even] in *. destruct (IH l ltac:(lia)) as [I1 I2]. split.
    + intros E. destruct (I1 E) as (t & R). destruct (dot_cases a) as [(p & i & -> & N)|N].
      * eexists. apply (rp_dot p i); eauto.
      * eexists. apply (rp_plain a); eauto.
    + intros E. cbn [regroup]. rewrite (I2 E). reflexivity.
Qed.
Lemma reported_even l t : reported l t -> Nat.even (List.length l) = true.
Proof. induction 1; auto. Qed.

(** * Members *)
Lemma word_run w : word w -> run w.
Proof. intros (N & _ & A & B). split; auto. intros c I [->| ->]; auto. Qed.
Lemma tokens_members es : Forall member_ok es ->
  tokens [] (List.concat (map member_text es)) = flat_map (fun e => [full_part e; mb_layer e]) es.
Proof.
  induction 1 as [|e es (F & L & _) H IH]; [reflexivity|]. cbn [map List.concat flat_map]. unfold member_text at 1.
  rewrite <- !app_assoc. cbn [app]. rewrite tokens_word by (auto using word_run; right; auto). 
  rewrite tokens_word by (auto using word_run; left; auto). rewrite IH. reflexivity.
Qed.
Lemma regroup_members es : Forall member_ok es ->
  regroup (flat_map (fun e => [full_part e; mb_layer e]) es) = Ok (List.concat (map member_shown es)).
Proof.
  induction 1 as [|e es (_ & _ & D) H IH]; [reflexivity|]. cbn [flat_map app regroup]. rewrite IH. cbn [bind map List.concat]. do 2 f_equal.
  unfold member_shown, remove_id, full_part in *. destruct (mb_id e); [rewrite before_some by auto|rewrite before_none by auto]; reflexivity.
Qed.
Lemma members_nul es : Forall member_ok es -> ~ In 0 (List.concat (map member_text es)).
Proof.
  intros H I. apply in_concat in I as (t & It & I). apply in_map_iff in It as (e & <- & Ie).
  apply (proj1 (Forall_forall _ _) H) in Ie as (F & L & _). unfold member_text in I.
  rewrite !in_app_iff in I. cbn [In] in I. unfold word in *. intuition lia.
Qed.

(** * Additions *)
Definition given (h : list (bytes * list member)) : list (bytes * bytes) :=
  map (fun x => (fst x, List.concat (map member_text (snd x)))) h.
Lemma add_find m e n : smap_find (add_member m e) n =
  if bytes_eqb (fst e) n then Some (match smap_find m n with Some v => v | None => [] end ++ snd e) else smap_find m n.
Proof.
  unfold add_member. destruct (smap_find m (fst e)) as [v|] eqn:E; rewrite smap_find_set; destruct (bytes_eqb_spec (fst e) n) as [<-|]; auto; rewrite E; reflexivity.
Qed.
Lemma added h : forall m n, smap_find (add_members m (given h)) n =
  if existsb (fun x => bytes_eqb (fst x) n) h
  then Some (match smap_find m n with Some v => v | None => [] end ++ List.concat (map member_text (members_of n h)))
  else smap_find m n.
Proof.
  induction h as [|x h IH]; intros m n; [reflexivity|]. cbn [given map]. unfold add_members in *. cbn [fold_left existsb]. fold (given h).
  rewrite IH, add_find. cbn [fst snd]. unfold members_of. cbn [flat_map]. fold (members_of n h).
  destruct (bytes_eqb_spec (fst x) n) as [E|N], (list_eq_dec Z.eq_dec (fst x) n); try congruence; cbn [orb app].
  - rewrite map_app, concat_app. destruct (existsb (fun x0 => bytes_eqb (fst x0) n) h) eqn:X.
    + rewrite <- app_assoc. reflexivity.
    + f_equal. f_equal. assert (M : members_of n h = []).
      { clear -X. induction h as [|y h IH]; [reflexivity|]. cbn [existsb] in X. apply orb_false_iff in X as [X1 X2]. unfold members_of. cbn [flat_map].
        destruct (list_eq_dec Z.eq_dec (fst y) n) as [E|E]; [rewrite E, beq_refl in X1; discriminate|]. apply IH, X2. }
      rewrite M. cbn [map List.concat]. rewrite app_nil_r. reflexivity.
  - reflexivity.
Qed.
Lemma add_member_inc m e : increasing (map fst m) -> increasing (map fst (add_member m e)).
Proof. intros I. unfold add_member. destruct (smap_find m (fst e)); apply smap_set_inc; auto. Qed.
Lemma add_members_inc l : forall m, increasing (map fst m) -> increasing (map fst (add_members m l)).
Proof. induction l as [|e l IH]; intros m I; auto. unfold add_members. cbn [fold_left]. apply IH, add_member_inc, I. Qed.
Lemma add_names l : forall m n, In n (map fst (add_members m l)) <-> In n (map fst m) \/ In n (map fst l).
Proof.
  induction l as [|e l IH]; intros m n; unfold add_members; cbn [fold_left map In]; [tauto|].
  fold (add_members (add_member m e) l). rewrite IH. unfold add_member. destruct (smap_find m (fst e)); rewrite smap_set_names; intuition congruence.
Qed.

(** * Reading *)
Lemma get_members_ok l todo : forall m, incl todo l -> NoDup (map fst todo) -> (forall n v, In (n, v) l -> find_by (cstr n) l = Some v) ->
  (forall n s, In (n, VStr s) todo -> n <> k_is_members -> Nat.even (List.length (tokens [] (cstr s))) = true) ->
  exists m', get_members l todo m = Ok m' /\
    (forall n s t, In (n, VStr s) todo -> n <> k_is_members -> reported (tokens [] (cstr s)) t -> smap_find m' n = Some t) /\
    (forall n, (forall s, In (n, VStr s) todo -> n = k_is_members) -> smap_find m' n = smap_find m n).
Proof.
  induction todo as [|(n, v) r IH]; intros m I ND F E.
  - exists m. cbn. split; auto. split; [intros ? ? ? []|auto].
  - inversion ND as [|? ? N1 ND']; subst. cbn [get_members].
    assert (I' : incl r l) by (intros x K; apply I; right; auto).
    assert (E' : forall n s, In (n, VStr s) r -> n <> k_is_members -> Nat.even (List.length (tokens [] (cstr s))) = true) by (intros; eapply E; [right|]; eauto).
    destruct (bytes_eqb_spec n k_is_members) as [->|Nk].
    { destruct (IH m I' ND' F E') as (m' & G & H1 & H2). exists m'. split; auto. split.
      - intros n s t [[= -> ->]|K] Q R; [congruence|eauto].
      - intros n H. apply H2. intros s K. apply (H s). right; auto. }
    destruct v as [s|fl sz d x|].
    2,3: destruct (IH m I' ND' F E') as (m' & G & H1 & H2); exists m'; split; auto; split;
      [intros n0 s t [[=]|K] Q R; eauto|intros n0 H; apply H2; intros s K; apply (H s); right; auto].
    unfold get_str. rewrite (F n (VStr s)) by (apply I; left; auto). cbn [bind].
    destruct (regroup_cases _ (tokens [] (cstr s)) (le_n _)) as [R _]. destruct (R (E n s (or_introl eq_refl) Nk)) as (t & T).
    rewrite (reported_regroup _ _ T). cbn [bind]. destruct (IH (smap_set m n t) I' ND' F E') as (m' & G & H1 & H2). exists m'. split; auto. split.
    + intros n0 s0 t0 [[= <- <-]|K] Q R0; [|eauto]. rewrite H2.
      * rewrite smap_find_set, beq_refl. f_equal. pose proof (reported_regroup _ _ T). pose proof (reported_regroup _ _ R0). congruence.
      * intros s1 K. exfalso. apply N1. apply in_map_iff. exists (n, VStr s1). auto.
    + intros n0 H. rewrite H2; [|intros s1 K; apply (H s1); right; auto]. rewrite smap_find_set.
      destruct (bytes_eqb_spec n n0) as [<-|]; auto. exfalso. apply Nk, (H s). left; auto.
Qed.
Lemma get_members_ub l todo : forall m, incl todo l -> (forall n v, In (n, v) l -> find_by (cstr n) l = Some v) ->
  forall n s, In (n, VStr s) todo -> n <> k_is_members -> Nat.even (List.length (tokens [] (cstr s))) = false -> get_members l todo m = UB.
Proof.
  induction todo as [|(n, v) r IH]; intros m I F n0 s0 K Q E; [destruct K|]. cbn [get_members].
  assert (I' : incl r l) by (intros x X; apply I; right; auto).
  destruct K as [[= -> ->]|K].
  - destruct (bytes_eqb_spec n0 k_is_members); [congruence|]. unfold get_str. rewrite (F n0 (VStr s0)) by (apply I; left; auto). cbn [bind].
    destruct (regroup_cases _ (tokens [] (cstr s0)) (le_n _)) as [_ R]. rewrite (R E). reflexivity.
  - destruct (bytes_eqb_spec n k_is_members); [eapply IH; eauto|]. destruct v as [s|fl sz d x|]; try (eapply IH; eauto; fail).
    unfold get_str. rewrite (F n (VStr s)) by (apply I; left; auto). cbn [bind].
    destruct (regroup_cases _ (tokens [] (cstr s)) (le_n _)) as [R1 R2]. destruct (Nat.even (List.length (tokens [] (cstr s)))) eqn:X.
    + destruct (R1 eq_refl) as (t & T). rewrite (reported_regroup _ _ T). cbn [bind]. eapply IH; eauto.
    + rewrite R2 by auto. reflexivity.
Qed.

(** * The file *)
Section F.
Context {A : Type}.
Notation hnode := (hnode (A := A)).
Lemma simple_members' : simple k_members. Proof. apply simpleb_ok. reflexivity. Qed.
Definition stored_text (v : bytes) : aval := VStr (match v with [] => [0] | _ => v end).
Lemma stored_cstr v s : ~ In 0 v -> stored_text v = VStr s -> cstr s = v.
Proof. intros N [= <-]. destruct v; [reflexivity|]. apply cstr_id, N. Qed.
Definition m_attrs (m : list (bytes * bytes)) : list (bytes * aval) :=
  (k_is_members, VStr (str "1")) :: map (fun e => (fst e, stored_text (snd e))) m.
Lemma members_written a links c ps m : ~ In k_members (map fst links) -> m <> [] -> NoDup (map fst m) ->
  (forall n, In n (map fst m) -> group_ok n) ->
  h_members (HFile (Some (HNode a links : hnode)) c ps) m = (HFile (Some (HNode a (links ++ [(k_members, LGroup (HNode (m_attrs m) []))]))) c ps, true).
Proof.
  intros N M ND G. destruct m as [|e m]; [congruence|]. unfold h_members. cbn [h_root]. set (mm := e :: m) in *.
  rewrite (g_create_at (HNode a links) [] k_members (HNode a links) simple_members' eq_refl N).
  rewrite (put_each_eq put_str (fun v => stored_text v)) by reflexivity. change (put_list _ []) with (([(k_is_members, VStr (str "1"))], true) : list (bytes * aval) * bool).
  unfold then_put. cbn [snd fst]. rewrite (put_each_eq put_str (fun v => stored_text v)) by reflexivity.
  rewrite put_list_ok.
  - cbn [h_count h_parts]. f_equal. f_equal. f_equal. unfold set_attrs. cbn [upd_at app n_attrs n_links]. f_equal.
    rewrite upd_link_split by exact N. reflexivity.
  - apply Forall_forall. intros x I. apply in_map_iff in I as (y & <- & I). cbn [fst]. destruct (G (fst y)) as (Z1 & Z2 & _); [apply in_map; auto|]. split; auto.
  - cbn [app map fst]. rewrite map_map. cbn [fst]. constructor.
    + intros I. destruct (G _ I) as (_ & _ & Q). apply Q. reflexivity.
    + exact ND.
Qed.
End F.
