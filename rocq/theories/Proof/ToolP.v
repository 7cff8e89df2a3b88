(** Proofs about the command line tools. *)
From Coq Require Import ZArith List Bool String Lia Permutation Sorted.
From Verif Require Import Model.Base Model.OgawaM Spec.OgawaSpec Model.OgM Spec.OgSpec Model.FieldIOM Model.FileM Spec.FileSpec Model.ToolM Spec.ToolSpec.
From Verif Require Import Proof.OgP Proof.FileP Proof.FileP2 Props.FileProps.
Import ListNotations.
Local Open Scope nat_scope.

(** * Lists related up to order *)
Definition rel {A B} (R : A -> B -> Prop) (a : list A) (b : list B) : Prop := exists s, Permutation s b /\ Forall2 R a s.
Lemma rel_nil {A B} (R : A -> B -> Prop) : rel R [] [].
Proof. exists []. auto. Qed.
Lemma rel_app {A B} (R : A -> B -> Prop) a a' b b' : rel R a b -> rel R a' b' -> rel R (a ++ a') (b ++ b').
Proof. intros (s & P & F) (s' & P' & F'). exists (s ++ s'). split; [apply Permutation_app; auto|apply Forall2_app; auto]. Qed.
Lemma rel_perm {A B} (R : A -> B -> Prop) a b b' : rel R a b -> Permutation b b' -> rel R a b'.
Proof. intros (s & P & F) Q. exists s. split; auto. etransitivity; eauto. Qed.
Lemma rel_filter {A B} (R : A -> B -> Prop) p q a b : (forall x y, R x y -> p x = q y) -> rel R a b -> rel R (filter p a) (filter q b).
Proof.
  intros E (s & P & F). exists (filter q s). split; [apply perm_filter; auto|]. clear P.
  induction F as [|x y a s X F IH]; cbn; [constructor|]. rewrite (E _ _ X). destruct (q y); [constructor|]; auto.
Qed.
Lemma flat_perm {A B} (h : A -> list B) l m : Permutation l m -> Permutation (flat_map h l) (flat_map h m).
Proof.
  induction 1; cbn; auto.
  - apply Permutation_app_head. auto.
  - rewrite !app_assoc. apply Permutation_app_tail. apply Permutation_app_comm.
  - etransitivity; eauto.
Qed.
Lemma rel_flat {A B C D} (R : A -> B -> Prop) (Q : C -> D -> Prop) (h : A -> list C) (k : B -> list D) a b :
  (forall x y, R x y -> Forall2 Q (h x) (k y)) -> rel R a b -> rel Q (flat_map h a) (flat_map k b).
Proof.
  intros E (s & P & F). exists (flat_map k s). split; [apply flat_perm; auto|]. clear P.
  induction F; cbn; [constructor|]. apply Forall2_app; auto.
Qed.
(** Parts by keys. *)
Lemma parts_perm {A K} (eqb : K -> K -> bool) (key : A -> K) : (forall a b, eqb a b = true <-> a = b) ->
  forall keys l, NoDup keys -> (forall x, In x l -> In (key x) keys) ->
  Permutation (flat_map (fun k => filter (fun x => eqb (key x) k) l) keys) l.
Proof.
  intros Eq. induction keys as [|k keys IH]; intros l ND C.
  - destruct l as [|x l]; auto. destruct (C x); left; auto.
  - inversion ND as [|? ? NI ND']. subst. cbn [flat_map].
    assert (E : flat_map (fun k0 => filter (fun x => eqb (key x) k0) l) keys =
                flat_map (fun k0 => filter (fun x => eqb (key x) k0) (filter (fun x => negb (eqb (key x) k)) l)) keys).
    { clear - Eq NI. induction keys as [|j keys IH]; auto. cbn. f_equal; [|apply IH; intros J; apply NI; right; auto].
      assert (N : j <> k) by (intros ->; apply NI; left; auto).
      clear - Eq N. induction l as [|x l IHl]; auto. cbn. destruct (eqb (key x) j) eqn:Ej, (eqb (key x) k) eqn:Ek; cbn; rewrite ?Ej, ?IHl; auto.
      apply Eq in Ej. apply Eq in Ek. congruence. }
    rewrite E, IH; auto.
    + clear. induction l as [|x l IH]; auto. cbn. destruct (eqb (key x) k); cbn; [constructor; auto|].
      etransitivity; [apply Permutation_sym, Permutation_middle|]. constructor. auto.
    + intros x J. apply filter_In in J. destruct J as (J & F). destruct (C x J) as [K0|I]; auto.
      rewrite (proj2 (Eq (key x) k) (eq_sym K0)) in F. discriminate.
Qed.
Lemma increasing_nodup l : increasing l -> NoDup l.
Proof.
  induction 1 as [|a l S IH F]; constructor; auto. intros J. rewrite Forall_forall in F. specialize (F a J). rewrite ltb_irrefl in F. discriminate.
Qed.
Lemma beq_iff a b : bytes_eqb a b = true <-> a = b.
Proof. destruct (bytes_eqb_spec a b); split; congruence. Qed.

Lemma forall2_in {A B} (R : A -> B -> Prop) a b x : Forall2 R a b -> In x a -> exists y, In y b /\ R x y.
Proof. induction 1 as [|u v a b X F IH]; intros J; [destruct J|]. destruct J as [<-|J]; [exists v; split; [left|]; auto|]. destruct (IH J) as (y & K & Y). exists y. split; [right|]; auto. Qed.

Section Tool.
Context {M : Type} (ident : M -> M -> bool) (map_kids : M -> list tree) (map_ok : M -> bool) (read_map : option tree -> M) (kind : tree -> option nat).
Context (want_part want_layer : bytes -> bool) (outs : bytes -> tree -> list (bytes * list tree)) (crashes : tree -> bool) (version : bytes).
Context (refl : forall a, ident a a = true) (sym : forall a b, ident a b = ident b a).
Context (stored : forall m, read_map (Some (node_group (str "mapping") (map_kids m))) = m).
Notation holds := (holds ident map_kids map_ok).
Notation expected := (@expected M kind want_part want_layer outs).

(** A field in memory that came from a source. *)
Definition from (x : ofield M) (e : source M) : Prop :=
  of_name x = sr_name e /\ of_attr x = sr_attr e /\ of_body x = sr_body e /\ ident (sr_map e) (of_map x) = true.
(** A layer that is a source. *)
Definition is_source (x : ilayer) (e : source M) : Prop :=
  il_name x = sr_name e /\ il_attr x = sr_attr e /\ il_group x = node_group (sr_attr e) (sr_body e) /\
  exists m, il_map x = Some (node_group (str "mapping") (map_kids m)) /\ ident (sr_map e) m = true.
Definition made (e : source M) : list (source M) :=
  map (fun o => Source (sr_name e) (fst o) (sr_map e) (snd o)) (outs (sr_attr e) (node_group (sr_attr e) (sr_body e))).
Definition kind_of (e : source M) : option nat := kind (node_group (sr_attr e) (sr_body e)).
Lemma fields_made x e : is_source x e -> Forall2 from (fields_of read_map outs x) (made e).
Proof.
  intros (A & B & C & m & D & E). unfold fields_of, made. rewrite A, B, C, D, stored.
  induction (outs _ _) as [|o l IH]; cbn; constructor; auto. repeat split; auto.
Qed.
Definition of_part (P : bytes) (e : source M) : bool := bytes_eqb (sr_name e) P.
Definition of_layer (L : bytes) (e : source M) : bool := bytes_eqb (sr_attr e) L.
Definition of_kind (k : nat) (e : source M) : bool := match kind_of e with Some i => Nat.eqb i k | None => false end.

Lemma source_layers t l P L : holds t l -> P <> [] -> L <> [] ->
  exists xs, read_layers t P L = Ok xs /\ rel is_source xs (filter (fun e => of_part P e && of_layer L e) l).
Proof.
  intros (hp & calls & f & ocs & v & gl & U & O & W & -> & ->) NP NL.
  destruct (C23_layers_read M ident map_kids map_ok hp o_new calls f ocs v gl P L eq_refl U O W NP NL) as (xs & src & R & Pm & F).
  exists xs. split; auto. set (h := fun w => Source (w_user w) (w_layer w) (hp (w_ref w)) (w_body w)).
  exists (map h src). split.
  - apply (Permutation_map h) in Pm. etransitivity; [exact Pm|]. clear.
    induction (accepted calls ocs) as [|w ws IH]; auto. cbn. unfold of_part, of_layer. cbn.
    destruct (bytes_eqb (w_user w) P && bytes_eqb (w_layer w) L); cbn; auto.
  - clear - F. induction F as [|x w xs src (A & B & C & r & D & E) F IH]; cbn; constructor; auto.
    repeat split; auto. exists (hp r). auto.
Qed.
Definition safe (e : source M) : Prop := crashes (node_group (sr_attr e) (sr_body e)) = false.
Lemma visit_kind_ok t l P L k : holds t l -> Forall safe l -> P <> [] -> L <> [] ->
  exists xs, visit_kind read_map kind outs crashes t P L k = Ok xs /\
    rel from xs (flat_map made (filter (of_kind k) (filter (fun e => of_part P e && of_layer L e) l))).
Proof.
  intros H Sf NP NL. destruct (source_layers t l P L H NP NL) as (xs & R & Rl). unfold visit_kind. rewrite R. cbn [bind].
  assert (R2 : rel is_source (filter (has_kind kind k) xs) (filter (of_kind k) (filter (fun e => of_part P e && of_layer L e) l))).
  { eapply rel_filter; [|exact Rl]. intros x e (_ & _ & C & _). unfold has_kind, of_kind, kind_of. rewrite C. reflexivity. }
  replace (existsb _ _) with false.
  - eexists. split; [reflexivity|]. eapply rel_flat; [apply fields_made|exact R2].
  - symmetry. apply not_true_is_false. intros X. apply existsb_exists in X. destruct X as (x & J & X). destruct R2 as (s & Ps & Fs).
    destruct (forall2_in _ _ _ _ Fs J) as (e & K & (_ & _ & C & _)). apply (Permutation_in _ Ps) in K. apply filter_In in K. destruct K as (K & _).
    apply filter_In in K. destruct K as (K & _). rewrite Forall_forall in Sf. specialize (Sf e K). unfold safe in Sf. rewrite <- C in Sf. congruence.
Qed.
Lemma visit_all_ok {A B C} (R : B -> C -> Prop) (f : A -> res (list B)) (e : A -> list C) : forall l,
  (forall a, In a l -> exists xs, f a = Ok xs /\ rel R xs (e a)) -> exists xs, visit_all f l = Ok xs /\ rel R xs (flat_map e l).
Proof.
  induction l as [|a l IH]; intros H; [exists []; split; [auto|apply rel_nil]|].
  destruct (H a (or_introl eq_refl)) as (x & E & Rx). destruct IH as (y & F & Ry); [intros b J; apply H; right; auto|].
  cbn. rewrite E. cbn [bind]. rewrite F. cbn [bind]. exists (x ++ y). split; auto. apply rel_app; auto.
Qed.
Lemma filter_comm {A} (p q : A -> bool) l : filter p (filter q l) = filter q (filter p l).
Proof. induction l as [|a l IH]; auto. cbn. destruct (p a) eqn:P, (q a) eqn:Q; cbn; rewrite ?P, ?Q, ?IH; auto. Qed.
Lemma filter_and {A} (p q : A -> bool) l : filter (fun x => p x && q x) l = filter p (filter q l).
Proof. induction l as [|a l IH]; auto. cbn. destruct (q a) eqn:Q; cbn; [|rewrite andb_false_r; auto]. rewrite andb_true_r. destruct (p a); rewrite IH; auto. Qed.
Lemma flat_made_app {A} (h : A -> list (source M)) ks : flat_map (fun k => flat_map made (h k)) ks = flat_map made (flat_map h ks).
Proof. induction ks as [|k ks IH]; auto. cbn. rewrite IH, flat_map_app. auto. Qed.

Definition in_kinds (ks : list nat) (e : source M) : bool := match kind_of e with Some i => existsb (Nat.eqb i) ks | None => false end.
Lemma kinds_perm ks l : NoDup ks -> Permutation (flat_map (fun k => filter (of_kind k) l) ks) (filter (in_kinds ks) l).
Proof.
  intros ND. assert (E : flat_map (fun k => filter (of_kind k) l) ks =
    flat_map (fun k => filter (fun e => Nat.eqb (match kind_of e with Some i => i | None => 0 end) k) (filter (in_kinds ks) l)) ks).
  { assert (G : forall js, incl js ks -> flat_map (fun k => filter (of_kind k) l) js =
      flat_map (fun k => filter (fun e => Nat.eqb (match kind_of e with Some i => i | None => 0 end) k) (filter (in_kinds ks) l)) js).
    { induction js as [|k js IH]; intros I; auto. cbn. f_equal; [|apply IH; intros x J; apply I; right; auto].
      assert (J : In k ks) by (apply I; left; auto). clear - J.
      induction l as [|e l IH]; auto. cbn. unfold of_kind at 1, in_kinds at 1. destruct (kind_of e) as [i|] eqn:K; cbn; auto.
      destruct (Nat.eqb_spec i k) as [->|N].
      - replace (existsb (Nat.eqb k) ks) with true.
        + cbn. rewrite K, Nat.eqb_refl, IH. auto.
        + symmetry. apply existsb_exists. exists k. split; auto. apply Nat.eqb_refl.
      - destruct (existsb (Nat.eqb i) ks); cbn; auto. rewrite K. apply Nat.eqb_neq in N. rewrite N. auto. }
    apply G. intros x J. auto. }
  rewrite E. apply (parts_perm Nat.eqb); auto.
  - intros. apply Nat.eqb_eq.
  - intros e J. apply filter_In in J. destruct J as (_ & J). unfold in_kinds in J. destruct (kind_of e) as [i|]; [|discriminate].
    apply existsb_exists in J. destruct J as (k & J & X). apply Nat.eqb_eq in X. subst. auto.
Qed.

Lemma listed t l : holds t l ->
  (exists ps, partition_names t = Ok ps /\ NoDup ps /\ (forall e, In e l -> In (sr_name e) ps)) /\
  (forall P, exists ls, layer_names_in t P = Ok ls /\ NoDup ls /\ (forall L, In L ls <-> exists e, In e l /\ sr_name e = P /\ sr_attr e = L)).
Proof.
  intros (hp & calls & f & ocs & v & gl & U & O & W & -> & ->).
  destruct (C23_listing M ident map_kids map_ok hp calls f ocs v gl U O W) as ((ps & E & I & A & _) & B). split.
  - exists ps. split; auto. split; [apply increasing_nodup; auto|]. intros e J. apply in_map_iff in J. destruct J as (w & <- & J). apply A. auto.
  - intros P. destruct (B P) as (ls & E' & I' & C). exists ls. split; auto. split; [apply increasing_nodup; auto|]. intros L. rewrite C. split.
    + intros (w & J & X & Y). eexists. split; [apply in_map; exact J|]. auto.
    + intros (e & J & X & Y). apply in_map_iff in J. destruct J as (w & <- & J). exists w. auto.
Qed.
Lemma holds_usable t l : holds t l -> forall e, In e l -> ~ In 0%Z (sr_name e) /\ ~ In 47%Z (sr_name e) /\ good_name (sr_attr e) /\ sr_attr e <> str "mapping" /\ ~ In 47%Z (sr_attr e).
Proof.
  intros (hp & calls & f & ocs & v & gl & U & O & W & -> & ->) e J.
  apply in_map_iff in J. destruct J as (w & <- & J). cbn.
  destruct (C23_write_outcomes M ident map_kids map_ok hp o_new calls eq_refl U O) as (f' & ocs' & W' & _ & Q).
  rewrite W in W'. injection W' as <- <-. specialize (Q refl sym).
  assert (K : In w calls /\ ~ In 47%Z (w_user w) /\ ~ In 47%Z (w_layer w)).
  { clear - Q J. induction Q as [|c oc calls ocs X Q IH]; [destruct J|]. unfold accepted in J. cbn in J. destruct oc; cbn in J.
    - destruct J as [<-|J]; [split; [left; auto|apply X; auto]|]. destruct (IH J) as (A & B). split; [right|]; auto.
    - destruct (IH J) as (A & B). split; [right|]; auto.
    - destruct (IH J) as (A & B). split; [right|]; auto. }
  destruct K as (K & A & B). rewrite Forall_forall in U. destruct (U w K) as (C & D & E). auto.
Qed.

Lemma part_by_layers P ks ls l : NoDup ls -> (forall e, In e l -> of_part P e = true -> In (sr_attr e) ls) ->
  Permutation (flat_map (fun L => if want_layer L then flat_map made (filter (in_kinds ks) (filter (fun e => of_part P e && of_layer L e) l)) else []) ls)
    (flat_map made (filter (fun e => in_kinds ks e && (of_part P e && want_layer (sr_attr e))) l)).
Proof.
  intros ND C.
  set (l' := filter (fun e => in_kinds ks e && (of_part P e && want_layer (sr_attr e))) l).
  assert (E : flat_map (fun L => if want_layer L then flat_map made (filter (in_kinds ks) (filter (fun e => of_part P e && of_layer L e) l)) else []) ls =
    flat_map made (flat_map (fun L => filter (fun e => bytes_eqb (sr_attr e) L) l') ls)).
  { clear C ND. induction ls as [|L ls IH]; auto. cbn. rewrite IH, flat_map_app. f_equal.
    assert (F : filter (fun e => bytes_eqb (sr_attr e) L) l' =
       if want_layer L then filter (in_kinds ks) (filter (fun e => of_part P e && of_layer L e) l) else []).
    { unfold l'. clear. induction l as [|e l IH]; [destruct (want_layer L); auto|]. cbn. unfold of_layer.
      destruct (in_kinds ks e) eqn:K, (of_part P e) eqn:Q; cbn; try (rewrite IH; destruct (want_layer L); auto; fail).
      - destruct (want_layer (sr_attr e)) eqn:Wl; cbn.
        + destruct (bytes_eqb (sr_attr e) L) eqn:B; [apply beq_iff in B; subst L; rewrite Wl in *; cbn; rewrite K, IH; auto|rewrite IH; auto].
        + destruct (bytes_eqb (sr_attr e) L) eqn:B; [apply beq_iff in B; subst L; rewrite Wl in *; auto|rewrite IH; auto].
      - destruct (bytes_eqb (sr_attr e) L); cbn; rewrite ?K; auto. }
    rewrite F. destruct (want_layer L); auto. }
  rewrite E. apply flat_perm. apply (parts_perm bytes_eqb); auto; [apply beq_iff|].
  intros e J. apply filter_In in J. destruct J as (J & X). apply andb_prop in X. destruct X as (_ & X). apply andb_prop in X. destruct X. apply C; auto.
Qed.
Lemma visit_layers_ok t l P ks ls : holds t l -> Forall safe l -> NoDup ks -> P <> [] -> NoDup ls ->
  (forall L, In L ls <-> exists e, In e l /\ sr_name e = P /\ sr_attr e = L) ->
  exists xs, visit_layers read_map kind want_layer outs crashes t P ks ls = Ok xs /\
    rel from xs (flat_map made (filter (fun e => in_kinds ks e && (of_part P e && want_layer (sr_attr e))) l)).
Proof.
  intros H Sf NK NP ND C. unfold visit_layers.
  edestruct (visit_all_ok from (fun L => if want_layer L then visit_all (visit_kind read_map kind outs crashes t P L) ks else Ok [])
    (fun L => if want_layer L then flat_map made (filter (in_kinds ks) (filter (fun e => of_part P e && of_layer L e) l)) else []) ls) as (xs & E & R).
  - intros L J. destruct (want_layer L); [|exists []; split; [auto|apply rel_nil]].
    assert (NL : L <> []). { apply C in J. destruct J as (e & J & _ & <-). apply (holds_usable t l H e J). }
    destruct (visit_all_ok from (visit_kind read_map kind outs crashes t P L)
      (fun k => flat_map made (filter (of_kind k) (filter (fun e => of_part P e && of_layer L e) l))) ks) as (xs & E & R).
    + intros k _. apply visit_kind_ok; auto.
    + exists xs. split; auto. eapply rel_perm; [exact R|]. rewrite flat_made_app. apply flat_perm, kinds_perm. auto.
  - exists xs. split; auto. eapply rel_perm; [exact R|]. apply part_by_layers; auto.
    intros e J K. apply C. exists e. split; auto. split; auto. apply beq_iff. exact K.
Qed.
Lemma six_kinds e : in_kinds [0; 1; 2] e || in_kinds [3; 4; 5] e = match kind_of e with Some i => Nat.ltb i 6 | None => false end.
Proof. unfold in_kinds. destruct (kind_of e) as [i|]; auto. do 6 (destruct i as [|i]; [reflexivity|]). reflexivity. Qed.
Lemma both_kinds q l : Permutation (filter (fun e => in_kinds [0; 1; 2] e && q e) l ++ filter (fun e => in_kinds [3; 4; 5] e && q e) l)
  (filter (fun e => q e && match kind_of e with Some i => Nat.ltb i 6 | None => false end) l).
Proof.
  induction l as [|e l IH]; auto. cbn [filter]. rewrite <- six_kinds.
  assert (X : in_kinds [0; 1; 2] e = true -> in_kinds [3; 4; 5] e = false).
  { unfold in_kinds. destruct (kind_of e) as [i|]; auto. do 3 (destruct i as [|i]; [reflexivity|]). discriminate. }
  destruct (in_kinds [0; 1; 2] e) eqn:A.
  - rewrite X by auto. destruct (q e); cbn; auto.
  - destruct (in_kinds [3; 4; 5] e), (q e); cbn; auto. etransitivity; [apply Permutation_sym, Permutation_middle|]. auto.
Qed.
Lemma visit_part_ok t l P : holds t l -> Forall safe l -> P <> [] ->
  exists xs, visit_part read_map kind want_part want_layer outs crashes t P = Ok xs /\ rel from xs (expected (filter (of_part P) l)).
Proof.
  intros H Sf NP. unfold visit_part. destruct (listed t l H) as (_ & L). destruct (L P) as (ls & E & ND & C).
  assert (X : expected (filter (of_part P) l) = if want_part P then
      flat_map made (filter (fun e => (of_part P e && want_layer (sr_attr e)) && match kind_of e with Some i => Nat.ltb i 6 | None => false end) l) else []).
  { unfold ToolSpec.expected. fold made. clear. destruct (want_part P) eqn:Wp.
    - f_equal. induction l as [|e l IH]; auto. cbn [filter]. destruct (of_part P e) eqn:B; cbn [andb filter]; auto.
      apply beq_iff in B. rewrite B, Wp. cbn [andb]. unfold kind_of. destruct (want_layer (sr_attr e) && _); rewrite IH; auto.
    - induction l as [|e l IH]; auto. cbn [filter]. destruct (of_part P e) eqn:B; cbn [filter]; auto.
      apply beq_iff in B. rewrite B, Wp. auto. }
  rewrite X. destruct (want_part P); [|exists []; split; [auto|apply rel_nil]]. rewrite E. cbn [bind].
  assert (N1 : NoDup [0; 1; 2]) by (repeat constructor; cbn; lia). assert (N2 : NoDup [3; 4; 5]) by (repeat constructor; cbn; lia).
  destruct (visit_layers_ok t l P _ ls H Sf N1 NP ND C) as (a & Ea & Ra). destruct (visit_layers_ok t l P _ ls H Sf N2 NP ND C) as (b & Eb & Rb).
  rewrite Ea. cbn [bind]. rewrite Eb. cbn [bind]. exists (a ++ b). split; auto. eapply rel_perm; [apply rel_app; eauto|].
  rewrite <- flat_map_app. apply flat_perm. apply both_kinds.
Qed.
Lemma expected_app a b : expected (a ++ b) = expected a ++ expected b.
Proof. unfold ToolSpec.expected. rewrite filter_app, flat_map_app. auto. Qed.
Lemma expected_perm a b : Permutation a b -> Permutation (expected a) (expected b).
Proof. intros P. unfold ToolSpec.expected. apply flat_perm. apply perm_filter. auto. Qed.
Lemma expected_flat {A} (h : A -> list (source M)) ks : flat_map (fun k => expected (h k)) ks = expected (flat_map h ks).
Proof. induction ks as [|k ks IH]; auto. cbn [flat_map]. rewrite IH, expected_app. auto. Qed.
Lemma visit_file_ok t l : holds t l -> Forall safe l -> (forall e, In e l -> sr_name e <> []) ->
  exists xs, visit_file read_map kind want_part want_layer outs crashes t = Ok xs /\ rel from xs (expected l).
Proof.
  intros H Sf NE. unfold visit_file. destruct (listed t l H) as ((ps & E & ND & C) & L). rewrite E. cbn [bind].
  destruct (visit_all_ok from (visit_part read_map kind want_part want_layer outs crashes t) (fun P => expected (filter (of_part P) l)) ps) as (xs & Ex & R).
  - intros P _. destruct P as [|c P']; [|apply visit_part_ok; auto; discriminate].
    destruct (L []) as (ls & El & _ & Cl). unfold visit_part. rewrite El. cbn [bind].
    assert (Z : ls = []). { destruct ls as [|L0 ls]; auto. destruct (proj1 (Cl L0) (or_introl eq_refl)) as (e & J & X & _). destruct (NE e J X). }
    rewrite Z. cbn. exists []. split; [destruct (want_part []); auto|].
    assert (F : filter (of_part []) l = []).
    { clear - NE. induction l as [|e l IH]; auto. cbn. rewrite IH by (intros; apply NE; right; auto).
      unfold of_part. destruct (bytes_eqb (sr_name e) []) eqn:B; auto. apply beq_iff in B. destruct (NE e (or_introl eq_refl) B). }
    rewrite F. apply rel_nil.
  - exists xs. split; auto. eapply rel_perm; [exact R|]. rewrite expected_flat. apply expected_perm.
    apply (parts_perm bytes_eqb); auto. apply beq_iff.
Qed.
Lemma visit_files_ok fs inputs : forall ls,
  Forall2 (input ident map_kids map_ok crashes fs) inputs ls ->
  exists xs, visit_files read_map kind want_part want_layer outs crashes fs inputs = Ok (Some xs) /\ rel from xs (expected (List.concat ls)).
Proof.
  intros ls F. induction F as [|n l inputs ls (t & E & H & Sf & NE) F (b & Eb & Rb)].
  - exists []. split; auto. apply rel_nil.
  - destruct (visit_file_ok t l H Sf NE) as (a & Ea & Ra). cbn [visit_files List.concat]. rewrite E, Ea. cbn [bind]. rewrite Eb. cbn [bind].
    exists (a ++ b). split; auto. rewrite expected_app. apply rel_app; auto.
Qed.
Lemma visit_files_missing fs inputs n rest : forall ls,
  Forall2 (input ident map_kids map_ok crashes fs) inputs ls ->
  (forall t, fs n <> Some (Whole t)) ->
  visit_files read_map kind want_part want_layer outs crashes fs (inputs ++ n :: rest) = Ok None.
Proof.
  intros ls F N. induction F as [|m l inputs ls (t & E & H & Sf & NE) F IH]; cbn.
  - destruct (fs n) as [[t|]|] eqn:X; auto. destruct (N t); auto.
  - destruct (visit_file_ok t l H Sf NE) as (a & Ea & Ra). rewrite E, Ea. cbn [bind]. rewrite IH. reflexivity.
Qed.

(** * Writing *)
Lemma calls_in (xs : list (ofield M)) w : In w (calls_of xs) -> exists n x, nth_error xs n = Some x /\ w = Wr (of_name x) (of_attr x) n (of_body x).
Proof.
  unfold calls_of. intros J. apply in_map_iff in J. destruct J as ((n & x) & <- & J). exists n, x. split; auto. cbn in *.
  apply In_nth_error in J. destruct J as (i & J).
  assert (G : forall (xs : list (ofield M)) s i, nth_error (combine (seq s (List.length xs)) xs) i = Some (n, x) -> n = s + i /\ nth_error xs i = Some x).
  { clear. induction xs as [|y xs IH]; intros s i H; [destruct i; discriminate|]. destruct i; cbn in H.
    - injection H as <- <-. split; auto.
    - apply IH in H. destruct H. split; [lia|auto]. }
  apply G in J. destruct J as (-> & J). exact J.
Qed.
Lemma heap_at (xs : list (ofield M)) n x : nth_error xs n = Some x -> heap_of read_map xs n = of_map x.
Proof. intros H. unfold heap_of. apply nth_error_nth. rewrite nth_error_map, H. auto. Qed.
Lemma calls_rel (xs : list (ofield M)) :
  Forall2 (fun w x => exists n, nth_error xs n = Some x /\ w = Wr (of_name x) (of_attr x) n (of_body x)) (calls_of xs) xs.
Proof.
  unfold calls_of. assert (G : forall ys s, (forall i y, nth_error ys i = Some y -> nth_error xs (s + i) = Some y) ->
    Forall2 (fun w x => exists n, nth_error xs n = Some x /\ w = Wr (of_name x) (of_attr x) n (of_body x))
      (map (fun p => Wr (of_name (snd p)) (of_attr (snd p)) (fst p) (of_body (snd p))) (combine (seq s (List.length ys)) ys)) ys).
  { induction ys as [|y ys IH]; intros s H; cbn; constructor.
    - exists s. split; auto. rewrite <- (Nat.add_0_r s). apply H. auto.
    - apply IH. intros i z J. replace (S s + i) with (s + S i) by lia. apply H. auto. }
  apply G. auto.
Qed.
Lemma accepted_all calls : accepted calls (repeat Accepted (List.length calls)) = calls.
Proof. unfold accepted. induction calls as [|w ws IH]; auto. cbn. f_equal. auto. Qed.
Lemma all_accepted (calls : list wr) ocs : Forall2 (fun w oc => oc = Accepted <-> ~ In 47%Z (w_user w) /\ ~ In 47%Z (w_layer w)) calls ocs ->
  (forall w, In w calls -> ~ In 47%Z (w_user w) /\ ~ In 47%Z (w_layer w)) -> ocs = repeat Accepted (List.length calls).
Proof.
  induction 1 as [|w oc ws ocs X F IH]; intros H; auto. cbn. f_equal; [apply X; apply H; left; auto|]. apply IH. intros v J. apply H. right. auto.
Qed.

Lemma write_fields xs E : rel from xs E -> usable_outs outs ->
  (forall e, In e E -> ~ In 0%Z (sr_name e) /\ ~ In 47%Z (sr_name e) /\ good_name (sr_attr e) /\ sr_attr e <> str "mapping" /\ ~ In 47%Z (sr_attr e)) ->
  (forall m, map_ok m = true) ->
  exists f, write_all ident map_kids map_ok (heap_of read_map xs) o_new (calls_of xs) = Ok (f, repeat Accepted (List.length (calls_of xs))) /\
    forall v gl, (forall P L, P <> [] -> L <> [] -> exists layers, read_layers (file_tree v f gl) P L = Ok layers /\
      rel (shows ident map_kids) layers (filter (fun e => of_part P e && of_layer L e) E)) /\
      (forall L, exists layers, read_layers_all (file_tree v f gl) L = Ok layers /\
        rel (shows ident map_kids) layers (filter (fun e => is_nil L || of_layer L e) E)).
Proof.
  intros (src & Pm & Fr) FU Us MO.
  assert (K : forall w, In w (calls_of xs) -> usable w /\ ~ In 47%Z (w_user w) /\ ~ In 47%Z (w_layer w)).
  { intros w J. apply calls_in in J. destruct J as (n & x & N & ->). cbn. apply nth_error_In in N.
    destruct (forall2_in _ _ _ _ Fr N) as (e & J & (A & B & C & _)). apply (Permutation_in _ Pm) in J. destruct (Us e J) as (U1 & U2 & U3 & U4 & U5).
    unfold usable. cbn. rewrite A, B. auto. }
  assert (UC : Forall usable (calls_of xs)) by (apply Forall_forall; intros w J; apply K; auto).
  assert (OC : Forall (fun w => map_ok (heap_of read_map xs (w_ref w)) = true) (calls_of xs)) by (apply Forall_forall; auto).
  destruct (C23_write_outcomes M ident map_kids map_ok (heap_of read_map xs) o_new (calls_of xs) eq_refl UC OC) as (f & ocs & W & _ & Q).
  specialize (Q refl sym). assert (Eo : ocs = repeat Accepted (List.length (calls_of xs))) by (apply all_accepted; auto; intros w J; apply K; auto).
  subst ocs. exists f. split; auto.
  assert (G : forall (q : bytes -> bytes -> bool) layers srcs,
    Permutation srcs (filter (fun w => q (w_user w) (w_layer w)) (calls_of xs)) ->
    Forall2 (reads_as ident map_kids (heap_of read_map xs)) layers srcs ->
    rel (shows ident map_kids) layers (filter (fun e => q (sr_name e) (sr_attr e)) E)).
  { intros q layers srcs Ps F.
    assert (R1 : rel (fun w e => w_user w = sr_name e /\ w_layer w = sr_attr e /\ w_body w = sr_body e /\ ident (sr_map e) (heap_of read_map xs (w_ref w)) = true)
                   (calls_of xs) E).
    { exists src. split; auto. clear - Fr. pose proof (calls_rel xs) as C. remember (calls_of xs) as cs. clear Heqcs.
      assert (G : forall ys, Forall2 (fun w x => exists n, nth_error xs n = Some x /\ w = Wr (of_name x) (of_attr x) n (of_body x)) cs ys ->
        Forall2 from ys src -> Forall2 (fun w e => w_user w = sr_name e /\ w_layer w = sr_attr e /\ w_body w = sr_body e /\
            ident (sr_map e) (heap_of read_map xs (w_ref w)) = true) cs src).
      { clear. intros ys C. revert src. induction C as [|w y cs ys (n & N & ->) C IH]; intros src F; inversion F; subst; constructor; auto.
        destruct H1 as (A & B & D & I). cbn. rewrite (heap_at _ _ _ N). auto. }
      apply (G xs); auto. }
    apply (rel_filter _ (fun w => q (w_user w) (w_layer w)) (fun e => q (sr_name e) (sr_attr e))) in R1; [|intros x y (A & B & _); rewrite A, B; auto].
    destruct R1 as (s2 & P2 & F2).
    assert (R3 : forall (a b : list wr) (c : list (source M)) (R : wr -> source M -> Prop), Permutation a b -> Forall2 R b c -> exists c', Permutation c' c /\ Forall2 R a c').
    { clear. intros a b c R P. revert c. induction P as [|x a b P IH|x y l|a b d P IH P' IH']; intros c F.
      - inversion F. subst. exists []. auto.
      - inversion F as [|? e ? c0 X Fc]; subst. destruct (IH _ Fc) as (c' & Pc & F'). exists (e :: c'). split; auto.
      - inversion F as [|? e1 ? c1 X1 F1]; subst. inversion F1 as [|? e2 ? c2 X2 F2]; subst. exists (e2 :: e1 :: c2). split; [constructor|]. auto.
      - destruct (IH' _ F) as (c1 & P1 & F1). destruct (IH _ F1) as (c2 & P2 & F2). exists c2. split; auto. etransitivity; eauto. }
    destruct (R3 _ _ _ _ Ps F2) as (s3 & P3 & F3). exists s3. split; [etransitivity; eauto|]. clear - F F3.
    revert s3 F3. induction F as [|x w layers srcs (A & B & C & r & D & I) F IH]; intros s3 F3; inversion F3 as [|? e ? s4 (A' & B' & C' & I') F4]; subst; constructor; auto.
    unfold shows. rewrite A, B, C, A', B', C'. repeat split; auto. exists (heap_of read_map xs (w_ref w)), (heap_of read_map xs r). auto. }
  intros v gl. split.
  - intros P L NP NL. destruct (C23_layers_read M ident map_kids map_ok _ o_new (calls_of xs) f _ v gl P L eq_refl UC OC W NP NL) as (layers & srcs & R & Ps & F).
    exists layers. split; auto. rewrite accepted_all in Ps. apply (G (fun u a => bytes_eqb u P && bytes_eqb a L) layers srcs); auto.
  - intros L. destruct (C23_all_layers_read M ident map_kids map_ok _ o_new (calls_of xs) f _ v gl L eq_refl UC OC W) as (layers & srcs & R & Ps & F).
    exists layers. split; auto. rewrite accepted_all in Ps. apply (G (fun u a => is_nil L || bytes_eqb a L) layers srcs); auto.
Qed.
Lemma expected_usable l : usable_outs outs ->
  (forall e, In e l -> ~ In 0%Z (sr_name e) /\ ~ In 47%Z (sr_name e) /\ good_name (sr_attr e) /\ sr_attr e <> str "mapping" /\ ~ In 47%Z (sr_attr e)) ->
  (forall e, In e (expected l) -> ~ In 0%Z (sr_name e) /\ ~ In 47%Z (sr_name e) /\ good_name (sr_attr e) /\ sr_attr e <> str "mapping" /\ ~ In 47%Z (sr_attr e)).
Proof.
  intros FU Us e J. unfold ToolSpec.expected in J. apply in_flat_map in J. destruct J as (d & J & K). apply filter_In in J. destruct J as (J & _).
  apply in_map_iff in K. destruct K as (o & <- & K). cbn. destruct (Us d J) as (A & B & C & D & E). split; auto. split; auto. apply (FU (sr_attr d) _ o C D E K).
Qed.
Lemma put_same fs n d : put fs n d n = Some d.
Proof. unfold put. rewrite (proj2 (beq_iff n n)); auto. Qed.
Lemma put_other fs n d m : m <> n -> put fs n d m = fs m.
Proof. intros N. unfold put. destruct (bytes_eqb m n) eqn:B; auto. apply beq_iff in B. contradiction. Qed.
Lemma inputs_put fs out d inputs ls : ~ In out inputs ->
  Forall2 (input ident map_kids map_ok crashes fs) inputs ls ->
  Forall2 (input ident map_kids map_ok crashes (put fs out d)) inputs ls.
Proof.
  intros N F. induction F as [|n l inputs ls (t & A & B) F IH]; constructor.
  - exists t. split; auto. rewrite put_other; auto. intros ->. apply N. left. auto.
  - apply IH. intros J. apply N. right. auto.
Qed.
Lemma tool_ok fs inputs ls out : usable_outs outs -> (forall m, map_ok m = true) -> ~ In out inputs ->
  Forall2 (input ident map_kids map_ok crashes fs) inputs ls ->
  exists f, tool ident map_kids map_ok read_map kind want_part want_layer outs crashes version true fs inputs out = Ok (0%Z, put fs out (Whole (file_tree version f None))) /\
    (forall P L, P <> [] -> L <> [] -> exists layers, read_layers (file_tree version f None) P L = Ok layers /\
      rel (shows ident map_kids) layers (filter (fun e => of_part P e && of_layer L e) (expected (List.concat ls)))) /\
    (forall L, exists layers, read_layers_all (file_tree version f None) L = Ok layers /\
      rel (shows ident map_kids) layers (filter (fun e => is_nil L || of_layer L e) (expected (List.concat ls)))).
Proof.
  intros FU MO N F. unfold tool. cbn [negb].
  destruct (visit_files_ok (put fs out Cut) inputs ls (inputs_put _ _ _ _ _ N F)) as (xs & Ex & R). rewrite Ex. cbn [bind].
  assert (Us : forall e, In e (List.concat ls) -> ~ In 0%Z (sr_name e) /\ ~ In 47%Z (sr_name e) /\ good_name (sr_attr e) /\ sr_attr e <> str "mapping" /\ ~ In 47%Z (sr_attr e)).
  { intros e J. apply in_concat in J. destruct J as (l & J & K). clear - J K F refl sym. induction F as [|n l' inputs ls (t & A & B & Sf & C) F IH]; [destruct J|].
    destruct J as [<-|J]; [apply (holds_usable t l' B e K)|]. apply IH; auto. }
  destruct (write_fields xs _ R FU (expected_usable _ FU Us) MO) as (f & W & Q). rewrite W. cbn [bind].
  assert (T : existsb (fun o => match o with Threw => true | _ => false end) (repeat Accepted (List.length (calls_of xs))) = false) by (clear; induction (List.length (calls_of xs)); auto).
  rewrite T. exists f. split; auto.
Qed.
Lemma tool_missing fs inputs ls n rest out : ~ In out inputs ->
  Forall2 (input ident map_kids map_ok crashes fs) inputs ls -> (n = out \/ forall t, fs n <> Some (Whole t)) ->
  tool ident map_kids map_ok read_map kind want_part want_layer outs crashes version true fs (inputs ++ n :: rest) out = Ok (1%Z, put fs out Cut).
Proof.
  intros N F X. unfold tool. cbn [negb].
  rewrite (visit_files_missing (put fs out Cut) inputs n rest ls (inputs_put _ _ _ _ _ N F)); auto.
  intros t. destruct (bytes_eqb_spec n out) as [->|NE]; [rewrite put_same; discriminate|]. rewrite put_other by auto. destruct X; [contradiction|auto].
Qed.
Lemma tool_others creatable fs inputs out status fs' :
  tool ident map_kids map_ok read_map kind want_part want_layer outs crashes version creatable fs inputs out = Ok (status, fs') ->
  forall n, n <> out -> fs' n = fs n.
Proof.
  unfold tool. intros H n N. destruct creatable; cbn [negb] in H; [|congruence].
  destruct (visit_files _ _ _ _ _ _ _ inputs) as [[l|]| |]; cbn [bind] in H; try discriminate.
  - destruct (write_all _ _ _ _ _ _) as [[f ocs]| |]; cbn [bind] in H; try discriminate.
    destruct (existsb _ ocs); injection H as _ <-; apply put_other; auto.
  - injection H as _ <-. apply put_other. auto.
Qed.
End Tool.
