(** Proofs about patterns, sequences and registration. *)
From Coq Require Import ZArith List Bool Lia Permutation.
From Verif Require Import Model.Base Model.OgM Proof.OgP Model.FieldIOM Model.FileM Proof.FileP Model.PatternM Model.SequenceM Model.FactoryM Spec.NameSpec.
Import ListNotations.
Open Scope Z_scope.

(** ** Patterns *)
Lemma c_str_text s : text s -> c_str s = s.
Proof.
  induction s as [|c s IH]; intros T; auto. cbn. destruct (Z.eqb_spec c 0).
  - exfalso. apply T. left. auto.
  - rewrite IH; auto. intros I. apply T. right. auto.
Qed.
Lemma loop_spec hit l : forall found excluded,
  match_loop hit l found excluded = true <->
  (found = true \/ exists p, In p l /\ p <> [] /\ is_exclusion p = false /\ hit (pattern_of p) = true) /\
  (excluded = false /\ forall p, In p l -> is_exclusion p = true -> hit (pattern_of p) = false).
Proof.
  induction l as [|i l IH]; intros found excluded; cbn [match_loop].
  - rewrite andb_true_iff, negb_true_iff. split.
    + intros (A & B). repeat split; auto. intros p [].
    + intros ([A|(p & [] & _)] & B & _). auto.
  - assert (SK : (i = [] \/ hit (pattern_of i) = false) ->
      (match_loop hit l found excluded = true <->
       (found = true \/ (exists p, In p (i :: l) /\ p <> [] /\ is_exclusion p = false /\ hit (pattern_of p) = true)) /\
       excluded = false /\ (forall p, In p (i :: l) -> is_exclusion p = true -> hit (pattern_of p) = false))).
    { intros K. rewrite IH. split; intros (A & B & C).
      - split; [destruct A as [A|(p & P)]; [auto|right; exists p; intuition]|]. split; auto.
        intros p [<-|P]; auto. intros X. destruct K as [->|K]; [discriminate|auto].
      - split; [|split; [auto|intros p P; apply C; right; auto]]. destruct A as [A|(p & [<-|P] & Q)]; auto.
        + destruct K as [K|K]; [tauto|]. destruct Q as (_ & _ & Q). congruence.
        + right. exists p. auto. }
    destruct i as [|c i']; [apply SK; auto|].
    destruct (hit (pattern_of (c :: i'))) eqn:H; [|apply SK; auto].
    destruct (is_exclusion (c :: i')) eqn:X; rewrite IH; split; intros (A & B & C).
    + discriminate.
    + exfalso. rewrite (C (c :: i')) in H; [discriminate|left; auto|auto].
    + split; [right; exists (c :: i'); repeat split; auto; [left; auto|congruence]|]. split; auto.
      intros p [<-|P]; auto. congruence.
    + split; auto. split; auto. intros p P. apply C. right. auto.
Qed.
Lemma exclusion_iff p : is_exclusion p = true <-> exists q, excludes p q.
Proof.
  unfold is_exclusion, excludes. destruct p as [|c p].
  - split; [discriminate|]. intros (q & [X|X]); discriminate.
  - rewrite orb_true_iff, !Z.eqb_eq. split.
    + intros [->| ->]; exists p; auto.
    + intros (q & [X|X]); injection X; auto.
Qed.
Lemma excludes_pattern p q : excludes p q -> is_exclusion p = true /\ pattern_of p = q.
Proof. unfold pattern_of. intros [-> | ->]; auto. Qed.
Lemma includes_iff p : (p <> [] /\ is_exclusion p = false) <-> includes p p.
Proof.
  unfold includes, is_exclusion. destruct p as [|c p]; cbn; [intuition congruence|].
  rewrite orb_false_iff, !Z.eqb_neq. intuition congruence.
Qed.
Lemma colon_split p : has_colon p = true -> exists a b, p = a ++ 58 :: b /\ ~ In 58 a /\ after_colon p = b.
Proof.
  unfold has_colon. induction p as [|c p IH]; [discriminate|]. cbn [existsb after_colon]. destruct (Z.eqb_spec c 58) as [->|N].
  - intros _. exists [], p. repeat split; auto.
  - destruct (Z.eqb_spec 58 c) as [X|_]; [congruence|]. cbn [orb]. intros H. destruct (IH H) as (a & b & -> & A & B).
    exists (c :: a), b. repeat split; auto. intros [X|X]; auto.
Qed.
Lemma no_colon p : has_colon p = false <-> ~ In 58 p.
Proof.
  unfold has_colon. rewrite <- not_true_iff_false, existsb_exists. split.
  - intros H I. apply H. exists 58. auto.
  - intros H (x & I & E). apply Z.eqb_eq in E. subst. auto.
Qed.
Lemma after_colon_eq a b : ~ In 58 a -> after_colon (a ++ 58 :: b) = b.
Proof.
  induction a as [|c a IH]; intros H; cbn; auto. destruct (Z.eqb_spec c 58) as [->|].
  - exfalso. apply H. left; auto.
  - apply IH. intros I. apply H. right; auto.
Qed.
Lemma has_colon_app a b : has_colon (a ++ 58 :: b) = true.
Proof. unfold has_colon. rewrite existsb_app. cbn. apply orb_true_r. Qed.

(** Splitting. *)
Section Split.
Variable sep : Z -> bool.
Lemma split_token t : forall acc s, (forall c, In c t -> sep c = false) -> split_from sep (t ++ s) acc = split_from sep s (rev t ++ acc).
Proof.
  induction t as [|c t IH]; intros acc s H; auto. cbn. rewrite H by (left; auto). rewrite IH by (intros; apply H; right; auto).
  rewrite <- app_assoc. reflexivity.
Qed.
Lemma split_done s acc : acc <> [] -> (s = [] \/ exists c r, s = c :: r /\ sep c = true) ->
  split_from sep s acc = rev acc :: split_from sep (tl s) [].
Proof.
  intros A [->|(c & r & -> & C)]; cbn; [|rewrite C]; destruct acc; auto; congruence.
Qed.
Lemma split_sound s l : tokens (fun c => sep c = true) s l -> split_from sep s [] = l.
Proof.
  induction 1 as [|c s l C T IH|t N F|t c s l N F C T IH].
  - reflexivity.
  - cbn. rewrite C. auto.
  - rewrite <- (app_nil_r t) at 1. rewrite split_token by (intros c I; apply not_true_iff_false; auto). rewrite app_nil_r.
    cbn. destruct (rev t) as [|a b] eqn:E. { apply (f_equal (@rev Z)) in E. rewrite rev_involutive in E. cbn in E. congruence. }
    rewrite <- E, rev_involutive. auto.
  - rewrite split_token by (intros d I; apply not_true_iff_false; auto). rewrite app_nil_r. cbn. rewrite C.
    destruct (rev t) as [|a b] eqn:E. { apply (f_equal (@rev Z)) in E. rewrite rev_involutive in E. cbn in E. congruence. }
    rewrite <- E, rev_involutive, IH. auto.
Qed.
Lemma tokens_exist s : exists l, tokens (fun c => sep c = true) s l.
Proof.
  assert (G : forall n s, (length s <= n)%nat -> exists l, tokens (fun c => sep c = true) s l).
  { clear s. induction n as [|n IH]; intros s L.
    - destruct s; [|cbn in L; lia]. exists []. constructor.
    - assert (D : forall s : list Z, exists t r, s = t ++ r /\ (forall c, In c t -> sep c = false) /\ (r = [] \/ exists c r', r = c :: r' /\ sep c = true)).
      { clear. induction s as [|c s (t & r & -> & F & E)]; [exists [], []; cbn; intuition|]. destruct (sep c) eqn:C.
        - exists [], (c :: t ++ r). split; [auto|]. split; [intros d []|]. right. exists c, (t ++ r). auto.
        - exists (c :: t), r. split; auto. split; auto. intros d [<-|I]; auto. }
      destruct (D s) as (t & r & -> & F & E). destruct t as [|a t].
      + cbn in *. destruct E as [->|(c & r' & -> & C)]; [exists []; constructor|].
        destruct (IH r') as (l & T); [cbn in L; lia|]. exists l. constructor; auto.
      + assert (F' : forall c, In c (a :: t) -> ~ sep c = true) by (intros c I; rewrite F by auto; discriminate).
        destruct E as [->|(c & r' & -> & C)].
        * exists [a :: t]. rewrite app_nil_r. apply tokens_last; auto. congruence.
        * destruct (IH r') as (l & T); [rewrite app_length in L; cbn in L; lia|]. exists ((a :: t) :: l). apply tokens_cons; auto. congruence. }
  apply (G (length s)). auto.
Qed.
Lemma split_iff s l : split_from sep s [] = l <-> tokens (fun c => sep c = true) s l.
Proof.
  split; [|apply split_sound]. intros <-. destruct (tokens_exist s) as (l & T). rewrite (split_sound _ _ T). auto.
Qed.
End Split.

(** ** Registration *)
Lemma lookup_register key m f name : lookup (register_with key m f) name =
  match lookup m name with
  | Some g => Some g
  | None => match cr_makes f with Some c => if bytes_eqb (key c) name then Some f else None | None => None end
  end.
Proof.
  unfold register_with. destruct (cr_makes f) as [c|]; [|destruct (lookup m name); auto].
  destruct (lookup m (key c)) as [g|] eqn:E.
  - destruct (bytes_eqb_spec (key c) name) as [<-|]; [rewrite E; auto|]. destruct (lookup m name); auto.
  - cbn. destruct (bytes_eqb_spec (key c) name) as [<-|]; [rewrite E; auto|]. destruct (lookup m name); auto.
Qed.
Definition makes (key : bytes * bytes -> bytes) (name : bytes) (f : creator) : bool :=
  match cr_makes f with Some c => bytes_eqb (key c) name | None => false end.
Lemma registry_find key name h : forall m, lookup (fold_left (register_with key) h m) name =
  match lookup m name with Some g => Some g | None => find (makes key name) h end.
Proof.
  induction h as [|f h IH]; intros m; cbn; [destruct (lookup m name); auto|].
  rewrite IH, lookup_register. destruct (lookup m name); auto. unfold makes at 2. destruct (cr_makes f) as [c|]; auto.
  destruct (bytes_eqb (key c) name); auto.
Qed.
Lemma find_first_of_iff {A} (q : A -> bool) h x : find q h = Some x <-> first_of q h x.
Proof.
  unfold first_of. induction h as [|a h IH]; cbn.
  - split; [discriminate|]. intros (b & c & E & _). destruct b; discriminate.
  - destruct (q a) eqn:E.
    + split.
      * intros H. injection H as <-. exists [], h. repeat split; auto. intros y [].
      * intros (b & c & E' & Q & F). destruct b as [|y b]; injection E' as <- H; auto.
        rewrite (F a) in E by (left; auto). discriminate.
    + rewrite IH. split.
      * intros (b & c & -> & Q & F). exists (a :: b), c. repeat split; auto. intros y [<-|I]; auto.
      * intros (b & c & E' & Q & F). destruct b as [|y b]; injection E' as <- H; [congruence|]. exists b, c. repeat split; auto.
        intros z I. apply F. right. auto.
Qed.

Definition run (h : list registration) : factory := fold_left register h factory_init.
Lemma run_registries h : forall s,
  fold_left register h s = Factory (fold_left (register_with field_key) (fields_of h) (fa_fields s))
    (fold_left (register_with class_key) (field_ios_of h) (fa_field_ios s))
    (fold_left (register_with class_key) (mappings_of h) (fa_mappings s))
    (fold_left (register_with class_key) (mapping_ios_of h) (fa_mapping_ios s)).
Proof.
  induction h as [|r h IH]; intros s; [destruct s; auto|]. cbn [fold_left]. rewrite IH. destruct r; reflexivity.
Qed.
Lemma create_first key l name id c :
  create (fold_left (register_with key) l []) name = Some (id, c) <-> first_of (makes key name) l (Creator id (Some c)).
Proof.
  unfold create. rewrite registry_find. cbn [lookup]. rewrite <- find_first_of_iff.
  destruct (find (makes key name) l) as [[i [m|]]|] eqn:F; cbn [cr_makes cr_id].
  - split; intros X; injection X; intros; subst; auto.
  - apply find_some in F. destruct F as (_ & F). cbn in F. discriminate.
  - split; discriminate.
Qed.
Lemma create_none key l name :
  create (fold_left (register_with key) l []) name = None <-> forall f, In f l -> makes key name f = false.
Proof.
  unfold create. rewrite registry_find. cbn [lookup].
  destruct (find (makes key name) l) as [[i [m|]]|] eqn:F; cbn [cr_makes cr_id].
  - split; [discriminate|]. intros H. apply find_some in F. destruct F as (I & F). rewrite H in F by auto. discriminate.
  - apply find_some in F. destruct F as (_ & F). cbn in F. discriminate.
  - split; auto. intros _ f I. eapply find_none in F; eauto.
Qed.
Lemma create_app key l l' name x : create (fold_left (register_with key) l []) name = Some x ->
  create (fold_left (register_with key) (l ++ l') []) name = Some x.
Proof.
  destruct x as (i & c). rewrite !create_first. intros (b & a & -> & M & F). exists b, (a ++ l'). rewrite <- app_assoc. auto.
Qed.
Lemma makes_field_eq name f : makes field_key name f = makes_field name f.
Proof. unfold makes, makes_field, field_key. destruct (cr_makes f) as [(a & b)|]; auto. Qed.
Lemma makes_class_eq name f : makes class_key name f = makes_class name f.
Proof. unfold makes, makes_class, class_key. destruct (cr_makes f) as [(a & b)|]; auto. Qed.
Lemma first_of_ext {A} (q r : A -> bool) h x : (forall y, q y = r y) -> first_of q h x <-> first_of r h x.
Proof.
  intros E. unfold first_of. split; intros (b & a & H & Q & F); exists b, a; repeat split; auto; try (rewrite <- E; auto; fail); try (rewrite E; auto; fail).
  - intros y I. rewrite <- E. auto.
  - intros y I. rewrite E. auto.
Qed.
