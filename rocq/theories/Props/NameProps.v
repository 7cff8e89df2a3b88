(** C42: pattern matching; C43: file sequences; C45: classes created by name. *)
From Coq Require Import String ZArith List Bool Lia.
From Verif Require Import Model.Base Proof.BaseP Model.OgawaM Model.OgM Proof.OgP Model.FieldIOM Model.FileM Model.PatternM Model.SequenceM Model.FactoryM
  Spec.NameSpec Proof.NameP Proof.SequenceP.
Import ListNotations.
Open Scope Z_scope.

(** ** C42 *)

(** A non-empty list of patterns matches a name and an attribute exactly when some including
    pattern matches and no excluding pattern does, each compared with "name:attribute" if it
    has a colon and with the attribute otherwise.  For every wildcard matcher. *)
Theorem C42_match : forall glob name attribute patterns flags,
  text name -> text attribute -> Forall text patterns -> patterns <> [] ->
  (match_named glob name attribute patterns flags = true <->
   (exists p q s, In p patterns /\ includes p q /\ compared name attribute q s /\ glob q s = true) /\
   (forall p q s, In p patterns -> excludes p q -> compared name attribute q s -> glob q s = false)).
Proof.
  intros glob name attribute patterns flags TN TA TP NE. unfold match_named. destruct patterns as [|p0 ps]; [congruence|].
  rewrite loop_spec. rewrite Forall_forall in TP. set (l := p0 :: ps) in *.
  assert (TC : text (name ++ [58] ++ attribute)). { unfold text in *. rewrite !in_app_iff. cbn [In]. intros [I|[[I|[]]|I]]; auto. discriminate. }
  assert (CM : forall q, text q -> forall s, compared name attribute q s <-> s = c_str (if has_colon q then name ++ [58] ++ attribute else attribute)).
  { intros q TQ s. split.
    - intros [a b|p' N].
      + rewrite has_colon_app. rewrite c_str_text; auto.
      + rewrite (proj2 (no_colon p') N). rewrite c_str_text; auto.
    - intros ->. destruct (has_colon q) eqn:H.
      + rewrite c_str_text by auto. destruct (colon_split q H) as (a & b & -> & _). constructor.
      + rewrite c_str_text by auto. constructor. apply no_colon; auto. }
  assert (TT : forall p q, In p l -> excludes p q -> text q).
  { intros p q I [-> | ->]; specialize (TP _ I); unfold text in *; cbn in TP; tauto. }
  split.
  - intros ([X|(p & I & N & X & H)] & _ & F); [discriminate|]. split.
    + assert (P : includes p p) by (apply includes_iff; auto). unfold pattern_of in H. rewrite X in H.
      exists p, p, (c_str (if has_colon p then name ++ [58] ++ attribute else attribute)).
      split; auto. split; auto. split; [apply CM; auto|]. rewrite (c_str_text p) in H by auto. auto.
    + intros p' q s I' E C. destruct (excludes_pattern _ _ E) as (E1 & E2). specialize (F p' I' E1). rewrite E2 in F.
      apply CM in C; [|eapply TT; eauto]. subst s. rewrite (c_str_text q) in F by (eapply TT; eauto). auto.
  - intros ((p & q & s & I & P & C & H) & F). split; [|split; auto].
    + right. destruct P as (-> & P). assert (P' : includes q q) by (split; auto). apply includes_iff in P'. destruct P' as (P1 & P2).
      exists q. repeat split; auto. unfold pattern_of. rewrite P2. apply CM in C; [|auto]. subst s. rewrite (c_str_text q) by auto. auto.
    + intros p' I' E. destruct (proj1 (exclusion_iff p') E) as (q' & E'). destruct (excludes_pattern _ _ E') as (_ & ->).
      rewrite (c_str_text q') by (eapply TT; eauto). apply (F p' q'); auto. apply CM; auto. eapply TT; eauto.
Qed.
Print Assumptions C42_match.

(** The same when only an attribute is given: each pattern then stands for its part after the
    first colon. *)
Theorem C42_match_attribute : forall glob attribute patterns flags,
  text attribute -> Forall text patterns -> patterns <> [] ->
  (match_attribute glob attribute patterns flags = true <->
   (exists p q r, In p patterns /\ includes p q /\ attribute_part q r /\ glob r attribute = true) /\
   (forall p q r, In p patterns -> excludes p q -> attribute_part q r -> glob r attribute = false)).
Proof.
  intros glob attribute patterns flags TA TP NE. unfold match_attribute. destruct patterns as [|p0 ps]; [congruence|].
  rewrite loop_spec. rewrite Forall_forall in TP. set (l := p0 :: ps) in *. rewrite (c_str_text attribute) by auto.
  assert (CM : forall q, text q -> forall r, attribute_part q r <-> r = c_str (if has_colon q then after_colon q else q)).
  { intros q TQ r. split.
    - intros P. revert TQ. destruct P as [a b N|p' N]; intros TQ.
      + rewrite has_colon_app, after_colon_eq by auto. rewrite c_str_text; auto. intros I. apply TQ. apply in_or_app. right. right. auto.
      + rewrite (proj2 (no_colon p') N). rewrite c_str_text; auto.
    - intros ->. destruct (has_colon q) eqn:H.
      + destruct (colon_split q H) as (a & b & -> & N & E). rewrite E, c_str_text; [constructor; auto|]. intros I. apply TQ. apply in_or_app. right. right. auto.
      + rewrite c_str_text by auto. constructor. apply no_colon; auto. }
  assert (TT : forall p q, In p l -> excludes p q -> text q).
  { intros p q I [-> | ->]; specialize (TP _ I); unfold text in *; cbn in TP; tauto. }
  split.
  - intros ([X|(p & I & N & X & H)] & _ & F); [discriminate|]. split.
    + assert (P : includes p p) by (apply includes_iff; auto). unfold pattern_of in H. rewrite X in H.
      eexists p, p, _. split; [auto|]. split; [auto|]. split; [apply CM; auto|auto].
    + intros p' q s I' E C. destruct (excludes_pattern _ _ E) as (E1 & E2). specialize (F p' I' E1). rewrite E2 in F.
      apply CM in C; [|eapply TT; eauto]. subst s. auto.
  - intros ((p & q & s & I & P & C & H) & F). split; [|split; auto].
    + right. destruct P as (-> & P). assert (P' : includes q q) by (split; auto). apply includes_iff in P'. destruct P' as (P1 & P2).
      exists q. repeat split; auto. unfold pattern_of. rewrite P2. apply CM in C; [|auto]. subst s. auto.
    + intros p' I' E. destruct (proj1 (exclusion_iff p') E) as (q' & E'). destruct (excludes_pattern _ _ E') as (_ & ->).
      apply (F p' q'); auto. apply CM; auto. eapply TT; eauto.
Qed.
Print Assumptions C42_match_attribute.

(** Order and repetition do not matter: two lists with the same patterns in them give the same
    answer, whatever the strings. *)
Theorem C42_order : forall glob name attribute l1 l2 flags,
  (forall p, In p l1 <-> In p l2) ->
  match_named glob name attribute l1 flags = match_named glob name attribute l2 flags /\
  match_attribute glob attribute l1 flags = match_attribute glob attribute l2 flags.
Proof.
  intros glob name attribute l1 l2 flags H.
  assert (G : forall hit, match_loop hit l1 false false = match_loop hit l2 false false).
  { intros hit. apply eq_true_iff_eq. rewrite !loop_spec. split; intros ([X|(p & I & P)] & _ & F); try discriminate;
      (split; [right; exists p; split; [apply H; auto|auto]|split; [auto|intros p' I'; apply F; apply H; auto]]). }
  unfold match_named, match_attribute. destruct l1 as [|a l1], l2 as [|b l2]; auto.
  - exfalso. apply (proj2 (H b)). left; auto.
  - exfalso. apply (proj1 (H a)). left; auto.
Qed.
Print Assumptions C42_order.

(** No patterns at all: the flags decide.  Exclusions alone match nothing. *)
Theorem C42_no_patterns : forall glob name attribute flags,
  match_named glob name attribute [] flags = flags /\ match_attribute glob attribute [] flags = flags.
Proof. auto. Qed.
Print Assumptions C42_no_patterns.
Theorem C42_exclusions_only : forall glob name attribute patterns flags,
  patterns <> [] -> (forall p, In p patterns -> exists q, excludes p q) ->
  match_named glob name attribute patterns flags = false /\ match_attribute glob attribute patterns flags = false.
Proof.
  intros glob name attribute patterns flags N X.
  assert (G : forall hit, match_loop hit patterns false false = false).
  { intros hit. apply not_true_iff_false. rewrite loop_spec. intros ([H|(p & I & _ & E & _)] & _); [discriminate|].
    specialize (X p I). apply exclusion_iff in X. congruence. }
  unfold match_named, match_attribute. destruct patterns; [congruence|]. auto.
Qed.
Print Assumptions C42_exclusions_only.

(** Patterns given as one string: the tokens between the separator characters, which are
    spaces unless given. *)
Theorem C42_split : forall separators s l, text separators ->
  (split_on separators s = l <-> tokens (fun c => In c separators) s l).
Proof.
  intros seps s l T. unfold split_on. rewrite c_str_text by auto. rewrite split_iff.
  assert (E : forall c, existsb (Z.eqb c) seps = true <-> In c seps).
  { intros c. rewrite existsb_exists. split; [intros (x & I & Q); apply Z.eqb_eq in Q; subst; auto|]. intros I. exists c. rewrite Z.eqb_refl. auto. }
  split; (induction 1 as [|c s l C X IH|t N F|t c s l N F C X IH]; [apply tokens_nil|apply tokens_sep; auto; apply E; auto| |]).
  - apply tokens_last; auto. intros c I H. apply (F c I). apply E; auto.
  - apply tokens_cons; auto; [|apply E; auto]. intros d I H. apply (F d I). apply E; auto.
  - apply tokens_last; auto. intros c I H. apply (F c I). apply E; auto.
  - apply tokens_cons; auto; [|apply E; auto]. intros d I H. apply (F d I). apply E; auto.
Qed.
Print Assumptions C42_split.
Theorem C42_string : forall glob name attribute patterns l flags,
  tokens (fun c => c = 32) patterns l ->
  match_named_string glob name attribute patterns flags = match_named glob name attribute l flags /\
  match_attribute_string glob attribute patterns flags = match_attribute glob attribute l flags.
Proof.
  intros glob name attribute patterns l flags T. unfold match_named_string, match_attribute_string, split, split_on.
  rewrite (split_sound _ patterns l); auto. clear - T.
  assert (E : forall c, existsb (Z.eqb c) (c_str [32]) = true <-> c = 32) by (intros c; cbn; rewrite orb_false_r, Z.eqb_eq; tauto).
  induction T as [|c s l C X IH|t N F|t c s l N F C X IH]; [apply tokens_nil|apply tokens_sep; auto; apply E; auto| |].
  - apply tokens_last; auto. intros c I H. apply (F c I). apply E; auto.
  - apply tokens_cons; auto; [|apply E; auto]. intros d I H. apply (F d I). apply E; auto.
Qed.
Print Assumptions C42_string.

(** The header promises ',' as the separator of a pattern string; the code splits at spaces. *)
Theorem C42_comma_refuted : ~ (forall s l, tokens (fun c => c = 44) s l -> split s = l).
Proof.
  intros H. specialize (H (str "a,b") [str "a"; str "b"]).
  assert (T : tokens (fun c => c = 44) (str "a,b") [str "a"; str "b"]).
  { change (str "a,b") with (str "a" ++ 44 :: str "b"). apply tokens_cons; auto; [discriminate|intros c [<-|[]]; discriminate|].
    apply tokens_last; [discriminate|intros c [<-|[]]; discriminate]. }
  specialize (H T). vm_compute in H. discriminate.
Qed.
Print Assumptions C42_comma_refuted.

(** A matcher with '*' at the end only, for the examples. *)
Fixpoint star (p s : bytes) : bool :=
  match p, s with
  | [42], _ => true
  | a :: p', b :: s' => (a =? b) && star p' s'
  | [], [] => true
  | _, _ => false
  end.
Example C42_match_meets :
  map (fun ps => match_named_string star (str "smoke") (str "density") (str ps) true)
    ["den* -fire:*"; "-smoke:* den*"; "^temp* smoke:d* "; "-den*"; " "; "smoke"]%string = [true; false; true; false; true; false] /\
  Forall text [str "den*"; str "-fire:*"] /\ compared (str "smoke") (str "density") (str "fire:*") (str "smoke:density") /\
  includes (str "den*") (str "den*") /\ excludes (str "-fire:*") (str "fire:*").
Proof.
  split; [vm_compute; reflexivity|]. split; [repeat constructor; unfold text; vm_compute; intuition discriminate|].
  split; [apply (compared_colon (str "smoke") (str "density") (str "fire") (str "*"))|]. split; [|left; auto].
  unfold includes. vm_compute. intuition discriminate.
Qed.
Example C42_attribute_meets :
  map (fun ps => match_attribute_string star (str "density") (str ps) true)
    ["smoke:den*"; "smoke:den* ^fire:density"; "temp"]%string = [true; false; false] /\ attribute_part (str "smoke:den*") (str "den*").
Proof. split; [vm_compute; reflexivity|]. apply (part_colon (str "smoke") (str "den*")). vm_compute. intuition discriminate. Qed.

(** ** C43 *)

(** prefix<a>-<b>mark suffix stands for the names prefix i suffix, i = a, ..., b in order, each
    once, with i in decimal without leading zeros.  The prefix is not empty and does not end
    in a digit. *)
Theorem C43_expansion : forall file_exists prefix x a b m suffix,
  let s := (prefix ++ [x]) ++ a ++ 45 :: b ++ m :: suffix in
  file_exists s = false -> unmarked (prefix ++ [x]) -> ~ 48 <= x <= 57 -> digits a -> digits b -> m = 35 \/ m = 64 -> unmarked suffix ->
  Z.of_nat (length s) < 2 ^ 63 -> number a < 2 ^ 31 -> number b < 2 ^ 31 - 1 ->
  exists names, file_sequence file_exists s = Ok names /\
    length names = Z.to_nat (number b - number a + 1) /\ NoDup names /\
    forall i, number a <= i <= number b ->
      exists t, decimal t i /\ nth (Z.to_nat (i - number a)) names [] = (prefix ++ [x]) ++ t ++ suffix.
Proof.
  intros ex p x a b m q s EX UP X DA DB M UQ L NA NB.
  assert (SE : file_sequence ex s = (let* st := i32 (number a) in let* en := i32 (number b) in
    if en <? st then Ok [] else if en =? int_max then UB else Ok (names_from (p ++ [x]) q st (Z.to_nat (en - st + 1))))).
  { apply sequence_eq; auto; [|apply mark_iff; auto]. exists p, x. split; auto. apply not_true_iff_false. rewrite digit_iff. auto. }
  pose proof (number_nonneg a DA) as PA. pose proof (number_nonneg b DB) as PB.
  assert (I32 : forall z, 0 <= z < 2 ^ 31 -> i32 z = Ok z).
  { intros z H. apply i32_ok. unfold int_min, int_max. lia. }
  rewrite I32 in SE by lia. cbn [bind] in SE. rewrite I32 in SE by lia. cbn [bind] in SE.
  destruct (Z.ltb_spec (number b) (number a)) as [LT|GE].
  - exists []. rewrite SE. split; auto. split; [cbn; lia|]. split; [constructor|]. intros i H. lia.
  - replace (number b =? int_max) with false in SE by (symmetry; apply Z.eqb_neq; unfold int_max; lia).
    eexists. split; [exact SE|]. rewrite names_length. split; auto.
    assert (NT : forall k, (k < Z.to_nat (number b - number a + 1))%nat ->
      nth k (names_from (p ++ [x]) q (number a) (Z.to_nat (number b - number a + 1))) [] = (p ++ [x]) ++ int_text (number a + Z.of_nat k) ++ q) by (intros; apply names_nth; auto).
    split.
    + apply (proj2 (NoDup_nth _ [])). intros i j I J. rewrite names_length in I, J. rewrite !NT by auto. intros H.
      apply app_inv_head in H. apply app_inv_tail in H.
      destruct (int_text_decimal (number a + Z.of_nat i)) as (_ & N1 & _); [lia|].
      destruct (int_text_decimal (number a + Z.of_nat j)) as (_ & N2 & _); [lia|]. rewrite H in N1. lia.
    + intros i H. exists (int_text i). split; [apply int_text_decimal; lia|]. rewrite NT by lia.
      replace (number a + Z.of_nat (Z.to_nat (i - number a))) with i by lia. auto.
Qed.
Print Assumptions C43_expansion.

(** A string that is the name of a file stands for that file, whatever is in it. *)
Theorem C43_existing : forall file_exists s, file_exists s = true -> file_sequence file_exists s = Ok [s].
Proof. intros ex s H. unfold file_sequence. rewrite H. auto. Qed.
Print Assumptions C43_existing.

(** No mark, two marks, a number without a range: an empty sequence. *)
Theorem C43_unresolved : forall file_exists s, file_exists s = false -> Z.of_nat (length s) < 2 ^ 63 ->
  unmarked s \/
  (exists l m r m' q, s = l ++ m :: r ++ m' :: q /\ unmarked l /\ (m = 35 \/ m = 64) /\ (m' = 35 \/ m' = 64)) \/
  (exists l x b m q, s = (l ++ [x]) ++ b ++ m :: q /\ unmarked (l ++ [x]) /\ ~ 48 <= x <= 57 /\ x <> 45 /\ (forall c, In c b -> 48 <= c <= 57) /\ (m = 35 \/ m = 64)) ->
  file_sequence file_exists s = Ok [].
Proof.
  intros ex s EX L H. unfold file_sequence. rewrite EX.
  assert (NP : forall k, 0 <= k <= Z.of_nat (length s) -> (k =? npos) = false) by (intros k K; apply Z.eqb_neq; unfold npos; lia).
  destruct H as [U|[(l & m & r & m' & q & E & U & M & M')|(l & x & b & m & q & E & U & X & X' & B & M)]].
  - unfold find_first_of. cbn [Z.to_nat skipn]. rewrite (find_first_none is_mark s); [rewrite Z.eqb_refl; auto|]. apply unmarked_iff; auto.
  - assert (LS : length s = (length l + 1 + length r + 1 + length q)%nat) by (rewrite E, !app_length; cbn; rewrite !app_length; cbn; lia).
    assert (MK : find_first_of is_mark s 0 = Z.of_nat (length l)).
    { unfold find_first_of. cbn [Z.to_nat skipn]. rewrite E, find_first_app; auto; [apply unmarked_iff; auto|apply mark_iff; auto]. }
    rewrite MK, NP by lia.
    assert (M2 : find_first_of is_mark s (Z.of_nat (length l) + 1) =? npos = false).
    { unfold find_first_of. replace (Z.to_nat (Z.of_nat (length l) + 1)) with (length (l ++ [m]) + 0)%nat by (rewrite app_length; cbn; lia).
      replace s with ((l ++ [m]) ++ r ++ m' :: q) by (rewrite E, <- app_assoc; reflexivity).
      rewrite skipn_app, skipn_all2 by lia. replace (length (l ++ [m]) + 0 - length (l ++ [m]))%nat with 0%nat by lia. cbn [app skipn].
      assert (G : forall r at_, is_mark m' = true -> at_ <= find_first is_mark (r ++ m' :: q) at_ <= at_ + Z.of_nat (length r)).
      { clear. induction r as [|c r IH]; intros at_ Q; cbn [app find_first length]; [rewrite Q; lia|]. destruct (is_mark c); [lia|].
        specialize (IH (at_ + 1) Q). lia. }
      specialize (G r (Z.of_nat (length l) + 1) (proj2 (mark_iff m') M')). apply NP. lia. }
    rewrite M2. auto.
  - assert (LS : length s = (length l + 1 + length b + 1 + length q)%nat) by (rewrite E, !app_length; cbn; lia).
    assert (MK : find_first_of is_mark s 0 = Z.of_nat (length l + 1 + length b)).
    { unfold find_first_of. cbn [Z.to_nat skipn]. replace s with (((l ++ [x]) ++ b) ++ m :: q) by (rewrite E, <- app_assoc; reflexivity).
      rewrite find_first_app; [rewrite !app_length; cbn; lia| |apply mark_iff; auto].
      apply unmarked_iff. destruct U as (U1 & U2). split; rewrite in_app_iff; intros [I|I]; auto; specialize (B _ I); lia. }
    rewrite MK, NP by lia. destruct (negb _); auto.
    replace (size_sub (Z.of_nat (length l + 1 + length b)) 1) with (Z.of_nat (length l + length b)) by (unfold size_sub; rewrite Z.mod_small; lia).
    assert (F1 : find_last_not_of is_digit s (Z.of_nat (length l + length b)) = Z.of_nat (length l)).
    { unfold find_last_not_of. replace (Z.to_nat _) with (length l + 1 + length b)%nat by lia.
      replace s with (l ++ x :: b ++ m :: q) by (rewrite E, <- app_assoc; reflexivity).
      apply find_back_digits; auto; [apply not_true_iff_false; rewrite digit_iff; auto|intros c I; apply digit_iff; auto]. }
    rewrite F1, NP by lia. replace (Z.to_nat (Z.of_nat (length l) + 1 - 1)) with (length l) by lia.
    replace (nth (length l) s 0) with x. 2:{ rewrite E, <- app_assoc. rewrite app_nth2 by lia. rewrite Nat.sub_diag. auto. }
    replace (x =? 45) with false by (symmetry; apply Z.eqb_neq; auto). auto.
Qed.
Print Assumptions C43_unresolved.

(** Without a prefix the range is not recognised: "1-5#.f3d" stands for nothing. *)
Theorem C43_no_prefix_refuted : forall file_exists a b m suffix,
  let s := a ++ 45 :: b ++ m :: suffix in
  file_exists s = false -> digits a -> digits b -> m = 35 \/ m = 64 -> Z.of_nat (length s) < 2 ^ 63 ->
  file_sequence file_exists s = Ok [].
Proof.
  intros ex a b m q s EX DA DB M L. unfold file_sequence. rewrite EX.
  assert (LS : length s = (length a + 1 + length b + 1 + length q)%nat) by (unfold s; rewrite !app_length; cbn; rewrite app_length; cbn; lia).
  assert (NP : forall k, 0 <= k <= Z.of_nat (length s) -> (k =? npos) = false) by (intros k K; apply Z.eqb_neq; unfold npos; lia).
  assert (MK : find_first_of is_mark s 0 = Z.of_nat (length a + 1 + length b)).
  { unfold find_first_of. cbn [Z.to_nat skipn]. replace s with ((a ++ 45 :: b) ++ m :: q) by (unfold s; rewrite <- app_assoc; reflexivity).
    rewrite find_first_app; [rewrite !app_length; cbn; lia| |apply mark_iff; auto].
    apply unmarked_iff. destruct (digits_unmarked _ DA), (digits_unmarked _ DB). split; rewrite in_app_iff; cbn; intuition discriminate. }
  rewrite MK, NP by lia. destruct (negb _); auto.
  replace (size_sub (Z.of_nat (length a + 1 + length b)) 1) with (Z.of_nat (length a + length b)) by (unfold size_sub; rewrite Z.mod_small; lia).
  assert (F1 : find_last_not_of is_digit s (Z.of_nat (length a + length b)) = Z.of_nat (length a)).
  { unfold find_last_not_of. replace (Z.to_nat _) with (length a + 1 + length b)%nat by lia.
    apply find_back_digits; auto. intros c I; apply digit_iff; apply DB; auto. }
  rewrite F1, NP by lia. destruct (negb _); auto.
  assert (A1 : (1 <= length a)%nat). { destruct DA as (NA & _). destruct a; [congruence|cbn; lia]. }
  replace (size_sub (Z.of_nat (length a) + 1) 2) with (Z.of_nat (length a) - 1) by (unfold size_sub; rewrite Z.mod_small; lia).
  assert (F2 : find_last_not_of is_digit s (Z.of_nat (length a) - 1) = npos).
  { unfold find_last_not_of. replace (Z.to_nat _) with (length a) by lia.
    assert (G : forall n, (n <= length a)%nat -> find_back is_digit s n = npos).
    { induction n as [|n IH]; intros H; cbn; auto. unfold s at 1. rewrite app_nth1 by lia.
      rewrite (proj2 (digit_iff (nth n a 0))); [apply IH; lia|]. apply DA. apply nth_In. lia. }
    apply G. auto. }
  rewrite F2. auto.
Qed.
Print Assumptions C43_no_prefix_refuted.

(** A range without a start, a string that begins with the mark, and a range ending at the
    largest int: made-up names instead of an empty sequence, or undefined behaviour. *)
Theorem C43_no_start_refuted : exists s, file_sequence (fun _ => false) s =
  Ok (map str ["file-5.f3d"; "file-4.f3d"; "file-3.f3d"; "file-2.f3d"; "file-1.f3d"; "file0.f3d"; "file1.f3d"; "file2.f3d"; "file3.f3d"; "file4.f3d"; "file5.f3d"]%string)
  /\ s = str "file-5#.f3d".
Proof. exists (str "file-5#.f3d"). split; [vm_compute; reflexivity|auto]. Qed.
Print Assumptions C43_no_start_refuted.
Theorem C43_leading_mark_refuted : file_sequence (fun _ => false) (str "#x-") = Ok [str "#x0x-"].
Proof. vm_compute. reflexivity. Qed.
Print Assumptions C43_leading_mark_refuted.
Theorem C43_largest_end_refuted : file_sequence (fun _ => false) (str "f.2147483646-2147483647#") = UB.
Proof. vm_compute. reflexivity. Qed.
Print Assumptions C43_largest_end_refuted.

Example C43_expansion_meets :
  file_sequence (fun _ => false) (str "fluid.008-11@.f3d") = Ok (map str ["fluid.8.f3d"; "fluid.9.f3d"; "fluid.10.f3d"; "fluid.11.f3d"]%string) /\
  digits (str "008") /\ number (str "008") = 8 /\ decimal (str "10") 10 /\ unmarked (str "fluid.") /\ unmarked (str ".f3d") /\
  str "fluid.008-11@.f3d" = (str "fluid" ++ [46]) ++ str "008" ++ 45 :: str "11" ++ 64 :: str ".f3d".
Proof.
  split; [vm_compute; reflexivity|]. split; [split; [discriminate|intros c [<-|[<-|[<-|[]]]]; vm_compute; split; discriminate]|]. split; [reflexivity|].
  split; [split; [split; [discriminate|intros c [<-|[<-|[]]]; vm_compute; split; discriminate]|split; [reflexivity|vm_compute; discriminate]]|].
  split; [|split]; [vm_compute; intuition discriminate|vm_compute; intuition discriminate|reflexivity].
Qed.
Example C43_unresolved_meets :
  map (fun s => file_sequence (fun _ => false) (str s)) ["a.f3d"; "a1-2#.#"; "a12#"]%string = [Ok []; Ok []; Ok []].
Proof. vm_compute. reflexivity. Qed.

(** ** C45 *)

(** After any history of registrations, an object created by name comes from the first
    creator registered for that name, and each kind of object has its own names. *)
Theorem C45_first_wins : forall h name id made,
  let s := fold_left register h factory_init in
  (create_field s name = Some (id, made) <-> first_of (makes_field name) (fields_of h) (Creator id (Some made))) /\
  (create_field_io s name = Some (id, made) <-> first_of (makes_class name) (field_ios_of h) (Creator id (Some made))) /\
  (create_mapping s name = Some (id, made) <-> first_of (makes_class name) (mappings_of h) (Creator id (Some made))) /\
  (create_mapping_io s name = Some (id, made) <-> first_of (makes_class name) (mapping_ios_of h) (Creator id (Some made))).
Proof.
  intros h name id made s. unfold s. rewrite run_registries.
  unfold create_field, create_field_io, create_mapping, create_mapping_io. cbn [fa_fields fa_field_ios fa_mappings fa_mapping_ios factory_init].
  rewrite !create_first. repeat split; intros H; (eapply first_of_ext; [|exact H]); intros y;
    first [apply makes_field_eq | apply makes_class_eq | symmetry; apply makes_field_eq | symmetry; apply makes_class_eq].
Qed.
Print Assumptions C45_first_wins.

(** Nothing is created exactly for names no registered creator makes. *)
Theorem C45_unregistered : forall h name,
  let s := fold_left register h factory_init in
  (create_field s name = None <-> forall f, In f (fields_of h) -> makes_field name f = false) /\
  (create_field_io s name = None <-> forall f, In f (field_ios_of h) -> makes_class name f = false) /\
  (create_mapping s name = None <-> forall f, In f (mappings_of h) -> makes_class name f = false) /\
  (create_mapping_io s name = None <-> forall f, In f (mapping_ios_of h) -> makes_class name f = false).
Proof.
  intros h name s. unfold s. rewrite run_registries.
  unfold create_field, create_field_io, create_mapping, create_mapping_io. cbn [fa_fields fa_field_ios fa_mappings fa_mapping_ios factory_init].
  rewrite !create_none. repeat split; intros H f I; specialize (H f I); rewrite <- H;
    first [apply makes_field_eq | apply makes_class_eq | symmetry; apply makes_field_eq | symmetry; apply makes_class_eq].
Qed.
Print Assumptions C45_unregistered.

(** Later registrations never change an answer already given. *)
Theorem C45_stable : forall h h' name x,
  let s := fold_left register h factory_init in let s' := fold_left register (h ++ h') factory_init in
  (create_field s name = Some x -> create_field s' name = Some x) /\
  (create_field_io s name = Some x -> create_field_io s' name = Some x) /\
  (create_mapping s name = Some x -> create_mapping s' name = Some x) /\
  (create_mapping_io s name = Some x -> create_mapping_io s' name = Some x).
Proof.
  intros h h' name x s s'. unfold s, s'. rewrite !run_registries.
  unfold create_field, create_field_io, create_mapping, create_mapping_io. cbn [fa_fields fa_field_ios fa_mappings fa_mapping_ios factory_init].
  unfold fields_of, field_ios_of, mappings_of, mapping_ios_of. rewrite !flat_map_app.
  repeat split; apply create_app.
Qed.
Print Assumptions C45_stable.

(** Two field classes share a name only if class and data type agree, for class names
    without '<'. *)
Theorem C45_field_names : forall c t c' t', ~ In 60 c -> ~ In 60 c' ->
  field_key (c, t) = field_key (c', t') -> c = c' /\ t = t'.
Proof.
  intros c t c' t'. unfold field_key. cbn [fst snd]. revert c'. induction c as [|a c IH]; intros [|a' c'] N N' H; cbn in H.
  - injection H as H. apply app_inv_tail in H. auto.
  - injection H as H _. exfalso. apply N'. left. auto.
  - injection H as H _. exfalso. apply N. left. auto.
  - injection H as -> H. destruct (IH c') as (-> & ->); auto; intros I; [apply N|apply N']; right; auto.
Qed.
Print Assumptions C45_field_names.

Example C45_meets :
  let df := Creator 1 (Some (str "DenseField", str "float")) in let df2 := Creator 2 (Some (str "DenseField", str "float")) in
  let dh := Creator 3 (Some (str "DenseField", str "half")) in let io := Creator 4 (Some (str "DenseField", [])) in
  let h := [RField (Creator 0 None); RField df; RFieldIO io; RField df2; RField dh] in
  let s := fold_left register h factory_init in
  create_field s (str "DenseField<float>") = Some (1%nat, (str "DenseField", str "float")) /\
  create_field s (str "DenseField<half>") = Some (3%nat, (str "DenseField", str "half")) /\
  create_field s (str "DenseField") = None /\ create_field_io s (str "DenseField") = Some (4%nat, (str "DenseField", [])) /\
  create_mapping s (str "DenseField") = None.
Proof. vm_compute. auto. Qed.
