(** Proofs about file sequences. *)
From Coq Require Import ZArith List Bool Lia Decimal DecimalFacts DecimalNat DecimalString.
From Verif Require Import Model.Base Model.OgawaM Model.OgM Proof.OgP Model.FieldIOM Model.FileM Proof.FileP Model.SequenceM Spec.NameSpec.
Import ListNotations.
Open Scope Z_scope.

(** ** Decimal texts *)
Lemma number_uint d : forall acc : nat,
  fold_left (fun n c => n * 10 + (c - 48)) (str (NilEmpty.string_of_uint d)) (Z.of_nat acc) = Z.of_nat (Nat.of_uint_acc d acc).
Proof.
  induction d; intros acc; cbn -[Nat.tail_mul Z.of_nat]; auto; rewrite <- IHd; f_equal; rewrite Nat.tail_mul_spec; lia.
Qed.
Lemma nzhead_no_zero d : forall e, nzhead d <> D0 e.
Proof. induction d; intros e; cbn; try congruence; apply IHd. Qed.
Lemma int_name_decimal n : decimal (int_name n) (Z.of_nat n).
Proof.
  unfold int_name. split; [split|split].
  - pose proof (Unsigned.to_of (Nat.to_uint n)) as E. rewrite Unsigned.of_to in E. rewrite E. unfold unorm.
    destruct (nzhead (Nat.to_uint n)); cbn; discriminate.
  - intros c H. apply int_name_digits in H. lia.
  - unfold number. rewrite (number_uint _ 0). f_equal. apply Unsigned.of_to.
  - pose proof (Unsigned.to_of (Nat.to_uint n)) as E. rewrite Unsigned.of_to in E. rewrite E. unfold unorm.
    pose proof (nzhead_no_zero (Nat.to_uint n)) as Z. destruct (nzhead (Nat.to_uint n)); cbn; try discriminate; auto.
    exfalso. eapply Z; eauto.
Qed.
Lemma number_nonneg_aux d : forall n, 0 <= n -> (forall c, In c d -> 48 <= c <= 57) -> 0 <= fold_left (fun n c => n * 10 + (c - 48)) d n.
Proof.
  induction d as [|c d IH]; intros n N H; cbn; auto. apply IH; [|intros; apply H; right; auto].
  specialize (H c (or_introl eq_refl)). lia.
Qed.
Lemma number_nonneg d : digits d -> 0 <= number d.
Proof. intros (_ & D). apply number_nonneg_aux; auto. lia. Qed.

(** ** Searching *)
Lemma find_first_none q l : forall at_, (forall c, In c l -> q c = false) -> find_first q l at_ = npos.
Proof. induction l as [|c l IH]; intros at_ H; cbn; auto. rewrite H by (left; auto). apply IH. intros; apply H; right; auto. Qed.
Lemma find_first_app q l : forall at_ m r, (forall c, In c l -> q c = false) -> q m = true ->
  find_first q (l ++ m :: r) at_ = at_ + Z.of_nat (length l).
Proof.
  induction l as [|c l IH]; intros at_ m r H M; cbn [List.app find_first].
  - rewrite M. cbn. lia.
  - rewrite H by (left; auto). rewrite IH; auto. { cbn [length]. lia. } intros; apply H; right; auto.
Qed.
Lemma find_back_digits q l x d r : forall k, (k <= length d)%nat -> q x = false -> (forall c, In c d -> q c = true) ->
  find_back q (l ++ x :: d ++ r) (length l + 1 + k) = Z.of_nat (length l).
Proof.
  induction k as [|k IH]; intros K X D.
  - replace (length l + 1 + 0)%nat with (S (length l)) by lia. cbn. rewrite app_nth2 by lia. rewrite Nat.sub_diag. cbn. rewrite X. auto.
  - replace (length l + 1 + S k)%nat with (S (length l + 1 + k)) by lia. cbn [find_back].
    rewrite app_nth2 by lia. replace (length l + 1 + k - length l)%nat with (S k) by lia. cbn [nth]. rewrite app_nth1 by lia.
    rewrite D; [apply IH; auto; lia|]. apply nth_In. lia.
Qed.
Lemma find_back_all q s : forall n, (n <= length s)%nat -> (forall c, In c s -> q c = true) -> find_back q s n = npos.
Proof.
  induction n as [|n IH]; intros N A; cbn; auto. rewrite A by (apply nth_In; lia). apply IH; auto. lia.
Qed.
Lemma digit_iff c : is_digit c = true <-> 48 <= c <= 57.
Proof. unfold is_digit. rewrite andb_true_iff, !Z.leb_le. tauto. Qed.
Lemma mark_iff c : is_mark c = true <-> c = 35 \/ c = 64.
Proof. unfold is_mark. rewrite orb_true_iff, !Z.eqb_eq. tauto. Qed.
Lemma unmarked_iff s : unmarked s <-> forall c, In c s -> is_mark c = false.
Proof.
  unfold unmarked. split.
  - intros (A & B) c I. apply not_true_iff_false. rewrite mark_iff. intros [-> | ->]; auto.
  - intros H. split; intros I; specialize (H _ I); cbn in H; discriminate.
Qed.
Lemma digits_unmarked d : digits d -> unmarked d.
Proof. intros (_ & D). split; intros I; specialize (D _ I); lia. Qed.

(** ** Reading numbers *)
Lemma read_digits_app d : forall n x r, (forall c, In c d -> 48 <= c <= 57) -> is_digit x = false ->
  read_digits (d ++ x :: r) n = fold_left (fun n c => n * 10 + (c - 48)) d n.
Proof.
  induction d as [|c d IH]; intros n x r D X; cbn [List.app read_digits fold_left].
  - rewrite X. auto.
  - rewrite (proj2 (digit_iff c)) by (apply D; left; auto). apply IH; auto. intros; apply D; right; auto.
Qed.
Lemma atoi_app d x r : digits d -> is_digit x = false -> atoi (d ++ x :: r) = i32 (number d).
Proof.
  intros (N & D) X. destruct d as [|c d]; [congruence|]. pose proof (D c (or_introl eq_refl)) as C. unfold atoi. cbn [List.app skip_spaces].
  assert (SP : is_space c = false). { unfold is_space. apply orb_false_iff. split; [apply Z.eqb_neq; lia|]. apply andb_false_iff. right. apply Z.leb_gt. lia. }
  rewrite SP. replace (c =? 45) with false by (symmetry; apply Z.eqb_neq; lia). replace (c =? 43) with false by (symmetry; apply Z.eqb_neq; lia).
  change (c :: d ++ x :: r) with ((c :: d) ++ x :: r). rewrite read_digits_app; auto.
Qed.

(** ** The loop *)
Lemma names_length p q n : forall i, length (names_from p q i n) = n.
Proof. induction n; intros i; cbn; auto. Qed.
Lemma names_nth p q n : forall i k, (k < n)%nat -> nth k (names_from p q i n) [] = p ++ int_text (i + Z.of_nat k) ++ q.
Proof.
  induction n as [|n IH]; intros i k K; [lia|]. destruct k as [|k]; cbn [names_from nth].
  - replace (i + Z.of_nat 0) with i by lia. auto.
  - rewrite IH by lia. replace (i + 1 + Z.of_nat k) with (i + Z.of_nat (S k)) by lia. auto.
Qed.
Lemma int_text_decimal z : 0 <= z -> decimal (int_text z) z.
Proof.
  intros H. unfold int_text. replace (z <? 0) with false by (symmetry; apply Z.ltb_ge; lia).
  pose proof (int_name_decimal (Z.to_nat z)) as D. rewrite Z2Nat.id in D by lia. auto.
Qed.

(** ** The constructor *)
Lemma sequence_eq ex p a b m q :
  let s := p ++ a ++ 45 :: b ++ m :: q in
  ex s = false -> (exists p' x, p = p' ++ [x] /\ is_digit x = false) -> unmarked p -> digits a -> digits b -> is_mark m = true -> unmarked q ->
  Z.of_nat (length s) < 2 ^ 63 ->
  file_sequence ex s = (let* st := i32 (number a) in let* en := i32 (number b) in
    if en <? st then Ok [] else if en =? int_max then UB else Ok (names_from p q st (Z.to_nat (en - st + 1)))).
Proof.
  intros s EX (p' & x & -> & X) UP DA DB M UQ L.
  assert (LS : length s = (length p' + 1 + length a + 1 + length b + 1 + length q)%nat).
  { unfold s. rewrite !app_length. cbn. rewrite !app_length. cbn. lia. }
  unfold file_sequence. rewrite EX.
  assert (MK : find_first_of is_mark s 0 = Z.of_nat (length p' + 1 + length a + 1 + length b)).
  { unfold find_first_of. cbn [Z.to_nat skipn]. replace s with (((p' ++ [x]) ++ a ++ 45 :: b) ++ m :: q) by (unfold s; rewrite <- !app_assoc; reflexivity).
    rewrite find_first_app; auto. { rewrite !app_length. cbn. lia. }
    apply unmarked_iff. destruct (digits_unmarked _ DA), (digits_unmarked _ DB), UP. split; rewrite !in_app_iff in *; cbn in *; intuition discriminate. }
  rewrite MK. set (mk := Z.of_nat (length p' + 1 + length a + 1 + length b)) in *.
  assert (NP : forall k, 0 <= k <= Z.of_nat (length s) -> (k =? npos) = false) by (intros k K; apply Z.eqb_neq; unfold npos; lia).
  rewrite NP by lia.
  assert (M2 : find_first_of is_mark s (mk + 1) = npos).
  { unfold find_first_of. replace s with (((p' ++ [x]) ++ a ++ 45 :: b ++ [m]) ++ q) by (unfold s; rewrite <- !app_assoc; cbn; rewrite <- app_assoc; reflexivity).
    rewrite skipn_app. replace (Z.to_nat (mk + 1) - length ((p' ++ [x]) ++ a ++ 45%Z :: b ++ [m]))%nat with 0%nat
      by (rewrite !app_length; cbn; rewrite app_length; cbn; lia).
    rewrite skipn_all2 by (rewrite !app_length; cbn; rewrite app_length; cbn; lia). cbn [List.app skipn]. apply find_first_none. apply unmarked_iff; auto. }
  rewrite M2. change (negb (npos =? npos)) with false. cbv iota.
  assert (SB : forall u v, 0 <= v <= u -> u < 2 ^ 63 -> size_sub u v = u - v) by (intros; unfold size_sub; apply Z.mod_small; lia).
  rewrite (SB mk 1) by lia.
  assert (F1 : find_last_not_of is_digit s (mk - 1) = Z.of_nat (length p' + 1 + length a)).
  { unfold find_last_not_of. replace (Z.to_nat (Z.min (Z.of_nat (length s)) (mk - 1 + 1))) with (length ((p' ++ [x]) ++ a) + 1 + length b)%nat
      by (rewrite !app_length; cbn; lia).
    replace s with (((p' ++ [x]) ++ a) ++ 45 :: b ++ m :: q) by (unfold s; rewrite <- !app_assoc; reflexivity).
    rewrite find_back_digits; auto. { rewrite !app_length. cbn. lia. } intros c I. apply digit_iff. apply DB; auto. }
  rewrite F1. set (e := Z.of_nat (length p' + 1 + length a)) in *. rewrite NP by lia.
  replace (Z.to_nat (e + 1 - 1)) with (length ((p' ++ [x]) ++ a)) by (rewrite !app_length; cbn; lia).
  assert (N45 : nth (length ((p' ++ [x]) ++ a)) s 0 = 45).
  { replace s with (((p' ++ [x]) ++ a) ++ 45 :: b ++ m :: q) by (unfold s; rewrite <- !app_assoc; reflexivity).
    rewrite app_nth2 by lia. rewrite Nat.sub_diag. auto. }
  rewrite N45. cbn [negb Z.eqb Pos.eqb].
  assert (A1 : (1 <= length a)%nat). { destruct DA as (NA & _). destruct a; [congruence|cbn; lia]. }
  assert (B1 : (1 <= length b)%nat). { destruct DB as (NA & _). destruct b; [congruence|cbn; lia]. }
  rewrite (SB (e + 1) 2) by lia.
  assert (F2 : find_last_not_of is_digit s (e + 1 - 2) = Z.of_nat (length p')).
  { unfold find_last_not_of. replace (Z.to_nat (Z.min (Z.of_nat (length s)) (e + 1 - 2 + 1))) with (length p' + 1 + length a)%nat by lia.
    replace s with (p' ++ x :: a ++ (45 :: b ++ m :: q)) by (unfold s; rewrite <- !app_assoc; reflexivity).
    rewrite find_back_digits; auto. intros c I. apply digit_iff. apply DA; auto. }
  rewrite F2. rewrite NP by lia.
  unfold substr. 
  replace (Z.of_nat (length s) <? Z.of_nat (length p') + 1) with false by (symmetry; apply Z.ltb_ge; lia).
  replace (Z.of_nat (length s) <? e + 1) with false by (symmetry; apply Z.ltb_ge; lia).
  replace (Z.of_nat (length s) <? 0) with false by (symmetry; apply Z.ltb_ge; lia).
  replace (Z.of_nat (length s) <? mk + 1) with false by (symmetry; apply Z.ltb_ge; lia). cbn [bind].
  assert (S1 : skipn (Z.to_nat (Z.of_nat (length p') + 1)) s = a ++ 45 :: b ++ m :: q).
  { replace (Z.to_nat (Z.of_nat (length p') + 1)) with (length (p' ++ [x]) + 0)%nat by (rewrite app_length; cbn; lia).
    unfold s. rewrite skipn_app, skipn_all2 by lia. replace (length (p' ++ [x]) + 0 - length (p' ++ [x]))%nat with 0%nat by lia. reflexivity. }
  rewrite S1.
  assert (S2 : skipn (Z.to_nat (e + 1)) s = b ++ m :: q).
  { replace s with (((p' ++ [x]) ++ a ++ [45]) ++ b ++ m :: q) by (unfold s; rewrite <- !app_assoc; reflexivity).
    rewrite skipn_app, skipn_all2 by (rewrite !app_length; cbn; lia).
    replace (Z.to_nat (e + 1) - length ((p' ++ [x]) ++ a ++ [45%Z]))%nat with 0%nat by (rewrite !app_length; cbn; lia). reflexivity. }
  rewrite S2.
  assert (T : forall (d : bytes) y r k, (length d < k)%nat -> firstn k (d ++ y :: r) = d ++ y :: firstn (k - length d - 1) r).
  { intros d y r k K. rewrite firstn_app, firstn_all2 by lia. f_equal. destruct (k - length d)%nat as [|j] eqn:J; [lia|]. cbn. rewrite Nat.sub_0_r. reflexivity. }
  rewrite T by lia. rewrite (T b m q (Z.to_nat (Z.min mk (Z.of_nat (length s))))) by lia. rewrite atoi_app by auto. 
  rewrite atoi_app; [|auto|]. 2:{ apply not_true_iff_false. rewrite digit_iff. apply mark_iff in M. lia. }
  destruct (i32 (number a)) as [st| |]; cbn [bind]; auto. destruct (i32 (number b)) as [en| |]; cbn [bind]; auto.
  cbn [skipn Z.to_nat]. 
  replace (firstn _ s) with (p' ++ [x]).
  2:{ symmetry. replace (Z.to_nat (Z.min (Z.of_nat (length p') + 1) (Z.of_nat (length s)))) with (length (p' ++ [x]) + 0)%nat by (rewrite app_length; cbn; lia).
      unfold s. rewrite firstn_app_2. cbn. apply List.app_nil_r. }
  replace (firstn _ (skipn _ s)) with q; auto. symmetry.
  replace s with (((p' ++ [x]) ++ a ++ 45 :: b ++ [m]) ++ q) by (unfold s; rewrite <- !app_assoc; cbn; rewrite <- app_assoc; reflexivity).
  rewrite skipn_app, skipn_all2 by (rewrite !app_length; cbn; rewrite app_length; cbn; lia).
  replace (Z.to_nat (mk + 1) - length ((p' ++ [x]) ++ a ++ 45%Z :: b ++ [m]))%nat with 0%nat
    by (rewrite !app_length; cbn; rewrite app_length; cbn; lia).
  cbn [skipn List.app]. apply firstn_all2. rewrite !app_length. cbn. rewrite app_length. unfold npos. cbn. 
  rewrite LS in L. clear - L. lia.
Qed.
