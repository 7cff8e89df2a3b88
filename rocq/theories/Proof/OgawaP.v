From Coq Require Import ZArith List Bool Lia Arith.
From Verif Require Import Model.Base Model.OgawaM Spec.OgawaSpec Proof.BaseP.
Import ListNotations.
Open Scope Z_scope.

(** * Bytes *)
Lemma enc_le_length n z : length (enc_le n z) = n.
Proof. revert z. induction n; intros; simpl; auto. Qed.
Lemma enc64_length z : length (enc64 z) = 8%nat.
Proof. apply enc_le_length. Qed.
Lemma dec_enc n z : 0 <= z < 256 ^ Z.of_nat n -> dec_le (enc_le n z) = z.
Proof.
  revert z. induction n as [|n IH]; intros z H.
  - simpl in *. lia.
  - rewrite Nat2Z.inj_succ, Z.pow_succ_r in H by lia. cbn [enc_le dec_le]. rewrite IH.
    + pose proof (Z.div_mod z 256). lia.
    + split; [apply Z.div_pos; lia|apply Z.div_lt_upper_bound; lia].
Qed.
Lemma dec_enc64 z : 0 <= z < 2 ^ 64 -> dec_le (enc64 z) = z.
Proof. intros. apply dec_enc. change (256 ^ Z.of_nat 8) with (2 ^ 64). auto. Qed.
Lemma flat_enc_length l : length (flat_map enc64 l) = (8 * length l)%nat.
Proof. induction l; simpl; auto. rewrite IHl. lia. Qed.
Lemma dec_vec_enc l r : Forall (fun z => 0 <= z < 2 ^ 64) l ->
  dec_vec (length l) (flat_map enc64 l ++ r) = l.
Proof.
  induction 1 as [|z l Hz H IH]; [reflexivity|]. cbn [length dec_vec flat_map].
  rewrite <- app_assoc. f_equal.
  - rewrite firstn_app, enc64_length, Nat.sub_diag, firstn_O, app_nil_r, firstn_all2 by (rewrite enc64_length; lia).
    apply dec_enc64; auto.
  - rewrite skipn_app, enc64_length, Nat.sub_diag, skipn_O, skipn_all2 by (rewrite enc64_length; lia). exact IH.
Qed.

Lemma write_at_mid A X B Y : length X = length Y -> write_at (A ++ X ++ B) (length A) Y = A ++ Y ++ B.
Proof.
  intros H. unfold write_at. rewrite firstn_app, Nat.sub_diag, firstn_O, app_nil_r, firstn_all.
  do 2 f_equal. rewrite skipn_app. rewrite skipn_all2 by lia. rewrite skipn_app, skipn_all2 by lia.
  replace (length A + length Y - length A - length X)%nat with O by lia. auto.
Qed.
Lemma write_at_end f bs : write_at f (length f) bs = f ++ bs.
Proof. unfold write_at. rewrite firstn_all, skipn_all2 by lia. rewrite app_nil_r. auto. Qed.
Lemma write_at_length f p bs : (p <= length f)%nat -> length (write_at f p bs) = Nat.max (length f) (p + length bs).
Proof. intros H. unfold write_at. rewrite !app_length, firstn_length, skipn_length. lia. Qed.

Lemma read_at_mid A X B : read_at (A ++ X ++ B) (Z.of_nat (length A)) (Z.of_nat (length X)) = Some X.
Proof.
  unfold read_at. rewrite !app_length.
  destruct (_ && _ && _) eqn:E; [|apply andb_false_iff in E as [E|E]; [apply andb_false_iff in E as [E|E]|]; lia].
  rewrite !Nat2Z.id. rewrite skipn_app, skipn_all, Nat.sub_diag. cbn. rewrite firstn_app, Nat.sub_diag, firstn_O, app_nil_r, firstn_all.
  auto.
Qed.
Lemma read64_mid A z B : 0 <= z < 2 ^ 64 -> read64 (A ++ enc64 z ++ B) (Z.of_nat (length A)) = Some z.
Proof.
  intros H. unfold read64. change 8 with (Z.of_nat 8). rewrite <- (enc64_length z), read_at_mid, dec_enc64; auto.
Qed.

(** * Chunks *)
Inductive chunk : Type := KData (b : list Z) | KGroup (g : nat).
Definition kids (gs : list ogroup) (g : nat) : list Z :=
  match nth_error gs g with Some gr => og_children gr | None => [] end.
Definition cbytes (gs : list ogroup) (c : chunk) : list Z :=
  match c with
  | KData b => enc64 (Z.of_nat (length b)) ++ b
  | KGroup g => enc64 (Z.of_nat (length (kids gs g))) ++ flat_map enc64 (kids gs g)
  end.
Definition render (gs : list ogroup) (cs : list chunk) : list Z := flat_map (cbytes gs) cs.
Definition off (gs : list ogroup) (cs : list chunk) (k : nat) : nat := (16 + length (render gs (firstn k cs)))%nat.
Definition hdr (fz rp : Z) : list Z := [79; 103; 97; 119; 97; fz; 0; 1] ++ enc64 rp.

Lemma hdr_length fz rp : length (hdr fz rp) = 16%nat.
Proof. unfold hdr. rewrite app_length, enc64_length. reflexivity. Qed.
Lemma render_app gs a b : render gs (a ++ b) = render gs a ++ render gs b.
Proof. unfold render. apply flat_map_app. Qed.
Lemma render_ext gs gs' cs : (forall g, In (KGroup g) cs -> kids gs g = kids gs' g) -> render gs cs = render gs' cs.
Proof.
  intros H. unfold render. induction cs as [|c cs IH]; auto. simpl. rewrite IH by (intros; apply H; right; auto).
  f_equal. destruct c as [b|g]; auto. unfold cbytes. rewrite (H g) by (left; auto). auto.
Qed.
Lemma cbytes_len_ext gs gs' c : (forall g, c = KGroup g -> length (kids gs g) = length (kids gs' g)) ->
  length (cbytes gs c) = length (cbytes gs' c).
Proof.
  intros H. destruct c as [b|g]; auto. unfold cbytes. rewrite !app_length, !enc64_length, !flat_enc_length, (H g) by auto. auto.
Qed.
Lemma render_len_ext gs gs' cs : (forall g, In (KGroup g) cs -> length (kids gs g) = length (kids gs' g)) ->
  length (render gs cs) = length (render gs' cs).
Proof.
  intros H. unfold render. induction cs as [|c cs IH]; auto. simpl. rewrite !app_length, IH by (intros; apply H; right; auto).
  f_equal. apply cbytes_len_ext. intros g ->. apply H. left; auto.
Qed.
Lemma In_firstn {A} (x : A) k l : In x (firstn k l) -> In x l.
Proof. rewrite <- (firstn_skipn k l) at 2. intros. apply in_or_app. auto. Qed.
Lemma off_ext gs gs' cs k : (forall g, In (KGroup g) cs -> length (kids gs g) = length (kids gs' g)) ->
  off gs cs k = off gs' cs k.
Proof. intros H. unfold off. rewrite (render_len_ext gs gs'); auto. intros. apply H. eapply In_firstn; eauto. Qed.
Lemma off_app gs cs c k : (k <= length cs)%nat -> off gs (cs ++ [c]) k = off gs cs k.
Proof. intros. unfold off. rewrite firstn_app. replace (k - length cs)%nat with O by lia. simpl. rewrite app_nil_r. auto. Qed.
Lemma off_last gs cs c : off gs (cs ++ [c]) (length cs) = (16 + length (render gs cs))%nat.
Proof. rewrite off_app by lia. unfold off. rewrite firstn_all. auto. Qed.
Lemma nth_split_k {A} (l : list A) k x : nth_error l k = Some x -> l = firstn k l ++ x :: skipn (S k) l.
Proof.
  revert k. induction l; intros [|k] H; simpl in *; try discriminate; [congruence|]. f_equal. auto.
Qed.
Lemma nth_error_firstn_lt {A} (l : list A) k i : (i < k)%nat -> nth_error (firstn k l) i = nth_error l i.
Proof. revert k i. induction l; intros [|k] [|i] H; simpl; auto; try lia. apply IHl. lia. Qed.
Lemma nth_error_skipn' {A} (l : list A) k i : nth_error (skipn k l) i = nth_error l (k + i).
Proof. revert k. induction l; intros [|k]; simpl; auto. destruct i; auto. Qed.
Lemma cbytes_pos gs c : (8 <= length (cbytes gs c))%nat.
Proof. destruct c; unfold cbytes; rewrite app_length, enc64_length; lia. Qed.
Lemma off_mono gs cs k k' c : (k < k')%nat -> nth_error cs k = Some c -> (off gs cs k + 8 <= off gs cs k')%nat.
Proof.
  intros H E. unfold off.
  assert (firstn k' cs = firstn k cs ++ c :: skipn (S k) (firstn k' cs)) as ->.
  { rewrite (nth_split_k (firstn k' cs) k c) at 1.
    - rewrite firstn_firstn. replace (Nat.min k k') with k by lia. auto.
    - rewrite <- E. apply nth_error_firstn_lt; auto. }
  rewrite render_app, app_length. cbn [render flat_map]. rewrite app_length.
  pose proof (cbytes_pos gs c). lia.
Qed.
Lemma off_inj gs cs k k' c c' : nth_error cs k = Some c -> nth_error cs k' = Some c' -> off gs cs k = off gs cs k' -> k = k'.
Proof.
  intros H H' E. destruct (lt_eq_lt_dec k k') as [[L| ->]|L]; auto.
  - pose proof (off_mono gs cs k k' c L H). lia.
  - pose proof (off_mono gs cs k' k c' L H'). lia.
Qed.

(** The file around chunk [k]. *)
Lemma file_split gs cs k c fz rp : nth_error cs k = Some c ->
  exists A B, hdr fz rp ++ render gs cs = A ++ cbytes gs c ++ B /\ length A = off gs cs k.
Proof.
  intros H. exists (hdr fz rp ++ render gs (firstn k cs)), (render gs (skipn (S k) cs)). split.
  - rewrite (nth_split_k cs k c H) at 1. rewrite render_app. cbn [render flat_map]. rewrite !app_assoc. auto.
  - rewrite app_length, hdr_length. reflexivity.
Qed.

(** * List helpers *)
Lemma list_set_same {A} (l : list A) n a b : nth_error l n = Some b -> nth_error (list_set l n a) n = Some a.
Proof. revert n. induction l; intros [|n] H; simpl in *; try discriminate; auto. Qed.
Lemma list_set_other {A} (l : list A) n m a : n <> m -> nth_error (list_set l n a) m = nth_error l m.
Proof. revert n m. induction l; intros [|n] [|m] H; simpl in *; auto; congruence. Qed.
Lemma list_set_len {A} (l : list A) n a : length (list_set l n a) = length l.
Proof. revert n. induction l; intros [|n]; simpl; auto. Qed.
Lemma list_set_mid {A} (l1 : list A) x l2 a : list_set (l1 ++ x :: l2) (length l1) a = l1 ++ a :: l2.
Proof. induction l1; simpl; auto. f_equal. auto. Qed.
Lemma nth_snoc {A} (l : list A) x i y : nth_error (l ++ [x]) i = Some y ->
  nth_error l i = Some y \/ (i = length l /\ y = x).
Proof.
  intros H. destruct (lt_dec i (length l)) as [L|L].
  - rewrite nth_error_app1 in H by auto. auto.
  - rewrite nth_error_app2 in H by lia. destruct (i - length l)%nat eqn:E; simpl in H.
    + right. split; [lia|congruence].
    + destruct n; discriminate.
Qed.
Lemma nth_snoc_old {A} (l : list A) x i y : nth_error l i = Some y -> nth_error (l ++ [x]) i = Some y.
Proof. intros H. rewrite nth_error_app1; auto. apply nth_error_Some. congruence. Qed.
Lemma nth_snoc_new {A} (l : list A) x : nth_error (l ++ [x]) (length l) = Some x.
Proof. rewrite nth_error_app2, Nat.sub_diag by lia. auto. Qed.

Lemma kids_set gs g gr h : nth_error gs g <> None ->
  kids (list_set gs g gr) h = if Nat.eqb g h then og_children gr else kids gs h.
Proof.
  intros H. unfold kids. destruct (Nat.eqb_spec g h) as [<-|N].
  - destruct (nth_error gs g) eqn:E; [|congruence]. rewrite (list_set_same _ _ _ _ E). auto.
  - rewrite list_set_other by auto. auto.
Qed.
Lemma kids_snoc gs gr h : og_children gr = [] -> kids (gs ++ [gr]) h = kids gs h.
Proof.
  intros E. unfold kids. destruct (nth_error (gs ++ [gr]) h) eqn:H.
  - apply nth_snoc in H as [H|[-> ->]]; [rewrite H; auto|].
    rewrite (proj2 (nth_error_None gs (length gs))) by lia. auto.
  - apply nth_error_None in H. rewrite app_length in H. rewrite (proj2 (nth_error_None gs h)) by lia. auto.
Qed.

(** Patching one child slot of a group on file. *)
Lemma patch_file gs gs' cs k p i v fz rp :
  nth_error cs k = Some (KGroup p) ->
  (forall k', nth_error cs k' = Some (KGroup p) -> k' = k) ->
  (i < length (kids gs p))%nat ->
  kids gs' p = list_set (kids gs p) i v ->
  (forall g, g <> p -> kids gs' g = kids gs g) ->
  write_at (hdr fz rp ++ render gs cs) (off gs cs k + (i + 1) * 8) (enc64 v) = hdr fz rp ++ render gs' cs.
Proof.
  intros Hk U Hi Kp Ko.
  assert (N1 : ~ In (KGroup p) (firstn k cs)).
  { intros H. apply In_nth_error in H as (j & H). assert (j < k)%nat.
    { assert (j < length (firstn k cs))%nat by (apply nth_error_Some; congruence). rewrite firstn_length in *. lia. }
    rewrite nth_error_firstn_lt in H by auto. apply U in H. lia. }
  assert (N2 : ~ In (KGroup p) (skipn (S k) cs)).
  { intros H. apply In_nth_error in H as (j & H). rewrite nth_error_skipn' in H. apply U in H. lia. }
  pose proof (nth_split_k cs k _ Hk) as S. remember (firstn k cs) as c1 eqn:E1. remember (skipn (Datatypes.S k) cs) as c2.
  assert (O : off gs cs k = (16 + length (render gs c1))%nat) by (unfold off; rewrite <- E1; auto).
  rewrite O, S. rewrite !render_app. cbn [render flat_map cbytes].
  fold (render gs c2) (render gs' c2).
  rewrite (render_ext gs' gs c1) by (intros g H; apply Ko; intros ->; auto).
  rewrite (render_ext gs' gs c2) by (intros g H; apply Ko; intros ->; auto).
  rewrite Kp, list_set_len.
  destruct (nth_error (kids gs p) i) as [x|] eqn:X; [|apply nth_error_None in X; lia].
  pose proof (nth_split_k _ _ _ X) as SX. set (x1 := firstn i (kids gs p)) in *. set (x2 := skipn (Datatypes.S i) (kids gs p)) in *.
  assert (L1 : length x1 = i) by (unfold x1; rewrite firstn_length; lia).
  assert (LS : list_set (x1 ++ x :: x2) i v = x1 ++ v :: x2) by (clearbody x1; rewrite <- L1; apply list_set_mid).
  clearbody x1 x2. rewrite SX, LS, !flat_map_app. cbn [flat_map]. rewrite !app_length. cbn [length].
  set (n := enc64 _).
  replace (hdr fz rp ++ render gs c1 ++ (n ++ flat_map enc64 x1 ++ enc64 x ++ flat_map enc64 x2) ++ render gs c2)
    with ((hdr fz rp ++ render gs c1 ++ n ++ flat_map enc64 x1) ++ enc64 x ++ (flat_map enc64 x2 ++ render gs c2))
    by (rewrite <- !app_assoc; auto).
  replace (hdr fz rp ++ render gs c1 ++ (n ++ flat_map enc64 x1 ++ enc64 v ++ flat_map enc64 x2) ++ render gs c2)
    with ((hdr fz rp ++ render gs c1 ++ n ++ flat_map enc64 x1) ++ enc64 v ++ (flat_map enc64 x2 ++ render gs c2))
    by (rewrite <- !app_assoc; auto).
  set (A := hdr fz rp ++ render gs c1 ++ n ++ flat_map enc64 x1).
  assert (LA : length A = (16 + length (render gs c1) + (i + 1) * 8)%nat).
  { unfold A, n. rewrite !app_length, hdr_length, flat_enc_length, L1, enc64_length. lia. }
  rewrite <- LA. apply write_at_mid. rewrite !enc64_length. auto.
Qed.
