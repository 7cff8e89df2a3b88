(** Reading a file of any contents: proofs. *)
From Coq Require Import ZArith List Bool Arith Lia.
From Verif Require Import Model.Base Model.OgawaM Model.DamagedM Spec.DamagedSpec.
Import ListNotations.
Open Scope Z_scope.

Lemma bytes_firstn f n : bytes f -> bytes (firstn n f).
Proof. unfold bytes. rewrite !Forall_forall. intros H x I. apply H. revert I. revert f H. induction n as [|n IH]; intros f H I; [destruct I|]. destruct f; [destruct I|]. destruct I as [->|I]; [left; auto|right]. eapply IH; [|exact I]. intros y Y. apply H. right. auto. Qed.
Lemma bytes_skipn f n : bytes f -> bytes (skipn n f).
Proof. revert f. induction n as [|n IH]; intros f H; [exact H|]. destruct f; [exact H|]. apply IH. inversion H; auto. Qed.
Lemma bytes_app a b : bytes a -> bytes b -> bytes (a ++ b).
Proof. intros A B. apply Forall_app. auto. Qed.
Lemma bytes_zeros n : bytes (repeat 0 n).
Proof. induction n; constructor; [lia|auto]. Qed.
Lemma dec_range b : bytes b -> 0 <= dec_le b < 256 ^ Z.of_nat (length b).
Proof.
  induction 1 as [|x l X _ IH]; [cbn; lia|]. cbn [dec_le length]. rewrite Nat2Z.inj_succ, Z.pow_succ_r by lia. nia.
Qed.
Lemma dec_zeros n : dec_le (repeat 0 n) = 0.
Proof. induction n; cbn [repeat dec_le]; [auto|]. rewrite IHn. reflexivity. Qed.
Lemma dec_vec_length n b : length (dec_vec n b) = n.
Proof. revert b. induction n; intros b; cbn [dec_vec length]; auto. Qed.
Lemma u64_small z : 0 <= z < 2 ^ 64 -> u64 z = z.
Proof. apply Z.mod_small. Qed.
Lemma u64_range z : 0 <= u64 z < 2 ^ 64.
Proof. apply Z.mod_pos_bound. lia. Qed.
Lemma firstn_min {A} (l : list A) n : firstn (Nat.min n (length l)) l = firstn n l.
Proof.
  destruct (Nat.le_ge_cases n (length l)) as [L|L].
  - rewrite Nat.min_l by auto. reflexivity.
  - rewrite Nat.min_r by auto. rewrite firstn_all, firstn_all2; auto.
Qed.

Section D.
Context (mem : Z) (f : list Z).
Notation slice := (slice f).
Notation s_read := (s_read f).
Notation s_read64 := (s_read64 f).

Lemma slice_piece p n : 0 <= p -> 0 <= n -> slice p n = piece f p n.
Proof.
  intros P N. unfold slice, piece. destruct (Z.leb_spec (Z.of_nat (length f)) p) as [L|L].
  - rewrite skipn_all2 by lia. destruct (Z.to_nat n); reflexivity.
  - rewrite Z2Nat.inj_min, Nat2Z.id.
    destruct (Nat.le_ge_cases (Z.to_nat n) (length f)) as [X|X]; [rewrite Nat.min_l by auto; reflexivity|].
    rewrite Nat.min_r by auto. rewrite !firstn_all2; auto; rewrite skipn_length; lia.
Qed.
Lemma piece_length p n : 0 <= n -> (length (piece f p n) <= Z.to_nat n)%nat.
Proof. intros N. unfold piece. rewrite firstn_length. lia. Qed.
Lemma piece_full p n : 0 <= p -> 0 <= n -> p + n <= Z.of_nat (length f) -> length (piece f p n) = Z.to_nat n.
Proof. intros P N L. unfold piece. rewrite firstn_length, skipn_length. lia. Qed.
Lemma piece_full_inv p n : 0 <= p -> 0 < n -> length (piece f p n) = Z.to_nat n -> p + n <= Z.of_nat (length f).
Proof. intros P N. unfold piece. rewrite firstn_length, skipn_length. lia. Qed.
Lemma piece_bytes p n : bytes f -> bytes (piece f p n).
Proof. intros B. apply bytes_firstn, bytes_skipn, B. Qed.
Lemma piece_read p n b : read_at f p n = Some b -> 0 <= p /\ 0 <= n /\ p + n <= Z.of_nat (length f) /\ b = piece f p n.
Proof.
  unfold read_at. destruct (Z.leb_spec 0 p), (Z.leb_spec 0 n), (Z.leb_spec (p + n) (Z.of_nat (length f))); cbn; intros E; try discriminate.
  injection E as <-. auto.
Qed.

(** What a read leaves. *)
Lemma read_ok bad p n buf : 0 <= p -> 0 <= n -> n <= Z.of_nat (length buf) ->
  exists bad' k, s_read bad p n buf = Ok (bad', piece f p k ++ skipn (Z.to_nat k) buf) /\ 0 <= k <= n /\
    length (piece f p k) = Z.to_nat k /\ (bad = true -> bad' = true /\ k = 0) /\
    (bad' = false -> k = n /\ (0 < n -> p + n <= Z.of_nat (length f))) /\
    (bad = false -> p + n <= Z.of_nat (length f) -> p < 2 ^ 63 -> n < 2 ^ 63 -> bad' = false /\ k = n).
Proof.
  intros P N L. unfold DamagedM.s_read.
  assert (K0 : piece f p 0 ++ skipn (Z.to_nat 0) buf = buf) by reflexivity.
  destruct (bad || (2 ^ 63 <=? p) || (2 ^ 63 <=? n)) eqn:Q.
  - exists true, 0. rewrite K0. split; [reflexivity|]. split; [lia|]. split; [reflexivity|]. split; [auto|]. split; [discriminate|].
    intros -> _ Hp Hn. cbn [orb] in Q. apply orb_true_iff in Q. rewrite !Z.leb_le in Q. lia.
  - apply orb_false_iff in Q. destruct Q as [Q Qn]. apply orb_false_iff in Q. destruct Q as [-> Qp]. rewrite slice_piece by auto.
    pose proof (piece_length p n N) as PL.
    destruct (Z.ltb_spec (Z.of_nat (length buf)) (Z.of_nat (length (piece f p n)))) as [X|X]; [lia|].
    assert (Pk : piece f p (Z.of_nat (length (piece f p n))) = piece f p n).
    { unfold piece at 1. rewrite Nat2Z.id. unfold piece at 1. rewrite firstn_length, skipn_length.
      rewrite <- (skipn_length (Z.to_nat p) f). rewrite firstn_min. reflexivity. }
    exists (negb (Z.of_nat (length (piece f p n)) =? n)), (Z.of_nat (length (piece f p n))).
    rewrite Pk, Nat2Z.id. split; [reflexivity|]. split; [lia|]. split; [auto|]. split; [discriminate|]. split.
    + intros E. apply negb_false_iff in E. apply Z.eqb_eq in E. split; [auto|]. intros N0.
      apply piece_full_inv; auto. lia.
    + intros _ Le _ _. rewrite (piece_full _ _ P N Le). rewrite Z2Nat.id by auto. rewrite Z.eqb_refl. auto.
Qed.

(** Reading a number. *)
Lemma read64_ok bad p : bytes f -> 0 <= p -> exists bad' n, s_read64 bad p = Ok (bad', n) /\ 0 <= n < 2 ^ 64 /\
  (bad = true -> bad' = true /\ n = 0) /\ (bad' = false -> says f p n /\ p + 8 <= Z.of_nat (length f)) /\
  (forall v, bad = false -> Z.of_nat (length f) < 2 ^ 63 -> read64 f p = Some v -> bad' = false /\ n = v).
Proof.
  intros B P. unfold DamagedM.s_read64.
  destruct (read_ok bad p 8 (repeat 0 8) P ltac:(lia) ltac:(cbn; lia)) as (bad' & k & E & K & Lk & F & G & H).
  rewrite E. cbn [bind]. eexists _, _. split; [reflexivity|]. split.
  { assert (X : length (piece f p k ++ skipn (Z.to_nat k) (repeat 0 8)) = 8%nat).
    { rewrite app_length, skipn_length, repeat_length, Lk. lia. }
    pose proof (dec_range (piece f p k ++ skipn (Z.to_nat k) (repeat 0 8))) as R. rewrite X in R. apply R.
    apply bytes_app; [apply piece_bytes; auto|apply bytes_skipn, bytes_zeros]. }
  split.
  { intros T. destruct (F T) as [-> ->]. split; [auto|]. change (dec_le (repeat 0 8) = 0). apply dec_zeros. }
  split.
  { intros T. destruct (G T) as [-> X]. specialize (X ltac:(lia)). split; [|lia]. exists (piece f p 8).
    split; [auto|]. split; [rewrite Lk; reflexivity|]. change (skipn (Z.to_nat 8) (repeat 0 8)) with (@nil Z). rewrite app_nil_r. reflexivity. }
  intros v -> Len R. unfold read64 in R. destruct (read_at f p 8) as [b|] eqn:Rb; [|discriminate]. injection R as <-.
  apply piece_read in Rb. destruct Rb as (_ & _ & L8 & ->). destruct (H eq_refl L8 ltac:(lia) ltac:(lia)) as [-> ->].
  split; [auto|]. change (skipn (Z.to_nat 8) (repeat 0 8)) with (@nil Z). rewrite app_nil_r. reflexivity.
Qed.

Lemma dec_vec_zeros n m : dec_vec n (repeat 0 m) = repeat 0 n.
Proof.
  revert m. induction n as [|n IH]; intros m; [reflexivity|]. cbn [dec_vec repeat].
  assert (S8 : skipn 8 (repeat 0 m) = repeat 0 (m - 8)).
  { do 8 (destruct m as [|m]; [reflexivity|]). cbn [repeat skipn Nat.sub]. rewrite Nat.sub_0_r. reflexivity. }
  assert (F8 : dec_le (firstn 8 (repeat 0 m)) = 0).
  { do 8 (destruct m as [|m]; [reflexivity|]). reflexivity. }
  rewrite S8, F8, IH. reflexivity.
Qed.

(** Opening a group. *)
Definition sane_group (g : igroup) : Prop := 0 <= ig_pos g /\ 0 <= ig_num g < 2 ^ 64 /\ Forall (fun v => 0 <= v < 2 ^ 64) (ig_vec g).
Lemma dec_vec_range n b : bytes b -> Forall (fun v => 0 <= v < 2 ^ 64) (dec_vec n b).
Proof.
  revert b. induction n as [|n IH]; intros b B; constructor.
  - pose proof (dec_range _ (bytes_firstn b 8 B)) as R. rewrite firstn_length in R. split; [lia|].
    eapply Z.lt_le_trans; [apply R|]. change (2 ^ 64) with (256 ^ 8). apply Z.pow_le_mono_r; lia.
  - apply IH, bytes_skipn, B.
Qed.
Lemma empty_sane : sane_group empty_igroup.
Proof. split; [cbn; lia|]. split; [cbn; lia|constructor]. Qed.

Lemma open_group_ok bad light p : bytes f -> 0 <= p < 2 ^ 63 ->
  exists bad' h, d_open_group false mem f bad light p = Ok (bad', h) /\
    (forall g, h = Some g -> sane_group g) /\
    (bad = true -> bad' = true /\ (forall g, h = Some g -> ig_num g = 0 /\ ig_vec g = []) /\ (0 <= mem -> h <> None)) /\
    (forall g, bad = false -> Z.of_nat (length f) < 2 ^ 63 -> Z.of_nat (length f) <= mem -> i_open_group f light p = Some g -> bad' = false /\ h = Some g).
Proof.
  intros B P. unfold d_open_group, i_open_group. destruct (p =? EMPTY_GROUP) eqn:Z0.
  { exists bad, (Some empty_igroup). split; [reflexivity|]. split; [intros g E; injection E as <-; apply empty_sane|]. split.
    - intros ->. split; [auto|]. split; [intros g E; injection E as <-; split; reflexivity|discriminate].
    - intros g -> _ _ E. injection E as <-. auto. }
  apply Z.eqb_neq in Z0. change EMPTY_GROUP with 0 in Z0.
  destruct (read64_ok bad p B ltac:(lia)) as (b1 & n & E & Rn & F & G & H). rewrite E. cbn [bind].
  destruct (negb light || (n <? 9)) eqn:Full.
  2:{ exists b1, (Some (IGroup p n [])). split; [reflexivity|]. split.
      { intros g X. injection X as <-. split; [cbn; lia|]. split; [exact Rn|constructor]. }
      split.
      { intros T. destruct (F T) as [_ ->]. apply orb_false_iff in Full. destruct Full as [_ X]. discriminate X. }
      intros g T Len M. destruct (read64 f p) as [v|] eqn:R; [|discriminate]. destruct (H v T Len eq_refl) as [-> <-]. rewrite Full.
      intros X. injection X as <-. auto. }
  destruct ((2 ^ 60 <=? n) || (mem <? 8 * n)) eqn:Big.
  { exists b1, None. split; [reflexivity|]. split; [discriminate|]. split.
    - intros T. destruct (F T) as [-> ->]. split; [auto|]. split; [discriminate|]. intros M. cbn [Z.leb orb Z.mul] in Big. apply Z.ltb_lt in Big. lia.
    - intros g T Len M. destruct (read64 f p) as [v|] eqn:R; [|discriminate]. destruct (H v T Len eq_refl) as [-> <-]. rewrite Full.
      destruct (read_at f (p + 8) (n * 8)) as [b|] eqn:Rb; [|discriminate]. apply piece_read in Rb.
      apply orb_true_iff in Big. rewrite Z.leb_le, Z.ltb_lt in Big. lia. }
  apply orb_false_iff in Big. destruct Big as [B1 B2]. apply Z.leb_gt in B1. apply Z.ltb_ge in B2. cbn [andb].
  rewrite (u64_small (n * 8)) by lia. rewrite (u64_small (p + 8)) by lia.
  destruct (read_ok b1 (p + 8) (n * 8) (repeat 0 (Z.to_nat (8 * n))) ltac:(lia) ltac:(lia) ltac:(rewrite repeat_length; lia)) as (b2 & k & E2 & K & Lk & F2 & G2 & H2).
  rewrite E2. cbn [bind]. eexists _, _. split; [reflexivity|]. split.
  { intros g X. injection X as <-. split; [cbn; lia|]. split; [exact Rn|]. apply dec_vec_range.
    apply bytes_app; [apply piece_bytes; auto|apply bytes_skipn, bytes_zeros]. }
  split.
  { intros T. destruct (F T) as [-> ->]. destruct (F2 eq_refl) as [-> ->]. split; [auto|]. split; [|discriminate]. intros g X. injection X as <-. auto. }
  intros g T Len M. destruct (read64 f p) as [v|] eqn:R; [|discriminate]. destruct (H v T Len eq_refl) as [-> <-]. rewrite Full.
  destruct (read_at f (p + 8) (n * 8)) as [b|] eqn:Rb; [|discriminate]. apply piece_read in Rb. destruct Rb as (_ & _ & L8 & ->).
  intros X. injection X as <-. destruct (H2 eq_refl L8 ltac:(lia) ltac:(lia)) as [-> ->]. split; [auto|].
  rewrite skipn_all2 by (rewrite repeat_length; lia). rewrite app_nil_r. reflexivity.
Qed.

(** Children. *)
Lemma entry_eq g i : 0 <= i -> d_entry g i = nth_error (ig_vec g) (Z.to_nat i).
Proof.
  intros I. unfold d_entry. destruct (Z.ltb_spec i (Z.of_nat (length (ig_vec g)))) as [L|L]; [reflexivity|].
  symmetry. apply nth_error_None. lia.
Qed.
Lemma child_ok bad g i : bytes f -> sane_group g -> 0 <= i < 2 ^ 64 ->
  exists bad' v, d_child f bad g i = Ok (bad', v) /\ (forall x, v = Some x -> 0 <= x < 2 ^ 64) /\
    (bad = true -> bad' = true) /\
    (forall r, bad = false -> Z.of_nat (length f) < 2 ^ 63 -> i_child f g i = Some r -> bad' = false /\ v = r).
Proof.
  intros B (Sp & Sn & Sv) I. unfold d_child, i_child. destruct (i_is_light g).
  - destruct (i <? ig_num g).
    + destruct (read64_ok bad (u64 (ig_pos g + 8 * i + 8)) B ltac:(apply u64_range)) as (b1 & n & E & Rn & F & G & H). rewrite E. cbn [bind].
      eexists _, _. split; [reflexivity|]. split; [intros x X; injection X as <-; auto|]. split; [intros T; apply F; auto|].
      intros r T Len. destruct (read64 f (ig_pos g + 8 * i + 8)) as [v|] eqn:R; [|discriminate]. intros X. injection X as <-.
      assert (L : ig_pos g + 8 * i + 8 < 2 ^ 63).
      { unfold read64 in R. destruct (read_at _ _ _) eqn:Q; [|discriminate]. apply piece_read in Q. lia. }
      rewrite u64_small in H by lia. destruct (H v T Len R) as [-> ->]. auto.
    + eexists _, _. split; [reflexivity|]. split; [discriminate|]. split; [auto|]. intros r -> _ X. injection X as <-. auto.
  - rewrite entry_eq by lia. eexists _, _. split; [reflexivity|]. split.
    { intros x X. apply nth_error_In in X. rewrite Forall_forall in Sv. auto. }
    split; [auto|]. intros r -> _ X. injection X as <-. auto.
Qed.

Lemma land_range v : 0 <= v < 2 ^ 64 -> 0 <= Z.land v INVALID_GROUP < 2 ^ 63.
Proof.
  intros V. change INVALID_GROUP with (Z.ones 63). rewrite Z.land_ones by lia. apply Z.mod_pos_bound. lia.
Qed.
Lemma group_pos v : 0 <= v < 2 ^ 64 -> Z.land v EMPTY_DATA = 0 -> 0 <= v < 2 ^ 63.
Proof.
  intros V L. split; [lia|]. destruct (Z.lt_ge_cases v (2 ^ 63)) as [|G]; [auto|exfalso].
  assert (T : Z.testbit v 63 = true).
  { apply Z.testbit_true; [lia|]. replace (v / 2 ^ 63) with 1; [reflexivity|]. apply Z.div_unique with (v - 2 ^ 63); lia. }
  assert (T' : Z.testbit (Z.land v EMPTY_DATA) 63 = true).
  { rewrite Z.land_spec, T. reflexivity. }
  rewrite L in T'. discriminate.
Qed.

(** Data. *)
Definition sane_data (d : idata) : Prop := 0 <= id_pos d < 2 ^ 63 /\ 0 <= id_size d < 2 ^ 64.
Definition true_data (d : idata) : Prop := id_size d = 0 \/ (says f (id_pos d) (id_size d) /\ id_pos d + 8 <= Z.of_nat (length f)).
Lemma open_data_ok bad v : bytes f -> 0 <= v < 2 ^ 64 ->
  exists bad' d, d_open_data f bad v = Ok (bad', d) /\ sane_data d /\ (bad = true -> bad' = true /\ id_size d = 0) /\
    (bad' = false -> true_data d) /\ id_pos d = Z.land v INVALID_GROUP /\
    (forall b, bad = false -> Z.of_nat (length f) < 2 ^ 63 -> i_read_data f v = Some b ->
       bad' = false /\ id_size d = Z.of_nat (length b) /\ (b <> [] -> b = piece f (id_pos d + 8) (id_size d) /\ id_pos d + 8 + id_size d <= Z.of_nat (length f))).
Proof.
  intros B V. pose proof (land_range v V) as Lr. unfold d_open_data, i_read_data. destruct (Z.land v INVALID_GROUP =? 0) eqn:Z0.
  { apply Z.eqb_eq in Z0. rewrite Z0. eexists _, _. split; [reflexivity|]. split; [split; cbn; lia|]. split; [intros ->; auto|]. split; [intros _; left; reflexivity|].
    split; [reflexivity|]. intros b -> _ X. injection X as <-. split; [auto|]. split; [reflexivity|congruence]. }
  destruct (read64_ok bad (Z.land v INVALID_GROUP) B ltac:(lia)) as (b1 & n & E & Rn & F & G & H). rewrite E. cbn [bind].
  eexists _, _. split; [reflexivity|]. split; [split; cbn; auto; lia|]. split; [intros T; destruct (F T) as [-> ->]; auto|]. split; [intros T; right; apply G; auto|].
  split; [reflexivity|]. intros b T Len. destruct (read64 f _) as [m|] eqn:R; [|discriminate]. destruct (H m T Len eq_refl) as [-> <-].
  intros X. apply piece_read in X. destruct X as (_ & N0 & L8 & ->). cbn [id_size id_pos]. split; [auto|].
  rewrite piece_full by lia. split; [lia|]. intros _. split; [auto|lia].
Qed.

Lemma d_read_ok bad d size off buf : sane_data d -> 0 <= size <= Z.of_nat (length buf) -> 0 <= off < 2 ^ 64 ->
  exists bad' b, d_read f bad d size off buf = Ok (bad', b) /\ length b = length buf /\ (bad = true -> bad' = true /\ b = buf) /\
  (id_pos d + 8 + off < 2 ^ 64 -> off + size < 2 ^ 64 -> exists k, b = piece f (id_pos d + 8 + off) k ++ skipn (Z.to_nat k) buf /\ 0 <= k <= size /\
     length (piece f (id_pos d + 8 + off) k) = Z.to_nat k /\ (0 < k -> bad = false /\ off + size <= id_size d) /\
     (bad' = false -> off + size <= id_size d -> k = size) /\
     (bad = false -> off + size <= id_size d -> id_pos d + 8 + off + size <= Z.of_nat (length f) -> Z.of_nat (length f) < 2 ^ 63 -> k = size /\ bad' = false)).
Proof.
  intros (Sp & Ss) S O. unfold d_read.
  assert (Nothing : exists k, buf = piece f (id_pos d + 8 + off) k ++ skipn (Z.to_nat k) buf /\ k = 0 /\ length (piece f (id_pos d + 8 + off) k) = Z.to_nat k).
  { exists 0. repeat split. }
  destruct Nothing as (k0 & Nb & -> & Nl).
  destruct ((size =? 0) || (id_size d =? 0) || (id_size d <? u64 (off + size))) eqn:Q.
  { exists bad, buf. split; [reflexivity|]. split; [auto|]. split; [intros ->; auto|]. intros _ W. exists 0. split; [exact Nb|]. split; [lia|]. split; [exact Nl|]. split; [lia|].
    rewrite u64_small in Q by lia. apply orb_true_iff in Q. rewrite Z.ltb_lt in Q. rewrite orb_true_iff, !Z.eqb_eq in Q.
    split; [intros _ X; lia|]. intros -> X _ _. split; [lia|auto]. }
  apply orb_false_iff in Q. destruct Q as [Q Q3]. apply orb_false_iff in Q. destruct Q as [Q1 Q2]. apply Z.eqb_neq in Q1, Q2. apply Z.ltb_ge in Q3.
  destruct (read_ok bad (u64 (id_pos d + off + 8)) size buf ltac:(apply u64_range) ltac:(lia) ltac:(lia)) as (b1 & k & E & K & Lk & F & G & H).
  rewrite E. eexists _, _. split; [reflexivity|]. split; [rewrite app_length, skipn_length, Lk; lia|]. split.
  { intros T. destruct (F T) as [-> ->]. auto. }
  intros W' W. rewrite u64_small in Q3 by lia. rewrite u64_small in * by lia. replace (id_pos d + off + 8) with (id_pos d + 8 + off) in * by lia.
  exists k. split; [auto|]. split; [auto|]. split; [auto|]. split.
  { intros Kp. split; [|auto]. destruct bad; [|auto]. destruct (F eq_refl). lia. }
  split; [intros T _; apply G; auto|].
  intros T X L8 Len. destruct (H T) as [-> ->]; [lia|lia|lia|auto].
Qed.
End D.
