(** Reading a file of any contents: histories of calls. *)
From Coq Require Import ZArith List Bool Arith Lia.
From Verif Require Import Model.Base Model.OgawaM Model.DamagedM Spec.DamagedSpec Proof.DamagedP.
Import ListNotations.
Open Scope Z_scope.

Section D.
Context (mem : Z) (f : list Z).

Record inv (s : rstate) : Prop := Inv {
  in_groups : Forall sane_group (r_groups s);
  in_datas : Forall sane_data (r_datas s);
  in_true : r_bad s = false -> Forall (true_data f) (r_datas s) }.

Lemma at_nth {A} (P : A -> Prop) l i x : Forall P l -> nth_error l i = Some x -> P x.
Proof. intros F N. rewrite Forall_forall in F. apply F. eapply nth_error_In; eauto. Qed.
Lemma snoc_all {A} (P : A -> Prop) l x : Forall P l -> P x -> Forall P (l ++ [x]).
Proof. intros F X. apply Forall_app. split; [auto|]. constructor; auto. Qed.

Lemma inv_keep s bad : inv s -> (r_bad s = true -> bad = true) -> inv (RState bad (r_groups s) (r_datas s)).
Proof.
  intros [G D T] B. split; cbn [r_groups r_datas r_bad]; auto. intros E. apply T. destruct (r_bad s); [|auto]. rewrite B in E by auto. discriminate.
Qed.

Lemma step_ok s c : bytes f -> inv s -> call_ok c ->
  exists s' a, d_step false mem f s c = Ok (s', a) /\ inv s' /\ (r_bad s = true -> r_bad s' = true /\ empty_handed s c s' a) /\
    (exists gs ds, r_groups s' = r_groups s ++ gs /\ r_datas s' = r_datas s ++ ds).
Proof.
  intros B I C. pose proof I as [G D T].
  assert (Nil : exists gs ds, r_groups s = r_groups s ++ gs /\ r_datas s = r_datas s ++ ds).
  { exists [], []. rewrite !app_nil_r. auto. }
  destruct c as [g i light|g i|g|g i|d|d size off buf]; cbn [d_step call_ok] in *.
  - destruct (nth_error (r_groups s) g) as [gr|] eqn:N.
    2:{ exists s, ANo. split; [reflexivity|]. split; [exact I|]. split; [intros ->; cbn; auto|exact Nil]. }
    destruct (child_ok f (r_bad s) gr i B (at_nth _ _ _ _ G N) C) as (b1 & v & E & Rv & F & _). rewrite E. cbn [bind].
    destruct v as [v|].
    2:{ eexists _, _. split; [reflexivity|]. split; [apply inv_keep; auto|]. split; [intros X; rewrite (F X); cbn; auto|exact Nil]. }
    destruct (Z.land v EMPTY_DATA =? 0) eqn:Lv.
    2:{ eexists _, _. split; [reflexivity|]. split; [apply inv_keep; auto|]. split; [intros X; rewrite (F X); cbn; auto|exact Nil]. }
    apply Z.eqb_eq in Lv. specialize (Rv _ eq_refl).
    destruct (open_group_ok mem f b1 light v B (group_pos _ Rv Lv)) as (b2 & h & E2 & Sh & F2 & _). rewrite E2. cbn [bind].
    assert (F12 : r_bad s = true -> b2 = true) by (intros X; apply F2; auto).
    destruct h as [h|].
    + eexists _, _. split; [reflexivity|]. split.
      { split; cbn [r_groups r_datas r_bad]; [apply snoc_all; auto|auto|]. apply (in_true _ (inv_keep s b2 I F12)). }
      split.
      { intros X. rewrite (F12 X). split; [reflexivity|]. destruct (F2 (F X)) as (_ & Q & _). exists h. destruct (Q _ eq_refl). cbn [r_groups r_datas]. auto. }
      exists [h], []. rewrite app_nil_r. auto.
    + eexists _, _. split; [reflexivity|]. split; [apply inv_keep; auto|]. split; [intros X; rewrite (F12 X); cbn; auto|exact Nil].
  - destruct (nth_error (r_groups s) g) as [gr|] eqn:N.
    2:{ exists s, ANo. split; [reflexivity|]. split; [exact I|]. split; [intros ->; cbn; auto|exact Nil]. }
    destruct (child_ok f (r_bad s) gr i B (at_nth _ _ _ _ G N) C) as (b1 & v & E & Rv & F & _). rewrite E. cbn [bind].
    destruct v as [v|].
    2:{ eexists _, _. split; [reflexivity|]. split; [apply inv_keep; auto|]. split; [intros X; rewrite (F X); cbn; auto|exact Nil]. }
    destruct (negb (Z.land v EMPTY_DATA =? 0)) eqn:Lv.
    2:{ eexists _, _. split; [reflexivity|]. split; [apply inv_keep; auto|]. split; [intros X; rewrite (F X); cbn; auto|exact Nil]. }
    specialize (Rv _ eq_refl). destruct (open_data_ok f b1 v B Rv) as (b2 & d & E2 & Sd & F2 & G2 & _). rewrite E2. cbn [bind].
    assert (F12 : r_bad s = true -> b2 = true) by (intros X; apply F2; auto).
    eexists _, _. split; [reflexivity|]. split.
    { split; cbn [r_groups r_datas r_bad]; [auto|apply snoc_all; auto|]. intros X. apply snoc_all; [|auto].
      apply (in_true _ (inv_keep s b2 I F12)). exact X. }
    split.
    { intros X. rewrite (F12 X). split; [reflexivity|]. destruct (F2 (F X)) as (_ & Q). exists (id_pos d). cbn [r_groups r_datas]. rewrite <- Q. destruct d; auto. }
    exists [], [d]. rewrite app_nil_r. auto.
  - destruct (nth_error (r_groups s) g) as [gr|] eqn:N; eexists _, _; (split; [reflexivity|]; split; [exact I|]; split; [intros ->; cbn; auto|exact Nil]).
  - destruct (nth_error (r_groups s) g) as [gr|] eqn:N; eexists _, _; (split; [reflexivity|]; split; [exact I|]; split; [intros ->; cbn; auto|exact Nil]).
  - destruct (nth_error (r_datas s) d) as [gr|] eqn:N; eexists _, _; (split; [reflexivity|]; split; [exact I|]; split; [intros ->; cbn; auto|exact Nil]).
  - destruct (nth_error (r_datas s) d) as [x|] eqn:N.
    2:{ exists s, ANo. split; [reflexivity|]. split; [exact I|]. split; [intros ->; cbn; auto|exact Nil]. }
    destruct C as [C1 C2]. destruct (d_read_ok f (r_bad s) x size off buf (at_nth _ _ _ _ D N) C1 C2) as (b1 & b & E & _ & F & _). rewrite E. cbn [bind].
    eexists _, _. split; [reflexivity|]. split; [apply inv_keep; [auto|intros X; apply F; auto]|]. split; [|exact Nil].
    intros X. destruct (F X) as [-> ->]. cbn. auto.
Qed.

Lemma run_ok l : forall s, bytes f -> inv s -> Forall call_ok l ->
  exists s' al, d_run false mem f s l = Ok (s', al) /\ inv s' /\ length al = length l /\ (r_bad s = true -> r_bad s' = true) /\
    (exists gs ds, r_groups s' = r_groups s ++ gs /\ r_datas s' = r_datas s ++ ds).
Proof.
  induction l as [|c l IH]; intros s B I C; cbn [d_run].
  - exists s, []. split; [reflexivity|]. split; [exact I|]. split; [reflexivity|]. split; [auto|]. exists [], []. rewrite !app_nil_r. auto.
  - inversion C as [|? ? C1 C2]; subst. destruct (step_ok s c B I C1) as (s1 & a & E & I1 & F & (gs & ds & Eg & Ed)). rewrite E. cbn [bind].
    destruct (IH s1 B I1 C2) as (s2 & al & E2 & I2 & L & F2 & (gs' & ds' & Eg' & Ed')). rewrite E2. cbn [bind].
    eexists _, _. split; [reflexivity|]. split; [exact I2|]. split; [cbn; rewrite L; reflexivity|]. split; [intros X; apply F2, F, X|].
    exists (gs ++ gs'), (ds ++ ds'). rewrite Eg', Eg, Ed', Ed, !app_assoc. auto.
Qed.

Lemma head_version : bytes f -> not_other_version f -> is_valid (stream_init f) = true -> is_version (stream_init f) = 1.
Proof.
  intros _ N. unfold stream_init. unfold first16, not_other_version in *. set (h := f ++ repeat 0 16) in *.
  assert (L : (16 <= length h)%nat) by (unfold h; rewrite app_length, repeat_length; lia).
  rewrite firstn_firstn. cbn [Nat.min].
  destruct (list_eq_dec Z.eq_dec (firstn 5 h) [79; 103; 97; 119; 97]) as [E|]; [|discriminate]. intros _. cbn [is_version].
  specialize (N E). unfold nthz.
  do 8 (destruct h as [|? h]; [cbn in L; lia|]). cbn [skipn firstn] in N. cbn [firstn nth]. injection N as -> ->. reflexivity.
Qed.
Lemma open_ok : bytes f -> not_other_version f ->
  exists r, d_open false mem f = Ok r /\ (forall s, r = Some (Some s) -> inv s /\ length (r_groups s) = 1%nat /\ r_datas s = []).
Proof.
  intros B N. unfold d_open. destruct (is_valid (stream_init f)) eqn:V; cbn [negb].
  2:{ exists None. split; [reflexivity|discriminate]. }
  rewrite (head_version B N V). cbn [Z.eqb negb Pos.eqb].
  destruct (read_ok f false 0 16 (repeat 0 16) ltac:(lia) ltac:(lia) ltac:(cbn; lia)) as (b0 & k & E0 & _). rewrite E0. cbn [bind].
  destruct (read64_ok f b0 8 B ltac:(lia)) as (b1 & pos & E & Rp & F & G & _). rewrite E. cbn [bind].
  destruct (Z.lt_ge_cases pos (2 ^ 63)) as [Lp|Lp].
  - destruct (open_group_ok mem f b1 false pos B ltac:(lia)) as (b2 & h & E2 & Sh & _). rewrite E2. cbn [bind]. eexists. split; [reflexivity|].
    intros s X. destruct h as [h|]; [|discriminate]. injection X as <-. split; [split; cbn; auto|auto].
  - (* a position that no stream can be set to *)
    unfold d_open_group. destruct (pos =? EMPTY_GROUP) eqn:Z0; [apply Z.eqb_eq in Z0; change EMPTY_GROUP with 0 in Z0; lia|].
    assert (R : forall n buf, s_read f b1 pos n buf = Ok (true, buf)).
    { intros n buf. unfold s_read. destruct (Z.leb_spec (2 ^ 63) pos); [|lia]. rewrite orb_true_r. reflexivity. }
    unfold s_read64. rewrite R. cbn [bind]. rewrite dec_zeros. cbn [negb orb Z.leb Z.mul andb].
    destruct (mem <? 0); [eexists; split; [reflexivity|discriminate]|]. cbn [Z.mul Z.to_nat repeat dec_vec].
    assert (R' : s_read f true (u64 (pos + 8)) (u64 0) [] = Ok (true, [])) by reflexivity.
    rewrite R'. cbn [bind]. eexists. split; [reflexivity|]. intros s X. injection X as <-. split; [|auto].
    split; cbn; [|constructor|discriminate]. constructor; [|constructor]. split; [cbn; lia|]. split; [cbn; lia|constructor].
Qed.

Lemma reached_inv s : bytes f -> not_other_version f -> reached false mem f s -> inv s.
Proof.
  intros B N (s0 & calls & al & O & C & R). destruct (open_ok B N) as (r & E & I). rewrite O in E. injection E as <-.
  destruct (run_ok calls s0 B (proj1 (I _ eq_refl)) C) as (s' & al' & R' & I' & _). rewrite R in R'. injection R' as -> _. exact I'.
Qed.

(** Whether [front()] of an empty vector is an error only matters for groups without children. *)
Definition no_bare (g : igroup) : Prop := ig_num g = 0 -> ig_pos g = 0.
Lemma strict_group bad light p b h : d_open_group false mem f bad light p = Ok (b, h) ->
  (forall g, h = Some g -> no_bare g) -> d_open_group true mem f bad light p = Ok (b, h).
Proof.
  unfold d_open_group. destruct (p =? EMPTY_GROUP) eqn:Z0; [auto|]. destruct (s_read64 f bad p) as [[b1 n]| |]; cbn [bind]; auto.
  destruct (negb light || (n <? 9)); [|auto]. destruct ((2 ^ 60 <=? n) || (mem <? 8 * n)); [auto|]. cbn [andb].
  destruct (n =? 0) eqn:N0; [|auto]. apply Z.eqb_eq in N0. subst n.
  destruct (s_read f b1 _ _ _) as [[b2 d]| |]; cbn [bind]; try discriminate. intros E N. injection E as <- <-.
  specialize (N _ eq_refl eq_refl). cbn in N. apply Z.eqb_neq in Z0. change EMPTY_GROUP with 0 in Z0. lia.
Qed.
Lemma strict_step s c s' a : d_step false mem f s c = Ok (s', a) -> Forall no_bare (r_groups s') -> d_step true mem f s c = Ok (s', a).
Proof.
  destruct c as [g i light|g i|g|g i|d|d size off buf]; cbn [d_step]; auto.
  destruct (nth_error (r_groups s) g) as [gr|]; [|auto]. destruct (d_child f (r_bad s) gr i) as [[b1 v]| |]; cbn [bind]; auto.
  destruct v as [v|]; [|auto]. destruct (Z.land v EMPTY_DATA =? 0); [|auto].
  destruct (d_open_group false mem f b1 light v) as [[b2 h]| |] eqn:E; cbn [bind]; try discriminate.
  intros X N. rewrite (strict_group _ _ _ _ _ E); [exact X|].
  intros g' ->. injection X as <- _. cbn [r_groups] in N. apply Forall_app in N. destruct N as [_ N]. inversion N; auto.
Qed.
Lemma strict_run l : forall s s' al, bytes f -> inv s -> Forall call_ok l -> d_run false mem f s l = Ok (s', al) ->
  Forall no_bare (r_groups s') -> d_run true mem f s l = Ok (s', al).
Proof.
  induction l as [|c l IH]; intros s s' al B I C R N; [exact R|]. cbn [d_run] in *.
  inversion C as [|? ? C1 C2]; subst. destruct (step_ok s c B I C1) as (s1 & a & E & I1 & _ & _). rewrite E in R. cbn [bind] in R.
  destruct (d_run false mem f s1 l) as [[s2 al2]| |] eqn:R2; cbn [bind] in R; try discriminate. injection R as <- <-.
  assert (N1 : Forall no_bare (r_groups s1)).
  { destruct (run_ok l s1 B I1 C2) as (s2' & al' & R' & _ & _ & _ & (gs & ds & Eg & _)). rewrite R2 in R'. injection R' as <- _.
    rewrite Eg in N. apply Forall_app in N. apply N. }
  rewrite (strict_step _ _ _ _ E N1). cbn [bind]. rewrite (IH _ _ _ B I1 C2 R2 N). reflexivity.
Qed.

Lemma lenient_group bad light p x : d_open_group true mem f bad light p = Ok x -> d_open_group false mem f bad light p = Ok x.
Proof.
  unfold d_open_group. destruct (p =? EMPTY_GROUP); [auto|]. destruct (s_read64 f bad p) as [[b1 n]| |]; cbn [bind]; auto.
  destruct (negb light || (n <? 9)); [|auto]. destruct ((2 ^ 60 <=? n) || (mem <? 8 * n)); [auto|]. cbn [andb]. destruct (n =? 0); [discriminate|auto].
Qed.
Lemma lenient_step s c x : d_step true mem f s c = Ok x -> d_step false mem f s c = Ok x.
Proof.
  destruct c as [g i light|g i|g|g i|d|d size off buf]; cbn [d_step]; auto.
  destruct (nth_error (r_groups s) g) as [gr|]; [|auto]. destruct (d_child f (r_bad s) gr i) as [[b1 v]| |]; cbn [bind]; auto.
  destruct v as [v|]; [|auto]. destruct (Z.land v EMPTY_DATA =? 0); [|auto].
  destruct (d_open_group true mem f b1 light v) as [[b2 h]| |] eqn:E; cbn [bind]; try discriminate.
  rewrite (lenient_group _ _ _ _ E). auto.
Qed.
Lemma lenient_run l : forall s x, d_run true mem f s l = Ok x -> d_run false mem f s l = Ok x.
Proof.
  induction l as [|c l IH]; intros s x; cbn [d_run]; [auto|].
  destruct (d_step true mem f s c) as [[s1 a]| |] eqn:E; cbn [bind]; try discriminate. rewrite (lenient_step _ _ _ E). cbn [bind].
  destruct (d_run true mem f s1 l) as [[s2 al]| |] eqn:E2; cbn [bind]; try discriminate. rewrite (IH _ _ E2). auto.
Qed.
Lemma lenient_open x : d_open true mem f = Ok x -> d_open false mem f = Ok x.
Proof.
  unfold d_open. destruct (negb (is_valid (stream_init f))); [auto|]. destruct (negb (is_version (stream_init f) =? 1)); [auto|].
  destruct (s_read f false 0 16 (repeat 0 16)) as [[b0 y]| |]; cbn [bind]; auto.
  destruct (s_read64 f b0 8) as [[b1 p]| |]; cbn [bind]; auto.
  destruct (d_open_group true mem f b1 false p) as [[b2 h]| |] eqn:G; cbn [bind]; try discriminate. rewrite (lenient_group _ _ _ _ G). auto.
Qed.

(** Where the file has what is asked for, reading is as in Model/OgawaM.v. *)
Lemma intact_open g fz : bytes f -> 16 <= Z.of_nat (length f) < 2 ^ 63 -> Z.of_nat (length f) <= mem ->
  i_open f = Ok (Opened fz g) -> d_open false mem f = Ok (Some (Some (RState false [g] []))).
Proof.
  intros B L M. unfold i_open, d_open. destruct (is_valid (stream_init f)); [|discriminate]. cbn [negb].
  destruct (is_version (stream_init f) =? 1); [|discriminate]. cbn [negb].
  destruct (read_ok f false 0 16 (repeat 0 16) ltac:(lia) ltac:(lia) ltac:(cbn; lia)) as (b0 & k & E0 & _ & _ & _ & _ & H0). rewrite E0. cbn [bind].
  destruct (H0 eq_refl ltac:(lia) ltac:(lia) ltac:(lia)) as [-> ->]. clear E0 H0.
  destruct (read64_ok f false 8 B ltac:(lia)) as (b1 & pos & E & Rp & F & G & H). rewrite E. cbn [bind].
  destruct (read64 f 8) as [v|] eqn:R.
  2:{ exfalso. unfold read64, read_at in R. destruct (Z.leb_spec (8 + 8) (Z.of_nat (length f))); [|lia]. cbn in R. discriminate. }
  destruct (H v eq_refl ltac:(lia) eq_refl) as [-> <-]. destruct (i_open_group f false pos) as [h|] eqn:O; [|discriminate].
  intros X. injection X as _ <-.
  assert (Lp : pos < 2 ^ 63).
  { unfold i_open_group in O. destruct (pos =? EMPTY_GROUP) eqn:Z0; [apply Z.eqb_eq in Z0; change EMPTY_GROUP with 0 in Z0; lia|].
    destruct (read64 f pos) as [n|] eqn:Rn; [|discriminate]. unfold read64 in Rn. destruct (read_at f pos 8) eqn:Q; [|discriminate]. apply piece_read in Q. lia. }
  destruct (open_group_ok mem f false false pos B ltac:(lia)) as (b2 & h' & E2 & _ & _ & H2). rewrite E2. cbn [bind].
  destruct (H2 h eq_refl ltac:(lia) M O) as [-> ->]. reflexivity.
Qed.
Lemma intact_group s g gr i light r : bytes f -> Z.of_nat (length f) < 2 ^ 63 -> Z.of_nat (length f) <= mem -> inv s -> r_bad s = false ->
  nth_error (r_groups s) g = Some gr -> 0 <= i < 2 ^ 64 -> i_get_group f light gr i = Some r ->
  d_step false mem f s (CGroup g i light) =
    Ok match r with Some h => (RState false (r_groups s ++ [h]) (r_datas s), AGroup) | None => (s, ANull) end.
Proof.
  intros B L M I Bad N Ri R. cbn [d_step]. rewrite N. unfold i_get_group in R.
  destruct (child_ok f (r_bad s) gr i B (at_nth _ _ _ _ (in_groups _ I) N) Ri) as (b1 & v & E & Rv & _ & H). rewrite E. cbn [bind].
  destruct (i_child f gr i) as [o|]; [|discriminate]. destruct (H o Bad L eq_refl) as [-> ->].
  destruct s as [bad gs ds]. cbn [r_bad r_groups r_datas] in *. subst bad.
  destruct o as [v|]; [|injection R as <-; reflexivity]. unfold is_data_pos in R. destruct (Z.land v EMPTY_DATA =? 0) eqn:Lv; cbn [negb] in R.
  2:{ injection R as <-. reflexivity. }
  apply Z.eqb_eq in Lv. destruct (i_open_group f light v) as [h|] eqn:O; [|discriminate]. injection R as <-.
  destruct (open_group_ok mem f false light v B (group_pos _ (Rv _ eq_refl) Lv)) as (b2 & h' & E2 & _ & _ & H2). rewrite E2. cbn [bind].
  destruct (H2 h eq_refl L M O) as [-> ->]. reflexivity.
Qed.
Lemma got_length gr i b : i_get_data f gr i = Some (Some b) -> Z.of_nat (length b) <= Z.of_nat (length f).
Proof.
  unfold i_get_data. destruct (i_child f gr i) as [[v|]|]; try discriminate. destruct (is_data_pos v); [|discriminate].
  unfold i_read_data. destruct (Z.land v INVALID_GROUP =? 0); [intros X; injection X as <-; cbn; lia|].
  destruct (read64 f _) as [n|]; [|discriminate]. destruct (read_at f _ n) as [x|] eqn:R; [|discriminate]. intros X. injection X as <-.
  apply piece_read in R. destruct R as (_ & N & _ & ->). unfold piece. rewrite firstn_length, skipn_length. lia.
Qed.
Lemma intact_data s g gr i r : bytes f -> Z.of_nat (length f) < 2 ^ 63 -> inv s -> r_bad s = false ->
  nth_error (r_groups s) g = Some gr -> 0 <= i < 2 ^ 64 -> i_get_data f gr i = Some r ->
  match r with
  | None => d_step false mem f s (CData g i) = Ok (s, ANull)
  | Some b => exists s' d, d_step false mem f s (CData g i) = Ok (s', AData) /\ r_bad s' = false /\ r_groups s' = r_groups s /\
      r_datas s' = r_datas s ++ [d] /\ id_size d = Z.of_nat (length b) /\
      forall buf, length buf = length b -> d_step false mem f s' (CRead (length (r_datas s)) (id_size d) 0 buf) = Ok (s', ABuf b)
  end.
Proof.
  intros B L I Bad N Ri R. cbn [d_step]. rewrite N. unfold i_get_data in R.
  destruct (child_ok f (r_bad s) gr i B (at_nth _ _ _ _ (in_groups _ I) N) Ri) as (b1 & v & E & Rv & _ & H). rewrite E. cbn [bind].
  destruct (i_child f gr i) as [o|]; [|discriminate]. destruct (H o Bad L eq_refl) as [-> ->].
  destruct s as [bad gs ds]. cbn [r_bad r_groups r_datas] in *. subst bad.
  destruct o as [v|]; [|injection R as <-; reflexivity]. unfold is_data_pos in R. destruct (negb (Z.land v EMPTY_DATA =? 0)) eqn:Lv.
  2:{ injection R as <-. reflexivity. }
  destruct (i_read_data f v) as [b|] eqn:O; [|discriminate]. injection R as <-.
  destruct (open_data_ok f false v B (Rv _ eq_refl)) as (b2 & d & E2 & Sd & _ & _ & _ & H2). rewrite E2. cbn [bind].
  destruct (H2 b eq_refl L O) as (-> & Sz & Pc). eexists _, d. split; [reflexivity|]. cbn [r_bad r_groups r_datas].
  do 4 (split; [auto|]). intros buf Lb. rewrite nth_error_app2, Nat.sub_diag by auto. cbn [nth_error].
  destruct (d_read_ok f false d (id_size d) 0 buf Sd ltac:(split; [apply Sd|rewrite Lb, Sz; lia]) ltac:(lia)) as (b3 & b' & E3 & Lb' & _ & K).
  rewrite E3. cbn [bind]. destruct b as [|x b].
  - destruct buf; [|discriminate]. assert (X : id_size d = 0) by (rewrite Sz; reflexivity).
    unfold d_read in E3. rewrite X in E3. cbn in E3. injection E3 as <- <-. reflexivity.
  - destruct (Pc ltac:(discriminate)) as [Pb Pl]. destruct Sd as [S1 S2].
    destruct (K ltac:(lia) ltac:(lia)) as (k & Eb & Rk & Lk & _ & _ & Q).
    destruct (Q eq_refl ltac:(lia) ltac:(lia) L) as [-> ->]. rewrite Z.add_0_r, <- Pb in Eb. rewrite skipn_all2, app_nil_r in Eb by (rewrite Lb, Sz, Nat2Z.id; auto).
    rewrite Eb. reflexivity.
Qed.
End D.

Section S.
Context (mem : Z) (f : list Z).
Lemma get_data_ok s g gr i : bytes f -> inv f s -> nth_error (r_groups s) g = Some gr -> 0 <= i < 2 ^ 64 ->
  exists bad d, d_get_data f (r_bad s) gr i = Ok (bad, d) /\ (r_bad s = true -> bad = true) /\
    forall x, d = Some x -> sane_data x /\ (bad = false -> true_data f x) /\ (r_bad s = true -> id_size x = 0).
Proof.
  intros B I N Ri. unfold d_get_data.
  destruct (child_ok f (r_bad s) gr i B (at_nth _ _ _ _ (in_groups _ _ I) N) Ri) as (b1 & v & E & Rv & F & _). rewrite E. cbn [bind].
  destruct v as [v|]; [|eexists _, _; split; [reflexivity|]; split; [auto|discriminate]].
  destruct (negb (Z.land v EMPTY_DATA =? 0)); [|eexists _, _; split; [reflexivity|]; split; [auto|discriminate]].
  destruct (open_data_ok f b1 v B (Rv _ eq_refl)) as (b2 & d & E2 & Sd & F2 & G2 & _). rewrite E2. cbn [bind].
  eexists _, _. split; [reflexivity|]. split; [intros X; apply F2; auto|]. intros x X. injection X as <-. split; [auto|]. split; [auto|]. intros X. apply F2. auto.
Qed.

Lemma c_string_app a b : In 0 a -> c_string (a ++ b) = c_string a.
Proof.
  induction a as [|x a IH]; [intros []|]. intros I. cbn [app c_string]. destruct (x =? 0) eqn:X; [reflexivity|].
  f_equal. apply IH. destruct I as [->|I]; [discriminate|auto].
Qed.
Lemma c_string_zeros a n : c_string (a ++ repeat 0 n) = c_string a.
Proof.
  induction a as [|x a IH]; cbn [app c_string]; [destruct n; reflexivity|]. destruct (x =? 0); [reflexivity|]. f_equal. exact IH.
Qed.
Lemma skip_zeros n m : skipn n (repeat 0 m) = repeat 0 (m - n).
Proof. revert m. induction n as [|n IH]; intros [|m]; cbn [skipn repeat Nat.sub]; auto. Qed.

Lemma string_ok s g gr i : bytes f -> inv f s -> nth_error (r_groups s) g = Some gr -> 0 <= i < 2 ^ 64 ->
  match d_string mem f (r_bad s) gr i with
  | Ok (bad, None) => True
  | Ok (bad, Some str) => exists p n k, 0 <= k <= n /\ str = c_string (piece f p k) /\ (0 < k -> exists q, p = q + 8 /\ says f q n) /\
      (bad = false -> k = n)
  | Exn => True
  | UB => exists bad d, d_get_data f (r_bad s) gr i = Ok (bad, Some d) /\ id_size d = 2 ^ 64 - 1
  end.
Proof.
  intros B I N Ri. unfold d_string. destruct (get_data_ok s g gr i B I N Ri) as (b1 & d & E & F & X). rewrite E. cbn [bind].
  destruct d as [d|]; [|exact Logic.I]. destruct (X _ eq_refl) as (Sd & Td & Zd). pose proof Sd as [Sp Ss].
  destruct ((2 ^ 63 <=? u64 (id_size d + 1)) || (mem <? u64 (id_size d + 1))) eqn:Big; [exact Logic.I|].
  apply orb_false_iff in Big. destruct Big as [B1 B2]. apply Z.leb_gt in B1. apply Z.ltb_ge in B2.
  destruct (Z.leb_spec (u64 (id_size d + 1)) (id_size d)) as [W|W].
  { exists b1, d. split; [auto|]. destruct (Z.eq_dec (id_size d) (2 ^ 64 - 1)) as [|Ne]; [auto|]. rewrite u64_small in W by lia. lia. }
  assert (Sm : u64 (id_size d + 1) = id_size d + 1).
  { apply u64_small. destruct (Z.eq_dec (id_size d) (2 ^ 64 - 1)) as [Q|Ne]; [|lia]. rewrite Q in W. change (u64 (2 ^ 64 - 1 + 1)) with 0 in W. lia. }
  rewrite Sm in *.
  destruct (d_read_ok f b1 d (id_size d) 0 (repeat 0 (Z.to_nat (id_size d + 1))) Sd ltac:(rewrite repeat_length; lia) ltac:(lia)) as (b2 & b & E2 & Lb & _ & K).
  rewrite E2. cbn [bind]. destruct (K ltac:(lia) ltac:(lia)) as (k & Eb & Rk & Lk & Pk & Fk & _). rewrite Z.add_0_r in Eb, Lk.
  exists (id_pos d + 8), (id_size d), k. split; [auto|]. split.
  { rewrite Eb, skip_zeros, c_string_zeros. reflexivity. }
  split.
  { intros Kp. destruct (Pk Kp) as [Bd Le]. exists (id_pos d). split; [auto|]. destruct (Td Bd) as [Q|Q]; [lia|apply Q]. }
  intros T. apply Fk; [auto|lia].
Qed.

Lemma value_ok s g gr i buf : bytes f -> inv f s -> nth_error (r_groups s) g = Some gr -> 0 <= i < 2 ^ 64 -> Z.of_nat (length buf) < 2 ^ 62 ->
  match d_value f (r_bad s) gr i buf with
  | Ok (bad, None) => True
  | Ok (bad, Some b) => length b = length buf /\ (bad = false -> buf <> [] -> exists p, says f p (Z.of_nat (length buf)) /\ b = piece f (p + 8) (Z.of_nat (length buf)))
  | Exn => False
  | UB => exists bad, d_get_data f (r_bad s) gr i = Ok (bad, None)
  end.
Proof.
  intros B I N Ri Lb. unfold d_value. destruct (get_data_ok s g gr i B I N Ri) as (b1 & d & E & F & X). rewrite E. cbn [bind].
  destruct d as [d|]; [|eauto]. destruct (X _ eq_refl) as (Sd & Td & Zd). pose proof Sd as [Sp Ss].
  destruct (Z.eqb_spec (id_size d) (Z.of_nat (length buf))) as [Q|Q]; [|exact Logic.I].
  destruct (d_read_ok f b1 d (id_size d) 0 buf Sd ltac:(lia) ltac:(lia)) as (b2 & b & E2 & Lb2 & Fb & K). rewrite E2. cbn [bind]. split; [auto|].
  intros T Ne. destruct (K ltac:(lia) ltac:(lia)) as (k & Eb & Rk & Lk & Pk & Fk & _). rewrite (Fk T ltac:(lia)) in *. rewrite Z.add_0_r in Eb, Lk.
  exists (id_pos d). rewrite <- Q. split.
  - destruct (Pk) as [Bd _]; [destruct buf; [congruence|cbn [length] in Q; lia]|]. destruct (Td Bd) as [Y|Y]; [|apply Y].
    destruct buf; [congruence|cbn [length] in Q; lia].
  - rewrite Eb. rewrite skipn_all2 by lia. apply app_nil_r.
Qed.
End S.
