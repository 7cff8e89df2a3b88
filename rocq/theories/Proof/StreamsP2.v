(** The streams of a new archive; the reader of groups as calls of [read]. *)
From Coq Require Import ZArith List Bool Arith Lia.
From Verif Require Import Model.Base Model.OgawaM Spec.OgawaSpec Model.StreamsM Spec.StreamsSpec Proof.StreamsP.
Import ListNotations.
Open Scope Z_scope.

(** * New archives *)
Definition head_of (f : list Z) : head :=
  Head true (is_frozen (stream_init f)) 1 (dec_le (skipn 8 (firstn 16 f))).
Lemma first16_long f : 16 <= Z.of_nat (length f) -> first16 f = firstn 16 f.
Proof. intros L. unfold first16. rewrite firstn_app. replace (16 - length f)%nat with 0%nat by lia. cbn [firstn]. now rewrite app_nil_r. Qed.
Lemma head_read f b o : archive f -> embedded f (b, o) -> read_head (Strm b o o false) = (Strm b o (o + 16) false, head_of f).
Proof.
  intros (L & V & W) (O & after & E). cbn [fst snd] in *. unfold read_head, do_read. cbn [st_bad st_cur st_bytes st_off].
  change (Z.to_nat 16) with 16%nat. rewrite E.
  assert (F : firstn 16 (f ++ after) = firstn 16 f).
  { rewrite firstn_app. replace (16 - length f)%nat with 0%nat by lia. cbn [firstn]. now rewrite app_nil_r. }
  rewrite F.
  assert (LF : length (firstn 16 f) = 16%nat) by (rewrite firstn_length; lia).
  rewrite LF. change (Z.of_nat 16) with 16. rewrite Z.eqb_refl. cbn [negb].
  assert (H : firstn 16 (firstn 16 f ++ repeat 0 16) = firstn 16 f).
  { rewrite firstn_app, LF. replace (16 - 16)%nat with 0%nat by lia. rewrite firstn_firstn. cbn [firstn Nat.min]. now rewrite app_nil_r. }
  rewrite H.
  assert (SI : stream_init (firstn 16 f) = stream_init f).
  { unfold stream_init. replace (first16 (firstn 16 f)) with (first16 f); auto.
    rewrite first16_long by lia. unfold first16. rewrite H. reflexivity. }
  rewrite SI, V, W. reflexivity.
Qed.
Lemma rest_read f l : archive f -> Forall (embedded f) l ->
  init_rest (head_of f) (map (fun s => Strm (fst s) (snd s) (snd s) false) l) = (map (fun s => Strm (fst s) (snd s) (snd s + 16) false) l, true).
Proof.
  intros Ar. induction 1 as [|[b o] l E _ IH]; [reflexivity|]. cbn [map init_rest fst snd].
  rewrite (head_read f b o Ar E). cbn [hd_valid head_of hd_pos hd_frozen hd_version negb].
  rewrite Z.eqb_refl, eqb_reflx. cbn [negb orb]. change (1 =? 1) with true. cbn [negb].
  change (Head true (is_frozen (stream_init f)) 1 (dec_le (skipn 8 (firstn 16 f)))) with (head_of f). rewrite IH. reflexivity.
Qed.
Lemma streams_read f l : archive f -> l <> [] -> Forall (embedded f) l ->
  init_streams (map (fun s => Strm (fst s) (snd s) (snd s) false) l) = (map (fun s => Strm (fst s) (snd s) (snd s + 16) false) l, true, 1).
Proof.
  intros Ar N F. destruct F as [|[b o] l E F]; [contradiction|]. cbn [map init_streams fst snd].
  rewrite (head_read f b o Ar E). cbn [hd_valid negb]. rewrite rest_read by auto. reflexivity.
Qed.

Section New.
Context {A : Type}.
Variable f : list Z.
Variable progs : list (prog A).
Hypothesis Ar : archive f.
Hypothesis Inside : forall p, In p progs -> alone f p <> None.

Lemma new_threads ss t th n : nth_error (map (fun p => Thread p Out) progs) t = Some th -> thread_ok f progs n ss t th.
Proof.
  rewrite nth_error_map. destruct (nth_error progs t) as [p|] eqn:P; [|discriminate]. intros [= <-].
  split; [exists p; repeat split; auto; apply Inside; eapply nth_error_In; eauto|]. split; [exact Logic.I|]. cbn. destruct p; auto.
Qed.
Lemma out_holds t (th : thread (A := A)) : nth_error (map (fun p => Thread p Out) progs) t = Some th -> holds (th_pc th) = [].
Proof. rewrite nth_error_map. destruct (nth_error progs t) as [p|]; [|discriminate]. now intros [= <-]. Qed.
Lemma no_locks {B} (l : list B) i t : nth_error (map (fun _ => @None nat) l) i <> Some (Some t).
Proof. rewrite nth_error_map. destruct (nth_error l i); discriminate. Qed.

Lemma named_new n : (0 < n)%nat ->
  by_name (Some f) n progs = World true true (Some f) (Some (Strm f 0 16 false) :: repeat None (n - 1))
    (repeat None n) [] (map (fun p => Thread p Out) progs).
Proof.
  intros N. unfold by_name.
  assert (E : embedded f (f, 0)) by (split; [cbn; lia|exists []; cbn; now rewrite app_nil_r]).
  pose proof (streams_read f [(f, 0)] Ar ltac:(discriminate) (Forall_cons _ E (Forall_nil _))) as SR. cbn [map fst snd] in SR. rewrite SR. clear SR.
  change (true && (1 =? 1)) with true. cbn iota. cbn [map app].
  destruct n as [|n]; [lia|]. cbn [firstn repeat].
  assert (R : firstn n (None :: repeat (@None strm) n) = repeat None n).
  { change (None :: repeat (@None strm) n) with (repeat (@None strm) (S n)). replace (S n) with (n + 1)%nat by lia.
    rewrite repeat_app, firstn_app, repeat_length, Nat.sub_diag. cbn [firstn]. rewrite app_nil_r.
    rewrite <- (repeat_length (@None strm) n) at 1. apply firstn_all. }
  rewrite R. replace (S n - 1)%nat with n by lia. cbn [map repeat]. f_equal. f_equal. clear. induction n as [|n IH]; [reflexivity|]. cbn. now rewrite IH.
Qed.
Lemma named_inv n : (0 < n)%nat -> inv f progs n (by_name (Some f) n progs).
Proof.
  intros N. rewrite named_new by auto. constructor; cbn [w_valid w_named w_disk w_streams w_locks w_threads]; auto.
  - cbn [length]. rewrite repeat_length. lia.
  - apply repeat_length.
  - intros [|i] o; cbn [nth_error].
    + intros [= <-]. repeat split; cbn; [lia|]. exists []. now rewrite app_nil_r.
    + intros H. apply nth_error_In, repeat_spec in H. subst. auto.
  - intros t th i T. rewrite (out_holds _ _ T). intros [].
  - intros i t H. apply nth_error_In, repeat_spec in H. discriminate.
  - apply map_length.
  - intros t th T. apply new_threads. exact T.
Qed.
Lemma given_inv l : l <> [] -> Forall (embedded f) l -> inv f progs (length l) (by_streams l progs).
Proof.
  intros N F. unfold by_streams. rewrite (streams_read f l Ar N F). change (true && (1 =? 1)) with true. cbn iota.
  constructor; cbn [w_valid w_named w_disk w_streams w_locks w_threads]; auto.
  - destruct l; [contradiction|cbn; lia].
  - now rewrite !map_length.
  - now rewrite !map_length.
  - intros i o. rewrite !nth_error_map. destruct (nth_error l i) as [s|] eqn:E; [|discriminate]. cbn. intros [= <-].
    rewrite Forall_forall in F. destruct (F s (nth_error_In _ _ E)) as (O & x & X). repeat split; cbn; eauto.
  - intros t th i T. rewrite (out_holds _ _ T). intros [].
  - intros i t H. now apply no_locks in H.
  - apply map_length.
  - intros t th T. apply new_threads. exact T.
Qed.
Lemma lefts_new : lefts f (map (fun p => Thread p Out) progs) = (9 * total f progs)%nat.
Proof.
  clear. induction progs as [|p l IH]; [reflexivity|]. cbn [map lefts fold_right total].
  fold (lefts f (map (fun p => Thread p Out) l)). fold (total f l). rewrite IH. unfold left. cbn [th_prog th_pc left_pc].
  destruct p; cbn [reads]; lia.
Qed.
Lemma named_threads n : w_threads (by_name (Some f) n progs) = map (fun p => Thread p Out) progs.
Proof. unfold by_name. destruct (init_streams _) as [[ss ok] v]. reflexivity. Qed.
Lemma given_threads l : w_threads (by_streams l progs) = map (fun p => Thread p Out) progs.
Proof. unfold by_streams. destruct (init_streams _) as [[ss ok] v]. reflexivity. Qed.
End New.

(** * Streams are opened once *)
Definition opens_ok {A} (w : world (A := A)) : Prop :=
  NoDup (w_opens w) /\ forall i, In i (w_opens w) -> exists s, nth_error (w_streams w) i = Some (Some s).
Lemma set_stream_keeps l i (s0 : strm) j : (exists s, nth_error l j = Some (Some s)) -> exists s, nth_error (list_set l i (Some s0)) j = Some (Some s).
Proof. intros (s & E). rewrite nset, E. destruct (j =? i)%nat; eauto. Qed.
Lemma step_opens {A} (w : world (A := A)) t w' : opens_ok w -> s_step w t = Ok (Some w') -> opens_ok w'.
Proof.
  intros [N O] E. unfold s_step in E. destruct (nth_error (w_threads w) t) as [[[a|r k] c]|]; try discriminate.
  destruct c as [|h i|h i|h i|h i|[|i h] d]; try discriminate.
  - destruct (negb (w_valid w)); injection E as <-; split; auto.
  - destruct (nth_error (w_locks w) i) as [[o|]|]; try discriminate. injection E as <-. split; auto.
  - destruct (nth_error (w_streams w) i) as [[s|]|] eqn:St; try discriminate; [injection E as <-; split; auto|].
    destruct (negb (w_named w)); [discriminate|]. destruct (w_disk w) as [g|].
    + injection E as <-. split; cbn.
      * 
        assert (X : ~ In i (w_opens w)). { intros H. destruct (O _ H) as (s & S). congruence. }
        clear -N X. induction (w_opens w) as [|x l IH]; cbn; [constructor; [intros []|constructor]|].
        inversion N; subst. constructor; [|apply IH; auto; intros H; apply X; now right].
        rewrite in_app_iff. intros [H|[H|[]]]; [contradiction|]. subst. apply X. now left.
      * intros j. rewrite in_app_iff. intros [H|[<-|[]]]; [apply set_stream_keeps; auto|].
        rewrite nset, Nat.eqb_refl, St. eauto.
    + destruct (i =? 0)%nat; injection E as <-; split; auto.
  - destruct (nth_error (w_streams w) i) as [[s|]|] eqn:St; try discriminate. injection E as <-. split; cbn; auto.
    intros j H. apply set_stream_keeps; auto.
  - destruct (nth_error (w_streams w) i) as [[s|]|] eqn:St; try discriminate. destruct (do_read s (rq_size r)) as [s' d].
    injection E as <-. split; cbn; auto. intros j H. apply set_stream_keeps; auto.
  - injection E as <-. destruct h; split; auto.
Qed.
Lemma run_opens {A} acts : forall w w' : world (A := A), opens_ok w -> s_run w acts = Ok w' -> opens_ok w'.
Proof.
  induction acts as [|a acts IH]; intros w w' O E; cbn in E; [now injection E as <-|].
  destruct a as [t|d]; cbn in E.
  - destruct (s_step w t) as [[w1|]| |] eqn:S; cbn in E; try discriminate; [|eauto]. eapply IH; [|exact E]. eapply step_opens; eauto.
  - eapply IH; [|exact E]. exact O.
Qed.

(** * A stream that failed *)
Lemma step_bad {A} (w : world (A := A)) t w' i s : s_step w t = Ok (Some w') ->
  nth_error (w_streams w) i = Some (Some s) -> st_bad s = true -> nth_error (w_streams w') i = Some (Some s).
Proof.
  intros E St B. unfold s_step in E. destruct (nth_error (w_threads w) t) as [[[a|r k] c]|]; try discriminate.
  destruct c as [|h j|h j|h j|h j|[|j h] d]; try discriminate.
  - destruct (negb (w_valid w)); injection E as <-; auto.
  - destruct (nth_error (w_locks w) j) as [[o|]|]; try discriminate. injection E as <-. auto.
  - destruct (nth_error (w_streams w) j) as [[s'|]|] eqn:St'; try discriminate; [injection E as <-; auto|].
    destruct (negb (w_named w)); [discriminate|]. destruct (w_disk w) as [g|].
    + injection E as <-. cbn. rewrite nset. destruct (Nat.eqb_spec i j) as [->|]; [congruence|auto].
    + destruct (j =? 0)%nat; injection E as <-; auto.
  - destruct (nth_error (w_streams w) j) as [[s'|]|] eqn:St'; try discriminate. injection E as <-. cbn. rewrite nset.
    destruct (Nat.eqb_spec i j) as [->|]; auto. rewrite St'. unfold do_seek. assert (s' = s) by congruence. subst. rewrite B. reflexivity.
  - destruct (nth_error (w_streams w) j) as [[s'|]|] eqn:St'; try discriminate. destruct (do_read s' (rq_size r)) as [s2 d] eqn:R.
    injection E as <-. cbn. rewrite nset. destruct (Nat.eqb_spec i j) as [->|]; auto. rewrite St'. assert (s' = s) by congruence. subst.
    unfold do_read in R. rewrite B in R. injection R as <- <-. reflexivity.
  - injection E as <-. destruct h; auto.
Qed.
Lemma run_bad {A} acts : forall (w w' : world (A := A)) i s, s_run w acts = Ok w' ->
  nth_error (w_streams w) i = Some (Some s) -> st_bad s = true -> nth_error (w_streams w') i = Some (Some s).
Proof.
  induction acts as [|a acts IH]; intros w w' i s E St B; cbn in E; [now injection E as <-|].
  destruct a as [t|d]; cbn in E.
  - destruct (s_step w t) as [[w1|]| |] eqn:S; cbn in E; try discriminate; [|eauto]. eapply IH; [exact E| |exact B]. eapply step_bad; eauto.
  - eapply IH; [exact E| |exact B]. exact St.
Qed.

(** * The reader *)
Lemma alone_bind {A B} f (p : prog A) (k : A -> prog B) : alone f (pbind p k) = match alone f p with Some a => alone f (k a) | None => None end.
Proof. induction p as [a|r q IH]; cbn; auto. destruct (read_at _ _ _); auto. Qed.
Lemma alone_read64 f id pos : alone f (p_read64 id pos) = read64 f pos.
Proof. unfold p_read64, read64. cbn. reflexivity. Qed.
Lemma alone_open_group f id light pos : alone f (p_open_group id light pos) = i_open_group f light pos.
Proof.
  unfold p_open_group, i_open_group. destruct (pos =? EMPTY_GROUP); auto. rewrite alone_bind, alone_read64.
  destruct (read64 f pos) as [m|]; auto. destruct (negb light || (m <? 9)); reflexivity.
Qed.
Lemma alone_child f id g i : alone f (p_child id g i) = i_child f g i.
Proof.
  unfold p_child, i_child. destruct (i_is_light g); auto. destruct (i <? ig_num g); auto. rewrite alone_bind, alone_read64.
  destruct (read64 _ _); auto.
Qed.
Lemma alone_get_group f id light g i : alone f (p_get_group id light g i) = i_get_group f light g i.
Proof.
  unfold p_get_group, i_get_group. rewrite alone_bind, alone_child. destruct (i_child f g i) as [[v|]|]; auto.
  destruct (is_data_pos v); auto. rewrite alone_bind, alone_open_group. destruct (i_open_group _ _ _); auto.
Qed.
Lemma alone_read_data f id v : alone f (p_read_data id v) = i_read_data f v.
Proof.
  unfold p_read_data, i_read_data. generalize (Z.land v INVALID_GROUP) as q. intros q. destruct (q =? 0); auto. rewrite alone_bind, alone_read64.
  unfold read64. destruct (read_at f q 8) as [b|] eqn:R; auto. destruct (Z.eqb_spec (dec_le b) 0) as [->|].
  - cbn. unfold read_at in *. destruct (_ && _) eqn:G in R; [|discriminate].
    apply andb_true_iff in G. destruct G as [G G3]. apply andb_true_iff in G. destruct G as [G1 G2]. apply Z.leb_le in G1, G3.
    destruct (_ && _) eqn:H; [reflexivity|]. apply andb_false_iff in H. destruct H as [H|H]; [apply andb_false_iff in H; destruct H as [H|H]|].
    + apply Z.leb_gt in H. lia.
    + discriminate.
    + apply Z.leb_gt in H. lia.
  - cbn. destruct (read_at f (q + 8) (dec_le b)); reflexivity.
Qed.
Lemma alone_get_data f id g i : alone f (p_get_data id g i) = i_get_data f g i.
Proof.
  unfold p_get_data, i_get_data. rewrite alone_bind, alone_child. destruct (i_child f g i) as [[v|]|]; auto.
  destruct (is_data_pos v); auto. rewrite alone_bind, alone_read_data. destruct (i_read_data _ _); auto.
Qed.
Lemma alone_walk f id light : forall d g t, walk d light f g = Some t -> alone f (p_walk d id light g) = Some (Some t).
Proof.
  induction d as [|d IH]; intros g t W; [discriminate|]. cbn [walk] in W. cbn [p_walk]. rewrite alone_bind.
  match type of W with match ?x with _ => _ end = _ => destruct x as [ts|] eqn:Al; [|discriminate] end. injection W as <-.
  match goal with |- match alone f ?p with _ => _ end = _ => assert (X : alone f p = Some (Some ts)); [|rewrite X; reflexivity] end.
  revert ts Al. generalize (seq 0 (Z.to_nat (ig_num g))) as l. induction l as [|i l IHl]; intros ts Al.
  - injection Al as <-. reflexivity.
  - rewrite alone_bind, alone_bind, alone_get_group.
    destruct (i_get_group f light g (Z.of_nat i)) as [[h|]|]; [| |discriminate].
    + destruct (walk d light f h) as [u|] eqn:Wh; [|discriminate]. rewrite (IH _ _ Wh).
      match type of Al with match ?x with _ => _ end = _ => destruct x as [us|] eqn:Ar; [|discriminate] end. injection Al as <-.
      rewrite alone_bind, (IHl _ eq_refl). reflexivity.
    + rewrite alone_bind, alone_get_data. destruct (i_get_data f g (Z.of_nat i)) as [[b|]|]; try discriminate. cbn [alone option_map].
      match type of Al with match ?x with _ => _ end = _ => destruct x as [us|] eqn:Ar; [|discriminate] end. injection Al as <-.
      rewrite alone_bind, (IHl _ eq_refl). reflexivity.
Qed.
Lemma alone_archive f id light d frozen g t : archive f -> i_open f = Ok (Opened frozen g) -> walk d light f g = Some t ->
  alone f (p_archive d id light) = Some (Some t).
Proof.
  intros (L & V & W) O K. unfold i_open in O. rewrite V, W in O. change (1 =? 1) with true in O. cbn iota in O.
  unfold p_archive. rewrite alone_bind, alone_read64. destruct (read64 f 8) as [pos|] eqn:R.
  - destruct (i_open_group f false pos) as [h|] eqn:G; [|discriminate]. injection O as <- <-.
    rewrite alone_bind, alone_open_group, G. apply alone_walk. exact K.
  - exfalso. unfold read64, read_at in R. destruct (_ && _) eqn:G; [discriminate|]. lia.
Qed.
