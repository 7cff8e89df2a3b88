(** C66: threads that share an open archive. *)
From Coq Require Import ZArith List Bool Arith Lia.
From Verif Require Import Model.Base Model.OgawaM Spec.OgawaSpec Model.StreamsM Spec.StreamsSpec Proof.OgawaP3 Proof.OgawaP2 Proof.OgawaP5 Proof.StreamsP Proof.StreamsP2 Props.OgawaProps.
Import ListNotations.
Open Scope Z_scope.

(** Any number of streams and threads, any thread indices, any schedule, whether or not further streams can be
    opened: no step is undefined, and a thread that is done has the result it would have had alone. *)
Theorem C66_any_schedule : forall (A : Type) (f : list Z) (n : nat) (progs : list (prog A)) acts,
  archive f -> (0 < n)%nat -> (forall p, In p progs -> alone f p <> None) -> steady f acts ->
  exists w, s_run (by_name (Some f) n progs) acts = Ok w /\ length (w_threads w) = length progs /\
  forall t p a, nth_error progs t = Some p ->
    (exists th, nth_error (w_threads w) t = Some th /\ th_prog th = Ret a) -> alone f p = Some a.
Proof.
  intros A f n progs acts Ar N In' S. destruct (run_inv f progs n acts _ (named_inv f progs Ar In' n N) S) as (w & R & I & _).
  exists w. split; [exact R|]. split; [apply (i_len _ _ _ _ I)|].
  intros t p a P (th & T & E). destruct (inv_result _ _ _ _ _ _ _ I T E) as (p' & P' & G). congruence.
Qed.
Print Assumptions C66_any_schedule.

(** No schedule goes on for ever, and none gets stuck: when no thread can go on, all are done. *)
Theorem C66_finishes : forall (A : Type) (f : list Z) (n : nat) (progs : list (prog A)) acts w,
  archive f -> (0 < n)%nat -> (forall p, In p progs -> alone f p <> None) -> steady f acts ->
  s_run (by_name (Some f) n progs) acts = Ok w ->
  (moves (by_name (Some f) n progs) acts <= 9 * total f progs)%nat /\
  ((forall t, s_step w t = Ok None) -> forall t p, nth_error progs t = Some p ->
   exists th a, nth_error (w_threads w) t = Some th /\ th_prog th = Ret a /\ alone f p = Some a).
Proof.
  intros A f n progs acts w Ar N In' S R. destruct (run_inv f progs n acts _ (named_inv f progs Ar In' n N) S) as (w' & R' & I & M).
  assert (w' = w) by congruence. subst w'. rewrite named_threads, lefts_new in M. split; [lia|].
  intros St t p P. destruct (nth_error (w_threads w) t) as [th|] eqn:T.
  - destruct (no_wait _ _ _ _ I St _ _ T) as (a & E). exists th, a. repeat split; auto.
    destruct (inv_result _ _ _ _ _ _ _ I T E) as (p' & P' & G). congruence.
  - apply nth_error_None in T. rewrite (i_len _ _ _ _ I) in T. apply nth_error_None in T. congruence.
Qed.
Print Assumptions C66_finishes.

(** No stream is opened twice, whatever happens to the file. *)
Theorem C66_opened_once : forall (A : Type) d (n : nat) (progs : list (prog A)) acts w,
  s_run (by_name d n progs) acts = Ok w -> NoDup (w_opens w).
Proof.
  intros A d n progs acts w R. eapply run_opens in R; [apply R|]. unfold by_name.
  destruct d as [f|]; [destruct (init_streams _) as [[ss ok] v]|]; split; try constructor; intros i [].
Qed.
Print Assumptions C66_opened_once.

(** Threads that each walk through all of an archive all see the tree that was written (C16). *)
Theorem C66_whole_archive : forall ops n (l : list (nat * bool)),
  data_ok ops -> all_closed ops -> Z.of_nat (length (o_file (o_run ops o_open))) < 2 ^ 63 -> (0 < n)%nat ->
  let f := o_file (o_close (o_run ops o_open)) in
  exists d, let progs := map (fun x => p_archive d (fst x) (snd x)) l in
  forall acts, steady f acts -> exists w, s_run (by_name (Some f) n progs) acts = Ok w /\
  (moves (by_name (Some f) n progs) acts <= 9 * total f progs)%nat /\
  (forall t th r, nth_error (w_threads w) t = Some th -> th_prog th = Ret r -> r = Some (built ops)) /\
  ((forall t, s_step w t = Ok None) -> forall t th, nth_error (w_threads w) t = Some th -> exists r, th_prog th = Ret r).
Proof.
  intros ops n l D C L N f.
  destruct (C16_round_trip ops true D C L) as (g1 & O1 & d1 & W1). destruct (C16_round_trip ops false D C L) as (g2 & O2 & d2 & W2).
  fold f in O1, W1, O2, W2. assert (g2 = g1) by congruence. subst g2.
  assert (Mono : forall light d t k, walk d light f g1 = Some t -> walk (d + k) light f g1 = Some t).
  { intros light d t k. revert g1 t O1 W1 O2 W2. clear. intros g t _ _ _ _. revert g t.
    induction d as [|d IH]; intros g t W; [discriminate|]. cbn [walk Nat.add] in *.
    match type of W with match ?x with _ => _ end = _ => destruct x as [ts|] eqn:Al; [|discriminate] end. injection W as <-.
    match goal with |- match ?x with _ => _ end = _ => assert (X : x = Some ts); [|rewrite X; reflexivity] end.
    revert ts Al. generalize (seq 0 (Z.to_nat (ig_num g))) as s. induction s as [|i s IHs]; intros ts Al; [exact Al|].
    destruct (i_get_group f light g (Z.of_nat i)) as [[h|]|]; [| |discriminate].
    - destruct (walk d light f h) as [u|] eqn:Wh; [|discriminate]. rewrite (IH _ _ Wh).
      match type of Al with match ?x with _ => _ end = _ => destruct x as [us|] eqn:Ar; [|discriminate] end. injection Al as <-.
      rewrite (IHs _ eq_refl). reflexivity.
    - destruct (i_get_data f g (Z.of_nat i)) as [[b|]|]; try discriminate.
      match type of Al with match ?x with _ => _ end = _ => destruct x as [us|] eqn:Ar; [|discriminate] end. injection Al as <-.
      rewrite (IHs _ eq_refl). reflexivity. }
  exists (d1 + d2)%nat. intros progs acts S.
  assert (Ar : archive f).
  { pose proof O1 as O. unfold i_open in O. destruct (is_valid (stream_init f)) eqn:V; [|discriminate].
    destruct (is_version (stream_init f) =? 1) eqn:Ve; [|discriminate]. split; [|split; [auto|now apply Z.eqb_eq]].
    destruct (OgawaP3.run_inv ops o_open _ [] OgawaP2.init_inv D) as (cs & Iv). apply file_len in Iv.
    unfold f, o_close, emit, write_at. cbn [o_file]. rewrite !app_length, firstn_length, skipn_length. cbn [length]. lia. }
  assert (Al : forall id light, alone f (p_archive (d1 + d2) id light) = Some (Some (built ops))).
  { intros id light. eapply alone_archive; [exact Ar|exact O1|]. destruct light.
    - apply Mono. exact W1.
    - rewrite Nat.add_comm. apply Mono. exact W2. }
  assert (In' : forall p, In p progs -> alone f p <> None).
  { intros p H. apply in_map_iff in H. destruct H as (x & <- & _). rewrite Al. discriminate. }
  destruct (C66_any_schedule _ f n progs acts Ar N In' S) as (w & R & Len & V). exists w. split; [exact R|].
  destruct (C66_finishes _ f n progs acts w Ar N In' S R) as (M & Q). split; [exact M|]. split.
  - intros t th r T E. destruct (nth_error progs t) as [p|] eqn:P.
    + assert (G : alone f p = Some r) by (apply (V t); eauto). apply nth_error_In, in_map_iff in P. destruct P as (x & <- & _).
      rewrite Al in G. congruence.
    + apply nth_error_None in P. rewrite <- Len in P. apply nth_error_None in P. congruence.
  - intros St t th T. destruct (nth_error progs t) as [p|] eqn:P.
    + destruct (Q St t p P) as (th' & a & T' & E & _). exists a. congruence.
    + apply nth_error_None in P. rewrite <- Len in P. apply nth_error_None in P. congruence.
Qed.
Print Assumptions C66_whole_archive.

(** Streams of the caller are taken if, and only if, there is one, all of them are at the header of an archive, and these
    headers agree.  Otherwise no schedule of calls is undefined, and no call stores anything. *)
Theorem C66_accepted : forall (A : Type) (l : list (list Z * Z)) (progs : list (prog A)),
  w_valid (by_streams l progs) = true <->
  l <> [] /\ (forall s, In s l -> starts_ogawa (head16 s)) /\ (forall s s', In s l -> In s' l -> agree (head16 s) (head16 s')).
Proof.
  intros A l progs. pose proof (init_streams_ok l) as I. unfold raw in I. unfold by_streams. destruct (init_streams _) as [[ss ok] v]. cbn [w_valid fst snd] in *. rewrite I. split.
  - intros (N & V & S). split; [auto|]. split; [intros s X; apply valid_head; auto|]. intros s s' X X'. apply same_head_agree; auto.
  - intros (N & V & S). split; [auto|]. assert (V' : forall s, In s l -> hd_valid (heading s) = true) by (intros s X; apply valid_head; auto).
    split; [auto|]. intros s s' X X'. apply same_head_agree; auto.
Qed.
Print Assumptions C66_accepted.
Theorem C66_rejected : forall (A : Type) (l : list (list Z * Z)) (progs : list (prog A)) acts, w_valid (by_streams l progs) = false ->
  exists w, s_run (by_streams l progs) acts = Ok w /\ forall t th p a, nth_error (w_threads w) t = Some th -> nth_error progs t = Some p ->
    th_prog th = Ret a -> a = unread p.
Proof.
  intros A l progs acts V. destruct (idle_run progs acts (by_streams l progs)) as (w & R & (_ & _ & T)).
  - split; [exact V|]. unfold by_streams. destruct (init_streams _) as [[ss ok] v]. cbn [w_threads]. split; [apply map_length|].
    intros t th p N P. rewrite nth_error_map, P in N. injection N as <-. auto.
  - exists w. split; [exact R|]. intros t th p a N P E. destruct (T _ _ _ N P) as (_ & U). rewrite E in U. auto.
Qed.
Print Assumptions C66_rejected.
Example C66_accepted_ex : w_valid (by_streams [(header, 0); (7 :: header, 1)] ([] : list (prog Z))) = true /\
  w_valid (by_streams [(header, 0); (7 :: header, 0)] ([] : list (prog Z))) = false.
Proof. split; vm_compute; reflexivity. Qed.

(** Streams of the caller: the archive may begin anywhere in each of them, and be followed by anything. *)
Theorem C66_given_streams : forall (A : Type) (f : list Z) (l : list (list Z * Z)) (progs : list (prog A)) acts,
  archive f -> l <> [] -> Forall (embedded f) l -> (forall p, In p progs -> alone f p <> None) -> steady f acts ->
  exists w, s_run (by_streams l progs) acts = Ok w /\ (moves (by_streams l progs) acts <= 9 * total f progs)%nat /\
  (forall t p a, nth_error progs t = Some p ->
    (exists th, nth_error (w_threads w) t = Some th /\ th_prog th = Ret a) -> alone f p = Some a) /\
  ((forall t, s_step w t = Ok None) -> forall t th, nth_error (w_threads w) t = Some th -> exists a, th_prog th = Ret a).
Proof.
  intros A f l progs acts Ar N F In' S. destruct (run_inv f progs (length l) acts _ (given_inv f progs Ar In' l N F) S) as (w & R & I & M).
  exists w. split; [exact R|]. rewrite given_threads, lefts_new in M. split; [lia|]. split.
  - intros t p a P (th & T & E). destruct (inv_result _ _ _ _ _ _ _ I T E) as (p' & P' & G). congruence.
  - intros St. apply (no_wait _ _ _ _ I St).
Qed.
Print Assumptions C66_given_streams.

(** ** Cases that meet the hypotheses *)
Definition ex_file : list Z := o_file (o_close (o_run ex_ops o_open)).
Definition ex_progs : list (prog (option tree)) := [p_archive 6 0 true; p_archive 6 1 false; p_archive 6 7 true].
Example C66_example_hypotheses : archive ex_file /\ (forall p, In p ex_progs -> alone ex_file p = Some (Some ex_tree)) /\
  total ex_file ex_progs = 51%nat.
Proof.
  split; [split; [vm_compute; discriminate|split; reflexivity]|]. split; [|vm_compute; reflexivity].
  intros p H. repeat (destruct H as [<-|H]; [vm_compute; reflexivity|]). destruct H.
Qed.
(** Three threads in turn; the file cannot be opened again until later, so that thread 1 first reads through stream 0
    with two mutexes. *)
Fixpoint turns (n : nat) : list act :=
  match n with O => [] | S m => [Step 0; Step 1; Step 2; Step 1] ++ turns m end.
Definition ex_acts : list act := [Disk None] ++ turns 30 ++ [Disk (Some ex_file)] ++ turns 300.
Definition results {A} (w : res (world (A := A))) : list (option A) :=
  match w with Ok w => map (fun th => match th_prog th with Ret a => Some a | _ => None end) (w_threads w) | _ => [] end.
Definition opens {A} (w : res (world (A := A))) : list nat := match w with Ok w => w_opens w | _ => [99%nat] end.
Example C66_example : steady ex_file ex_acts /\
  results (s_run (by_name (Some ex_file) 2 ex_progs) ex_acts) = [Some (Some ex_tree); Some (Some ex_tree); Some (Some ex_tree)] /\
  opens (s_run (by_name (Some ex_file) 2 ex_progs) ex_acts) = [1%nat].
Proof.
  split; [|split; vm_compute; reflexivity].
  assert (T : forall n d, ~ In (Disk d) (turns n)).
  { induction n; cbn; intros d H; [exact H|]. repeat (destruct H as [H|H]; [discriminate|]). eapply IHn; eauto. }
  intros d H. unfold ex_acts in H. rewrite !in_app_iff in H.
  destruct H as [H|[H|[H|H]]]; [destruct H as [H|[]]; injection H as <-; auto|now apply T in H|destruct H as [H|[]]; injection H as <-; auto|now apply T in H].
Qed.
Example C66_given_example : Forall (embedded ex_file) [(ex_file, 0); ([1; 2; 3] ++ ex_file ++ [4], 3)] /\
  results (s_run (by_streams [(ex_file, 0); ([1; 2; 3] ++ ex_file ++ [4], 3)] ex_progs) (turns 330)) =
  [Some (Some ex_tree); Some (Some ex_tree); Some (Some ex_tree)].
Proof.
  split; [|vm_compute; reflexivity]. apply Forall_cons; [|apply Forall_cons; [|apply Forall_nil]]; (split; [discriminate|]); cbn [fst snd].
  - exists []. now rewrite app_nil_r.
  - exists [4]. reflexivity.
Qed.

(** ** What does not hold *)

(** A stream that could not give all the bytes asked for never gives any again, to any thread. *)
Theorem C66_failed_for_ever : forall (A : Type) (w w' : world (A := A)) acts i s,
  nth_error (w_streams w) i = Some (Some s) -> st_bad s = true -> s_run w acts = Ok w' ->
  nth_error (w_streams w') i = Some (Some s) /\ forall p m, do_read (do_seek s p) m = (s, []).
Proof.
  intros A w w' acts i s St B R. split; [eapply run_bad; eauto|]. intros p m. unfold do_seek, do_read. rewrite B. cbn. rewrite B. reflexivity.
Qed.
Print Assumptions C66_failed_for_ever.
(** So one read past the end of the file (a damaged group, say) takes the archive away from all threads that use
    that stream: here the second thread gets nothing of the first 8 bytes of the file. *)
Theorem C66_past_the_end_refuted : exists (f : list Z) (bad good : prog (list Z)) acts,
  archive f /\ alone f good = Some (firstn 8 f) /\ length f = 16%nat /\
  results (s_run (by_name (Some f) 1 [bad; good]) acts) = [Some []; Some []] /\
  results (s_run (by_name (Some f) 1 [bad; good]) (repeat (Step 1) 6)) = [None; Some (firstn 8 f)].
Proof.
  exists header, (Read (Req 0 100 8) (fun d => Ret d)), (Read (Req 1 0 8) (fun d => Ret d)), (repeat (Step 0) 6 ++ repeat (Step 1) 6).
  repeat split; vm_compute; try reflexivity; discriminate.
Qed.
Print Assumptions C66_past_the_end_refuted.

(** Streams are opened by name, when they are first used: after the file was replaced (by a rename, say) threads see
    different files through one archive. *)
Theorem C66_replaced_refuted : exists (f g : list Z) (p : nat -> prog (list Z)) acts,
  archive f /\ archive g /\ f <> g /\ (forall id, alone f (p id) = Some f /\ alone g (p id) = Some g) /\
  results (s_run (by_name (Some f) 2 [p 0%nat; p 1%nat]) (Disk (Some g) :: acts)) = [Some f; Some g].
Proof.
  exists (o_file (o_close (o_run [OAddData 0 [[1]]; OFreeze 0] o_open))), (o_file (o_close (o_run [OAddData 0 [[2]]; OFreeze 0] o_open))),
    (fun id => Read (Req id 0 41) (fun d => Ret d)), (repeat (Step 0) 6 ++ repeat (Step 1) 6).
  split; [repeat split; vm_compute; discriminate || reflexivity|]. split; [repeat split; vm_compute; discriminate || reflexivity|].
  split; [vm_compute; discriminate|]. split; [intros id; split; vm_compute; reflexivity|]. vm_compute. reflexivity.
Qed.
Print Assumptions C66_replaced_refuted.

(** An archive opened with no streams at all says it is valid; the first read is undefined. *)
Theorem C66_no_streams_refuted : exists (f : list Z) (p : prog (list Z)), archive f /\
  w_valid (by_name (Some f) 0 [p]) = true /\ alone f p = Some (firstn 8 f) /\
  s_run (by_name (Some f) 0 [p]) [Step 0; Step 0] = UB.
Proof. exists header, (Read (Req 0 0 8) (fun d => Ret d)). repeat split; vm_compute; try reflexivity; discriminate. Qed.
Print Assumptions C66_no_streams_refuted.

(** Of streams of the caller only the headers are compared: streams of different archives are taken as one. *)
Theorem C66_same_header_refuted : exists (f g : list Z) (p : nat -> prog (list Z)) acts,
  archive f /\ archive g /\ f <> g /\ w_valid (by_streams [(f, 0); (g, 0)] [p 0%nat; p 1%nat]) = true /\
  (forall id, alone f (p id) = Some f /\ alone g (p id) = Some g) /\
  results (s_run (by_streams [(f, 0); (g, 0)] [p 0%nat; p 1%nat]) acts) = [Some f; Some g].
Proof.
  exists (o_file (o_close (o_run [OAddData 0 [[1]]; OFreeze 0] o_open))), (o_file (o_close (o_run [OAddData 0 [[2]]; OFreeze 0] o_open))),
    (fun id => Read (Req id 0 41) (fun d => Ret d)), (repeat (Step 0) 6 ++ repeat (Step 1) 6).
  split; [repeat split; vm_compute; discriminate || reflexivity|]. split; [repeat split; vm_compute; discriminate || reflexivity|].
  split; [vm_compute; discriminate|]. split; [vm_compute; reflexivity|]. split; [intros id; split; vm_compute; reflexivity|]. vm_compute. reflexivity.
Qed.
Print Assumptions C66_same_header_refuted.
