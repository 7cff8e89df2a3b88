From Coq Require Import ZArith List Bool Lia Arith Permutation.
From Verif Require Import Model.Base Model.SparseM Model.CacheM Spec.CacheSpec Proof.BaseP Proof.CacheP.
Import ListNotations.
Open Scope Z_scope.

(** * The clock, on kinds: pinned, used, free *)
Inductive kind := KP | KU | KF.
Fixpoint idxF (K : list kind) : option nat :=
  match K with [] => None | KF :: _ => Some 0%nat | _ :: t => option_map S (idxF t) end.
Fixpoint idxU (K : list kind) : option nat :=
  match K with [] => None | KU :: _ => Some 0%nat | _ :: t => option_map S (idxU t) end.
Definition work (K : list kind) : nat :=
  match idxF K with
  | Some i => i
  | None => length K + match idxU K with Some j => j | None => 0 end
  end.
Lemma idxF_app K L : idxF (K ++ L) = match idxF K with Some i => Some i | None => option_map (Nat.add (length K)) (idxF L) end.
Proof.
  induction K as [|[] K IH]; simpl; auto.
  - destruct (idxF L); auto.
  - rewrite IH. destruct (idxF K), (idxF L); auto.
  - rewrite IH. destruct (idxF K), (idxF L); auto.
Qed.
Lemma idxU_app K L : idxU (K ++ L) = match idxU K with Some i => Some i | None => option_map (Nat.add (length K)) (idxU L) end.
Proof.
  induction K as [|[] K IH]; simpl; auto.
  - destruct (idxU L); auto.
  - rewrite IH. destruct (idxU K), (idxU L); auto.
  - rewrite IH. destruct (idxU K), (idxU L); auto.
Qed.
Lemma idxF_lt K i : idxF K = Some i -> (i < length K)%nat.
Proof. revert i. induction K as [|[] K IH]; simpl; intros i H; try discriminate; [| |injection H as <-; lia];
  destruct (idxF K); simpl in H; try discriminate; injection H as <-; specialize (IH _ eq_refl); lia. Qed.
Lemma idxU_lt K i : idxU K = Some i -> (i < length K)%nat.
Proof. revert i. induction K as [|[] K IH]; simpl; intros i H; try discriminate; [|injection H as <-; lia|];
  destruct (idxU K); simpl in H; try discriminate; injection H as <-; specialize (IH _ eq_refl); lia. Qed.
Lemma idx_some K : (exists x, In x K /\ x <> KP) -> idxF K <> None \/ idxU K <> None.
Proof.
  intros (x & I & N). induction K as [|y K IH]; [destruct I|]. destruct I as [->|I].
  - destruct x; simpl; [tauto|right|left]; discriminate.
  - destruct (IH I) as [H|H]; destruct y; simpl; try (left; discriminate); try (right; discriminate);
      try (left; destruct (idxF K); [discriminate|tauto]); try (right; destruct (idxU K); [discriminate|tauto]).
Qed.
Lemma work_bound K : (exists x, In x K /\ x <> KP) -> (work K < 2 * length K)%nat.
Proof.
  intros H. apply idx_some in H. unfold work. destruct (idxF K) eqn:F.
  - apply idxF_lt in F. lia.
  - destruct (idxU K) eqn:U; [apply idxU_lt in U; lia|]. destruct H; tauto.
Qed.
Lemma work_P K : (exists x, In x (KP :: K) /\ x <> KP) -> (work (K ++ [KP]) < work (KP :: K))%nat.
Proof.
  intros H. apply idx_some in H. unfold work. rewrite idxF_app, idxU_app. cbn [idxF idxU length] in *.
  rewrite app_length; cbn [length]. destruct (idxF K); cbn [option_map] in *; [lia|].
  destruct (idxU K); cbn [option_map] in *; [lia|]. destruct H; tauto.
Qed.
Lemma work_U K : (work (K ++ [KF]) < work (KU :: K))%nat.
Proof.
  unfold work. rewrite idxF_app. cbn [idxF idxU length].
  destruct (idxF K); cbn [option_map]; lia.
Qed.
Lemma work_F K : work (KF :: K) = 0%nat. Proof. reflexivity. Qed.
Lemma work_0 K : (exists x, In x K /\ x <> KP) -> work K = 0%nat -> exists K', K = KF :: K'.
Proof.
  intros H. apply idx_some in H. unfold work. destruct K as [|[] K]; simpl in *.
  - destruct H; tauto.
  - destruct (idxF K); simpl; lia.
  - destruct (idxF K); simpl; lia.
  - eauto.
Qed.

Section C.
Context {V : Type}.
Implicit Types (s : cache V) (e : entry).

Definition kindof s e : kind := if pinnedb s e then KP else if usedb s e then KU else KF.
Definition kinds s := map (kindof s) (rot s).

Lemma kinds_length s : length (kinds s) = length (cached s).
Proof. unfold kinds. rewrite map_length. apply Permutation_length, rot_perm. Qed.
Lemma kinds_unpinned s : (exists e, In e (cached s) /\ pinnedb s e = false) ->
  exists x, In x (kinds s) /\ x <> KP.
Proof.
  intros (e & I & P). exists (kindof s e). split.
  - apply in_map. eapply Permutation_in; [apply Permutation_sym, rot_perm|auto].
  - unfold kindof. rewrite P. destruct (usedb s e); discriminate.
Qed.

Lemma evict_step_kinds a s e R : cinv a s -> rot s = e :: R ->
  exists s', evict_step s = Ok s' /\ cinv a s' /\ same_but s e s' /\
    match kindof s e with
    | KP => rot s' = R ++ [e] /\ c_mem s' = c_mem s /\ kinds s' = map (kindof s) R ++ [KP]
    | KU => rot s' = R ++ [e] /\ c_mem s' = c_mem s /\ kinds s' = map (kindof s) R ++ [KF]
    | KF => rot s' = R /\ c_mem s' = c_mem s - entry_size s e
    end.
Proof.
  intros I E. destruct (evict_step_cases a s e R I E) as (s' & ES & I' & SB & H).
  exists s'. split; [auto|split; [auto|split; [auto|]]].
  assert (ND : ~ In e R).
  { pose proof (ci_nodup _ _ I) as N. eapply Permutation_NoDup in N; [|apply Permutation_sym, rot_perm].
    rewrite E in N. inversion N; auto. }
  assert (KR : map (kindof s') R = map (kindof s) R).
  { apply map_ext_in. intros x Hx. destruct SB as [sb_stat0 sb_max0 sb_limit0 sb_pin0 sb_used0 sb_blk0]. unfold kindof. rewrite sb_pin0, sb_used0; auto.
    intros ->. tauto. }
  unfold kindof at 1. destruct SB as [sb_stat0 sb_max0 sb_limit0 sb_pin0 sb_used0 sb_blk0]. unfold kinds.
  destruct (pinnedb s e) eqn:PK.
  - destruct H as (-> & ? & U). split; [auto|split; [auto|]]. rewrite map_app, KR. simpl.
    unfold kindof at 2. rewrite sb_pin0, PK. auto.
  - destruct (usedb s e) eqn:UK.
    + destruct H as (-> & ? & U). split; [auto|split; [auto|]]. rewrite map_app, KR. simpl.
      unfold kindof at 2. rewrite sb_pin0, PK, U. auto.
    + auto.
Qed.

Lemma rot_cached_in s e : In e (rot s) <-> In e (cached s).
Proof. split; apply Permutation_in; [|apply Permutation_sym]; apply rot_perm. Qed.
Lemma rot_len s : length (rot s) = length (cached s).
Proof. apply Permutation_length, rot_perm. Qed.

(** Within two passes of the hand one unpinned block is freed. *)
Lemma two_passes a : forall w s, cinv a s -> (exists e, In e (cached s) /\ pinnedb s e = false) ->
  (work (kinds s) <= w)%nat ->
  exists m s1 s2 e, (m <= w)%nat /\ evict_steps m s = Ok s1 /\ Permutation (cached s1) (cached s) /\
    evict_step s1 = Ok s2 /\ Permutation (cached s) (e :: cached s2) /\
    In e (cached s) /\ pinnedb s e = false /\ cinv a s1 /\ cinv a s2 /\ c_mem s2 = c_mem s - entry_size s e.
Proof.
  induction w as [w IH] using lt_wf_ind. intros s I U W.
  pose proof (kinds_unpinned s U) as KU_.
  destruct (rot s) as [|e R] eqn:RT.
  { destruct U as (x & Hx & _). apply rot_cached_in in Hx. rewrite RT in Hx. destruct Hx. }
  destruct (evict_step_kinds a s e R I RT) as (s' & ES & I' & SB & H).
  assert (KS : kinds s = kindof s e :: map (kindof s) R) by (unfold kinds; rewrite RT; reflexivity).
  assert (STEP : forall k, (work (kinds s') < work (kinds s))%nat -> rot s' = R ++ [e] -> c_mem s' = c_mem s ->
     k = tt -> exists m s1 s2 e, (m <= w)%nat /\ evict_steps m s = Ok s1 /\ Permutation (cached s1) (cached s) /\
    evict_step s1 = Ok s2 /\ Permutation (cached s) (e :: cached s2) /\
    In e (cached s) /\ pinnedb s e = false /\ cinv a s1 /\ cinv a s2 /\ c_mem s2 = c_mem s - entry_size s e).
  { intros _ L RT' M _.
    assert (PC : Permutation (cached s') (cached s)).
    { rewrite <- (rot_perm s'), <- (rot_perm s), RT, RT'. apply Permutation_sym, Permutation_cons_append. }
    destruct (IH (work (kinds s')) ltac:(lia) s' I') as (m & s1 & s2 & x & Hm & E1 & P1 & E2 & P2 & In2 & Pn & I1 & I2 & M2).
    - destruct U as (x & Hx & Px). exists x. split.
      + eapply Permutation_in; [apply Permutation_sym; eauto|auto].
      + destruct SB as [sb_stat0 sb_max0 sb_limit0 sb_pin0 sb_used0 sb_blk0]. rewrite sb_pin0. auto.
    - lia.
    - exists (S m), s1, s2, x. split; [lia|]. cbn [evict_steps]. rewrite ES. cbn [bind].
      split; [auto|]. split; [rewrite P1; auto|]. split; [auto|]. split; [rewrite <- PC; auto|].
      split; [eapply Permutation_in; eauto|]. destruct SB as [sb_stat0 sb_max0 sb_limit0 sb_pin0 sb_used0 sb_blk0]. rewrite <- sb_pin0.
      split; [auto|]. split; [auto|]. split; [auto|].
      rewrite M2, M, (entry_size_same s s'); auto. }
  assert (KE : kindof s e = KF -> pinnedb s e = false).
  { unfold kindof. destruct (pinnedb s e); [discriminate|auto]. }
  destruct (kindof s e) eqn:KK.
  - destruct H as (RT' & M & K'). apply (STEP tt); auto. rewrite K', KS. apply work_P.
    rewrite <- KS. auto.
  - destruct H as (RT' & M & K'). apply (STEP tt); auto. rewrite K', KS. apply work_U.
  - destruct H as (RT' & M). exists 0%nat, s, s', e.
    split; [lia|]. split; [reflexivity|]. split; [auto|]. split; [auto|].
    split; [rewrite <- (rot_perm s), RT; constructor; rewrite <- RT'; apply rot_perm|].
    split; [apply rot_cached_in; rewrite RT; simpl; auto|]. auto 10.
Qed.

(** * The eviction loop *)
Lemma must_evict_true s need : must_evict s need = true <-> cached s <> [] /\ c_max s < c_mem s + need.
Proof.
  unfold must_evict. rewrite andb_true_iff, negb_true_iff, Z.ltb_lt.
  destruct (cached s); split; intros [? ?]; split; auto; try discriminate; try tauto; lia.
Qed.

Record evicted_to (a : fields V) s s' : Prop := {
  ev_inv : cinv a s';
  ev_stat : forall t f, stat s' t f = stat s t f;
  ev_max : c_max s' = c_max s; ev_limit : c_limit s' = c_limit s;
  ev_pin : forall e, pinnedb s' e = pinnedb s e;
  ev_blk : forall e, ~ In e (cached s) -> blk_at s' e = blk_at s e;
  ev_sub : forall e, In e (cached s') -> In e (cached s);
  ev_keep : forall e, In e (cached s) -> pinnedb s e = true -> In e (cached s') }.

Lemma evicted_refl a s : cinv a s -> evicted_to a s s.
Proof. constructor; auto. Qed.
Lemma evicted_trans a s1 s2 s3 : evicted_to a s1 s2 -> evicted_to a s2 s3 -> evicted_to a s1 s3.
Proof.
  intros [] []. constructor; auto; intros.
  - rewrite ev_stat1. auto.
  - congruence.
  - congruence.
  - rewrite ev_pin1. auto.
  - rewrite ev_blk1; auto.
  - apply ev_keep1; auto. rewrite ev_pin0. auto.
Qed.
Lemma evict_step_to a s : cinv a s -> exists s', evict_step s = Ok s' /\ evicted_to a s s'.
Proof.
  intros I. destruct (rot s) as [|e R] eqn:RT.
  - exists s. rewrite evict_step_nil by auto. split; auto. apply evicted_refl; auto.
  - destruct (evict_step_cases a s e R I RT) as (s' & ES & I' & SB & H).
    exists s'. split; auto.
    assert (SUB : forall x, In x (rot s') -> In x (rot s)).
    { intros x. rewrite RT. destruct (pinnedb s e), (usedb s e); destruct H as (-> & _);
        rewrite ?in_app_iff; simpl; tauto. }
    destruct SB as [sb_stat0 sb_max0 sb_limit0 sb_pin0 sb_used0 sb_blk0]. constructor; auto.
    + intros x N. apply sb_blk0. intros ->. apply N. apply rot_cached_in. rewrite RT. simpl; auto.
    + intros x. rewrite <- !rot_cached_in. auto.
    + intros x. rewrite <- !rot_cached_in, RT. intros Hx Px.
      destruct (pinnedb s e) eqn:PE.
      * destruct H as (-> & _). rewrite in_app_iff. simpl in *. tauto.
      * assert (x <> e) by congruence. destruct Hx; [congruence|].
        destruct (usedb s e); destruct H as (-> & _); rewrite ?in_app_iff; auto.
Qed.

Lemma dealloc_blocks_ok a need : forall fuel s r, cinv a s -> dealloc_blocks fuel s need = Some r ->
  exists s', r = Ok s' /\ evicted_to a s s' /\ must_evict s' need = false.
Proof.
  induction fuel as [|fuel IH]; cbn [dealloc_blocks]; [discriminate|]. intros s r I H.
  destruct (must_evict s need) eqn:ME.
  - destruct (evict_step_to a s I) as (s1 & E & EV). rewrite E in H.
    destruct (IH s1 r (ev_inv _ _ _ EV) H) as (s' & -> & EV' & ME').
    exists s'. split; auto. split; auto. eapply evicted_trans; eauto.
  - injection H as <-. exists s. split; auto. split; auto. apply evicted_refl; auto.
Qed.

Definition room s need : Prop :=
  (forall e, In e (cached s) -> pinnedb s e = false) \/ bytes s (pinned s) + need <= c_max s.

Lemma bytes_filter_le s (p : entry -> bool) l : (forall e, In e l -> 0 <= entry_size s e) ->
  0 <= bytes s (filter p l) <= bytes s l.
Proof.
  induction l as [|x l IH]; simpl; intros H; [lia|].
  assert (0 <= entry_size s x) by (apply H; auto).
  assert (forall e, In e l -> 0 <= entry_size s e) by (intros; apply H; auto). specialize (IH H1).
  destruct (p x); simpl; lia.
Qed.
Lemma ci_sizes a s : cinv a s -> forall e, In e (cached s) -> 0 < entry_size s e.
Proof.
  intros I e H. pose proof (ci_in _ _ I e H). destruct (blk_at s e) eqn:B; [|tauto].
  eapply ci_size_pos; eauto.
Qed.
Lemma filter_perm {A} (p : A -> bool) l l' : Permutation l l' -> Permutation (filter p l) (filter p l').
Proof.
  induction 1; simpl; auto.
  - destruct (p x); auto.
  - destruct (p x), (p y); auto. constructor.
  - etransitivity; eauto.
Qed.

(** The pinned bytes do not change when evicting. *)
Lemma pinned_same a s s' : cinv a s -> evicted_to a s s' -> Permutation (pinned s') (pinned s).
Proof.
  intros I EV. pose proof (ev_inv _ _ _ EV) as I'. destruct EV. unfold pinned.
  apply NoDup_Permutation.
  - apply NoDup_filter, (ci_nodup _ _ I').
  - apply NoDup_filter, (ci_nodup _ _ I).
  - intros x. rewrite !filter_In, ev_pin0. split; intros []; auto.
Qed.
Lemma room_same a s s' need : cinv a s -> evicted_to a s s' -> (room s need <-> room s' need).
Proof.
  intros I EV. pose proof (pinned_same a s s' I EV) as P.
  assert (B : bytes s' (pinned s') = bytes s (pinned s)).
  { rewrite (bytes_same s s') by apply EV. apply bytes_perm; auto. }
  unfold room. rewrite B, (ev_max _ _ _ EV).
  assert (A : (forall e, In e (cached s) -> pinnedb s e = false) <->
              (forall e, In e (cached s') -> pinnedb s' e = false)); [|tauto].
  destruct EV. split; intros H e Hi.
  - rewrite ev_pin0. auto.
  - destruct (pinnedb s e) eqn:Pe; auto. specialize (H e (ev_keep0 e Hi Pe)).
    rewrite ev_pin0 in H. congruence.
Qed.

Lemma room_has_unpinned a s need : cinv a s -> room s need -> must_evict s need = true ->
  exists e, In e (cached s) /\ pinnedb s e = false.
Proof.
  intros I R M. apply must_evict_true in M. destruct M as [NE M]. destruct R as [R|R].
  - destruct (cached s) as [|e l] eqn:C; [tauto|]. exists e. split; [simpl; auto|]. apply R. simpl; auto.
  - destruct (forallb (pinnedb s) (cached s)) eqn:F.
    + exfalso. rewrite forallb_forall in F.
      assert (pinned s = cached s) as E.
      { unfold pinned. clear -F. induction (cached s) as [|x l IH]; auto. simpl.
        rewrite F by (simpl; auto). f_equal. apply IH. intros; apply F; simpl; auto. }
      rewrite E, <- (ci_mem _ _ I) in R. lia.
    + assert (exists e, In e (cached s) /\ pinnedb s e = false); auto.
      clear -F. induction (cached s) as [|x l IH]; [discriminate|]. simpl in F.
      destruct (pinnedb s x) eqn:P.
      * destruct (IH F) as (e & ? & ?). exists e. simpl. auto.
      * exists x. simpl. auto.
Qed.

Lemma dealloc_blocks_terminates a need : forall fuel s, cinv a s -> room s need ->
  (match length (cached s) with
   | O => 1
   | S n => work (kinds s) + 1 + (n * S n + 1)
   end <= fuel)%nat ->
  exists s', dealloc_blocks fuel s need = Some (Ok s').
Proof.
  induction fuel as [|fuel IH]; intros s I R F.
  { destruct (length (cached s)); simpl in F; lia. }
  cbn [dealloc_blocks]. destruct (must_evict s need) eqn:ME; [|eauto].
  destruct (rot s) as [|e R'] eqn:RT.
  { apply must_evict_true in ME. destruct ME as [NE _]. exfalso. apply NE.
    apply Permutation_nil. rewrite <- RT. apply rot_perm. }
  destruct (evict_step_kinds a s e R' I RT) as (s' & ES & I' & SB & H). rewrite ES.
  destruct (evict_step_to a s I) as (s1 & ES1 & EV). assert (s1 = s') by congruence. subst s1.
  assert (Rs' : room s' need) by (apply (room_same a s s' need I EV); auto).
  assert (Ls : length (cached s) = S (length R')) by (rewrite <- rot_len, RT; reflexivity).
  rewrite Ls in F.
  assert (KS : kinds s = kindof s e :: map (kindof s) R') by (unfold kinds; rewrite RT; reflexivity).
  pose proof (room_has_unpinned a s need I R ME) as HU. apply kinds_unpinned in HU.
  destruct (must_evict s' need) eqn:ME'.
  2: { destruct fuel as [|fuel']; [lia|]. cbn [dealloc_blocks]. rewrite ME'. eauto. }
  apply (IH s' I' Rs').
  destruct (kindof s e) eqn:KK.
  - destruct H as (RT' & _ & K'). rewrite <- rot_len, RT', app_length, Nat.add_1_r.
    assert (work (kinds s') < work (kinds s))%nat; [|lia]. rewrite K', KS. apply work_P.
    rewrite <- KS. auto.
  - destruct H as (RT' & _ & K'). rewrite <- rot_len, RT', app_length, Nat.add_1_r.
    assert (work (kinds s') < work (kinds s))%nat; [|lia]. rewrite K', KS. apply work_U.
  - destruct H as (RT' & _). rewrite <- rot_len, RT'.
    rewrite KS, work_F in F. destruct R' as [|x R']; cbn [length] in *; [lia|].
    pose proof (room_has_unpinned a s' need I' Rs' ME') as HU'. apply kinds_unpinned, work_bound in HU'.
    rewrite kinds_length, <- rot_len, RT' in HU'. cbn [length] in HU'.
    set (n := length R') in *. clearbody n. clear -F HU'. nia.
Qed.

Lemma dealloc_blocks_bound a s need : cinv a s -> room s need ->
  exists s', dealloc_blocks (length (cached s) * (length (cached s) + 1) + 1) s need = Some (Ok s').
Proof.
  intros I R. destruct (must_evict s need) eqn:ME.
  - apply (dealloc_blocks_terminates a need); auto.
    pose proof (room_has_unpinned a s need I R ME) as HU. apply kinds_unpinned, work_bound in HU.
    rewrite kinds_length in HU. destruct (length (cached s)) as [|n]; [lia|].
    clear -HU. nia.
  - rewrite Nat.add_1_r. cbn [dealloc_blocks]. rewrite ME. eauto.
Qed.

Lemma dealloc_blocks_diverges a need : forall fuel s, cinv a s -> ~ room s need ->
  dealloc_blocks fuel s need = None.
Proof.
  induction fuel as [|fuel IH]; intros s I R; [reflexivity|]. cbn [dealloc_blocks].
  assert (must_evict s need = true) as ->.
  { apply must_evict_true. unfold room in R. split.
    - intros E. apply R. left. rewrite E. intros ? [].
    - pose proof (bytes_filter_le s (pinnedb s) (cached s)
        (fun e H => Z.lt_le_incl _ _ (ci_sizes a s I e H))) as B.
      rewrite (ci_mem _ _ I). fold (pinned s) in B. lia. }
  destruct (evict_step_to a s I) as (s1 & -> & EV). apply IH; [apply EV|].
  rewrite <- (room_same a s s1 need I EV). auto.
Qed.
End C.
