(** The one-thread writer, and threaded block reading. *)
From Coq Require Import List Bool Arith Lia.
From Verif Require Import Model.BlockIOM Spec.BlockIOSpec Proof.BlockIOP Proof.BlockIOP2.
Import ListNotations.

Section One.
Variable n : nat.
Variable alloc : nat -> bool.
Variable reload : bool.
Notation sk := (skip n alloc n).
Notation fil k := (filter alloc (seq 0 k)).

Lemma sk_here : forall k, k < n -> alloc k = true -> sk k = k.
Proof.
  intros k H A. destruct (skip_spec n alloc n k) as (P & Q & _); [lia|].
  destruct (Nat.eq_dec (sk k) k); auto. rewrite (Q k) in A by lia. discriminate.
Qed.
Lemma sk_over : forall k, k < n -> alloc k = false -> sk (S k) = sk k.
Proof.
  intros k H A. destruct (skip_spec n alloc n k) as (P & Q & R & U & V); [lia|].
  destruct (skip_spec n alloc n (S k)) as (P' & Q' & R' & U' & V'); [lia|].
  specialize (R ltac:(lia)). specialize (R' ltac:(lia)).
  destruct (Nat.lt_trichotomy (sk (S k)) (sk k)) as [L|[L|L]]; auto.
  - rewrite (Q (sk (S k))) in U' by lia. specialize (U' ltac:(lia)). discriminate.
  - destruct (Nat.eq_dec (sk k) k) as [E|E].
    + rewrite E in U. rewrite U in A by lia. discriminate.
    + rewrite (Q' (sk k)) in U by lia. specialize (U ltac:(lia)). discriminate.
Qed.
Lemma sk_end : forall k, n <= k -> sk k = k.
Proof. intros k H. apply (skip_spec n alloc n k); lia. Qed.
Lemma fil_skip : forall k, k <= n -> fil (sk k) = fil k.
Proof.
  intros k H. destruct (skip_spec n alloc n k) as (P & Q & _); [lia|].
  replace (sk k) with (k + (sk k - k)) by lia. rewrite seq_app, filter_app, (filter_none _ (seq (0 + k) _)).
  - apply app_nil_r.
  - intros x Hx. apply in_seq in Hx. apply Q; lia.
Qed.
Lemma fil_S : forall k, fil (S k) = fil k ++ if alloc k then [k] else [].
Proof. intros. rewrite seq_S, filter_app. cbn. destruct (alloc k); auto. Qed.

Definition uinv (s : wstate) : Prop :=
  match w_pc s 0 with
  | WFetch => w_nc s = w_nw s /\ w_nw s <= n /\ (w_nw s < n -> alloc (w_nw s) = true) /\ w_out s = fil (w_nw s)
  | WComp b | WWait b | WAdd b =>
      b = w_nw s /\ w_nw s < n /\ alloc (w_nw s) = true /\ w_nc s = sk (S (w_nw s)) /\ w_out s = fil (w_nw s)
  | WIncR => w_nw s < n /\ w_nc s = sk (S (w_nw s)) /\ w_out s = fil (S (w_nw s))
  | WIncW v => v = w_nw s /\ w_nw s < n /\ w_nc s = sk (S (w_nw s)) /\ w_out s = fil (S (w_nw s))
  | WScan => w_nw s <= n /\ w_nc s = sk (w_nw s) /\ w_out s = fil (w_nw s)
  | WIdx => w_nw s < n /\ w_nc s = sk (w_nw s) /\ w_out s = fil (w_nw s)
  | WDone => w_out s = fil n
  | WCrash => False
  end.
Definition umeas (s : wstate) : nat :=
  match w_pc s 0 with
  | WFetch => 20 * (n - w_nw s) + 8 | WComp _ => 20 * (n - w_nw s) + 7 | WWait _ => 20 * (n - w_nw s) + 6
  | WAdd _ => 20 * (n - w_nw s) + 5 | WIncR => 20 * (n - w_nw s) + 4 | WIncW _ => 20 * (n - w_nw s) + 3
  | WScan => 20 * (n - w_nw s) + 10 | WIdx => 20 * (n - w_nw s) + 9 | _ => 0
  end.

Lemma uinv_init : uinv (w_init n alloc).
Proof.
  unfold uinv, w_init; cbn [w_pc w_nc w_nw w_out].
  destruct (skip_spec n alloc n 0) as (P & Q & R & U & V); [lia|].
  split; auto. split; [lia|]. split; [auto|]. rewrite fil_skip by lia. reflexivity.
Qed.

Lemma uinv_step : forall s, uinv s ->
  uinv (wstep n alloc reload 0 s) /\ (w_pc s 0 = WDone \/ umeas (wstep n alloc reload 0 s) < umeas s).
Proof.
  intros s. unfold uinv, umeas, wstep.
  destruct (w_pc s 0) as [ |b|b|b| |v| | | | ] eqn:PC.
  - intros (H1 & H2 & H3 & H4). cbn [w_pc w_nc w_nw w_out]. rewrite nupd_same. rewrite H1.
    destruct (Nat.ltb_spec (w_nw s) n).
    + rewrite H3 by auto. repeat split; auto. right; lia.
    + split; [rewrite H4; do 2 f_equal; lia|right; lia].
  - intros (H1 & H2 & H3 & H4 & H5). cbn [w_goto w_pc w_nc w_nw w_out]. rewrite nupd_same. repeat split; auto. right; lia.
  - intros (H1 & H2 & H3 & H4 & H5). rewrite H1, Nat.eqb_refl. cbn [w_goto w_pc w_nc w_nw w_out]. rewrite nupd_same. repeat split; auto. right; lia.
  - intros (H1 & H2 & H3 & H4 & H5). cbn [w_goto w_pc w_nc w_nw w_out]. rewrite nupd_same. repeat split; auto; [|right; lia].
    rewrite fil_S, H3, H5, H1. auto.
  - intros (H1 & H2 & H3). cbn [w_goto w_pc w_nc w_nw w_out]. rewrite nupd_same. repeat split; auto. right; lia.
  - intros (-> & H1 & H2 & H3). cbn [w_goto w_pc w_nc w_nw w_out]. rewrite nupd_same. repeat split; auto. right; lia.
  - intros (H1 & H2 & H3). destruct (Nat.ltb_spec (w_nw s) n).
    + destruct reload.
      * cbn [w_goto w_pc w_nc w_nw w_out]. rewrite nupd_same. repeat split; auto; right; lia.
      * destruct (alloc (w_nw s)) eqn:A; cbn [w_goto w_pc w_nc w_nw w_out]; rewrite nupd_same.
        -- repeat split; auto; [|right; lia]. rewrite H2. now apply sk_here.
        -- repeat split; auto; [| |right; lia]; [now rewrite sk_over|]. rewrite fil_S, A, app_nil_r. auto.
    + cbn [w_goto w_pc w_nc w_nw w_out]; rewrite nupd_same.
      repeat split; auto; try lia. rewrite H2. now apply sk_end.
  - intros (H1 & H2 & H3). destruct (Nat.ltb_spec (w_nw s) n); [|lia].
    destruct (alloc (w_nw s)) eqn:A; cbn [w_goto w_pc w_nc w_nw w_out]; rewrite nupd_same.
    + repeat split; auto; try lia. rewrite H2. now apply sk_here.
    + repeat split; auto; try lia; [now rewrite sk_over|]. rewrite fil_S, A, app_nil_r. auto.
  - intros H. rewrite PC. auto.
  - easy.
Qed.

Lemma uinv_run : forall k s, uinv s ->
  uinv (wrun n alloc reload s (repeat 0 k)) /\ (umeas s <= k -> w_pc (wrun n alloc reload s (repeat 0 k)) 0 = WDone \/ umeas s = 0).
Proof.
  unfold wrun. induction k; intros s I; cbn [repeat fold_left].
  - split; auto. intros; right; lia.
  - destruct (uinv_step s I) as [I' M]. destruct (IHk _ I') as [J D]. split; auto.
    intros L. destruct M as [M|M].
    + left. clear - M. assert (wstep n alloc reload 0 s = s) as -> by (unfold wstep; now rewrite M).
      induction k; cbn [repeat fold_left]; auto.
      assert (wstep n alloc reload 0 s = s) as -> by (unfold wstep; now rewrite M). auto.
    + destruct D as [D|D]; [lia|left; auto|].
      left. clear J. unfold umeas, uinv in *.
      destruct (w_pc (wstep n alloc reload 0 s) 0) eqn:E; try lia; try easy.
      clear - E. revert E. generalize (wstep n alloc reload 0 s) as s'. intros s' E.
      induction k; cbn [repeat fold_left]; auto.
      assert (wstep n alloc reload 0 s' = s') as -> by (unfold wstep; now rewrite E). auto.
Qed.

Lemma uinv_prefix : forall s, uinv s -> prefix (w_out s) (allocated n alloc).
Proof.
  intros s I. assert (exists k, k <= n /\ w_out s = fil k) as (k & Hk & E).
  { unfold uinv in I. destruct (w_pc s 0); try easy.
    - exists (w_nw s). intuition.
    - exists (w_nw s). intuition lia.
    - exists (w_nw s). intuition lia.
    - exists (w_nw s). intuition lia.
    - exists (S (w_nw s)). intuition lia.
    - exists (S (w_nw s)). intuition lia.
    - exists (w_nw s). intuition lia.
    - exists (w_nw s). intuition lia.
    - exists n. intuition lia. }
  exists (filter alloc (seq k (n - k))). unfold allocated. rewrite E, <- filter_app.
  f_equal. replace n with (k + (n - k)) at 1 by lia. now rewrite seq_app.
Qed.
End One.

Section Read.
Context {E : Type}.
Variable n : nat.
Variable alloc : nat -> bool.
Variable elem : nat -> option E.
Variable T : nat.
Notation rstep := (rstep n alloc elem).

Lemma ds_index_nth : forall k i next b, b < k -> alloc (i + b) = true ->
  nth b (ds_index alloc i k next) 0 = next + length (filter alloc (seq i b)).
Proof.
  induction k; intros i next b Hb A; [lia|]. cbn [ds_index].
  destruct b.
  - rewrite Nat.add_0_r in A. rewrite A. cbn. lia.
  - replace (i + S b) with (S i + b) in A by lia.
    cbn [seq filter]. destruct (alloc i); cbn [nth length]; rewrite IHk by (auto; lia); lia.
Qed.
Lemma block_to_ds_rank : forall b, b < n -> alloc b = true -> nth b (block_to_ds n alloc) 0 = rank alloc b.
Proof. intros. unfold block_to_ds. rewrite ds_index_nth; auto. Qed.

Definition inflight (p : rpc) (b : nat) : Prop := p = RGot b \/ p = RIn b.

Definition rinv (s : @rstate E) : Prop :=
  (forall t b, inflight (r_pc s t) b -> b < r_next s /\ b < n /\ ~ In b (r_log s)) /\
  (forall t t' b, inflight (r_pc s t) b -> inflight (r_pc s t') b -> t = t') /\
  (forall t b, r_pc s t = RIn b -> alloc b = true) /\
  NoDup (r_log s) /\
  (forall b, In b (r_log s) -> b < r_next s /\ b < n /\ alloc b = true) /\
  (forall b, b < r_next s -> b < n -> alloc b = true ->
     In b (r_log s) \/ (exists t, t < T /\ inflight (r_pc s t) b) \/ elem (rank alloc b) = None) /\
  (forall b, In b (r_log s) -> r_mem s b = elem (rank alloc b) /\ r_mem s b <> None) /\
  (forall b, ~ In b (r_log s) -> r_mem s b = None) /\
  (forall t, r_pc s t = RDone -> n <= r_next s) /\
  (forall t, r_pc s t = RFail -> exists b, b < n /\ alloc b = true /\ elem (rank alloc b) = None).

Lemma rinv_init : rinv r_init.
Proof.
  unfold rinv, r_init; cbn [r_next r_mem r_log r_pc].
  repeat split; try easy; try (destruct H; easy); try constructor; try (intros t t' b [H|H]; easy).
Qed.

Ltac cu s t p t' := destruct (nupd_cases _ (r_pc s) t p t') as [[-> ->]|[? ->]].

Lemma rinv_step : forall s t, t < T -> rinv s -> rinv (rstep t s).
Proof.
  intros s t Ht I. unfold BlockIOM.rstep. destruct (r_pc s t) as [ |b|b| | ] eqn:PC; auto.
  - (* RFetch *)
    destruct I as (I1 & I2 & I3 & I4 & I5 & I6 & I7 & I8 & I9 & I10).
    set (q := if r_next s <? n then RGot (r_next s) else RDone).
    assert (Q : forall b, inflight q b -> b = r_next s /\ b < n).
    { intros b [H|H]; unfold q in H; destruct (Nat.ltb_spec (r_next s) n); inversion H; auto. }
    unfold rinv; cbn [r_next r_mem r_log r_pc]. split; [|split; [|split; [|split; [|split; [|split; [|split; [|split; [|split]]]]]]]].
    + intros t' b. cu s t q t'.
      * intros H. apply Q in H as [-> H]. repeat split; auto. intros X; apply I5 in X; lia.
      * intros H'. apply I1 in H'. intuition lia.
    + intros t1 t2 b H1 H2. revert H1 H2. cu s t q t1; cu s t q t2; auto.
      * intros H1 H2. apply Q in H1 as [-> _]. apply I1 in H2. lia.
      * intros H2 H1. apply Q in H1 as [-> _]. apply I1 in H2. lia.
      * intros; eauto.
    + intros t' b. cu s t q t'; [|apply I3]. unfold q. destruct (_ <? _); discriminate.
    + auto.
    + intros b H. apply I5 in H. intuition lia.
    + intros b H1 H2 H3. destruct (Nat.eq_dec b (r_next s)) as [->|N].
      * right; left. exists t. split; auto. rewrite nupd_same. unfold q. left.
        destruct (Nat.ltb_spec (r_next s) n); [auto|lia].
      * destruct (I6 b) as [X|[(t' & X1 & X2)|X]]; [lia|auto|auto|auto| |auto].
        right; left. exists t'. split; auto. cu s t q t'; auto. rewrite PC in X2. destruct X2; easy.
    + apply I7.
    + apply I8.
    + intros t'. cu s t q t'; [|intros H'; apply I9 in H'; lia]. unfold q. destruct (Nat.ltb_spec (r_next s) n); [easy|lia].
    + intros t'. cu s t q t'; [|apply I10]. unfold q. destruct (Nat.ltb_spec (r_next s) n); easy.
  - (* RGot *)
    destruct I as (I1 & I2 & I3 & I4 & I5 & I6 & I7 & I8 & I9 & I10).
    set (q := if alloc b then RIn b else RFetch).
    assert (HB : inflight (r_pc s t) b) by (rewrite PC; now left).
    assert (Q : forall b', inflight q b' -> b' = b /\ alloc b = true).
    { intros b' [H|H]; unfold q in H; destruct (alloc b); inversion H; auto. }
    unfold rinv; cbn [r_next r_mem r_log r_pc]. split; [|split; [|split; [|split; [|split; [|split; [|split; [|split; [|split]]]]]]]]; auto.
    + intros t' b'. cu s t q t'; [intros H; apply Q in H as [-> _]; eapply I1; eauto|apply I1].
    + intros t1 t2 b'. cu s t q t1; cu s t q t2; auto.
      * intros H1 H2. apply Q in H1 as [-> _]. eauto.
      * intros H2 H1. apply Q in H1 as [-> _]. eauto.
      * apply I2.
    + intros t' b'. cu s t q t'; [|apply I3]. unfold q. destruct (alloc b) eqn:A; congruence.
    + intros b' H1 H2 H3. destruct (I6 b') as [X|[(t' & X1 & X2)|X]]; auto.
      right; left. exists t'. split; auto. cu s t q t'; auto. rewrite PC in X2. destruct X2 as [X2|X2]; inversion X2; subst b'.
      unfold q. rewrite H3. now right.
    + intros t'. cu s t q t'; [|apply I9]. unfold q. destruct (alloc b); easy.
    + intros t'. cu s t q t'; [|apply I10]. unfold q. destruct (alloc b); easy.
  - (* RIn *)
    destruct I as (I1 & I2 & I3 & I4 & I5 & I6 & I7 & I8 & I9 & I10).
    assert (HB : inflight (r_pc s t) b) by (rewrite PC; now right).
    pose proof (I1 t b HB) as (B1 & B2 & B3). pose proof (I3 t b PC) as B4.
    rewrite block_to_ds_rank by auto.
    destruct (elem (rank alloc b)) as [e|] eqn:El; unfold rinv; cbn [r_next r_mem r_log r_pc].
    + split; [|split; [|split; [|split; [|split; [|split; [|split; [|split; [|split]]]]]]]].
      * intros t' b'. cu s t RFetch t'; [intros [X|X]; easy|]. intros X. pose proof (I1 _ _ X) as (Y1 & Y2 & Y3).
        repeat split; auto. rewrite in_app_iff. intros [Z|[Z|[]]]; [easy|subst b'].
        apply H. now apply (I2 _ _ b).
      * intros t1 t2 b'. cu s t RFetch t1; [intros [X|X]; easy|]. cu s t RFetch t2; [intros _ [X|X]; easy|]. apply I2.
      * intros t' b'. cu s t RFetch t'; [easy|apply I3].
      * apply NoDup_rev in I4.
        rewrite <- (rev_involutive (r_log s ++ [b])). apply NoDup_rev. rewrite rev_app_distr. cbn. constructor; auto.
        now rewrite <- in_rev.
      * intros b'. rewrite in_app_iff. intros [X|[X|[]]]; [now apply I5|subst; auto].
      * intros b' H1 H2 H3. rewrite in_app_iff. destruct (I6 b') as [X|[(t' & X1 & X2)|X]]; auto.
        cut (b' = b \/ inflight (nupd (r_pc s) t RFetch t') b').
        { intros [->|Z]; [left; right; now left|right; left; eauto]. }
        cu s t RFetch t'; auto. left. rewrite PC in X2. destruct X2 as [X2|X2]; congruence.
      * intros b'. rewrite in_app_iff. unfold nupd. destruct (Nat.eqb_spec b' b).
        -- subst. intros _. rewrite El. split; [auto|discriminate].
        -- intros [X|[X|[]]]; [now apply I7|congruence].
      * intros b'. rewrite in_app_iff. intros X. rewrite nupd_other; [apply I8; tauto|]. intros ->. apply X. right; now left.
      * intros t'. cu s t RFetch t'; [easy|apply I9].
      * intros t'. cu s t RFetch t'; [easy|apply I10].
    + split; [|split; [|split; [|split; [|split; [|split; [|split; [|split; [|split]]]]]]]]; auto.
      * intros t' b'. cu s t RFail t'; [intros [X|X]; easy|apply I1].
      * intros t1 t2 b'. cu s t RFail t1; [intros [X|X]; easy|]. cu s t RFail t2; [intros _ [X|X]; easy|]. apply I2.
      * intros t' b'. cu s t RFail t'; [easy|apply I3].
      * intros b' H1 H2 H3. destruct (I6 b') as [X|[(t' & X1 & X2)|X]]; auto.
        destruct (Nat.eq_dec t' t) as [->|N].
        -- right; right. rewrite PC in X2. destruct X2 as [X2|X2]; inversion X2. subst; auto.
        -- right; left. exists t'. split; auto. now rewrite nupd_other.
      * intros t'. cu s t RFail t'; [easy|apply I9].
      * intros t'. cu s t RFail t'; [|apply I10]. intros _. eauto.
Qed.

Lemma rinv_run : forall sched s, sched_of T sched -> rinv s -> rinv (rrun n alloc elem s sched).
Proof.
  unfold rrun. induction sched as [|t r IH]; intros s H I; cbn [fold_left]; auto.
  inversion H; subst. apply IH; auto. now apply rinv_step.
Qed.

Definition rweight (p : rpc) : nat := match p with RFetch => 1 | RGot _ => 3 | RIn _ => 2 | _ => 0 end.
Lemma rsum_upd : forall (w : rpc -> nat) pc t p, t < T ->
  sumT T (fun x => w (nupd pc t p x)) + w (pc t) = sumT T (fun x => w (pc x)) + w p.
Proof.
  intros w pc t p Ht. unfold sumT.
  replace T with (t + (1 + (T - S t))) by lia. rewrite !seq_app, !map_app, !list_sum_app. cbn [seq map Nat.add].
  rewrite (list_sum_ext (fun x => w (nupd pc t p x)) (fun x => w (pc x)) (seq 0 t)).
  2:{ intros x Hx. apply in_seq in Hx. now rewrite nupd_other by lia. }
  rewrite (list_sum_ext (fun x => w (nupd pc t p x)) (fun x => w (pc x)) (seq (t + 1) (T - S t))).
  2:{ intros x Hx. apply in_seq in Hx. now rewrite nupd_other by lia. }
  unfold list_sum. cbn [fold_right]. rewrite nupd_same. lia.
Qed.
Definition rmeas (s : @rstate E) : nat := sumT T (fun x => rweight (r_pc s x)) + 4 * (n - r_next s).

Lemma rmeas_dec : forall s t, t < T -> r_pc (rstep t s) t <> r_pc s t -> rmeas (rstep t s) < rmeas s.
Proof.
  intros s t Ht. unfold BlockIOM.rstep, rmeas. destruct (r_pc s t) as [ |b|b| | ] eqn:PC; cbn [r_pc r_next].
  - intros _. pose proof (rsum_upd rweight (r_pc s) t (if r_next s <? n then RGot (r_next s) else RDone) Ht) as U.
    rewrite PC in U. destruct (Nat.ltb_spec (r_next s) n); cbn [rweight] in U; lia.
  - intros _. pose proof (rsum_upd rweight (r_pc s) t (if alloc b then RIn b else RFetch) Ht) as U.
    rewrite PC in U. destruct (alloc b); cbn [rweight] in U; lia.
  - intros _. destruct (elem _); cbn [r_pc r_next].
    + pose proof (rsum_upd rweight (r_pc s) t RFetch Ht) as U. rewrite PC in U. cbn [rweight] in U; lia.
    + pose proof (rsum_upd rweight (r_pc s) t RFail Ht) as U. rewrite PC in U. cbn [rweight] in U; lia.
  - rewrite PC. easy.
  - rewrite PC. easy.
Qed.

Lemma racc : forall s, Acc (moves r_pc rstep T) s.
Proof.
  intros s. remember (rmeas s) as m eqn:Em. revert s Em. induction m as [m IH] using lt_wf_ind.
  intros s ->. constructor. intros s' (t & Ht & -> & Ne). apply (IH (rmeas (rstep t s))); auto. now apply rmeas_dec.
Qed.

Lemma rstep_moves : forall s t, t < T -> r_pc s t <> RDone -> r_pc s t <> RFail -> r_pc (rstep t s) t <> r_pc s t.
Proof.
  intros s t Ht N1 N2. unfold BlockIOM.rstep. destruct (r_pc s t) as [ |b|b| | ] eqn:PC; try easy; cbn [r_pc].
  - rewrite nupd_same. destruct (_ <? _); easy.
  - rewrite nupd_same. destruct (alloc b); easy.
  - destruct (elem _); cbn [r_pc]; rewrite nupd_same; easy.
Qed.
End Read.
