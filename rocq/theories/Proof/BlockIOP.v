(** Proofs about threaded block writing. *)
From Coq Require Import List Bool Arith Lia.
From Verif Require Import Model.BlockIOM Spec.BlockIOSpec.
Import ListNotations.

Lemma nupd_same : forall A (f : nat -> A) i a, nupd f i a i = a.
Proof. intros. unfold nupd. now rewrite Nat.eqb_refl. Qed.
Lemma nupd_other : forall A (f : nat -> A) i a j, j <> i -> nupd f i a j = f j.
Proof. intros. unfold nupd. apply Nat.eqb_neq in H. now rewrite H. Qed.

Section Alloc.
Variable n : nat.
Variable alloc : nat -> bool.

Lemma skip_spec : forall fuel k, n - k <= fuel ->
  k <= skip n alloc fuel k /\
  (forall j, k <= j < skip n alloc fuel k -> alloc j = false) /\
  (k <= n -> skip n alloc fuel k <= n) /\
  (skip n alloc fuel k < n -> alloc (skip n alloc fuel k) = true) /\
  (n <= k -> skip n alloc fuel k = k).
Proof.
  induction fuel; intros k H; cbn [skip].
  - repeat split; try lia.
  - destruct (Nat.ltb_spec k n).
    + destruct (alloc k) eqn:A.
      * repeat split; try lia; auto.
      * destruct (IHfuel (S k)) as (P & Q & R & S' & U); [lia|].
        repeat split; try lia; auto.
        intros j Hj. destruct (Nat.eq_dec j k); [subst; auto|apply Q; lia].
    + repeat split; try lia; auto.
Qed.

Lemma no_gap_range : no_gap n alloc ->
  exists f l, f <= l <= n /\ forall i, i < n -> (alloc i = true <-> f <= i < l).
Proof.
  unfold no_gap. induction n as [|m IH]; intros G.
  - exists 0, 0. split; [lia|]. intros; lia.
  - destruct IH as (f & l & B & A).
    { intros i j k H K. apply (G i j k); lia. }
    destruct (alloc m) eqn:E.
    + destruct (Nat.eq_dec f l) as [->|N].
      * exists m, (S m). split; [lia|]. intros i Hi.
        destruct (Nat.eq_dec i m); [subst; split; auto; lia|].
        rewrite A by lia. lia.
      * destruct (Nat.eq_dec l m) as [->|N'].
        -- exists f, (S m). split; [lia|]. intros i Hi.
           destruct (Nat.eq_dec i m); [subst; split; auto; lia|]. rewrite A by lia. lia.
        -- exfalso. assert (alloc l = true).
           { apply (G f l m); try lia; auto. apply A; lia. }
           apply A in H; lia.
    + exists f, l. split; [lia|]. intros i Hi.
      destruct (Nat.eq_dec i m); [subst; rewrite E; split; [easy|lia]|]. apply A; lia.
Qed.

Lemma filter_all : forall (p : nat -> bool) l, (forall x, In x l -> p x = true) -> filter p l = l.
Proof. induction l; intros H; cbn; auto. rewrite H by (now left). f_equal. apply IHl. intros; apply H; now right. Qed.
Lemma filter_none : forall (p : nat -> bool) l, (forall x, In x l -> p x = false) -> filter p l = [].
Proof. induction l; intros H; cbn; auto. rewrite H by (now left). apply IHl. intros; apply H; now right. Qed.

Lemma allocated_range : forall f l, f <= l <= n ->
  (forall i, i < n -> (alloc i = true <-> f <= i < l)) ->
  allocated n alloc = seq f (l - f).
Proof.
  intros f l B A. unfold allocated.
  replace n with (f + ((l - f) + (n - l))) by lia.
  rewrite !seq_app, !filter_app. cbn [Nat.add].
  rewrite (filter_none _ (seq 0 f)), (filter_all _ (seq f (l - f))), (filter_none _ (seq (f + (l - f)) _)).
  - now rewrite app_nil_r.
  - intros x Hx. apply in_seq in Hx. destruct (alloc x) eqn:E; auto. apply A in E; lia.
  - intros x Hx. apply in_seq in Hx. apply A; lia.
  - intros x Hx. apply in_seq in Hx. destruct (alloc x) eqn:E; auto. apply A in E; lia.
Qed.
End Alloc.

(** * Several threads, no gap *)
Section NoGap.
Variable n : nat.
Variable alloc : nat -> bool.
Variable reload : bool.
Variable T : nat.
Variables f l : nat.
Hypothesis FL : f <= l <= n.
Hypothesis AL : forall i, i < n -> (alloc i = true <-> f <= i < l).

Notation wstep := (wstep n alloc reload).

Definition holds (p : wpc) (b : nat) : Prop := p = WComp b \/ p = WWait b \/ p = WAdd b.
Definition incs (p : wpc) : Prop := p = WIncR \/ exists v, p = WIncW v.

Definition phaseB (s : wstate) : Prop :=
  l <= w_nw s /\ n <= w_nc s /\ w_out s = seq f (l - f) /\
  (forall t b, ~ holds (w_pc s t) b) /\ (forall t v, w_pc s t = WIncW v -> l <= v).

Definition phaseA (s : wstate) : Prop :=
  exists h cur,
  f <= w_nw s < l /\ (h = w_nc s /\ w_nc s < l \/ h = l /\ n <= w_nc s) /\ w_nw s <= cur <= h /\
  w_out s = seq f (cur - f) /\
  ((cur = w_nw s /\ forall t, ~ incs (w_pc s t)) \/
   (cur = S (w_nw s) /\ exists t0, t0 < T /\ (w_pc s t0 = WIncR \/ w_pc s t0 = WIncW (w_nw s)) /\
                                   forall t, t <> t0 -> ~ incs (w_pc s t))) /\
  (forall t b, holds (w_pc s t) b -> cur <= b < h) /\
  (forall t t' b, holds (w_pc s t) b -> holds (w_pc s t') b -> t = t') /\
  (forall b, cur <= b < h -> exists t, t < T /\ holds (w_pc s t) b) /\
  (forall t b, w_pc s t = WAdd b -> b = w_nw s).

Definition winv (s : wstate) : Prop :=
  (forall t, w_pc s t = WDone -> n <= w_nc s) /\
  (reload = false -> forall t, w_pc s t <> WIdx /\ w_pc s t <> WCrash) /\
  (phaseA s \/ phaseB s).

Lemma skip_first : skip n alloc n 0 = if f =? l then n else f.
Proof.
  destruct (skip_spec n alloc n 0) as (P & Q & R & S' & U); [lia|]. specialize (R ltac:(lia)).
  destruct (Nat.eqb_spec f l).
  - destruct (Nat.eq_dec (skip n alloc n 0) n); auto.
    assert (alloc (skip n alloc n 0) = true) by (apply S'; lia). apply AL in H; lia.
  - destruct (Nat.lt_trichotomy (skip n alloc n 0) f) as [H|[H|H]]; auto.
    + assert (alloc (skip n alloc n 0) = true) by (apply S'; lia). apply AL in H0; lia.
    + assert (alloc f = false) by (apply Q; lia). assert (alloc f = true) by (apply AL; lia). congruence.
Qed.

Lemma skip_next : forall b, f <= b < l -> skip n alloc n (S b) = if S b =? l then n else S b.
Proof.
  intros b Hb. destruct (skip_spec n alloc n (S b)) as (P & Q & R & S' & U); [lia|]. specialize (R ltac:(lia)).
  destruct (Nat.eqb_spec (S b) l).
  - destruct (Nat.eq_dec (skip n alloc n (S b)) n); auto.
    assert (alloc (skip n alloc n (S b)) = true) by (apply S'; lia). apply AL in H; lia.
  - destruct (Nat.eq_dec (skip n alloc n (S b)) (S b)); auto.
    assert (alloc (S b) = false) by (apply Q; lia). assert (alloc (S b) = true) by (apply AL; lia). congruence.
Qed.

Lemma skip_past : forall b, n <= b -> skip n alloc n b = b.
Proof. intros b Hb. apply (skip_spec n alloc n b); lia. Qed.

Lemma winv_init : winv (w_init n alloc).
Proof.
  unfold winv, w_init; cbn [w_nc w_nw w_out w_pc]. repeat split; try easy.
  rewrite skip_first. destruct (Nat.eqb_spec f l).
  - right. unfold phaseB; cbn [w_nc w_nw w_out w_pc]. replace (l - f) with 0 by lia.
    repeat split; try lia; try easy. intros t b [H|[H|H]]; easy.
  - left. exists f, f. cbn [w_nc w_nw w_out w_pc]. rewrite Nat.sub_diag.
    repeat split; try lia; try easy.
    + left; split; auto. intros t [H|[v H]]; easy.
    + destruct H as [H|[H|H]]; easy.
    + destruct H as [H|[H|H]]; easy.
    + intros t t' b [H|[H|H]]; easy.
Qed.

Lemma nupd_cases : forall A (g : nat -> A) i a j,
  (j = i /\ nupd g i a j = a) \/ (j <> i /\ nupd g i a j = g j).
Proof. intros. destruct (Nat.eq_dec j i); [left|right]; split; auto; subst; [apply nupd_same|now apply nupd_other]. Qed.

Ltac caseupd s t t' := destruct (nupd_cases _ (w_pc s) t ltac:(eassumption) t').

(** Moving a thread between program points that neither hold a block nor advance the
    counter. *)
Definition neutral (p : wpc) : Prop := (forall b, ~ holds p b) /\ ~ incs p.

Lemma phaseA_neutral : forall s t p, phaseA s -> neutral (w_pc s t) -> neutral p -> phaseA (w_goto s t p).
Proof.
  intros s t p (h & cur & A1 & A2 & A3 & A4 & A5 & A6 & A7 & A8 & A9) [N1 N2] [M1 M2].
  exists h, cur. unfold w_goto; cbn [w_nc w_nw w_out w_pc].
  split; [auto|]. split; [auto|]. split; [auto|]. split; [auto|]. split.
  { destruct A5 as [[E A5]|[E (t0 & B1 & B2 & B3)]]; [left|right]; split; auto.
    - intros t'. destruct (nupd_cases _ (w_pc s) t p t') as [[-> ->]|[H ->]]; auto.
    - exists t0. split; auto. destruct (nupd_cases _ (w_pc s) t p t0) as [[-> _]|[H ->]].
      { exfalso. apply N2. destruct B2 as [-> | ->]; [left|right]; eauto. }
      split; auto. intros t' Ht'. destruct (nupd_cases _ (w_pc s) t p t') as [[-> ->]|[H' ->]]; auto. }
  split. { intros t' b. destruct (nupd_cases _ (w_pc s) t p t') as [[-> ->]|[H' ->]]; [intros H; now apply M1 in H|apply A6]. }
  split. { intros t1 t2 b. destruct (nupd_cases _ (w_pc s) t p t1) as [[-> ->]|[H1 ->]]; [intros H; now apply M1 in H|].
    destruct (nupd_cases _ (w_pc s) t p t2) as [[-> ->]|[H2 ->]]; [intros _ H; now apply M1 in H|apply A7]. }
  split. { intros b Hb. destruct (A8 b Hb) as (t' & Ht & Hh). exists t'. split; auto.
    destruct (nupd_cases _ (w_pc s) t p t') as [[-> ->]|[H' ->]]; auto. now apply N1 in Hh. }
  intros t' b. destruct (nupd_cases _ (w_pc s) t p t') as [[-> ->]|[H' ->]]; [|apply A9].
  intros ->. exfalso. apply (M1 b). right; now right.
Qed.

(** Moving a thread along while it holds the same block. *)
Lemma phaseA_hold : forall s t b p, phaseA s -> holds (w_pc s t) b -> holds p b ->
  (p = WAdd b -> b = w_nw s) -> phaseA (w_goto s t p).
Proof.
  intros s t b0 p (h & cur & A1 & A2 & A3 & A4 & A5 & A6 & A7 & A8 & A9) H0 Hp Hadd.
  assert (NI : ~ incs (w_pc s t)).
  { intros [X|[v X]]; rewrite X in H0; destruct H0 as [Y|[Y|Y]]; discriminate. }
  assert (NP : ~ incs p).
  { intros [X|[v X]]; rewrite X in Hp; destruct Hp as [Y|[Y|Y]]; discriminate. }
  assert (UN : forall b, holds p b -> b = b0).
  { intros b [X|[X|X]]; destruct Hp as [Y|[Y|Y]]; congruence. }
  exists h, cur. unfold w_goto; cbn [w_nc w_nw w_out w_pc].
  split; [auto|]. split; [auto|]. split; [auto|]. split; [auto|]. split.
  { destruct A5 as [[E A5]|[E (t0 & B1 & B2 & B3)]]; [left|right]; split; auto.
    - intros t'. destruct (nupd_cases _ (w_pc s) t p t') as [[-> ->]|[H ->]]; auto.
    - exists t0. split; auto. destruct (nupd_cases _ (w_pc s) t p t0) as [[-> _]|[H ->]].
      { exfalso. apply NI. destruct B2 as [-> | ->]; [left|right]; eauto. }
      split; auto. intros t' Ht'. destruct (nupd_cases _ (w_pc s) t p t') as [[-> ->]|[H' ->]]; auto. }
  split. { intros t' b. destruct (nupd_cases _ (w_pc s) t p t') as [[-> ->]|[H' ->]]; [|apply A6].
    intros H. apply UN in H; subst. eapply A6; eauto. }
  split. { intros t1 t2 b. destruct (nupd_cases _ (w_pc s) t p t1) as [[-> ->]|[H1 ->]];
    destruct (nupd_cases _ (w_pc s) t p t2) as [[-> ->]|[H2 ->]]; auto.
    - intros H H'. apply UN in H; subst. eapply A7; eauto.
    - intros H H'. apply UN in H'; subst. eapply A7; eauto.
    - apply A7. }
  split. { intros b Hb. destruct (A8 b Hb) as (t' & Ht & Hh). exists t'. split; auto.
    destruct (nupd_cases _ (w_pc s) t p t') as [[-> ->]|[H' ->]]; auto.
    assert (b = b0); [|subst; auto]. clear - Hh H0.
    destruct Hh as [X|[X|X]]; destruct H0 as [Y|[Y|Y]]; rewrite X in Y; congruence. }
  intros t' b. destruct (nupd_cases _ (w_pc s) t p t') as [[-> ->]|[H' ->]]; [|apply A9].
  intros E. assert (holds p b) by (right; right; auto). apply UN in H; subst b. auto.
Qed.

Lemma neutral_intro : forall p, p = WFetch \/ p = WScan \/ p = WIdx \/ p = WDone \/ p = WCrash -> neutral p.
Proof.
  intros p H. split.
  - intros b [X|[X|X]]; subst; intuition discriminate.
  - intros [X|[v X]]; subst; intuition discriminate.
Qed.

Lemma phaseB_goto : forall s t p, phaseB s -> (forall b, ~ holds p b) -> (forall v, p = WIncW v -> l <= v) ->
  phaseB (w_goto s t p).
Proof.
  intros s t p (B1 & B2 & B3 & B4 & B5) H1 H2. unfold phaseB, w_goto; cbn [w_nc w_nw w_out w_pc].
  split; [auto|]. split; [auto|]. split; [auto|]. split.
  - intros t' b. destruct (nupd_cases _ (w_pc s) t p t') as [[-> ->]|[H' ->]]; auto.
  - intros t' v. destruct (nupd_cases _ (w_pc s) t p t') as [[-> ->]|[H' ->]]; eauto.
Qed.

Lemma goto_done : forall s t p, (forall t, w_pc s t = WDone -> n <= w_nc s) -> p <> WDone ->
  forall t', w_pc (w_goto s t p) t' = WDone -> n <= w_nc (w_goto s t p).
Proof.
  intros s t p D H t'. unfold w_goto; cbn [w_nc w_pc].
  destruct (nupd_cases _ (w_pc s) t p t') as [[-> ->]|[H' ->]]; [easy|apply D].
Qed.
Lemma goto_idx : forall s t p, (reload = false -> forall t, w_pc s t <> WIdx /\ w_pc s t <> WCrash) ->
  (reload = false -> p <> WIdx /\ p <> WCrash) ->
  reload = false -> forall t', w_pc (w_goto s t p) t' <> WIdx /\ w_pc (w_goto s t p) t' <> WCrash.
Proof.
  intros s t p D H R t'. unfold w_goto; cbn [w_nc w_pc].
  destruct (nupd_cases _ (w_pc s) t p t') as [[-> ->]|[H' ->]]; auto.
Qed.

Ltac notholds := let X := fresh in let Y := fresh in intros ? [X|[X|X]]; discriminate X.

Lemma winv_step : forall s t, t < T -> winv s -> winv (wstep t s).
Proof.
  intros s t Ht (D & X & P). unfold BlockIOM.wstep.
  destruct (w_pc s t) as [ |b|b|b| |v| | | | ] eqn:PC.
  - (* WFetch *)
    assert (NT : neutral (w_pc s t)) by (rewrite PC; apply neutral_intro; auto).
    set (b := w_nc s) in *.
    destruct P as [P|P].
    + destruct P as (h & cur & A1 & A2 & A3 & A4 & A5 & A6 & A7 & A8 & A9).
      destruct A2 as [[A2 A2']|[A2 A2']]; fold b in A2, A2'.
      * (* hand out b < l *)
        assert (Hb : f <= b < l) by lia.
        assert (alloc b = true) as Ab by (apply AL; lia).
        destruct (Nat.ltb_spec b n); [|lia]. rewrite Ab.
        unfold winv; cbn [w_nc w_nw w_out w_pc].
        split. { intros t'. destruct (nupd_cases _ (w_pc s) t (WComp b) t') as [[-> ->]|[H' ->]]; [easy|].
                 intros E. apply D in E. fold b in E; lia. }
        split. { intros R t'. destruct (nupd_cases _ (w_pc s) t (WComp b) t') as [[-> ->]|[H' ->]]; [easy|auto]. }
        left. exists (S b), cur. cbn [w_nc w_nw w_out w_pc]. destruct NT as [N1 N2].
        split; [auto|]. split.
        { rewrite skip_next by auto. destruct (Nat.eqb_spec (S b) l); [right|left]; lia. }
        split; [lia|]. split; [auto|]. split.
        { destruct A5 as [[E A5]|[E (t0 & B1 & B2 & B3)]]; [left|right]; split; auto.
          - intros t'. destruct (nupd_cases _ (w_pc s) t (WComp b) t') as [[-> ->]|[H' ->]]; auto.
            intros [Y|[v Y]]; discriminate.
          - exists t0. split; auto. destruct (nupd_cases _ (w_pc s) t (WComp b) t0) as [[-> _]|[H' ->]].
            { exfalso. destruct B2 as [B2|B2]; rewrite PC in B2; discriminate. }
            split; auto. intros t' Ht'. destruct (nupd_cases _ (w_pc s) t (WComp b) t') as [[-> ->]|[H'' ->]]; auto.
            intros [Y|[v Y]]; discriminate. }
        split. { intros t' b'. destruct (nupd_cases _ (w_pc s) t (WComp b) t') as [[-> ->]|[H' ->]].
          - intros [Y|[Y|Y]]; inversion Y. subst b'. lia.
          - intros Y. apply A6 in Y. lia. }
        split. { intros t1 t2 b'. destruct (nupd_cases _ (w_pc s) t (WComp b) t1) as [[-> ->]|[H1 ->]];
            destruct (nupd_cases _ (w_pc s) t (WComp b) t2) as [[-> ->]|[H2 ->]]; auto.
          - intros [Y|[Y|Y]] Z; inversion Y. subst b'. apply A6 in Z. lia.
          - intros Z [Y|[Y|Y]]; inversion Y. subst b'. apply A6 in Z. lia.
          - apply A7. }
        split. { intros b' Hb'. destruct (Nat.eq_dec b' b) as [->|Nb].
          - exists t. split; auto. rewrite nupd_same. now left.
          - destruct (A8 b') as (t' & Y & Z); [lia|]. exists t'. split; auto.
            destruct (nupd_cases _ (w_pc s) t (WComp b) t') as [[-> _]|[H' ->]]; auto. now apply N1 in Z. }
        intros t' b'. destruct (nupd_cases _ (w_pc s) t (WComp b) t') as [[-> ->]|[H' ->]]; [easy|apply A9].
      * (* nothing left *)
        destruct (Nat.ltb_spec b n); [lia|]. rewrite skip_past by lia.
        unfold winv; cbn [w_nc w_nw w_out w_pc].
        split. { intros; lia. }
        split. { intros R t'. destruct (nupd_cases _ (w_pc s) t WDone t') as [[-> ->]|[H' ->]]; [easy|auto]. }
        left. assert (PA : phaseA (w_goto (W (S b) (w_nw s) (w_out s) (w_pc s)) t WDone)).
        { apply phaseA_neutral; cbn [w_pc]; auto.
          - exists h, cur. cbn [w_nc w_nw w_out w_pc]. repeat split; auto; try lia; try (now apply A6 in H0).
          - apply neutral_intro; auto. }
        exact PA.
    + destruct P as (B1 & B2 & B3 & B4 & B5). fold b in B2.
      destruct (Nat.ltb_spec b n); [lia|]. rewrite skip_past by lia.
      unfold winv; cbn [w_nc w_nw w_out w_pc].
      split. { intros; lia. }
      split. { intros R t'. destruct (nupd_cases _ (w_pc s) t WDone t') as [[-> ->]|[H' ->]]; [easy|auto]. }
      right. unfold phaseB; cbn [w_nc w_nw w_out w_pc].
      split; [lia|]. split; [lia|]. split; [auto|]. split.
      * intros t' b'. destruct (nupd_cases _ (w_pc s) t WDone t') as [[-> ->]|[H' ->]]; auto. intros [Y|[Y|Y]]; easy.
      * intros t' b'. destruct (nupd_cases _ (w_pc s) t WDone t') as [[-> ->]|[H' ->]]; [easy|apply B5].
  - (* WComp *)
    split; [apply goto_done; easy|]. split; [apply goto_idx; easy|].
    destruct P as [P|P]; [left|right].
    + apply phaseA_hold with b; auto; [rewrite PC; now left|right; now left|easy].
    + exfalso. destruct P as (_ & _ & _ & B4 & _). apply (B4 t b). rewrite PC. now left.
  - (* WWait *)
    destruct (Nat.eqb_spec (w_nw s) b); [|split; [|split]; auto].
    split; [apply goto_done; easy|]. split; [apply goto_idx; easy|].
    destruct P as [P|P]; [left|right].
    + apply phaseA_hold with b; auto; [rewrite PC; right; now left|right; now right].
    + exfalso. destruct P as (_ & _ & _ & B4 & _). apply (B4 t b). rewrite PC. right; now left.
  - (* WAdd *)
    destruct P as [P|P].
    2:{ exfalso. destruct P as (_ & _ & _ & B4 & _). apply (B4 t b). rewrite PC. right; now right. }
    destruct P as (h & cur & A1 & A2 & A3 & A4 & A5 & A6 & A7 & A8 & A9).
    assert (Hb : holds (w_pc s t) b) by (rewrite PC; right; now right).
    pose proof (A9 t b PC) as Eb. pose proof (A6 t b Hb) as Rb.
    destruct A5 as [[E A5]|[E _]]; [|lia].
    unfold winv; cbn [w_nc w_nw w_out w_pc].
    split. { intros t'. destruct (nupd_cases _ (w_pc s) t WIncR t') as [[-> ->]|[H' ->]]; [easy|apply D]. }
    split. { intros R t'. destruct (nupd_cases _ (w_pc s) t WIncR t') as [[-> ->]|[H' ->]]; [easy|auto]. }
    left. exists h, (S cur). cbn [w_nc w_nw w_out w_pc].
    split; [auto|]. split; [auto|]. split; [lia|]. split.
    { rewrite A4. replace (S cur - f) with (S (cur - f)) by lia. rewrite seq_S. do 2 f_equal. lia. }
    split. { right. split; [lia|]. exists t. split; auto. rewrite nupd_same. split; auto.
      intros t' Ht'. rewrite nupd_other by auto. apply A5. }
    split. { intros t' b'. destruct (nupd_cases _ (w_pc s) t WIncR t') as [[-> ->]|[H' ->]]; [intros [Y|[Y|Y]]; easy|].
      intros Y. pose proof (A6 _ _ Y). assert (b' <> cur); [|lia]. intros ->.
      apply H'. apply (A7 t' t b); auto. rewrite Eb, <- E; auto. }
    split. { intros t1 t2 b'. destruct (nupd_cases _ (w_pc s) t WIncR t1) as [[-> ->]|[H1 ->]]; [intros [Y|[Y|Y]]; easy|].
      destruct (nupd_cases _ (w_pc s) t WIncR t2) as [[-> ->]|[H2 ->]]; [intros _ [Y|[Y|Y]]; easy|]. apply A7. }
    split. { intros b' Hb'. destruct (A8 b') as (t' & Y & Z); [lia|]. exists t'. split; auto.
      destruct (nupd_cases _ (w_pc s) t WIncR t') as [[-> _]|[H' ->]]; auto.
      rewrite PC in Z. destruct Z as [Z|[Z|Z]]; inversion Z. lia. }
    intros t' b'. destruct (nupd_cases _ (w_pc s) t WIncR t') as [[-> ->]|[H' ->]]; [easy|apply A9].
  - (* WIncR *)
    split; [apply goto_done; easy|]. split; [apply goto_idx; easy|].
    destruct P as [P|P]; [left|right].
    + destruct P as (h & cur & A1 & A2 & A3 & A4 & A5 & A6 & A7 & A8 & A9).
      destruct A5 as [[E A5]|[E (t0 & B1 & B2 & B3)]]; [exfalso; apply (A5 t); rewrite PC; now left|].
      assert (t = t0) as <-.
      { destruct (Nat.eq_dec t t0); auto. exfalso. apply (B3 t n0). rewrite PC; now left. }
      exists h, cur. unfold w_goto; cbn [w_nc w_nw w_out w_pc].
      split; [auto|]. split; [auto|]. split; [auto|]. split; [auto|]. split.
      { right. split; auto. exists t. split; auto. rewrite nupd_same. split; auto.
        intros t' H'. rewrite nupd_other by auto. now apply B3. }
      split. { intros t' b. destruct (nupd_cases _ (w_pc s) t (WIncW (w_nw s)) t') as [[-> ->]|[H' ->]]; [intros [Y|[Y|Y]]; easy|apply A6]. }
      split. { intros t1 t2 b. destruct (nupd_cases _ (w_pc s) t (WIncW (w_nw s)) t1) as [[-> ->]|[H1 ->]]; [intros [Y|[Y|Y]]; easy|].
        destruct (nupd_cases _ (w_pc s) t (WIncW (w_nw s)) t2) as [[-> ->]|[H2 ->]]; [intros _ [Y|[Y|Y]]; easy|apply A7]. }
      split. { intros b' Hb'. destruct (A8 b') as (t' & Y & Z); [lia|]. exists t'. split; auto.
        destruct (nupd_cases _ (w_pc s) t (WIncW (w_nw s)) t') as [[-> _]|[H' ->]]; auto.
        rewrite PC in Z. destruct Z as [Z|[Z|Z]]; inversion Z. }
      intros t' b'. destruct (nupd_cases _ (w_pc s) t (WIncW (w_nw s)) t') as [[-> ->]|[H' ->]]; [easy|apply A9].
    + apply phaseB_goto; auto; [notholds|]. intros v E. inversion E. destruct P; auto.
  - (* WIncW *)
    destruct P as [P|P].
    + destruct P as (h & cur & A1 & A2 & A3 & A4 & A5 & A6 & A7 & A8 & A9).
      destruct A5 as [[E A5]|[E (t0 & B1 & B2 & B3)]]; [exfalso; apply (A5 t); rewrite PC; right; eauto|].
      assert (t = t0) as <-.
      { destruct (Nat.eq_dec t t0); auto. exfalso. apply (B3 t n0). rewrite PC; right; eauto. }
      assert (v = w_nw s) as -> by (destruct B2 as [B2|B2]; rewrite PC in B2; congruence).
      unfold winv; cbn [w_nc w_nw w_out w_pc].
      split. { intros t'. destruct (nupd_cases _ (w_pc s) t WScan t') as [[-> ->]|[H' ->]]; [easy|apply D]. }
      split. { intros R t'. destruct (nupd_cases _ (w_pc s) t WScan t') as [[-> ->]|[H' ->]]; [easy|auto]. }
      assert (NI : forall t', ~ incs (nupd (w_pc s) t WScan t')).
      { intros t'. destruct (nupd_cases _ (w_pc s) t WScan t') as [[-> ->]|[H' ->]]; [intros [Y|[v Y]]; easy|auto]. }
      assert (HH : forall t' b, holds (nupd (w_pc s) t WScan t') b -> cur <= b < h).
      { intros t' b. destruct (nupd_cases _ (w_pc s) t WScan t') as [[-> ->]|[H' ->]]; [intros [Y|[Y|Y]]; easy|apply A6]. }
      destruct (Nat.eq_dec cur l) as [El|Nl].
      * right. unfold phaseB; cbn [w_nc w_nw w_out w_pc].
        split; [lia|]. split; [lia|]. split; [rewrite A4; f_equal; lia|]. split.
        -- intros t' b Y. apply HH in Y. lia.
        -- intros t' v Y. exfalso. apply (NI t'). right; eauto.
      * left. exists h, cur. cbn [w_nc w_nw w_out w_pc].
        split; [lia|]. split; [auto|]. split; [lia|]. split; [auto|]. split; [left; split; auto|]. split; [auto|].
        split. { intros t1 t2 b. destruct (nupd_cases _ (w_pc s) t WScan t1) as [[-> ->]|[H1 ->]]; [intros [Y|[Y|Y]]; easy|].
          destruct (nupd_cases _ (w_pc s) t WScan t2) as [[-> ->]|[H2 ->]]; [intros _ [Y|[Y|Y]]; easy|apply A7]. }
        split. { intros b' Hb'. destruct (A8 b') as (t' & Y & Z); [lia|]. exists t'. split; auto.
          destruct (nupd_cases _ (w_pc s) t WScan t') as [[-> _]|[H' ->]]; auto.
          rewrite PC in Z. destruct Z as [Z|[Z|Z]]; inversion Z. }
        intros t' b'. destruct (nupd_cases _ (w_pc s) t WScan t') as [[-> ->]|[H' ->]]; [easy|].
        intros Y. pose proof (A9 _ _ Y). assert (cur <= b' < h) by (apply (A6 t'); rewrite Y; right; now right). lia.
    + destruct P as (B1 & B2 & B3 & B4 & B5).
      pose proof (B5 t v PC).
      unfold winv; cbn [w_nc w_nw w_out w_pc].
      split. { intros t'. destruct (nupd_cases _ (w_pc s) t WScan t') as [[-> ->]|[H' ->]]; [easy|apply D]. }
      split. { intros R t'. destruct (nupd_cases _ (w_pc s) t WScan t') as [[-> ->]|[H' ->]]; [easy|auto]. }
      right. unfold phaseB; cbn [w_nc w_nw w_out w_pc].
      split; [lia|]. split; [lia|]. split; [auto|]. split.
      * intros t' b. destruct (nupd_cases _ (w_pc s) t WScan t') as [[-> ->]|[H' ->]]; [intros [Y|[Y|Y]]; easy|auto].
      * intros t' v'. destruct (nupd_cases _ (w_pc s) t WScan t') as [[-> ->]|[H' ->]]; [easy|apply B5].
  - (* WScan *)
    assert (NT : neutral (w_pc s t)) by (rewrite PC; apply neutral_intro; auto).
    destruct (Nat.ltb_spec (w_nw s) n).
    + assert (RL : reload = true \/ reload = false) by (destruct reload; auto).
      destruct RL as [RL|RL]; rewrite RL at 1.
      * split; [apply goto_done; easy|]. split; [rewrite RL; easy|].
        destruct P as [P|P]; [left|right].
        -- apply phaseA_neutral; auto. apply neutral_intro; auto.
        -- apply phaseB_goto; auto; [notholds|easy].
      * split; [apply goto_done; auto; destruct (alloc _); easy|]. split; [apply goto_idx; auto; destruct (alloc _); easy|].
        destruct P as [P|P]; [left|right].
        -- assert (alloc (w_nw s) = true) as ->. { destruct P as (? & ? & ? & _). apply AL; lia. }
           apply phaseA_neutral; auto. apply neutral_intro; auto.
        -- apply phaseB_goto; auto; destruct (alloc _); try easy; notholds.
    + split; [apply goto_done; easy|]. split; [apply goto_idx; easy|].
      destruct P as [P|P]; [left|right].
      * apply phaseA_neutral; auto. apply neutral_intro; auto.
      * apply phaseB_goto; auto; [notholds|easy].
  - (* WIdx *)
    assert (NT : neutral (w_pc s t)) by (rewrite PC; apply neutral_intro; auto).
    assert (RL : reload = true). { destruct (Bool.bool_dec reload true); auto. destruct (X (Bool.not_true_is_false _ n0) t); congruence. }
    destruct (Nat.ltb_spec (w_nw s) n).
    + split; [apply goto_done; auto; destruct (alloc _); easy|]. split; [congruence|].
      destruct P as [P|P]; [left|right].
      * assert (alloc (w_nw s) = true) as ->. { destruct P as (? & ? & ? & _). apply AL; lia. }
        apply phaseA_neutral; auto. apply neutral_intro; auto.
      * apply phaseB_goto; auto; destruct (alloc _); try easy; notholds.
    + split; [apply goto_done; auto; easy|]. split; [congruence|].
      destruct P as [P|P]; [left|right].
      * apply phaseA_neutral; auto. apply neutral_intro; auto.
      * apply phaseB_goto; auto; [notholds|easy].
  - split; auto.
  - split; auto.
Qed.

Lemma winv_run : forall sched s, sched_of T sched -> winv s -> winv (wrun n alloc reload s sched).
Proof.
  unfold wrun. induction sched as [|t r IH]; intros s H I; cbn [fold_left]; auto.
  inversion H; subst. apply IH; auto. now apply winv_step.
Qed.

Lemma winv_prefix : forall s, winv s -> prefix (w_out s) (seq f (l - f)).
Proof.
  intros s (_ & _ & [P|P]).
  - destruct P as (h & cur & A1 & A2 & A3 & A4 & _). exists (seq cur (l - cur)).
    rewrite A4. replace (l - f) with ((cur - f) + (l - cur)) by lia. rewrite seq_app.
    do 2 f_equal. lia.
  - exists []. rewrite app_nil_r. now destruct P as (_ & _ & -> & _).
Qed.

Lemma winv_complete : forall s, 0 < T -> winv s -> (forall t, t < T -> w_pc s t = WDone) -> w_out s = seq f (l - f).
Proof.
  intros s T0 (D & _ & [P|P]) Dn; [|now destruct P as (_ & _ & -> & _)].
  exfalso. destruct P as (h & cur & A1 & A2 & A3 & A4 & A5 & A6 & A7 & A8 & A9).
  specialize (D 0 (Dn 0 T0)).
  destruct A2 as [A2|A2]; [lia|].
  destruct A5 as [[E A5]|[E (t0 & B1 & B2 & B3)]].
  - destruct (A8 cur) as (t & Y & Z); [lia|]. rewrite Dn in Z by auto. destruct Z as [Z|[Z|Z]]; easy.
  - rewrite Dn in B2 by auto. destruct B2; easy.
Qed.

(** No deadlock: a thread that has not returned, or some other thread, can move. *)
Lemma winv_progress : forall s, winv s -> reload = false ->
  (exists t, t < T /\ w_pc s t <> WDone) -> exists t, t < T /\ w_pc (wstep t s) t <> w_pc s t.
Proof.
  intros s (D & X & P) RL (t & Ht & Nd). specialize (X RL).
  assert (ST : forall t', (forall b, w_pc s t' <> WWait b) -> w_pc s t' <> WDone -> w_pc (wstep t' s) t' <> w_pc s t').
  { intros t' NW ND. unfold BlockIOM.wstep. destruct (w_pc s t') as [ |b|b|b| |v| | | | ] eqn:PC; cbn [w_goto w_pc];
      try (rewrite nupd_same); try discriminate.
    - destruct (Nat.ltb_spec (w_nc s) n); [|easy].
      destruct (alloc (w_nc s)) eqn:A; [easy|exfalso].
      assert (alloc (w_nc s) = true); [|congruence]. destruct P as [P|P].
      + destruct P as (h & cur & A1 & A2 & A3 & _). apply AL; lia.
      + destruct P; lia.
    - now elim (NW b).
    - rewrite RL. destruct (w_nw s <? n); cbn [w_goto w_pc]; rewrite nupd_same; [destruct (alloc _)|]; easy.
    - now destruct (X t').
    - easy.
    - now destruct (X t'). }
  assert (WT : (exists b, w_pc s t = WWait b) \/ forall b, w_pc s t <> WWait b).
  { destruct (w_pc s t); try (right; discriminate). left; eauto. }
  destruct WT as [[b WT]|WT]; [|exists t; auto].
  destruct P as [P|P].
  2:{ exfalso. destruct P as (_ & _ & _ & B4 & _). apply (B4 t b). rewrite WT. right; now left. }
  destruct P as (h & cur & A1 & A2 & A3 & A4 & A5 & A6 & A7 & A8 & A9).
  assert (cur <= b < h) by (apply (A6 t); rewrite WT; right; now left).
  destruct A5 as [[E A5]|[E (t0 & B1 & B2 & B3)]].
  - destruct (A8 cur) as (t' & Ht' & Hh); [lia|]. exists t'. split; auto.
    destruct Hh as [Hh|[Hh|Hh]].
    + apply ST; rewrite Hh; easy.
    + unfold BlockIOM.wstep. rewrite Hh. rewrite (proj2 (Nat.eqb_eq _ _)) by lia.
      cbn [w_goto w_pc]. rewrite nupd_same. discriminate.
    + apply ST; rewrite Hh; easy.
  - exists t0. split; auto. apply ST; destruct B2 as [-> | ->]; easy.
Qed.
End NoGap.
