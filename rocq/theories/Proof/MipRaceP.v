(** Concurrent stores into one block. *)
From Coq Require Import Arith List Bool Lia.
From Verif Require Import Model.Base Model.MipRaceM Spec.MipRaceSpec Proof.BaseP Proof.MipP.
Import ListNotations.

Lemma list_set_mid {A} (l1 l2 : list A) x y i : length l1 = i -> list_set (l1 ++ x :: l2) i y = l1 ++ y :: l2.
Proof. revert i. induction l1 as [|z l1 IH]; intros i <-; cbn; auto. rewrite IH; auto. Qed.

Section P.
Context {V : Type}.
Variables (n : nat) (e : V).
Implicit Types (m : nat -> V) (l : list (nat * V)) (s : shared V).

Lemma after_ext l : forall m m' c, (m c = m' c) -> after_writes m l c = after_writes m' l c.
Proof.
  induction l as [|j l IH]; intros m m' c H; cbn; auto. apply IH. unfold store. destruct (c =? fst j); auto.
Qed.
Lemma after_app m l1 l2 c : after_writes m (l1 ++ l2) c = after_writes (after_writes m l1) l2 c.
Proof. unfold after_writes. rewrite fold_left_app. reflexivity. Qed.
Lemma after_out l : forall m c, ~ In c (map fst l) -> after_writes m l c = m c.
Proof.
  induction l as [|j l IH]; intros m c H; auto. cbn in H.
  change (after_writes m (j :: l) c) with (after_writes (store m j) l c). rewrite IH by tauto. unfold store.
  destruct (Nat.eqb_spec c (fst j)) as [->|]; tauto.
Qed.
(** A store may be moved to the front past stores into other cells. *)
Lemma after_front m l1 c v l2 k : ~ In c (map fst l1) ->
  after_writes m (l1 ++ (c, v) :: l2) k = after_writes (store m (c, v)) (l1 ++ l2) k.
Proof.
  intros H. rewrite !after_app.
  change (after_writes (store (after_writes m l1) (c, v)) l2 k = after_writes (after_writes (store m (c, v)) l1) l2 k).
  apply after_ext. unfold store at 1. cbn [fst snd].
  destruct (Nat.eqb_spec k c) as [->|N].
  - rewrite after_out by auto. unfold store. cbn. rewrite Nat.eqb_refl. reflexivity.
  - apply after_ext. unfold store. cbn. destruct (Nat.eqb_spec k c); tauto.
Qed.

Definition filled s m : Prop :=
  sh_flag s = true /\ exists a cells, sh_data s = Some a /\ nth_error (sh_heap s) a = Some (Some cells) /\
    length cells = n /\ forall c, c < n -> nth_error cells c = Some (Some (m c)).
Definition calm s (w : writer V) : Prop :=
  inside n (w_jobs w) /\ (w_pc w = WCheck \/ w_pc w = WPtr \/ exists a, sh_data s = Some a /\ w_pc w = WStore a).
Definition jobs_of (ws : list (writer V)) := map w_jobs ws.
Definition ready (tgt : nat -> V) (st : race_state (V := V)) : Prop :=
  exists m, filled (fst st) m /\ Forall (calm (fst st)) (snd st) /\ separate (jobs_of (snd st)) /\
    forall c, after_writes m (concat (jobs_of (snd st))) c = tgt c.

Lemma filled_store s m a c v : filled s m -> c < n -> sh_data s = Some a ->
  exists h, heap_store (sh_heap s) a c v = Ok h /\
    filled (Shared (sh_flag s) (sh_data s) h (sh_lock s)) (store m (c, v)).
Proof.
  intros (F & a' & cells & D & Hh & L & C) Lc D'. assert (a' = a) by congruence. subst a'.
  assert (La : a < length (sh_heap s)) by (apply nth_error_Some; congruence).
  unfold heap_store. rewrite Hh, L. apply Nat.ltb_lt in Lc as Lb. rewrite Lb. eexists. split; [reflexivity|].
  split; [exact F|]. exists a, (list_set cells c (Some v)). cbn [sh_data sh_heap]. split; auto.
  split; [apply list_set_same; auto|]. split; [rewrite list_set_length; auto|].
  intros k K. unfold store. cbn. destruct (Nat.eqb_spec k c) as [->|N].
  - apply list_set_same. lia.
  - rewrite list_set_other by auto. auto.
Qed.

Lemma separate_shrink ws1 (w w' : writer V) ws2 :
  separate (jobs_of (ws1 ++ w :: ws2)) -> (forall c, In c (map fst (w_jobs w')) -> In c (map fst (w_jobs w))) ->
  separate (jobs_of (ws1 ++ w' :: ws2)).
Proof.
  intros S H i j li lj c N Ei Ej. unfold jobs_of in *.
  assert (K : forall i0 l0, nth_error (map w_jobs (ws1 ++ w' :: ws2)) i0 = Some l0 ->
    exists l1, nth_error (map w_jobs (ws1 ++ w :: ws2)) i0 = Some l1 /\ forall c, In c (map fst l0) -> In c (map fst l1)).
  { intros i0 l0 E. rewrite map_app in *. cbn [map] in *. destruct (le_lt_dec (length (map w_jobs ws1)) i0) as [L|L].
    - rewrite nth_error_app2 in * by auto. destruct (i0 - length (map w_jobs ws1)) as [|q]; cbn in *.
      + injection E as <-. eexists. split; [reflexivity|]. auto.
      + exists l0. split; auto.
    - rewrite nth_error_app1 in * by auto. exists l0. auto. }
  destruct (K i li Ei) as (li' & Ei' & Si), (K j lj Ej) as (lj' & Ej' & Sj). intros I1 I2.
  exact (S i j li' lj' c N Ei' Ej' (Si c I1) (Sj c I2)).
Qed.
Lemma separate_others ws1 (w : writer V) ws2 c : separate (jobs_of (ws1 ++ w :: ws2)) -> In c (map fst (w_jobs w)) ->
  ~ In c (map fst (concat (jobs_of ws1))).
Proof.
  intros S I J. apply in_map_iff in J as (j & Ej & J). apply in_concat in J as (l & Il & J).
  apply In_nth_error in Il as (q & Q). unfold jobs_of in *. assert (Lq : q < length (map w_jobs ws1)) by (apply nth_error_Some; congruence).
  apply (S q (length (map w_jobs ws1)) l (w_jobs w) c); auto.
  - lia.
  - rewrite map_app, nth_error_app1; auto.
  - rewrite map_app, nth_error_app2, Nat.sub_diag by auto. reflexivity.
  - apply in_map_iff. exists j. auto.
Qed.

Lemma ready_step tgt i st : ready tgt st -> exists st', race_step n e i st = Ok st' /\ ready tgt st'.
Proof.
  intros (m & F & C & S & T). destruct st as [s ws]. unfold race_step. cbn [fst snd] in *.
  destruct (nth_error ws i) as [[pc jobs]|] eqn:E; [|exists (s, ws); split; auto; exists m; auto].
  destruct jobs as [|[c v] rest]; [exists (s, ws); split; auto; exists m; auto|].
  apply nth_error_split in E as (ws1 & ws2 & -> & L).
  pose proof C as C'. apply Forall_app in C' as [C1 C2]. apply Forall_cons_iff in C2 as [[In1 PC] C2]. cbn [w_pc w_jobs] in *.
  assert (Lc : c < n) by (apply (In1 c v); left; auto).
  assert (Mv : forall pc', (pc' = WCheck \/ pc' = WPtr \/ exists a, sh_data s = Some a /\ pc' = WStore a) ->
    ready tgt (s, list_set (ws1 ++ Writer pc ((c, v) :: rest) :: ws2) i (Writer pc' ((c, v) :: rest)))).
  { intros pc' P. exists m. cbn [fst snd]. rewrite list_set_mid by auto. split; auto. split; [|split].
    - apply Forall_app. split; auto. constructor; auto. split; auto.
    - eapply separate_shrink; [exact S|]. auto.
    - intros k. specialize (T k). unfold jobs_of in *. rewrite map_app in *. cbn [map w_jobs] in *. auto. }
  destruct F as (F & a & cells & D & Fr). destruct PC as [-> | [-> | (a' & D' & ->)]].
  - cbn [writer_step]. rewrite F. cbn [bind]. eexists. split; [reflexivity|]. apply Mv. auto.
  - cbn [writer_step]. rewrite D. cbn [bind]. eexists. split; [reflexivity|]. apply Mv. right. right. exists a. auto.
  - cbn [writer_step]. destruct (filled_store s m a' c v) as (h & -> & F'); auto; [split; auto; exists a, cells; auto|].
    cbn [bind]. eexists. split; [reflexivity|]. exists (store m (c, v)). cbn [fst snd]. rewrite list_set_mid by auto.
    split; auto. split; [|split].
    + assert (Ca : forall w, calm s w -> calm (Shared (sh_flag s) (sh_data s) h (sh_lock s)) w) by (intros w [W1 W2]; split; auto).
      apply Forall_app. split; [eapply Forall_impl; [apply Ca|auto]|]. constructor; [|eapply Forall_impl; [apply Ca|auto]].
      split; cbn; auto. intros k u K. apply (In1 k u). right. auto.
    + eapply separate_shrink; [exact S|]. cbn. auto.
    + intros k. rewrite <- T. unfold jobs_of in *. rewrite !map_app. cbn [map w_jobs]. rewrite !concat_app. cbn [concat].
      rewrite <- app_comm_cons. rewrite after_front; auto.
      apply (separate_others ws1 (Writer (WStore a') ((c, v) :: rest)) ws2 c S). left. auto.
Qed.
Lemma ready_run tgt sched : forall st, ready tgt st -> exists st', race_run n e sched st = Ok st' /\ ready tgt st'.
Proof.
  induction sched as [|i t IH]; intros st R; cbn [race_run]; [exists st; auto|].
  destruct (ready_step tgt i st R) as (st' & -> & R'). cbn [bind]. auto.
Qed.
Lemma ready_read tgt s ws : ready tgt (s, ws) -> (forall w, In w ws -> w_jobs w = []) ->
  forall c, c < n -> read_cell e s c = Ok (tgt c).
Proof.
  intros (m & (F & a & cells & D & Hh & L & C) & _ & _ & T) Dn c Lc. cbn [fst snd] in *. unfold read_cell.
  rewrite F, D, Hh, C by auto. f_equal. rewrite <- T.
  assert (concat (jobs_of ws) = []) as ->; [|reflexivity].
  unfold jobs_of. induction ws as [|w ws IH]; cbn; auto. rewrite (Dn w) by (left; auto). cbn. apply IH.
  - intros c0. specialize (T c0). rewrite <- T. cbn. rewrite (Dn w) by (left; auto). reflexivity.
  - intros w' W. apply Dn. right. auto.
Qed.

(** * One thread, any block *)
Variables (i : nat) (jobs : list (nat * V)).
Definition alone_at (w : writer V) (ws : list (writer V)) : Prop :=
  nth_error ws i = Some w /\ forall j w', j <> i -> nth_error ws j = Some w' -> w_jobs w' = [].
Definition lone (st : race_state (V := V)) : Prop :=
  let (s, ws) := st in
  (exists pc, alone_at (Writer pc jobs) ws /\
    match pc with
    | WCheck | WLock => s = Shared false None [] false
    | WFree | WNew => s = Shared false None [] true
    | WFlag => s = Shared false (Some 0) [Some (repeat None n)] true
    | WFill j => exists cells, s = Shared true (Some 0) [Some cells] true /\ length cells = n /\
        forall c, c < j -> nth_error cells c = Some (Some e)
    | _ => False
    end) \/
  (exists m pc rest, filled s m /\ alone_at (Writer pc rest) ws /\ calm s (Writer pc rest) /\
    forall c, c < n -> after_writes m rest c = after_writes (fun _ => e) jobs c).

Lemma alone_set w w' ws : alone_at w ws -> alone_at w' (list_set ws i w').
Proof.
  intros [H1 H2]. assert (i < length ws) by (apply nth_error_Some; congruence). split; [apply list_set_same; auto|].
  intros j u N E. rewrite list_set_other in E by auto. eauto.
Qed.

Lemma lone_step j st : inside n jobs -> lone st -> exists st', race_step n e j st = Ok st' /\ lone st'.
Proof.
  intros In0 Ln. destruct st as [s ws]. cbn [lone] in Ln. unfold race_step.
  destruct (Nat.eq_dec j i) as [->|N].
  2: { assert (Idle : nth_error ws j = None \/ exists w, nth_error ws j = Some w /\ w_jobs w = []).
       { destruct (nth_error ws j) as [w|] eqn:E; auto. right. exists w. split; auto.
         destruct Ln as [(pc & [_ A] & _)|(m & pc & rest & _ & [_ A] & _)]; eapply A; eauto. }
       exists (s, ws). split; [|exact Ln]. destruct Idle as [-> |(w & -> & W)]; auto. destruct w as [pc l]. cbn in W. subst. auto. }
  destruct Ln as [(pc & A & P)|(m & pc & rest & F & A & C & T)].
  - rewrite (proj1 A). destruct jobs as [|[c v] rest] eqn:J.
    + exists (s, ws). split; auto. left. exists pc. subst. auto.
    + rewrite <- J in *. destruct pc as [| | | | |k| |]; cbn [writer_step]; try contradiction.
      * subst s. cbn. eexists. split; [reflexivity|]. left. exists WLock. rewrite <- J. split; [eapply alone_set; eauto|reflexivity].
      * subst s. cbn. eexists. split; [reflexivity|]. left. exists WFree. rewrite <- J. split; [eapply alone_set; eauto|reflexivity].
      * subst s. cbn. eexists. split; [reflexivity|]. left. exists WNew. rewrite <- J. split; [eapply alone_set; eauto|reflexivity].
      * subst s. cbn. eexists. split; [reflexivity|]. left. exists WFlag. rewrite <- J. split; [eapply alone_set; eauto|reflexivity].
      * subst s. cbn. eexists. split; [reflexivity|]. left. exists (WFill 0). rewrite <- J. split; [eapply alone_set; eauto|].
        exists (repeat None n). split; auto. split; [apply repeat_length|]. intros c0 L. lia.
      * destruct P as (cells & -> & L & P). cbn [sh_data sh_heap sh_flag sh_lock]. destruct (Nat.ltb_spec k n) as [Lk|Lk].
        -- unfold heap_store. cbn [nth_error]. rewrite L. apply Nat.ltb_lt in Lk as Lb. rewrite Lb. cbn [bind list_set].
           eexists. split; [reflexivity|]. left. exists (WFill (S k)). rewrite <- J. split; [eapply alone_set; eauto|].
           exists (list_set cells k (Some e)). split; auto. split; [rewrite list_set_length; auto|].
           intros c0 L0. destruct (Nat.eq_dec c0 k) as [->|Nk]; [apply list_set_same; lia|]. rewrite list_set_other by auto. apply P. lia.
        -- cbn [bind]. eexists. split; [reflexivity|]. right. exists (fun _ => e), WPtr, jobs. split; [|split; [|split]].
           ++ split; auto. exists 0, cells. cbn. split; auto. split; auto. split; auto. intros c0 L0. apply P. lia.
           ++ rewrite <- J. eapply alone_set; eauto.
           ++ split; cbn; auto.
           ++ auto.
  - rewrite (proj1 A). destruct rest as [|[c v] rest]; [exists (s, ws); split; auto; right; exists m, pc, []; auto|].
    destruct C as [C1 C2]. cbn [w_jobs w_pc] in *. assert (Lc : c < n) by (apply (C1 c v); left; auto).
    pose proof F as (Fl & a & cells & D & Fr). destruct C2 as [-> |[-> |(a' & D' & ->)]]; cbn [writer_step].
    + rewrite Fl. cbn [bind]. eexists. split; [reflexivity|]. right. exists m, WPtr, ((c, v) :: rest).
      split; auto. split; [eapply alone_set; eauto|]. split; auto. split; auto.
    + rewrite D. cbn [bind]. eexists. split; [reflexivity|]. right. exists m, (WStore a), ((c, v) :: rest).
      split; auto. split; [eapply alone_set; eauto|]. split; auto. split; auto. right. right. exists a. auto.
    + destruct (filled_store s m a' c v F Lc D') as (h & -> & F'). cbn [bind]. eexists. split; [reflexivity|]. right.
      exists (store m (c, v)), WCheck, rest. split; auto. split; [eapply alone_set; eauto|]. split; auto.
      split; cbn; auto. intros k u K. apply (C1 k u). right. auto.
Qed.
Lemma lone_run sched : inside n jobs -> forall st, lone st -> exists st', race_run n e sched st = Ok st' /\ lone st'.
Proof.
  intros In0. induction sched as [|j t IH]; intros st L; cbn [race_run]; [exists st; auto|].
  destruct (lone_step j st In0 L) as (st' & -> & L'). cbn [bind]. auto.
Qed.
Lemma lone_read s ws : jobs <> [] -> lone (s, ws) -> (forall w, In w ws -> w_jobs w = []) ->
  forall c, c < n -> read_cell e s c = Ok (after_writes (fun _ => e) jobs c).
Proof.
  intros NE [(pc & [A _] & _)|(m & pc & rest & (F & a & cells & D & Hh & L & C) & [A _] & _ & T)] Dn c Lc.
  - apply nth_error_In in A. apply Dn in A. contradiction.
  - apply nth_error_In in A. apply Dn in A. cbn in A. subst rest. unfold read_cell. rewrite F, D, Hh, C by auto.
    f_equal. rewrite <- T by auto. reflexivity.
Qed.
End P.
