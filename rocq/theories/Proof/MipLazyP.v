(** Lazy loading of MIP levels. *)
From Coq Require Import Arith List Bool Lia.
From Verif Require Import Model.Base Model.MipLazyM Proof.BaseP Proof.MipP.
Import ListNotations.

Definition cnt (s : mipf) (l : nat) : nat := count_occ Nat.eq_dec (mf_log s) l.
(** What is stored about a level. *)
Definition lev (s : mipf) (l : nat) (f r : option nat) (a : bool) (c : nat) : Prop :=
  nth_error (mf_fields s) l = Some f /\ nth_error (mf_raw s) l = Some r /\ nth_error (mf_actions s) l = Some a /\ cnt s l = c.
Definition missing (s : mipf) (l : nat) : Prop := lev s l None None true 0.
Definition built (s : mipf) (l id : nat) (r : option nat) (a sy m : bool) : Prop :=
  lev s l (Some id) r a 1 /\ nth_error (mf_heap s) id = Some (LObj l sy m).
Definition complete (s : mipf) (l : nat) : Prop := exists id, built s l id (Some id) false true true.
Definition plain (s : mipf) (l : nat) : Prop := missing s l \/ complete s l.
Definition shown (s : mipf) (l id : nat) : Prop :=
  nth_error (mf_fields s) l = Some (Some id) /\ nth_error (mf_raw s) l = Some (Some id) /\
  exists o, nth_error (mf_heap s) id = Some o /\ lo_level o = l.

Definition stage (s : mipf) (l : nat) (pc : lpc) : Prop :=
  match pc with
  | LCheck2 => plain s l
  | LLoading => missing s l
  | LReset => exists id, built s l id None true false false
  | LAux j => exists id, built s l id (if l <? j then Some id else None) false false false
  | LSync => exists id, built s l id (Some id) false false false
  | LMap => exists id, built s l id (Some id) false true false
  | LUnlock => complete s l
  | _ => False
  end.
Definition quiet (s : mipf) (t : lthread) : Prop :=
  match lt_pc t with
  | LCheck0 | LCheck1 | LLock => True
  | LReturn => match lt_todo t with l :: _ => exists id, shown s l id | [] => True end
  | _ => False
  end.

Section P.
Variables (n : nat) (asked : nat -> Prop) (reqs : list (list nat)).
Hypothesis Req : forall r l, In r reqs -> In l r -> l < n /\ asked l.

Definition answered (s : mipf) (x : nat * outcome) : Prop :=
  match snd x with Threw => True | Got id o => shown s (fst x) id /\ lo_level o = fst x end.
Definition thread_ok (s : mipf) (i : nat) (t : lthread) : Prop :=
  nth_error reqs i = Some (map fst (lt_results t) ++ lt_todo t) /\ forall x, In x (lt_results t) -> answered s x.
Definition lens (s : mipf) : Prop := length (mf_fields s) = n /\ length (mf_raw s) = n /\ length (mf_actions s) = n.
Definition free (s : mipf) (ts : list lthread) : Prop :=
  mf_lock s = false /\ (forall i t, nth_error ts i = Some t -> quiet s t) /\ forall l, l < n -> plain s l.
Definition held (s : mipf) (ts : list lthread) (i : nat) (pc : lpc) (l : nat) : Prop :=
  mf_lock s = true /\ (exists rest done, nth_error ts i = Some (LThread pc (l :: rest) done)) /\ l < n /\
  (forall j t, j <> i -> nth_error ts j = Some t -> quiet s t) /\ stage s l pc /\
  forall l', l' < n -> l' <> l -> plain s l'.
Record linv (st : lazy_state) : Prop := {
  li_len : lens (fst st);
  li_thr : forall i t, nth_error (snd st) i = Some t -> thread_ok (fst st) i t;
  li_log : forall l, In l (mf_log (fst st)) -> asked l /\ l < n;
  li_own : free (fst st) (snd st) \/ exists i pc l, held (fst st) (snd st) i pc l }.

(** Every raw pointer that is not null is shown. *)
Lemma plain_raw s l : plain s l -> exists r, nth_error (mf_raw s) l = Some r /\ forall id, r = Some id -> shown s l id.
Proof.
  intros [(F & R & _)|(id & (F & R & _) & H)].
  - exists None. split; auto. discriminate.
  - exists (Some id). split; auto. intros id' E. injection E as <-. split; auto. split; auto. eexists. split; [exact H|reflexivity].
Qed.
Lemma stage_raw s l pc : stage s l pc -> exists r, nth_error (mf_raw s) l = Some r /\ forall id, r = Some id -> shown s l id.
Proof.
  assert (B : forall id r a sy m, built s l id r a sy m -> (r = None \/ r = Some id) ->
    exists r, nth_error (mf_raw s) l = Some r /\ forall id, r = Some id -> shown s l id).
  { intros id r a sy m [(F & R & _) H] Cr. exists r. split; auto. intros id' E. destruct Cr as [->| ->]; [discriminate|].
    injection E as <-. split; auto. split; auto. eexists. split; [exact H|reflexivity]. }
  destruct pc; cbn [stage]; try contradiction; intros H.
  - apply plain_raw. auto.
  - apply plain_raw. left. auto.
  - destruct H as (id & H). eapply B; eauto.
  - destruct H as (id & H). eapply B; eauto. destruct (l <? j); auto.
  - destruct H as (id & H). eapply B; eauto.
  - destruct H as (id & H). eapply B; eauto.
  - apply plain_raw. right. auto.
Qed.
Lemma raw_ok st l : linv st -> l < n -> exists r, nth_error (mf_raw (fst st)) l = Some r /\ forall id, r = Some id -> shown (fst st) l id.
Proof.
  intros [_ _ _ [(_ & _ & P)|(i & pc & l0 & _ & _ & _ & _ & S & P)]] L; [apply plain_raw; auto|].
  destruct (Nat.eq_dec l l0) as [->|N]; [eapply stage_raw; eauto|apply plain_raw; auto].
Qed.

(** A step of a thread outside the critical section that does not take the lock. *)
Lemma quiet_step st ok i pc l rest done : linv st -> nth_error (snd st) i = Some (LThread pc (l :: rest) done) ->
  quiet (fst st) (LThread pc (l :: rest) done) -> (pc = LLock -> mf_lock (fst st) = true) ->
  exists t, lazy_step ok (fst st) pc l rest done = Ok (fst st, t) /\ quiet (fst st) t /\ thread_ok (fst st) i t.
Proof.
  intros I E Q Lk. destruct st as [s ts]. cbn [fst snd] in *. pose proof (li_thr _ I i _ E) as (Er & T2). cbn [fst snd lt_todo lt_results] in *.
  assert (L : l < n) by (eapply Req; [eapply nth_error_In; exact Er|apply in_or_app; right; left; auto]).
  destruct (raw_ok _ l I L) as (p & Ep & Sp). cbn [fst] in *.
  assert (K : forall p', thread_ok s i (LThread p' (l :: rest) done)) by (intros p'; split; auto).
  destruct pc; cbn [quiet lt_pc] in Q; try contradiction; cbn [lazy_step]; unfold get_nth; try rewrite Ep; cbn [bind].
  - eexists. split; [reflexivity|]. split; auto. destruct p as [id|]; cbn; auto. eauto.
  - eexists. split; [reflexivity|]. split; auto. destruct p as [id|]; cbn; auto. eauto.
  - rewrite Lk by auto. eexists. split; [reflexivity|]. split; cbn; auto.
  - cbn [lt_todo] in Q. destruct Q as (id & Q). pose proof Q as (F & R & o & H & Lo). assert (p = Some id) as -> by congruence.
    rewrite H. cbn [bind]. eexists. split; [reflexivity|]. split; [cbn; auto|]. split; cbn [lt_todo lt_results].
    + rewrite map_app, <- app_assoc. exact Er.
    + intros x X. apply in_app_or in X as [X|[<-|[]]]; auto. split; auto.
Qed.

Lemma linv_quiet st ok i pc l rest done t : linv st -> nth_error (snd st) i = Some (LThread pc (l :: rest) done) ->
  quiet (fst st) (LThread pc (l :: rest) done) ->
  quiet (fst st) t -> thread_ok (fst st) i t -> lazy_step ok (fst st) pc l rest done = Ok (fst st, t) ->
  linv (fst st, list_set (snd st) i t).
Proof.
  intros I E Q0 Q T _. assert (Li : i < length (snd st)) by (apply nth_error_Some; congruence).
  constructor; cbn [fst snd]; try apply I.
  - intros j u J. apply list_set_get in J as [[-> ->]|J]; auto. apply I. auto.
  - destruct (li_own _ I) as [(L & Qs & P)|(i0 & pc0 & l0 & L & (r0 & d0 & E0) & B & Qs & S & P)].
    + left. split; auto. split; auto. intros j u J. apply list_set_get in J as [[-> ->]|J]; eauto.
    + right. assert (N : i <> i0).
      { intros ->. rewrite E in E0. injection E0 as -> -> -> ->. destruct pc0; cbn in S, Q0; contradiction. }
      exists i0, pc0, l0. split; auto. split; [exists r0, d0; rewrite list_set_other by auto; auto|]. split; auto. split; auto.
      intros j u Nj J. apply list_set_get in J as [[-> ->]|J]; eauto.
Qed.

(** A step of the owner that goes from [s] to [s'] and touches level [l] only. *)
Definition frame (l : nat) (s s' : mipf) : Prop :=
  lens s' /\ (forall l' id, shown s l' id -> shown s' l' id) /\
  (forall l', l' < n -> l' <> l -> plain s l' -> plain s' l') /\
  (forall k, In k (mf_log s') -> In k (mf_log s) \/ k = l).
Lemma quiet_frame l s s' t : frame l s s' -> quiet s t -> quiet s' t.
Proof.
  intros (_ & F & _) Q. unfold quiet in *. destruct (lt_pc t); auto. destruct (lt_todo t) as [|l0 r]; auto.
  destruct Q as (id & Q). eauto.
Qed.
Lemma thread_frame l s s' i t : frame l s s' -> thread_ok s i t -> thread_ok s' i t.
Proof.
  intros (_ & F & _) (Er & T2). split; auto. intros x X. pose proof (T2 x X) as X2.
  unfold answered in *. destruct (snd x); auto. destruct X2. split; auto.
Qed.

Lemma owner_step s ts i pc l s' t rest done : linv (s, ts) -> held s ts i pc l -> nth_error ts i = Some (LThread pc (l :: rest) done) ->
  frame l s s' -> thread_ok s' i t ->
  (mf_lock s' = true /\ (exists pc' rest' done', t = LThread pc' (l :: rest') done' /\ stage s' l pc') \/
   mf_lock s' = false /\ quiet s' t /\ plain s' l) ->
  linv (s', list_set ts i t).
Proof.
  intros I (Lk & _ & B & Qs & S & P) E F T C. assert (Li : i < length ts) by (apply nth_error_Some; congruence).
  pose proof F as (F1 & F2 & F3 & F4).
  constructor; cbn [fst snd]; auto.
  - intros j u J. apply list_set_get in J as [[-> ->]|J]; auto. eapply thread_frame; eauto. apply (li_thr _ I j u J).
  - intros k K. apply F4 in K as [K| ->]; [apply (li_log _ I); auto|].
    destruct (li_thr _ I i _ E) as (Er & _). apply and_comm. eapply Req; [eapply nth_error_In; exact Er|]. apply in_or_app. right. left. auto.
  - assert (Oth : forall j u, j <> i -> nth_error (list_set ts i t) j = Some u -> quiet s' u).
    { intros j u N J. rewrite list_set_other in J by auto. eapply quiet_frame; eauto. }
    destruct C as [(L' & pc' & rest' & done' & -> & S')|(L' & Q' & P')].
    + right. exists i, pc', l. split; auto. split; [exists rest', done'; apply list_set_same; auto|]. split; auto.
    + left. split; auto. split.
      * intros j u J. destruct (Nat.eq_dec j i) as [->|N]; [|eauto]. rewrite list_set_same in J by auto. congruence.
      * intros l' L'1. destruct (Nat.eq_dec l' l) as [->|N]; auto.
Qed.

Lemma cnt_app s l l' : count_occ Nat.eq_dec (mf_log s ++ [l]) l' = cnt s l' + (if Nat.eq_dec l l' then 1 else 0).
Proof. unfold cnt. rewrite count_occ_app. cbn. reflexivity. Qed.

(** The kinds of changes. *)
Lemma frame_lock l s b : lens s -> frame l s (Mipf (mf_fields s) (mf_raw s) (mf_actions s) b (mf_heap s) (mf_log s)).
Proof. intros L. split; [exact L|]. split; [auto|]. split; [auto|]. auto. Qed.
Lemma frame_fail l s b : lens s -> l < n -> missing s l ->
  frame l s (Mipf (list_set (mf_fields s) l None) (mf_raw s) (mf_actions s) b (mf_heap s) (mf_log s)) /\
  missing (Mipf (list_set (mf_fields s) l None) (mf_raw s) (mf_actions s) b (mf_heap s) (mf_log s)) l.
Proof.
  intros (L1 & L2 & L3) Ln (M1 & M2 & M3 & M4). split.
  - split; [split; [cbn; rewrite list_set_length; auto|auto]|]. split; [|split].
    + intros l' id (F & R & o). assert (l' <> l) by congruence. split; [cbn; rewrite list_set_other; auto|]. split; auto.
    + intros l' Ll N [(A1 & A2)|(id & (A1 & A2) & A3)]; [left|right].
      * split; [cbn; rewrite list_set_other; auto|auto].
      * exists id. split; auto. split; [cbn; rewrite list_set_other; auto|auto].
    + auto.
  - split; [cbn; apply list_set_same; lia|]. auto.
Qed.
Lemma frame_load l s b : lens s -> l < n -> missing s l ->
  let s' := Mipf (list_set (mf_fields s) l (Some (length (mf_heap s)))) (mf_raw s) (mf_actions s) b
                 (mf_heap s ++ [LObj l false false]) (mf_log s ++ [l]) in
  frame l s s' /\ built s' l (length (mf_heap s)) None true false false.
Proof.
  intros (L1 & L2 & L3) Ln (M1 & M2 & M3 & M4) s'.
  assert (Hp : forall id o, nth_error (mf_heap s) id = Some o -> nth_error (mf_heap s') id = Some o).
  { intros id o H. unfold s'. cbn. rewrite nth_error_app1; auto. apply nth_error_Some. congruence. }
  split.
  - split; [split; [cbn; rewrite list_set_length; auto|auto]|]. split; [|split].
    + intros l' id (F & R & o & O1 & O2). assert (l' <> l) by congruence. split; [cbn; rewrite list_set_other; auto|]. split; auto.
      exists o. auto.
    + intros l' Ll N [(A1 & A2 & A3 & A4)|(id & (A1 & A2 & A3 & A4) & A5)]; [left|right].
      * split; [cbn; rewrite list_set_other; auto|]. split; auto. split; auto. unfold cnt. cbn. rewrite cnt_app, A4.
        destruct (Nat.eq_dec l l'); [congruence|auto].
      * exists id. split; auto. split; [cbn; rewrite list_set_other; auto|]. split; auto. split; auto. unfold cnt. cbn. rewrite cnt_app, A4.
        destruct (Nat.eq_dec l l'); [congruence|auto].
    + intros k K. cbn in K. apply in_app_or in K as [K|[K|[]]]; auto.
  - split.
    + split; [cbn; apply list_set_same; lia|]. split; auto. split; auto. unfold cnt. cbn. rewrite cnt_app, M4.
      destruct (Nat.eq_dec l l); [auto|congruence].
    + cbn. rewrite nth_error_app2, Nat.sub_diag by auto. reflexivity.
Qed.
Lemma frame_reset l s id : lens s -> l < n -> built s l id None true false false ->
  let s' := Mipf (mf_fields s) (mf_raw s) (list_set (mf_actions s) l false) (mf_lock s) (mf_heap s) (mf_log s) in
  frame l s s' /\ built s' l id None false false false.
Proof.
  intros (L1 & L2 & L3) Ln ((M1 & M2 & M3 & M4) & M5) s'. split.
  - split; [split; [auto|split; [auto|cbn; rewrite list_set_length; auto]]|]. split; [auto|split; [|auto]].
    intros l' Ll N [(A1 & A2 & A3 & A4)|(id' & (A1 & A2 & A3 & A4) & A5)]; [left|right].
    + split; auto. split; auto. split; auto. cbn. rewrite list_set_other; auto.
    + exists id'. split; auto. split; auto. split; auto. split; auto. cbn. rewrite list_set_other; auto.
  - split; auto. split; auto. split; auto. split; auto. cbn. apply list_set_same. lia.
Qed.
(** Publishing level [j]. *)
Lemma frame_aux l s id j p : lens s -> l < n -> (forall l', l' < n -> l' <> l -> plain s l') ->
  built s l id (if l <? j then Some id else None) false false false -> nth_error (mf_fields s) j = Some p ->
  let s' := Mipf (mf_fields s) (list_set (mf_raw s) j p) (mf_actions s) (mf_lock s) (mf_heap s) (mf_log s) in
  frame l s s' /\ built s' l id (if l <? S j then Some id else None) false false false.
Proof.
  intros (L1 & L2 & L3) Ln P ((M1 & M2 & M3 & M4) & M5) Ej s'.
  assert (Lj : j < n) by (rewrite <- L1; apply nth_error_Some; congruence). split.
  - split; [split; [auto|split; [cbn; rewrite list_set_length; auto|auto]]|]. split; [|split; [|auto]].
    + intros l' id' (F & R & O'). split; auto. split; auto. cbn. destruct (Nat.eq_dec l' j) as [->|N].
      * rewrite list_set_same by lia. congruence.
      * rewrite list_set_other; auto.
    + intros l' Ll N [(A1 & A2 & A3 & A4)|(id' & (A1 & A2 & A3 & A4) & A5)]; [left|right].
      * split; auto. split; auto. cbn. destruct (Nat.eq_dec l' j) as [->|Nj]; [rewrite list_set_same by lia; congruence|rewrite list_set_other; auto].
      * exists id'. split; auto. split; auto. split; auto. cbn.
        destruct (Nat.eq_dec l' j) as [->|Nj]; [rewrite list_set_same by lia; congruence|rewrite list_set_other; auto].
  - split; auto. split; auto. split; auto. unfold s'. cbn [mf_raw]. destruct (Nat.eq_dec l j) as [->|N].
    + rewrite list_set_same by lia. replace (j <? S j) with true by (symmetry; apply Nat.ltb_lt; lia). congruence.
    + rewrite list_set_other by auto. rewrite M2. f_equal. destruct (Nat.ltb_spec l j), (Nat.ltb_spec l (S j)); auto; lia.
Qed.
(** Changing the object of level [l]. *)
Lemma frame_obj l s id sy m sy' m' : lens s -> l < n -> (forall l', l' < n -> l' <> l -> plain s l') ->
  built s l id (Some id) false sy m ->
  let s' := Mipf (mf_fields s) (mf_raw s) (mf_actions s) (mf_lock s) (list_set (mf_heap s) id (LObj l sy' m')) (mf_log s) in
  frame l s s' /\ built s' l id (Some id) false sy' m'.
Proof.
  intros L Ln P ((M1 & M2 & M3 & M4) & M5) s'. assert (Li : id < length (mf_heap s)) by (apply nth_error_Some; congruence). split.
  - split; [exact L|]. split; [|split; [|auto]].
    + intros l' id' (F & R & o & O1 & O2). split; auto. split; auto. cbn. destruct (Nat.eq_dec id' id) as [->|N].
      * rewrite list_set_same by auto. eexists. split; [reflexivity|]. cbn. rewrite M5 in O1. injection O1 as <-. auto.
      * rewrite list_set_other by auto. eauto.
    + intros l' Ll N [A|(id' & A & A5)]; [left; auto|right]. exists id'. split; auto. cbn. rewrite list_set_other; auto. congruence.
  - split; [split; auto|]. cbn. apply list_set_same. auto.
Qed.

Lemma linv_step e st : linv st -> exists st', lstep e st = Ok st' /\ linv st'.
Proof.
  intros I. destruct st as [s ts], e as [i ok]. unfold lstep. cbn [fst snd].
  destruct (nth_error ts i) as [[pc [|l rest] done]|] eqn:E; [exists (s, ts); auto| |exists (s, ts); auto].
  pose proof (li_thr _ I i _ E) as (Er & T2). cbn [fst snd lt_todo lt_results] in *.
  assert (Ll : l < n) by (eapply Req; [eapply nth_error_In; exact Er|apply in_or_app; right; left; auto]).
  assert (Quiet : quiet s (LThread pc (l :: rest) done) -> (pc = LLock -> mf_lock s = true) ->
    exists st', (let* (s', t) := lazy_step ok s pc l rest done in Ok (s', list_set ts i t)) = Ok st' /\ linv st').
  { intros Q Lk. destruct (quiet_step (s, ts) ok i pc l rest done I E Q Lk) as (t & Et & Q' & T'). cbn [fst snd] in *.
    rewrite Et. cbn [bind]. eexists. split; [reflexivity|]. apply (linv_quiet (s, ts) ok i pc l rest done t); auto. }
  destruct (li_own _ I) as [(Lk & Qs & P)|(i0 & pc0 & l0 & H)]; cbn [fst snd] in *.
  - assert (Q : quiet s (LThread pc (l :: rest) done)) by (eapply Qs; eauto).
    destruct pc; try (apply Quiet; [exact Q|discriminate]).
    (* taking the lock *) cbn [lazy_step]. rewrite Lk. cbn [bind]. eexists. split; [reflexivity|].
    assert (Li : i < length ts) by (apply nth_error_Some; congruence).
    constructor; cbn [fst snd]; try apply I.
    + intros j t J. apply list_set_get in J as [[-> ->]|J]; [split; auto|]. apply (li_thr _ I j t J).
    + right. exists i, LCheck2, l. split; auto. split; [exists rest, done; apply list_set_same; auto|]. split; auto.
      split; [|split; [apply (P l Ll)|intros l' Hl _; apply (P l' Hl)]].
      intros j t N J. rewrite list_set_other in J by auto. apply (Qs j t J).
  - pose proof H as (Lk & (r0 & d0 & E0) & B & Qs & S & P).
    destruct (Nat.eq_dec i i0) as [<-|N].
    2: { apply Quiet; [apply (Qs i); auto|auto]. }
    rewrite E in E0. injection E0 as -> -> -> ->. pose proof (li_len _ I) as Le. cbn [fst] in Le.
    assert (K : forall s' p, frame l0 s s' -> thread_ok s' i (LThread p (l0 :: r0) d0)).
    { intros s' p F. eapply thread_frame; [exact F|]. split; auto. }
    destruct pc0; cbn [stage] in S; try contradiction; cbn [lazy_step]; unfold get_nth.
    + (* LCheck2 *) destruct (plain_raw s l0 S) as (p & Ep & Sp). rewrite Ep. cbn [bind]. eexists. split; [reflexivity|].
      assert (Fr : frame l0 s s) by (split; [exact Le|]; split; auto).
      eapply owner_step; eauto. left. split; auto. destruct S as [S|S].
      * destruct S as (S1 & S2 & S3). assert (p = None) as -> by congruence. do 3 eexists. split; [reflexivity|]. split; auto.
      * pose proof S as (id & (S1 & S2 & _) & _). assert (p = Some id) as -> by congruence. do 3 eexists. split; [reflexivity|]. exact S.
    + (* LLoading *) pose proof S as (_ & _ & S3 & _). rewrite S3. cbn [bind negb]. destruct ok; cbn [bind].
      * eexists. split; [reflexivity|]. destruct (frame_load l0 s (mf_lock s) Le Ll S) as [F Bu].
        eapply owner_step; eauto. left. split; auto. do 3 eexists. split; [reflexivity|]. exists (length (mf_heap s)). exact Bu.
      * eexists. split; [reflexivity|]. destruct (frame_fail l0 s false Le Ll S) as [F M].
        eapply owner_step; eauto.
        -- destruct (K _ LCheck0 F) as (Er' & K2). split; cbn [lt_todo lt_results] in *; [rewrite map_app, <- app_assoc; exact Er'|].
           intros x X. apply in_app_or in X as [X|[<-|[]]]; auto. exact Logic.I.
        -- right. split; auto. split; [exact Logic.I|]. left. exact M.
    + (* LReset *) cbn [bind]. eexists. split; [reflexivity|]. destruct S as (id & S). destruct (frame_reset l0 s id Le Ll S) as [F Bu].
      eapply owner_step; eauto. left. split; auto. do 3 eexists. split; [reflexivity|]. exists id. exact Bu.
    + (* LAux *) destruct S as (id & S). destruct (nth_error (mf_fields s) j) as [p|] eqn:Ej; cbn [bind].
      * eexists. split; [reflexivity|]. destruct (frame_aux l0 s id j p Le Ll P S Ej) as [F Bu].
        eapply owner_step; eauto. left. split; auto. do 3 eexists. split; [reflexivity|]. exists id. exact Bu.
      * eexists. split; [reflexivity|]. assert (Fr : frame l0 s s) by (split; [exact Le|]; split; auto).
        eapply owner_step; eauto. left. split; auto. do 3 eexists. split; [reflexivity|]. exists id.
        apply nth_error_None in Ej. replace (l0 <? j) with true in S; auto. symmetry. apply Nat.ltb_lt. destruct Le. lia.
    + (* LSync *) destruct S as (id & S). pose proof S as ((S1 & _) & S5). rewrite S1. cbn [bind]. unfold change_obj, get_nth. rewrite S5. cbn [bind lo_level lo_mapped].
      eexists. split; [reflexivity|]. destruct (frame_obj l0 s id _ _ true false Le Ll P S) as [F Bu].
      eapply owner_step; eauto. left. split; auto. do 3 eexists. split; [reflexivity|]. exists id. exact Bu.
    + (* LMap *) destruct S as (id & S). pose proof S as ((S1 & _) & S5). rewrite S1. cbn [bind]. unfold change_obj, get_nth. rewrite S5. cbn [bind lo_level lo_synced].
      eexists. split; [reflexivity|]. destruct (frame_obj l0 s id _ _ true true Le Ll P S) as [F Bu].
      eapply owner_step; eauto. left. split; auto. do 3 eexists. split; [reflexivity|]. exists id. exact Bu.
    + (* LUnlock *) cbn [bind]. eexists. split; [reflexivity|]. pose proof (frame_lock l0 s false Le) as F.
      eapply owner_step; eauto. right. split; auto. split; [|right; exact S]. cbn. destruct S as (id & (S1 & S2 & _) & S5). exists id.
      split; auto. split; auto. eexists. split; [exact S5|reflexivity].
Qed.
Lemma linv_run sched : forall st, linv st -> exists st', lrun sched st = Ok st' /\ linv st'.
Proof.
  induction sched as [|e t IH]; intros st I; cbn [lrun]; [exists st; auto|].
  destruct (linv_step e st I) as (st' & -> & I'). cbn [bind]. auto.
Qed.
Lemma nth_repeat_lt {A} (x : A) m i : i < m -> nth_error (repeat x m) i = Some x.
Proof. revert i. induction m; intros i L; [lia|]. destruct i; cbn; auto. apply IHm. lia. Qed.
Lemma linv_init : linv (setup_lazy n, callers reqs).
Proof.
  constructor; cbn [fst snd].
  - split; [|split]; apply repeat_length.
  - intros i t E. unfold callers in E. rewrite nth_error_map in E. destruct (nth_error reqs i) as [r|] eqn:Er; [|discriminate].
    injection E as <-. split; auto. intros x [].
  - intros l [].
  - left. split; auto. split.
    + intros i t E. unfold callers in E. rewrite nth_error_map in E. destruct (nth_error reqs i); [|discriminate]. injection E as <-. exact Logic.I.
    + intros l L. left. unfold missing, lev, setup_lazy. cbn. rewrite !nth_repeat_lt by auto. auto.
Qed.

(** Progress: every step that can be taken brings the end nearer. *)
Definition rank (pc : lpc) : nat :=
  match pc with
  | LCheck0 => n + 20 | LCheck1 => n + 19 | LLock => n + 18 | LCheck2 => n + 17 | LLoading => n + 16 | LReset => n + 15
  | LAux j => n - j + 5 | LSync => 4 | LMap => 3 | LUnlock => 2 | LReturn => 1
  end.
Definition left_of (t : lthread) : nat := match lt_todo t with [] => 0 | _ => length (lt_todo t) * (n + 30) + rank (lt_pc t) end.
Definition left (ts : list lthread) : nat := fold_right (fun t a => left_of t + a) 0 ts.
Lemma left_set ts : forall i t t', nth_error ts i = Some t -> left_of t' < left_of t -> left (list_set ts i t') < left ts.
Proof.
  induction ts as [|a ts IH]; intros [|i] t t' E L; try discriminate; cbn in *.
  - injection E as ->. lia.
  - specialize (IH i t t' E L). unfold left in *. lia.
Qed.
Lemma step_left s pc l rest done s' t : lens s -> lazy_step true s pc l rest done = Ok (s', t) -> (pc = LLock -> mf_lock s = false) ->
  left_of t < left_of (LThread pc (l :: rest) done).
Proof.
  intros Le E Lk.
  assert (K : forall p, left_of (LThread p (l :: rest) done) = S (length rest) * (n + 30) + rank p) by reflexivity.
  assert (Fin : forall x, left_of (LThread LCheck0 rest x) <= length rest * (n + 30) + n + 20).
  { intros x. unfold left_of. cbn [lt_todo lt_pc rank]. destruct rest; cbn [length]; lia. }
  rewrite K. cbn [rank].
  destruct pc; cbn [lazy_step] in E; unfold change_obj, get_nth in E.
  - destruct (nth_error (mf_raw s) l) as [[?|]|]; cbn [bind] in E; try discriminate; injection E as <- <-; rewrite K; cbn [rank]; lia.
  - destruct (nth_error (mf_raw s) l) as [[?|]|]; cbn [bind] in E; try discriminate; injection E as <- <-; rewrite K; cbn [rank]; lia.
  - rewrite Lk in E by auto. injection E as <- <-. rewrite K. cbn [rank]. lia.
  - destruct (nth_error (mf_raw s) l) as [[?|]|]; cbn [bind] in E; try discriminate; injection E as <- <-; rewrite K; cbn [rank]; lia.
  - destruct (nth_error (mf_actions s) l) as [[|]|]; cbn [bind negb] in E; try discriminate. injection E as <- <-. rewrite K. cbn [rank]. lia.
  - injection E as <- <-. rewrite K. cbn [rank]. lia.
  - destruct (nth_error (mf_fields s) j) eqn:Ej; injection E as <- <-; rewrite K; cbn [rank]; [|lia].
    assert (j < n) by (destruct Le as [<- _]; apply nth_error_Some; congruence). lia.
  - destruct (nth_error (mf_fields s) l) as [[id|]|]; cbn [bind] in E; try discriminate.
    destruct (nth_error (mf_heap s) id); cbn [bind] in E; try discriminate. injection E as <- <-. rewrite K. cbn [rank]. lia.
  - destruct (nth_error (mf_fields s) l) as [[id|]|]; cbn [bind] in E; try discriminate.
    destruct (nth_error (mf_heap s) id); cbn [bind] in E; try discriminate. injection E as <- <-. rewrite K. cbn [rank]. lia.
  - injection E as <- <-. rewrite K. cbn [rank]. lia.
  - destruct (nth_error (mf_raw s) l) as [[id|]|]; cbn [bind] in E; try discriminate.
    destruct (nth_error (mf_heap s) id); cbn [bind] in E; try discriminate. injection E as <- <-.
    eapply Nat.le_lt_trans; [apply Fin|]. cbn [rank Nat.mul]. lia.
Qed.
Lemma can_step s ts i pc l rest done : linv (s, ts) -> nth_error ts i = Some (LThread pc (l :: rest) done) ->
  (pc = LLock -> mf_lock s = false) -> exists st', lstep (i, true) (s, ts) = Ok st' /\ linv st' /\ left (snd st') < left ts.
Proof.
  intros I E Lk. destruct (linv_step (i, true) (s, ts) I) as (st' & Es & I'). exists st'. split; auto. split; auto.
  unfold lstep in Es. cbn [fst snd] in Es. rewrite E in Es. destruct (lazy_step true s pc l rest done) as [[s' t]| |] eqn:El; cbn [bind] in Es; try discriminate.
  injection Es as <-. cbn [snd]. eapply left_set; eauto. eapply step_left; eauto. apply (li_len _ I).
Qed.
Lemma progress st : linv st -> (exists i t, nth_error (snd st) i = Some t /\ lt_todo t <> []) ->
  exists e st', snd e = true /\ lstep e st = Ok st' /\ linv st' /\ left (snd st') < left (snd st).
Proof.
  destruct st as [s ts]. cbn [fst snd]. intros I (i & [pc [|l rest] done] & E & N); cbn [lt_todo] in N; [congruence|].
  destruct (li_own _ I) as [(Lk & Qs & P)|(i0 & pc0 & l0 & Lk & (r0 & d0 & E0) & B & Qs & S & P)]; cbn [fst snd] in *.
  - destruct (can_step s ts i pc l rest done I E) as (st' & A & A' & A''); auto. exists (i, true), st'. auto.
  - destruct (can_step s ts i0 pc0 l0 r0 d0 I E0) as (st' & A & A' & A'').
    { intros ->. contradiction. }
    exists (i0, true), st'. auto.
Qed.
Lemma finishes st : linv st -> exists sched st', forallb snd sched = true /\ lrun sched st = Ok st' /\ linv st' /\
  forall i t, nth_error (snd st') i = Some t -> lt_todo t = [].
Proof.
  remember (left (snd st)) as m eqn:Em. revert st Em. induction m as [m IH] using lt_wf_ind. intros st Em I.
  assert (D : (exists i t, nth_error (snd st) i = Some t /\ lt_todo t <> []) \/ forall i t, nth_error (snd st) i = Some t -> lt_todo t = []).
  { destruct (existsb (fun t => match lt_todo t with [] => false | _ => true end) (snd st)) eqn:X.
    - apply existsb_exists in X as (t & T & N). apply In_nth_error in T as (i & T). left. exists i, t. split; auto. destruct (lt_todo t); congruence.
    - right. intros i t T. destruct (lt_todo t) eqn:Et; auto. apply nth_error_In in T.
      assert (existsb (fun t => match lt_todo t with [] => false | _ => true end) (snd st) = true); [|congruence].
      apply existsb_exists. exists t. split; auto. rewrite Et. reflexivity. }
  destruct D as [D|D]; [|exists [], st; auto].
  destruct (progress st I D) as (e & st1 & Ee & E1 & I1 & L1).
  destruct (IH (left (snd st1)) ltac:(lia) st1 eq_refl I1) as (sched & st' & F & R & I' & Fin).
  exists (e :: sched), st'. cbn. rewrite Ee, E1. cbn [bind]. auto.
Qed.

(** No exception without a failed load. *)
Definition no_throw (ts : list lthread) : Prop := forall t l, In t ts -> ~ In (l, Threw) (lt_results t).
Lemma step_no_throw s pc l rest done s' t : (forall k, ~ In (k, Threw) done) -> lazy_step true s pc l rest done = Ok (s', t) ->
  forall k, ~ In (k, Threw) (lt_results t).
Proof.
  intros D E. destruct pc; cbn [lazy_step] in E; unfold change_obj, get_nth in E;
    repeat (match type of E with context [match ?x with _ => _ end] => destruct x end; cbn [bind negb] in E; try discriminate);
    cbn [bind negb] in E; try discriminate; injection E as <- <-; cbn [lt_results]; auto.
  all: intros k K; apply in_app_or in K as [K|[K|[]]]; [eapply D; eauto|discriminate].
Qed.
Lemma run_no_throw sched : forall st st', forallb snd sched = true -> lrun sched st = Ok st' -> no_throw (snd st) -> no_throw (snd st').
Proof.
  induction sched as [|[i ok] r IH]; intros [s ts] st' F R N; cbn [lrun] in R; [injection R as <-; exact N|].
  cbn in F. destruct ok; [|discriminate]. unfold lstep in R. cbn [fst snd] in R.
  destruct (nth_error ts i) as [[pc [|l rest] done]|] eqn:E; cbn [bind] in R; [eapply IH; eauto| |eapply IH; eauto].
  destruct (lazy_step true s pc l rest done) as [[s1 t1]| |] eqn:El; cbn [bind] in R; try discriminate.
  eapply IH; eauto. intros t k T. cbn [snd] in T. apply In_nth_error in T as (j & T). apply list_set_get in T as [[-> ->]|T].
  - eapply step_no_throw; eauto. intros k'. apply (N _ k' (nth_error_In _ _ E)).
  - apply (N _ k (nth_error_In _ _ T)).
Qed.
End P.

(** Cloning a field at rest. *)
Lemma clone_levels_spec heap : forall fields new,
  (forall l id, nth_error fields l = Some (Some id) -> exists o, nth_error heap id = Some o) ->
  exists f h, clone_levels fields heap new = Ok (f, new ++ h) /\ length f = length fields /\
    forall l, (nth_error fields l = Some None -> nth_error f l = Some None) /\
      forall id, nth_error fields l = Some (Some id) -> exists id', nth_error f l = Some (Some id') /\ nth_error (new ++ h) id' = nth_error heap id.
Proof.
  induction fields as [|[id|] r IH]; intros new Ok; cbn [clone_levels].
  - exists [], []. rewrite app_nil_r. split; auto. split; auto. intros [|l]; split; discriminate.
  - destruct (Ok 0 id eq_refl) as (o & O). unfold get_nth. rewrite O. cbn [bind].
    destruct (IH (new ++ [o])) as (f & h & E & Lf & P); [intros l i' E; apply (Ok (S l) i' E)|]. rewrite E. cbn [bind].
    exists (Some (length new) :: f), (o :: h). rewrite <- app_assoc. split; [reflexivity|]. split; [cbn; auto|]. intros [|l]; cbn.
    + split; [discriminate|]. intros id0 E0. injection E0 as <-. exists (length new). split; auto.
      rewrite nth_error_app2, Nat.sub_diag by auto. cbn. auto.
    + destruct (P l) as [P1 P2]. split; auto. intros id0 E0. destruct (P2 id0 E0) as (id' & F & H). exists id'. rewrite <- app_assoc in H. auto.
  - destruct (IH new) as (f & h & E & Lf & P); [intros l i' E; apply (Ok (S l) i' E)|]. rewrite E. cbn [bind].
    exists (None :: f), h. split; auto. split; [cbn; auto|]. intros [|l]; cbn; [split; auto; discriminate|apply P].
Qed.
Lemma clone_inv n asked reqs s ts reqs2 : linv n asked reqs (s, ts) -> mf_lock s = false ->
  exists c, clone_mip s = Ok c /\ linv n asked reqs2 (c, callers reqs2) /\
    (forall l, l < n -> (missing s l /\ missing c l) \/ (complete s l /\ complete c l)).
Proof.
  intros I Lk. destruct (li_own _ _ _ _ I) as [(_ & _ & P)|(i & pc & l & L & _)]; cbn [fst snd] in *; [|congruence].
  destruct (li_len _ _ _ _ I) as (L1 & L2 & L3). cbn [fst] in *.
  destruct (clone_levels_spec (mf_heap s) (mf_fields s) []) as (f & h & E & Lf & Sp).
  { intros l id El. assert (Ll : l < n) by (rewrite <- L1; apply nth_error_Some; congruence).
    destruct (P l Ll) as [(F & _)|(id' & (F & _) & H)]; [congruence|]. assert (id = id') as -> by congruence. eauto. }
  unfold clone_mip. rewrite E. cbn [bind app]. cbn [app] in Sp. eexists. split; [reflexivity|].
  assert (Q : forall l, l < n -> (missing s l /\ missing (Mipf f f (mf_actions s) false h (mf_log s)) l) \/
                               (complete s l /\ complete (Mipf f f (mf_actions s) false h (mf_log s)) l)).
  { intros l Ll. destruct (Sp l) as [S1 S2]. destruct (P l Ll) as [M|Co]; [left|right]; split; auto.
    - destruct M as (A1 & A2 & A3 & A4). split; [apply S1; auto|]. split; [apply S1; auto|]. auto.
    - destruct Co as (id & (A1 & A2 & A3 & A4) & A5). destruct (S2 id A1) as (id' & F & H). exists id'. split; [split; auto|]. cbn [mf_heap]. rewrite H. exact A5. }
  split; auto. constructor; cbn [fst snd].
  - split; [cbn; congruence|]. split; [cbn; congruence|auto].
  - intros i t E'. unfold callers in E'. rewrite nth_error_map in E'. destruct (nth_error reqs2 i) as [r|] eqn:Er; [|discriminate].
    injection E' as <-. split; auto. intros x [].
  - apply (li_log _ _ _ _ I).
  - left. split; auto. split.
    + intros i t E'. unfold callers in E'. rewrite nth_error_map in E'. destruct (nth_error reqs2 i); [|discriminate]. injection E' as <-. exact Logic.I.
    + intros l Ll. destruct (Q l Ll) as [[_ M]|[_ M]]; [left|right]; auto.
Qed.
