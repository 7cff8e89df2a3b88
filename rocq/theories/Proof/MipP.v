(** The threads of a MIP filtering pass: any schedule gives the same values. *)
From Coq Require Import ZArith Reals List Bool Lia.
From Verif Require Import Model.Base Model.RealM Model.FieldM Model.OpsM Model.LoopM Model.FilterM Model.MipM
  Spec.VoxelSpec Spec.OpsSpec Proof.BaseP Proof.LoopP Proof.OpsP Proof.FilterP.
Import ListNotations.
Open Scope nat_scope.

Lemma each_app {A S} (f : A -> S -> res S) l m s : each f (l ++ m) s = let* s' := each f l s in each f m s'.
Proof. revert s. induction l; intros s; cbn; auto. destruct (f a s); cbn; auto. Qed.

Section Pass.
Context {k : kind}.
Variables (flt : filter) (a : axis) (add : Z) (src : fld (V := R) k) (blocks : list box).
Variables (t0 : fld (V := R) k) (G : v3 -> R).
Let dw := f_dw t0.
Hypothesis HV : forall p, in_box p dw -> exists o, mip_voxel flt a add src p = Ok o /\ val0 o = G p.
Hypothesis HB : forall b, In b blocks -> sub_box b dw /\
  exists e, check_input_empty src b (fl_support flt) a = Ok e /\ (e = true -> forall p, in_box p b -> G p = 0%R).
Hypothesis HC : forall p, in_box p dw -> exists b, In b blocks /\ in_box p b.

Definition pending (s : mstate k) (p : v3) : Prop :=
  (exists i l, nth_error (ms_threads s) i = Some (TWork l) /\ In p l) \/
  (exists j b, ms_next s <= j /\ nth_error blocks j = Some b /\ in_box p b).

Record good (n : nat) (s : mstate k) : Prop := {
  g_inv : inv k (ms_tgt s);
  g_ext : f_ext (ms_tgt s) = f_ext t0;
  g_dw : f_dw (ms_tgt s) = dw;
  g_fits : forall b, fits k (ms_tgt s) b <-> fits k t0 b;
  g_len : length (ms_threads s) = n;
  g_work : forall i l p, nth_error (ms_threads s) i = Some (TWork l) -> In p l -> in_box p dw;
  g_done : forall i, nth_error (ms_threads s) i = Some TDone -> length blocks <= ms_next s;
  g_log : map snd (ms_log s) = seq 0 (Nat.min (ms_next s) (length blocks));
  g_who : forall i j, In (i, j) (ms_log s) -> i < n;
  g_val : forall p, in_box p dw -> f_get (ms_tgt s) p = Ok (G p) \/ (f_get (ms_tgt s) p = Ok 0%R /\ pending s p) }.

Lemma list_set_get {A} (l : list A) n m x y : nth_error (list_set l n x) m = Some y ->
  (m = n /\ y = x) \/ nth_error l m = Some y.
Proof.
  intros H. destruct (Nat.eq_dec n m) as [->|N].
  - destruct (le_lt_dec (length l) m) as [L|L].
    + assert (nth_error (list_set l m x) m = None) by (apply nth_error_None; rewrite list_set_length; auto). congruence.
    + rewrite list_set_same in H by auto. left. split; congruence.
  - rewrite list_set_other in H by auto. auto.
Qed.
Lemma list_set_keep {A} (l : list A) n m x y : nth_error l m = Some y -> m <> n -> nth_error (list_set l n x) m = Some y.
Proof. intros H N. rewrite list_set_other; auto. Qed.

Lemma good_step n s i : good n s -> exists s', mip_step flt a add src blocks i s = Ok s' /\ good n s'.
Proof.
  intros g. unfold mip_step. destruct (nth_error (ms_threads s) i) as [t|] eqn:T; [|exists s; auto].
  assert (Li : i < length (ms_threads s)) by (apply nth_error_Some; congruence).
  destruct t as [|[|p l]|].
  - (* TFetch *) destruct (nth_error blocks (ms_next s)) as [b|] eqn:B.
    + assert (Lb : ms_next s < length blocks) by (apply nth_error_Some; congruence).
      destruct (HB b (nth_error_In _ _ B)) as (Sb & e & -> & He). cbn [bind]. eexists. split; [reflexivity|].
      constructor; cbn [ms_next ms_threads ms_tgt ms_log]; try apply g.
      * rewrite list_set_length. apply g.
      * intros j l p J P. apply list_set_get in J as [[_ E]|J]; [|eapply g_work; eauto].
        destruct e; [discriminate|]. injection E as ->. apply voxels_in in P. apply Sb; auto.
      * intros j J. apply list_set_get in J as [[_ E]|J]; [destruct e; discriminate|].
        apply (g_done _ _ g) in J. lia.
      * rewrite map_app, (g_log _ _ g). cbn [map snd]. rewrite !Nat.min_l by lia. rewrite seq_S. reflexivity.
      * intros x j H. apply in_app_or in H as [H|[H|[]]]; [eapply g_who; eauto|]. injection H as <- _. rewrite <- (g_len _ _ g). auto.
      * intros p P. destruct (g_val _ _ g p P) as [H|[H Q]]; [auto|].
        destruct Q as [(x & l & X & Y)|(j & b' & J1 & J2 & J3)].
        -- right. split; auto. left. exists x, l. split; auto. apply list_set_keep; auto. congruence.
        -- destruct (Nat.eq_dec j (ms_next s)) as [->|N].
           ++ rewrite B in J2. injection J2 as <-. destruct e.
              ** left. rewrite He by auto. auto.
              ** right. split; auto. left. exists i, (box_voxels b). split; [apply list_set_same; auto|apply voxels_in; auto].
           ++ right. split; auto. right. exists j, b'. split; [cbn; lia|auto].
    + assert (Lb : length blocks <= ms_next s) by (apply nth_error_None; auto).
      eexists. split; [reflexivity|]. constructor; cbn [ms_next ms_threads ms_tgt ms_log]; try apply g.
      * rewrite list_set_length. apply g.
      * intros j l p J P. apply list_set_get in J as [[_ E]|J]; [discriminate|eapply g_work; eauto].
      * intros j J. lia.
      * rewrite (g_log _ _ g). rewrite !Nat.min_r by lia. reflexivity.
      * intros p P. destruct (g_val _ _ g p P) as [H|[H Q]]; [auto|]. right. split; auto.
        destruct Q as [(x & l & X & Y)|(j & b' & J1 & J2 & J3)].
        -- left. exists x, l. split; auto. apply list_set_keep; auto. congruence.
        -- assert (j < length blocks) by (apply nth_error_Some; congruence). lia.
  - (* item finished *) eexists. split; [reflexivity|]. constructor; cbn [ms_next ms_threads ms_tgt ms_log]; try apply g.
    + rewrite list_set_length. apply g.
    + intros j l p J P. apply list_set_get in J as [[_ E]|J]; [discriminate|eapply g_work; eauto].
    + intros j J. apply list_set_get in J as [[_ E]|J]; [discriminate|eapply g_done; eauto].
    + intros p P. destruct (g_val _ _ g p P) as [H|[H Q]]; [auto|]. right. split; auto.
      destruct Q as [(x & l & X & Y)|Q]; [|right; auto].
      left. exists x, l. split; auto. apply list_set_keep; auto. intros ->. rewrite T in X. injection X as <-. contradiction.
  - (* one voxel *) assert (P : in_box p dw) by (eapply g_work; eauto; left; auto).
    destruct (HV p P) as (o & -> & O). cbn [bind].
    assert (exists t', match o with Some v => f_set (ms_tgt s) p v | None => Ok (ms_tgt s) end = Ok t' /\
      inv k t' /\ f_ext t' = f_ext (ms_tgt s) /\ f_dw t' = f_dw (ms_tgt s) /\ (forall b, fits k t' b <-> fits k (ms_tgt s) b) /\
      f_get t' p = Ok (G p) /\ forall q, in_box q dw -> q <> p -> f_get t' q = f_get (ms_tgt s) q) as (t' & -> & I' & X' & D' & F' & G1 & G2).
    { destruct o as [v|]; cbn [val0] in O.
      - destruct (set_ok k (ms_tgt s) p v (g_inv _ _ g)) as (t' & E & I' & X' & D' & F' & G1 & G2); [rewrite (g_dw _ _ g); auto|].
        exists t'. rewrite (g_dw _ _ g) in G2. rewrite O in G1. auto 10.
      - exists (ms_tgt s). split; auto. split; [apply g|]. split; auto. split; auto. split; [tauto|]. split; auto.
        destruct (g_val _ _ g p P) as [H|[H _]]; auto. rewrite H. congruence. }
    cbn [bind]. eexists. split; [reflexivity|]. constructor; cbn [ms_next ms_threads ms_tgt ms_log].
    + exact I'.
    + rewrite X'. apply g.
    + rewrite D'. apply g.
    + intros b. rewrite F'. apply g.
    + rewrite list_set_length. apply g.
    + intros j m q J Q. apply list_set_get in J as [[_ E]|J]; [|eapply g_work; eauto].
      injection E as ->. eapply g_work; eauto. right. auto.
    + intros j J. apply list_set_get in J as [[_ E]|J]; [discriminate|eapply g_done; eauto].
    + apply g.
    + intros x j H. eapply g_who; eauto.
    + intros q Q. destruct (v3_dec q p) as [->|N]; [auto|]. rewrite G2 by auto.
      destruct (g_val _ _ g q Q) as [H|[H Z]]; [auto|]. right. split; auto.
      destruct Z as [(x & m & X & Y)|Z]; [|right; auto]. left.
      destruct (Nat.eq_dec x i) as [->|Nx].
      * rewrite T in X. injection X as <-. destruct Y as [Y|Y]; [congruence|].
        exists i, l. split; [apply list_set_same; auto|auto].
      * exists x, m. split; auto. apply list_set_keep; auto.
  - exists s; auto.
Qed.

Lemma good_run n sched s : good n s -> exists s', mip_run flt a add src blocks sched s = Ok s' /\ good n s'.
Proof.
  revert s. induction sched as [|i t IH]; intros s g; cbn; [exists s; auto|].
  destruct (good_step n s i g) as (s1 & E & g1). unfold mip_run in *. cbn [each]. rewrite E. cbn [bind]. apply IH. auto.
Qed.

Lemma items_cost_cons b l : items_cost (b :: l) = 2 + length (box_voxels b) + items_cost l.
Proof. reflexivity. Qed.
Lemma skipn_nth {A} (l : list A) n x : nth_error l n = Some x -> skipn n l = x :: skipn (S n) l.
Proof. revert n. induction l; intros [|n] H; cbn in *; try discriminate; [congruence|]. apply IHl. auto. Qed.

(** One step of an unfinished thread brings it closer to the end; a step changes no
    other thread. *)
Lemma step_progress i s s' : mip_step flt a add src blocks i s = Ok s' ->
  (forall j, j <> i -> nth_error (ms_threads s') j = nth_error (ms_threads s) j) /\
  (nth_error (ms_threads s) i = Some TDone -> s' = s) /\
  (i < length (ms_threads s) -> nth_error (ms_threads s) i <> Some TDone -> alone blocks i s' < alone blocks i s).
Proof.
  unfold mip_step. destruct (nth_error (ms_threads s) i) as [t|] eqn:T.
  2: { intros H. injection H as <-. split; auto. split; [discriminate|]. intros L. apply nth_error_Some in L. congruence. }
  assert (Li : i < length (ms_threads s)) by (apply nth_error_Some; congruence).
  unfold alone. rewrite T. destruct t as [|[|p l]|].
  - destruct (nth_error blocks (ms_next s)) as [b|] eqn:B.
    + intros H. apply bind_ok in H as (e & _ & H). injection H as <-. cbn [ms_next ms_threads].
      split; [intros j N; rewrite list_set_other; auto|]. split; [discriminate|]. intros _ _. rewrite list_set_same by auto.
      rewrite (skipn_nth blocks (ms_next s) b B), items_cost_cons. destruct e; cbn [cost]; lia.
    + intros H. injection H as <-. cbn [ms_next ms_threads]. split; [intros j N; rewrite list_set_other; auto|].
      split; [discriminate|]. intros _ _. rewrite list_set_same by auto.
      assert (length blocks <= ms_next s) by (apply nth_error_None; auto).
      rewrite !skipn_all2 by lia. cbn. lia.
  - intros H. injection H as <-. cbn [ms_next ms_threads]. split; [intros j N; rewrite list_set_other; auto|].
    split; [discriminate|]. intros _ _. rewrite list_set_same by auto. cbn [cost length]. lia.
  - intros H. apply bind_ok in H as (o & _ & H). apply bind_ok in H as (t & _ & H). injection H as <-. cbn [ms_next ms_threads].
    split; [intros j N; rewrite list_set_other; auto|]. split; [discriminate|]. intros _ _. rewrite list_set_same by auto.
    cbn [cost length]. lia.
  - intros H. injection H as <-. split; auto. split; auto. congruence.
Qed.

Lemma finish_ok n i m : forall s, good n s -> i < n -> alone blocks i s <= m ->
  exists s', each (mip_step flt a add src blocks) (repeat i m) s = Ok s' /\ good n s' /\
    nth_error (ms_threads s') i = Some TDone /\
    forall j, j <> i -> nth_error (ms_threads s') j = nth_error (ms_threads s) j.
Proof.
  induction m as [|m IH]; intros s g L A.
  - exists s. split; auto. split; auto. split; auto. unfold alone in A.
    destruct (nth_error (ms_threads s) i) as [[|l|]|] eqn:T; cbn [cost] in A; try lia; auto.
    apply nth_error_None in T. rewrite (g_len _ _ g) in T. lia.
  - cbn [repeat each]. destruct (good_step n s i g) as (s1 & E & g1). rewrite E. cbn [bind].
    destruct (step_progress i s s1 E) as (P1 & P2 & P3).
    assert (A1 : alone blocks i s1 <= m).
    { destruct (nth_error (ms_threads s) i) as [t|] eqn:T.
      - assert (t = TDone \/ t <> TDone) as [->|N] by (destruct t; auto; right; discriminate).
        + rewrite P2 by auto. pose proof (g_done _ _ g i T). unfold alone. rewrite T, skipn_all2 by lia. cbn. lia.
        + assert (alone blocks i s1 < alone blocks i s); [|lia]. apply P3; [rewrite (g_len _ _ g); auto|congruence].
      - apply nth_error_None in T. rewrite (g_len _ _ g) in T. lia. }
    destruct (IH s1 g1 L A1) as (s2 & E2 & g2 & D2 & O2). exists s2. split; auto. split; auto. split; auto.
    intros j J. rewrite O2, P1; auto.
Qed.

Lemma finish_all n l : forall s, good n s -> (forall i, In i l -> i < n) -> NoDup l ->
  exists s', each (finish_thread flt a add src blocks) l s = Ok s' /\ good n s' /\
    (forall i, In i l -> nth_error (ms_threads s') i = Some TDone) /\
    forall j, ~ In j l -> nth_error (ms_threads s') j = nth_error (ms_threads s) j.
Proof.
  induction l as [|i l IH]; intros s g L N.
  - exists s. cbn. split; auto. split; auto. split; auto. intros i [].
  - cbn [each]. unfold finish_thread at 1.
    destruct (finish_ok n i _ s g (L i (or_introl eq_refl)) (le_n _)) as (s1 & E1 & g1 & D1 & O1).
    rewrite E1. cbn [bind]. inversion N as [|? ? Ni Nl]; subst.
    destruct (IH s1 g1) as (s2 & E2 & g2 & D2 & O2); [intros; apply L; right; auto|auto|].
    exists s2. split; auto. split; auto. split.
    + intros j [<-|J]; [|auto]. rewrite O2; auto.
    + intros j J. rewrite O2, O1; auto; intros H; apply J; [left|right]; auto.
Qed.

(** The whole pass, whatever the schedule. *)
Lemma threads_ok n sched : inv k t0 -> (forall p, in_box p dw -> f_get t0 p = Ok 0%R) -> 0 < n ->
  exists s, mip_threads flt a add src blocks n sched t0 = Ok s /\ inv k (ms_tgt s) /\
    f_ext (ms_tgt s) = f_ext t0 /\ f_dw (ms_tgt s) = f_dw t0 /\ (forall b, fits k (ms_tgt s) b <-> fits k t0 b) /\
    (forall p, in_box p (f_dw t0) -> f_get (ms_tgt s) p = Ok (G p)) /\
    map snd (ms_log s) = seq 0 (length blocks) /\ (forall i j, In (i, j) (ms_log s) -> i < n).
Proof.
  intros I Z N. unfold mip_threads.
  assert (g : good n (MState 0 (repeat TFetch n) t0 [])).
  { constructor; cbn [ms_next ms_threads ms_tgt ms_log]; auto; try tauto.
    - apply repeat_length.
    - intros i l p H. apply nth_error_In, repeat_spec in H. discriminate.
    - intros i H. apply nth_error_In, repeat_spec in H. discriminate.
    - intros i j [].
    - intros p P. right. split; auto. right. destruct (HC p P) as (b & B & Q).
      apply In_nth_error in B as (j & J). exists j, b. cbn. split; [lia|auto]. }
  destruct (good_run n sched _ g) as (s1 & E1 & g1). rewrite E1. cbn [bind].
  destruct (finish_all n (seq 0 n) s1 g1) as (s & E & gs & D & _); [intros i H; apply in_seq in H; lia|apply seq_NoDup|].
  exists s. split; auto. split; [apply gs|]. split; [apply gs|]. split; [apply gs|]. split; [apply gs|].
  assert (L : length blocks <= ms_next s) by (apply (g_done _ _ gs 0), D, in_seq; lia).
  split; [|split; [rewrite (g_log _ _ gs), Nat.min_r; auto|apply gs]].
  intros p P. destruct (g_val _ _ gs p P) as [H|[_ [(i & l & H & _)|(j & b & J & H & _)]]]; auto; exfalso.
  - rewrite D in H; [discriminate|]. apply in_seq. rewrite <- (g_len _ _ gs). cbn.
    split; [lia|]. apply nth_error_Some. congruence.
  - assert (j < length blocks) by (apply nth_error_Some; congruence). lia.
Qed.
End Pass.
