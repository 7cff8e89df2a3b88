(** Termination of threaded block writing (no gap), and the one-thread writer. *)
From Coq Require Import List Bool Arith Lia Wellfounded.
From Verif Require Import Model.BlockIOM Spec.BlockIOSpec Proof.BlockIOP.
Import ListNotations.

(** * Lexicographic order on the first [N] values of a function *)
Definition lexlt (N : nat) (a b : nat -> nat) : Prop :=
  exists k, k < N /\ (forall j, j < k -> a j = b j) /\ a k < b k.

Lemma lexlt_acc : forall N m, Acc (lexlt N) m.
Proof.
  induction N as [|N IH]; intros m.
  - constructor. intros y (k & H & _). lia.
  - remember (m 0) as x eqn:E. revert m E.
    induction x as [x IHx] using lt_wf_ind. intros m E.
    assert (G : forall r, Acc (lexlt N) r -> forall m, m 0 = x -> (forall j, m (S j) = r j) -> Acc (lexlt (S N)) m).
    { clear m E. induction 1 as [r _ IHr]. intros m E0 Er. constructor. intros y (k & Hk & Hj & Hlt).
      destruct k.
      - apply (IHx (y 0)); [lia|auto].
      - apply (IHr (fun j => y (S j))).
        + exists k. split; [lia|]. split.
          * intros j Hj'. rewrite (Hj (S j)) by lia. apply Er.
          * rewrite <- Er. auto.
        + rewrite (Hj 0) by lia. auto.
        + auto. }
    apply (G (fun j => m (S j))); auto.
Qed.

Section Sum.
Variable T : nat.
Definition sumT (g : nat -> nat) : nat := list_sum (map g (seq 0 T)).

Lemma list_sum_ext : forall (g h : nat -> nat) l, (forall x, In x l -> g x = h x) -> list_sum (map g l) = list_sum (map h l).
Proof. intros g h l H. f_equal. apply map_ext_in. auto. Qed.

Lemma sum_upd : forall (w : wpc -> nat) pc t p, t < T ->
  sumT (fun x => w (nupd pc t p x)) + w (pc t) = sumT (fun x => w (pc x)) + w p.
Proof.
  intros w pc t p Ht. unfold sumT.
  replace T with (t + (1 + (T - S t))) by lia. rewrite !seq_app, !map_app, !list_sum_app. cbn [seq map Nat.add].
  rewrite (list_sum_ext (fun x => w (nupd pc t p x)) (fun x => w (pc x)) (seq 0 t)).
  2:{ intros x Hx. apply in_seq in Hx. now rewrite nupd_other by lia. }
  rewrite (list_sum_ext (fun x => w (nupd pc t p x)) (fun x => w (pc x)) (seq (t + 1) (T - S t))).
  2:{ intros x Hx. apply in_seq in Hx. now rewrite nupd_other by lia. }
  cbn [list_sum fold_right]. rewrite nupd_same. unfold list_sum. cbn [fold_right]. lia.
Qed.

Lemma sum_le : forall g h c d, (forall x, g x <= h x + c * d x) -> sumT g <= sumT h + c * sumT d.
Proof.
  intros g h c d H. unfold sumT. unfold list_sum. induction (seq 0 T) as [|x l IH]; cbn [map fold_right]; [lia|]. specialize (H x). rewrite Nat.mul_add_distr_l. lia.
Qed.
End Sum.

Section Term.
Variable n : nat.
Variable alloc : nat -> bool.
Variable T : nat.
Variables f l : nat.
Hypothesis FL : f <= l <= n.
Hypothesis AL : forall i, i < n -> (alloc i = true <-> f <= i < l).
Notation wstep := (wstep n alloc false).
Notation winv := (winv n false T f l).

(** A step that is not a turn of the waiting loop. *)
Definition eff (s' s : wstate) : Prop := winv s /\ exists t, t < T /\ s' = wstep t s /\ w_pc s' t <> w_pc s t.

Definition aw (k : nat) (p : wpc) : nat := match p with WIncW v => if S v =? k then 1 else 0 | _ => 0 end.
Definition cw (p : wpc) : nat := match p with WScan => 3 | WIncR => 2 | WFetch => 1 | _ => 0 end.
Definition tw (hi : bool) (p : wpc) : nat :=
  match p with
  | WIncW v => if n <=? v then 4 else 0
  | WScan => if hi then 3 else 0
  | WIncR => if hi then 5 else 0
  | WFetch => if hi then 1 else 0
  | _ => 0 end.
Definition av (s : wstate) (k : nat) : nat := sumT T (fun x => aw k (w_pc s x)).
Definition cv (s : wstate) (k : nat) : nat := if w_nw s =? k then sumT T (fun x => cw (w_pc s x)) else 0.
Definition tv (s : wstate) : nat := sumT T (fun x => tw (n <? w_nw s) (w_pc s x)).
Definition meas (s : wstate) (i : nat) : nat :=
  if i =? 2 * (n + 1) then tv s else if Nat.even i then av s (i / 2) else cv s (i / 2).
Definition levels : nat := 2 * (n + 1) + 1.

Lemma meas_even : forall s k, k <= n -> meas s (2 * k) = av s k.
Proof.
  intros. unfold meas. destruct (Nat.eqb_spec (2 * k) (2 * (n + 1))); [lia|].
  rewrite Nat.even_mul. cbn [Nat.even orb]. rewrite (Nat.mul_comm 2 k), Nat.div_mul by lia. auto.
Qed.
Lemma meas_odd : forall s k, k <= n -> meas s (2 * k + 1) = cv s k.
Proof.
  intros. unfold meas. destruct (Nat.eqb_spec (2 * k + 1) (2 * (n + 1))); [lia|].
  rewrite Nat.even_add, Nat.even_mul. cbn [Nat.even orb eqb].
  replace ((2 * k + 1) / 2) with k; auto.
  apply (Nat.div_unique _ 2 k 1); lia.
Qed.

Lemma split_ix : forall j, exists k, j = 2 * k \/ j = 2 * k + 1.
Proof. intros j. exists (j / 2). pose proof (Nat.div_mod_eq j 2). pose proof (Nat.mod_upper_bound j 2). lia. Qed.

(** Decrease at level c_k. *)
Lemma dec_c : forall s' s k, k <= n ->
  (forall j, j <= k -> av s' j = av s j) -> (forall j, j < k -> cv s' j = cv s j) -> cv s' k < cv s k ->
  lexlt levels (meas s') (meas s).
Proof.
  intros s' s k Hk A C D. exists (2 * k + 1). unfold levels. split; [lia|]. split.
  - intros j Hj. destruct (split_ix j) as (i & [-> | ->]).
    + rewrite !meas_even by lia. apply A; lia.
    + rewrite !meas_odd by lia. apply C; lia.
  - rewrite !meas_odd by lia. auto.
Qed.
Lemma dec_a : forall s' s k, k <= n ->
  (forall j, j < k -> av s' j = av s j) -> (forall j, j < k -> cv s' j = cv s j) -> av s' k < av s k ->
  lexlt levels (meas s') (meas s).
Proof.
  intros s' s k Hk A C D. exists (2 * k). unfold levels. split; [lia|]. split.
  - intros j Hj. destruct (split_ix j) as (i & [-> | ->]).
    + rewrite !meas_even by lia. apply A; lia.
    + rewrite !meas_odd by lia. apply C; lia.
  - rewrite !meas_even by lia. auto.
Qed.
Lemma dec_t : forall s' s,
  (forall j, j <= n -> av s' j = av s j) -> (forall j, j <= n -> cv s' j = cv s j) -> tv s' < tv s ->
  lexlt levels (meas s') (meas s).
Proof.
  intros s' s A C D. exists (2 * (n + 1)). unfold levels. split; [lia|]. split.
  - intros j Hj. destruct (split_ix j) as (i & [-> | ->]).
    + rewrite !meas_even by lia. apply A; lia.
    + rewrite !meas_odd by lia. apply C; lia.
  - unfold meas. rewrite Nat.eqb_refl. auto.
Qed.

(** A thread moves without writing the counter. *)
Lemma dec_move : forall s t p nc, t < T ->
  (forall j, j <= n -> j <= w_nw s -> aw j p = aw j (w_pc s t)) -> cw p < cw (w_pc s t) ->
  (n < w_nw s -> tw true p < tw true (w_pc s t)) ->
  lexlt levels (meas (W nc (w_nw s) (w_out s) (nupd (w_pc s) t p))) (meas s).
Proof.
  intros s t p nc Ht A C U.
  assert (A' : forall j, j <= n -> j <= w_nw s -> av (W nc (w_nw s) (w_out s) (nupd (w_pc s) t p)) j = av s j).
  { intros j Hj Hj'. unfold av; cbn [w_pc]. pose proof (sum_upd T (aw j) (w_pc s) t p Ht).
    rewrite (A j Hj Hj') in H. lia. }
  destruct (le_lt_dec (w_nw s) n) as [H|H].
  - apply dec_c with (w_nw s); auto.
    + intros j Hj. apply A'; lia.
    + intros j Hj. unfold cv; cbn [w_nw w_pc]. destruct (Nat.eqb_spec (w_nw s) j); [lia|auto].
    + unfold cv; cbn [w_nw w_pc]. rewrite Nat.eqb_refl.
      pose proof (sum_upd T cw (w_pc s) t p Ht). lia.
  - apply dec_t.
    + intros j Hj. apply A'; lia.
    + intros j Hj. unfold cv; cbn [w_nw w_pc]. destruct (Nat.eqb_spec (w_nw s) j); [lia|auto].
    + unfold tv; cbn [w_nw w_pc]. rewrite (proj2 (Nat.ltb_lt _ _) H).
      pose proof (sum_upd T (tw true) (w_pc s) t p Ht). specialize (U H). lia.
Qed.

Lemma dec_write : forall s t v, t < T -> w_pc s t = WIncW v ->
  lexlt levels (meas (W (w_nc s) (S v) (w_out s) (nupd (w_pc s) t WScan))) (meas s).
Proof.
  intros s t v Ht PC. set (s' := W (w_nc s) (S v) (w_out s) (nupd (w_pc s) t WScan)).
  assert (A : forall j, av s' j + (if S v =? j then 1 else 0) = av s j).
  { intros j. unfold av, s'; cbn [w_pc]. pose proof (sum_upd T (aw j) (w_pc s) t WScan Ht).
    rewrite PC in H. cbn [aw] in H. lia. }
  assert (An : forall j, j <> S v -> av s' j = av s j).
  { intros j Hj. specialize (A j). destruct (Nat.eqb_spec (S v) j); lia. }
  assert (C0 : forall j, j <> S v -> cv s' j = 0).
  { intros j Hj. unfold cv, s'; cbn [w_nw]. destruct (Nat.eqb_spec (S v) j); [lia|auto]. }
  assert (Z : (w_nw s <= n /\ w_nw s < S v /\ 0 < cv s (w_nw s)) \/
              forall j, j <= n -> j < S v -> cv s j = 0).
  { destruct (le_lt_dec (w_nw s) n); [|right; intros j J1 J2; unfold cv; destruct (Nat.eqb_spec (w_nw s) j); lia].
    destruct (le_lt_dec (S v) (w_nw s)); [right; intros j J1 J2; unfold cv; destruct (Nat.eqb_spec (w_nw s) j); lia|].
    destruct (Nat.eq_dec (cv s (w_nw s)) 0) as [E|E]; [right|left; lia].
    intros j J1 J2. unfold cv. destruct (Nat.eqb_spec (w_nw s) j); auto.
    unfold cv in E. rewrite Nat.eqb_refl in E. auto. }
  destruct Z as [(Z1 & Z2 & Z3)|Z].
  - apply dec_c with (w_nw s); auto.
    + intros j Hj. apply An; lia.
    + intros j Hj. rewrite C0 by lia. unfold cv. destruct (Nat.eqb_spec (w_nw s) j); [lia|auto].
    + rewrite C0 by lia. auto.
  - destruct (le_lt_dec (S v) n) as [H|H].
    + apply dec_a with (S v); auto.
      * intros j Hj. apply An; lia.
      * intros j Hj. rewrite C0, Z by lia. auto.
      * specialize (A (S v)). rewrite Nat.eqb_refl in A. lia.
    + apply dec_t.
      * intros j Hj. apply An; lia.
      * intros j Hj. rewrite C0 by lia. rewrite Z; lia.
      * unfold tv, s'; cbn [w_nw w_pc].
        rewrite (proj2 (Nat.ltb_lt n (S v))) by lia.
        pose proof (sum_upd T (tw true) (w_pc s) t WScan Ht) as SU.
        rewrite PC in SU. cbn [tw] in SU. rewrite (proj2 (Nat.leb_le n v)) in SU by lia.
        enough (sumT T (fun x => tw true (w_pc s x)) <= sumT T (fun x => tw (n <? w_nw s) (w_pc s x))) by lia.
        destruct (Nat.ltb_spec n (w_nw s)); [lia|].
        assert (E : sumT T (fun x => cw (w_pc s x)) = 0).
        { specialize (Z (w_nw s)). unfold cv in Z. rewrite Nat.eqb_refl in Z. apply Z; lia. }
        pose proof (sum_le T (fun x => tw true (w_pc s x)) (fun x => tw false (w_pc s x)) 3 (fun x => cw (w_pc s x))) as SL.
        rewrite E in SL. rewrite Nat.mul_0_r, Nat.add_0_r in SL. apply SL.
        intros x. destruct (w_pc s x); cbn; lia.
Qed.

Lemma eff_B : forall s' s, phaseB n f l s -> eff s' s -> phaseB n f l s' /\ lexlt levels (meas s') (meas s).
Proof.
  intros s' s B (I & t & Ht & -> & E).
  assert (Tpos : 0 < T) by lia.
  split.
  { pose proof (winv_step n alloc false T f l FL AL s t Ht I) as (_ & _ & [A|A]); auto.
    exfalso. destruct A as (h & cur & A1 & _).
    assert (l <= w_nw (wstep t s)); [|lia].
    destruct B as (B1 & B2 & B3 & B4 & B5). unfold BlockIOM.wstep.
    destruct (w_pc s t) eqn:PC; cbn [w_goto w_nw]; auto.
    - destruct (w_nw s =? b); auto.
    - specialize (B5 _ _ PC). lia.
    - destruct (w_nw s <? n); auto.
    - destruct (w_nw s <? n); auto. }
  destruct B as (B1 & B2 & B3 & B4 & B5). revert E.
  destruct I as (_ & X & _). specialize (X eq_refl t).
  unfold BlockIOM.wstep. destruct (w_pc s t) eqn:PC; cbn [w_pc]; intros E.
  - destruct (Nat.ltb_spec (w_nc s) n); [lia|]. apply dec_move; rewrite ?PC; auto; cbn; lia.
  - exfalso. apply (B4 t b). rewrite PC; now left.
  - exfalso. apply (B4 t b). rewrite PC; right; now left.
  - exfalso. apply (B4 t b). rewrite PC; right; now right.
  - apply dec_move; rewrite ?PC; auto; cbn [aw cw tw]; try lia.
    + intros j J1 J2. destruct (Nat.eqb_spec (S (w_nw s)) j); lia.
    + intros. destruct (n <=? w_nw s); lia.
  - now apply dec_write.
  - destruct (Nat.ltb_spec (w_nw s) n).
    + apply dec_move; rewrite ?PC; auto; destruct (alloc (w_nw s)); cbn; lia.
    + apply dec_move; rewrite ?PC; auto; cbn; lia.
  - now destruct X.
  - rewrite PC in E. now elim E.
  - now destruct X.
Qed.

Lemma acc_B : forall s, phaseB n f l s -> Acc eff s.
Proof.
  intros s. remember (meas s) as m eqn:E. revert s E.
  induction (lexlt_acc levels m) as [m _ IH]. intros s -> B. constructor. intros s' Ef.
  destruct (eff_B s' s B Ef) as [B' L]. apply (IH (meas s')); auto.
Qed.

Definition aweight (p : wpc) : nat :=
  match p with WComp _ => 8 | WWait _ => 7 | WAdd _ => 6 | WIncR => 5 | WIncW _ => 4 | WScan => 3 | WIdx => 0 | WFetch => 1 | _ => 0 end.
Definition ameas (s : wstate) : nat := sumT T (fun x => aweight (w_pc s x)) + 10 * (n - w_nc s).

Lemma ameas_dec : forall s' s, phaseA n T f l s -> eff s' s -> ameas s' < ameas s.
Proof.
  intros s' s A (I & t & Ht & -> & E). revert E. destruct I as (_ & X & _). specialize (X eq_refl t).
  destruct A as (h & cur & A1 & A2 & A3 & _).
  unfold BlockIOM.wstep, ameas. destruct (w_pc s t) eqn:PC; cbn [w_pc w_nc w_goto]; intros E.
  - destruct (Nat.ltb_spec (w_nc s) n).
    + assert (alloc (w_nc s) = true) as -> by (apply AL; lia).
      pose proof (sum_upd T aweight (w_pc s) t (WComp (w_nc s)) Ht) as SU. rewrite PC in SU. cbn [aweight] in SU.
      destruct (skip_spec n alloc n (S (w_nc s))) as (P & _); [lia|]. lia.
    + pose proof (sum_upd T aweight (w_pc s) t WDone Ht) as SU. rewrite PC in SU. cbn [aweight] in SU.
      destruct (skip_spec n alloc n (S (w_nc s))) as (P & _); [lia|]. lia.
  - pose proof (sum_upd T aweight (w_pc s) t (WWait b) Ht) as SU. rewrite PC in SU. cbn [aweight] in SU. lia.
  - destruct (w_nw s =? b); [|now elim E]. cbn [w_pc w_nc w_goto].
    pose proof (sum_upd T aweight (w_pc s) t (WAdd b) Ht) as SU. rewrite PC in SU. cbn [aweight] in SU. lia.
  - pose proof (sum_upd T aweight (w_pc s) t WIncR Ht) as SU. rewrite PC in SU. cbn [aweight] in SU. lia.
  - pose proof (sum_upd T aweight (w_pc s) t (WIncW (w_nw s)) Ht) as SU. rewrite PC in SU. cbn [aweight] in SU. lia.
  - pose proof (sum_upd T aweight (w_pc s) t WScan Ht) as SU. rewrite PC in SU. cbn [aweight] in SU. lia.
  - destruct (Nat.ltb_spec (w_nw s) n); [|lia].
    assert (alloc (w_nw s) = true) as -> by (apply AL; lia). cbn [w_pc w_nc w_goto].
    pose proof (sum_upd T aweight (w_pc s) t WFetch Ht) as SU. rewrite PC in SU. cbn [aweight] in SU. lia.
  - now destruct X.
  - rewrite PC in E. now elim E.
  - now destruct X.
Qed.

Lemma acc_eff : forall s, winv s -> Acc eff s.
Proof.
  intros s I. destruct I as (D & X & [A|B]); [|now apply acc_B].
  assert (I : winv s) by (split; [|split]; auto). clear D X.
  remember (ameas s) as m eqn:Em. revert s A Em I.
  induction m as [m IH] using lt_wf_ind. intros s A -> I. constructor. intros s' E.
  pose proof (ameas_dec s' s A E) as L.
  destruct E as (I' & t & Ht & -> & E).
  pose proof (winv_step n alloc false T f l FL AL s t Ht I) as J.
  destruct J as (D & X & [A'|B']); [|now apply acc_B].
  eapply IH; eauto. split; [|split]; auto.
Qed.
End Term.
