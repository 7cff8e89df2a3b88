(** Threads sharing the streams of an archive. *)
From Coq Require Import ZArith List Bool Arith Lia.
From Verif Require Import Model.Base Model.OgawaM Spec.OgawaSpec Model.StreamsM Spec.StreamsSpec.
Import ListNotations.
Open Scope Z_scope.

Lemma nset {A} (l : list A) n a i :
  nth_error (list_set l n a) i = if (i =? n)%nat then (match nth_error l i with Some _ => Some a | None => None end) else nth_error l i.
Proof.
  revert n i; induction l as [|x l IH]; intros n i.
  - destruct n, i; simpl; auto. destruct (_ =? _)%nat; auto.
  - destruct n, i; simpl; auto.
Qed.
Lemma lset {A} (l : list A) n a : length (list_set l n a) = length l.
Proof. revert n; induction l; destruct n; simpl; auto. Qed.

Definition holds (c : spc) : list nat :=
  match c with
  | Out => []
  | Ask h i => h
  | Inside h i | Found h i | Sought h i => i :: h
  | Leave h d => h
  end.
Definition chain (n : nat) (l : list nat) : Prop :=
  (exists i, l = [i] /\ (i < n)%nat) \/ (exists j, l = [0%nat; j] /\ (0 < j < n)%nat).
Definition pc_ok (n : nat) (c : spc) : Prop :=
  match c with
  | Out => True
  | Ask h i | Inside h i | Found h i | Sought h i => chain n (i :: h)
  | Leave h d => chain n h
  end.

Section P.
Context {A : Type}.
Variable f : list Z.
Variable progs : list (prog A).
Variable n : nat.
Notation world := (world (A := A)).
Notation thread := (thread (A := A)).

Definition shows (s : strm) : Prop :=
  st_bad s = false /\ 0 <= st_off s /\ exists after, skipn (Z.to_nat (st_off s)) (st_bytes s) = f ++ after.

Lemma skipn_add {B} (l : list B) : forall a b, skipn a (skipn b l) = skipn (b + a) l.
Proof. induction l as [|x l IH]; intros a [|b]; simpl; auto. now rewrite !skipn_nil. Qed.
Lemma shows_seek s p : shows s -> shows (do_seek s p) /\ st_cur (do_seek s p) = p + st_off s /\ st_off (do_seek s p) = st_off s.
Proof. intros (B & O & x & E). unfold do_seek. rewrite B. repeat split; simpl; eauto. Qed.
Lemma shows_read s p m d : shows s -> st_cur s = p + st_off s -> read_at f p m = Some d ->
  exists s', do_read s m = (s', d) /\ shows s'.
Proof.
  intros (B & O & x & E) C R. unfold read_at in R. destruct (_ && _ && _) eqn:G; [|discriminate]. injection R as <-.
  apply andb_true_iff in G. destruct G as [G G3]. apply andb_true_iff in G. destruct G as [G1 G2].
  apply Z.leb_le in G1, G2, G3.
  assert (S : firstn (Z.to_nat m) (skipn (Z.to_nat (st_cur s)) (st_bytes s)) = firstn (Z.to_nat m) (skipn (Z.to_nat p) f)).
  { rewrite C. replace (Z.to_nat (p + st_off s)) with (Z.to_nat (st_off s) + Z.to_nat p)%nat by lia.
    rewrite <- skipn_add, E, skipn_app.
    rewrite firstn_app. rewrite skipn_length.
    replace (Z.to_nat m - _)%nat with 0%nat by lia. cbn [firstn]. now rewrite app_nil_r. }
  assert (L : Z.of_nat (length (firstn (Z.to_nat m) (skipn (Z.to_nat p) f))) = m).
  { rewrite firstn_length, skipn_length. lia. }
  unfold do_read. rewrite B, S, L, Z.eqb_refl. eexists. split; [reflexivity|]. repeat split; simpl; eauto.
Qed.

Definition thread_ok (ss : list (option strm)) (t : nat) (th : thread) : Prop :=
  (exists p, nth_error progs t = Some p /\ alone f p <> None /\ alone f (th_prog th) = alone f p) /\
  pc_ok n (th_pc th) /\
  match th_prog th with
  | Ret _ => th_pc th = Out
  | Read r k =>
      match th_pc th with
      | Found h i => exists s, nth_error ss i = Some (Some s)
      | Sought h i => exists s, nth_error ss i = Some (Some s) /\ st_cur s = rq_pos r + st_off s
      | Leave h d => read_at f (rq_pos r) (rq_size r) = Some d
      | _ => True
      end
  end.
Lemma thread_ok_frame ss ss' t th : thread_ok ss t th ->
  (forall j, In j (holds (th_pc th)) -> nth_error ss' j = nth_error ss j) -> thread_ok ss' t th.
Proof.
  intros (P & C & M) F. split; [exact P|]. split; [exact C|].
  destruct (th_prog th); auto. destruct (th_pc th); auto; simpl in F; rewrite (F i) by auto; exact M.
Qed.

Record inv (w : world) : Prop := Inv {
  i_valid : w_valid w = true;
  i_n : (0 < n)%nat;
  i_ss : length (w_streams w) = n;
  i_ll : length (w_locks w) = n;
  i_str : forall i o, nth_error (w_streams w) i = Some o ->
          match o with Some s => shows s | None => w_named w = true /\ i <> 0%nat end;
  i_disk : w_named w = true -> w_disk w = None \/ w_disk w = Some f;
  i_A : forall t th i, nth_error (w_threads w) t = Some th -> In i (holds (th_pc th)) -> nth_error (w_locks w) i = Some (Some t);
  i_B : forall i t, nth_error (w_locks w) i = Some (Some t) -> exists th, nth_error (w_threads w) t = Some th /\ In i (holds (th_pc th));
  i_len : length (w_threads w) = length progs;
  i_thr : forall t th, nth_error (w_threads w) t = Some th -> thread_ok (w_streams w) t th }.

Lemma upd_pc w t th0 p c : inv w -> nth_error (w_threads w) t = Some th0 -> holds c = holds (th_pc th0) ->
  thread_ok (w_streams w) t (Thread p c) -> inv (set_pc w t p c).
Proof.
  intros I T H K. destruct I. constructor; simpl; auto.
  - intros t' th' i. rewrite nset. destruct (Nat.eqb_spec t' t) as [->|N].
    + rewrite T. intros [= <-]. cbn [th_pc]. rewrite H. intros Hj. exact (i_A0 _ _ _ T Hj).
    + intros T' Hj. exact (i_A0 _ _ _ T' Hj).
  - intros i t' L. destruct (i_B0 _ _ L) as (th & Th & In'). rewrite nset.
    destruct (Nat.eqb_spec t' t) as [->|N]; [|eauto]. rewrite Th. eexists. split; [reflexivity|]. cbn [th_pc]. rewrite H. congruence.
  - now rewrite lset.
  - intros t' th'. rewrite nset. destruct (Nat.eqb_spec t' t) as [->|N]; [|eauto]. rewrite T. intros [= <-]. exact K.
Qed.
Lemma upd_stream w t th0 p c i s : inv w -> nth_error (w_threads w) t = Some th0 -> holds c = holds (th_pc th0) ->
  In i (holds c) -> shows s -> thread_ok (list_set (w_streams w) i (Some s)) t (Thread p c) -> inv (set_pc (set_stream w i s) t p c).
Proof.
  intros I T H Hi S K. pose proof I as I'. destruct I. constructor; simpl; auto.
  - now rewrite lset.
  - intros j o. rewrite nset. destruct (Nat.eqb_spec j i) as [->|N]; [|apply i_str0].
    destruct (nth_error (w_streams w) i); [|discriminate]. intros [= <-]. exact S.
  - intros t' th' j. rewrite nset. destruct (Nat.eqb_spec t' t) as [->|N].
    + rewrite T. intros [= <-]. cbn [th_pc]. rewrite H. intros Hj. exact (i_A0 _ _ _ T Hj).
    + intros T' Hj. exact (i_A0 _ _ _ T' Hj).
  - intros j t' L. destruct (i_B0 _ _ L) as (th & Th & In'). rewrite nset.
    destruct (Nat.eqb_spec t' t) as [->|N]; [|eauto]. rewrite Th. eexists. split; [reflexivity|]. cbn [th_pc]. rewrite H. congruence.
  - now rewrite lset.
  - intros t' th'. rewrite nset. destruct (Nat.eqb_spec t' t) as [->|N]; [rewrite T; intros [= <-]; exact K|].
    intros T'. apply thread_ok_frame with (ss := w_streams w); auto.
    intros j Hj. rewrite nset. destruct (Nat.eqb_spec j i) as [->|]; auto.
    rewrite H in Hi. specialize (i_A0 _ _ _ T Hi). rewrite (i_A _ I' _ _ _ T' Hj) in i_A0. congruence.
Qed.
Lemma upd_lock w t th0 p c i : inv w -> nth_error (w_threads w) t = Some th0 -> nth_error (w_locks w) i = Some None ->
  holds c = i :: holds (th_pc th0) -> thread_ok (w_streams w) t (Thread p c) -> inv (set_pc (set_lock w i (Some t)) t p c).
Proof.
  intros I T L H K. destruct I. constructor; simpl; auto.
  - now rewrite lset.
  - intros t' th' j. rewrite !nset. destruct (Nat.eqb_spec t' t) as [->|N].
    + rewrite T. intros [= <-]. cbn [th_pc]. rewrite H. intros [<-|Hj].
      * rewrite Nat.eqb_refl, L. reflexivity.
      * destruct (Nat.eqb_spec j i) as [->|]; [rewrite L; reflexivity|eauto].
    + intros T' Hj. destruct (Nat.eqb_spec j i) as [->|]; [|eauto]. specialize (i_A0 _ _ _ T' Hj). congruence.
  - intros j t'. rewrite !nset. destruct (Nat.eqb_spec j i) as [->|Nj].
    + rewrite L. intros [= <-]. rewrite Nat.eqb_refl, T. eexists. split; [reflexivity|]. cbn [th_pc]. rewrite H. now left.
    + intros Lj. destruct (i_B0 _ _ Lj) as (th & Th & In').
      destruct (Nat.eqb_spec t' t) as [->|N]; [|eauto]. rewrite Th. eexists. split; [reflexivity|]. cbn [th_pc]. rewrite H. right. congruence.
  - now rewrite lset.
  - intros t' th'. rewrite nset. destruct (Nat.eqb_spec t' t) as [->|N]; [|eauto]. rewrite T. intros [= <-]. exact K.
Qed.
Lemma upd_unlock w t th0 p c i : inv w -> nth_error (w_threads w) t = Some th0 ->
  holds (th_pc th0) = i :: holds c -> ~ In i (holds c) -> thread_ok (w_streams w) t (Thread p c) -> inv (set_pc (set_lock w i None) t p c).
Proof.
  intros I T H U K.
  assert (L : nth_error (w_locks w) i = Some (Some t)). { apply (i_A _ I _ _ _ T). rewrite H. now left. }
  pose proof I as I'. destruct I. constructor; simpl; auto.
  - now rewrite lset.
  - intros t' th' j. rewrite !nset. destruct (Nat.eqb_spec t' t) as [->|N].
    + rewrite T. intros [= <-]. cbn [th_pc]. intros Hj. destruct (Nat.eqb_spec j i) as [->|]; [contradiction|].
      apply (i_A0 _ _ _ T). rewrite H. now right.
    + intros T' Hj. destruct (Nat.eqb_spec j i) as [->|]; [|eauto]. specialize (i_A0 _ _ _ T' Hj). congruence.
  - intros j t'. rewrite !nset. destruct (Nat.eqb_spec j i) as [->|Nj]; [rewrite L; discriminate|].
    intros Lj. destruct (i_B0 _ _ Lj) as (th & Th & In').
    destruct (Nat.eqb_spec t' t) as [->|N]; [|eauto]. rewrite Th. eexists. split; [reflexivity|]. cbn [th_pc].
    assert (th = th0) by congruence. subst. rewrite H in In'. destruct In'; [congruence|auto].
  - now rewrite lset.
  - intros t' th'. rewrite nset. destruct (Nat.eqb_spec t' t) as [->|N]; [|eauto]. rewrite T. intros [= <-]. exact K.
Qed.
Lemma inv_opened w i : inv w -> inv (opened w i).
Proof. intros []. constructor; auto. Qed.
Lemma opened_set (w : world) i t p c : opened (set_pc w t p c) i = set_pc (opened w i) t p c.
Proof. reflexivity. Qed.

Lemma chain_cons i h : chain n (i :: h) -> (i < n)%nat /\ ~ In i h /\ (h = [] \/ i = 0%nat /\ exists j, h = [j] /\ (0 < j < n)%nat).
Proof.
  intros [(x & [= -> ->] & L)|(j & [= -> ->] & L)].
  - repeat split; auto.
  - split; [lia|]. split; [intros [E|[]]; lia|]. right. eauto.
Qed.

(** What is left of the current call, and of a thread. *)
Definition left_pc (c : spc) : nat :=
  match c with
  | Out => 9
  | Ask [] i => 8
  | Inside [] i => 7
  | Ask h i => 6
  | Inside h i => 5
  | Found h i => 3 + length h
  | Sought h i => 2 + length h
  | Leave h d => length h
  end.
Definition left (th : thread) : nat :=
  match th_prog th with Ret _ => 0 | Read r k => 9 * (reads f (th_prog th) - 1) + left_pc (th_pc th) end.
Definition lefts (l : list thread) : nat := fold_right (fun th m => (left th + m)%nat) 0%nat l.
Lemma lefts_set l : forall t th0 th, nth_error l t = Some th0 -> (left th < left th0)%nat -> (lefts (list_set l t th) < lefts l)%nat.
Proof.
  induction l as [|x l IH]; intros [|t] th0 th; simpl; try discriminate.
  - intros [= ->] L. lia.
  - intros T L. specialize (IH _ _ _ T L). lia.
Qed.

Lemma step_inv w t : inv w -> exists x, s_step w t = Ok x /\
  match x with
  | Some w' => inv w' /\ (lefts (w_threads w') < lefts (w_threads w))%nat
  | None => match nth_error (w_threads w) t with
            | Some th => match th_prog th with
                         | Ret _ => True
                         | Read _ _ => exists h i t', th_pc th = Ask h i /\ nth_error (w_locks w) i = Some (Some t')
                         end
            | None => True
            end
  end.
Proof.
  intros I. unfold s_step. destruct (nth_error (w_threads w) t) as [[p c]|] eqn:T; [|exists None; split; [reflexivity|exact Logic.I]].
  destruct p as [a|r k]; [exists None; split; [reflexivity|exact Logic.I]|].
  pose proof (i_thr _ I _ _ T) as K. destruct K as ((p0 & P0 & D & P) & C & M). cbn [th_prog th_pc] in *.
  assert (G : exists d, read_at f (rq_pos r) (rq_size r) = Some d /\ alone f (k d) = alone f p0).
  { cbn [alone] in P. destruct (read_at f (rq_pos r) (rq_size r)) as [d|]; eauto. now rewrite <- P in D. }
  assert (Q : exists p, nth_error progs t = Some p /\ alone f p <> None /\ alone f (th_prog (Thread (Read r k) c)) = alone f p) by (exists p0; auto).
  assert (LT : forall c', (left_pc c' < left_pc c)%nat -> (left (Thread (Read r k) c') < left (Thread (Read r k) c))%nat).
  { intros c' L. unfold left. cbn [th_prog th_pc]. lia. }
  destruct c as [|h i|h i|h i|h i|h d].
  - rewrite (i_valid _ I). cbn [negb]. eexists. split; [reflexivity|]. split.
    + apply upd_pc with (th0 := Thread (Read r k) Out); auto. split; [exact Q|]. split; [|exact Logic.I].
      cbn [th_pc pc_ok]. left. eexists. split; [reflexivity|]. rewrite (i_ss _ I). destruct (Nat.ltb_spec (rq_id r) n); [lia|apply (i_n _ I)].
    + apply lefts_set with (th0 := Thread (Read r k) Out); [exact T|]. apply LT. cbn. lia.
  - cbn [pc_ok] in C. destruct (chain_cons _ _ C) as (L & U & S).
    destruct (nth_error (w_locks w) i) as [[o|]|] eqn:Lk.
    + eexists. split; [reflexivity|]. rewrite ?T. cbn. eauto.
    + eexists. split; [reflexivity|]. split.
      * apply upd_lock with (th0 := Thread (Read r k) (Ask h i)); auto. split; [exact Q|]. split; [exact C|exact Logic.I].
      * apply lefts_set with (th0 := Thread (Read r k) (Ask h i)); [exact T|]. apply LT. destruct h; cbn; lia.
    + apply nth_error_None in Lk. rewrite (i_ll _ I) in Lk. lia.
  - cbn [pc_ok] in C. destruct (chain_cons _ _ C) as (L & U & S).
    destruct (nth_error (w_streams w) i) as [[s|]|] eqn:St.
    + eexists. split; [reflexivity|]. split.
      * apply upd_pc with (th0 := Thread (Read r k) (Inside h i)); auto. split; [exact Q|]. split; [exact C|]. cbn. eauto.
      * apply lefts_set with (th0 := Thread (Read r k) (Inside h i)); [exact T|]. apply LT.
        destruct S as [->|(-> & j & -> & _)]; cbn; lia.
    + destruct (i_str _ I _ _ St) as [Nm I0]. rewrite Nm. cbn [negb].
      assert (h = []) by (destruct S as [S|[S _]]; [exact S|contradiction]). subst h.
      destruct (i_disk _ I Nm) as [Dk|Dk]; rewrite Dk.
      * destruct (Nat.eqb_spec i 0) as [|_]; [contradiction|]. eexists. split; [reflexivity|]. split.
        -- apply upd_pc with (th0 := Thread (Read r k) (Inside [] i)); auto. split; [exact Q|]. split; [|exact Logic.I].
           cbn. right. exists i. split; [reflexivity|lia].
        -- apply lefts_set with (th0 := Thread (Read r k) (Inside [] i)); [exact T|]. apply LT. cbn. lia.
      * eexists. split; [reflexivity|]. split.
        -- rewrite <- opened_set. apply inv_opened.
           apply upd_stream with (th0 := Thread (Read r k) (Inside [] i)); auto; [now left| |].
           ++ repeat split; simpl; [lia|]. exists []. now rewrite app_nil_r.
           ++ split; [exact Q|]. split; [exact C|]. cbn. rewrite nset, Nat.eqb_refl, St. eauto.
        -- apply lefts_set with (th0 := Thread (Read r k) (Inside [] i)); [exact T|]. apply LT. cbn. lia.
    + apply nth_error_None in St. rewrite (i_ss _ I) in St. lia.
  - destruct M as (s & St). rewrite St. destruct (shows_seek s (rq_pos r) (i_str _ I _ _ St)) as (S1 & S2 & S3).
    eexists. split; [reflexivity|]. split.
    + apply upd_stream with (th0 := Thread (Read r k) (Found h i)); auto; [now left|].
      split; [exact Q|]. split; [exact C|]. cbn. rewrite nset, Nat.eqb_refl, St. eexists. split; [reflexivity|]. congruence.
    + apply lefts_set with (th0 := Thread (Read r k) (Found h i)); [exact T|]. apply LT. cbn. lia.
  - destruct M as (s & St & Cu). rewrite St. destruct G as (d & Rd & Ad).
    destruct (shows_read s _ _ _ (i_str _ I _ _ St) Cu Rd) as (s' & -> & S').
    eexists. split; [reflexivity|]. split.
    + apply upd_stream with (th0 := Thread (Read r k) (Sought h i)); auto; [now left|].
      split; [exact Q|]. split; [exact C|]. exact Rd.
    + apply lefts_set with (th0 := Thread (Read r k) (Sought h i)); [exact T|]. apply LT. cbn. lia.
  - cbn [pc_ok] in C. destruct h as [|i h].
    { destruct C as [(x & E & _)|(x & E & _)]; discriminate. }
    destruct (chain_cons _ _ C) as (L & U & S). destruct G as (d' & Rd & Ad). assert (d' = d) by congruence. subst d'.
    destruct h as [|j h].
    + eexists. split; [reflexivity|]. split.
      * apply upd_unlock with (th0 := Thread (Read r k) (Leave [i] d)); auto.
        split; [exists p0; auto|]. split; [exact Logic.I|]. cbn. destruct (k d); auto.
      * apply lefts_set with (th0 := Thread (Read r k) (Leave [i] d)); [exact T|]. unfold left. cbn [th_prog th_pc reads left_pc length].
        rewrite Rd. destruct (k d); cbn [reads]; lia.
    + destruct S as [S|(-> & x & [= -> ->] & L')]; [discriminate|].
      eexists. split; [reflexivity|]. split.
      * apply upd_unlock with (th0 := Thread (Read r k) (Leave [0%nat; x] d)); auto.
        split; [exact Q|]. split; [|exact Rd]. cbn. left. exists x. split; [reflexivity|lia].
      * apply lefts_set with (th0 := Thread (Read r k) (Leave [0%nat; x] d)); [exact T|]. apply LT. cbn. lia.
Qed.

Lemma run_inv acts : forall w, inv w -> steady f acts -> exists w', s_run w acts = Ok w' /\ inv w' /\
  (moves w acts + lefts (w_threads w') <= lefts (w_threads w))%nat.
Proof.
  induction acts as [|a acts IH]; intros w I S.
  - exists w. auto.
  - assert (S' : steady f acts) by (intros d H; apply S; now right). cbn [s_run moves]. destruct a as [t|d].
    + cbn [s_act]. destruct (step_inv w t I) as (x & E & X). rewrite E. cbn [bind].
      destruct x as [w'|].
      * destruct X as [I' L]. destruct (IH w' I' S') as (w2 & R & I2 & L2). exists w2. split; [exact R|]. split; [exact I2|]. lia.
      * destruct (IH w I S') as (w2 & R & I2 & L2). exists w2. split; [exact R|]. split; [exact I2|]. lia.
    + cbn [s_act bind].
      assert (I' : inv (World (w_valid w) (w_named w) d (w_streams w) (w_locks w) (w_opens w) (w_threads w))).
      { destruct I. constructor; simpl; auto. intros _. apply S. now left. }
      destruct (IH _ I' S') as (w2 & R & I2 & L2). exists w2. split; [exact R|]. split; [exact I2|]. simpl in *. lia.
Qed.
Lemma no_wait w : inv w -> (forall t, s_step w t = Ok None) -> forall t th, nth_error (w_threads w) t = Some th -> exists a, th_prog th = Ret a.
Proof.
  intros I N.
  assert (X : forall t th r k, nth_error (w_threads w) t = Some th -> th_prog th = Read r k ->
    exists h i t', th_pc th = Ask h i /\ chain n (i :: h) /\ nth_error (w_locks w) i = Some (Some t')).
  { intros t th r k T P. destruct (step_inv w t I) as (x & E & X). rewrite N in E. injection E as <-. rewrite T, P in X.
    destruct X as (h & i & t' & C & L). exists h, i, t'. repeat split; auto.
    pose proof (i_thr _ I _ _ T) as (_ & K & _). rewrite C in K. exact K. }
  assert (Y : forall i t, nth_error (w_locks w) i = Some (Some t) -> exists r k th, nth_error (w_threads w) t = Some th /\ th_prog th = Read r k /\ In i (holds (th_pc th))).
  { intros i t L. destruct (i_B _ I _ _ L) as (th & T & Hi). destruct (th_prog th) as [a|r k] eqn:P; [|eauto 6].
    pose proof (i_thr _ I _ _ T) as (_ & _ & K). rewrite P in K. rewrite K in Hi. destruct Hi. }
  assert (Z0 : forall t, nth_error (w_locks w) 0 <> Some (Some t)).
  { intros t L. destruct (Y _ _ L) as (r & k & th & T & P & Hi). destruct (X _ _ _ _ T P) as (h & i & t' & C & Ch & _).
    rewrite C in Hi. cbn in Hi. destruct (chain_cons _ _ Ch) as (_ & _ & [->|(_ & j & -> & L')]); [destruct Hi|].
    destruct Hi as [Hi|[]]. lia. }
  intros t th T. destruct (th_prog th) as [a|r k] eqn:P; [eauto|]. exfalso.
  destruct (X _ _ _ _ T P) as (h & i & t' & C & Ch & L). destruct (Y _ _ L) as (r' & k' & th' & T' & P' & Hi).
  destruct (X _ _ _ _ T' P') as (h' & i' & t2 & C' & Ch' & L'). rewrite C' in Hi. cbn in Hi.
  destruct (chain_cons _ _ Ch') as (_ & _ & [->|(-> & j & -> & _)]); [destruct Hi|]. apply (Z0 _ L').
Qed.
Lemma inv_result w t th a : inv w -> nth_error (w_threads w) t = Some th -> th_prog th = Ret a ->
  exists p, nth_error progs t = Some p /\ alone f p = Some a.
Proof. intros I T P. destruct (i_thr _ I _ _ T) as ((p & Hp & _ & E) & _). rewrite P in E. cbn in E. eauto. Qed.
End P.

(** * Which streams are taken *)
Definition raw (s : list Z * Z) : strm := Strm (fst s) (snd s) (snd s) false.
Definition heading (s : list Z * Z) : head :=
  Head (is_valid (stream_init (head16 s))) (is_frozen (stream_init (head16 s))) (is_version (stream_init (head16 s))) (dec_le (skipn 8 (head16 s))).
Lemma firstn16 (l : list Z) : firstn 16 (firstn 16 l ++ repeat 0 16) = firstn 16 (l ++ repeat 0 16).
Proof.
  destruct (le_lt_dec 16 (length l)) as [G|G].
  - rewrite !firstn_app, firstn_firstn, Nat.min_id, firstn_length_le by auto. replace (16 - length l)%nat with 0%nat by lia. rewrite Nat.sub_diag. auto.
  - rewrite (firstn_all2 l) by lia. auto.
Qed.
Lemma head_len s : length (head16 s) = 16%nat.
Proof. unfold head16. rewrite firstn_length_le; auto. rewrite app_length, repeat_length. lia. Qed.
Lemma read_head_of s : snd (read_head (raw s)) = heading s.
Proof.
  unfold read_head, do_read, raw, heading. cbn [st_bad st_bytes st_cur]. cbn [snd].
  change (Z.to_nat 16) with 16%nat. rewrite firstn16. reflexivity.
Qed.
Definition same_head (h h' : head) : Prop := hd_pos h = hd_pos h' /\ hd_frozen h = hd_frozen h' /\ hd_version h = hd_version h'.
Lemma init_rest_ok h0 l : snd (init_rest h0 (map raw l)) = true <-> forall s, In s l -> hd_valid (heading s) = true /\ same_head h0 (heading s).
Proof.
  induction l as [|s l IH]; cbn [map init_rest snd]; [split; auto; intros _ s []|].
  pose proof (read_head_of s) as R. destruct (read_head (raw s)) as [s' h]. cbn [snd] in R. subst h.
  destruct (hd_valid (heading s)) eqn:V; cbn [negb]; [|split; [discriminate|]; intros H; destruct (H s (or_introl eq_refl)); congruence].
  destruct (hd_pos h0 =? hd_pos (heading s)) eqn:P; cbn [negb orb].
  2: { split; [discriminate|]. intros H. destruct (H s (or_introl eq_refl)) as (_ & Q & _). apply Z.eqb_neq in P. congruence. }
  destruct (Bool.eqb (hd_frozen h0) (hd_frozen (heading s))) eqn:F; cbn [negb orb].
  2: { split; [discriminate|]. intros H. destruct (H s (or_introl eq_refl)) as (_ & _ & Q & _). apply Bool.eqb_false_iff in F. congruence. }
  destruct (hd_version h0 =? hd_version (heading s)) eqn:Ve; cbn [negb orb].
  2: { split; [discriminate|]. intros H. destruct (H s (or_introl eq_refl)) as (_ & _ & _ & Q). apply Z.eqb_neq in Ve. congruence. }
  apply Z.eqb_eq in P, Ve. apply Bool.eqb_prop in F. destruct (init_rest h0 (map raw l)) as [r ok]. cbn [snd] in *. rewrite IH. split.
  - intros H x [<-|X]; [|auto]. split; [auto|]. split; auto.
  - intros H x X. apply H. right. auto.
Qed.
Lemma init_streams_ok l : snd (fst (init_streams (map raw l))) = true <->
  l <> [] /\ (forall s, In s l -> hd_valid (heading s) = true) /\ (forall s s', In s l -> In s' l -> same_head (heading s) (heading s')).
Proof.
  destruct l as [|s l]; cbn [map init_streams fst snd]; [split; [discriminate|]; intros (H & _); congruence|].
  pose proof (read_head_of s) as R. destruct (read_head (raw s)) as [s' h]. cbn [snd] in R. subst h.
  destruct (hd_valid (heading s)) eqn:V; cbn [negb fst snd]; [|split; [discriminate|]; intros (_ & H & _); rewrite (H s (or_introl eq_refl)) in V; discriminate].
  pose proof (init_rest_ok (heading s) l) as I. destruct (init_rest (heading s) (map raw l)) as [r ok]. cbn [fst snd] in *. rewrite I. split.
  - intros H. split; [discriminate|]. split; [intros x [<-|X]; [auto|apply H; auto]|].
    assert (G : forall x, In x (s :: l) -> same_head (heading s) (heading x)) by (intros x [<-|X]; [repeat split|apply H; auto]).
    intros x x' X X'. destruct (G x X) as (A1 & A2 & A3), (G x' X') as (B1 & B2 & B3). repeat split; congruence.
  - intros (_ & H1 & H2) x X. split; [apply H1; right; auto|]. apply H2; [left; auto|right; auto].
Qed.
Lemma valid_head s : hd_valid (heading s) = true <-> starts_ogawa (head16 s).
Proof.
  unfold heading, starts_ogawa, stream_init, first16. cbn [hd_valid].
  assert (E : firstn 16 (head16 s ++ repeat 0 16) = head16 s) by (rewrite firstn_app, head_len, Nat.sub_diag, firstn_O, app_nil_r; apply firstn_all2; rewrite head_len; auto). rewrite E.
  destruct (list_eq_dec _ _ _) as [Q|Q]; cbn [is_valid]; split; auto; try discriminate; try tauto.
Qed.
Lemma same_head_agree s s' : hd_valid (heading s) = true -> hd_valid (heading s') = true ->
  same_head (heading s) (heading s') <-> agree (head16 s) (head16 s').
Proof.
  intros V V'. apply valid_head in V, V'. unfold same_head, agree, heading. cbn [hd_pos hd_frozen hd_version]. unfold stream_init, first16.
  assert (E : forall s, firstn 16 (head16 s ++ repeat 0 16) = head16 s) by (intros x; rewrite firstn_app, head_len, Nat.sub_diag, firstn_O, app_nil_r; apply firstn_all2; rewrite head_len; auto). rewrite !E.
  destruct (list_eq_dec _ (firstn 5 (head16 s)) _) as [Q|Q]; [|contradiction]. destruct (list_eq_dec _ (firstn 5 (head16 s')) _) as [Q'|Q']; [|contradiction].
  cbn [is_frozen is_version]. unfold nthz.
  assert (B : (nth 5 (head16 s) 0 =? 255) = (nth 5 (head16 s') 0 =? 255) <-> (nth 5 (head16 s) 0 = 255 <-> nth 5 (head16 s') 0 = 255)).
  { destruct (Z.eqb_spec (nth 5 (head16 s) 0) 255), (Z.eqb_spec (nth 5 (head16 s') 0) 255); split; intros H; auto; try discriminate; tauto. }
  rewrite B. tauto.
Qed.

(** * An archive that is not valid *)
Section Invalid.
Context {A : Type} (progs : list (prog A)).
Definition idle_inv (w : world (A := A)) : Prop := w_valid w = false /\ length (w_threads w) = length progs /\
  forall t th p, nth_error (w_threads w) t = Some th -> nth_error progs t = Some p -> th_pc th = Out /\ unread (th_prog th) = unread p.
Lemma idle_run acts : forall w, idle_inv w -> exists w', s_run w acts = Ok w' /\ idle_inv w'.
Proof.
  induction acts as [|a acts IH]; intros w I; cbn [s_run]; [eauto|].
  assert (S : exists w', s_act w a = Ok w' /\ idle_inv w').
  { destruct I as (V & L & T). destruct a as [t|d]; cbn [s_act]; [|eexists; split; [reflexivity|]; repeat split; auto; eapply T; eauto].
    unfold s_step. destruct (nth_error (w_threads w) t) as [[p pc]|] eqn:E; [|eexists; split; [reflexivity|]; repeat split; auto; eapply T; eauto].
    destruct p as [a|r k]; [eexists; split; [reflexivity|]; repeat split; auto; eapply T; eauto|].
    destruct (nth_error progs t) as [p0|] eqn:E0.
    2: { apply nth_error_None in E0. rewrite <- L in E0. apply nth_error_None in E0. congruence. }
    destruct (T _ _ _ E E0) as (PC & U). cbn [th_pc th_prog] in PC, U. subst pc. rewrite V. cbn [negb bind]. eexists. split; [reflexivity|].
    split; [auto|]. split; [cbn [set_pc w_threads]; rewrite lset; auto|]. cbn [set_pc w_threads]. intros t' th p' N N'. rewrite nset in N.
    destruct (Nat.eqb_spec t' t) as [->|D]; [rewrite E in N; injection N as <-; cbn [th_pc th_prog]; rewrite E0 in N'; injection N' as <-; auto|eapply T; eauto]. }
  destruct S as (w' & S & I'). rewrite S. cbn [bind]. auto.
Qed.
End Invalid.
