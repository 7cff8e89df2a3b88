From Coq Require Import ZArith List Bool Arith Lia.
From Verif Require Import Model.Base Model.OgawaM Spec.OgawaSpec Model.OgM Proof.OgP Proof.FileP Model.RefM Spec.RefSpec.
Import ListNotations.
Open Scope Z_scope.

Lemma set_nth_length {A} (l : list A) : forall i x, List.length (set_nth l i x) = List.length l.
Proof. induction l; destruct i; cbn; auto. Qed.
Lemma nth_error_set {A} (l : list A) : forall i x j,
  nth_error (set_nth l i x) j = if Nat.eqb i j then (match nth_error l j with Some _ => Some x | None => None end) else nth_error l j.
Proof.
  induction l as [|y l IH]; intros [|i] x [|j]; cbn; try apply IH; auto. destruct (Nat.eqb i j); auto.
Qed.

Lemma nth_set {A} (l : list A) : forall h p d, (h < List.length l)%nat -> nth h (set_nth l h p) d = p.
Proof. induction l as [|y l IH]; intros [|h] p d H; cbn in *; auto; try lia. apply IH. lia. Qed.

(** How often an object is referred to. *)
Definition refers (o : nat) (p : option nat) : bool := match p with Some o' => Nat.eqb o' o | None => false end.
Fixpoint count (o : nat) (l : list (option nat)) : Z :=
  match l with [] => 0 | p :: r => (if refers o p then 1 else 0) + count o r end.
Lemma count_nonneg o l : 0 <= count o l.
Proof. induction l as [|p l IH]; cbn [count]; [lia|]. destruct (refers o p); lia. Qed.
Lemma count_app o a b : count o (a ++ b) = count o a + count o b.
Proof. induction a; cbn [app count]; lia. Qed.
Lemma count_in o l : 0 < count o l <-> In (Some o) l.
Proof.
  induction l as [|p l IH]; cbn [count In]; [split; [lia|tauto]|]. pose proof (count_nonneg o l).
  destruct p as [o'|]; cbn [refers].
  - destruct (Nat.eqb_spec o' o) as [->|N]; [split; [auto|lia]|]. rewrite <- IH. split; [right; lia|]. intros [K|K]; [congruence|lia].
  - rewrite <- IH. split; [right; lia|]. intros [K|K]; [congruence|lia].
Qed.
Lemma count_set o l : forall h p, (h < List.length l)%nat ->
  count o (set_nth l h p) + (if refers o (nth h l None) then 1 else 0) = count o l + (if refers o p then 1 else 0).
Proof.
  induction l as [|q l IH]; intros [|h] p H; cbn [set_nth count nth List.length] in *; try lia.
  specialize (IH h p ltac:(lia)). lia.
Qed.
Fixpoint deaths (o : nat) (l : list nat) : Z := match l with [] => 0 | x :: r => (if Nat.eqb x o then 1 else 0) + deaths o r end.

Section P.
Context {V : Type}.
Implicit Types s : @rst V.

(** [tmp]: pointers that are not in variables. [fresh]: an object just created. *)
Record inv (s : @rst V) (tmp : list (option nat)) (fresh : option nat) : Prop := Inv {
  v_bound : forall o, In (Some o) (s_vars s ++ tmp) -> (o < List.length (s_objs s))%nat;
  v_cnt : forall o x, nth_error (s_objs s) o = Some x -> r_cnt x = count o (s_vars s ++ tmp);
  v_live : forall o x, nth_error (s_objs s) o = Some x -> (r_live x = true <-> 0 < count o (s_vars s ++ tmp) \/ fresh = Some o);
  v_dead : forall o x, nth_error (s_objs s) o = Some x -> deaths o (s_deleted s) = if r_live x then 0 else 1;
  v_past : forall o, (List.length (s_objs s) <= o)%nat -> deaths o (s_deleted s) = 0 }.

Lemma inv_start n : inv (r_start n) [] None.
Proof.
  split; cbn; intros; try (destruct o; discriminate); auto.
  rewrite app_nil_r in H. apply repeat_spec in H. discriminate.
Qed.
Lemma live_held s tmp fr o : inv s tmp fr -> 0 < count o (s_vars s ++ tmp) -> exists x, nth_error (s_objs s) o = Some x /\ live_obj s o = Ok x /\ r_live x = true.
Proof.
  intros I H. pose proof (v_bound _ _ _ I o (proj1 (count_in _ _) H)) as B. destruct (nth_error (s_objs s) o) as [x|] eqn:N; [|apply nth_error_None in N; lia].
  exists x. split; auto. assert (L : r_live x = true) by (apply (v_live _ _ _ I o x N); auto). unfold live_obj. rewrite N, L. auto.
Qed.
Lemma obj_exists s o : (o < List.length (s_objs s))%nat -> exists x, nth_error (s_objs s) o = Some x.
Proof. intros H. destruct (nth_error (s_objs s) o) eqn:N; [eauto|]. apply nth_error_None in N. lia. Qed.
Lemma alive_with s o x x0 : nth_error (s_objs s) o = Some x0 -> r_live x = r_live x0 -> forall o', alive (with_obj s o x) o' <-> alive s o'.
Proof.
  intros N L o'. unfold alive, with_obj. cbn [s_objs]. rewrite nth_error_set. destruct (Nat.eqb_spec o o') as [<-|]; [|reflexivity].
  rewrite N. split; intros (y & [= <-] & E); eexists; split; try reflexivity; congruence.
Qed.
Lemma inv_ref s tmp fr o : inv s tmp fr -> (fr = Some o \/ fr = None) -> alive s o ->
  exists s', ref s o = Ok s' /\ inv s' (Some o :: tmp) None /\ s_vars s' = s_vars s /\ s_cache s' = s_cache s /\
    List.length (s_objs s') = List.length (s_objs s) /\ (forall o', alive s' o' <-> alive s o').
Proof.
  intros I F (x & N & L). unfold ref, live_obj. rewrite N, L. cbn [bind]. eexists. split; [reflexivity|].
  assert (CE : forall o', count o' (s_vars s ++ Some o :: tmp) = count o' (s_vars s ++ tmp) + if Nat.eqb o o' then 1 else 0).
  { intros o'. rewrite !count_app. cbn [count refers]. destruct (Nat.eqb o o'); lia. }
  split; [split; cbn [with_obj s_vars s_objs s_deleted]|].
  - intros o' H. rewrite set_nth_length. apply in_app_iff in H as [H|[H|H]].
    + apply (v_bound _ _ _ I). apply in_app_iff; auto.
    + injection H as <-. apply nth_error_Some. congruence.
    + apply (v_bound _ _ _ I). apply in_app_iff; auto.
  - intros o' y. rewrite nth_error_set, CE. destruct (Nat.eqb_spec o o') as [<-|].
    + rewrite N. intros [= <-]. cbn. rewrite (v_cnt _ _ _ I o x N). lia.
    + intros H. rewrite (v_cnt _ _ _ I o' y H). lia.
  - intros o' y. rewrite nth_error_set, CE. pose proof (count_nonneg o' (s_vars s ++ tmp)). destruct (Nat.eqb_spec o o') as [<-|D].
    + rewrite N. intros [= <-]. cbn. split; [left; lia|auto].
    + intros K. rewrite (v_live _ _ _ I o' y K). split; [|intros [A|A]; [left; lia|discriminate]].
      intros [A|A]; [left; lia|]. destruct F; congruence.
  - intros o' y. rewrite nth_error_set. destruct (Nat.eqb_spec o o') as [<-|D]; [|apply (v_dead _ _ _ I)].
    rewrite N. intros [= <-]. cbn. rewrite (v_dead _ _ _ I o x N), L. auto.
  - intros o'. rewrite set_nth_length. apply (v_past _ _ _ I).
  - split; [reflexivity|]. split; [reflexivity|]. split; [apply set_nth_length|]. apply alive_with with x; auto.
Qed.

(** An object that is alive afterwards was alive before, and one that a variable or another
    pointer refers to stays alive. *)
Lemma inv_release s tmp o : inv s (Some o :: tmp) None ->
  exists s', release s o = Ok s' /\ inv s' tmp None /\ s_vars s' = s_vars s /\ s_cache s' = s_cache s /\
    List.length (s_objs s') = List.length (s_objs s).
Proof.
  intros I. assert (C0 : 0 < count o (s_vars s ++ Some o :: tmp)) by (apply count_in, in_app_iff; right; left; auto).
  destruct (live_held _ _ _ _ I C0) as (x & N & LO & L). unfold release, unref. rewrite LO. cbn [bind].
  assert (N2 : nth_error (s_objs (with_obj s o (RObj (r_cnt x - 1) (r_live x) (r_val x)))) o = Some (RObj (r_cnt x - 1) (r_live x) (r_val x))).
  { cbn [with_obj s_objs]. rewrite nth_error_set, Nat.eqb_refl, N. reflexivity. }
  unfold live_obj at 1. rewrite N2. cbn [r_live]. rewrite L. cbn [bind r_cnt].
  assert (CE : forall o', count o' (s_vars s ++ Some o :: tmp) = count o' (s_vars s ++ tmp) + if Nat.eqb o o' then 1 else 0).
  { intros o'. rewrite !count_app. cbn [count refers]. destruct (Nat.eqb o o'); lia. }
  assert (CX : r_cnt x - 1 = count o (s_vars s ++ tmp)).
  { rewrite (v_cnt _ _ _ I o x N), CE, Nat.eqb_refl. lia. }
  assert (IB : forall o', In (Some o') (s_vars s ++ tmp) -> In (Some o') (s_vars s ++ Some o :: tmp)).
  { intros o'. rewrite !in_app_iff. cbn. tauto. }
  rewrite CX. destruct (Z.eqb_spec (count o (s_vars s ++ tmp)) 0) as [Z0|Z0].
  - unfold destroy, live_obj. rewrite L, CX in *. rewrite N2. cbn [r_live bind]. eexists. split; [reflexivity|]. split; [split|].
    + cbn. intros o' H. rewrite !set_nth_length. apply (v_bound _ _ _ I). auto.
    + cbn. intros o' y. rewrite !nth_error_set. destruct (Nat.eqb_spec o o') as [<-|D].
      * rewrite N. intros [= <-]. reflexivity.
      * intros K. rewrite (v_cnt _ _ _ I o' y K), CE. destruct (Nat.eqb_spec o o'); [congruence|lia].
    + cbn. intros o' y. rewrite !nth_error_set. destruct (Nat.eqb_spec o o') as [<-|D].
      * rewrite N. intros [= <-]. cbn. split; [discriminate|]. intros [A|A]; [lia|discriminate].
      * intros K. rewrite (v_live _ _ _ I o' y K), CE. destruct (Nat.eqb_spec o o'); [congruence|]. rewrite Z.add_0_r. reflexivity.
    + cbn. intros o' y. rewrite !nth_error_set. destruct (Nat.eqb_spec o o') as [<-|D].
      * rewrite N. intros [= <-]. cbn. rewrite (v_dead _ _ _ I o x N), L. auto.
      * intros K. apply (v_dead _ _ _ I o' y K).
    + cbn. intros o'. rewrite !set_nth_length. intros H. destruct (Nat.eqb_spec o o') as [<-|D]; [|apply (v_past _ _ _ I); auto].
      assert (o < List.length (s_objs s))%nat by (apply nth_error_Some; congruence). lia.
    + cbn. rewrite !set_nth_length. auto.
  - eexists. split; [reflexivity|]. pose proof (count_nonneg o (s_vars s ++ tmp)). split; [split|].
    + cbn. intros o' H1. rewrite !set_nth_length. apply (v_bound _ _ _ I). auto.
    + cbn. intros o' y. rewrite !nth_error_set. destruct (Nat.eqb_spec o o') as [<-|D].
      * rewrite N. intros [= <-]. cbn. auto.
      * intros K. rewrite (v_cnt _ _ _ I o' y K), CE. destruct (Nat.eqb_spec o o'); [congruence|lia].
    + cbn. intros o' y. rewrite !nth_error_set. destruct (Nat.eqb_spec o o') as [<-|D].
      * rewrite N. intros [= <-]. cbn. split; [left; lia|auto].
      * intros K. rewrite (v_live _ _ _ I o' y K), CE. destruct (Nat.eqb_spec o o'); [congruence|]. rewrite Z.add_0_r. reflexivity.
    + cbn. intros o' y. rewrite !nth_error_set. destruct (Nat.eqb_spec o o') as [<-|D].
      * rewrite N. intros [= <-]. cbn. rewrite (v_dead _ _ _ I o x N), L. auto.
      * intros K. apply (v_dead _ _ _ I o' y K).
    + cbn. intros o'. rewrite !set_nth_length. apply (v_past _ _ _ I).
    + cbn. rewrite !set_nth_length. auto.
Qed.

Lemma inv_none s tmp fr : inv s (None :: tmp) fr <-> inv s tmp fr.
Proof.
  assert (CE : forall o', count o' (s_vars s ++ None :: tmp) = count o' (s_vars s ++ tmp)) by (intros o'; rewrite !count_app; reflexivity).
  assert (IE : forall o', In (Some o') (s_vars s ++ None :: tmp) <-> In (Some o') (s_vars s ++ tmp)).
  { intros o'. rewrite !in_app_iff. cbn. intuition discriminate. }
  split; intros []; split; auto; intros; rewrite ?CE in *; rewrite ?IE in *; eauto; try (apply v_bound0; apply IE; auto; fail).
  - rewrite <- CE. eauto.
  - rewrite <- CE. eauto.
Qed.
Lemma inv_swap s h p : inv s [p] None -> (h < List.length (s_vars s))%nat -> inv (set_var s h p) [var s h] None.
Proof.
  intros I H.
  assert (CE : forall o', count o' (s_vars (set_var s h p) ++ [var s h]) = count o' (s_vars s ++ [p])).
  { intros o'. rewrite !count_app. cbn [set_var s_vars count]. pose proof (count_set o' (s_vars s) h p H). unfold var. lia. }
  assert (IE : forall o', In (Some o') (s_vars (set_var s h p) ++ [var s h]) <-> In (Some o') (s_vars s ++ [p])).
  { intros o'. rewrite <- !count_in, CE. reflexivity. }
  destruct I. split; intros; rewrite ?CE in *; rewrite ?IE in *; eauto.
Qed.
Lemma inv_assign s h p fr : inv s [] fr -> (h < List.length (s_vars s))%nat ->
  match p with Some o => (fr = Some o \/ fr = None) /\ alive s o | None => fr = None end ->
  exists s', assign s h p = Ok s' /\ inv s' [] None /\ s_vars s' = set_nth (s_vars s) h p /\ s_cache s' = s_cache s /\
    List.length (s_objs s') = List.length (s_objs s).
Proof.
  intros I H P. assert (R : exists s1, ref_opt s p = Ok s1 /\ inv s1 [p] None /\ s_vars s1 = s_vars s /\ s_cache s1 = s_cache s /\
    List.length (s_objs s1) = List.length (s_objs s)).
  { destruct p as [o|]; cbn [ref_opt].
    - destruct P as (F & A). destruct (inv_ref s [] fr o I F A) as (s1 & E & I1 & X1 & X2 & X3 & _). exists s1. auto.
    - subst fr. exists s. split; auto. split; [apply inv_none; auto|auto]. }
  destruct R as (s1 & E & I1 & X1 & X2 & X3). unfold assign. rewrite E. cbn [bind].
  rewrite <- X1 in H. pose proof (inv_swap s1 h p I1 H) as I2.
  destruct (var s1 h) as [o|]; cbn [release_opt].
  - destruct (inv_release _ _ _ I2) as (s2 & E2 & I3 & Y1 & Y2 & Y3). exists s2. split; auto. split; auto.
    cbn [set_var s_vars s_cache s_objs] in *. rewrite Y1, Y2, Y3, X1. auto.
  - eexists. split; [reflexivity|]. split; [apply (proj1 (inv_none _ _ _)) in I2; auto|]. cbn. rewrite X1. auto.
Qed.
Lemma inv_create s v : inv s [] None -> let (s', o) := create s v in
  inv s' [] (Some o) /\ alive s' o /\ s_vars s' = s_vars s /\ s_cache s' = s_cache s /\ List.length (s_objs s') = S (List.length (s_objs s)) /\
  o = List.length (s_objs s).
Proof.
  intros I. unfold create. set (n := List.length (s_objs s)).
  assert (NB : count n (s_vars s ++ []) = 0).
  { pose proof (count_nonneg n (s_vars s ++ [])). destruct (Z.eq_dec (count n (s_vars s ++ [])) 0); auto.
    assert (K : 0 < count n (s_vars s ++ [])) by lia. apply count_in in K. apply (v_bound _ _ _ I) in K. unfold n in K. lia. }
  assert (NE : forall o x, nth_error (s_objs s ++ [RObj 0 true v]) o = Some x -> (o = n /\ x = RObj 0 true v) \/ (o <> n /\ nth_error (s_objs s) o = Some x)).
  { intros o x H. destruct (lt_eq_lt_dec o n) as [[A|A]|A].
    - right. rewrite nth_error_app1 in H by auto. split; [lia|auto].
    - left. subst o. rewrite nth_error_app2 in H by (unfold n; lia). unfold n in H. rewrite Nat.sub_diag in H. cbn in H. split; congruence.
    - rewrite nth_error_app2 in H by (unfold n in A; lia). destruct (o - List.length (s_objs s))%nat eqn:Q; [unfold n in A; lia|]. cbn in H. destruct n0; discriminate. }
  split; [split; cbn [s_vars s_objs s_deleted]|].
  - intros o H. apply (v_bound _ _ _ I) in H. rewrite app_length. cbn. lia.
  - intros o x H. destruct (NE _ _ H) as [(-> & ->)|(A & B)]; [cbn; auto|apply (v_cnt _ _ _ I o x B)].
  - intros o x H. destruct (NE _ _ H) as [(-> & ->)|(A & B)]; [cbn; split; auto|].
    rewrite (v_live _ _ _ I o x B). split; intros [K|K]; auto; try discriminate. congruence.
  - intros o x H. destruct (NE _ _ H) as [(-> & ->)|(A & B)]; [cbn; apply (v_past _ _ _ I); unfold n; lia|apply (v_dead _ _ _ I o x B)].
  - intros o H. apply (v_past _ _ _ I). rewrite app_length in H. cbn in H. lia.
  - split.
    { exists (RObj 0 true v). cbn [s_objs]. split; auto. rewrite nth_error_app2 by (unfold n; lia). unfold n. rewrite Nat.sub_diag. reflexivity. }
    cbn. rewrite app_length. cbn. repeat split; lia.
Qed.
Lemma held_alive s fr o : inv s [] fr -> held s o -> alive s o.
Proof. intros I H. apply count_in in H. destruct (live_held s [] fr o I) as (x & A & B & C); [rewrite app_nil_r; auto|exists x; auto]. Qed.
Lemma var_held s h o : var s h = Some o -> held s o.
Proof.
  unfold var, held. intros H. destruct (Nat.ltb_spec h (List.length (s_vars s))) as [L|L].
  - rewrite <- H. apply nth_In; auto.
  - rewrite nth_overflow in H by auto. discriminate.
Qed.
Lemma alive_obj s o : alive s o -> exists x, live_obj s o = Ok x /\ nth_error (s_objs s) o = Some x /\ r_live x = true.
Proof. intros (x & N & L). exists x. unfold live_obj. rewrite N, L. auto. Qed.
Lemma inv_val s o x v : inv s [] None -> nth_error (s_objs s) o = Some x -> inv (with_obj s o (RObj (r_cnt x) (r_live x) v)) [] None.
Proof.
  intros [A B C D E] N. split; cbn [with_obj s_vars s_objs s_deleted]; try (rewrite set_nth_length; auto);
  intros o' y; rewrite nth_error_set; destruct (Nat.eqb_spec o o') as [<-|]; try (rewrite N; intros [= <-]; cbn); eauto.
Qed.

Definition evs_key (evs : list rev) (k : bytes) (init : option nat) : option nat :=
  fold_left (fun acc e => match e with EvPut f p o => if bytes_eqb (cache_key f p) k then Some o else acc end) evs init.

(** Every step is defined, keeps the invariant, and the cache follows the events. *)
Lemma cached_alive s f p o : cached s f p = Some o -> alive s o.
Proof.
  unfold cached. destruct (cache_find _ _) as [o'|]; [|discriminate]. destruct (nth_error (s_objs s) o') as [x|] eqn:N; [|discriminate].
  destruct (r_live x) eqn:L; [|discriminate]. intros [= <-]. exists x; auto.
Qed.
Lemma inv_put s o f p : inv s [] None -> inv (put s o f p) [] None.
Proof. intros [A B C D E]. split; auto. Qed.

Lemma step_inv n s c : inv s [] None -> List.length (s_vars s) = n -> (forall h, In h (op_vars c) -> (h < n)%nat) ->
  exists s' e, rstep s c = Ok (s', e) /\ inv s' [] None /\ List.length (s_vars s') = n /\
    (List.length (s_objs s) <= List.length (s_objs s'))%nat /\
    forall k, cache_find (s_cache s') k = evs_key e k (cache_find (s_cache s) k).
Proof.
  intros I L H. destruct c as [h v|h h'|h|h h'|h h'|h f p|h f p|h f p v]; cbn [rstep op_vars] in *.
  - pose proof (inv_create s v I) as C. destruct (create s v) as (s1, o). destruct C as (I1 & A & X1 & X2 & X3 & X4).
    destruct (inv_assign s1 h (Some o) (Some o) I1) as (s2 & E & I2 & Y1 & Y2 & Y3); [rewrite X1, L; auto with datatypes|auto|].
    rewrite E. cbn [bind]. exists s2, []. split; auto. split; auto. split; [rewrite Y1, set_nth_length; congruence|]. split; [lia|].
    intros k. cbn. congruence.
  - destruct (inv_assign s h (var s h') None I) as (s2 & E & I2 & Y1 & Y2 & Y3); [rewrite L; auto with datatypes| |].
    + destruct (var s h') as [o|] eqn:VO; auto. split; auto. apply held_alive with None; auto. apply var_held with h'; auto.
    + rewrite E. cbn [bind]. exists s2, []. split; auto. split; auto. split; [rewrite Y1, set_nth_length; congruence|]. split; [lia|].
      intros k. cbn. congruence.
  - destruct (inv_assign s h None None I) as (s2 & E & I2 & Y1 & Y2 & Y3); [rewrite L; auto with datatypes|auto|].
    rewrite E. cbn [bind]. exists s2, []. split; auto. split; auto. split; [rewrite Y1, set_nth_length; congruence|]. split; [lia|].
    intros k. cbn. congruence.
  - destruct (var s h') as [o'|] eqn:VO.
    + destruct (alive_obj s o') as (x & LO & _); [apply held_alive with None; auto; apply var_held with h'; auto|]. rewrite LO. cbn [bind].
      pose proof (inv_create s (r_val x) I) as C. destruct (create s (r_val x)) as (s1, o). destruct C as (I1 & A & X1 & X2 & X3 & X4).
      destruct (inv_assign s1 h (Some o) (Some o) I1) as (s2 & E & I2 & Y1 & Y2 & Y3); [rewrite X1, L; auto with datatypes|auto|].
      rewrite E. cbn [bind]. exists s2, []. split; auto. split; auto. split; [rewrite Y1, set_nth_length; congruence|]. split; [lia|].
      intros k. cbn. congruence.
    + exists s, []. auto.
  - destruct (var s h) as [o|] eqn:V1; [destruct (var s h') as [o'|] eqn:V2|]; try (exists s, []; auto; fail).
    destruct (alive_obj s o') as (x' & LO' & _); [apply held_alive with None; auto; apply var_held with h'; auto|]. rewrite LO'.
    destruct (alive_obj s o) as (x & LO & N & LV); [apply held_alive with None; auto; apply var_held with h; auto|]. rewrite LO. cbn [bind].
    eexists; exists []. split; [reflexivity|]. split; [apply inv_val; auto|]. split; auto. split; [cbn; rewrite set_nth_length; lia|]. intros; reflexivity.
  - destruct (var s h) as [o|] eqn:V1; [|exists s, []; auto].
    destruct (alive_obj s o) as (x & LO & _); [apply held_alive with None; auto; apply var_held with h; auto|]. rewrite LO. cbn [bind].
    eexists; eexists. split; [reflexivity|]. split; [apply inv_put; auto|]. split; auto.
  - destruct (inv_assign s h (cached s f p) None I) as (s2 & E & I2 & Y1 & Y2 & Y3); [rewrite L; auto with datatypes| |].
    + destruct (cached s f p) eqn:C; auto. split; auto. apply cached_alive in C. auto.
    + rewrite E. cbn [bind]. exists s2, []. split; auto. split; auto. split; [rewrite Y1, set_nth_length; congruence|]. split; [lia|].
      intros k. cbn. congruence.
  - destruct (cached s f p) as [o|] eqn:C.
    + destruct (inv_assign s h (Some o) None I) as (s2 & E & I2 & Y1 & Y2 & Y3); [rewrite L; auto with datatypes| |].
      * split; auto. apply cached_alive in C. auto.
      * rewrite E. cbn [bind]. exists s2, []. split; auto. split; auto. split; [rewrite Y1, set_nth_length; congruence|]. split; [lia|].
        intros k. cbn. congruence.
    + pose proof (inv_create s v I) as D. destruct (create s v) as (s1, o). destruct D as (I1 & A & X1 & X2 & X3 & X4).
      destruct (inv_assign s1 h (Some o) (Some o) I1) as (s2 & E & I2 & Y1 & Y2 & Y3); [rewrite X1, L; auto with datatypes|auto|].
      rewrite E. cbn [bind]. eexists; eexists. split; [reflexivity|]. split; [apply inv_put; auto|]. cbn [put s_vars s_cache s_objs]. split; [rewrite Y1, set_nth_length; congruence|]. split; [lia|].
      intros k. cbn. rewrite Y2, X2. reflexivity.
Qed.
Lemma run_inv n l : forall s, inv s [] None -> List.length (s_vars s) = n -> in_scope n l ->
  exists s' es, rrun s l = Ok (s', es) /\ inv s' [] None /\ List.length (s_vars s') = n /\
    forall k, cache_find (s_cache s') k = evs_key es k (cache_find (s_cache s) k).
Proof.
  induction l as [|c l IH]; intros s I L H; cbn [rrun].
  - exists s, []. auto.
  - destruct (step_inv n s c I L) as (s1 & e & E & I1 & L1 & _ & C1); [intros h K; apply (H c h); auto; left; auto|].
    rewrite E. cbn [bind]. destruct (IH s1 I1 L1) as (s2 & es & E2 & I2 & L2 & C2); [intros c' h K; apply H; right; auto|].
    rewrite E2. cbn [bind]. exists s2, (e ++ es). split; auto. split; auto. split; auto.
    intros k. rewrite C2, C1. unfold evs_key. rewrite fold_left_app. reflexivity.
Qed.
End P.

(** * Keys *)
Lemma path_unique a b c d : ~ In 47 b -> ~ In 47 d -> a ++ [47] ++ b = c ++ [47] ++ d -> a = c /\ b = d.
Proof.
  revert c. induction a as [|x a IH]; intros [|y c] B D H; cbn in H.
  - injection H as ->. auto.
  - injection H as <- H. exfalso. apply B. rewrite H. apply in_app_iff. right. left. auto.
  - injection H as -> H. exfalso. apply D. rewrite <- H. apply in_app_iff. right. left. auto.
  - injection H as -> H. destruct (IH c B D H) as (-> & ->). auto.
Qed.
Lemma key_inj f p f' p' : layer_path p -> layer_path p' -> cache_key f p = cache_key f' p' -> f = f' /\ p = p'.
Proof.
  unfold cache_key. intros (a & b & -> & A & B) (c & d & -> & C & D) H.
  assert (H1 : (f ++ [47] ++ a) ++ [47] ++ b = (f' ++ [47] ++ c) ++ [47] ++ d) by (rewrite <- !app_assoc; exact H).
  apply path_unique in H1 as (H1 & ->); auto. apply path_unique in H1 as (-> & ->); auto.
Qed.
Definition ev_path (e : rev) : Prop := match e with EvPut _ p _ => layer_path p end.
Lemma evs_last es f p : Forall ev_path es -> layer_path p -> forall a,
  evs_key es (cache_key f p) a = fold_left (fun acc e => match e with EvPut f' p' o => if bytes_eqb f' f && bytes_eqb p' p then Some o else acc end) es a.
Proof.
  intros F P. induction F as [|(f', p', o) es H F IH]; intros a; auto. cbn [evs_key fold_left] in *. unfold evs_key in *. rewrite <- IH. f_equal.
  destruct (bytes_eqb_spec f' f) as [->|N1]; [destruct (bytes_eqb_spec p' p) as [->|N2]|]; cbn [andb].
  - rewrite beq_refl. auto.
  - rewrite beq_neq; auto. intros K. apply key_inj in K as (_ & K); auto.
  - rewrite beq_neq; auto. intros K. apply key_inj in K as (K & _); auto.
Qed.
Lemma step_paths {V} (s : @rst V) c s' e : rstep s c = Ok (s', e) ->
  (match c with RPut _ _ p | RGet _ _ p | RRead _ _ p _ => layer_path p | _ => True end) -> Forall ev_path e.
Proof.
  intros H P. destruct c as [h v|h h'|h|h h'|h h'|h f p|h f p|h f p v]; cbn [rstep] in H;
  repeat match type of H with
  | (let (_, _) := ?x in _) = _ => destruct x
  | bind ?x _ = _ => destruct x; cbn [bind] in H; try discriminate
  | match ?x with _ => _ end = _ => destruct x; try discriminate
  end; injection H as <- <-; repeat constructor; auto.
Qed.
Lemma run_paths {V} l : forall (s : @rst V) s' es, rrun s l = Ok (s', es) -> ops_layer_paths l -> Forall ev_path es.
Proof.
  induction l as [|c l IH]; intros s s' es H P; cbn [rrun] in H; [injection H as <- <-; constructor|].
  destruct (rstep s c) as [(s1, e)| |] eqn:E; try discriminate. cbn [bind] in H.
  destruct (rrun s1 l) as [(s2, es2)| |] eqn:E2; try discriminate. injection H as <- <-.
  apply Forall_app. split; [apply step_paths in E; auto; apply (P c); left; auto|].
  apply (IH _ _ _ E2). intros c' K. apply (P c'). right; auto.
Qed.
