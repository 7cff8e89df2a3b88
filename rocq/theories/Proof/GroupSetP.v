(** Proofs about the contents of groups of fields. *)
From Coq Require Import ZArith List Bool Arith Permutation Lia.
From Verif Require Import Model.Base Model.GroupSetM Spec.GroupSetSpec.
Import ListNotations.

Lemma cls_eqb_iff a b : cls_eqb a b = true <-> a = b.
Proof. destruct a, b; cbn; split; congruence. Qed.

Section G.
Context {M P : Type} (ident : M) (same : M -> M -> bool) (types : list nat).
Notation group := (@group M P).
Notation bank := (@bank M P).
Notation entry := (@entry M P).
Notation holding := (@holding M P).

Definition typed (t : nat) : bool := existsb (Nat.eqb t) types.
Lemma typed_iff t : typed t = true <-> In t types.
Proof. unfold typed. rewrite existsb_exists. split; [intros (x & I & E); apply Nat.eqb_eq in E; subst; auto|intros I; exists t; rewrite Nat.eqb_refl; auto]. Qed.
Definition wants (c : cls) (f : gfd) : bool := cls_eqb (fd_class f) c && typed (fd_type f).

(** A cached bounding box belongs to the transform of the entry. *)
Definition fresh_cache (e : entry) : Prop := en_opt e = Some true <-> en_cached e = Some (en_os e).
Definition settings (g : group) (h : holding) : Prop := gr_os g = ho_os h /\ gr_opt g = ho_opt h /\ gr_op g = ho_op h.

Lemma grab_entry_ok g h f : settings g h -> same (ho_os h) ident = true \/ is_mip (fd_class f) = false ->
  exists e, grab_entry ident same g f = Ok e /\ shown e = place ident same h f /\ (en_opt e = Some true -> en_cached e = Some (en_os e)).
Proof.
  intros (A & B & C) D. unfold grab_entry, place. rewrite A, B, C. destruct f as [c t mt o]. cbn [fd_class fd_matrix] in *.
  destruct (same (ho_os h) ident) eqn:Z; cbn [negb].
  - cbn [bind]. eexists. split; [reflexivity|]. unfold new_entry, set_opt. cbn [fd_class fd_matrix en_field].
    destruct (ho_opt h), mt, (ho_op h), (is_mip c); cbn; split; auto; discriminate.
  - destruct D as [D|D]; [discriminate|]. unfold set_os, new_entry. cbn [en_opt]. cbn [fd_class]. rewrite D. cbn [bind].
    eexists. split; [reflexivity|]. unfold set_opt. cbn [fd_class fd_matrix en_field].
    destruct (ho_opt h), mt, (ho_op h); cbn; split; auto; discriminate.
Qed.
Lemma grab_entry_ub g h f : settings g h -> same (ho_os h) ident = false -> is_mip (fd_class f) = true ->
  grab_entry ident same g f = UB.
Proof. intros (A & _) Z D. unfold grab_entry. rewrite A, Z. cbn. unfold set_os, new_entry. cbn [en_opt]. rewrite D. reflexivity. Qed.

Definition cached_ok (l : list entry) : Prop := forall e, In e l -> en_opt e = Some true -> en_cached e = Some (en_os e).

Lemma grab_skip g c f : forall b : bank, (forall t, In t (map fst b) -> cls_eqb (fd_class f) c && Nat.eqb (fd_type f) t = false) ->
  grab ident same g c f b = Ok b.
Proof.
  induction b as [|(t & l) b IH]; intros X; auto. cbn. rewrite X by (left; auto). cbn [bind]. rewrite IH by (intros u I; apply X; right; auto). reflexivity.
Qed.
Lemma grab_one g c f : forall b : bank, NoDup (map fst b) -> In (fd_type f) (map fst b) -> fd_class f = c ->
  match grab_entry ident same g f with
  | Ok e => exists b', grab ident same g c f b = Ok b' /\ map fst b' = map fst b /\ Permutation (bank_entries b') (bank_entries b ++ [e])
  | UB => grab ident same g c f b = UB
  | Exn => True
  end.
Proof.
  induction b as [|(t & l) b IH]; intros N I C; [contradiction|]. inversion N as [|x y NI ND]; subst. cbn [grab map fst].
  rewrite (proj2 (cls_eqb_iff _ _) eq_refl). destruct (Nat.eqb_spec (fd_type f) t) as [E|E]; cbn [andb].
  - destruct (grab_entry ident same g f) as [e| |] eqn:Ge; cbn [bind]; auto. rewrite grab_skip.
    + cbn [bind]. eexists. split; [reflexivity|]. split; auto. cbn [bank_entries flat_map snd].
      rewrite <- !app_assoc. apply Permutation_app_head, Permutation_app_comm.
    + intros u J. rewrite (proj2 (cls_eqb_iff _ _) eq_refl). cbn. apply Nat.eqb_neq. intros X. apply NI. rewrite <- E, X. exact J.
  - cbn [bind]. destruct I as [I|I]; [cbn in I; congruence|]. specialize (IH ND I eq_refl). destruct (grab_entry ident same g f) as [e| |]; auto.
    + destruct IH as (b' & R & F & Pm). rewrite R. cbn [bind]. eexists. split; [reflexivity|]. split; [cbn; congruence|].
      unfold bank_entries. cbn [flat_map snd]. rewrite <- app_assoc. apply Permutation_app_head. exact Pm.
    + rewrite IH. reflexivity.
Qed.

(** All fields into one family. *)
Definition grown (h : holding) (c : cls) (fs : list gfd) (b b' : bank) : Prop :=
  map fst b' = types /\ Permutation (map shown (bank_entries b')) (map shown (bank_entries b) ++ map (place ident same h) (filter (wants c) fs)) /\
  (cached_ok (bank_entries b) -> cached_ok (bank_entries b')).
Hypothesis ND : NoDup types.

Lemma grab_step g h c f (b : bank) : settings g h -> map fst b = types ->
  same (ho_os h) ident = true \/ (wants c f = true -> is_mip (fd_class f) = false) ->
  exists b', grab ident same g c f b = Ok b' /\ grown h c [f] b b'.
Proof.
  intros S T D. destruct (wants c f) eqn:W.
  - unfold wants in W. apply andb_prop in W. destruct W as (W1 & W2). apply cls_eqb_iff in W1. apply typed_iff in W2.
    destruct (grab_entry_ok g h f S) as (e & Ge & Sh & Ch). { destruct D; auto. }
    pose proof (grab_one g c f b) as X. rewrite Ge, T in X. destruct (X ND W2 W1) as (b' & R & F & Pm).
    exists b'. split; auto. split; [auto|]. split.
    + cbn [filter]. unfold wants. rewrite (proj2 (cls_eqb_iff _ _) W1), (proj2 (typed_iff _) W2). cbn [andb map]. rewrite <- Sh.
      change [shown e] with (map shown [e]). rewrite <- map_app. apply Permutation_map. exact Pm.
    + intros K x I. apply (Permutation_in _ Pm) in I. apply in_app_or in I. destruct I as [I|[<-|[]]]; auto.
  - exists b. split; [|split; [auto|split; [cbn [filter]; rewrite W; cbn [map]; rewrite app_nil_r; apply Permutation_refl|auto]]].
    apply grab_skip. intros t I. unfold wants in W. destruct (cls_eqb (fd_class f) c); auto. cbn [andb] in *. apply Nat.eqb_neq. intros E. subst t.
    rewrite T in I. apply typed_iff in I. congruence.
Qed.
Lemma grab_all_ok g h c fs : settings g h -> (same (ho_os h) ident = true \/ forall f, In f fs -> wants c f = true -> is_mip (fd_class f) = false) ->
  forall b : bank, map fst b = types -> exists b', grab_all ident same g c fs b = Ok b' /\ grown h c fs b b'.
Proof.
  intros S. induction fs as [|f fs IH]; intros D b T.
  - exists b. split; auto. split; auto. split; auto. cbn. rewrite app_nil_r. apply Permutation_refl.
  - destruct (grab_step g h c f b S T) as (b1 & R1 & T1 & P1 & C1). { destruct D as [D|D]; auto. right. apply D. left. auto. }
    destruct (IH ltac:(destruct D as [D|D]; [auto|right; intros; apply D; [right; auto|auto]]) b1 T1) as (b2 & R2 & T2 & P2 & C2).
    exists b2. cbn [grab_all]. rewrite R1. cbn [bind]. rewrite R2. split; auto. split; auto. split; [|auto].
    rewrite P2, P1. cbn [filter]. destruct (wants c f); cbn [map app]; rewrite <- !app_assoc; auto.
Qed.
Lemma grab_ok_or_ub g h c f (b : bank) : settings g h -> map fst b = types -> (exists b', grab ident same g c f b = Ok b' /\ map fst b' = types) \/ grab ident same g c f b = UB.
Proof.
  intros S T. destruct (wants c f) eqn:W.
  - destruct (same (ho_os h) ident) eqn:Z; [left; destruct (grab_step g h c f b S T) as (b' & R & F & _); [auto|exists b'; auto]|].
    destruct (is_mip (fd_class f)) eqn:Mi; [|left; destruct (grab_step g h c f b S T) as (b' & R & F & _); [auto|exists b'; auto]].
    right. unfold wants in W. apply andb_prop in W. destruct W as (W1 & W2). apply cls_eqb_iff in W1. apply typed_iff in W2.
    pose proof (grab_one g c f b) as X. rewrite (grab_entry_ub g h f S Z Mi), T in X. auto.
  - left. destruct (grab_step g h c f b S T) as (b' & R & F & _); [right; congruence|exists b'; auto].
Qed.
Lemma grab_all_ok_or_ub g h c fs : settings g h -> forall b : bank, map fst b = types ->
  (exists b', grab_all ident same g c fs b = Ok b' /\ map fst b' = types) \/ grab_all ident same g c fs b = UB.
Proof.
  intros S. induction fs as [|f fs IH]; intros b T; [left; exists b; auto|]. cbn.
  destruct (grab_ok_or_ub g h c f b S T) as [(b1 & -> & T1)| ->]; cbn [bind]; auto.
Qed.
Lemma grab_all_ub g h c fs : settings g h -> same (ho_os h) ident = false -> is_mip c = true -> (exists f, In f fs /\ wants c f = true) ->
  forall b : bank, map fst b = types -> grab_all ident same g c fs b = UB.
Proof.
  intros S Z Mi. induction fs as [|f fs IH]; intros (x & I & W) b T; [contradiction|]. cbn [grab_all].
  destruct (wants c f) eqn:Wf.
  - unfold wants in Wf. apply andb_prop in Wf. destruct Wf as (W1 & W2). apply cls_eqb_iff in W1. apply typed_iff in W2.
    pose proof (grab_one g c f b) as X. rewrite (grab_entry_ub g h f S Z) in X by congruence. rewrite T in X. rewrite X; auto.
  - destruct (grab_ok_or_ub g h c f b S T) as [(b1 & -> & T1)| ->]; cbn [bind]; auto. apply IH; auto. exists x. split; auto.
    destruct I as [<-|I]; [congruence|auto].
Qed.

(** Families. *)
Lemma held_wants f : held types f = wants CDense f || wants CSparse f || wants CMipDense f || wants CMipSparse f.
Proof. unfold held, wants, typed. destruct (fd_class f); cbn; rewrite ?orb_false_r; auto. Qed.
Lemma held_mip_wants f : held_mip types f = wants CMipDense f || wants CMipSparse f.
Proof. unfold held_mip, held, wants, typed. destruct (fd_class f); cbn; rewrite ?orb_false_r; auto. Qed.
Lemma wants_class c f : wants c f = true -> fd_class f = c.
Proof. unfold wants. intros H. apply andb_prop in H. apply cls_eqb_iff. tauto. Qed.
Lemma split_held fs : Permutation (filter (held types) fs) (filter (wants CDense) fs ++ filter (wants CSparse) fs ++ filter (wants CMipDense) fs ++ filter (wants CMipSparse) fs).
Proof.
  induction fs as [|f fs IH]; cbn [filter]; auto. rewrite held_wants. assert (W : forall c, wants c f = cls_eqb (fd_class f) c && typed (fd_type f)) by reflexivity. rewrite !W.
  destruct (fd_class f); cbn [cls_eqb andb orb]; destruct (typed (fd_type f)); cbn [orb]; auto.
  - cbn [app]. apply perm_skip. auto.
  - apply Permutation_cons_app. auto.
  - rewrite app_assoc. rewrite app_assoc in IH. apply Permutation_cons_app. auto.
  - rewrite !app_assoc. rewrite !app_assoc in IH. apply Permutation_cons_app. auto.
Qed.
Lemma split_held_mip fs : Permutation (filter (held_mip types) fs) (filter (wants CMipDense) fs ++ filter (wants CMipSparse) fs).
Proof.
  induction fs as [|f fs IH]; cbn [filter]; auto. rewrite held_mip_wants. assert (W : forall c, wants c f = cls_eqb (fd_class f) c && typed (fd_type f)) by reflexivity. rewrite !W.
  destruct (fd_class f); cbn [cls_eqb andb orb]; destruct (typed (fd_type f)); cbn [orb]; auto.
  - cbn [app]. apply perm_skip. auto.
  - apply Permutation_cons_app. auto.
Qed.

(** The invariant. *)
Definition nonempty {A} (l : list A) : bool := match l with [] => false | _ => true end.
Definition kinds (g : group) : Prop :=
  (forall p, In p (map shown (bank_entries (gr_dense g) ++ bank_entries (gr_sparse g))) -> is_mip (fd_class (pl_field p)) = false) /\
  (forall p, In p (map shown (bank_entries (gr_mdense g) ++ bank_entries (gr_msparse g))) -> is_mip (fd_class (pl_field p)) = true).
Record inv (g : group) (h : holding) : Prop := {
  i_set : settings g h;
  i_t1 : map fst (gr_dense g) = types; i_t2 : map fst (gr_sparse g) = types; i_t3 : map fst (gr_mdense g) = types; i_t4 : map fst (gr_msparse g) = types;
  i_t5 : map fst (gr_mdense_min g) = types; i_t6 : map fst (gr_msparse_min g) = types; i_t7 : map fst (gr_mdense_max g) = types; i_t8 : map fst (gr_msparse_max g) = types;
  i_prim : Permutation (map shown (sampled g)) (ho_fields h);
  i_min : Permutation (map shown (bank_entries (gr_mdense_min g) ++ bank_entries (gr_msparse_min g))) (ho_mins h);
  i_max : Permutation (map shown (bank_entries (gr_mdense_max g) ++ bank_entries (gr_msparse_max g))) (ho_maxs h);
  i_pre : gr_prefilt g = nonempty (ho_mins h) && nonempty (ho_maxs h);
  i_all : gr_all g = ho_last h;
  i_held : forall p, In p (ho_fields h) -> held types (pl_field p) = true;
  i_cache : cached_ok (sampled g);
  i_kinds : kinds g }.
Lemma entries_none : bank_entries (@no_fields M P types) = [].
Proof. unfold bank_entries, no_fields. induction types; auto. inversion ND. subst. cbn. apply IHl. auto. Qed.
Lemma types_none : map fst (@no_fields M P types) = types.
Proof. unfold no_fields. rewrite map_map. cbn. apply map_id. Qed.
Lemma inv_init : inv (group_init ident types) (holding_init ident).
Proof.
  assert (Sm : sampled (@group_init M P ident types) = []).
  { unfold sampled, group_init. cbn [gr_dense gr_sparse gr_mdense gr_msparse]. rewrite !entries_none. reflexivity. }
  constructor; unfold group_init; cbn [gr_dense gr_sparse gr_mdense gr_msparse gr_mdense_min gr_msparse_min gr_mdense_max gr_msparse_max gr_prefilt gr_all ho_fields ho_mins ho_maxs ho_last holding_init nonempty andb];
    try apply types_none; auto.
  - repeat split.
  - change (Permutation (map shown (sampled (@group_init M P ident types))) []). rewrite Sm. constructor.
  - rewrite !entries_none. constructor.
  - rewrite !entries_none. constructor.
  - change (cached_ok (sampled (@group_init M P ident types))). rewrite Sm. intros e [].
  - split; cbn [gr_dense gr_sparse gr_mdense gr_msparse]; rewrite !entries_none; intros p [].
Qed.

Lemma perm2 {A} (a b x y : list A) : Permutation ((a ++ x) ++ (b ++ y)) ((a ++ b) ++ (x ++ y)).
Proof.
  rewrite <- !app_assoc. apply Permutation_app_head. rewrite !app_assoc. apply Permutation_app_tail. apply Permutation_app_comm.
Qed.
Lemma perm4 {A} (a b c d x y z w : list A) : Permutation ((a ++ x) ++ (b ++ y) ++ (c ++ z) ++ (d ++ w)) ((a ++ b ++ c ++ d) ++ (x ++ y ++ z ++ w)).
Proof. rewrite (perm2 c d z w), (perm2 b (c ++ d) y (z ++ w)). apply perm2. Qed.

Lemma setup_primary_ok g h fs : inv g h -> same (ho_os h) ident = true \/ (forall f, In f fs -> held_mip types f = false) ->
  exists g', setup_primary ident same g fs = Ok g' /\
    inv g' (Holding (ho_os h) (ho_opt h) (ho_op h) (ho_fields h ++ map (place ident same h) (filter (held types) fs)) (ho_mins h) (ho_maxs h) fs).
Proof.
  intros I D. destruct I. unfold setup_primary.
  assert (K : forall c, same (ho_os h) ident = true \/ forall f, In f fs -> wants c f = true -> is_mip (fd_class f) = false).
  { intros c. destruct D as [D|D]; auto. right. intros f J W. specialize (D f J). unfold held_mip in D. destruct (is_mip (fd_class f)) eqn:Mi; auto.
    cbn [andb] in D. rewrite held_wants in D. pose proof (wants_class _ _ W) as C.
    destruct c; rewrite ?W in D; rewrite ?orb_true_r in D; cbn in D; try discriminate. rewrite C in Mi. discriminate. }
  destruct (grab_all_ok g h CDense fs i_set0 (K _) _ i_t9) as (d & -> & T1 & P1 & C1).
  destruct (grab_all_ok g h CSparse fs i_set0 (K _) _ i_t10) as (s & -> & T2 & P2 & C2).
  destruct (grab_all_ok g h CMipDense fs i_set0 (K _) _ i_t11) as (md & -> & T3 & P3 & C3).
  destruct (grab_all_ok g h CMipSparse fs i_set0 (K _) _ i_t12) as (ms & -> & T4 & P4 & C4).
  cbn [bind]. eexists. split; [reflexivity|]. constructor; cbn [gr_dense gr_sparse gr_mdense gr_msparse gr_mdense_min gr_msparse_min gr_mdense_max gr_msparse_max gr_prefilt gr_os gr_opt gr_op gr_all gr_aux ho_os ho_opt ho_op ho_fields ho_mins ho_maxs ho_last]; auto.
  - unfold sampled. cbn [gr_dense gr_sparse gr_mdense gr_msparse]. rewrite !map_app, P1, P2, P3, P4, perm4.
    apply Permutation_app.
    + rewrite <- !map_app. exact i_prim0.
    + rewrite <- !map_app. apply Permutation_map, Permutation_sym, split_held.
  - intros p J. apply in_app_or in J. destruct J as [J|J]; auto. apply in_map_iff in J. destruct J as (f & <- & J). apply filter_In in J. cbn. tauto.
  - unfold cached_ok, sampled in *. cbn [gr_dense gr_sparse gr_mdense gr_msparse]. intros e J.
    rewrite !in_app_iff in J. destruct J as [J|[J|[J|J]]];
      first [apply C1; [|exact J] | apply C2; [|exact J] | apply C3; [|exact J] | apply C4; [|exact J]];
      intros x L; apply i_cache0; rewrite !in_app_iff; auto.
  - destruct i_kinds0 as (Ka & Kb).
    assert (W : forall c p, In p (map (place ident same h) (filter (wants c) fs)) -> fd_class (pl_field p) = c).
    { intros c p J. apply in_map_iff in J. destruct J as (f & <- & J). apply filter_In in J. destruct J as (_ & J). apply wants_class in J. exact J. }
    split; cbn [gr_dense gr_sparse gr_mdense gr_msparse]; intros p J; rewrite map_app, ?P1, ?P2, ?P3, ?P4, !in_app_iff in J;
      destruct J as [[J|J]|[J|J]]; try (apply W in J; rewrite J; reflexivity);
      first [apply Ka | apply Kb]; rewrite map_app, in_app_iff; auto.
Qed.
Lemma nonempty_app {A} (a b : list A) : nonempty (a ++ b) = nonempty a || nonempty b.
Proof. destruct a; auto. Qed.
Lemma nonempty_perm {A B} (f : A -> B) l m : Permutation (map f l) m -> nonempty m = Nat.ltb 0 (length l).
Proof. intros Pm. apply Permutation_length in Pm. rewrite map_length in Pm. destruct l, m; cbn in *; auto; discriminate. Qed.
Lemma setup_min_max_ok g h mins maxs : inv g h ->
  same (ho_os h) ident = true \/ (forall f, In f (mins ++ maxs) -> held_mip types f = false) ->
  exists g', setup_min_max ident same g mins maxs = Ok g' /\
    inv g' (Holding (ho_os h) (ho_opt h) (ho_op h) (ho_fields h) (ho_mins h ++ map (place ident same h) (filter (held_mip types) mins))
              (ho_maxs h ++ map (place ident same h) (filter (held_mip types) maxs)) (ho_last h)).
Proof.
  intros I D. destruct I. unfold setup_min_max.
  assert (K : forall c, is_mip c = true -> same (ho_os h) ident = true \/ forall f, In f (mins ++ maxs) -> wants c f = true -> is_mip (fd_class f) = false).
  { intros c Mc. destruct D as [D|D]; auto. right. intros f J W. specialize (D f J). rewrite held_mip_wants in D.
    destruct c; cbn in Mc; try discriminate; rewrite W in D; rewrite ?orb_true_r in D; discriminate. }
  assert (Kn : forall c, is_mip c = true -> same (ho_os h) ident = true \/ forall f, In f mins -> wants c f = true -> is_mip (fd_class f) = false).
  { intros c Mc. destruct (K c Mc) as [?|L]; auto. right. intros f J. apply L. apply in_or_app. auto. }
  assert (Kx : forall c, is_mip c = true -> same (ho_os h) ident = true \/ forall f, In f maxs -> wants c f = true -> is_mip (fd_class f) = false).
  { intros c Mc. destruct (K c Mc) as [?|L]; auto. right. intros f J. apply L. apply in_or_app. auto. }
  destruct (grab_all_ok g h CMipDense mins i_set0 (Kn CMipDense eq_refl) _ i_t13) as (dn & -> & T1 & P1 & _).
  destruct (grab_all_ok g h CMipSparse mins i_set0 (Kn CMipSparse eq_refl) _ i_t14) as (sn & -> & T2 & P2 & _).
  destruct (grab_all_ok g h CMipDense maxs i_set0 (Kx CMipDense eq_refl) _ i_t15) as (dx & -> & T3 & P3 & _).
  destruct (grab_all_ok g h CMipSparse maxs i_set0 (Kx CMipSparse eq_refl) _ i_t16) as (sx & -> & T4 & P4 & _).
  cbn [bind]. eexists. split; [reflexivity|].
  assert (Pn : Permutation (map shown (bank_entries dn ++ bank_entries sn)) (ho_mins h ++ map (place ident same h) (filter (held_mip types) mins))).
  { rewrite map_app, P1, P2, perm2. apply Permutation_app; [rewrite <- map_app; exact i_min0|].
    rewrite <- map_app. apply Permutation_map, Permutation_sym, split_held_mip. }
  assert (Px : Permutation (map shown (bank_entries dx ++ bank_entries sx)) (ho_maxs h ++ map (place ident same h) (filter (held_mip types) maxs))).
  { rewrite map_app, P3, P4, perm2. apply Permutation_app; [rewrite <- map_app; exact i_max0|].
    rewrite <- map_app. apply Permutation_map, Permutation_sym, split_held_mip. }
  constructor; cbn [gr_dense gr_sparse gr_mdense gr_msparse gr_mdense_min gr_msparse_min gr_mdense_max gr_msparse_max gr_prefilt gr_os gr_opt gr_op gr_all gr_aux ho_os ho_opt ho_op ho_fields ho_mins ho_maxs ho_last]; auto.
  pose proof (nonempty_perm _ _ _ Pn) as En. pose proof (nonempty_perm _ _ _ Px) as Ex. rewrite app_length in En, Ex.
  unfold count. rewrite <- En, <- Ex. rewrite i_pre0, !nonempty_app.
  destruct (nonempty (ho_mins h)), (nonempty (ho_maxs h)), (nonempty (map _ (filter _ mins))), (nonempty (map _ (filter _ maxs))); auto.
Qed.

Lemma inv_perm g h h' : inv g h -> ho_os h' = ho_os h -> ho_opt h' = ho_opt h -> ho_op h' = ho_op h -> ho_fields h' = ho_fields h ->
  Permutation (ho_mins h) (ho_mins h') -> Permutation (ho_maxs h) (ho_maxs h') -> ho_last h' = ho_last h -> inv g h'.
Proof.
  intros I A B C D E F G. destruct I. constructor; auto; try congruence.
  - destruct i_set0 as (X & Y & Z). repeat split; congruence.
  - rewrite <- E. auto.
  - rewrite <- F. auto.
  - rewrite i_pre0. f_equal.
    + apply Permutation_length in E. destruct (ho_mins h), (ho_mins h'); auto; discriminate.
    + apply Permutation_length in F. destruct (ho_maxs h), (ho_maxs h'); auto; discriminate.
  - rewrite D. auto.
Qed.

Lemma setup_ok g h fs mins maxs : inv g h -> same (ho_os h) ident = true \/ no_mips types fs mins maxs ->
  exists g', setup ident same g fs mins maxs = Ok g' /\ inv g' (with_fields ident same types h fs mins maxs).
Proof.
  intros I D. unfold setup, no_mips in *. destruct (setup_primary_ok g h fs I) as (g1 & -> & I1).
  { destruct D as [D|D]; auto. right. intros f J. apply D. apply in_or_app. auto. }
  cbn [bind]. destruct (setup_min_max_ok g1 _ mins maxs I1) as (g2 & -> & I2).
  { destruct D as [D|D]; auto. right. intros f J. apply D. apply in_or_app. auto. }
  exists g2. split; auto.
Qed.
Lemma size_sampled (g : group) : size g = length (sampled g).
Proof. unfold size, count, sampled. rewrite !app_length. lia. Qed.
Lemma size_fields g h : inv g h -> size g = length (ho_fields h).
Proof. intros I. destruct I. rewrite size_sampled. apply Permutation_length in i_prim0. rewrite map_length in i_prim0. auto. Qed.
Lemma filter_none {A} (q : A -> bool) l : (forall x, In x l -> q x = false) -> filter q l = [].
Proof. induction l as [|a l IH]; intros H; auto. cbn. rewrite H by (left; auto). apply IH. intros. apply H. right. auto. Qed.
Lemma filter_all {A} (q : A -> bool) l : (forall x, In x l -> q x = true) -> filter q l = l.
Proof. induction l as [|a l IH]; intros H; auto. cbn. rewrite H by (left; auto). f_equal. apply IH. intros. apply H. right. auto. Qed.
Lemma filter_perm {A} (q : A -> bool) l m : Permutation l m -> Permutation (filter q l) (filter q m).
Proof.
  induction 1; cbn; auto; [destruct (q x); auto|destruct (q x), (q y); auto; constructor|eapply perm_trans; eauto].
Qed.
Lemma size_mip_fields g h : inv g h -> size_mip g = length (filter (fun p => is_mip (fd_class (pl_field p))) (ho_fields h)).
Proof.
  intros I. destruct I. destruct i_kinds0 as (Ka & Kb). erewrite <- Permutation_length; [|apply filter_perm, i_prim0].
  unfold sampled. rewrite app_assoc, map_app, filter_app, filter_none by exact Ka. rewrite (filter_all _ _ Kb). cbn [app]. rewrite map_length, app_length. reflexivity.
Qed.
Lemma load_fields_eq fl a : load_fields types fl a = in_file types fl a.
Proof. reflexivity. Qed.
Lemma load_ok g h fl a : inv g h ->
  same (ho_os h) ident = true \/ no_mips types (in_file types fl a) (in_file types fl (min_name a)) (in_file types fl (max_name a)) ->
  exists g', load ident same types g (Some fl) a = Ok (g', Z.of_nat (length (filter (held types) (in_file types fl a)))) /\
    inv g' (with_fields ident same types h (in_file types fl a) (in_file types fl (min_name a)) (in_file types fl (max_name a))).
Proof.
  intros I D. unfold load. rewrite (load_fields_eq fl a), (load_fields_eq fl (a ++ suffix_min)), (load_fields_eq fl (a ++ suffix_max)). destruct (setup_ok g h _ _ _ I D) as (g' & R & I').
  change (a ++ suffix_min) with (min_name a). change (a ++ suffix_max) with (max_name a). rewrite R. cbn [bind].
  exists g'. split; auto. do 2 f_equal. rewrite (size_fields _ _ I), (size_fields _ _ I'). unfold with_fields. cbn [ho_fields].
  rewrite app_length, map_length. lia.
Qed.
Lemma made_held f : held types f = true -> held_mip types (made_min f) = true /\ held_mip types (made_max f) = true.
Proof. unfold held_mip, held. destruct f as [c t m o]. cbn. destruct c; cbn; auto. Qed.
Lemma min_of_made (e : entry) : min_of e = made_min (en_field e) /\ max_of e = made_max (en_field e).
Proof. unfold min_of, max_of, made_min, made_max. destruct (fd_class (en_field e)); auto. Qed.
Lemma sampled_held g h e : inv g h -> In e (sampled g) -> held types (en_field e) = true.
Proof.
  intros I J. destruct I. apply (in_map shown) in J. apply (Permutation_in _ i_prim0) in J. apply i_held0 in J. exact J.
Qed.
Lemma make_ok g h : inv g h -> same (ho_os h) ident = true \/ ho_fields h = [] ->
  exists g', make_min_max ident same g = Ok g' /\ inv g' (hstep ident same types h MakeMinMax).
Proof.
  intros I D. unfold make_min_max. destruct (setup_min_max_ok g h (map min_of (sampled g)) (map max_of (sampled g)) I) as (g' & -> & I').
  { destruct D as [D|D]; auto. right. destruct I. rewrite D in i_prim0. apply Permutation_sym, Permutation_nil, map_eq_nil in i_prim0. rewrite i_prim0. intros f []. }
  exists g'. split; auto. rewrite !filter_all in I'.
  - destruct I. assert (Qn : Permutation (map (place ident same h) (map min_of (sampled g))) (map (fun p => place ident same h (made_min (pl_field p))) (ho_fields h))).
    { rewrite <- i_prim0, !map_map. erewrite map_ext; [apply Permutation_refl|]. intros e. f_equal. unfold min_of, made_min. cbn. destruct (fd_class (en_field e)); auto. }
    assert (Qx : Permutation (map (place ident same h) (map max_of (sampled g))) (map (fun p => place ident same h (made_max (pl_field p))) (ho_fields h))).
    { rewrite <- i_prim0, !map_map. erewrite map_ext; [apply Permutation_refl|]. intros e. f_equal. unfold max_of, made_max. cbn. destruct (fd_class (en_field e)); auto. }
    eapply inv_perm; [exact I'|auto..]; cbn [hstep ho_mins ho_maxs]; apply Permutation_app_head; auto.
  - intros f J. apply in_map_iff in J. destruct J as (e & <- & J). rewrite ?(proj1 (min_of_made e)), ?(proj2 (min_of_made e)). apply (made_held (en_field e)). apply (sampled_held g h); auto.
  - intros f J. apply in_map_iff in J. destruct J as (e & <- & J). rewrite ?(proj1 (min_of_made e)), ?(proj2 (min_of_made e)). apply (made_held (en_field e)). apply (sampled_held g h); auto.
Qed.

Lemma entries_map (k : entry -> entry) (b : bank) : bank_entries (map_bank k b) = map k (bank_entries b).
Proof. unfold bank_entries, map_bank. induction b as [|(t & l) b IH]; auto. cbn [map flat_map fst snd]. rewrite IH, map_app. auto. Qed.
Lemma types_map (k : entry -> entry) (b : bank) : map fst (map_bank k b) = map fst b.
Proof. unfold map_bank. rewrite map_map. apply map_ext. auto. Qed.
Lemma shown_opt (e : entry) : shown (set_opt e) = optimise (shown e).
Proof. unfold shown, set_opt, optimise. cbn. destruct (fd_matrix (en_field e)); auto. Qed.
Lemma step_ok g h o : inv g h -> step_safe ident same types h o ->
  exists g', gstep ident same types g o = Ok (g', answer types o) /\ inv g' (hstep ident same types h o).
Proof.
  intros I D. destruct o as [m|b|o|fs mins maxs|[fl|] a|]; unfold step_safe in D.
  - cbn. eexists. split; [reflexivity|]. destruct I. destruct i_set0 as (X & Y & Z). constructor; auto. repeat split; auto.
  - cbn [gstep hstep answer]. eexists. split; [reflexivity|]. destruct I. destruct i_set0 as (X & Y & Z). destruct b.
    + constructor; cbn [gr_dense gr_sparse gr_mdense gr_msparse gr_mdense_min gr_msparse_min gr_mdense_max gr_msparse_max gr_prefilt gr_os gr_opt gr_op gr_all gr_aux ho_os ho_opt ho_op ho_fields ho_mins ho_maxs ho_last]; rewrite ?types_map; auto.
      * repeat split; auto.
      * unfold sampled. cbn [gr_dense gr_sparse gr_mdense gr_msparse]. rewrite !entries_map, <- !map_app, map_map.
        rewrite (map_ext _ _ shown_opt). rewrite <- (map_map shown optimise). apply Permutation_map. exact i_prim0.
      * intros p J. apply in_map_iff in J. destruct J as (q & <- & J). unfold optimise. destruct (fd_matrix (pl_field q)); cbn; apply (i_held0 q); auto.
      * unfold sampled. cbn [gr_dense gr_sparse gr_mdense gr_msparse]. rewrite !entries_map, <- !map_app. intros e J.
        apply in_map_iff in J. destruct J as (e' & <- & J). apply i_cache0 in J. revert J. unfold set_opt. destruct (fd_matrix (en_field e')); auto.
      * destruct i_kinds0 as (Ka & Kb). unfold kinds. cbn [gr_dense gr_sparse gr_mdense gr_msparse]. rewrite !entries_map, <- !map_app, !map_map.
        split; intros p J; apply in_map_iff in J; destruct J as (e & <- & J); rewrite shown_opt;
          (replace (pl_field (optimise (shown e))) with (pl_field (shown e)) by (unfold optimise; destruct (fd_matrix _); auto)); 
          first [apply Ka; apply in_map; exact J | apply Kb; apply in_map; exact J].
    + constructor; auto. repeat split; auto.
  - cbn. eexists. split; [reflexivity|]. destruct I. destruct i_set0 as (X & Y & Z). constructor; auto. repeat split; auto.
  - cbn [gstep]. destruct (setup_ok g h _ _ _ I D) as (g' & -> & I'). exists g'. auto.
  - cbn [gstep]. destruct (load_ok g h _ _ I D) as (g' & -> & I'). exists g'. auto.
  - cbn. exists g. auto.
  - cbn [gstep]. destruct (make_ok g h I D) as (g' & -> & I'). exists g'. auto.
Qed.
Lemma steps_ok l : forall g h, inv g h -> (forall a o b, l = a ++ o :: b -> step_safe ident same types (fold_left (hstep ident same types) a h) o) ->
  exists g', gsteps ident same types l g = Ok (g', map (answer types) l) /\ inv g' (fold_left (hstep ident same types) l h).
Proof.
  induction l as [|o l IH]; intros g h I D; [exists g; auto|].
  destruct (step_ok g h o I (D [] o l eq_refl)) as (g1 & R & I1). cbn [gsteps]. rewrite R. cbn [bind].
  destruct (IH g1 _ I1) as (g2 & R2 & I2). { intros a o' b E. apply (D (o :: a) o' b). rewrite E. auto. }
  rewrite R2. cbn [bind]. exists g2. auto.
Qed.
Lemma gsteps_app (a b : list (@gop M P)) : forall g, gsteps ident same types (a ++ b) g =
  let* (g, ns) := gsteps ident same types a g in let* (g, ms) := gsteps ident same types b g in Ok (g, ns ++ ms).
Proof.
  induction a as [|o a IH]; intros g.
  - cbn [app gsteps bind]. destruct (gsteps ident same types b g) as [(x & y)| |]; auto.
  - cbn [app gsteps]. destruct (gstep ident same types g o) as [(g1 & n)| |]; cbn [bind]; auto. rewrite IH.
    destruct (gsteps ident same types a g1) as [(g2 & ns)| |]; cbn [bind]; auto.
    destruct (gsteps ident same types b g2) as [(g3 & ms)| |]; cbn [bind]; auto.
Qed.

(** Undefined behaviour. *)
Lemma mip_or_not fs : (exists f, In f fs /\ held_mip types f = true) \/ (forall f, In f fs -> held_mip types f = false).
Proof.
  induction fs as [|f fs [(x & J & X)|N]]; [right; intros f []|left; exists x; split; [right|]; auto|].
  destruct (held_mip types f) eqn:F; [left; exists f; split; [left|]; auto|right; intros g [<-|J]; auto].
Qed.
Lemma grab_mips_ub g h fs (b1 b2 : bank) : settings g h -> same (ho_os h) ident = false -> map fst b1 = types -> map fst b2 = types ->
  (exists f, In f fs /\ held_mip types f = true) ->
  forall {B} (k : bank -> bank -> res B),
  (let* x := grab_all ident same g CMipDense fs b1 in let* y := grab_all ident same g CMipSparse fs b2 in k x y) = UB.
Proof.
  intros S Z T1 T2 (f & J & F) B k. rewrite held_mip_wants in F. destruct (wants CMipDense f) eqn:W.
  - rewrite (grab_all_ub g h CMipDense fs S Z eq_refl); auto. exists f. auto.
  - cbn in F. destruct (grab_all_ok_or_ub g h CMipDense fs S b1 T1) as [(x & -> & _)| ->]; auto. cbn [bind].
    rewrite (grab_all_ub g h CMipSparse fs S Z eq_refl); auto. exists f. auto.
Qed.
Lemma setup_min_max_ub g h mins maxs : inv g h -> same (ho_os h) ident = false -> (exists f, In f (mins ++ maxs) /\ held_mip types f = true) ->
  setup_min_max ident same g mins maxs = UB.
Proof.
  intros I Z (f & J & F). destruct I. unfold setup_min_max. destruct (mip_or_not mins) as [X|N].
  - apply (grab_mips_ub g h); auto.
  - assert (K : exists f, In f maxs /\ held_mip types f = true).
    { exists f. split; auto. apply in_app_or in J. destruct J as [J|J]; auto. rewrite N in F by auto. discriminate. }
    destruct (grab_all_ok_or_ub g h CMipDense mins i_set0 _ i_t13) as [(x & -> & _)| ->]; auto. cbn [bind].
    destruct (grab_all_ok_or_ub g h CMipSparse mins i_set0 _ i_t14) as [(y & -> & _)| ->]; auto. cbn [bind].
    apply (grab_mips_ub g h); auto.
Qed.
Lemma setup_ub g h fs mins maxs : inv g h -> same (ho_os h) ident = false -> (exists f, In f (fs ++ mins ++ maxs) /\ held_mip types f = true) ->
  setup ident same g fs mins maxs = UB.
Proof.
  intros I Z (f & J & F). unfold setup. destruct (mip_or_not fs) as [X|N].
  - destruct I. unfold setup_primary.
    destruct (grab_all_ok_or_ub g h CDense fs i_set0 _ i_t9) as [(x & -> & _)| ->]; auto. cbn [bind].
    destruct (grab_all_ok_or_ub g h CSparse fs i_set0 _ i_t10) as [(y & -> & _)| ->]; auto. cbn [bind].
    rewrite (grab_mips_ub g h); auto.
  - destruct (setup_primary_ok g h fs I) as (g1 & -> & I1); auto. cbn [bind]. eapply setup_min_max_ub; eauto.
    exists f. split; auto. apply in_app_or in J. destruct J as [J|J]; auto. rewrite N in F by auto. discriminate.
Qed.
Lemma make_ub g h : inv g h -> same (ho_os h) ident = false -> ho_fields h <> [] -> make_min_max ident same g = UB.
Proof.
  intros I Z N. unfold make_min_max. eapply setup_min_max_ub; eauto. destruct (sampled g) as [|e l] eqn:Sm.
  - destruct I. rewrite Sm in i_prim0. apply Permutation_nil in i_prim0. congruence.
  - exists (min_of e). split; [left; auto|]. rewrite ?(proj1 (min_of_made e)), ?(proj2 (min_of_made e)). apply (made_held (en_field e)). eapply sampled_held; eauto. rewrite Sm. left. auto.
Qed.
End G.
