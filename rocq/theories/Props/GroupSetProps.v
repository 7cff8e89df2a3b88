(** C68: what a group of fields holds after any history of calls. *)
From Coq Require Import ZArith List Bool Arith Lia Permutation.
From Verif Require Import Model.Base Model.GroupSetM Spec.GroupSetSpec Proof.GroupSetP.
Import ListNotations.

Section G.
Context {M P : Type} (ident : M) (same : M -> M -> bool) (types : list nat).
Notation run l := (gsteps ident same types l (group_init ident types)).
Notation after l := (holdings ident same types l).

(** The fields a group samples are, each as often as it was given, the fields of the classes and types it can hold, with
    the transform and the remap operator that were set when they were given; [size], [sizeMIP], [fields], the answers of
    [load] and the fields that [getMinMax] looks at are as the specification says. *)
Theorem C68_contents : forall l : list (@gop M P), NoDup types -> safe ident same types l ->
  exists g, run l = Ok (g, map (answer types) l) /\
    Permutation (map shown (sampled g)) (ho_fields (after l)) /\
    size g = length (ho_fields (after l)) /\
    size_mip g = length (filter (fun p => is_mip (fd_class (pl_field p))) (ho_fields (after l))) /\
    gr_all g = ho_last (after l) /\
    (gr_prefilt g = true <-> ho_mins (after l) <> [] /\ ho_maxs (after l) <> []) /\
    (gr_prefilt g = true -> Permutation (map shown (looked_min g)) (ho_mins (after l)) /\ Permutation (map shown (looked_max g)) (ho_maxs (after l))) /\
    (gr_prefilt g = false -> Permutation (map shown (looked_min g)) (ho_fields (after l)) /\ Permutation (map shown (looked_max g)) (ho_fields (after l))).
Proof.
  intros l ND S. destruct (steps_ok ident same types ND l _ _ (inv_init ident types ND) S) as (g & R & I).
  exists g. split; [exact R|]. pose proof (size_fields _ _ _ I) as Sz. pose proof (size_mip_fields _ _ _ I) as Sm. destruct I.
  fold (after l) in *. repeat split; auto.
  - intros E. rewrite i_pre, E in H. discriminate.
  - intros E. rewrite i_pre, E, andb_false_r in H. discriminate.
  - intros (A & B). rewrite i_pre. destruct (ho_mins (after l)), (ho_maxs (after l)); auto; contradiction.
  - unfold looked_min. rewrite H. auto.
  - unfold looked_max. rewrite H. auto.
  - unfold looked_min. rewrite H. auto.
  - unfold looked_max. rewrite H. auto.
Qed.

(** Every field given to [setup], or read by [load], that the group can hold is sampled, with the transform and the
    operator of that moment, whatever is called later. *)
Lemma kept (o : @gop M P) h p : In p (ho_fields h) ->
  exists q, In q (ho_fields (hstep ident same types h o)) /\ pl_field q = pl_field p /\ pl_os q = pl_os p /\ pl_op q = pl_op p.
Proof.
  intros J. destruct o as [m|b|o|fs mins maxs|[fl|] a|]; cbn; eauto.
  - destruct b; eauto. exists (optimise p). split; [apply in_map; auto|]. unfold optimise. destruct (fd_matrix (pl_field p)); auto.
  - exists p. split; auto. apply in_or_app. auto.
  - exists p. split; auto. apply in_or_app. auto.
Qed.
Lemma kept_all (l : list (@gop M P)) : forall h p, In p (ho_fields h) ->
  exists q, In q (ho_fields (fold_left (hstep ident same types) l h)) /\ pl_field q = pl_field p /\ pl_os q = pl_os p /\ pl_op q = pl_op p.
Proof.
  induction l as [|o l IH]; intros h p J; [exists p; auto|]. destruct (kept o h p J) as (q & K & A & B & C).
  destruct (IH _ q K) as (r & L & A' & B' & C'). exists r. repeat split; auto; congruence.
Qed.
Theorem C68_sampled : forall (a b : list (@gop M P)) o f, NoDup types -> safe ident same types (a ++ o :: b) ->
  In f (offered types o) -> held types f = true ->
  exists g ns e, run (a ++ o :: b) = Ok (g, ns) /\ In e (sampled g) /\ en_field e = f /\
    en_os e = (if same (ho_os (after a)) ident then None else Some (ho_os (after a))) /\ en_op e = ho_op (after a).
Proof.
  intros a b o f ND S J H. destruct (C68_contents _ ND S) as (g & R & Pm & _).
  assert (K : In (place ident same (after a) f) (ho_fields (hstep ident same types (after a) o))).
  { destruct o as [m|c|o|fs mins maxs|[fl|] at'|]; cbn in J; try contradiction; cbn; apply in_or_app; right; apply in_map; apply filter_In; auto. }
  destruct (kept_all b _ _ K) as (q & L & A & B & C).
  unfold holdings in Pm. rewrite fold_left_app in Pm. cbn [fold_left] in Pm.
  apply (Permutation_in _ (Permutation_sym Pm)) in L. apply in_map_iff in L. destruct L as (e & E & L). subst q.
  exists g, (map (answer types) (a ++ o :: b)), e. repeat split; auto.
Qed.
(** And nothing else is sampled. *)
Lemma fields_given (l : list (@gop M P)) : forall p, In p (ho_fields (after l)) -> exists a o b, l = a ++ o :: b /\ In (pl_field p) (offered types o) /\ held types (pl_field p) = true.
Proof.
  induction l as [|o l IH] using rev_ind; [intros p []|]. intros p J. unfold holdings in *. rewrite fold_left_app in J. cbn [fold_left] in J.
  assert (G : In p (ho_fields (fold_left (hstep ident same types) l (holding_init ident))) \/
    (exists q, In q (ho_fields (fold_left (hstep ident same types) l (holding_init ident))) /\ pl_field q = pl_field p) \/
    (In (pl_field p) (offered types o) /\ held types (pl_field p) = true)).
  { destruct o as [m|c|o|fs mins maxs|[fl|] at'|]; cbn in J; auto.
    - destruct c; auto. apply in_map_iff in J. destruct J as (q & <- & J). right. left. exists q. split; auto. unfold optimise. destruct (fd_matrix (pl_field q)); auto.
    - apply in_app_or in J. destruct J as [J|J]; auto. apply in_map_iff in J. destruct J as (f & <- & J). apply filter_In in J. cbn. auto.
    - apply in_app_or in J. destruct J as [J|J]; auto. apply in_map_iff in J. destruct J as (f & <- & J). apply filter_In in J. cbn. auto. }
  assert (Q : forall q, In q (ho_fields (fold_left (hstep ident same types) l (holding_init ident))) -> pl_field q = pl_field p ->
    exists a o' b, l ++ [o] = a ++ o' :: b /\ In (pl_field p) (offered types o') /\ held types (pl_field p) = true).
  { intros q K E. destruct (IH q K) as (a & o' & b & -> & X & Y). rewrite E in *. exists a, o', (b ++ [o]). rewrite <- app_assoc. auto. }
  destruct G as [G|[(q & G & E)|G]]; [apply (Q p); auto|apply (Q q); auto|exists l, o, []; auto].
Qed.
Theorem C68_only_given : forall (l : list (@gop M P)) g ns e, NoDup types -> safe ident same types l ->
  run l = Ok (g, ns) -> In e (sampled g) ->
  exists a o b, l = a ++ o :: b /\ In (en_field e) (offered types o) /\ held types (en_field e) = true.
Proof.
  intros l g ns e ND S R J. destruct (C68_contents _ ND S) as (g' & R' & Pm & _). rewrite R in R'. injection R' as <- _.
  apply (in_map shown) in J. apply (Permutation_in _ Pm) in J. apply fields_given in J. exact J.
Qed.

Lemma only_matrix (l : list (@gop M P)) : forall p, In p (ho_fields (after l)) -> pl_opt p = Some true -> fd_matrix (pl_field p) = true.
Proof.
  assert (Pl : forall (h : @holding M P) f, pl_opt (place ident same h f) = Some true -> fd_matrix f = true).
  { intros h f. unfold place. cbn [pl_opt]. destruct (fd_matrix f); auto. rewrite andb_false_r. destruct (is_mip (fd_class f)); discriminate. }
  induction l as [|o l IH] using rev_ind; [intros p []|]. unfold holdings. intros p J O. rewrite fold_left_app in J. cbn [fold_left] in J.
  destruct o as [m|c|o|fs mins maxs|[fl|] at'|]; cbn in J; auto.
  - destruct c; auto. apply in_map_iff in J. destruct J as (q & <- & J). revert O. unfold optimise. destruct (fd_matrix (pl_field q)) eqn:E; auto.
  - apply in_app_or in J. destruct J as [J|J]; auto. apply in_map_iff in J. destruct J as (f & <- & J). apply Pl in O. auto.
  - apply in_app_or in J. destruct J as [J|J]; auto. apply in_map_iff in J. destruct J as (f & <- & J). apply Pl in O. auto.
Qed.
(** With the bounds optimisation on, the cached world bounds are those of the entry's own transform. *)
Theorem C68_cached_bounds : forall (l : list (@gop M P)) g ns e, NoDup types -> safe ident same types l ->
  run l = Ok (g, ns) -> In e (sampled g) -> en_opt e = Some true -> en_cached e = Some (en_os e) /\ fd_matrix (en_field e) = true.
Proof.
  intros l g ns e ND S R J O. destruct (steps_ok ident same types ND l _ _ (inv_init ident types ND) S) as (g' & R' & I).
  rewrite R in R'. injection R' as <- _. destruct I. split; [apply i_cache; auto|].
  apply (in_map shown) in J. apply (Permutation_in _ i_prim) in J. fold (after l) in J.
  apply (only_matrix l _ J O).
Qed.

(** [makeMinMax] in a group that has no minima and maxima: from then on [getMinMax] looks at the minimum and at the
    maximum made of each field of the group, and at nothing else. *)
Theorem C68_make_min_max : forall l : list (@gop M P), NoDup types -> safe ident same types (l ++ [MakeMinMax]) ->
  ho_mins (after l) = [] -> ho_maxs (after l) = [] -> ho_fields (after l) <> [] ->
  exists g ns, run (l ++ [MakeMinMax]) = Ok (g, ns) /\ gr_prefilt g = true /\
    Permutation (map en_field (looked_min g)) (map (fun p => made_min (pl_field p)) (ho_fields (after l))) /\
    Permutation (map en_field (looked_max g)) (map (fun p => made_max (pl_field p)) (ho_fields (after l))) /\
    Permutation (map shown (sampled g)) (ho_fields (after l)).
Proof.
  intros l ND S N X F. destruct (C68_contents _ ND S) as (g & R & Pm & _ & _ & _ & Pf & Pt & _).
  assert (E : after (l ++ [MakeMinMax]) = hstep ident same types (after l) MakeMinMax) by (unfold holdings; rewrite fold_left_app; auto).
  rewrite E in *. cbn [hstep ho_mins ho_maxs ho_fields] in *. rewrite N, X in *. cbn [app] in *.
  exists g, (map (answer types) (l ++ [MakeMinMax])). split; auto.
  assert (T : gr_prefilt g = true). { apply Pf. destruct (ho_fields (after l)); [contradiction|]. split; discriminate. }
  destruct (Pt T) as (A & B). repeat split; auto.
  - apply (Permutation_map pl_field) in A. rewrite !map_map in A. exact A.
  - apply (Permutation_map pl_field) in B. rewrite !map_map in B. exact B.
Qed.

(** Instancing does not work for MIP fields, and minima and maxima cannot be made or loaded for instances: adding any
    MIP field, or calling [makeMinMax] on a group that is not empty, while a transform is set reads a flag that was never
    written. *)
Theorem C68_mip_transform_refuted : forall (a b : list (@gop M P)) o, NoDup types -> safe ident same types a ->
  step_unsafe ident same types (after a) o -> run (a ++ o :: b) = UB.
Proof.
  intros a b o ND S (Z & U). destruct (steps_ok ident same types ND a _ _ (inv_init ident types ND) S) as (g & R & I).
  rewrite gsteps_app, R. cbn [bind gsteps]. fold (after a) in I.
  assert (B : gstep ident same types g o = UB).
  { destruct o as [m|c|o|fs mins maxs|[fl|] at'|]; try contradiction; cbn [gstep].
    - erewrite setup_ub; eauto.
    - unfold load. erewrite setup_ub; eauto.
    - erewrite make_ub; eauto. }
  rewrite B. reflexivity.
Qed.
(** A wrapper on its own, after any calls: if the bounds optimisation was asked for and the mapping is a matrix, the box
    belongs to the last transform. *)
Lemma wrapper_run f : forall (l : list (@wop M P)) e, en_field e = f -> en_opt e <> None ->
  (en_opt e = Some true -> fd_matrix f = true /\ en_cached e = Some (en_os e)) ->
  exists e', wsteps l e = Ok e' /\ en_field e' = f /\
    en_os e' = fold_left (fun x o => match o with WOs m => Some m | _ => x end) l (en_os e) /\
    en_op e' = fold_left (fun x o => match o with WOp p => Some p | _ => x end) l (en_op e) /\
    (en_opt e' = Some true <-> en_opt e = Some true \/ asked_opt l = true /\ fd_matrix f = true) /\
    (en_opt e' = Some true -> en_cached e' = Some (en_os e')).
Proof.
  induction l as [|o l IH]; intros e F N C.
  - exists e. cbn. split; [reflexivity|]. split; [exact F|]. split; [reflexivity|]. split; [reflexivity|]. split.
    + split; [auto|intros [K|(K & _)]; [exact K|discriminate]].
    + intros K. apply C, K.
  - assert (S : exists e1, wstep e o = Ok e1 /\ en_field e1 = f /\ en_opt e1 <> None /\
      (en_opt e1 = Some true -> fd_matrix f = true /\ en_cached e1 = Some (en_os e1)) /\
      en_os e1 = match o with WOs m => Some m | _ => en_os e end /\ en_op e1 = match o with WOp p => Some p | _ => en_op e end /\
      (en_opt e1 = Some true <-> en_opt e = Some true \/ (match o with WOpt true => true | _ => false end = true /\ fd_matrix f = true))).
    { destruct e as [g os op [[|]|] ca]; cbn in F, N, C; try contradiction; subst g; destruct o as [m|[|]|p]; cbn.
      all: unfold set_os, set_opt; cbn; try destruct (C eq_refl) as (D & D'); rewrite ?D.
      all: try (destruct (fd_matrix f) eqn:Mf). all: eexists; split; [reflexivity|]; cbn; rewrite ?Mf.
      all: intuition congruence. }
    destruct S as (e1 & W & F1 & N1 & C1 & O1 & P1 & Q1). destruct (IH e1 F1 N1 C1) as (e2 & R & F2 & O2 & P2 & Q2 & K2).
    exists e2. cbn [wsteps]. rewrite W. cbn [bind]. rewrite R. split; [reflexivity|]. split; [exact F2|]. rewrite O2, P2, O1, P1.
    split; [reflexivity|]. split; [reflexivity|]. split; [|rewrite <- O1, <- O2; exact K2].
    rewrite Q2, Q1. unfold asked_opt. cbn [existsb]. rewrite orb_true_iff. tauto.
Qed.
Theorem C68_wrapper : forall f (l : list (@wop M P)), is_mip (fd_class f) = false ->
  exists e, wsteps l (new_entry f) = Ok e /\ en_field e = f /\ en_os e = last_os l /\ en_op e = last_op l /\
    (en_opt e = Some true <-> asked_opt l = true /\ fd_matrix f = true) /\
    (en_opt e = Some true -> en_cached e = Some (last_os l)).
Proof.
  intros f l Mi. assert (N : en_opt (@new_entry M P f) = Some false) by (unfold new_entry; cbn; rewrite Mi; reflexivity).
  assert (N1 : en_opt (@new_entry M P f) <> None) by congruence.
  assert (N2 : en_opt (@new_entry M P f) = Some true -> fd_matrix f = true /\ en_cached (@new_entry M P f) = Some (en_os (@new_entry M P f))) by congruence.
  destruct (wrapper_run f l (new_entry f) eq_refl N1 N2) as (e & R & F & O & Q & T & C).
  exists e. split; [exact R|]. split; [exact F|]. split; [exact O|]. split; [exact Q|]. split.
  - rewrite T, N. split; [intros [H|H]; [discriminate|exact H]|auto].
  - intros H. rewrite (C H). f_equal. exact O.
Qed.
(** The group keeps all the fields given as minima and maxima, whatever is called later. *)
Lemma aux_step g (o : @gop M P) g' n : gstep ident same types g o = Ok (g', n) ->
  exists r, gr_aux g' = gr_aux g ++ r /\ forall f, In f (given_min_max types o) -> In f r.
Proof.
  assert (MM : forall (g : @group M P) mins maxs g', setup_min_max ident same g mins maxs = Ok g' -> gr_aux g' = gr_aux g ++ mins ++ maxs).
  { clear. intros g mins maxs g' H. unfold setup_min_max in H.
    repeat match type of H with bind ?x _ = _ => destruct x; cbn [bind] in H; try discriminate end. injection H as <-. reflexivity. }
  assert (SU : forall (g : @group M P) fs mins maxs g', setup ident same g fs mins maxs = Ok g' -> gr_aux g' = gr_aux g ++ mins ++ maxs).
  { intros x fs mins maxs x' H. unfold setup in H. destruct (setup_primary ident same x fs) as [y| |] eqn:Y; cbn [bind] in H; try discriminate.
    apply MM in H. rewrite H. f_equal. unfold setup_primary in Y.
    repeat match type of Y with bind ?x _ = _ => destruct x; cbn [bind] in Y; try discriminate end. injection Y as <-. reflexivity. }
  intros H. destruct o as [m|b|p|fs mins maxs|[fl|] at'|]; cbn [gstep given_min_max] in *.
  1,2,3: injection H as <- _; exists []; cbn; rewrite app_nil_r; auto.
  - destruct (setup ident same g fs mins maxs) as [y| |] eqn:Y; cbn [bind] in H; try discriminate. injection H as <- _. eauto.
  - unfold load in H. destruct (setup _ _ _ _ _ _) as [y| |] eqn:Y; cbn [bind] in H; try discriminate. injection H as <- _.
    apply SU in Y. eexists. split; [exact Y|]. auto.
  - cbn in H. injection H as <- _. exists []. rewrite app_nil_r. auto.
  - destruct (make_min_max ident same g) as [y| |] eqn:Y; cbn [bind] in H; try discriminate. injection H as <- _. apply MM in Y.
    eexists. split; [exact Y|]. intros f [].
Qed.
Theorem C68_kept : forall (a b : list (@gop M P)) o g ns f, run (a ++ o :: b) = Ok (g, ns) ->
  In f (given_min_max types o) -> In f (gr_aux g).
Proof.
  assert (K : forall (l : list (@gop M P)) g g' ns f, gsteps ident same types l g = Ok (g', ns) -> In f (gr_aux g) -> In f (gr_aux g')).
  { induction l as [|o l IH]; intros g g' ns f H J; cbn [gsteps] in H; [injection H as <- _; exact J|].
    destruct (gstep ident same types g o) as [(g1 & n)| |] eqn:G; cbn [bind] in H; try discriminate.
    destruct (gsteps ident same types l g1) as [(g2 & ms)| |] eqn:G2; cbn [bind] in H; try discriminate. injection H as <- _.
    destruct (aux_step _ _ _ _ G) as (r & E & _). apply (IH g1 g2 ms f G2). rewrite E. apply in_or_app. auto. }
  intros a b o g ns f H J. rewrite gsteps_app in H. destruct (gsteps ident same types a _) as [(g0 & ms)| |]; cbn [bind] in H; try discriminate.
  cbn [gsteps] in H. destruct (gstep ident same types g0 o) as [(g1 & n)| |] eqn:G; cbn [bind] in H; try discriminate.
  destruct (gsteps ident same types b g1) as [(g2 & ks)| |] eqn:G2; cbn [bind] in H; try discriminate. injection H as <- _.
  destruct (aux_step _ _ _ _ G) as (r & E & I). apply (K _ _ _ _ _ G2). rewrite E. apply in_or_app. auto.
Qed.
End G.

(** Findings, for the two value types 0 and 1, and transforms and operators that are numbers (0: the identity). *)
Local Open Scope nat_scope.
Notation run2 l := (gsteps 0 Nat.eqb [0; 1] l (@group_init nat nat 0 [0; 1])).
Definition dense0 (id : nat) : gfd := Gfd CDense 0 true (User id).
Definition mip0 (id : nat) : gfd := Gfd CMipDense 0 true (User id).
(** [fields()] returns only what the last [setup] or [load] was given, whatever the group holds, and also what it does
    not hold. *)
Theorem C68_fields_refuted :
  exists g ns, run2 [Setup [dense0 1] [] []; Setup [Gfd COther 0 true (User 2)] [] []] = Ok (g, ns) /\
    map en_field (sampled g) = [dense0 1] /\ gr_all g = [Gfd COther 0 true (User 2)].
Proof. eexists. eexists. vm_compute. auto. Qed.
Print Assumptions C68_fields_refuted.
(** A field without minimum and maximum, beside one that has them: [getMinMax] ignores its values. *)
Theorem C68_min_max_misses_refuted :
  exists g ns, run2 [Setup [dense0 1] [mip0 11] [mip0 12]; Setup [dense0 2] [] []] = Ok (g, ns) /\
    map en_field (sampled g) = [dense0 1; dense0 2] /\ map en_field (looked_min g) = [mip0 11] /\ map en_field (looked_max g) = [mip0 12].
Proof. eexists. eexists. vm_compute. auto. Qed.
Print Assumptions C68_min_max_misses_refuted.
(** Calling [makeMinMax] twice, or after a [load] that brought minima: they are there twice. *)
Theorem C68_make_twice_refuted :
  exists g ns, run2 [Setup [dense0 1] [] []; MakeMinMax; MakeMinMax] = Ok (g, ns) /\
    map en_field (looked_min g) = [made_min (dense0 1); made_min (dense0 1)].
Proof. eexists. eexists. vm_compute. auto. Qed.
Print Assumptions C68_make_twice_refuted.
(** [makeMinMax] gives the minima and maxima the transform set when it is called, not that of the field. *)
Theorem C68_make_transform_refuted :
  exists g ns, run2 [SetOs 7; Setup [dense0 1] [] []; SetOs 0; MakeMinMax] = Ok (g, ns) /\
    map shown (sampled g) = [Placed (dense0 1) (Some 7) None (Some false)] /\
    map shown (looked_min g) = [Placed (made_min (dense0 1)) None None None].
Proof. eexists. eexists. vm_compute. auto. Qed.
Print Assumptions C68_make_transform_refuted.
(** Minima and maxima that are not MIP fields are dropped without a word. *)
Theorem C68_dense_min_dropped_refuted :
  exists g ns, run2 [Setup [dense0 1] [dense0 11] [dense0 12]] = Ok (g, ns) /\ gr_prefilt g = false /\ map en_field (looked_min g) = [dense0 1].
Proof. eexists. eexists. vm_compute. auto. Qed.
Print Assumptions C68_dense_min_dropped_refuted.
(** [setWsBoundsOptimization(true)] reaches the fields already in the group, although it says it is for later calls;
    [setWsBoundsOptimization(false)] does not. *)
Theorem C68_optimisation_refuted :
  exists g ns g' ns', run2 [Setup [dense0 1] [] []; SetOpt true] = Ok (g, ns) /\ map en_opt (sampled g) = [Some true] /\
    run2 [Setup [dense0 1] [] []; SetOpt true; SetOpt false] = Ok (g', ns') /\ map en_opt (sampled g') = [Some true].
Proof. do 4 eexists. vm_compute. auto. Qed.
Print Assumptions C68_optimisation_refuted.

(** A concrete case: two partitions in a file, instanced twice, with an operator in between, and minima made. *)
Definition two_parts : gfile :=
  Gfile [[97%Z]; [98%Z]] (fun p a t => if Nat.eqb t 0 then if Nat.eqb (length a) 1 then if Z.eqb (hd 0%Z p) 97 then [dense0 1] else [Gfd CSparse 0 true (User 2)] else [] else []).
Definition case : list (@gop nat nat) :=
  [SetOs 7; LoadFile (Some two_parts) [100%Z]; SetOs 9; SetOp (Some 5); SetOpt true; LoadFile (Some two_parts) [100%Z]; LoadFile None [100%Z];
   SetOs 0; SetOp None; Setup [mip0 3; Gfd COther 0 false (User 4); Gfd CDense 8 true (User 5)] [] []; MakeMinMax].
Lemma case_safe : safe 0 Nat.eqb [0; 1] case.
Proof.
  intros a o b E. unfold case in E.
  do 11 (destruct a as [|? a]; [injection E as <- <-; first [left; vm_compute; reflexivity | right; vm_compute; exact I |
    right; intros f J; vm_compute in J; repeat (destruct J as [<-|J]; [reflexivity|]); destruct J] | injection E as <- E]).
  destruct a; discriminate.
Qed.
Example C68_case : exists g, run2 case = Ok (g, [None; Some 2%Z; None; None; None; Some 2%Z; Some (-1)%Z; None; None; None; None]) /\
  map shown (sampled g) =
    [Placed (dense0 1) (Some 7) None (Some true); Placed (dense0 1) (Some 9) (Some 5) (Some true);
     Placed (Gfd CSparse 0 true (User 2)) (Some 7) None (Some true); Placed (Gfd CSparse 0 true (User 2)) (Some 9) (Some 5) (Some true);
     Placed (mip0 3) None None (Some true)] /\ size g = 5 /\ size_mip g = 1 /\ length (looked_min g) = 5.
Proof. eexists. vm_compute. auto. Qed.
Example C68_case_contents : exists g, run2 case = Ok (g, map (answer [0; 1]) case) /\ size g = 5.
Proof.
  destruct (C68_contents 0 Nat.eqb [0; 1] case) as (g & R & _ & S & _); [repeat constructor; cbn; intuition lia|exact case_safe|].
  exists g. split; auto.
Qed.
Example C68_case_sampled : exists g ns e, run2 case = Ok (g, ns) /\ In e (sampled g) /\ en_field e = Gfd CSparse 0 true (User 2) /\ en_os e = Some 9 /\ en_op e = Some 5.
Proof.
  destruct (C68_sampled 0 Nat.eqb [0; 1] (firstn 5 case) (skipn 6 case) (LoadFile (Some two_parts) [100%Z]) (Gfd CSparse 0 true (User 2))) as (g & ns & e & R & H);
    [repeat constructor; cbn; intuition lia|exact case_safe|vm_compute; auto|reflexivity|]. exists g, ns, e. split; auto.
Qed.
Example C68_case_made : exists g ns, run2 [Setup [dense0 1; mip0 3] [] []; MakeMinMax] = Ok (g, ns) /\ gr_prefilt g = true /\
  Permutation (map en_field (looked_min g)) [made_min (dense0 1); made_min (mip0 3)].
Proof.
  destruct (@C68_make_min_max nat nat 0 Nat.eqb [0; 1] [Setup [dense0 1; mip0 3] [] []]) as (g & ns & R & A & B & _); try (vm_compute; auto; discriminate).
  - repeat constructor; cbn; intuition lia.
  - intros a o b E. do 2 (destruct a as [|? a]; [injection E as <- <-; left; reflexivity|injection E as <- E]). destruct a; discriminate.
  - exists g, ns. auto.
Qed.
Example C68_case_undefined : run2 [SetOs 7; Setup [dense0 1] [] []; Setup [mip0 3] [] []] = UB /\ run2 [SetOs 7; Setup [dense0 1] [] []; MakeMinMax] = UB.
Proof. split; reflexivity. Qed.

Print Assumptions C68_contents.
Print Assumptions C68_sampled.
Print Assumptions C68_only_given.
Print Assumptions C68_cached_bounds.
Print Assumptions C68_make_min_max.
Print Assumptions C68_mip_transform_refuted.
Print Assumptions C68_wrapper.
Print Assumptions C68_kept.
Example C68_wrapper_ex : exists e, wsteps [WOs 7; WOpt true; WOp 3; WOs 9] (@new_entry nat nat (dense0 1)) = Ok e /\ en_opt e = Some true /\ en_cached e = Some (Some 9).
Proof.
  destruct (C68_wrapper 0 Nat.eqb (dense0 1) [WOs 7; WOpt true; WOp 3; WOs 9] eq_refl) as (e & R & _ & _ & _ & O & C).
  exists e. split; [exact R|]. assert (X : en_opt e = Some true) by (apply O; split; reflexivity). split; [exact X|exact (C X)].
Qed.
Example C68_kept_ex : exists g ns, run2 ([SetOs 0] ++ Setup [dense0 1] [mip0 11] [mip0 12] :: [MakeMinMax; SetOs 7]) = Ok (g, ns) /\ In (mip0 12) (gr_aux g).
Proof.
  eexists. eexists. split; [vm_compute; reflexivity|].
  eapply (C68_kept 0 Nat.eqb [0; 1] [SetOs 0] [MakeMinMax; SetOs 7] (Setup [dense0 1] [mip0 11] [mip0 12])); [vm_compute; reflexivity|cbn; auto].
Qed.
