(** Proofs about loading plugins. *)
From Coq Require Import String ZArith List Bool Lia.
From Verif Require Import Model.Base Model.OgawaM Model.OgM Proof.OgP Model.FieldIOM Model.PatternM Model.FactoryM Model.PluginM
  Spec.NameSpec Spec.PluginSpec Proof.NameP.
Import ListNotations.
Open Scope Z_scope.

(** Splitting at one character. *)
Lemma split_on_iff c s l : c <> 0 -> split_on [c] s = l <-> tokens (eq c) s l.
Proof.
  intros C. unfold split_on. cbn [c_str]. destruct (Z.eqb_spec c 0) as [|_]; [congruence|].
  rewrite split_iff. assert (E : forall x, existsb (Z.eqb x) [c] = true <-> c = x).
  { intros x. cbn. rewrite orb_false_r, Z.eqb_eq. intuition. }
  split; induction 1; constructor; try (apply E; assumption); auto;
    intros x I X; eapply H0; try exact I; apply E; exact X.
Qed.
Lemma split_from_app sep s r c : sep c = true -> forall acc, split_from sep (s ++ c :: r) acc = split_from sep s acc ++ split_from sep r [].
Proof.
  intros C. induction s as [|a s IH]; intros acc; cbn.
  - rewrite C. destruct acc; auto.
  - destruct (sep a); [|apply IH]. destruct acc; cbn; rewrite IH; auto.
Qed.
Lemma split_on_app c s r : c <> 0 -> split_on [c] (s ++ c :: r) = split_on [c] s ++ split_on [c] r.
Proof.
  intros C. unfold split_on. apply split_from_app. cbn [c_str]. destruct (Z.eqb_spec c 0); [congruence|]. cbn. rewrite Z.eqb_refl. auto.
Qed.
Lemma split_on_single c t : c <> 0 -> t <> [] -> ~ In c t -> split_on [c] t = [t].
Proof. intros C N I. apply split_on_iff; auto. apply tokens_last; auto. intros x J ->. auto. Qed.
Lemma split_on_dots c k : c <> 0 -> split_on [c] (repeat c k) = [].
Proof.
  intros C. apply split_on_iff; auto. induction k; cbn; [constructor|]. apply tokens_sep; auto.
Qed.
Lemma split_on_trail c s k : c <> 0 -> split_on [c] (s ++ repeat c k) = split_on [c] s.
Proof.
  intros C. destruct k as [|k]; cbn [repeat]; [rewrite app_nil_r; auto|].
  rewrite split_on_app, split_on_dots by auto. apply app_nil_r.
Qed.

Lemma tokens_last_form c s l : tokens (eq c) s l -> forall l' t, l = l' ++ [t] ->
  exists before k, s = before ++ t ++ repeat c k /\ (before = [] \/ exists b, before = b ++ [c]).
Proof.
  induction 1 as [|a s l C T IH|u N F|u a s l N F C T IH]; intros l' t E.
  - destruct l'; discriminate.
  - destruct (IH _ _ E) as (b & k & -> & B). subst a. exists (c :: b), k. split; auto. right.
    destruct B as [->|(b' & ->)]; [exists []; auto|exists (c :: b'); auto].
  - destruct l' as [|x [|y l']]; try discriminate. injection E as ->. exists [], 0%nat. cbn. rewrite app_nil_r. auto.
  - subst a. destruct l' as [|x l'].
    + injection E as -> ->. clear IH. exists [], (S (List.length s)). split; auto. cbn [app]. f_equal. cbn. f_equal.
      clear -T. remember [] as l eqn:L in T. induction T; try discriminate; auto. subst. cbn. f_equal. auto.
    + injection E as -> E. destruct (IH _ _ E) as (b & k & -> & B). exists (x ++ c :: b), k. split; [rewrite <- app_assoc; auto|].
      right. destruct B as [->|(b' & ->)]; [exists x; auto|exists (x ++ c :: b'); rewrite <- app_assoc; auto].
Qed.

Lemma so_filter_iff n : so_filter n = true <-> so_name n.
Proof.
  unfold so_filter. split.
  - destruct (rev (split_on [46] n)) as [|t l] eqn:R; [discriminate|]. destruct (bytes_eqb_spec t (str "so")) as [->|]; [intros _|discriminate].
    apply (f_equal (@rev _)) in R. rewrite rev_involutive in R. cbn [rev] in R.
    assert (T := R). apply split_on_iff in T; [|lia]. destruct (tokens_last_form _ _ _ T _ _ eq_refl) as (b & k & -> & B).
    exists b, k. auto.
  - intros (b & k & -> & B). rewrite app_assoc, split_on_trail by lia.
    assert (X : split_on [46] [115; 111] = [[115; 111]]) by (vm_compute; auto).
    destruct B as [->|(b' & ->)]; [cbn [app]; rewrite X; vm_compute; auto|].
    rewrite <- app_assoc. cbn [app]. rewrite split_on_app, X, rev_app_distr by lia. vm_compute. auto.
Qed.
Lemma so_name_nonempty n : so_name n -> n <> [].
Proof. intros (b & k & -> & _) X. apply app_eq_nil in X. destruct X as (_ & X). discriminate. Qed.

Lemma plugin_name_path f : snd f <> [] -> ~ In 47 (snd f) -> plugin_name (path_of f) = Some (snd f).
Proof.
  intros N I. unfold plugin_name, path_of. rewrite split_on_app, (split_on_single _ (snd f)), rev_app_distr by (auto; lia). auto.
Qed.

(** The files. *)
Definition dir_files (s : system) (d : bytes) : list file :=
  match sy_dir s d with Some names => map (pair d) (filter so_filter names) | None => [] end.
Definition files (s : system) : list file :=
  match sy_path s with Some path => flat_map (dir_files s) (split_on [58] path) | None => [] end.
Lemma get_dir_files s d : match get_dir_sos s d with Some l => l | None => [] end = map path_of (dir_files s d).
Proof.
  unfold get_dir_sos, dir_files. destruct (sy_dir s d) as [names|]; auto. rewrite map_map. apply map_ext. auto.
Qed.
Lemma candidates_files s : candidates s = map path_of (files s).
Proof.
  unfold candidates, files. destruct (sy_path s) as [path|]; auto. induction (split_on [58] path) as [|d l IH]; auto. cbn [flat_map].
  rewrite map_app, IH, get_dir_files. auto.
Qed.
Lemma names_in_iff d names l : names_in d names l <-> l = map (pair d) (filter so_filter names).
Proof.
  split.
  - induction 1; cbn; auto.
    + destruct (so_filter n) eqn:X; auto. apply so_filter_iff in X. contradiction.
    + apply so_filter_iff in H. rewrite H. cbn. congruence.
  - intros ->. induction names as [|n names IH]; cbn; [constructor|]. destruct (so_filter n) eqn:X.
    + apply names_so; auto. apply so_filter_iff; auto.
    + apply names_other; auto. intros Y. apply so_filter_iff in Y. congruence.
Qed.
Lemma plugin_files_iff s dirs l : plugin_files s dirs l <-> l = flat_map (dir_files s) dirs.
Proof.
  split.
  - induction 1; cbn; auto.
    + unfold dir_files at 1. rewrite H. auto.
    + unfold dir_files at 1. rewrite H. apply names_in_iff in H0. congruence.
  - intros ->. induction dirs as [|d dirs IH]; cbn; [constructor|]. unfold dir_files at 1. destruct (sy_dir s d) as [names|] eqn:D.
    + eapply files_dir; eauto. apply names_in_iff. auto.
    + apply files_skip; auto.
Qed.
Lemma on_path_iff s l : on_path s l <-> l = files s.
Proof.
  unfold files. split.
  - intros [P|path dirs l' P T F]; rewrite P; auto. apply plugin_files_iff in F. apply split_on_iff in T; [|lia]. congruence.
  - intros ->. destruct (sy_path s) as [path|] eqn:P; [|constructor; auto]. eapply path_set; eauto.
    + apply split_on_iff; [lia|]. auto.
    + apply plugin_files_iff. auto.
Qed.

(** The unseen ones, as a function. *)
Definition seen_in (n : bytes) (seen : list bytes) : bool := existsb (fun l => bytes_eqb l n) seen.
Lemma seen_in_iff n seen : seen_in n seen = true <-> In n seen.
Proof.
  unfold seen_in. rewrite existsb_exists. split.
  - intros (x & I & X). destruct (bytes_eqb_spec x n); [subst; auto|discriminate].
  - intros I. exists n. split; auto. destruct (bytes_eqb_spec n n); auto.
Qed.
Fixpoint fresh (seen : list bytes) (l : list file) : list file :=
  match l with
  | [] => []
  | f :: r => if seen_in (snd f) seen then fresh seen r else f :: fresh (seen ++ [snd f]) r
  end.
Lemma fresh_ext l : forall a b, (forall n, In n a <-> In n b) -> fresh a l = fresh b l.
Proof.
  induction l as [|f l IH]; intros a b X; auto. cbn. destruct (seen_in (snd f) a) eqn:A, (seen_in (snd f) b) eqn:B'.
  - auto.
  - apply seen_in_iff, X, seen_in_iff in A. congruence.
  - apply seen_in_iff, X, seen_in_iff in B'. congruence.
  - apply (f_equal (cons f)). apply IH. intros n. rewrite !in_app_iff, X. tauto.
Qed.
Lemma unseen_iff l : forall seen l', unseen seen l l' <-> l' = fresh seen l.
Proof.
  intros seen l'. split.
  - induction 1; cbn; auto.
    + apply seen_in_iff in H. rewrite H. auto.
    + destruct (seen_in (snd f) seen) eqn:X; [apply seen_in_iff in X; contradiction|]. rewrite IHunseen. apply (f_equal (cons f)).
      apply fresh_ext. intros n. rewrite in_app_iff. cbn. tauto.
  - intros ->. revert seen. induction l as [|f l IH]; intros seen; cbn; [constructor|]. destruct (seen_in (snd f) seen) eqn:X.
    + apply unseen_old; auto. apply seen_in_iff. auto.
    + apply unseen_new. { intros I. apply seen_in_iff in I. congruence. }
      rewrite (fresh_ext l (seen ++ [snd f]) (snd f :: seen)); auto. intros n. rewrite in_app_iff. cbn. tauto.
Qed.
Lemma fresh_none l : forall seen, (forall f, In f l -> In (snd f) seen) -> fresh seen l = [].
Proof.
  induction l as [|f l IH]; intros seen X; auto. cbn. assert (Y : seen_in (snd f) seen = true) by (apply seen_in_iff; apply X; left; auto).
  rewrite Y. apply IH. intros g I. apply X. right. auto.
Qed.
Lemma fresh_app a : forall b seen, fresh seen (a ++ b) = fresh seen a ++ fresh (seen ++ map snd (fresh seen a)) b.
Proof.
  induction a as [|f a IH]; intros b seen; cbn. { rewrite app_nil_r. auto. }
  destruct (seen_in (snd f) seen); auto. cbn. rewrite IH, <- app_assoc. auto.
Qed.
Lemma fresh_covers l : forall seen f, In f l -> In (snd f) (seen ++ map snd (fresh seen l)).
Proof.
  induction l as [|g l IH]; intros seen f I; [contradiction|]. cbn. destruct (seen_in (snd g) seen) eqn:X.
  - destruct I as [<-|I]; auto. apply seen_in_iff in X. apply in_or_app. auto.
  - cbn [map]. replace (seen ++ snd g :: map snd (fresh (seen ++ [snd g]) l)) with ((seen ++ [snd g]) ++ map snd (fresh (seen ++ [snd g]) l)) by (rewrite <- app_assoc; auto).
    destruct I as [<-|I]; [|auto]. apply in_or_app. left. apply in_or_app. right. left. auto.
Qed.
Lemma fresh_length l : forall seen, (List.length (fresh seen l) <= List.length l)%nat.
Proof. induction l as [|f l IH]; intros seen; cbn; auto. destruct (seen_in (snd f) seen); cbn; [pose proof (IH seen)|pose proof (IH (seen ++ [snd f]))]; lia. Qed.
Lemma fresh_new l : forall seen f, In f (fresh seen l) -> ~ In (snd f) seen.
Proof.
  induction l as [|g l IH]; intros seen f I; [contradiction|]. cbn in I. destruct (seen_in (snd g) seen) eqn:X; auto.
  destruct I as [<-|I].
  - intros J. apply seen_in_iff in J. congruence.
  - intros J. apply (IH _ _ I). apply in_or_app. auto.
Qed.
Lemma fresh_nodup l : forall seen, NoDup (map snd (fresh seen l)).
Proof.
  induction l as [|g l IH]; intros seen; cbn; [constructor|]. destruct (seen_in (snd g) seen); auto. cbn. constructor; auto.
  intros I. apply in_map_iff in I. destruct I as (f & <- & I). apply fresh_new in I. apply I. apply in_or_app. right. left. auto.
Qed.

(** The loops. *)
Lemma load_files_app sing s a b : forall p,
  load_files sing s (a ++ b) p = match load_files sing s a p with Some p => load_files sing s b p | None => None end.
Proof.
  induction a as [|f a IH]; intros p; auto. cbn. destruct (already_loaded p (plugin_name f)); auto.
  destruct (sy_lib s f); auto. destruct (sing _); auto.
Qed.
Lemma load_dirs_files sing s dirs : forall p, load_dirs sing s dirs p = load_files sing s (map path_of (flat_map (dir_files s) dirs)) p.
Proof.
  induction dirs as [|d dirs IH]; intros p; auto. cbn [load_dirs flat_map]. rewrite map_app, <- get_dir_files, load_files_app.
  destruct (get_dir_sos s d) as [l|]; [|apply IH]. destruct (load_files sing s l p); [apply IH|reflexivity].
Qed.
Lemma load_with_files sing s p : load_with sing s p = load_files sing s (map path_of (files s)) p.
Proof. unfold load_with, files. destruct (sy_path s); auto. apply load_dirs_files. Qed.

Definition good (f : file) : Prop := snd f <> [] /\ ~ In 47 (snd f).
Lemma files_good s : plain_names s -> Forall good (files s).
Proof.
  intros P. apply Forall_forall. intros f. unfold files. destruct (sy_path s) as [path|]; [|contradiction].
  rewrite in_flat_map. intros (d & _ & I). unfold dir_files in I. destruct (sy_dir s d) as [names|] eqn:D; [|contradiction].
  apply in_map_iff in I. destruct I as (n & <- & I). apply filter_In in I. destruct I as (I & F). apply so_filter_iff in F. split; cbn.
  - apply so_name_nonempty. auto.
  - eapply P; eauto.
Qed.
Lemma already_good f p : good f -> already_loaded p (plugin_name (path_of f)) = seen_in (snd f) (pr_loaded p).
Proof. intros (A & B'). rewrite plugin_name_path by auto. reflexivity. Qed.

Definition adv (p : proc) (i : option factory) (new : list file) (called : list file) : proc :=
  Proc i (pr_loaded p ++ map snd new) (pr_opened p ++ map path_of new) (pr_called p ++ map path_of called).
Lemma adv_none p : adv p (pr_inst p) [] [] = p.
Proof. unfold adv. cbn. rewrite !app_nil_r. destruct p; auto. Qed.

Section Load.
Variables (s : system).
Definition kept : (proc -> option proc) -> Prop := fun sing => forall q, pr_inst q <> None -> sing q = Some q.
(** There is a factory: all new plugins register with it. *)
Lemma load_some sing l : kept sing -> Forall good l -> forall p i, pr_inst p = Some i ->
  let new := fresh (pr_loaded p) l in
  load_files sing s (map path_of l) p = Some (adv p (Some (fold_left register (flat_map (gives s) new) i)) new (filter (is_plugin s) new)).
Proof.
  intros K. induction 1 as [|f l G GL IH]; intros p i I; cbn [map load_files fresh].
  - cbn. rewrite <- I, adv_none. auto.
  - rewrite (already_good f p G). destruct (seen_in (snd f) (pr_loaded p)) eqn:X; [apply IH; auto|].
    rewrite plugin_name_path by apply G. cbn [mark_loaded mark_opened pr_inst pr_loaded pr_opened pr_called].
    cbn [flat_map filter]. unfold gives at 1, is_plugin at 1.
    destruct (sy_lib s (path_of f)) as [| |regs res].
    + rewrite (IH _ i) by auto. cbn [pr_loaded]. unfold adv. cbn. rewrite <- !app_assoc. auto.
    + rewrite (IH _ i) by auto. cbn [pr_loaded]. unfold adv. cbn. rewrite <- !app_assoc. auto.
    + rewrite K by (cbn; congruence). unfold mark_called. cbn [pr_inst]. rewrite I. rewrite (IH _ (fold_left register regs i)) by auto.
      unfold mark_opened, adv. cbn [pr_loaded pr_opened pr_called map]. rewrite <- !app_assoc, fold_left_app. cbn [app]. auto.
Qed.

Definition first_made (new : list file) : option factory :=
  option_map (fun f => fold_left register (gives s f) factory_init) (find (is_plugin s) new).
Definition after_use (whole : list file) (q : proc) : proc :=
  let new := fresh (pr_loaded q) whole in adv q (Some factory_init) new (rev (filter (is_plugin s) new)).

(** There is none: only the first plugin registers with the factory that stays. *)
Lemma load_none sing whole k l : kept sing ->
  (forall q, pr_inst q = None -> (List.length (fresh (pr_loaded q) whole) < k)%nat -> sing q = Some (after_use whole q)) ->
  Forall good l -> forall before p, whole = before ++ l -> (forall f, In f before -> In (snd f) (pr_loaded p)) ->
  pr_inst p = None ->
  let new := fresh (pr_loaded p) l in (List.length new <= k)%nat ->
  load_files sing s (map path_of l) p = Some (adv p (first_made new) new (rev (filter (is_plugin s) new))).
Proof.
  intros K U. induction 1 as [|f l G GL IH]; intros before p W B' I; cbn [map load_files fresh].
  - intros _. unfold first_made. cbn [find option_map filter rev]. rewrite <- I, adv_none. auto.
  - rewrite (already_good f p G). destruct (seen_in (snd f) (pr_loaded p)) eqn:X.
    + intros L. apply (IH (before ++ [f])); auto. { rewrite <- app_assoc. auto. }
      intros g J. apply in_app_or in J. destruct J as [J|[<-|[]]]; auto. apply seen_in_iff. auto.
    + intros L. cbn [List.length] in L.
      set (p1 := Proc (pr_inst p) (pr_loaded p ++ [snd f]) (pr_opened p ++ [path_of f]) (pr_called p)).
      assert (E1 : mark_opened (mark_loaded p (plugin_name (path_of f))) (path_of f) = p1).
      { rewrite plugin_name_path by apply G. auto. }
      rewrite E1. clear E1.
      assert (Seen : forall g, In g (before ++ [f]) -> In (snd g) (pr_loaded p1)).
      { intros g J. cbn. apply in_or_app. apply in_app_or in J. destruct J as [J|[<-|[]]]; auto. right. left. auto. }
      assert (W' : whole = (before ++ [f]) ++ l) by (rewrite <- app_assoc; auto).
      unfold first_made. cbn [find filter].
      destruct (sy_lib s (path_of f)) as [| |regs res] eqn:Lib.
      * assert (Ip : is_plugin s f = false) by (unfold is_plugin; rewrite Lib; auto). rewrite Ip.
        rewrite (IH (before ++ [f]) p1) by (auto; cbn; lia). unfold adv, first_made. cbn. rewrite <- !app_assoc. auto.
      * assert (Ip : is_plugin s f = false) by (unfold is_plugin; rewrite Lib; auto). rewrite Ip.
        rewrite (IH (before ++ [f]) p1) by (auto; cbn; lia). unfold adv, first_made. cbn. rewrite <- !app_assoc. auto.
      * assert (Ip : is_plugin s f = true) by (unfold is_plugin; rewrite Lib; auto). rewrite Ip. cbn [option_map].
        assert (Gv : gives s f = regs) by (unfold gives; rewrite Lib; auto). rewrite Gv.
        assert (Fr : fresh (pr_loaded p1) whole = fresh (pr_loaded p ++ [snd f]) l).
        { rewrite W', fresh_app, (fresh_none _ _ Seen). cbn [map app]. rewrite app_nil_r. auto. }
        rewrite U by (auto; rewrite Fr; lia). unfold after_use. rewrite Fr. set (n := fresh (pr_loaded p ++ [snd f]) l) in *.
        unfold mark_called. cbn [adv pr_inst pr_loaded pr_opened pr_called].
        rewrite (load_some _ _ K GL _ (fold_left register regs factory_init)) by reflexivity.
        cbn [pr_loaded].
        assert (Z : fresh ((pr_loaded p ++ [snd f]) ++ map snd n) l = []).
        { apply fresh_none. intros g J. apply fresh_covers. auto. }
        change (pr_loaded p1) with (pr_loaded p ++ [snd f]). rewrite Z. unfold adv. cbn [pr_loaded pr_opened pr_called map flat_map fold_left filter option_map].
        rewrite !app_nil_r, <- !app_assoc. cbn [app]. unfold p1. cbn [pr_opened pr_called rev]. rewrite map_app, <- ?app_assoc. cbn [map app]. auto.
Qed.

Lemma singleton_some fuel p : pr_inst p <> None -> singleton_f fuel s p = Some p.
Proof. intros I. destruct fuel; cbn; destruct (pr_inst p); congruence. Qed.
Lemma singleton_none fuel : Forall good (files s) -> forall p, pr_inst p = None ->
  (List.length (fresh (pr_loaded p) (files s)) < fuel)%nat -> singleton_f fuel s p = Some (after_use (files s) p).
Proof.
  intros G. induction fuel as [|fuel IH]; intros p I L; [lia|]. cbn. rewrite I, load_with_files.
  rewrite (load_none _ (files s) fuel _ (fun q => singleton_some fuel q) IH G [] p) by (auto; solve [intros ? []|lia]).
  auto.
Qed.
End Load.

(** The calls. *)
Lemma fuel_enough s p : (List.length (fresh (pr_loaded p) (files s)) < S (List.length (candidates s)))%nat.
Proof. rewrite candidates_files, map_length. pose proof (fresh_length (files s) (pr_loaded p)). lia. Qed.
Lemma use_first s p regs : plain_names s -> pr_inst p = None ->
  let new := fresh (pr_loaded p) (files s) in
  pstep s p (Use regs) = Some (adv p (Some (fold_left register regs factory_init)) new (rev (filter (is_plugin s) new))).
Proof.
  intros P I new. cbn [pstep]. unfold singleton. rewrite (singleton_none s _ (files_good s P) p I (fuel_enough s p)). reflexivity.
Qed.
Lemma use_again s p i regs : pr_inst p = Some i ->
  pstep s p (Use regs) = Some (adv p (Some (fold_left register regs i)) [] []).
Proof.
  intros I. cbn [pstep]. unfold singleton. rewrite singleton_some by congruence. rewrite I. unfold adv. cbn. rewrite !app_nil_r. auto.
Qed.
Lemma load_first s p : plain_names s -> pr_inst p = None ->
  let new := fresh (pr_loaded p) (files s) in
  pstep s p LoadPlugins = Some (adv p (first_made s new) new (rev (filter (is_plugin s) new))).
Proof.
  intros P I new. cbn [pstep]. unfold load_plugins. rewrite load_with_files.
  apply (load_none s _ (files s) (List.length new) _ (fun q => singleton_some s _ q)) with (before := []); auto.
  - intros q J L. apply singleton_none; auto. { apply files_good; auto. } apply fuel_enough.
  - apply files_good; auto.
  - intros ? [].
Qed.
Lemma load_again s p i : plain_names s -> pr_inst p = Some i ->
  let new := fresh (pr_loaded p) (files s) in
  pstep s p LoadPlugins = Some (adv p (Some (fold_left register (flat_map (gives s) new) i)) new (filter (is_plugin s) new)).
Proof.
  intros P I new. cbn [pstep]. unfold load_plugins. rewrite load_with_files.
  apply load_some; auto. { intros q J. apply singleton_some. auto. } apply files_good; auto.
Qed.
Lemma pstep_total s p c : plain_names s -> exists i new called, pstep s p c = Some (adv p i new called) /\
  (new = [] \/ new = fresh (pr_loaded p) (files s)) /\
  (forall f, In f called <-> In f new /\ is_plugin s f = true).
Proof.
  intros P. destruct c as [regs|], (pr_inst p) as [i|] eqn:I.
  - rewrite (use_again s p i) by auto. eexists _, _, _. split; [reflexivity|]. split; auto. intros f. cbn. tauto.
  - rewrite use_first by auto. eexists _, _, _. split; [reflexivity|]. split; auto. intros f. rewrite <- in_rev, filter_In. tauto.
  - rewrite (load_again s p i) by auto. eexists _, _, _. split; [reflexivity|]. split; auto. intros f. rewrite filter_In. tauto.
  - rewrite load_first by auto. eexists _, _, _. split; [reflexivity|]. split; auto. intros f. rewrite <- in_rev, filter_In. tauto.
Qed.
Lemma pcalls_app a b : forall p, pcalls (a ++ b) p = match pcalls a p with Some p => pcalls b p | None => None end.
Proof. induction a as [|(s & c) a IH]; intros p; auto. cbn. destruct (pstep s p c); auto. Qed.
