(** C67: plugins. *)
From Coq Require Import String ZArith List Bool Lia Permutation.
From Verif Require Import Model.Base Model.OgawaM Model.OgM Proof.OgP Model.FieldIOM Model.PatternM Model.FactoryM Model.PluginM
  Spec.NameSpec Spec.PluginSpec Proof.LoopP Proof.NameP Proof.PluginP.
Import ListNotations.
Open Scope Z_scope.

(** ** Which files are opened *)

(** Every call comes to an end, however the factory and the loader call each other. *)
Theorem C67_finishes : forall h, Forall (fun x => plain_names (fst x)) h -> exists p, pcalls h proc_init = Some p.
Proof.
  intros h. generalize proc_init. induction h as [|(s & c) h IH]; intros p F; [exists p; auto|]. inversion F; subst. cbn [fst] in *.
  destruct (pstep_total s p c) as (i & new & called & E & _); auto. cbn [pcalls]. rewrite E. auto.
Qed.
Print Assumptions C67_finishes.

(** A load opens, in the order of the search path, the plugin files with names not tried
    before, and calls the registration function of each that has one, once. *)
Theorem C67_opens : forall s p c files new, plain_names s -> on_path s files -> unseen (pr_loaded p) files new ->
  c = LoadPlugins \/ pr_inst p = None ->
  exists p' called, pstep s p c = Some p' /\
    pr_opened p' = pr_opened p ++ map path_of new /\ pr_loaded p' = pr_loaded p ++ map snd new /\
    pr_called p' = pr_called p ++ map path_of called /\ Permutation called (filter (is_plugin s) new).
Proof.
  intros s p c fs new P F U D. apply on_path_iff in F. apply unseen_iff in U. subst fs.
  destruct c as [regs|], (pr_inst p) as [i|] eqn:I; [destruct D; congruence| | |];
    first [rewrite use_first by auto | rewrite (load_again s p i) by auto | rewrite load_first by auto];
    rewrite <- U; eexists _, _; (split; [reflexivity|]); cbn [adv pr_opened pr_loaded pr_called]; repeat split; auto;
    apply Permutation_sym, Permutation_rev.
Qed.
Print Assumptions C67_opens.

(** In the whole life of a process no two files of one name are opened. *)
Theorem C67_once : forall h p, Forall (fun x => plain_names (fst x)) h -> pcalls h proc_init = Some p ->
  exists l, pr_opened p = map path_of l /\ pr_loaded p = map snd l /\ NoDup (map snd l).
Proof.
  intros h. induction h as [|(s & c) h IH] using rev_ind; intros p F R.
  - cbn in R. injection R as <-. exists []. repeat split; constructor.
  - apply Forall_app in F. destruct F as (F & F1). inversion F1 as [|x y P Q]; subst. cbn [fst] in P.
    rewrite pcalls_app in R. destruct (pcalls h proc_init) as [q|] eqn:R0; [|discriminate]. destruct (IH q F eq_refl) as (l & O1 & O2 & N).
    cbn [pcalls] in R. destruct (pstep_total s q c P) as (i & new & called & E & D & _). rewrite E in R. injection R as <-.
    exists (l ++ new). cbn [adv pr_opened pr_loaded]. rewrite !map_app, O1, O2. repeat split; auto.
    destruct D as [->| ->]; [cbn; rewrite app_nil_r; auto|]. apply LoopP.nodup_app; auto using fresh_nodup.
    intros n J K. apply in_map_iff in K. destruct K as (f & <- & K). apply fresh_new in K. rewrite O2 in K. auto.
Qed.
Print Assumptions C67_once.

(** Files called "something.so" are plugin files. *)
Theorem C67_suffix : forall n, dot_so n -> so_name n.
Proof.
  intros n (b & N & ->). exists (b ++ [46]), 0%nat. cbn. rewrite <- app_assoc. split; auto. right. exists b. auto.
Qed.
Print Assumptions C67_suffix.
(** Others are too: "so" and "a.so." ; "a.so.1" is not. *)
Theorem C67_suffix_refuted : ~ (forall n, so_name n -> dot_so n).
Proof.
  intros H. destruct (H (str "so")) as (b & _ & E).
  - exists [], 0%nat. auto.
  - apply (f_equal (@List.length _)) in E. rewrite app_length in E. cbn in E. lia.
Qed.
Print Assumptions C67_suffix_refuted.
Theorem C67_version_not_loaded : forall b v, v <> [] -> ~ In 46 v -> last v 0 <> 111 -> ~ so_name (b ++ 46 :: v).
Proof.
  intros b v N I L X. apply so_filter_iff in X. unfold so_filter in X.
  rewrite split_on_app, (split_on_single _ v), rev_app_distr in X by (auto; lia). cbn [rev app] in X.
  destruct (bytes_eqb_spec v (str "so")) as [->|]; [|discriminate]. apply L. reflexivity.
Qed.
Print Assumptions C67_version_not_loaded.

(** ** Which classes there are *)

(** After any history the factory has exactly the registrations of [actual]. *)
Theorem C67_history : forall h regs seen, Forall (fun x => plain_names (fst x)) h -> actual h regs seen ->
  exists p, pcalls h proc_init = Some p /\ pr_loaded p = seen /\
    pr_inst p = option_map (fun l => fold_left register l factory_init) regs.
Proof.
  intros h regs seen F A. induction A as [|h s seen fs new used A IH O U|h s regs seen used A IH|h s regs seen fs new A IH O U|h s seen fs new A IH O U].
  1: { exists proc_init. auto. }
  all: apply Forall_app in F; destruct F as (F & F1); inversion F1 as [|x y P Q]; subst; cbn [fst] in P.
  all: destruct (IH F) as (p & R & L & I); cbn [option_map] in I; rewrite pcalls_app, R; cbn [pcalls].
  all: try (apply on_path_iff in O; apply unseen_iff in U; subst fs seen).
  - rewrite use_first by auto. rewrite <- U. eexists. split; [reflexivity|]. auto.
  - rewrite (use_again s p _ used I). eexists. split; [reflexivity|]. cbn [adv pr_loaded pr_inst option_map map]. rewrite app_nil_r, fold_left_app. auto.
  - rewrite (load_again s p _ P I). rewrite <- U. eexists. split; [reflexivity|]. cbn [adv pr_loaded pr_inst option_map]. rewrite fold_left_app. auto.
  - rewrite load_first by auto. rewrite <- U. eexists. split; [reflexivity|]. cbn [adv pr_loaded pr_inst]. split; auto. unfold first_made.
    destruct (find (is_plugin s) new); auto.
Qed.
Print Assumptions C67_history.
Theorem C67_history_defined : forall h, exists regs seen, actual h regs seen.
Proof.
  induction h as [|(s & c) h (regs & seen & A)] using rev_ind; [exists None, []; constructor|].
  assert (O : on_path s (files s)) by (apply on_path_iff; auto).
  assert (U : unseen seen (files s) (fresh seen (files s))) by (apply unseen_iff; auto).
  destruct c as [used|], regs as [l|]; eexists _, _.
  - apply actual_use; eauto.
  - eapply actual_use_first; eauto.
  - eapply actual_load; eauto.
  - eapply actual_load_first; eauto.
Qed.
Print Assumptions C67_history_defined.

(** Loading into a factory that exists: all new plugins register with it, in order, and
    nothing registered before is lost. *)
Theorem C67_into_existing_partial : forall s p i files new, plain_names s -> pr_inst p = Some i -> on_path s files -> unseen (pr_loaded p) files new ->
  exists p', pstep s p LoadPlugins = Some p' /\ pr_inst p' = Some (fold_left register (flat_map (gives s) new) i).
Proof.
  intros s p i fs new P I F U. apply on_path_iff in F. apply unseen_iff in U. subst fs.
  rewrite (load_again s p i) by auto. rewrite <- U. eexists. split; [reflexivity|]. auto.
Qed.
Print Assumptions C67_into_existing_partial.

(** But the factory loads the plugins while it is made, and then they are lost: whatever the
    plugins on the path register, the first use of Field3D calls them all and leaves a
    factory without any of it, for good. *)
Theorem C67_at_first_use_refuted : forall s regs calls fs new, plain_names s -> on_path s fs -> unseen [] fs new ->
  exists p, pcalls ((s, Use regs) :: map (pair s) calls) proc_init = Some p /\
    Permutation (pr_called p) (map path_of (filter (is_plugin s) new)) /\
    pr_inst p = Some (fold_left register (regs ++ flat_map (fun c => match c with Use r => r | LoadPlugins => [] end) calls) factory_init).
Proof.
  intros s regs calls fs new P F U. apply on_path_iff in F. apply unseen_iff in U. subst fs.
  cbn [pcalls]. rewrite use_first by auto. cbn [proc_init pr_loaded]. rewrite <- U.
  set (p := adv _ _ _ _).
  assert (I : pr_inst p = Some (fold_left register regs factory_init)) by auto.
  assert (L : pr_loaded p = map snd new) by auto.
  assert (Cd : pr_called p = map path_of (rev (filter (is_plugin s) new))) by auto.
  clearbody p. revert regs p I L Cd. induction calls as [|c calls IH]; intros regs p I L Cd.
  - exists p. cbn. rewrite app_nil_r. repeat split; auto. rewrite Cd. apply Permutation_map, Permutation_sym, Permutation_rev.
  - cbn [map pcalls flat_map]. rewrite app_assoc. destruct c as [used|].
    + rewrite (use_again s p _ used I). apply IH; cbn [adv pr_inst pr_loaded pr_called map]; rewrite ?app_nil_r, ?fold_left_app; auto.
    + rewrite (load_again s p _ P I). rewrite L.
      assert (Z : fresh (map snd new) (files s) = []).
      { apply fresh_none. intros f J. rewrite U. apply (fresh_covers _ [] _ J). }
      rewrite Z. apply IH; cbn [adv pr_inst pr_loaded pr_called map filter flat_map fold_left]; rewrite ?app_nil_r; auto.
Qed.
Print Assumptions C67_at_first_use_refuted.

(** Loading plugins before the first use keeps those of the first plugin only. *)
Theorem C67_before_use_refuted : forall s fs new, plain_names s -> on_path s fs -> unseen [] fs new ->
  exists p, pcalls [(s, LoadPlugins)] proc_init = Some p /\
    pr_inst p = option_map (fun f => fold_left register (gives s f) factory_init) (find (is_plugin s) new).
Proof.
  intros s fs new P F U. apply on_path_iff in F. apply unseen_iff in U. subst fs.
  cbn [pcalls]. rewrite load_first by auto. cbn [proc_init pr_loaded]. rewrite <- U. eexists. split; [reflexivity|]. auto.
Qed.
Print Assumptions C67_before_use_refuted.

(** ** A concrete system *)

Definition ex_names (d : list Z) : option (list (list Z)) :=
  if bytes_eqb d (str "/a") then Some [str "."; str ".."; str "x.so"; str "readme"; str "y.so"]
  else if bytes_eqb d (str "/b") then Some [str "x.so"; str "z.so"] else None.
Definition ex_lib (f : list Z) : library :=
  if bytes_eqb f (str "/a/x.so") then NotLoadable
  else if bytes_eqb f (str "/a/y.so") then Plugin [RField (Creator 1 (Some (str "Y", str "float")))] 1
  else if bytes_eqb f (str "/b/x.so") then Plugin [RField (Creator 2 (Some (str "X", str "float")))] 1
  else if bytes_eqb f (str "/b/z.so") then Plugin [RField (Creator 3 (Some (str "Z", str "float")))] 1 else NotLoadable.
Definition ex_sys : system := System (Some (str "/a:/none:/b")) ex_names ex_lib.
Definition ex_new : list file := [(str "/a", str "x.so"); (str "/a", str "y.so"); (str "/b", str "z.so")].
Example C67_example_hypotheses : plain_names ex_sys /\ on_path ex_sys (files ex_sys) /\ unseen [] (files ex_sys) ex_new.
Proof.
  split; [|split; [apply on_path_iff; auto|apply unseen_iff; vm_compute; auto]].
  intros d names n. cbn. unfold ex_names. destruct (bytes_eqb_spec d (str "/a")) as [->|].
  - intros X I. injection X as <-. repeat (destruct I as [<-|I]; [vm_compute; intuition discriminate|]). contradiction.
  - destruct (bytes_eqb_spec d (str "/b")) as [->|]; [|discriminate].
    intros X I. injection X as <-. repeat (destruct I as [<-|I]; [vm_compute; intuition discriminate|]). contradiction.
Qed.
Definition creatable (o : option proc) (name : string) : bool :=
  match o with
  | Some p => match pr_inst p with Some i => match create_field i (str name) with Some _ => true | None => false end | None => false end
  | None => false
  end.
Definition ex_nopath : system := System None ex_names ex_lib.
(** The first use loses Y and Z; loading before loses Z; setting the path later and loading
    then gives both.  The good "/b/x.so" is never tried, as "/a/x.so" comes first. *)
Example C67_example :
  (let r := pcalls [(ex_sys, Use []); (ex_sys, LoadPlugins)] proc_init in
   creatable r "Y<float>" = false /\ creatable r "Z<float>" = false /\
   match r with Some p => pr_called p = [str "/b/z.so"; str "/a/y.so"] | None => False end) /\
  (let r := pcalls [(ex_sys, LoadPlugins); (ex_sys, Use [])] proc_init in
   creatable r "Y<float>" = true /\ creatable r "Z<float>" = false) /\
  (let r := pcalls [(ex_nopath, Use []); (ex_sys, LoadPlugins)] proc_init in
   creatable r "Y<float>" = true /\ creatable r "Z<float>" = true /\ creatable r "X<float>" = false).
Proof. vm_compute. repeat split. Qed.

(** A plugin on the path is not opened if a file of its name comes first, be it one that
    cannot be loaded. *)
Theorem C67_shadowed_refuted : exists s fs f g p, plain_names s /\ on_path s fs /\
  In f fs /\ is_plugin s f = true /\ In g fs /\ snd g = snd f /\ sy_lib s (path_of g) = NotLoadable /\
  pcalls [(s, LoadPlugins)] proc_init = Some p /\ ~ In (path_of f) (pr_opened p).
Proof.
  exists ex_sys, (files ex_sys), (str "/b", str "x.so"), (str "/a", str "x.so"). eexists.
  split; [apply C67_example_hypotheses|]. split; [apply on_path_iff; auto|].
  split; [vm_compute; intuition|]. split; [vm_compute; auto|]. split; [vm_compute; intuition|].
  split; [auto|]. split; [vm_compute; auto|]. split; [vm_compute; reflexivity|]. vm_compute. intuition discriminate.
Qed.
Print Assumptions C67_shadowed_refuted.
