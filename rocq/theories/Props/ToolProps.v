(** C69: the command line tools that merge files and that make MIP files put into their output exactly the fields they
    should. *)
From Coq Require Import ZArith List Bool String Lia Permutation.
From Verif Require Import Model.Base Model.OgawaM Spec.OgawaSpec Model.OgM Spec.OgSpec Model.FieldIOM Model.FileM Spec.FileSpec Model.ToolM Spec.ToolSpec.
From Verif Require Import Proof.OgP Proof.FileP Props.FileProps Proof.ToolP.
Import ListNotations.
Local Open Scope Z_scope.

(** Run on input files made by the library, the output being none of them, a tool ends well, and its output file shows
    exactly the fields made of the wanted fields of all the inputs: by partition and layer, and altogether. *)
Theorem C69_output : forall M ident map_kids map_ok (read_map : option tree -> M) kind want_part want_layer outs crashes version fs inputs ls out,
  sound_maps ident map_kids map_ok read_map -> usable_outs outs ->
  Forall2 (input ident map_kids map_ok crashes fs) inputs ls -> ~ In out inputs ->
  exists t, tool ident map_kids map_ok read_map kind want_part want_layer outs crashes version true fs inputs out = Ok (0, put fs out (Whole t)) /\
    (forall P L, P <> [] -> L <> [] -> exists x, read_layers t P L = Ok x /\
       show_all ident map_kids x (filter (fun e => bytes_eqb (sr_name e) P && bytes_eqb (sr_attr e) L)
                                    (expected kind want_part want_layer outs (List.concat ls)))) /\
    (exists x, read_layers_all t [] = Ok x /\ show_all ident map_kids x (expected kind want_part want_layer outs (List.concat ls))).
Proof.
  intros M ident mk mo rm kind wp wl outs cr v fs inputs ls out (R & S & O & St) U F N.
  destruct (tool_ok ident mk mo rm kind wp wl outs cr v R S St fs inputs ls out U O N F) as (f & E & A & B).
  exists (file_tree v f None). split; auto. split; [exact A|]. destruct (B []) as (x & X & Y). exists x. split; auto.
  cbn [is_nil orb] in Y. replace (filter (fun _ => true) _) with (expected kind wp wl outs (List.concat ls)) in Y; [exact Y|].
  clear. induction (expected _ _ _ _ _) as [|e l IH]; auto. cbn. f_equal. auto.
Qed.
Print Assumptions C69_output.

(** f3dmerge, if writing a field that was read puts into the file what it was read from: with every name wanted, the
    output shows exactly the fields of all the inputs. *)
Theorem C69_merge : forall M ident map_kids map_ok (read_map : option tree -> M) kind again version fs inputs ls out,
  sound_maps ident map_kids map_ok read_map ->
  Forall2 (input ident map_kids map_ok (fun _ => false) fs) inputs ls -> ~ In out inputs ->
  (forall e, In e (List.concat ls) -> again (node_group (sr_attr e) (sr_body e)) = sr_body e /\
     exists k, kind (node_group (sr_attr e) (sr_body e)) = Some k /\ (k < 6)%nat) ->
  exists t, tool ident map_kids map_ok read_map kind (fun _ => true) (fun _ => true) (merge_outs again) (fun _ => false) version true fs inputs out
      = Ok (0, put fs out (Whole t)) /\
    (forall P L, P <> [] -> L <> [] -> exists x, read_layers t P L = Ok x /\
       show_all ident map_kids x (filter (fun e => bytes_eqb (sr_name e) P && bytes_eqb (sr_attr e) L) (List.concat ls))) /\
    (exists x, read_layers_all t [] = Ok x /\ show_all ident map_kids x (List.concat ls)).
Proof.
  intros M ident mk mo rm kind again v fs inputs ls out S F N H.
  assert (E : expected kind (fun _ => true) (fun _ => true) (merge_outs again) (List.concat ls) = List.concat ls).
  { clear - H. induction (List.concat ls) as [|e l IH]; auto. destruct (H e (or_introl eq_refl)) as (A & k & K & L).
    unfold expected in *. cbn [filter andb]. cbn [andb] in IH. rewrite K. apply Nat.ltb_lt in L. rewrite L. cbn [flat_map]. rewrite IH by (intros; apply H; right; auto).
    unfold merge_outs. cbn. rewrite A. destruct e. auto. }
  rewrite <- E. apply C69_output; auto. intros a g o A B C [<-|[]]. auto.
Qed.
Print Assumptions C69_merge.

(** f3dmakemip: for each wanted field of a supported class its MIP field, and its minimum and maximum under the
    suffixed names if asked for; all with its name and mapping. *)
Theorem C69_make_mip : forall M ident map_kids map_ok (read_map : option tree -> M) kind want_part want_layer supported mip mn mx min_max crashes version fs inputs ls out,
  sound_maps ident map_kids map_ok read_map ->
  Forall2 (input ident map_kids map_ok crashes fs) inputs ls -> ~ In out inputs ->
  exists t x, tool ident map_kids map_ok read_map kind want_part want_layer (mip_outs supported mip mn mx min_max) crashes version true fs inputs out
      = Ok (0, put fs out (Whole t)) /\
    read_layers_all t [] = Ok x /\
    show_all ident map_kids x
      (flat_map (fun e =>
         let g := node_group (sr_attr e) (sr_body e) in
         if supported g && want_part (sr_name e) && want_layer (sr_attr e) && match kind g with Some k => Nat.ltb k 6 | None => false end
         then Source (sr_name e) (sr_attr e) (sr_map e) (mip g) ::
              if min_max then [Source (sr_name e) (sr_attr e ++ str "_min") (sr_map e) (mn g);
                               Source (sr_name e) (sr_attr e ++ str "_max") (sr_map e) (mx g)] else []
         else []) (List.concat ls)).
Proof.
  intros M ident mk mo rm kind wp wl sup mip mn mx mm cr v fs inputs ls out S F N.
  assert (U : usable_outs (mip_outs sup mip mn mx mm)).
  { intros a g o (A & A0) B C J. unfold mip_outs in J. destruct (sup g); [|destruct J]. destruct J as [<-|J]; [repeat split; auto|].
    assert (X : forall s, s = s_min \/ s = s_max -> fst o = a ++ s -> good_name (fst o) /\ fst o <> str "mapping" /\ ~ In 47%Z (fst o)).
    { intros s D ->. assert (E1 : ~ In 0 s /\ ~ In 47 s) by (destruct D; subst s; split; intros K; cbn in K; intuition discriminate).
      split; [split; [intros Q; apply app_eq_nil in Q; tauto|]|split].
      - rewrite in_app_iff. tauto.
      - intros K. apply (f_equal (@rev Z)) in K. rewrite rev_app_distr in K. destruct D; subst s; discriminate.
      - rewrite in_app_iff. tauto. }
    destruct mm; [|destruct J]. destruct J as [<-|[<-|[]]]; [apply (X s_min)|apply (X s_max)]; auto. }
  destruct (C69_output M ident mk mo rm kind wp wl _ cr v fs inputs ls out S U F N) as (t & T & _ & x & X & Y).
  exists t, x. split; auto. split; auto. replace (flat_map _ _) with (expected kind wp wl (mip_outs sup mip mn mx mm) (List.concat ls)); auto.
  clear. induction (List.concat ls) as [|e l IH]; auto. unfold expected in *. cbn [filter flat_map]. rewrite <- IH. cbv zeta. unfold mip_outs.
  destruct (sup _) eqn:Sg, (wp _), (wl _), (kind _) as [k|]; cbn [andb flat_map map app]; auto; destruct (Nat.ltb k 6); cbn [flat_map]; rewrite ?Sg; auto.
  destruct mm; auto.
Qed.
Print Assumptions C69_make_mip.

(** Whatever happens, no file but the output is changed; and if the output file cannot be created, none. *)
Theorem C69_only_output : forall M ident map_kids map_ok (read_map : option tree -> M) kind want_part want_layer outs crashes version creatable fs inputs out status fs',
  tool ident map_kids map_ok read_map kind want_part want_layer outs crashes version creatable fs inputs out = Ok (status, fs') ->
  (forall n, n <> out -> fs' n = fs n) /\ (creatable = false -> status = 1 /\ fs' = fs).
Proof.
  intros M ident mk mo rm kind wp wl outs cr v c fs inputs out st fs' H. split; [eapply tool_others; eauto|].
  intros ->. unfold tool in H. cbn in H. injection H as <- <-. auto.
Qed.
Print Assumptions C69_only_output.

(** An input that cannot be opened ends the tool with status 1; what it leaves as output cannot be opened either. *)
Theorem C69_missing_input : forall M ident map_kids map_ok (read_map : option tree -> M) kind want_part want_layer outs crashes version fs inputs ls n rest out,
  sound_maps ident map_kids map_ok read_map ->
  Forall2 (input ident map_kids map_ok crashes fs) inputs ls -> ~ In out inputs -> (forall t, fs n <> Some (Whole t)) ->
  tool ident map_kids map_ok read_map kind want_part want_layer outs crashes version true fs (inputs ++ n :: rest) out = Ok (1, put fs out Cut).
Proof. intros M ident mk mo rm kind wp wl outs cr v fs inputs ls n rest out (R & S & O & St) F N X. eapply tool_missing; eauto. Qed.
Print Assumptions C69_missing_input.

(** * Concrete cases *)
(** Mappings are numbers, compared exactly. *)
Definition tl_kids (m : Z) : list tree := [node_attr (str "m") TInt32 [m]].
Definition tl_read (o : option tree) : Z := match o with Some (Group [_; _; Group [_; _; _; Data [m]]]) => m | _ => 0 end.
Lemma tl_sound : sound_maps Z.eqb tl_kids (fun _ => true) tl_read.
Proof. split; [apply Z.eqb_refl|]. split; [apply Z.eqb_sym|]. split; auto. Qed.
(** The value type is the number in the body. *)
Definition tl_call (P L : string) (r : nat) (b : Z) : wr := Wr (str P) (str L) r [Data [b]].
Definition tl_body (g : tree) : list tree := match g with Group (_ :: _ :: k) => k | _ => [] end.
Definition tl_kind (g : tree) : option nat := match tl_body g with [Data [b]] => Some (Z.to_nat b) | _ => None end.
Definition tl_heap (r : nat) : Z := Z.of_nat r.
Definition tl_tree (calls : list wr) : tree :=
  match write_all Z.eqb tl_kids (fun _ => true) tl_heap o_new calls with Ok (f, _) => file_tree (enc32 1) f None | _ => Data [] end.
Definition tl_source (w : wr) : source Z := Source (w_user w) (w_layer w) (tl_heap (w_ref w)) (w_body w).
Definition tl_a : list wr := [tl_call "fire" "density" 1 2; tl_call "fire" "v" 2 3; tl_call "smoke" "density" 1 0].
Definition tl_b : list wr := [tl_call "fire" "density" 1 1; tl_call "fire" "temp" 1 5].
Definition tl_fs : files := put (put (fun _ => None) (str "a") (Whole (tl_tree tl_a))) (str "b") (Whole (tl_tree tl_b)).
Lemma tl_holds calls : Forall usable calls ->
  match write_all Z.eqb tl_kids (fun _ => true) tl_heap o_new calls with
  | Ok (f, ocs) => forallb (fun o => oc_code o =? 0) ocs && (List.length ocs =? List.length calls)%nat
  | _ => false end = true -> holds Z.eqb tl_kids (fun _ => true) (tl_tree calls) (map tl_source calls).
Proof.
  intros U H. unfold tl_tree. destruct (write_all _ _ _ _ _ _) as [[f ocs]| |] eqn:W; try discriminate.
  exists tl_heap, calls, f, ocs, (enc32 1), None. split; auto. split; [apply Forall_forall; auto|]. split; auto. split; auto.
  apply andb_prop in H. destruct H as (H & L). apply Nat.eqb_eq in L. unfold tl_source. f_equal. clear W U.
  revert ocs H L. induction calls as [|w ws IH]; intros [|o ocs] H L; try discriminate; auto.
  cbn in H. apply andb_prop in H. destruct H as (H1 & H2). destruct o; try discriminate. unfold accepted. cbn. f_equal. apply IH; auto.
Qed.
Lemma tl_input fs n calls : fs n = Some (Whole (tl_tree calls)) -> Forall usable calls -> Forall (fun w => w_user w <> []) calls ->
  match write_all Z.eqb tl_kids (fun _ => true) tl_heap o_new calls with
  | Ok (f, ocs) => forallb (fun o => oc_code o =? 0) ocs && (List.length ocs =? List.length calls)%nat
  | _ => false end = true -> input Z.eqb tl_kids (fun _ => true) (fun _ => false) fs n (map tl_source calls).
Proof.
  intros E U N H. exists (tl_tree calls). split; auto. split; [apply tl_holds; auto|]. split; [apply Forall_forall; auto|].
  intros e J. apply in_map_iff in J. destruct J as (w & <- & J). rewrite Forall_forall in N. apply (N w J).
Qed.
Lemma tl_inputs : Forall2 (input Z.eqb tl_kids (fun _ => true) (fun _ => false) tl_fs) [str "a"; str "b"] [map tl_source tl_a; map tl_source tl_b].
Proof.
  constructor; [|constructor; [|constructor]]; apply tl_input; try reflexivity; try (vm_compute; reflexivity);
    repeat (constructor; [first [apply usable_b; reflexivity|discriminate]|]); constructor.
Qed.
Definition tl_merge (fs : files) (inputs : list bytes) (out : bytes) : res (Z * files) :=
  tool Z.eqb tl_kids (fun _ => true) tl_read tl_kind (fun _ => true) (fun _ => true) (merge_outs tl_body) (fun _ => false) (enc32 1) true fs inputs out.
(** Two files merged meet the hypotheses; the field (fire, density) is in both. *)
Example C69_merge_example :
  (forall e, In e (List.concat [map tl_source tl_a; map tl_source tl_b]) -> tl_body (node_group (sr_attr e) (sr_body e)) = sr_body e /\
     exists k, tl_kind (node_group (sr_attr e) (sr_body e)) = Some k /\ (k < 6)%nat) /\
  exists t, tl_merge tl_fs [str "a"; str "b"] (str "c") = Ok (0, put tl_fs (str "c") (Whole t)) /\
    partition_names t = Ok [str "fire"; str "smoke"] /\ layer_names_in t (str "fire") = Ok [str "density"; str "temp"; str "v"] /\
    match read_layers t (str "fire") (str "density") with Ok x => map (fun l => tl_body (il_group l)) x | _ => [] end = [[Data [2]]; [Data [1]]].
Proof.
  split.
  - intros e J. cbn in J. repeat (destruct J as [<-|J]; [split; [reflexivity|eexists; split; [reflexivity|cbn; lia]]|]). destruct J.
  - eexists. split; [vm_compute; reflexivity|]. vm_compute. auto.
Qed.
Definition tl_make (supported : tree -> bool) (crashes : tree -> bool) (fs : files) (inputs : list bytes) (out : bytes) : res (Z * files) :=
  tool Z.eqb tl_kids (fun _ => true) tl_read tl_kind (fun _ => true) (fun _ => true)
    (mip_outs supported (fun g => tl_body g) (fun g => tl_body g) (fun g => tl_body g) true) crashes (enc32 1) true fs inputs out.
Example C69_make_example : exists t, tl_make (fun _ => true) (fun _ => false) tl_fs [str "b"] (str "c") = Ok (0, put tl_fs (str "c") (Whole t)) /\
  layer_names_in t (str "fire") = Ok [str "density"; str "density_max"; str "density_min"; str "temp"; str "temp_max"; str "temp_min"].
Proof. eexists. split; vm_compute; reflexivity. Qed.
Example C69_missing_example : tl_merge tl_fs [str "a"; str "x"; str "b"] (str "c") = Ok (1, put tl_fs (str "c") Cut).
Proof. vm_compute. reflexivity. Qed.

(** * What the plain statement claims but the tools do not do *)
(** Naming an input as the output destroys it: the output is begun before the inputs are read. *)
Theorem C69_overwrites_input_refuted : ~ (forall fs inputs ls out status fs',
  Forall2 (input Z.eqb tl_kids (fun _ => true) (fun _ => false) fs) inputs ls ->
  tl_merge fs inputs out = Ok (status, fs') -> exists t, fs' out = Some (Whole t)).
Proof.
  intros H. destruct (H _ _ _ (str "b") 1 (put tl_fs (str "b") Cut) tl_inputs) as (t & T); [vm_compute; reflexivity|]. vm_compute in T. discriminate.
Qed.
Print Assumptions C69_overwrites_input_refuted.

(** The global metadata of the inputs is lost. *)
Theorem C69_metadata_refuted : ~ (forall fs f globals t fs',
  fs (str "a") = Some (Whole (file_tree (enc32 1) f (Some globals))) -> tl_merge fs [str "a"] (str "c") = Ok (0, fs') ->
  fs' (str "c") = Some (Whole t) -> exists version f', t = file_tree version f' (Some globals)).
Proof.
  intros H.
  set (globals := [node_attr (str "shot") TInt32 (enc32 7)]).
  edestruct (H (put (fun _ => None) (str "a") (Whole (file_tree (enc32 1) o_new (Some globals)))) o_new globals) as (v & f' & E);
    [reflexivity|vm_compute; reflexivity|vm_compute; reflexivity|].
  apply (f_equal (fun t => List.length (tl_body t))) in E. cbn in E. rewrite app_length in E. cbn in E. lia.
Qed.
Print Assumptions C69_metadata_refuted.

(** f3dmakemip leaves out a field of another class (MAC, procedural) without a word. *)
Theorem C69_unsupported_class_refuted : ~ (forall supported inputs ls fs' t x,
  Forall2 (input Z.eqb tl_kids (fun _ => true) (fun _ => false) tl_fs) inputs ls ->
  tl_make supported (fun _ => false) tl_fs inputs (str "c") = Ok (0, fs') -> fs' (str "c") = Some (Whole t) -> read_layers_all t [] = Ok x ->
  forall l e, In l ls -> In e l -> exists y, In y x /\ il_name y = sr_name e /\ il_attr y = sr_attr e).
Proof.
  intros H.
  edestruct (fun fs' t x => H (fun g => match tl_kind g with Some 5%nat => false | _ => true end) _ _ fs' t x tl_inputs) as (y & J & A & B).
  - vm_compute. reflexivity.
  - vm_compute. reflexivity.
  - vm_compute. reflexivity.
  - right. left. reflexivity.
  - right. left. reflexivity.
  - clear H. vm_compute in J. repeat (destruct J as [<-|J]; [discriminate|]). destruct J.
Qed.
Print Assumptions C69_unsupported_class_refuted.

(** A field whose extents are not its data window crashes f3dmakemip. *)
Theorem C69_crash_refuted : ~ (forall crashes fs inputs out,
  (forall n, In n inputs -> exists t l, fs n = Some (Whole t) /\ holds Z.eqb tl_kids (fun _ => true) t l) -> ~ In out inputs ->
  tl_make (fun _ => true) crashes fs inputs out <> UB).
Proof.
  intros H. apply (H (fun g => match tl_kind g with Some 5%nat => true | _ => false end) tl_fs [str "a"; str "b"] (str "c")).
  - intros n J. pose proof tl_inputs as F. inversion F as [|? ? ? ? (t & A & B & _) F2]; subst. inversion F2 as [|? ? ? ? (t' & A' & B' & _) _]; subst.
    destruct J as [<-|[<-|[]]]; eauto.
  - intros [J|[J|[]]]; discriminate.
  - vm_compute. reflexivity.
Qed.
Print Assumptions C69_crash_refuted.

(** Making MIP fields of a file that already has minima and maxima makes minima and maxima of those: the tool says that
    it skips them and does not. *)
Theorem C69_make_twice_refuted : ~ (forall fs1 fs2 t1 t2,
  tl_make (fun _ => true) (fun _ => false) tl_fs [str "a"] (str "c") = Ok (0, fs1) -> fs1 (str "c") = Some (Whole t1) ->
  tl_make (fun _ => true) (fun _ => false) fs1 [str "c"] (str "d") = Ok (0, fs2) -> fs2 (str "d") = Some (Whole t2) ->
  layer_names_in t1 (str "smoke") = layer_names_in t2 (str "smoke")).
Proof.
  intros H. assert (E : exists fs1 fs2 t1 t2,
    tl_make (fun _ => true) (fun _ => false) tl_fs [str "a"] (str "c") = Ok (0, fs1) /\ fs1 (str "c") = Some (Whole t1) /\
    tl_make (fun _ => true) (fun _ => false) fs1 [str "c"] (str "d") = Ok (0, fs2) /\ fs2 (str "d") = Some (Whole t2) /\
    layer_names_in t1 (str "smoke") = Ok [str "density"; str "density_max"; str "density_min"] /\
    layer_names_in t2 (str "smoke") <> Ok [str "density"; str "density_max"; str "density_min"]).
  { do 4 eexists. split; [vm_compute; reflexivity|]. split; [vm_compute; reflexivity|]. split; [vm_compute; reflexivity|].
    split; [vm_compute; reflexivity|]. split; [vm_compute; reflexivity|]. vm_compute. discriminate. }
  destruct E as (fs1 & fs2 & t1 & t2 & A & B & C & D & E & F). apply F. rewrite <- E. symmetry. eapply H; eauto.
Qed.
Print Assumptions C69_make_twice_refuted.

(** The layers of an input that was the second file written by one output object read well, and are left out without a
    word: the tools see only the listed names. *)
Theorem C69_second_file_refuted : ~ (forall calls1 f1 ocs1 calls f ocs fs fs' t,
  Forall usable calls1 -> Forall usable calls ->
  write_all Z.eqb tl_kids (fun _ => true) tl_heap o_new calls1 = Ok (f1, ocs1) ->
  write_all Z.eqb tl_kids (fun _ => true) tl_heap (o_reopen f1) calls = Ok (f, ocs) ->
  fs (str "a") = Some (Whole (file_tree (enc32 1) f None)) ->
  tl_merge fs [str "a"] (str "c") = Ok (0, fs') -> fs' (str "c") = Some (Whole t) ->
  read_layers_all t [] = Ok [] -> read_layers_all (file_tree (enc32 1) f None) [] = Ok []).
Proof.
  intros H. assert (U : Forall usable tl_b) by (repeat (constructor; [apply usable_b; reflexivity|]); constructor).
  assert (E : exists f1 ocs1 f ocs, write_all Z.eqb tl_kids (fun _ => true) tl_heap o_new tl_b = Ok (f1, ocs1) /\
    write_all Z.eqb tl_kids (fun _ => true) tl_heap (o_reopen f1) tl_b = Ok (f, ocs) /\
    read_layers_all (file_tree (enc32 1) f None) [] <> Ok [] /\
    exists fs' t, tl_merge (put (fun _ => None) (str "a") (Whole (file_tree (enc32 1) f None))) [str "a"] (str "c") = Ok (0, fs') /\
      fs' (str "c") = Some (Whole t) /\ read_layers_all t [] = Ok []).
  { do 4 eexists. split; [vm_compute; reflexivity|]. split; [vm_compute; reflexivity|]. split; [vm_compute; discriminate|].
    do 2 eexists. split; [vm_compute; reflexivity|]. split; vm_compute; reflexivity. }
  destruct E as (f1 & ocs1 & f & ocs & A & B & N & fs' & t & C & D & E). apply N. eapply (H tl_b f1 ocs1 tl_b f ocs); eauto. reflexivity.
Qed.
Print Assumptions C69_second_file_refuted.
