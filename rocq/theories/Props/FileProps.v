(** C23: layers written to a file are neither lost nor mixed up. *)
From Coq Require Import ZArith List Bool String Lia Arith Permutation Sorted.
From Verif Require Import Model.Base Model.FieldM Model.DenseM Spec.VoxelSpec Spec.DenseSpec Model.OgawaM Spec.OgawaSpec Model.OgM Spec.OgSpec Proof.OgP
  Model.FieldIOM Spec.FieldIOSpec Proof.FieldIOP Proof.FieldIOP2 Props.FieldIOProps Model.FileM Spec.FileSpec Proof.FileP Proof.FileP2.
Import ListNotations.
Open Scope Z_scope.

(** Any number of writes, in any order, with any names and mappings (even on an object that
    has written other files before, [o_parts f0 = []]): every call returns or throws, and
    when the mapping comparison is a sane one a call succeeds exactly when neither name has
    a '/'. *)
Theorem C23_write_outcomes : forall M ident map_kids map_ok (hp : nat -> M) f0 calls,
  o_parts f0 = [] -> Forall usable calls -> Forall (fun w => map_ok (hp (w_ref w)) = true) calls ->
  exists f outcomes, write_all ident map_kids map_ok hp f0 calls = Ok (f, outcomes) /\
    List.length outcomes = List.length calls /\
    ((forall a, ident a a = true) -> (forall a b, ident a b = ident b a) ->
     Forall2 (fun w oc => oc = Accepted <-> ~ In 47 (w_user w) /\ ~ In 47 (w_layer w)) calls outcomes).
Proof.
  intros M ident mk mo hp [c ps] calls E U MO. cbn in E. subst ps.
  destruct (write_all_inv ident mk mo hp False calls U MO (OFile c []) [] [] (inv_new _ _ _ c)) as (f & ocs & G & A & _ & L & B).
  exists f, ocs. auto.
Qed.
Print Assumptions C23_write_outcomes.

(** Reading the layers (P, L) back gives exactly the accepted calls with those names: each
    once, with its own contents and a mapping identical to its own. *)
Theorem C23_layers_read : forall M ident map_kids map_ok (hp : nat -> M) f0 calls f outcomes version globals P L,
  o_parts f0 = [] -> Forall usable calls -> Forall (fun w => map_ok (hp (w_ref w)) = true) calls ->
  write_all ident map_kids map_ok hp f0 calls = Ok (f, outcomes) ->
  P <> [] -> L <> [] ->
  exists layers source, read_layers (file_tree version f globals) P L = Ok layers /\
    Permutation source (filter (fun w => bytes_eqb (w_user w) P && bytes_eqb (w_layer w) L) (accepted calls outcomes)) /\
    Forall2 (reads_as ident map_kids hp) layers source.
Proof.
  intros M ident mk mo hp [c ps] calls f ocs version globals P L E U MO W NP NL. cbn in E. subst ps.
  destruct (write_all_inv ident mk mo hp False calls U MO (OFile c []) [] [] (inv_new _ _ _ c)) as (f' & ocs' & G & A & V & _).
  rewrite W in A. injection A as <- <-. eapply read_layers_eq; eauto.
Qed.
Print Assumptions C23_layers_read.

(** Reading all the layers of a name, or with the empty name all the layers. *)
Theorem C23_all_layers_read : forall M ident map_kids map_ok (hp : nat -> M) f0 calls f outcomes version globals L,
  o_parts f0 = [] -> Forall usable calls -> Forall (fun w => map_ok (hp (w_ref w)) = true) calls ->
  write_all ident map_kids map_ok hp f0 calls = Ok (f, outcomes) ->
  exists layers source, read_layers_all (file_tree version f globals) L = Ok layers /\
    Permutation source (filter (fun w => is_nil L || bytes_eqb (w_layer w) L) (accepted calls outcomes)) /\
    Forall2 (reads_as ident map_kids hp) layers source.
Proof.
  intros M ident mk mo hp [c ps] calls f ocs version globals L E U MO W. cbn in E. subst ps.
  destruct (write_all_inv ident mk mo hp False calls U MO (OFile c []) [] [] (inv_new _ _ _ c)) as (f' & ocs' & G & A & V & _).
  rewrite W in A. injection A as <- <-. eapply read_all_eq; eauto.
Qed.
Print Assumptions C23_all_layers_read.

(** On an object that writes its first file the listings are right: the partitions are
    names used in calls and include all those of accepted calls, and the layers of a
    partition are exactly the accepted ones, each once. *)
Theorem C23_listing : forall M ident map_kids map_ok (hp : nat -> M) calls f outcomes version globals,
  Forall usable calls -> Forall (fun w => map_ok (hp (w_ref w)) = true) calls ->
  write_all ident map_kids map_ok hp o_new calls = Ok (f, outcomes) ->
  let t := file_tree version f globals in
  (exists l, partition_names t = Ok l /\ increasing l /\
     (forall w, In w (accepted calls outcomes) -> In (w_user w) l) /\
     (forall P, In P l -> exists w, In w calls /\ w_user w = P)) /\
  (forall P, exists l, layer_names_in t P = Ok l /\ increasing l /\
     forall L, In L l <-> exists w, In w (accepted calls outcomes) /\ w_user w = P /\ w_layer w = L).
Proof.
  intros M ident mk mo hp calls f ocs version globals U MO W t.
  destruct (write_all_inv ident mk mo hp True calls U MO o_new [] [] (inv_fresh _ _ _)) as (f' & ocs' & G & A & V & _).
  rewrite W in A. injection A as <- <-. split.
  - destruct (partition_names_eq ident mk hp f G _ version globals True V) as (l & E1 & E2 & E3 & E4).
    exists l. split; auto. split; auto. split; auto. intros P I. destruct (E4 P I) as (g & Ig & EU).
    assert (IN : In (g_name g) (map p_name (o_parts f))).
    { rewrite (i_parts _ _ _ _ _ _ _ V), map_map. apply in_map_iff. exists g; auto. }
    destruct (write_all_src _ _ _ _ _ _ _ _ W _ IN) as [[]|(w & Iw & Ew)]. exists w. split; auto.
    unfold g_name in Ew. rewrite remove_int in Ew. congruence.
  - intros P. apply (layer_names_eq ident mk hp f G _ version globals P V).
Qed.
Print Assumptions C23_listing.

(** With the field files of C22: a dense field whose write was accepted is among the layers
    read, equal to the one written, whatever else is in the file. *)
Theorem C23_dense_layer : forall M ident map_kids map_ok (hp : nat -> M) f0 calls f outcomes version globals w
    V ty enc dec (zero : V) dims bits fld metadata layer,
  o_parts f0 = [] -> Forall usable calls -> Forall (fun w => map_ok (hp (w_ref w)) = true) calls ->
  write_all ident map_kids map_ok hp f0 calls = Ok (f, outcomes) ->
  In w (accepted calls outcomes) -> w_user w <> [] ->
  storable ty enc dec -> dense_reached zero fld -> box_nonempty (d_dw fld) -> int_corners (d_ext fld) ->
  dense_layer ty enc dims bits fld = Ok layer ->
  w_body w = layer_body (map written metadata) (str "DenseField") layer ->
  exists layers x m, read_layers (file_tree version f globals) (w_user w) (w_layer w) = Ok layers /\ In x layers /\
    il_name x = w_user w /\ il_attr x = w_layer w /\
    il_map x = Some (node_group (str "mapping") (map_kids m)) /\ ident (hp (w_ref w)) m = true /\
    dense_read ty enc dec zero (il_group x) = Ok (Some fld).
Proof.
  intros M ident mk mo hp f0 calls f ocs version globals w V ty enc dec zero dims bits fld md layer E U MO W I NU st RF NE IC DL B.
  assert (Uw : usable w).
  { unfold accepted in I. apply in_map_iff in I as ((w', oc) & <- & I). apply filter_In in I as (I & _). apply in_combine_l in I.
    apply (proj1 (Forall_forall _ _) U); auto. }
  destruct (C23_layers_read M ident mk mo hp f0 calls f ocs version globals (w_user w) (w_layer w) E U MO W NU) as (ls & src & R & Pm & F);
    [apply Uw|].
  assert (Is : In w src).
  { apply (Permutation_in _ (Permutation_sym Pm)). apply filter_In. split; auto. rewrite !beq_refl. reflexivity. }
  clear Pm. assert (X : exists x, In x ls /\ reads_as ident mk hp x w).
  { clear -F Is. induction F; [destruct Is|]. destruct Is as [->|Is]; [exists x; split; [left|]; auto|].
    destruct (IHF Is) as (z & A & C). exists z; split; [right|]; auto. }
  destruct X as (x & Ix & X1 & X2 & X3 & r & X4 & X5). exists ls, x, (hp r). do 6 (split; auto).
  rewrite X3, B.
  set (pre := [EAttr (str "class_type") TString (str "field3d_layer"); EGroup (str "metadata") md; EAttr (str "class_name") TString (str "DenseField")]).
  destruct (C22_round_trip V ty enc dec zero dims bits fld (w_layer w) pre [] st RF NE IC) as (layer' & DL' & DR).
  - split.
    + repeat constructor; try discriminate; cbn; intuition discriminate.
    + intros n ty' v [H|[H|[H|[]]]]; try discriminate; injection H as <- <- <-; cbn; intuition discriminate.
  - repeat constructor; intros H; vm_compute in H; intuition discriminate.
  - split; [constructor|intros ? ? ? []].
  - rewrite DL in DL'. injection DL' as <-. unfold layer_group in DR. cbn [map] in DR. rewrite app_nil_r in DR.
    unfold layer_body. exact DR.
Qed.
Print Assumptions C23_dense_layer.

(** * A concrete history *)
(** Mappings are numbers, compared exactly. *)
Definition ex_kids (m : Z) : list tree := [node_attr (str "m") TInt32 (enc32 m)].
Definition ex_heap (r : nat) : Z := Z.of_nat r.
Definition ex_call (P L : string) (r : nat) (b : Z) : wr := Wr (str P) (str L) r [node_attr (str "b") TInt32 (enc32 b)].
Definition ex_calls : list wr :=
  [ex_call "fire" "density" 1 10; ex_call "fire" "temp" 1 11; ex_call "fire" "density" 1 12; ex_call "fire" "density" 2 13;
   ex_call "fi.re" "density" 2 14; ex_call "a/b" "density" 2 15; ex_call "fire" "temp" 2 16; ex_call "fire" "de/nsity" 2 17].
Definition ex_written := write_all Z.eqb ex_kids (fun _ => true) ex_heap o_new ex_calls.
Definition oc_code (o : outcome) : Z := match o with Accepted => 0 | Rejected => 1 | Threw => 2 end.
Lemma usable_b w : forallb (fun c => negb (c =? 0)) (w_user w) && forallb (fun c => negb (c =? 0)) (w_layer w) &&
  negb (is_nil (w_layer w)) && negb (bytes_eqb (w_layer w) (str "mapping")) = true -> usable w.
Proof.
  rewrite !andb_true_iff. intros (((A & B) & C) & D).
  assert (Z : forall l, forallb (fun c => negb (c =? 0)) l = true -> ~ In 0 l).
  { intros l H I. rewrite forallb_forall in H. apply H in I. discriminate. }
  split; [auto|]. split; [split; auto|].
  - intros E. rewrite E in C. discriminate.
  - intros E. rewrite E, beq_refl in D. discriminate.
Qed.
Example C23_example : Forall usable ex_calls /\ exists f,
  ex_written = Ok (f, [Accepted; Accepted; Accepted; Accepted; Accepted; Threw; Accepted; Threw]) /\
  map p_name (o_parts f) = [str "fire.0"; str "fire.1"; str "fire.2"; str "fi.re.0"] /\
  let t := file_tree (enc32 1 ++ enc32 7 ++ enc32 0) f (Some []) in
  partition_names t = Ok [str "fi.re"; str "fire"] /\
  layer_names_in t (str "fire") = Ok [str "density"; str "temp"] /\
  match read_layers t (str "fire") (str "density") with
  | Ok l => map il_group l = map (fun b => node_group (str "density") [node_attr (str "b") TInt32 (enc32 b)]) [10; 12; 13] /\
            map il_map l = map (fun m => Some (node_group (str "mapping") (ex_kids m))) [1; 1; 2]
  | _ => False
  end.
Proof.
  split; [repeat (constructor; [apply usable_b; reflexivity|]); constructor|].
  eexists. split; [vm_compute; reflexivity|]. split; [vm_compute; reflexivity|].
  split; [vm_compute; reflexivity|]. split; [vm_compute; reflexivity|]. vm_compute. split; reflexivity.
Qed.

(** * What the property's plain statement claims but the code does not do *)
Definition ex_tree (f : ofile) : tree := file_tree (enc32 1 ++ enc32 7 ++ enc32 0) f None.

(** A layer named "mapping" is accepted and never read. *)
Theorem C23_layer_called_mapping_refuted : ~ (forall M ident map_kids map_ok (hp : nat -> M) calls f outcomes P L,
  write_all ident map_kids map_ok hp o_new calls = Ok (f, outcomes) -> Forall (fun w => good_name (w_layer w) /\ good_name (w_user w)) calls ->
  (exists w, In w (accepted calls outcomes) /\ w_user w = P /\ w_layer w = L) ->
  exists layers, read_layers (ex_tree f) P L = Ok layers /\ layers <> []).
Proof.
  intros H. specialize (H Z Z.eqb ex_kids (fun _ => true) ex_heap [ex_call "fire" "mapping" 1 10]).
  edestruct H as (l & R & N).
  - vm_compute. reflexivity.
  - constructor; [|constructor]. split; apply good_str; reflexivity.
  - exists (ex_call "fire" "mapping" 1 10). split; [left; reflexivity|]. split; reflexivity.
  - vm_compute in R. injection R as <-. auto.
Qed.
Print Assumptions C23_layer_called_mapping_refuted.

(** A layer with an empty name is accepted; it is lost, and so is every layer written to
    the same partition after it. *)
Theorem C23_empty_layer_name_refuted : ~ (forall M ident map_kids map_ok (hp : nat -> M) calls f outcomes P L,
  write_all ident map_kids map_ok hp o_new calls = Ok (f, outcomes) ->
  P <> [] -> L <> [] -> L <> str "mapping" ->
  (exists w, In w (accepted calls outcomes) /\ w_user w = P /\ w_layer w = L) ->
  exists layers, read_layers (ex_tree f) P L = Ok layers /\ layers <> []).
Proof.
  intros H. specialize (H Z Z.eqb ex_kids (fun _ => true) ex_heap [ex_call "fire" "" 1 10; ex_call "fire" "density" 1 11]).
  edestruct H with (P := str "fire") (L := str "density") as (l & R & N); try discriminate.
  - vm_compute. reflexivity.
  - exists (ex_call "fire" "density" 1 11). split; [right; left; reflexivity|]. split; reflexivity.
  - vm_compute in R. injection R as <-. auto.
Qed.
Print Assumptions C23_empty_layer_name_refuted.

(** A layer in the partition with the empty name is accepted, stored and found when reading
    all layers, but not when asked for by partition and layer. *)
Theorem C23_empty_partition_name_refuted : ~ (forall M ident map_kids map_ok (hp : nat -> M) calls f outcomes P L,
  write_all ident map_kids map_ok hp o_new calls = Ok (f, outcomes) -> Forall usable calls ->
  (exists w, In w (accepted calls outcomes) /\ w_user w = P /\ w_layer w = L) ->
  exists layers, read_layers (ex_tree f) P L = Ok layers /\ layers <> []).
Proof.
  intros H. specialize (H Z Z.eqb ex_kids (fun _ => true) ex_heap [ex_call "" "density" 1 10]).
  edestruct H as (l & R & N).
  - vm_compute. reflexivity.
  - constructor; [apply usable_b; reflexivity|constructor].
  - exists (ex_call "" "density" 1 10). split; [left; reflexivity|]. split; reflexivity.
  - vm_compute in R. injection R as <-. auto.
Qed.
Print Assumptions C23_empty_partition_name_refuted.

(** An output object that is used for a second file numbers partitions where the first file
    stopped, and the second file's listing misses its layers. *)
Theorem C23_second_file_listing_refuted : ~ (forall M ident map_kids map_ok (hp : nat -> M) calls1 f1 outcomes1 calls f outcomes P L,
  write_all ident map_kids map_ok hp o_new calls1 = Ok (f1, outcomes1) ->
  write_all ident map_kids map_ok hp (o_reopen f1) calls = Ok (f, outcomes) ->
  Forall usable calls1 -> Forall usable calls ->
  (exists w, In w (accepted calls outcomes) /\ w_user w = P /\ w_layer w = L) ->
  exists names, layer_names_in (ex_tree f) P = Ok names /\ In L names).
Proof.
  intros H. specialize (H Z Z.eqb ex_kids (fun _ => true) ex_heap [ex_call "fire" "density" 1 10]).
  edestruct H with (calls := [ex_call "fire" "density" 1 10]) as (l & R & N).
  - vm_compute. reflexivity.
  - vm_compute. reflexivity.
  - constructor; [apply usable_b; reflexivity|constructor].
  - constructor; [apply usable_b; reflexivity|constructor].
  - exists (ex_call "fire" "density" 1 10). split; [left; reflexivity|]. split; reflexivity.
  - vm_compute in R. injection R as <-. destruct N.
Qed.
Print Assumptions C23_second_file_listing_refuted.

(** After a call rejected because the mapping could not be written, the next call for that
    partition dereferences a null pointer. *)
Theorem C23_failed_mapping_refuted : ~ (forall M ident map_kids map_ok (hp : nat -> M) calls,
  Forall usable calls -> write_all ident map_kids map_ok hp o_new calls <> UB).
Proof.
  intros H. apply (H Z Z.eqb ex_kids (fun m => m =? 2) ex_heap [ex_call "fire" "density" 1 10; ex_call "fire" "temp" 2 11]).
  - repeat (constructor; [apply usable_b; reflexivity|]); constructor.
  - vm_compute. reflexivity.
Qed.
Print Assumptions C23_failed_mapping_refuted.

(** The partition shares the mapping object with the first field written to it: changing
    that field's mapping afterwards makes a second field, with the changed mapping, end up
    in a partition whose stored mapping is the old one. *)
Theorem C23_mapping_changed_refuted : ~ (forall M ident map_kids map_ok (hp1 hp2 : nat -> M) c1 c2 f1 f2 oc1,
  (forall a b, ident a b = true <-> a = b) -> (forall m, map_ok m = true) -> usable c1 -> usable c2 ->
  write_layer ident map_kids map_ok hp1 o_new (w_user c1) (w_layer c1) (w_ref c1) (w_body c1) = Ok (f1, oc1) ->
  write_layer ident map_kids map_ok hp2 f1 (w_user c2) (w_layer c2) (w_ref c2) (w_body c2) = Ok (f2, Accepted) ->
  exists layers x, read_layers (ex_tree f2) (w_user c2) (w_layer c2) = Ok layers /\ In x layers /\
    il_map x = Some (node_group (str "mapping") (map_kids (hp2 (w_ref c2))))).
Proof.
  intros H. specialize (H Z Z.eqb ex_kids (fun _ => true) ex_heap (fun _ => 5) (ex_call "fire" "density" 1 10) (ex_call "fire" "temp" 1 11)).
  edestruct H as (l & x & R & I & E).
  - intros; apply Z.eqb_eq.
  - auto.
  - apply usable_b; reflexivity.
  - apply usable_b; reflexivity.
  - vm_compute. reflexivity.
  - vm_compute. reflexivity.
  - vm_compute in R. injection R as <-. destruct I as [<-|[]]. vm_compute in E. discriminate.
Qed.
Print Assumptions C23_mapping_changed_refuted.
