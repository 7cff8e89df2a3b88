(** C58: layers and partitions of HDF5 files. *)
From Coq Require Import ZArith List Bool String Lia Arith Permutation Sorted.
From Verif Require Import Model.Base Model.FieldM Model.DenseM Spec.VoxelSpec Spec.DenseSpec Model.OgawaM Spec.OgawaSpec Model.OgM Spec.OgSpec Proof.OgP
  Model.FieldIOM Spec.FieldIOSpec Proof.FieldIOP Model.FileM Spec.FileSpec Proof.FileP Proof.FileP2
  Model.MetaM Spec.MetaSpec Proof.MetaP Model.Hdf5M Spec.Hdf5Spec Model.Hdf5FileM Spec.Hdf5MetaSpec Proof.Hdf5MetaP Spec.Hdf5FileSpec Proof.Hdf5FileP Proof.Hdf5FileP2 Proof.Hdf5FileP3
  Proof.Hdf5P Props.Hdf5Props.
Import ListNotations.
Open Scope Z_scope.

Lemma good_split A M mp mg (hp : nat -> M) (calls : list (hcall (A := A))) : good_calls mp mg hp calls ->
  Forall h_usable calls /\ Forall (fun c => h_field_ok (c_vec c) (c_field c)) calls /\ Forall (fun c => h_map_ok mp mg (hp (hf_ref (c_field c)))) calls.
Proof.
  intros H. repeat split; eapply Forall_impl; try exact H; intros c (P & Q & R); auto.
Qed.
Lemma supported_ok a b : 0 <= a -> 0 <= b -> supported a b = true.
Proof.
  intros H K. unfold supported. destruct ((1 <? a) || ((a =? 1) && (7 <? b))); auto.
  destruct (Z.ltb_spec a 0); [lia|]. destruct (Z.ltb_spec b 0); [lia|]. rewrite andb_false_r. reflexivity.
Qed.
Lemma version_read A v : int_v3 v -> 0 <= vx v -> 0 <= vy v ->
  version_ok (HNode (A := A) [(str "version_number", VNum false 4 [3%nat] (enc_v3 v))] []) = Ok true.
Proof.
  intros I X Y. unfold version_ok, get_num. cbn [n_attrs find_by]. change (cstr (str "version_number")) with (str "version_number"). rewrite beq_refl.
  destruct (list_eq_dec Nat.eq_dec [3%nat] [3%nat]) as [_|N]; [|congruence]. cbn [negb Bool.eqb Nat.eqb].
  pose proof (dec_v3_enc v I) as D. unfold dec_v3 in D. f_equal.
  assert (D1 : dec_i32 (firstn 4 (enc_v3 v)) = vx v) by (rewrite <- D at 2; reflexivity).
  assert (D2 : dec_i32 (firstn 4 (skipn 4 (enc_v3 v))) = vy v) by (rewrite <- D at 2; reflexivity).
  rewrite D1, D2. apply supported_ok; auto.
Qed.

(** Any number of writes on a new file, in any order and with any names and mappings: every
    call returns, and when the comparison of mappings is a sane one and no layer is written
    both as scalar and as vector, a call succeeds exactly when the name of the layer is not
    empty, "." or "mapping". *)
Theorem C58_write_outcomes : forall A M ident map_put map_get (hp : nat -> M) version h0 (calls : list (hcall (A := A))),
  h_parts h0 = [] -> good_calls map_put map_get hp calls ->
  exists h outcomes, h_writes ident map_put hp (h_create version h0) calls = Ok (h, outcomes) /\
    List.length outcomes = List.length calls /\
    Forall2 (fun c o => o = Accepted -> layer_name_ok (c_layer c)) calls outcomes /\
    ((forall a, ident a a = true) -> (forall a b, ident a b = ident b a) -> one_kind calls ->
     Forall2 (fun c o => o = Accepted <-> layer_name_ok (c_layer c)) calls outcomes).
Proof.
  intros A M ident mp mg hp v h0 calls E GC. destruct (good_split _ _ _ _ _ _ GC) as (U & F & MO).
  destruct (h_writes_inv ident mp mg hp [(str "version_number", VNum false 4 [3%nat] v)] False calls U F MO (h_create v h0) [] [] ltac:(apply dinv_new; auto))
    as (h & ocs & G & W & _ & L & N & _ & B).
  exists h, ocs. auto.
Qed.
Print Assumptions C58_write_outcomes.

(** What follows from a session. *)
Lemma session_open A M ident mp mg (hp : nat -> M) v h0 (calls : list (hcall (A := A))) outcomes global root ord (fresh : bool) :
  session ident mp mg hp v h0 calls outcomes global root -> any_order ord -> (fresh = true -> h_count h0 = []) ->
  exists h G o L va, dinv ident mp mg hp va (fresh = true) h G (h_accepted calls outcomes) /\ incl (map d_user G) (map c_user calls) /\
    root = rootF va G o /\ Permutation (map rp_d L) G /\ Forall (seen mg ord G) L /\
    i_open ord mg root i_new = Ok (fin va G global o L, true).
Proof.
  intros (E & IV & VX & VY & GC & h & h' & W & FI & R) O FR. destruct (good_split _ _ _ _ _ _ GC) as (U & F & MO).
  set (va := [(str "version_number", VNum false 4 [3%nat] (enc_v3 v))]).
  assert (D0 : dinv ident mp mg hp va (fresh = true) (h_create (enc_v3 v) h0) [] []).
  { split; auto; try constructor; try contradiction; auto. cbn [h_create h_count]. rewrite FR by auto. reflexivity. }
  destruct (h_writes_inv ident mp mg hp va (fresh = true) calls U F MO _ [] [] D0) as (h1 & ocs & G & W1 & V & _ & _ & US & _).
  rewrite W in W1. injection W1 as <- <-. cbn [app map] in *.
  destruct (finished_root _ _ _ _ _ _ _ _ _ V _ _ FI) as (o & R' & MO').
  rewrite R in R'. injection R' as ->.
  destruct (open_eq ident mp mg hp ord O va _ h G _ V _ _ FI o MO' (version_read A v IV VX VY)) as (L & P & S & OP).
  exists h, G, o, L, va. repeat (split; auto).
Qed.

(** The file opens, whatever the order in which the library lists it, with its global
    metadata, and reading the scalar or vector layers (P, L) gives exactly the accepted calls
    of that kind with those names: each once, with its own class, attributes, contents and
    metadata, and a mapping identical to its own. *)
Theorem C58_layers_read : forall A M ident map_put map_get (hp : nat -> M) v h0 (calls : list (hcall (A := A))) outcomes global root ord,
  session ident map_put map_get hp v h0 calls outcomes global root -> any_order ord ->
  exists f, i_open ord map_get root i_new = Ok (f, true) /\ i_meta f = global /\
    forall vec P L, P <> [] -> L <> [] ->
      exists layers source, i_layers f vec P L = Ok layers /\
        Permutation source
          (filter (fun c => Bool.eqb (c_vec c) vec && bytes_eqb (c_user c) P && bytes_eqb (c_layer c) L) (h_accepted calls outcomes)) /\
        Forall2 (h_reads_as ident map_put map_get hp) layers source.
Proof.
  intros A M ident mp mg hp v h0 calls ocs gm root ord S O.
  destruct (session_open _ _ _ _ _ _ _ _ _ _ _ _ _ false S O) as (h & G & o & L & va & V & _ & -> & P & SN & OP); [discriminate|].
  eexists. split; [exact OP|]. split; [reflexivity|]. intros. eapply layers_eq; eauto.
Qed.
Print Assumptions C58_layers_read.

(** Reading all the layers of a name and kind, or with the empty name all those of a kind. *)
Theorem C58_all_layers_read : forall A M ident map_put map_get (hp : nat -> M) v h0 (calls : list (hcall (A := A))) outcomes global root ord,
  session ident map_put map_get hp v h0 calls outcomes global root -> any_order ord ->
  exists f, i_open ord map_get root i_new = Ok (f, true) /\
    forall vec L, exists layers source, i_layers_all f vec L = Ok layers /\
      Permutation source (filter (fun c => Bool.eqb (c_vec c) vec && (is_nil L || bytes_eqb (c_layer c) L)) (h_accepted calls outcomes)) /\
      Forall2 (h_reads_as ident map_put map_get hp) layers source.
Proof.
  intros A M ident mp mg hp v h0 calls ocs gm root ord S O.
  destruct (session_open _ _ _ _ _ _ _ _ _ _ _ _ _ false S O) as (h & G & o & L & va & V & _ & -> & P & SN & OP); [discriminate|].
  eexists. split; [exact OP|]. intros. eapply layers_all_eq; eauto.
Qed.
Print Assumptions C58_all_layers_read.

(** The listings: the partitions are names used in calls and include all those of accepted
    calls, and the first file that an object writes lists exactly the accepted layers of a
    partition and kind, each once. *)
Theorem C58_listing : forall A M ident map_put map_get (hp : nat -> M) v h0 (calls : list (hcall (A := A))) outcomes global root ord,
  session ident map_put map_get hp v h0 calls outcomes global root -> any_order ord ->
  exists f, i_open ord map_get root i_new = Ok (f, true) /\
    increasing (i_partition_names f) /\
    (forall c, In c (h_accepted calls outcomes) -> In (c_user c) (i_partition_names f)) /\
    (forall P, In P (i_partition_names f) -> exists c, In c calls /\ c_user c = P) /\
    (h_count h0 = [] -> forall vec P, increasing (i_layer_names f vec P) /\
       forall L, In L (i_layer_names f vec P) <-> exists c, In c (h_accepted calls outcomes) /\ c_vec c = vec /\ c_user c = P /\ c_layer c = L).
Proof.
  intros A M ident mp mg hp v h0 calls ocs gm root ord S O.
  assert (FR : h_count h0 = [] \/ h_count h0 <> []) by (destruct (h_count h0); [left|right]; congruence).
  assert (exists fresh : bool, (fresh = true -> h_count h0 = []) /\ (h_count h0 = [] -> fresh = true)) as (fresh & F1 & F2).
  { destruct FR; [exists true|exists false]; split; auto; try discriminate; contradiction. }
  destruct (session_open _ _ _ _ _ _ _ _ _ _ _ _ _ fresh S O F1) as (h & G & o & L & va & V & US & -> & P & SN & OP).
  eexists. split; [exact OP|]. destruct (partition_names_ok va G gm o L P) as (I1 & I2). split; auto. split; [|split].
  - intros c Ic. apply I2. eapply acc_users; eauto.
  - intros u Iu. apply I2 in Iu. apply US in Iu. apply in_map_iff in Iu as (c & <- & Ic). eauto.
  - intros C vec u. eapply layer_names_ok; eauto.
Qed.
Print Assumptions C58_listing.

(** With C56: what the reader of a class asks of the group of a layer it gets the answers
    that the class's writer gave. *)
Lemma unstr_str s : unstr (str s) = s.
Proof.
  unfold unstr, str. rewrite map_map. rewrite <- (string_of_list_ascii_of_string s) at 2. f_equal.
  rewrite <- (map_id (list_ascii_of_string s)) at 2. apply map_ext. intros a. rewrite Nat2Z.id. apply Ascii.ascii_nat_embedding.
Qed.
Lemma ints_enc l : Forall (fun z => in_int z = true) l -> ints (List.length l) (flat_map enc32 l) = l.
Proof.
  induction 1 as [|z l Iz H IH]; auto. cbn [List.length flat_map ints].
  pose proof (enc32_length z) as E. rewrite <- E at 1. rewrite firstn_app_exact, dec_i32_enc by auto.
  rewrite <- E. rewrite skipn_app_exact. congruence.
Qed.
Definition all_ints (l : list (string * hattr)) : Prop := forall n k, In (n, AInts k) l -> Forall (fun z => in_int z = true) k.
Lemma view_written_attrs l : all_ints l -> map (fun e => (unstr (fst e), view_attr (snd e))) (map h5_attr l) = l.
Proof.
  induction l as [|(n, a) l IH]; intros H; auto. cbn [map h5_attr fst snd]. rewrite unstr_str, IH by (intros m k I; apply (H m k); right; auto).
  do 2 f_equal. destruct a; auto. cbn [view_attr]. rewrite ints_enc; auto. apply (H n). left; auto.
Qed.
Lemma view_written_sets A (l : list (string * hset A)) :
  flat_map (fun e => match snd e with LSet s => [(unstr (fst e), s)] | _ => [] end) (map h5_set l) = l.
Proof. induction l as [|(n, a) l IH]; auto. cbn [map flat_map h5_set fst snd]. rewrite unstr_str, IH. reflexivity. Qed.

Theorem C58_layer_group : forall A M ident map_put map_get (hp : nat -> M) v h0 (calls : list (hcall (A := A))) outcomes global root ord c attrs sets,
  session ident map_put map_get hp v h0 calls outcomes global root -> any_order ord ->
  In c (h_accepted calls outcomes) -> c_user c <> [] ->
  all_ints attrs -> hf_attrs (c_field c) = map h5_attr attrs -> hf_links (c_field c) = map h5_set sets ->
  exists f layers x, i_open ord map_get root i_new = Ok (f, true) /\ i_layers f (c_vec c) (c_user c) (c_layer c) = Ok layers /\
    In x layers /\ h_reads_as ident map_put map_get hp x c /\
    same_layer (HGroup attrs sets) (view (y_group x)).
Proof.
  intros A M ident mp mg hp v h0 calls ocs gm root ord c attrs sets S O I NU AI EA EL.
  destruct (C58_layers_read _ _ _ _ _ _ _ _ _ _ _ _ _ S O) as (f & OP & _ & R).
  assert (NL : c_layer c <> []).
  { destruct S as (E & _ & _ & _ & GC & h & h' & W & _). destruct (C58_write_outcomes _ _ ident mp mg hp (enc_v3 v) h0 calls E GC) as (h1 & o1 & W1 & _ & N & _).
    rewrite W in W1. injection W1 as <- <-. clear -N I. unfold h_accepted in I. apply in_map_iff in I as ((c', oc) & <- & I). apply filter_In in I as (I & OC).
    cbn in OC. destruct oc; try discriminate. cbn [fst].
    assert (L : layer_name_ok (c_layer c')).
    { revert I. induction N as [|a b l m X N IH]; intros I; [destruct I|]. destruct I as [[= -> ->]|I]; auto. }
    apply L. }
  destruct (R (c_vec c) (c_user c) (c_layer c) NU NL) as (layers & source & RL & P & F).
  assert (Is : In c source).
  { apply (Permutation_in _ (Permutation_sym P)). apply filter_In. split; auto. rewrite Bool.eqb_reflx, !beq_refl. reflexivity. }
  assert (X : exists x, In x layers /\ h_reads_as ident mp mg hp x c).
  { clear -F Is. induction F; [destruct Is|]. destruct Is as [->|Is]; [exists x; split; [left|]; auto|].
    destruct (IHF Is) as (z & P & Q). exists z; split; [right|]; auto. }
  destruct X as (x & Ix & RX). exists f, layers, x. do 4 (split; auto).
  destruct RX as (_ & _ & _ & _ & (a & b & m & G) & _). rewrite G, EA, EL. unfold view. cbn [n_attrs n_links map flat_map fst snd].
  rewrite view_written_attrs, view_written_sets by auto.
  change (unstr (str "class_type")) with "class_type"%string. change (unstr (str "class_name")) with "class_name"%string.
  change (unstr (str "metadata")) with "metadata"%string.
  split; cbn [hg_attrs hg_sets].
  - intros n In_. unfold layer_attrs in In_. cbn [In] in In_. decompose [or] In_; subst; try contradiction; reflexivity.
  - intros n In_. unfold layer_sets in In_. cbn [In] in In_. decompose [or] In_; subst; try contradiction; destruct m; reflexivity.
Qed.
Print Assumptions C58_layer_group.

(** A dense field of three-component or single values, written by its own writer (C56) into
    the layer of an accepted call, is what the reader of dense fields returns. *)
Theorem C58_dense_layer : forall A V M ident map_put map_get (hp : nat -> M) v h0 (calls : list (hcall (A := A))) outcomes global root ord c
    convert of_flag to_flag ty comps split join (zero : V) (d : dense V) gzip g1,
  session ident map_put map_get hp v h0 calls outcomes global root -> any_order ord ->
  In c (h_accepted calls outcomes) -> c_user c <> [] ->
  faithful (A := A) convert of_flag to_flag -> made_of ty comps split join ->
  dense_reached zero d -> box_nonempty (d_dw d) -> int_corners (d_ext d) -> int_corners (d_dw d) ->
  box_count (d_dw d) * Z.of_nat comps < 2 ^ 31 -> (gzip = true -> 2 <= box_count (d_dw d) * Z.of_nat comps) ->
  dense_h5_write ty comps split gzip d (HGroup [] []) = Ok (g1, true) ->
  hf_attrs (c_field c) = map h5_attr (hg_attrs g1) -> hf_links (c_field c) = map h5_set (hg_sets g1) ->
  exists f layers x, i_open ord map_get root i_new = Ok (f, true) /\ i_layers f (c_vec c) (c_user c) (c_layer c) = Ok layers /\
    In x layers /\ h_reads_as ident map_put map_get hp x c /\
    dense_h5_read convert ty comps split join zero (view (y_group x)) = Ok (Some d).
Proof.
  intros A V M ident mp mg hp v h0 calls ocs gm root ord c convert of_flag to_flag ty comps split join zero d gzip g1
    S O I NU FA MO DR NE IE ID T TW W EA EL.
  assert (RM : room_in (HGroup (A := A) [] [])) by (split; intros; reflexivity).
  destruct (C56_dense _ _ convert of_flag to_flag ty comps split join zero d gzip _ FA MO DR NE T TW RM) as (g' & W' & _ & RD).
  rewrite W in W'. injection W' as <-.
  assert (AI : all_ints (hg_attrs g1)).
  { rewrite (dense_prefix ty comps split gzip d _ RM (dense_reached_shape zero d DR) NE) in W.
    destruct (i32 _); try discriminate. cbn [bind] in W. destruct (chunk_ok _ _ _); [|discriminate]. injection W as <-.
    unfold added, dense_attrs. cbn [hg_attrs app]. intros n k Ik. destruct IE as ((?&?&?)&(?&?&?)), ID as ((?&?&?)&(?&?&?)).
    destruct MO as (_ & [->| ->] & _); cbn [In] in Ik; decompose [or] Ik; try contradiction;
      match goal with X : _ = (n, AInts k) |- _ => injection X as <- <- end; unfold of_box; repeat (constructor; auto); destruct ty; reflexivity. }
  destruct (C58_layer_group _ _ _ _ _ _ _ _ _ _ _ _ _ c (hg_attrs g1) (hg_sets g1) S O I NU AI EA EL) as (f & layers & x & OP & RL & Ix & RX & SL).
  exists f, layers, x. split; [exact OP|]. split; [exact RL|]. split; [exact Ix|]. split; [exact RX|]. apply RD. destruct g1. exact SL.
Qed.
Print Assumptions C58_dense_layer.

(** Whatever program wrote it: opening a file without wider attributes and dangling links, and
    reading any of its layers, is defined. *)
Theorem C58_open_safe : forall A M (map_get : list (bytes * aval) -> res (option M)) (root : hnode (A := A)) ord f,
  plain_file map_get root ->
  i_open ord map_get root f <> UB /\
  forall f', i_open ord map_get root f = Ok (f', true) ->
    forall vec P L, i_layers f' vec P L <> UB /\ i_layers_all f' vec L <> UB.
Proof.
  intros A M mg root ord f PF. split; [apply open_def; auto|]. intros f' OP vec P L. pose proof (open_root _ _ _ _ _ OP) as R.
  split; [unfold i_layers; destruct (_ || _); [discriminate|]|]; eapply each_def; eauto.
Qed.
Print Assumptions C58_open_safe.

(** * Instances *)

(** Mappings are numbers, stored in one attribute, and compared as numbers. *)
Definition ex_put (z : Z) : res (list (bytes * aval) * bool) := Ok ([(str "m", VNum false 4 [1%nat] (enc32 z))], negb (z =? 9)).
Definition ex_get (l : list (bytes * aval)) : res (option Z) :=
  match find_by (str "m") l with Some (VNum _ _ _ d) => Ok (Some (dec_i32 d)) | _ => Ok None end.
Definition ex_hp (r : nat) : Z := Z.of_nat r.
Definition ex_field (vec : bool) (r : nat) (m : meta) : hfield (A := Z) :=
  HField r m (str "DenseField") [(str "components", VNum false 4 [1%nat] (enc32 (if vec then 3 else 1)))]
    [(str "data", LSet (HSet HFloat [2] [Z.of_nat r; 7]))] Accepted.
Definition ex_history := [MSet KInt (str "frame") (enc32 12); MSet KStr (str "artist") (str "me"); MSet KVecFloat (str "wind") (flat_map enc32 [1; 2; 3])].
Definition ex_call (vec : bool) (user layer : string) (r : nat) : hcall (A := Z) :=
  HCall vec (str user) (str layer) (ex_field vec r (meta_run ex_history)).
Definition ex_v := V3 1 7 3.
Definition ex_write (calls : list (hcall (A := Z))) := h_writes Z.eqb ex_put ex_hp (h_create (enc_v3 ex_v) h_new) calls.
Definition ex_root (calls : list (hcall (A := Z))) : hnode (A := Z) :=
  match ex_write calls with Ok (h, _) => match h_root h with Some r => r | None => n_empty end | _ => n_empty end.
Definition ex_open (root : hnode (A := Z)) := i_open (@rev bytes) ex_get root i_new.

Definition ex_usable (c : hcall (A := Z)) : bool :=
  negb (existsb (Z.eqb 0) (c_user c)) && negb (existsb (Z.eqb 47) (c_user c)) && negb (existsb (Z.eqb 0) (c_layer c)) && negb (existsb (Z.eqb 47) (c_layer c)).
Lemma not_in_b z l : negb (existsb (Z.eqb z) l) = true -> ~ In z l.
Proof. intros H I. assert (existsb (Z.eqb z) l = true) by (apply existsb_exists; exists z; split; auto; apply Z.eqb_refl). rewrite H0 in H. discriminate. Qed.
Lemma ex_usable_ok c : ex_usable c = true -> h_usable c.
Proof. unfold ex_usable. rewrite !andb_true_iff. intros [[[A B] C] D]. repeat split; apply not_in_b; auto. Qed.
Lemma ex_storable : storable_meta (meta_run ex_history).
Proof.
  exists ex_history. split; [reflexivity|]. split.
  - repeat (constructor; [split; [apply good_str; reflexivity|cbn [ms_kind ms_value mtype value_ok]; try reflexivity; apply not_in_b; reflexivity]|]). constructor.
  - intros a b Ia Ib. cbn [ex_history In] in Ia, Ib. decompose [or] Ia; decompose [or] Ib; subst; auto; try contradiction; vm_compute; discriminate.
Qed.
Lemma ex_good vec user layer r : ex_usable (ex_call vec user layer r) = true -> (r < 9)%nat ->
  h_usable (ex_call vec user layer r) /\ h_field_ok (c_vec (ex_call vec user layer r)) (c_field (ex_call vec user layer r)) /\
  h_map_ok ex_put ex_get (ex_hp (hf_ref (c_field (ex_call vec user layer r)))).
Proof.
  intros U R. split; [apply ex_usable_ok; auto|]. split.
  - split; [exact ex_storable|]. split; [apply not_in_b; reflexivity|]. split; [reflexivity|]. destruct vec; reflexivity.
  - cbn [ex_call c_field hf_ref ex_field]. exists [(str "m", VNum false 4 [1%nat] (enc32 (ex_hp r)))], (ex_hp r). split.
    + unfold ex_put. rewrite (proj2 (Z.eqb_neq (ex_hp r) 9)) by (unfold ex_hp; lia). reflexivity.
    + split; [|reflexivity]. unfold ex_get. cbn [find_by]. rewrite beq_refl, dec_i32_enc; auto. apply in_int_iff. unfold ex_hp. lia.
Qed.

(** Two mappings in a partition, the same layer three times, both kinds, and one bad name. *)
Definition ex_calls :=
  [ex_call false "fire" "density" 1; ex_call false "fire" "density" 1; ex_call true "fire" "vel" 1; ex_call false "fire" "mapping" 2;
   ex_call false "fire" "density" 2; ex_call true "smoke.x" "vel" 2].
Definition ex_outcomes := [Accepted; Accepted; Accepted; Rejected; Accepted; Accepted].
Example C58_example_session : exists root, session Z.eqb ex_put ex_get ex_hp ex_v h_new ex_calls ex_outcomes (meta_run ex_history) root.
Proof.
  eexists. split; [reflexivity|]. split; [repeat split|]. split; [discriminate|]. split; [discriminate|]. split.
  - repeat (constructor; [apply ex_good; [reflexivity|lia]|]). constructor.
  - eexists _, _. split; [vm_compute; reflexivity|]. split.
    + eexists _, _, [], [(str "burning", str "fire.0:density ")]. split; [reflexivity|].
      split; [right; split; [exact ex_storable|vm_compute; reflexivity]|vm_compute; reflexivity].
    + vm_compute. reflexivity.
Qed.
Example C58_example_read :
  match ex_open (ex_root ex_calls) with
  | Ok (f, true) =>
      i_names f = [str "smoke.x.0"; str "fire.2"; str "fire.1"; str "fire.0"] /\
      i_partition_names f = [str "fire"; str "smoke.x"] /\ i_layer_names f false (str "fire") = [str "density"] /\
      i_layer_names f true (str "fire") = [str "vel"] /\
      match i_layers f false (str "fire") (str "density") with
      | Ok l => map (@y_map _ _) l = [2; 1; 1] /\ map (@y_meta _ _) l = [meta_run ex_history; meta_run ex_history; meta_run ex_history]
      | _ => False
      end
  | _ => False
  end.
Proof. vm_compute. repeat split. Qed.
Fixpoint ex_ok (k : nat) (a : hnode (A := Z)) : bool :=
  match k with
  | O => is_nil (n_links a)
  | S k => forallb (fun e => match snd e with LGroup b => ex_ok k b | LBad => false | LSet _ => true end) (n_links a)
  end && forallb (fun e => match snd e with VNum _ k [_] _ => Nat.eqb k 4 | _ => true end) (n_attrs a).
Example C58_example_one_kind : one_kind ex_calls /\ any_order (@rev bytes) /\ plain_file ex_get (ex_root ex_calls).
Proof.
  split; [|split].
  - intros c d Ic Id. cbn [ex_calls In] in Ic, Id. decompose [or] Ic; decompose [or] Id; subst; auto; try contradiction; vm_compute; discriminate.
  - intros l. apply Permutation_sym, Permutation_rev.
  - assert (W : forall r : hnode (A := Z), r = ex_root ex_calls -> plain_file ex_get r); [|apply W; reflexivity].
    intros r E. vm_compute in E. subst r. intros path n.
    assert (T : forall l : list (bytes * aval), forallb (fun e => match snd e with VNum _ k [_] _ => Nat.eqb k 4 | _ => true end) l = true -> four_bytes l).
    { intros l F m fl size k d I _. rewrite forallb_forall in F. specialize (F _ I). cbn in F. apply Nat.eqb_eq. exact F. }
    assert (G : forall l, ex_get l <> UB) by (intros l; unfold ex_get; destruct (find_by _ l) as [[]|]; discriminate).
    assert (D : forall l : list (bytes * hlink (A := Z)), forallb (fun e => match snd e with LBad => false | _ => true end) l = true -> forall m x, In (m, x) l -> x <> LBad).
    { intros l F m x I ->. rewrite forallb_forall in F. specialize (F _ I). discriminate. }
    intros E.
    assert (Y : forall k a p g, node_at a p = Some g -> ex_ok k a = true -> exists k', ex_ok k' g = true).
    { intros k a p. revert k a. induction p as [|c p IH]; intros k a g N O; cbn [node_at] in N; [injection N as <-; eauto|].
      unfold sub_group in N. destruct (find_by c (n_links a)) as [[b| |]|] eqn:F; try discriminate. destruct k as [|k]; cbn [ex_ok] in O; apply andb_true_iff in O as (O & _).
      - destruct (n_links a); [discriminate F|discriminate O].
      - rewrite forallb_forall in O. apply find_by_some in F. specialize (O _ F). cbn in O. eauto. }
    destruct (Y 4%nat _ _ _ E eq_refl) as (k & O). split; [|split; auto].
    + apply T. destruct k; cbn [ex_ok] in O; apply andb_true_iff in O; tauto.
    + apply D. destruct k; cbn [ex_ok] in O; apply andb_true_iff in O as (O & _).
      * destruct (n_links n); [reflexivity|discriminate].
      * apply forallb_forall. intros e I. rewrite forallb_forall in O. specialize (O e I). destruct (snd e); auto.
Qed.

(** * What does not hold *)

(** A layer that was written can be read: not when one partition has it both as a scalar and
    as a vector layer; the second is refused (the two kinds share the names in the file, and
    the search for a name that is taken looks at one kind). *)
Theorem C58_both_kinds_refuted : ~ (forall A M ident map_put map_get (hp : nat -> M) version (calls : list (hcall (A := A))) h outcomes,
  (forall a, ident a a = true) -> (forall a b, ident a b = ident b a) -> good_calls map_put map_get hp calls ->
  Forall (fun c => layer_name_ok (c_layer c)) calls ->
  h_writes ident map_put hp (h_create version h_new) calls = Ok (h, outcomes) -> Forall (fun o => o = Accepted) outcomes).
Proof.
  intros H.
  assert (X : Forall (fun o => o = Accepted) [Accepted; Rejected]); [|inversion_clear X as [|? ? _ Y]; inversion_clear Y; discriminate].
  eapply (H Z Z Z.eqb ex_put ex_get ex_hp (enc_v3 ex_v) [ex_call false "fire" "v" 1; ex_call true "fire" "v" 1]).
  - apply Z.eqb_refl.
  - apply Z.eqb_sym.
  - repeat (constructor; [apply ex_good; [reflexivity|lia]|]). constructor.
  - repeat constructor; vm_compute; discriminate.
  - vm_compute. reflexivity.
Qed.
Print Assumptions C58_both_kinds_refuted.

(** With a '/' in a name.  The file does not open any more (layer "/x": a group at the root that
    is no partition). *)
Definition slash_calls {A M} map_put map_get (hp : nat -> M) (calls : list (hcall (A := A))) : Prop :=
  Forall (fun c => (~ In 0 (c_user c) /\ ~ In 0 (c_layer c)) /\ h_field_ok (c_vec c) (c_field c) /\ h_map_ok map_put map_get (hp (hf_ref (c_field c)))) calls.
Lemma ex_slash vec user layer r : negb (existsb (Z.eqb 0) (str user)) && negb (existsb (Z.eqb 0) (str layer)) = true -> (r < 9)%nat ->
  (~ In 0 (c_user (ex_call vec user layer r)) /\ ~ In 0 (c_layer (ex_call vec user layer r))) /\
  h_field_ok (c_vec (ex_call vec user layer r)) (c_field (ex_call vec user layer r)) /\
  h_map_ok ex_put ex_get (ex_hp (hf_ref (c_field (ex_call vec user layer r)))).
Proof.
  intros U R. apply andb_true_iff in U as (U1 & U2). split; [split; apply not_in_b; auto|].
  destruct (ex_good vec "a" "b" r) as (_ & F & G); auto.
Qed.
Theorem C58_slash_opens_refuted : ~ (forall A M ident map_put map_get (hp : nat -> M) v (calls : list (hcall (A := A))) h outcomes root,
  int_v3 v -> 0 <= vx v -> 0 <= vy v -> slash_calls map_put map_get hp calls ->
  h_writes ident map_put hp (h_create (enc_v3 v) h_new) calls = Ok (h, outcomes) -> Forall (fun o => o = Accepted) outcomes -> h_root h = Some root ->
  exists f, i_open (@rev bytes) map_get root i_new = Ok (f, true)).
Proof.
  intros H. edestruct (H Z Z Z.eqb ex_put ex_get ex_hp ex_v [ex_call false "fire" "density" 1; ex_call false "fire" "/x" 1]) as (f & X).
  1-3: vm_compute; repeat split; discriminate.
  - repeat (constructor; [apply ex_slash; [reflexivity|lia]|]). constructor.
  - vm_compute. reflexivity.
  - repeat constructor.
  - reflexivity.
  - vm_compute in X. discriminate.
Qed.
Print Assumptions C58_slash_opens_refuted.
(** Or it opens without that layer: "a/b" after "a" in the same partition, which becomes a group
    in the layer "a"; partition "p.0/q" after "p"; partition "/a", which is read as "a". *)
Theorem C58_slash_read_refuted : forall calls, In calls
    [[ex_call false "fire" "a" 1; ex_call false "fire" "a/b" 1];
     [ex_call false "p" "density" 1; ex_call false "p.0/q" "density" 1];
     [ex_call false "fire" "density" 1; ex_call false "/a" "density" 1]] ->
  exists h outcomes root f, slash_calls ex_put ex_get ex_hp calls /\ ex_write calls = Ok (h, outcomes) /\ Forall (fun o => o = Accepted) outcomes /\
    h_root h = Some root /\ ex_open root = Ok (f, true) /\
    exists c, In c calls /\ ~ In (c_layer c) (i_layer_names f (c_vec c) (c_user c)) /\ i_layers f (c_vec c) (c_user c) (c_layer c) = Ok [].
Proof.
  assert (T : forall c d : hcall (A := Z), In d [c; d]) by (intros; right; left; auto).
  intros calls I. cbn [In] in I. decompose [or] I; try contradiction; subst calls;
    (eexists _, _, _, _; split; [repeat (constructor; [apply ex_slash; [reflexivity|lia]|]); constructor|]; split; [vm_compute; reflexivity|];
     split; [repeat constructor|]; split; [reflexivity|]; split; [vm_compute; reflexivity|]; eexists; split; [apply T|];
     split; [vm_compute; tauto || (intros X; decompose [or] X; try discriminate; contradiction)|vm_compute; reflexivity]).
Qed.
Print Assumptions C58_slash_read_refuted.

(** An object that has written a file and is used for a second one keeps the partitions of the
    first ([create] does not clear them), and refuses layers in them that it could write. *)
Theorem C58_second_file_refuted : ~ (forall A M ident map_put map_get (hp : nat -> M) version (calls1 calls : list (hcall (A := A))) h1 outcomes1 h outcomes,
  (forall a, ident a a = true) -> (forall a b, ident a b = ident b a) ->
  good_calls map_put map_get hp calls1 -> good_calls map_put map_get hp calls -> one_kind (calls1 ++ calls) ->
  Forall (fun c => layer_name_ok (c_layer c)) (calls1 ++ calls) ->
  h_writes ident map_put hp (h_create version h_new) calls1 = Ok (h1, outcomes1) ->
  h_writes ident map_put hp (h_create version h1) calls = Ok (h, outcomes) -> Forall (fun o => o = Accepted) outcomes).
Proof.
  intros H.
  assert (X : Forall (fun o => o = Accepted) [Rejected]); [|inversion_clear X; discriminate].
  eapply (H Z Z Z.eqb ex_put ex_get ex_hp (enc_v3 ex_v) [ex_call false "fire" "density" 1] [ex_call false "fire" "temp" 1]).
  - apply Z.eqb_refl.
  - apply Z.eqb_sym.
  - repeat (constructor; [apply ex_good; [reflexivity|lia]|]). constructor.
  - repeat (constructor; [apply ex_good; [reflexivity|lia]|]). constructor.
  - intros c d Ic Id. cbn [app In] in Ic, Id. decompose [or] Ic; decompose [or] Id; subst; auto; contradiction.
  - repeat constructor; vm_compute; discriminate.
  - vm_compute. reflexivity.
  - vm_compute. reflexivity.
Qed.
Print Assumptions C58_second_file_refuted.

(** An object that has read a file and opens another keeps the names of the first one's
    partitions: the second does not open. *)
Theorem C58_second_open_refuted : ~ (forall A M ident map_put map_get (hp : nat -> M) v (calls1 calls : list (hcall (A := A))) outcomes1 outcomes g1 g root1 root f1,
  session ident map_put map_get hp v h_new calls1 outcomes1 g1 root1 -> session ident map_put map_get hp v h_new calls outcomes g root ->
  i_open (@rev bytes) map_get root1 i_new = Ok (f1, true) -> exists f, i_open (@rev bytes) map_get root f1 = Ok (f, true)).
Proof.
  intros H. edestruct (H Z Z Z.eqb ex_put ex_get ex_hp ex_v [ex_call false "fire" "density" 1] [ex_call false "smoke" "density" 1]) as (f & X).
  1-2: split; [reflexivity|]; split; [repeat split|]; split; [discriminate|]; split; [discriminate|];
    split; [repeat (constructor; [apply ex_good; [reflexivity|lia]|]); constructor|];
    eexists _, _; split; [vm_compute; reflexivity|]; split; [eexists _, _, [], []; split; [reflexivity|]; split; [left; split; reflexivity|reflexivity]|reflexivity].
  - vm_compute. reflexivity.
  - vm_compute in X. discriminate.
Qed.
Print Assumptions C58_second_open_refuted.

(** A mapping that cannot be stored is refused, but leaves a partition without one: the next
    write to it is undefined (a null pointer). *)
Theorem C58_failed_mapping_refuted : ~ (forall A M ident map_put (hp : nat -> M) version (calls : list (hcall (A := A))),
  (forall m, map_put m <> UB) -> Forall h_usable calls -> h_writes ident map_put hp (h_create version h_new) calls <> UB).
Proof.
  intros H. apply (H Z Z Z.eqb ex_put ex_hp (enc_v3 ex_v) [ex_call false "fire" "density" 9; ex_call false "fire" "density" 1]).
  - intros m. discriminate.
  - repeat (constructor; [apply ex_usable_ok; reflexivity|]). constructor.
  - vm_compute. reflexivity.
Qed.
Print Assumptions C58_failed_mapping_refuted.

(** A layer whose writer failed, after it had been rejected, is listed and read all the same. *)
Theorem C58_failed_layer_refuted : ~ (forall A M ident map_put map_get (hp : nat -> M) version (calls : list (hcall (A := A))) h outcomes root (f : ihfile (A := A) (M := M)),
  Forall h_usable calls -> h_writes ident map_put hp (h_create version h_new) calls = Ok (h, outcomes) -> h_root h = Some root ->
  i_open (@rev bytes) map_get root i_new = Ok (f, true) ->
  forall vec P L, In L (i_layer_names f vec P) -> exists c, In c (h_accepted calls outcomes) /\ c_user c = P /\ c_layer c = L).
Proof.
  intros H.
  set (bad := HField (A := Z) 1 meta_empty (str "DenseField") [(str "components", VNum false 4 [1%nat] (enc32 1))] [] Rejected).
  edestruct (H Z Z Z.eqb ex_put ex_get ex_hp (enc_v3 ex_v) [HCall false (str "fire") (str "density") bad]) with (vec := false) (P := str "fire") (L := str "density")
    as (c & I & _).
  - constructor; [apply ex_usable_ok; reflexivity|constructor].
  - vm_compute. reflexivity.
  - reflexivity.
  - vm_compute. reflexivity.
  - vm_compute. auto.
  - exact I.
Qed.
Print Assumptions C58_failed_layer_refuted.

(** Files of other programs.  Wider numbers are read past the end of the variable: *)
Theorem C58_wide_attribute_refuted : ~ (forall A M (map_get : list (bytes * aval) -> res (option M)) (root : hnode (A := A)) ord,
  (forall l, map_get l <> UB) -> (forall m x, In (m, x) (n_links root) -> x <> LBad) -> i_open ord map_get root i_new <> UB).
Proof.
  intros H. apply (H Z Z ex_get (HNode [(str "version_number", VNum false 8 [3%nat] (repeat 0 24))] []) (@rev bytes)).
  - intros l. unfold ex_get. destruct (find_by _ l) as [[]|]; discriminate.
  - intros m x [].
  - reflexivity.
Qed.
Print Assumptions C58_wide_attribute_refuted.
(** a dangling link in a partition is undefined: *)
Theorem C58_dangling_link_refuted : ~ (forall A M (map_get : list (bytes * aval) -> res (option M)) (root : hnode (A := A)) ord,
  (forall l, map_get l <> UB) -> (forall p n, node_at root p = Some n -> four_bytes (n_attrs n)) -> i_open ord map_get root i_new <> UB).
Proof.
  intros H. apply (H Z Z ex_get (HNode [] [(str "a.0", LGroup (HNode [] [(str "gone", LBad); (str "mapping", LGroup (HNode [(str "m", VNum false 4 [1%nat] [1; 0; 0; 0])] []))]))]) (@rev bytes)).
  - intros l. unfold ex_get. destruct (find_by _ l) as [[]|]; discriminate.
  - intros p n E.
    assert (four : n_attrs n = [] \/ n_attrs n = [(str "m", VNum false 4 [1%nat] [1; 0; 0; 0])]).
    { destruct p as [|a p]; [injection E as <-; auto|]. cbn [node_at sub_group find_by n_links] in E.
      unfold sub_group in E. cbn [find_by n_links] in E. destruct (bytes_eqb (str "a.0") a); [|discriminate].
      destruct p as [|b p]; [injection E as <-; auto|]. cbn [node_at] in E. unfold sub_group in E. cbn [find_by n_links] in E.
      destruct (bytes_eqb (str "gone") b); [discriminate|]. destruct (bytes_eqb (str "mapping") b); [|discriminate].
      destruct p as [|c p]; [injection E as <-; auto|]. discriminate. }
    destruct four as [-> | ->]; intros m fl sz k d I _; cbn in I; [contradiction|]. destruct I as [[= <- <- <- <- <-]|[]]. reflexivity.
  - reflexivity.
Qed.
Print Assumptions C58_dangling_link_refuted.
(** and one at the root hides the partitions that are listed after it. *)
Theorem C58_hidden_partition_refuted : ~ (forall (root : hnode (A := Z)) ord f P m,
  any_order ord -> ex_open root = Ok (f, true) -> In P (i_partition_names f) ->
  exists f', i_open ord ex_get (HNode (n_attrs root) (n_links root ++ [(m, LBad)])) i_new = Ok (f', true) /\ In P (i_partition_names f')).
Proof.
  intros H. destruct (H (ex_root [ex_call false "fire" "density" 1]) (@rev bytes) _ (str "fire") (str "gone") ltac:(intros l; apply Permutation_sym, Permutation_rev) eq_refl) as (f & OP & I).
  - vm_compute. auto.
  - vm_compute in OP. injection OP as <-. exact I.
Qed.
Print Assumptions C58_hidden_partition_refuted.
