(** C24: metadata. *)
From Coq Require Import ZArith List Bool String Lia Arith.
From Verif Require Import Model.Base Model.OgawaM Spec.OgawaSpec Model.OgM Spec.OgSpec Proof.OgP Model.FieldIOM Model.FileM Proof.FileP Model.MetaM Spec.MetaSpec Proof.MetaP.
Import ListNotations.
Open Scope Z_scope.

(** In memory: five independent maps, the last value set wins, the default otherwise. *)
Theorem C24_last_write_wins : forall history k n dflt,
  meta_get (meta_run history) k n dflt = match last_set history k n with Some v => v | None => dflt end.
Proof.
  intros. unfold meta_get, meta_run, last_set. rewrite run_find. replace (smap_find (meta_map meta_empty k) n) with (@None (list Z)); auto.
  destruct k; reflexivity.
Qed.
Print Assumptions C24_last_write_wins.

(** Assigning metadata (as copying a field does) makes all of it equal, whatever was there. *)
Theorem C24_assign : forall m other k n dflt, meta_get (meta_assign m other) k n dflt = meta_get other k n dflt.
Proof. intros m [] k n dflt. reflexivity. Qed.
Print Assumptions C24_assign.

(** Through a file: what exactly comes back, for any history of settings with storable
    names and values.  Names used with several types survive in one of them only. *)
Theorem C24_file : forall history layer class_name field,
  Forall storable_set history -> good_name layer ->
  exists m, read_layer_meta (node_group layer (layer_body (write_meta (meta_run history)) class_name field)) = Ok m /\
    forall k n dflt, meta_get m k n dflt =
      if existsb (fun k' => match last_set history k' n with Some _ => true | None => false end) (before k)
      then dflt
      else match last_set history k n with Some v => v | None => dflt end.
Proof.
  intros h la cls fld S G. set (mm := meta_run h).
  assert (OK : meta_ok mm) by (apply run_ok; auto; intros k n v I; destruct k; destruct I).
  assert (GM : good_name (str "metadata")) by (apply good_str; reflexivity).
  assert (LS : forall k n, smap_find (meta_map mm k) n = last_set h k n).
  { intros k n. unfold mm, meta_run, last_set. rewrite run_find. f_equal. destruct k; reflexivity. }
  destruct (read_meta_eq mm (str "metadata") OK GM) as (y & R & F). exists y. split.
  - unfold read_layer_meta.
    assert (FV : find_valid (node_group la (layer_body (write_meta mm) cls fld)) (str "metadata") = Ok (Some (node_group (str "metadata") (write_meta mm)))).
    { unfold find_valid, find_group. rewrite split_plain by (apply has_slash_iff; reflexivity). cbn [app find_comps].
      unfold node_group at 1. rewrite wdata_ne by apply G. rewrite wdata_enc32. cbn [app t_kids skipn].
      unfold layer_body. reflexivity. }
    rewrite FV. cbn [bind]. rewrite write_meta_eq. exact R.
  - intros k n d. unfold meta_get. rewrite F. unfold look.
    replace (existsb _ (before k)) with (existsb (fun k' => match last_set h k' n with Some _ => true | None => false end) (before k)).
    + destruct (existsb _ _); auto. rewrite LS. reflexivity.
    + induction (before k); cbn; auto. rewrite LS, IHl. reflexivity.
Qed.
Print Assumptions C24_file.

(** If every name is used with one type only, everything comes back. *)
Theorem C24_round_trip : forall history layer class_name field,
  Forall storable_set history -> good_name layer ->
  (forall a b, In a history -> In b history -> ms_name a = ms_name b -> ms_kind a = ms_kind b) ->
  exists m, read_layer_meta (node_group layer (layer_body (write_meta (meta_run history)) class_name field)) = Ok m /\
    forall k n dflt, meta_get m k n dflt = meta_get (meta_run history) k n dflt.
Proof.
  intros h la cls fld S G U. destruct (C24_file h la cls fld S G) as (m & R & F). exists m. split; auto.
  intros k n d. rewrite F, C24_last_write_wins. destruct (last_set h k n) as [v|] eqn:E; [|destruct (existsb _ _); auto].
  assert (L : forall k v, last_set h k n = Some v -> exists a, In a h /\ ms_name a = n /\ ms_kind a = k).
  { clear. intros k v. unfold last_set. revert v. induction h as [|s r IH] using rev_ind; intros v; [discriminate|].
    rewrite fold_left_app. cbn [fold_left].
    assert (W : forall v, fold_left (fun acc s => if kind_eqb (ms_kind s) k && bytes_eqb (ms_name s) n then Some (ms_value s) else acc) r None = Some v ->
      exists a, In a (r ++ [s]) /\ ms_name a = n /\ ms_kind a = k).
    { intros v' E. destruct (IH v' E) as (a & A & B). exists a. rewrite in_app_iff. auto. }
    destruct (kind_eqb_spec (ms_kind s) k) as [Ek|]; cbn [andb]; [|apply W].
    destruct (bytes_eqb_spec (ms_name s) n); [|apply W]. intros. exists s. rewrite in_app_iff. split; [right; left|]; auto. }
  destruct (L k v E) as (a & Ia & Na & Ka).
  replace (existsb _ (before k)) with false; auto. symmetry. apply Bool.not_true_iff_false. rewrite existsb_exists.
  intros (k' & Ik & X). destruct (last_set h k' n) as [v'|] eqn:E'; [|discriminate]. destruct (L k' v' E') as (b & Ib & Nb & Kb).
  assert (k = k') as <- by (rewrite <- Ka, <- Kb; apply U; congruence).
  destruct k; cbn in Ik; intuition discriminate.
Qed.
Print Assumptions C24_round_trip.

Definition ex_history : list mset :=
  [MSet KStr (str "note") (str "a"); MSet KInt (str "n") (enc32 7); MSet KFloat (str "f") [1; 2; 3; 4];
   MSet KVecInt (str "v") (enc_v3 (V3 1 (-2) 3)); MSet KStr (str "note") (str "b"); MSet KVecFloat (str "w") (zeros 12); MSet KStr (str "empty") []].
Example C24_example : Forall storable_set ex_history /\
  (forall a b, In a ex_history -> In b ex_history -> ms_name a = ms_name b -> ms_kind a = ms_kind b) /\
  meta_get (meta_run ex_history) KStr (str "note") [] = str "b" /\ meta_get (meta_run ex_history) KInt (str "note") [9] = [9].
Proof.
  split; [|split; [|split; vm_compute; reflexivity]].
  - assert (P : forall s, ~ In 47 (str s) -> good_name (str s) -> plain_name (str s)) by (intros s A B; split; auto).
    repeat (constructor; [split; [apply P; [apply has_slash_iff; reflexivity|apply good_str; reflexivity]|]|]); try constructor;
      cbn; try reflexivity; intuition discriminate.
  - intros a b Ia Ib. cbn in Ia, Ib.
    repeat (destruct Ia as [<-|Ia]); try destruct Ia; repeat (destruct Ib as [<-|Ib]); try destruct Ib; cbn [ms_name ms_kind]; intros H;
      try reflexivity; vm_compute in H; discriminate.
Qed.

(** One name, two types: the integer is lost. *)
Theorem C24_two_types_refuted : ~ (forall history layer class_name field,
  Forall storable_set history -> good_name layer ->
  exists m, read_layer_meta (node_group layer (layer_body (write_meta (meta_run history)) class_name field)) = Ok m /\
    forall k n dflt, meta_get m k n dflt = meta_get (meta_run history) k n dflt).
Proof.
  intros H. destruct (H [MSet KInt (str "n") (enc32 7); MSet KStr (str "n") (str "x")] (str "density") [] []) as (m & R & F).
  - repeat constructor; try discriminate; cbn; intuition discriminate.
  - apply good_str; reflexivity.
  - vm_compute in R. injection R as <-. specialize (F KInt (str "n") []). vm_compute in F. discriminate.
Qed.
Print Assumptions C24_two_types_refuted.

(** A name with a '/' is written and not found again. *)
Theorem C24_slash_refuted : ~ (forall history layer class_name field,
  Forall (fun s => good_name (ms_name s) /\ value_ok (mtype (ms_kind s)) (ms_value s)) history -> good_name layer ->
  (forall a b, In a history -> In b history -> a = b) ->
  exists m, read_layer_meta (node_group layer (layer_body (write_meta (meta_run history)) class_name field)) = Ok m /\
    forall k n dflt, meta_get m k n dflt = meta_get (meta_run history) k n dflt).
Proof.
  intros H. destruct (H [MSet KInt (str "a/n") (enc32 7)] (str "density") [] []) as (m & R & F).
  - repeat constructor; try discriminate; cbn; intuition discriminate.
  - apply good_str; reflexivity.
  - intros a b [<-|[]] [<-|[]]; auto.
  - vm_compute in R. injection R as <-. specialize (F KInt (str "a/n") []). vm_compute in F. discriminate.
Qed.
Print Assumptions C24_slash_refuted.

(** An entry with an empty name hides every entry written after it: here all of them. *)
Theorem C24_empty_name_refuted : ~ (forall history layer class_name field k n dflt,
  good_name layer -> plain_name n ->
  (forall a b, In a history -> In b history -> ms_name a = ms_name b -> ms_kind a = ms_kind b) ->
  exists m, read_layer_meta (node_group layer (layer_body (write_meta (meta_run history)) class_name field)) = Ok m /\
    meta_get m k n dflt = meta_get (meta_run history) k n dflt).
Proof.
  intros H. destruct (H [MSet KStr (str "n") (str "x"); MSet KStr [] (str "y")] (str "density") [] [] KStr (str "n") []) as (m & R & F).
  - apply good_str; reflexivity.
  - split; [apply good_str; reflexivity|]. cbn. intuition discriminate.
  - intros a b [<-|[<-|[]]] [<-|[<-|[]]]; auto.
  - vm_compute in R. injection R as <-. vm_compute in F. discriminate.
Qed.
Print Assumptions C24_empty_name_refuted.
