(** C59: metadata in HDF5 files. *)
From Coq Require Import ZArith List Bool String Lia Permutation.
From Verif Require Import Model.Base Model.OgawaM Spec.OgawaSpec Model.OgM Spec.OgSpec Proof.OgP Model.FieldIOM Model.FileM Spec.FileSpec Proof.FileP
  Model.MetaM Spec.MetaSpec Proof.MetaP Model.Hdf5FileM Spec.Hdf5MetaSpec Proof.Hdf5MetaP Proof.Hdf5MetaP2.
Import ListNotations.
Open Scope Z_scope.

(** Metadata that any history of settings leaves, each name with one type, is written, and
    read back the same, whatever the order in which the library lists the attributes. *)
Theorem C59_round_trip : forall m, storable_meta m ->
  exists l, put_meta m [] = (l, true) /\ forall l', Permutation l' l -> get_meta l' meta_empty = Ok m.
Proof.
  intros m H. destruct (storable_facts m H) as (I & D & G). exists (map stored (msets m)). split; [apply (get_put_meta m I D G)|].
  intros l' P. apply Permutation_map_inv in P as (t & -> & P). apply get_perm; auto using Permutation_sym.
Qed.
Print Assumptions C59_round_trip.

(** Writing succeeds exactly when no name is empty and none has values of two types. *)
Theorem C59_accepted : forall history, Forall (fun s => ~ In 0 (ms_name s)) history ->
  snd (put_meta (meta_run history) []) = true <-> (Forall (fun s => ms_name s <> []) history /\ one_type history).
Proof. apply put_meta_iff. Qed.
Print Assumptions C59_accepted.

(** Attributes that any program left, into metadata that holds anything: each attribute that is
    a string or one or three numbers sets its name of its type, and nothing else changes. *)
Theorem C59_read_any : forall l m, four_bytes l -> NoDup (map fst l) -> (forall n, In n (map fst l) -> ~ In 0 n) ->
  exists m', get_meta l m = Ok m' /\
    forall k n dflt, meta_get m' k n dflt =
      match find_by n l with
      | Some v => match attr_value k v with Some x => x | None => meta_get m k n dflt end
      | None => meta_get m k n dflt
      end.
Proof. intros l m F ND Z. apply (get_each_any l [] l m eq_refl F ND Z). Qed.
Print Assumptions C59_read_any.

Definition ex_history :=
  [MSet KInt (str "frame") (enc32 12); MSet KStr (str "artist") (str "me"); MSet KVecFloat (str "wind") (flat_map enc32 [1; 2; 3]);
   MSet KInt (str "frame") (enc32 13); MSet KStr (str "note") []].
Example C59_example : storable_meta (meta_run ex_history) /\
  put_meta (meta_run ex_history) [] =
    ([(str "artist", VStr (str "me")); (str "note", VStr [0]); (str "frame", VNum false 4 [1%nat] (enc32 13));
      (str "wind", VNum true 4 [3%nat] (flat_map enc32 [1; 2; 3]))], true) /\
  four_bytes (fst (put_meta (meta_run ex_history) [])) /\ NoDup (map fst (fst (put_meta (meta_run ex_history) []))).
Proof.
  split; [|split; [vm_compute; reflexivity|split]].
  - exists ex_history. split; [reflexivity|]. split.
    + repeat (constructor; [split; [apply good_str; reflexivity|cbn; try reflexivity; intuition discriminate]|]). constructor.
    + intros a b Ia Ib. cbn [ex_history In] in Ia, Ib. decompose [or] Ia; decompose [or] Ib; subst; auto; try contradiction; vm_compute; discriminate.
  - intros n fl sz k d I _. vm_compute in I. decompose [or] I; try contradiction; try discriminate; match goal with X : _ = _ |- _ => injection X; intros; subst; reflexivity end.
  - vm_compute. repeat constructor; cbn; intuition discriminate.
Qed.

(** A name with values of two types, which metadata can hold (C24), cannot be written, and
    then neither can anything else into the same group. *)
Theorem C59_two_types_refuted : ~ (forall history, Forall holdable history -> snd (put_meta (meta_run history) []) = true).
Proof.
  intros H. specialize (H [MSet KInt (str "a") (enc32 1); MSet KFloat (str "a") (enc32 1)]).
  assert (X : snd (put_meta (meta_run [MSet KInt (str "a") (enc32 1); MSet KFloat (str "a") (enc32 1)]) []) = false) by (vm_compute; reflexivity).
  rewrite X in H. discriminate H. repeat (constructor; [split; [apply good_str; reflexivity|reflexivity]|]). constructor.
Qed.
Print Assumptions C59_two_types_refuted.
Theorem C59_retry_refuted : ~ (forall bad good, snd (put_meta bad []) = false -> storable_meta good ->
  snd (put_meta good (fst (put_meta bad []))) = true).
Proof.
  intros H. specialize (H (meta_run [MSet KInt (str "a") (enc32 1); MSet KFloat (str "a") (enc32 1)]) (meta_run [MSet KInt (str "a") (enc32 1)])).
  vm_compute in H. discriminate H; [reflexivity|]. exists [MSet KInt (str "a") (enc32 1)]. split; [reflexivity|]. split.
  - constructor; [split; [apply good_str; reflexivity|reflexivity]|constructor].
  - intros a b [<-|[]] [<-|[]]; auto.
Qed.
Print Assumptions C59_retry_refuted.

(** A NUL ends a string value, and a name. *)
Theorem C59_nul_refuted : ~ (forall s, good_name (ms_name s) -> forall l, put_meta (meta_run [s]) [] = (l, true) -> get_meta l meta_empty = Ok (meta_run [s])).
Proof.
  intros H. specialize (H (MSet KStr (str "a") [104; 0; 105]) ltac:(apply good_str; reflexivity) _ eq_refl). vm_compute in H. discriminate.
Qed.
Print Assumptions C59_nul_refuted.
Theorem C59_nul_name_refuted : ~ (forall a b, ms_name a <> ms_name b -> ms_name a <> [] -> ms_name b <> [] -> snd (put_meta (meta_run [a; b]) []) = true).
Proof.
  intros H. specialize (H (MSet KStr [104] [1]) (MSet KStr [104; 0] [1])). vm_compute in H. discriminate H; discriminate.
Qed.
Print Assumptions C59_nul_name_refuted.

(** Wider numbers are read past the end of a variable. *)
Theorem C59_wide_refuted : ~ (forall l m, NoDup (map fst l) -> (forall n, In n (map fst l) -> ~ In 0 n) -> get_meta l m <> UB).
Proof.
  intros H. apply (H [(str "a", VNum true 8 [1%nat] [0; 0; 0; 0; 0; 0; 240; 63])] meta_empty).
  - repeat constructor; intuition.
  - intros n [<-|[]]. apply good_str. reflexivity.
  - reflexivity.
Qed.
Print Assumptions C59_wide_refuted.
