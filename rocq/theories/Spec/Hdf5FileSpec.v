(** What writing layers to an HDF5 file and reading them back must do. *)
From Coq Require Import ZArith List Bool String Permutation.
From Verif Require Import Model.Base Model.OgawaM Spec.OgawaSpec Model.OgM Spec.OgSpec Model.FieldIOM Spec.FieldIOSpec Model.FileM Model.MetaM Spec.MetaSpec
  Model.Hdf5M Model.Hdf5FileM Spec.Hdf5MetaSpec.
Import ListNotations.
Open Scope Z_scope.

Section S.
Context {A M : Type}.
Implicit Types c : hcall (A := A).

(** The calls of a history that returned true. *)
Definition h_accepted (calls : list (hcall (A := A))) (outcomes : list outcome) : list (hcall (A := A)) :=
  map fst (filter (fun x => match snd x with Accepted => true | _ => false end) (combine calls outcomes)).

(** Names without NUL and '/'. *)
Definition h_usable c : Prop :=
  ~ In 0 (c_user c) /\ ~ In 47 (c_user c) /\ ~ In 0 (c_layer c) /\ ~ In 47 (c_layer c).
(** Layer names that can be written. *)
Definition layer_name_ok (n : bytes) : Prop := n <> [] /\ n <> str "." /\ n <> str "mapping".

(** A field whose writer succeeds, having written how many components it has (C56), and whose
    metadata can be stored (C59). *)
Definition h_field_ok (vec : bool) (f : hfield (A := A)) : Prop :=
  storable_meta (hf_meta f) /\ ~ In 0 (hf_class f) /\ hf_out f = Accepted /\
  find_by (str "components") (hf_attrs f) = Some (VNum false 4 [1%nat] (enc32 (if vec then 3 else 1))).

(** No layer of a partition is written both as a scalar and as a vector layer. *)
Definition one_kind (calls : list (hcall (A := A))) : Prop :=
  forall c d, In c calls -> In d calls -> c_user c = c_user d -> c_layer c = c_layer d -> c_vec c = c_vec d.

(** A mapping that can be stored, in attributes that do not make a layer of it. *)
Definition h_map_ok (map_put : M -> res (list (bytes * aval) * bool)) (map_get : list (bytes * aval) -> res (option M)) (m : M) : Prop :=
  exists l m', map_put m = Ok (l, true) /\ map_get l = Ok (Some m') /\ find_by (str "class_type") l = None.

(** A layer read is a call that was made: same names, class and metadata, the attributes and
    contents that its writer wrote, and as mapping what is read of one that the call's was
    found identical to. *)
Definition h_reads_as (ident : M -> M -> bool) (map_put : M -> res (list (bytes * aval) * bool)) (map_get : list (bytes * aval) -> res (option M))
    (hp : nat -> M) (x : hlayer (A := A) (M := M)) c : Prop :=
  y_name x = c_user c /\ y_attr x = c_layer c /\ y_class x = hf_class (c_field c) /\
  y_meta x = hf_meta (c_field c) /\
  (exists a b m, y_group x =
     HNode ((str "class_type", a) :: (str "class_name", b) :: hf_attrs (c_field c))
           ((str "metadata", m) :: hf_links (c_field c))) /\
  exists r l, ident (hp (hf_ref (c_field c))) (hp r) = true /\ map_put (hp r) = Ok (l, true) /\ map_get l = Ok (Some (y_map x)).

(** A file ends after its layers, or after its global metadata, or after group memberships
    (C62), whichever of these are written and whichever first. *)
Definition h_finished (h h' : hfile (A := A)) (global : meta) : Prop :=
  exists h1 h2 before after, h_members h before = (h1, true) /\
    ((h2 = h1 /\ global = meta_empty) \/ (storable_meta global /\ h_globals h1 global = (h2, true))) /\
    h_members h2 after = (h', true).

(** Calls with such names, fields and mappings. *)
Definition good_calls map_put map_get (hp : nat -> M) (calls : list (hcall (A := A))) : Prop :=
  Forall (fun c => h_usable c /\ h_field_ok (c_vec c) (c_field c) /\ h_map_ok map_put map_get (hp (hf_ref (c_field c)))) calls.

(** A whole session: a file is created by an object that holds no partitions, these calls are
    made on it, it is finished; the file is [root]. *)
Definition session ident map_put map_get (hp : nat -> M) (v : v3) (h0 : hfile (A := A)) (calls : list (hcall (A := A)))
    (outcomes : list outcome) (global : meta) (root : hnode (A := A)) : Prop :=
  h_parts h0 = [] /\ int_v3 v /\ 0 <= vx v /\ 0 <= vy v /\ good_calls map_put map_get hp calls /\
  exists h h', h_writes ident map_put hp (h_create (enc_v3 v) h0) calls = Ok (h, outcomes) /\
    h_finished h h' global /\ h_root h' = Some root.

(** The order in which the library visits links: any. *)
Definition any_order (ord : list bytes -> list bytes) : Prop := forall l, Permutation (ord l) l.

(** Any file, written by whatever program: in every group such attributes, no dangling links. *)
Definition plain_file (map_get : list (bytes * aval) -> res (option M)) (root : hnode (A := A)) : Prop :=
  forall path n, node_at root path = Some n ->
    four_bytes (n_attrs n) /\ (forall m x, In (m, x) (n_links n) -> x <> LBad) /\ map_get (n_attrs n) <> UB.
End S.
