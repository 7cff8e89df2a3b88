(** What opening, reading and writing files of either kind with the same classes must do. *)
From Coq Require Import ZArith List Bool String Permutation.
From Verif Require Import Model.Base Model.OgawaM Spec.OgawaSpec Model.OgM Spec.OgSpec Model.FieldIOM Spec.FieldIOSpec Model.FileM Spec.FileSpec Model.MetaM Spec.MetaSpec
  Model.Hdf5M Model.Hdf5FileM Spec.Hdf5MetaSpec Spec.Hdf5FileSpec Model.ProxyM Model.ProxyH5M Model.FrontM.
Import ListNotations.
Open Scope Z_scope.

Section S.
Context {A M : Type}.
Notation fin := (fin (A := A) (M := M)).

(** A history of an input object in which it met no file but Ogawa archives. *)
Definition only_ogawa (hist : list (iop (A := A))) : Prop :=
  forall d, In (IOpen d) hist -> d = NoFile \/ exists t, d = OgawaFile t.

(** The object answers every question as the reader of Ogawa files does for the file [t]. *)
Definition answers_ogawa (o : fin) (t : tree) : Prop :=
  f_encoding o = "Ogawa"%string /\
  partition_names t = Ok (f_partition_names o) /\
  (forall vec P, layer_names_in t P = Ok (f_layer_names o vec P)) /\
  (forall vec P L, f_layers o vec P L = lift_layers OgLayer (read_layers t P L)) /\
  (forall vec L, f_layers_all o vec L = lift_layers OgLayer (read_layers_all t L)) /\
  (forall V vec P L, f_proxies o vec P L = let* l := read_proxy_layer vec t P L in Ok (map (@inl (proxy V) (hproxy V M)) l)).
(** And as the reader of HDF5 files does for the file that [h] has open. *)
Definition answers_hdf5 (o : fin) (h : ihfile (A := A) (M := M)) : Prop :=
  f_encoding o = "HDF5"%string /\
  f_partition_names o = i_partition_names h /\
  (forall vec P, f_layer_names o vec P = i_layer_names h vec P) /\
  (forall vec P L, f_layers o vec P L = lift_layers H5Layer (i_layers h vec P L)) /\
  (forall vec L, f_layers_all o vec L = lift_layers H5Layer (i_layers_all h vec L)) /\
  (forall V vec P L, f_proxies o vec P L = let* l := i_proxies h vec P L in Ok (map (@inr (proxy V) (hproxy V M)) l)).

(** * Writing and reading *)

(** A file from its creation to its end. *)
Definition script (ogawa : bool) (name : bytes) (keep : bool) (body : list (oop (A := A))) (globals : bool) : list (oop (A := A)) :=
  OCreate ogawa name keep :: body ++ (if globals then [OGlobals] else []) ++ [OClose].

(** The calls between the creation of a file and its end: layers, metadata and group memberships, in
    any order. *)
Definition body_op (x : oop (A := A)) : Prop := match x with OWrite _ | OMeta _ _ _ | OAddMembers _ => True | _ => False end.
Definition layer_calls (l : list (oop (A := A))) : list (fcall (A := A)) := flat_map (fun x => match x with OWrite c => [c] | _ => [] end) l.
Definition settings (l : list (oop (A := A))) : list mset := flat_map (fun x => match x with OMeta k n v => [MSet k n v] | _ => [] end) l.
(** The layers whose writing returned true. *)
Definition taken (l : list (oop (A := A))) (outcomes : list outcome) : list (fcall (A := A)) :=
  flat_map (fun x => match x with (OWrite c, Accepted) => [c] | _ => [] end) (combine l outcomes).

(** Names, fields and mappings that can be written to files of both kinds. *)
Definition fcall_ok (map_ok : M -> bool) map_put map_get (hp : nat -> M) (c : fcall (A := A)) : Prop :=
  ~ In 0 (fc_user c) /\ ~ In 47 (fc_user c) /\ ~ In 0 (fc_layer c) /\ ~ In 47 (fc_layer c) /\ layer_name_ok (fc_layer c) /\
  h_field_ok (fc_vec c) (fc_field c) /\
  h_map_ok map_put map_get (hp (hf_ref (fc_field c))) /\ map_ok (hp (hf_ref (fc_field c))) = true.
Definition settings_ok (l : list mset) : Prop := Forall storable_set l /\ one_type l.

(** A layer that is read is a call that was made. *)
Definition f_reads_as ident map_kids map_put map_get (hp : nat -> M) (x : flayer (A := A) (M := M)) (c : fcall (A := A)) : Prop :=
  match x with
  | OgLayer x => reads_as ident map_kids hp x (as_og c)
  | H5Layer x => h_reads_as ident map_put map_get hp x (as_h5 c)
  end.
(** The layers of a kind that a file can tell apart: Ogawa files hold scalar and vector layers
    together. *)
Definition kind_is (ogawa vec : bool) (c : fcall (A := A)) : bool := ogawa || Bool.eqb (fc_vec c) vec.

(** Everything that can be asked of a file that holds these layers and metadata. *)
Definition holds ident map_kids map_put map_get (hp : nat -> M) (ogawa : bool) (calls accepted : list (fcall (A := A))) (o : fin) : Prop :=
  f_encoding o = (if ogawa then "Ogawa" else "HDF5")%string /\
  increasing (f_partition_names o) /\
  (forall c, In c accepted -> In (fc_user c) (f_partition_names o)) /\
  (forall P, In P (f_partition_names o) -> exists c, In c calls /\ fc_user c = P) /\
  (forall vec P, increasing (f_layer_names o vec P) /\
     forall L, In L (f_layer_names o vec P) <-> exists c, In c accepted /\ kind_is ogawa vec c = true /\ fc_user c = P /\ fc_layer c = L) /\
  (forall vec P L, P <> [] -> L <> [] -> exists layers source, f_layers o vec P L = Ok layers /\
     Permutation source (filter (fun c => kind_is ogawa vec c && bytes_eqb (fc_user c) P && bytes_eqb (fc_layer c) L) accepted) /\
     Forall2 (f_reads_as ident map_kids map_put map_get hp) layers source) /\
  (forall vec L, exists layers source, f_layers_all o vec L = Ok layers /\
     Permutation source (filter (fun c => kind_is ogawa vec c && (is_nil L || bytes_eqb (fc_layer c) L)) accepted) /\
     Forall2 (f_reads_as ident map_kids map_put map_get hp) layers source).
End S.
