(** What a Field3D group in a file is: named entries in the order they were written. *)
From Coq Require Import ZArith List Bool.
From Verif Require Import Model.Base Model.OgawaM Spec.OgawaSpec Model.OgM.
Import ListNotations.
Open Scope Z_scope.

Inductive entry : Type :=
| EAttr (name : bytes) (ty : ogtype) (value : bytes)
| EGroup (name : bytes) (kids : list entry)
| EData (name : bytes) (ty : ogtype) (elems : list bytes)      (* OgODataset *)
| ECData (name : bytes) (ty : ogtype) (elems : list bytes).    (* OgOCDataset *)

Definition e_name (e : entry) : bytes :=
  match e with EAttr n _ _ | EGroup n _ | EData n _ _ | ECData n _ _ => n end.
Definition is_attr (e : entry) : bool := match e with EAttr _ _ _ => true | _ => false end.
Definition is_group (e : entry) : bool := match e with EGroup _ _ => true | _ => false end.
Definition is_data (e : entry) : bool := match e with EData _ _ _ => true | _ => false end.
Definition is_cdata (e : entry) : bool := match e with ECData _ _ _ => true | _ => false end.

(** What the writer puts in the archive for an entry. *)
Fixpoint written (e : entry) : tree :=
  match e with
  | EAttr n ty v => node_attr n ty v
  | EGroup n kids => node_group n (map written kids)
  | EData n ty el => node_dataset G_DATASET n ty el
  | ECData n ty el => node_dataset G_CDATASET n ty el
  end.

(** A usable name: not empty, no NUL character. *)
Definition good_name (n : bytes) : Prop := n <> [] /\ ~ In 0 n.
Definition plain_name (n : bytes) : Prop := good_name n /\ ~ In 47 n.

(** The first entry of a kind with a given name. *)
Definition lookup (kind : entry -> bool) (name : bytes) (l : list entry) : option entry :=
  find (fun e => kind e && bytes_eqb (e_name e) name) l.

(** A value of a type: the right number of bytes, or any string without NUL. *)
Definition value_ok (ty : ogtype) (v : bytes) : Prop :=
  match ty with TString => ~ In 0 v | _ => length v = type_size ty end.
