(** What metadata in HDF5 files must do. *)
From Coq Require Import ZArith List Bool String.
From Verif Require Import Model.Base Model.OgM Spec.OgSpec Model.FieldIOM Model.FileM Model.MetaM Spec.MetaSpec Model.Hdf5FileM.
Import ListNotations.
Open Scope Z_scope.

(** Names and values an attribute can hold: no NUL, a name that is not empty. *)
Definition holdable (s : mset) : Prop := good_name (ms_name s) /\ value_ok (mtype (ms_kind s)) (ms_value s).
(** Each name is used with one type. *)
Definition one_type (l : list mset) : Prop :=
  forall a b, In a l -> In b l -> ms_name a = ms_name b -> ms_kind a = ms_kind b.
(** Metadata that some history of settings like that leaves. *)
Definition storable_meta (m : meta) : Prop :=
  exists history, m = meta_run history /\ Forall holdable history /\ one_type history.
(** No question gets different answers. *)
Definition same_meta (a b : meta) : Prop := forall k n dflt, meta_get a k n dflt = meta_get b k n dflt.

(** Attributes of one or three numbers have the size that this library writes them with. *)
Definition four_bytes (l : list (bytes * aval)) : Prop :=
  forall n fl size k d, In (n, VNum fl size [k] d) l -> k = 1%nat \/ k = 3%nat -> size = 4%nat.
(** What an attribute is as metadata of a kind, if it is. *)
Definition attr_value (k : mkind) (v : aval) : option bytes :=
  match k, v with
  | KStr, VStr s => Some (cstr s)
  | KInt, VNum false _ [1%nat] d => Some d
  | KFloat, VNum true _ [1%nat] d => Some d
  | KVecInt, VNum false _ [3%nat] d => Some d
  | KVecFloat, VNum true _ [3%nat] d => Some d
  | _, _ => None
  end.
