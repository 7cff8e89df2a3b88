(** What the proxies of layers must be. *)
From Coq Require Import ZArith List Bool String.
From Verif Require Import Model.Base Model.FieldM Model.DenseM Model.SparseM Model.OgawaM Spec.OgawaSpec Model.OgM Spec.OgSpec
  Model.FieldIOM Spec.FieldIOSpec Model.FileM Spec.FileSpec Model.MetaM Spec.MetaSpec Model.MipIOM Model.ProxyM.
Import ListNotations.
Open Scope Z_scope.

(** What the three writers of fields store: the extents, the data window and the number of MIP
    levels (0: not a MIP field) of the field that was given to them. *)
Inductive stores : list tree -> box -> box -> nat -> Prop :=
| stores_dense V ty (enc : V -> bytes) dims bits f layer :
    dense_layer ty enc dims bits f = Ok layer -> stores layer (d_ext f) (d_dw f) 0
| stores_sparse V ty (enc : V -> bytes) dims bits compress f out layer :
    sparse_layer ty enc dims bits compress f out = Ok layer -> stores layer (s_ext f) (s_dw f) 0
| stores_mip F kind (wr : nat -> F -> res (list tree)) ty dims bits m layer :
    mip_layer kind wr ty dims bits m = Ok layer -> stores layer (mi_ext m) (mi_dw m) (mi_num m).

(** A call that writes a field with these sizes and the metadata of a history of settings, each
    name with one type. *)
Definition writes (w : wr) (e dw : box) (levels : nat) (history : list mset) : Prop :=
  int_corners e /\ int_corners dw /\ Forall storable_set history /\
  (forall a b, In a history -> In b history -> ms_name a = ms_name b -> ms_kind a = ms_kind b) /\
  exists class_name layer, stores layer e dw levels /\
    w_body w = layer_body (write_meta (meta_run history)) class_name layer.

(** The proxy of a call: its names, a mapping identical to its own, the sizes, the metadata, and
    the number of levels as one more entry. *)
Definition proxy_for {V M} (ident : M -> M -> bool) (map_kids : M -> list tree) (hp : nat -> M) (p : proxy V) (w : wr) : Prop :=
  px_name p = w_user w /\ px_attr p = w_layer w /\
  (exists r, px_map p = Some (node_group (str "mapping") (map_kids (hp r))) /\ ident (hp (w_ref w)) (hp r) = true) /\
  forall e dw levels history, writes w e dw levels history ->
    ef_ext (px_field p) = e /\ ef_dw (px_field p) = dw /\
    meta_get (px_meta p) KInt (str "mip_levels") (enc32 0) = enc32 (Z.of_nat levels) /\
    forall k n dflt, (k, n) <> (KInt, str "mip_levels") ->
      meta_get (px_meta p) k n dflt = meta_get (meta_run history) k n dflt.

(** A proxy and a layer that agree, whatever the layer's group holds. *)
Definition proxy_agrees {V} (p : proxy V) (x : ilayer) : Prop :=
  px_name p = il_name x /\ px_attr p = il_attr x /\ px_map p = il_map x /\
  (forall m, read_layer_meta (il_group x) = Ok m -> forall k n dflt, (k, n) <> (KInt, str "mip_levels") ->
     meta_get (px_meta p) k n dflt = meta_get m k n dflt) /\
  (forall U ty enc dec (zero : U) f, dense_read ty enc dec zero (il_group x) = Ok (Some f) ->
     ef_ext (px_field p) = d_ext f /\ ef_dw (px_field p) = d_dw f) /\
  (forall U ty enc dec (zero : U) uncompress bound sched f,
     sparse_read ty enc dec zero uncompress bound (il_group x) sched = Ok (Some f) ->
     ef_ext (px_field p) = s_ext f /\ ef_dw (px_field p) = s_dw f).

(** The last value that was given to a field by one of the calls in a list. *)
Definition last_given {A V} (sel : A -> option V) (l : list A) : option V :=
  fold_left (fun acc a => match sel a with Some v => Some v | None => acc end) l None.
