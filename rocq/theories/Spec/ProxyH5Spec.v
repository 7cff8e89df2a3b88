(** What the proxies of layers of HDF5 files must be. *)
From Coq Require Import ZArith Reals List Bool String.
From Verif Require Import Model.Base Model.FieldM Model.DenseM Model.SparseM Model.VecM Model.MacM Model.OgawaM Spec.OgawaSpec Model.OgM Spec.OgSpec
  Model.FieldIOM Spec.FieldIOSpec Model.FileM Model.MetaM Spec.MetaSpec Model.MipIOM Model.ProxyM
  Model.Hdf5M Model.Hdf5MacM Model.Hdf5FileM Spec.Hdf5FileSpec Model.MipH5M Model.ProxyH5M.
Import ListNotations.
Open Scope Z_scope.

(** What the four writers of fields store: the extents, the data window and the number of MIP
    levels (0: not a MIP field) of the field that was given to them. *)
Inductive h5_stores : forall A, hfield (A := A) -> box -> box -> nat -> Prop :=
| h5_dense A V ty comps (split : V -> list A) gzip d g (f : hfield (A := A)) :
    dense_h5_write ty comps split gzip d (HGroup [] []) = Ok (g, true) ->
    hf_attrs f = map h5_attr (hg_attrs g) -> hf_links f = map h5_set (hg_sets g) -> h5_stores A f (d_ext d) (d_dw d) 0
| h5_sparse A V of_flag ty comps (split : V -> list A) gzip s g (f : hfield (A := A)) :
    sparse_h5_write of_flag ty comps split gzip s (HGroup [] []) = Ok (g, true) ->
    hf_attrs f = map h5_attr (hg_attrs g) -> hf_links f = map h5_set (hg_sets g) -> h5_stores A f (s_ext s) (s_dw s) 0
| h5_mac ty gzip m g (f : hfield (A := R)) :
    mac_h5_write ty gzip m (HGroup [] []) = Ok (g, true) ->
    hf_attrs f = map h5_attr (hg_attrs g) -> hf_links f = map h5_set (hg_sets g) -> h5_stores R f (m_ext m) (m_dw m) 0
| h5_mip A F kind (wr : F -> res (hgroup A * bool)) ty dims m g (f : hfield (A := A)) :
    mip_h5_write kind wr ty dims m n_empty = Ok (g, true) ->
    hf_attrs f = n_attrs g -> hf_links f = n_links g -> h5_stores A f (mi_ext m) (mi_dw m) (mi_num m).

(** The proxy of a call: its names, as mapping what is read of one that the call's was found
    identical to, the sizes, the metadata, and the number of levels as one more entry. *)
Definition h_proxy_for {A V M} (ident : M -> M -> bool) (map_put : M -> res (list (bytes * aval) * bool)) (map_get : list (bytes * aval) -> res (option M))
    (hp : nat -> M) (p : hproxy V M) (c : hcall (A := A)) : Prop :=
  hx_name p = c_user c /\ hx_attr p = c_layer c /\
  (exists r l, ident (hp (hf_ref (c_field c))) (hp r) = true /\ map_put (hp r) = Ok (l, true) /\ map_get l = Ok (Some (hx_map p))) /\
  (forall k n dflt, (k, n) <> (KInt, str "mip_levels") -> meta_get (hx_meta p) k n dflt = meta_get (hf_meta (c_field c)) k n dflt) /\
  forall e dw levels, h5_stores A (c_field c) e dw levels -> int_corners e -> int_corners dw ->
    ef_ext (hx_field p) = e /\ ef_dw (hx_field p) = dw /\
    meta_get (hx_meta p) KInt (str "mip_levels") (enc32 0) = enc32 (Z.of_nat levels).

(** A call whose field was written by one of the four. *)
Definition sized {A} (c : hcall (A := A)) : Prop := exists e dw levels, h5_stores A (c_field c) e dw levels.

(** A proxy and a layer that agree, whatever the layer's group holds. *)
Definition h_agrees {A V M} (p : hproxy V M) (x : hlayer (A := A) (M := M)) : Prop :=
  hx_name p = y_name x /\ hx_attr p = y_attr x /\ hx_map p = y_map x /\
  (forall k n dflt, (k, n) <> (KInt, str "mip_levels") -> meta_get (hx_meta p) k n dflt = meta_get (y_meta x) k n dflt) /\
  (forall U convert ty comps split join (zero : U) f, dense_h5_read convert ty comps split join zero (view (y_group x)) = Ok (Some f) ->
     ef_ext (hx_field p) = d_ext f /\ ef_dw (hx_field p) = d_dw f) /\
  (forall U convert to_flag ty comps join (zero : U) limit f,
     sparse_h5_read convert to_flag ty comps join zero limit (view (y_group x)) = Some (Ok (Some f)) ->
     ef_ext (hx_field p) = s_ext f /\ ef_dw (hx_field p) = s_dw f) /\
  forall ty dims m, mip_h5_read ty dims (y_group x) = Ok (Some m) ->
    dec_i32 (meta_get (hx_meta p) KInt (str "mip_levels") (enc32 0)) = Z.of_nat (List.length (mp_levels m)).

(** Names in a file are C strings. *)
Definition proper_names {A} (root : hnode (A := A)) : Prop :=
  forall path n, node_at root path = Some n -> forall m, In m (map fst (n_attrs n) ++ map fst (n_links n)) -> Forall (fun z => 0 < z < 256) m.
