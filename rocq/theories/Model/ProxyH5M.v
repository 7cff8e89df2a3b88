(** Model of proxies of HDF5 files: export/Field3DFileHDF5.h [readProxyLayer],
    [readProxyScalarLayers], [readProxyVectorLayers].  Files are those of C58 ([Hdf5FileM]), the
    fields without storage those of C57 ([ProxyM]). *)
From Coq Require Import ZArith List Bool String.
From Verif Require Import Model.Base Model.FieldM Model.OgawaM Spec.OgawaSpec Model.OgM Model.FieldIOM Model.FileM Model.MetaM Model.ProxyM
  Model.Hdf5M Model.Hdf5FileM Model.MipH5M.
Import ListNotations.
Open Scope Z_scope.

(** A proxy: its field, and the properties that it was given. *)
Record hproxy (V M : Type) : Type := HProxy {
  hx_name : bytes; hx_attr : bytes; hx_field : empty_field V; hx_meta : meta; hx_map : M }.
Arguments HProxy {V M}. Arguments hx_name {V M}. Arguments hx_attr {V M}. Arguments hx_field {V M}.
Arguments hx_meta {V M}. Arguments hx_map {V M}.

Section P.
Context {A M V : Type}.
Notation hnode := (hnode (A := A)).
Notation ihfile := (ihfile (A := A) (M := M)).

(** export/Field3DFileHDF5.h:1243-1283 [readProxyLayer] of a group that is open, and 1219-1224: the
    number of MIP levels, stored as metadata.  [readAttribute] throws where the code expects
    false. *)
Definition h_proxy_of (root : hnode) (at_ : list bytes) (name attr : bytes) (map : M) : res (hproxy V M) :=
  let l := attrs_at root at_ in
  let* e := get_six l (str "extents") new_box in
  let* d := get_six l (str "data_window") new_box in
  let f := empty_set_size (box_in e) (box_in d) empty_init in
  let* m := match g_open root (Some at_) (str "metadata") with
            | Some mp => get_meta (attrs_at root mp) meta_empty
            | None => Ok meta_empty
            end in
  let* n := match g_open root (Some at_) (str "mip_levels") with
            | Some mp => get_num (attrs_at root mp) (str "levels") false 4 [1%nat] (Some (enc32 0))
            | None => Ok (enc32 0)
            end in
  Ok (HProxy name attr f (meta_set m KInt (str "mip_levels") n) map).

(** 1187-1229: the layers of one partition.  [Ok None]: the list collected so far is thrown away
    and the empty one returned. *)
Fixpoint h_proxy_layers (f : ihfile) (vec : bool) (part user layer : bytes) (names : list bytes)
  : res (option (list (hproxy V M))) :=
  match names with
  | [] => Ok (Some [])
  | n :: r =>
      if bytes_eqb n layer
      then
        match find_r part (i_parts f), i_root f with
        | Some p, Some root =>
            if negb (existsb (bytes_eqb layer) (r_layers vec p)) then Ok None
            else
              match g_open root (Some []) (part ++ [47] ++ layer) with
              | None => Ok None
              | Some at_ =>
                  let* x := h_proxy_of root at_ user layer (r_map p) in
                  let* rest := h_proxy_layers f vec part user layer r in
                  Ok (option_map (cons x) rest)
              end
        | _, _ => Ok None
        end
      else h_proxy_layers f vec part user layer r
  end.
(** src/Field3DFileHDF5.cpp:451-482 [getIntScalarLayerNames], [getIntVectorLayerNames]. *)
Definition h_int_names (f : ihfile) (vec : bool) (part : bytes) : list bytes :=
  match find_r part (i_parts f) with Some p => r_layers vec p | None => [] end.
(** export/Field3DFileHDF5.h:1174-1186: the partitions. *)
Fixpoint h_proxy_parts (f : ihfile) (vec : bool) (user layer : bytes) (parts : list bytes)
  : res (option (list (hproxy V M))) :=
  match parts with
  | [] => Ok (Some [])
  | n :: r =>
      if bytes_eqb (remove_id n) user
      then
        let* a := h_proxy_layers f vec n user layer (h_int_names f vec n) in
        match a with
        | None => Ok None
        | Some a =>
            let* rest := h_proxy_parts f vec user layer r in
            Ok (option_map (app a) rest)
        end
      else h_proxy_parts f vec user layer r
  end.
(** 1155-1239 [readProxyLayer]. *)
Definition i_proxies (f : ihfile) (vec : bool) (user layer : bytes) : res (list (hproxy V M)) :=
  if is_nil layer || is_nil user then Ok []
  else
    let* x := h_proxy_parts f vec user layer (map r_name (i_parts f)) in
    Ok (match x with Some x => x | None => [] end).
(** 1287-1318 [readProxyScalarLayers], 1322-1353 [readProxyVectorLayers]. *)
Definition i_proxies_all (f : ihfile) (vec : bool) (name : bytes) : res (list (hproxy V M)) :=
  flat_mmap (fun p =>
    flat_mmap (fun n => if is_nil name || bytes_eqb n name then i_proxies f vec p n else Ok [])
      (i_layer_names f vec p)) (i_partition_names f).
End P.
