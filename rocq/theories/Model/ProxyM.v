(** Model of proxies: src/Field3DFile.cpp [readProxyLayer], [readProxyScalarLayers],
    [readProxyVectorLayers] (Ogawa files) and export/EmptyField.h. *)
From Coq Require Import ZArith List Bool String.
From Verif Require Import Model.Base Model.FieldM Model.OgawaM Spec.OgawaSpec Model.OgM Model.FieldIOM Model.FileM Model.MetaM.
Import ListNotations.
Open Scope Z_scope.

(** * The field *)

(** export/EmptyField.h:162-167: [m_default], [m_ignoredData], [m_constantData]; the constructor
    (181-186) sets none of them.  [None]: not set. *)
Record empty_field (V : Type) : Type := EmptyField {
  ef_ext : box; ef_dw : box; ef_default : option V; ef_ignored : option V; ef_constant : option V }.
Arguments EmptyField {V}. Arguments ef_ext {V}. Arguments ef_dw {V}. Arguments ef_default {V}.
Arguments ef_ignored {V}. Arguments ef_constant {V}.
Section E.
Context {V : Type}.
Definition empty_init : empty_field V :=
  let b := Box (V3 0 0 0) (V3 (-1) (-1) (-1)) in EmptyField b b None None None.
(** export/Field.h:925-942 [setSize]. *)
Definition empty_set_size (e dw : box) (f : empty_field V) : empty_field V :=
  EmptyField e dw (ef_default f) (ef_ignored f) (ef_constant f).
(** export/EmptyField.h:190-194 [clear]. *)
Definition empty_clear (v : V) (f : empty_field V) : empty_field V :=
  EmptyField (ef_ext f) (ef_dw f) (Some v) (ef_ignored f) (Some v).
(** export/EmptyField.h:198-214 [value]; a member that was never set is [UB]. *)
Definition empty_value (f : empty_field V) (p : v3) : res V := match ef_default f with Some v => Ok v | None => UB end.
(** export/EmptyField.h:227-243, an assignment to what [lvalue] returned. *)
Definition empty_write (p : v3) (v : V) (f : empty_field V) : empty_field V :=
  EmptyField (ef_ext f) (ef_dw f) (ef_default f) (Some v) (ef_constant f).
(** export/EmptyField.h:247-259 [setConstantvalue], [constantvalue]. *)
Definition empty_set_constant (v : V) (f : empty_field V) : empty_field V :=
  EmptyField (ef_ext f) (ef_dw f) (ef_default f) (ef_ignored f) (Some v).
Definition empty_constant (f : empty_field V) : res V := match ef_constant f with Some v => Ok v | None => UB end.

Inductive eop : Type := ESize (e dw : box) | EClear (v : V) | EWrite (p : v3) (v : V) | ESetConstant (v : V).
Definition estep (f : empty_field V) (o : eop) : empty_field V :=
  match o with
  | ESize e dw => empty_set_size e dw f
  | EClear v => empty_clear v f
  | EWrite p v => empty_write p v f
  | ESetConstant v => empty_set_constant v f
  end.
Definition erun (l : list eop) : empty_field V := fold_left estep l empty_init.
End E.
Arguments eop : clear implicits.

(** * Reading *)

(** A proxy: its field, and the properties that it was given. *)
Record proxy (V : Type) : Type := Proxy {
  px_name : bytes; px_attr : bytes; px_field : empty_field V; px_meta : meta; px_map : option tree }.
Arguments Proxy {V}. Arguments px_name {V}. Arguments px_attr {V}. Arguments px_field {V}.
Arguments px_meta {V}. Arguments px_map {V}.

Section P.
Context {V : Type}.
(** src/Field3DFile.cpp:1678-1749 [readProxyLayer] of a group, and 1827-1837: the number of MIP
    levels, stored as metadata.  A [uint32_t] becomes an [int]: the same bytes. *)
Definition proxy_of (lg : tree) (name attr : bytes) (map : option tree) : res (proxy V) :=
  let* emin := need_attr lg (str "extents_min") TVecI32 in
  let* emax := need_attr lg (str "extents_max") TVecI32 in
  let* dmin := need_attr lg (str "data_window_min") TVecI32 in
  let* dmax := need_attr lg (str "data_window_max") TVecI32 in
  let f := empty_set_size (Box (dec_v3 emin) (dec_v3 emax)) (Box (dec_v3 dmin) (dec_v3 dmax)) empty_init in
  let* m := read_layer_meta lg in
  let* mg := find_valid lg (str "mip_levels") in
  let* n := match mg with
            | None => Ok (enc32 0)
            | Some mg =>
                let* a := get_attr mg (str "levels") TUint32 (zeros (type_size TUint32)) in
                Ok (match a with Some v => v | None => enc32 0 end)
            end in
  Ok (Proxy name attr f (meta_set m KInt (str "mip_levels") n) map).

(** src/Field3DFile.cpp:1787-1842: the layers of one partition.  [Ok None]: the list collected
    so far is thrown away and the empty one returned. *)
Fixpoint proxy_layers (t : tree) (l : list ipart) (part user layer : bytes) (names : list bytes)
  : res (option (list (proxy V))) :=
  match names with
  | [] => Ok (Some [])
  | n :: r =>
      if bytes_eqb n layer
      then
        match find_ipart part l with
        | None => Ok None
        | Some p =>
            if negb (existsb (bytes_eqb layer) (ip_layers p)) then Ok None
            else
              let* pg := find_valid t part in
              match pg with
              | None => Ok None
              | Some g =>
                  let* lg := find_valid g layer in
                  match lg with
                  | None => Ok None
                  | Some lg =>
                      let* x := proxy_of lg user layer (ip_map p) in
                      let* rest := proxy_layers t l part user layer r in
                      Ok (option_map (cons x) rest)
                  end
              end
        end
      else proxy_layers t l part user layer r
  end.
(** src/Field3DFile.cpp:576-612 [getIntScalarLayerNames], [getIntVectorLayerNames]: the same. *)
Definition int_layer_names (is_vector : bool) (l : list ipart) (part : bytes) : list bytes :=
  match find_ipart part l with Some p => ip_layers p | None => [] end.
(** src/Field3DFile.cpp:1774-1786: the partitions. *)
Fixpoint proxy_parts (is_vector : bool) (t : tree) (l : list ipart) (user layer : bytes) (parts : list bytes)
  : res (option (list (proxy V))) :=
  match parts with
  | [] => Ok (Some [])
  | n :: r =>
      if bytes_eqb (remove_id n) user
      then
        let* a := proxy_layers t l n user layer (int_layer_names is_vector l n) in
        match a with
        | None => Ok None
        | Some a =>
            let* rest := proxy_parts is_vector t l user layer r in
            Ok (option_map (app a) rest)
        end
      else proxy_parts is_vector t l user layer r
  end.
(** src/Field3DFile.cpp:1753-1852 [readProxyLayer]. *)
Definition read_proxy (is_vector : bool) (t : tree) (l : list ipart) (user layer : bytes) : res (list (proxy V)) :=
  if is_nil layer || is_nil user then Ok []
  else
    let* x := proxy_parts is_vector t l user layer (map ip_name l) in
    Ok (match x with Some x => x | None => [] end).
Definition read_proxy_layer (is_vector : bool) (t : tree) (user layer : bytes) : res (list (proxy V)) :=
  let* l := read_info t in read_proxy is_vector t l user layer.

Fixpoint flat_mmap {A B} (g : A -> res (list B)) (l : list A) : res (list B) :=
  match l with [] => Ok [] | a :: r => let* b := g a in let* t := flat_mmap g r in Ok (b ++ t) end.
(** src/Field3DFile.cpp:1856-1887 [readProxyScalarLayers], 1891-1922 [readProxyVectorLayers]. *)
Definition read_proxies_all (is_vector : bool) (t : tree) (name : bytes) : res (list (proxy V)) :=
  let* l := read_info t in
  let* parts := partition_names t in
  flat_mmap (fun p =>
    flat_mmap (fun n => if is_nil name || bytes_eqb n name then read_proxy is_vector t l p n else Ok [])
      (layer_names_of l p)) parts.
End P.
