(** Model of src/FieldMetadata.cpp and of the metadata part of src/Field3DFile.cpp.

    A value is given by its bytes in memory (for a string, its characters), so the five
    typed maps are maps from names to bytes. *)
From Coq Require Import ZArith List Bool String.
From Verif Require Import Model.Base Model.OgawaM Spec.OgawaSpec Model.OgM Model.FieldIOM Model.FileM.
Import ListNotations.
Open Scope Z_scope.

(** The five types of metadata and their types in a file (export/FieldMetadata.h:84-88). *)
Inductive mkind : Type := KStr | KInt | KFloat | KVecInt | KVecFloat.
Definition mtype (k : mkind) : ogtype :=
  match k with KStr => TString | KInt => TInt32 | KFloat => TFloat32 | KVecInt => TVecI32 | KVecFloat => TVec32 end.

(** [std::map<std::string, T>]: entries in increasing order of names. *)
Notation smap := (list (list Z * list Z)) (only parsing).
Fixpoint smap_set (m : smap) (n v : bytes) : smap :=
  match m with
  | [] => [(n, v)]
  | (k, x) :: r =>
      if bytes_ltb n k then (n, v) :: m
      else if bytes_eqb n k then (n, v) :: r
      else (k, x) :: smap_set r n v
  end.
Fixpoint smap_find (m : smap) (n : bytes) : option bytes :=
  match m with
  | [] => None
  | (k, x) :: r => if bytes_eqb k n then Some x else smap_find r n
  end.

Record meta : Type := Meta {
  m_str : smap; m_int : smap; m_float : smap; m_vecint : smap; m_vecfloat : smap }.
Definition meta_empty : meta := Meta [] [] [] [] [].
Definition meta_map (m : meta) (k : mkind) : smap :=
  match k with KStr => m_str m | KInt => m_int m | KFloat => m_float m | KVecInt => m_vecint m | KVecFloat => m_vecfloat m end.

(** src/FieldMetadata.cpp:58-111 [setStrMetadata] and its four siblings (the callback does
    nothing). *)
Definition meta_set (m : meta) (k : mkind) (n v : bytes) : meta :=
  match k with
  | KStr => Meta (smap_set (m_str m) n v) (m_int m) (m_float m) (m_vecint m) (m_vecfloat m)
  | KInt => Meta (m_str m) (smap_set (m_int m) n v) (m_float m) (m_vecint m) (m_vecfloat m)
  | KFloat => Meta (m_str m) (m_int m) (smap_set (m_float m) n v) (m_vecint m) (m_vecfloat m)
  | KVecInt => Meta (m_str m) (m_int m) (m_float m) (smap_set (m_vecint m) n v) (m_vecfloat m)
  | KVecFloat => Meta (m_str m) (m_int m) (m_float m) (m_vecint m) (smap_set (m_vecfloat m) n v)
  end.
(** src/FieldMetadata.cpp:115-195 [strMetadata(name, default)] and its four siblings. *)
Definition meta_get (m : meta) (k : mkind) (n dflt : bytes) : bytes :=
  match smap_find (meta_map m k) n with Some v => v | None => dflt end.
(** export/FieldMetadata.h:111-118 [operator =]. *)
Definition meta_assign (m other : meta) : meta :=
  Meta (m_str other) (m_int other) (m_float other) (m_vecint other) (m_vecfloat other).

(** src/Field3DFile.cpp:1045-1135 (of a field) and 1139-1229 (of a file) [writeMetadata]. *)
Definition write_meta (m : meta) : list tree :=
  map (fun e => node_attr (fst e) TString (snd e)) (m_str m) ++
  map (fun e => node_attr (fst e) TInt32 (snd e)) (m_int m) ++
  map (fun e => node_attr (fst e) TFloat32 (snd e)) (m_float m) ++
  map (fun e => node_attr (fst e) TVecI32 (snd e)) (m_vecint m) ++
  map (fun e => node_attr (fst e) TVec32 (snd e)) (m_vecfloat m).

(** src/Field3DFile.cpp:283-327 [readMeta]: one name, each type in turn. *)
Definition read_kind (t : tree) (n : bytes) (k : mkind) (m : meta) : res meta :=
  let* a := get_attr t n (mtype k) (zeros (type_size (mtype k))) in
  Ok (match a with Some v => meta_set m k n v | None => m end).
Definition read_name (t : tree) (n : bytes) (m : meta) : res meta :=
  let* m := read_kind t n KStr m in
  let* m := read_kind t n KInt m in
  let* m := read_kind t n KFloat m in
  let* m := read_kind t n KVecInt m in
  read_kind t n KVecFloat m.
Fixpoint read_names (t : tree) (ns : list bytes) (m : meta) : res meta :=
  match ns with
  | [] => Ok m
  | n :: r => let* m := read_name t n m in read_names t r m
  end.
Definition read_meta (t : tree) (m : meta) : res meta :=
  let* ns := group_names t G_ATTR in read_names t ns m.

(** src/Field3DFile.cpp:1574-1579: a layer's metadata, if it has any. *)
Definition read_layer_meta (layer : tree) : res meta :=
  let* g := find_valid layer (str "metadata") in
  match g with Some g => read_meta g meta_empty | None => Ok meta_empty end.
