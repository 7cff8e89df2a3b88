(** Model of src/Field3DFileHDF5.cpp and export/Field3DFileHDF5.h: partitions, layers and
    metadata of HDF5 files, how they are written, listed and opened.

    The HDF5 library is outside the model.  A file is the tree of its groups: each has
    attributes and links by name.  The calls fail as documented: names are C strings, a name
    is used once, the empty name is no name, a path is taken from the root if it starts with
    a '/', and empty components and "." are skipped.  Iteration visits the links in an order
    that is not specified ([ord]).

    A numeric attribute is its class, the size of its elements, its dimensions and its bytes
    in memory.  Strings of variable length and arrays of strings are not modelled.  [assert]
    is off.  The field cache aside (C26); locks aside. *)
From Coq Require Import ZArith List Bool String Ascii.
From Verif Require Import Model.Base Model.OgawaM Spec.OgawaSpec Model.OgM Model.FieldIOM Model.FileM Model.MetaM Model.Hdf5M.
Import ListNotations.
Open Scope Z_scope.

(** * Attributes *)

(** [VNum true]: class [H5T_FLOAT], [VNum false]: [H5T_INTEGER]. *)
Inductive aval : Type := VStr (s : bytes) | VNum (fl : bool) (size : nat) (dims : list nat) (data : bytes) | VOther.
Notation attrs := (list (list Z * aval)) (only parsing).

Fixpoint find_by {B} (n : bytes) (l : list (bytes * B)) : option B :=
  match l with [] => None | (m, x) :: r => if bytes_eqb m n then Some x else find_by n r end.

(** [H5Acreate] followed by [H5Awrite]; [None]: [writeAttribute] returned false. *)
Definition put_av (l : attrs) (name : bytes) (v : aval) : option attrs :=
  let n := cstr name in
  if is_nil n then None
  else match find_by n l with Some _ => None | None => Some (l ++ [(n, v)]) end.
(** src/Hdf5Util.cpp:384-433 [writeAttribute] of a string: [size()] characters, but one if it is
    empty. *)
Definition put_str (l : attrs) (name s : bytes) : option attrs :=
  put_av l name (VStr (match s with [] => [0] | _ => s end)).
(** src/Hdf5Util.cpp:437-721 [writeAttribute] of numbers. *)
Definition put_num (l : attrs) (name : bytes) (fl : bool) (size : nat) (dims : list nat) (data : bytes) : option attrs :=
  put_av l name (VNum fl size dims data).

(** src/Hdf5Util.cpp:77-115 [readAttribute] of a string. *)
Definition get_str (l : attrs) (name : bytes) : res bytes :=
  match find_by (cstr name) l with Some (VStr s) => Ok (cstr s) | _ => Exn end.
(** src/Hdf5Util.cpp:119-380 [readAttribute] of numbers.  [H5Aread] is given the type of the
    attribute in the file, not that of the variable, so what it writes has the size of the
    former: past the variable, if that is larger.  [cur]: what the variable holds; [None]: it
    is not initialised. *)
Definition get_num (l : attrs) (name : bytes) (fl : bool) (size : nat) (dims : list nat) (cur : option bytes) : res bytes :=
  match find_by (cstr name) l with
  | Some (VNum fl' size' dims' data) =>
      if negb (if list_eq_dec Nat.eq_dec dims' dims then true else false) then Exn
      else if negb (Bool.eqb fl' fl) then Exn
      else if Nat.eqb size' size then Ok data
      else match cur with
           | None => UB
           | Some c => if Nat.leb (List.length data) (List.length c) then Ok (data ++ skipn (List.length data) c) else UB
           end
  | _ => Exn
  end.

(** * Metadata *)

(** src/Field3DFileHDF5.cpp:1320-1397 (of a field) and 1401-1478 (of a file) [writeMetadata]: the
    attributes afterwards and what is returned. *)
Fixpoint put_each (put : attrs -> bytes -> bytes -> option attrs) (m : list (bytes * bytes)) (l : attrs) : attrs * bool :=
  match m with
  | [] => (l, true)
  | (n, v) :: r => match put l n v with Some l' => put_each put r l' | None => (l, false) end
  end.
Definition then_put (x : attrs * bool) (k : attrs -> attrs * bool) : attrs * bool :=
  if snd x then k (fst x) else x.
Definition put_meta (m : meta) (l : attrs) : attrs * bool :=
  then_put (put_each put_str (m_str m) l) (fun l =>
  then_put (put_each (fun l n v => put_num l n false 4 [1%nat] v) (m_int m) l) (fun l =>
  then_put (put_each (fun l n v => put_num l n true 4 [1%nat] v) (m_float m) l) (fun l =>
  then_put (put_each (fun l n v => put_num l n false 4 [3%nat] v) (m_vecint m) l) (fun l =>
  put_each (fun l n v => put_num l n true 4 [3%nat] v) (m_vecfloat m) l)))).

(** src/Field3DFileHDF5.cpp:835-941 (into a field) and 946-1051 (into a file) [readMetadata]: one
    attribute, then all of them. *)
Definition get_one (l : attrs) (n : bytes) (v : aval) (m : meta) : res meta :=
  match v with
  | VStr _ => let* s := get_str l n in Ok (meta_set m KStr n s)
  | VNum fl _ [k] _ =>
      if Nat.eqb k 1 then let* x := get_num l n fl 4 [k] None in Ok (meta_set m (if fl then KFloat else KInt) n x)
      else if Nat.eqb k 3 then let* x := get_num l n fl 4 [k] None in Ok (meta_set m (if fl then KVecFloat else KVecInt) n x)
      else Ok m
  | _ => Ok m
  end.
Fixpoint get_each (l todo : attrs) (m : meta) : res meta :=
  match todo with
  | [] => Ok m
  | (n, v) :: r => let* m := get_one l n v m in get_each l r m
  end.
Definition get_meta (l : attrs) (m : meta) : res meta := get_each l l m.

(** Names of the group with the group memberships and of its mark. *)
Definition k_members : bytes := str "field3d_group_membership".
Definition k_is_members : bytes := str "is_field3d_group_membership".

Section F.
Context {A M : Type}.

(** * Groups *)

(** [LBad]: a link that leads nowhere. *)
Inductive hnode : Type := HNode (n_attrs : attrs) (n_links : list (bytes * hlink))
with hlink : Type := LGroup (g : hnode) | LSet (s : hset A) | LBad.
Definition n_attrs (n : hnode) : attrs := match n with HNode a _ => a end.
Definition n_links (n : hnode) : list (bytes * hlink) := match n with HNode _ l => l end.
Definition n_empty : hnode := HNode [] [].

Definition sub_group (n : hnode) (c : bytes) : option hnode :=
  match find_by c (n_links n) with Some (LGroup g) => Some g | _ => None end.
Fixpoint node_at (n : hnode) (p : list bytes) : option hnode :=
  match p with
  | [] => Some n
  | c :: r => match sub_group n c with Some g => node_at g r | None => None end
  end.
Fixpoint upd_link (c : bytes) (f : hnode -> hnode) (l : list (bytes * hlink)) : list (bytes * hlink) :=
  match l with
  | [] => []
  | (m, x) :: r =>
      if bytes_eqb m c then (m, match x with LGroup g => LGroup (f g) | _ => x end) :: r
      else (m, x) :: upd_link c f r
  end.
Fixpoint upd_at (n : hnode) (p : list bytes) (f : hnode -> hnode) : hnode :=
  match p with
  | [] => f n
  | c :: r => HNode (n_attrs n) (upd_link c (fun g => upd_at g r f) (n_links n))
  end.

(** The components of a path that count; whether it starts at the root. *)
Definition comps (name : bytes) : list bytes :=
  filter (fun c => negb (is_nil c) && negb (bytes_eqb c [46])) (split_path [] (cstr name)).
Definition start (loc : list bytes) (name : bytes) : list bytes :=
  match cstr name with 47 :: _ => [] | _ => loc end.

(** A group that is open is where it is in the file; [None]: the handle is negative.
    [H5Gopen], [H5Gcreate]. *)
Definition g_open (root : hnode) (loc : option (list bytes)) (name : bytes) : option (list bytes) :=
  match loc with
  | None => None
  | Some loc =>
      if is_nil (cstr name) then None
      else
        let p := start loc name ++ comps name in
        match node_at root p with Some _ => Some p | None => None end
  end.
Definition g_create (root : hnode) (loc : option (list bytes)) (name : bytes) : option (hnode * list bytes) :=
  match loc with
  | None => None
  | Some loc =>
      match rev (comps name) with
      | [] => None
      | c :: r =>
          let p := start loc name ++ rev r in
          match node_at root p with
          | None => None
          | Some g =>
              match find_by c (n_links g) with
              | Some _ => None
              | None => Some (upd_at root p (fun g => HNode (n_attrs g) (n_links g ++ [(c, LGroup n_empty)])), p ++ [c])
              end
          end
      end
  end.
(** New attributes of an open group. *)
Definition set_attrs (root : hnode) (p : list bytes) (l : attrs) : hnode :=
  upd_at root p (fun g => HNode l (n_links g)).
Definition attrs_at (root : hnode) (p : list bytes) : attrs :=
  match node_at root p with Some g => n_attrs g | None => [] end.

(** * Writing *)

(** [FieldMapping::isIdentical] with the default tolerance. *)
Variable ident : M -> M -> bool.
(** 1645-1665 [writeFieldMapping]: the attributes of the mapping's group and what is returned
    (src/FieldMappingIO.cpp, C60). *)
Variable map_put : M -> res (attrs * bool).

(** export/Field3DFileHDF5.h:150-220 [FileHDF5::Partition] of an output file: its name, the
    pointer to its mapping and the names of its layers. *)
Record hpart : Type := HPart { q_name : bytes; q_map : option nat; q_scalar : list bytes; q_vector : list bytes }.
Definition q_layers (vec : bool) (p : hpart) : list bytes := if vec then q_vector p else q_scalar p.

(** [Field3DOutputFileHDF5]: [m_file], [m_partitionCount], [m_partitions]. *)
Record hfile : Type := HFile { h_root : option hnode; h_count : list (bytes * nat); h_parts : list hpart }.
Definition h_new : hfile := HFile None [] [].

(** 1239-1293 [create], when the library creates the file; [version] are the bytes of the three
    numbers. *)
Definition h_create (version : bytes) (h : hfile) : hfile :=
  HFile (Some (HNode [(str "version_number", VNum false 4 [3%nat] version)] [])) (h_count h) (h_parts h).

Definition find_q (name : bytes) (l : list hpart) : option hpart := find (fun p => bytes_eqb (q_name p) name) l.
Fixpoint upd_q (name : bytes) (g : hpart -> hpart) (l : list hpart) : list hpart :=
  match l with
  | [] => []
  | p :: r => if bytes_eqb (q_name p) name then g p :: r else p :: upd_q name g r
  end.

(** A field handed to the writer: its mapping, metadata and class, and what the writer of its
    class adds to the layer's group (C56: none of it is called "class_type", "class_name" or
    "metadata") and how that ends. *)
Record hfield : Type := HField {
  hf_ref : nat; hf_meta : meta; hf_class : bytes;
  hf_attrs : attrs; hf_links : list (bytes * hlink); hf_out : outcome }.

(** src/Field3DFileHDF5.cpp:315-341 [intPartitionName] and 1545-1558 [incrementPartitionName]: the next
    internal name. *)
Definition h_next (h : hfile) (name : bytes) : hfile * bytes :=
  let i := match count_of (h_count h) name with Some n => S n | None => O end in
  (HFile (h_root h) (count_set (h_count h) name i) (h_parts h), int_partition name i).

(** 320-328: an existing partition with this mapping. *)
Fixpoint h_matching (hp : nat -> M) (r : nat) (name : bytes) (l : list hpart) : res (option bytes) :=
  match l with
  | [] => Ok None
  | p :: l' =>
      if bytes_eqb (remove_id (q_name p)) name
      then match q_map p with
           | None => UB                                         (* a null pointer *)
           | Some r' => if ident (hp r') (hp r) then Ok (Some (q_name p)) else h_matching hp r name l'
           end
      else h_matching hp r name l'
  end.

(** export/Field3DFileHDF5.h:1379-1441 [createNewPartition] and src/Field3DFileHDF5.cpp:1297-1316
    [writeMapping]; [false]: a null pointer. *)
Definition h_partition (hp : nat -> M) (h : hfile) (root : hnode) (name : bytes) (r : nat) : res (hfile * bool) :=
  match g_create root (Some []) name with
  | None => Ok (h, false)
  | Some (root, p) =>
      let ps := h_parts h ++ [HPart name None [] []] in
      let out root ps := HFile (Some root) (h_count h) ps in
      match g_create root (Some p) k_mapping with
      | None => Ok (out root ps, false)
      | Some (root, mp) =>
          let* (l, ok) := map_put (hp r) in
          let root := set_attrs root mp l in
          if negb (ok : bool) then Ok (out root ps, false)
          else
            let ps := upd_q name (fun q => HPart (q_name q) (Some r) (q_scalar q) (q_vector q)) ps in
            match put_str (attrs_at root p) (str "is_field3d_partition") (str "1") with
            | None => Ok (out root ps, false)
            | Some l => Ok (out (set_attrs root p l) ps, true)
            end
      end
  end.

(** export/Field3DFileHDF5.h:1510-1573: the part of [writeLayer] after the partition is known;
    src/Field3DFileHDF5.cpp:1589-1609 [writeField]. *)
Definition h_layer (hp : nat -> M) (h : hfile) (root : hnode) (name : bytes) (vec : bool) (layer : bytes) (f : hfield)
  : res (hfile * outcome) :=
  let out root := HFile (Some root) (h_count h) (h_parts h) in
  match find_q name (h_parts h) with
  | None => UB
  | Some q =>
      match q_map q with
      | None => Ok (h, Rejected)
      | Some r =>
          if negb (ident (hp (hf_ref f)) (hp r)) then Ok (h, Rejected)
          else
            match g_create root (g_open root (Some []) name) layer with
            | None => Ok (h, Rejected)
            | Some (root, p) =>
                match put_str [] (str "class_type") (str "field3d_layer") with
                | None => Ok (out root, Rejected)
                | Some l =>
                    let root := set_attrs root p l in
                    match g_create root (Some p) (str "metadata") with
                    | None => Ok (out root, Rejected)
                    | Some (root, mp) =>
                        let (ml, ok) := put_meta (hf_meta f) [] in
                        let root := set_attrs root mp ml in
                        if negb ok then Ok (out root, Rejected)
                        else
                          match put_str (attrs_at root p) (str "class_name") (hf_class f) with
                          | None => Ok (out root, Rejected)
                          | Some l =>
                              let root := upd_at root p (fun g => HNode (l ++ hf_attrs f) (n_links g ++ hf_links f)) in
                              match hf_out f with
                              | Accepted =>
                                  Ok (HFile (Some root) (h_count h)
                                        (upd_q name (fun q =>
                                           if vec then HPart (q_name q) (q_map q) (q_scalar q) (q_vector q ++ [layer])
                                           else HPart (q_name q) (q_map q) (q_scalar q ++ [layer]) (q_vector q)) (h_parts h)),
                                      Accepted)
                              | o => Ok (out root, o)
                              end
                          end
                    end
                end
            end
      end
  end.

Definition with_root {B} (h : hfile) (none : B) (k : hnode -> B) : B := match h_root h with Some r => k r | None => none end.

(** export/Field3DFileHDF5.h:1445-1508 [writeLayer]. *)
Definition h_write (hp : nat -> M) (h : hfile) (vec : bool) (user layer : bytes) (f : hfield) : res (hfile * outcome) :=
  match h_root h with
  | None => Ok (h, Rejected)
  | Some _ =>
      let* m := h_matching hp (hf_ref f) user (h_parts h) in
      let (h, name) := match m with Some n => (h, n) | None => h_next h user end in
      let fresh h name :=
        let* (h, ok) := with_root h UB (fun root => h_partition hp h root name (hf_ref f)) in
        if ok : bool then with_root h UB (fun root => h_layer hp h root name vec layer f) else Ok (h, Rejected) in
      match find_q name (h_parts h) with
      | None => fresh h name
      | Some q =>
          if existsb (bytes_eqb layer) (q_layers vec q)
          then let (h, name) := h_next h (remove_id name) in fresh h name
          else with_root h UB (fun root => h_layer hp h root name vec layer f)
      end
  end.

(** One call, and a history of calls; the heap does not change. *)
Record hcall : Type := HCall { c_vec : bool; c_user : bytes; c_layer : bytes; c_field : hfield }.
Fixpoint h_writes (hp : nat -> M) (h : hfile) (l : list hcall) : res (hfile * list outcome) :=
  match l with
  | [] => Ok (h, [])
  | c :: r =>
      let* (h, o) := h_write hp h (c_vec c) (c_user c) (c_layer c) (c_field c) in
      let* (h, os) := h_writes hp h r in
      Ok (h, o :: os)
  end.

(** src/Field3DFileHDF5.cpp:1482-1499 [writeGlobalMetadata]. *)
Definition h_globals (h : hfile) (m : meta) : hfile * bool :=
  match h_root h with
  | None => (h, false)
  | Some root =>
      match g_create root (Some []) k_global with
      | None => (h, false)
      | Some (root, p) =>
          let (l, ok) := put_meta m [] in
          (HFile (Some (set_attrs root p l)) (h_count h) (h_parts h), ok)
      end
  end.

(** 1503-1541 [writeGroupMembership] of [m_groupMembership], the entries of a map. *)
Definition h_members (h : hfile) (m : list (bytes * bytes)) : hfile * bool :=
  match m with
  | [] => (h, true)
  | _ =>
      match h_root h with
      | None => (h, false)
      | Some root =>
          match g_create root (Some []) k_members with
          | None => (h, false)
          | Some (root, p) =>
              let (l, ok) := then_put (put_each put_str [(k_is_members, str "1")] []) (put_each put_str m) in
              (HFile (Some (set_attrs root p l)) (h_count h) (h_parts h), ok)
          end
      end
  end.

(** * Reading *)

(** The order in which [H5Literate] visits links. *)
Variable ord : list bytes -> list bytes.
(** 1613-1641 [readFieldMapping] of the attributes of the mapping's group; [Ok None]: a null
    pointer. *)
Variable map_get : attrs -> res (option M).

(** [Field3DInputFileHDF5]: [m_file], [m_partitionNames], [m_partitions], [m_metadata]. *)
Record ihpart : Type := IHPart { r_name : bytes; r_map : M; r_scalar : list bytes; r_vector : list bytes }.
Definition r_layers (vec : bool) (p : ihpart) : list bytes := if vec then r_vector p else r_scalar p.
Record ihfile : Type := IHFile { i_root : option hnode; i_names : list bytes; i_parts : list ihpart; i_meta : meta }.
Definition i_new : ihfile := IHFile None [] [] meta_empty.
Definition find_r (name : bytes) (l : list ihpart) : option ihpart := find (fun p => bytes_eqb (r_name p) name) l.
Fixpoint upd_r (name : bytes) (g : ihpart -> ihpart) (l : list ihpart) : list ihpart :=
  match l with
  | [] => []
  | p :: r => if bytes_eqb (r_name p) name then g p :: r else p :: upd_r name g r
  end.

(** 162-195 [isSupportedFileVersion]; the version of the library is export/ns.h:38-39. *)
Definition supported (v0 v1 : Z) : bool :=
  if (1 <? v0) || ((v0 =? 1) && (7 <? v1)) then true
  else negb ((v0 <? 0) || ((v0 =? 0) && (v1 <? 0))).
(** 611-627. *)
Definition version_ok (root : hnode) : res bool :=
  match get_num (n_attrs root) (str "version_number") false 4 [3%nat] None with
  | Ok d => Ok (supported (dec_i32 (firstn 4 d)) (dec_i32 (firstn 4 (skipn 4 d))))
  | Exn => Ok true
  | UB => UB
  end.

(** 1130-1166 [parsePartitions], called for each link until it returns -1, and 800-807
    [parsePartition]. *)
Definition reserved (n : bytes) : bool := bytes_eqb n k_members || bytes_eqb n k_global.
Fixpoint list_partitions (root : hnode) (l : list bytes) : list bytes :=
  match l with
  | [] => []
  | n :: r =>
      match find_by n (n_links root) with
      | Some (LGroup _) => if reserved n then list_partitions root r else n :: list_partitions root r
      | Some LBad => []
      | _ => list_partitions root r
      end
  end.
(** 727-754: the mappings.  [Ok None]: [open] will return false. *)
Fixpoint list_mappings (root : hnode) (names : list bytes) : res (option (list ihpart)) :=
  match names with
  | [] => Ok (Some [])
  | n :: r =>
      match g_open root (Some []) ([47] ++ n ++ [47] ++ k_mapping) with
      | None => Ok None
      | Some p =>
          match map_get (attrs_at root p) with
          | UB => UB
          | Exn | Ok None => Ok None
          | Ok (Some m) =>
              let* rest := list_mappings root r in
              Ok (match rest with Some l => Some (IHPart n m [] [] :: l) | None => None end)
          end
      end
  end.
(** 1170-1213 [parseLayers] and 814-830 [parseLayer]: whether a link is a layer, with its number of
    components.  The exceptions are caught, or thrown through the library. *)
Definition layer_comps (x : hlink) : res (option Z) :=
  match x with
  | LBad => UB                                           (* infobuf is not initialised *)
  | LSet _ => Ok None
  | LGroup g =>
      match get_str (n_attrs g) (str "class_type") with
      | Ok s =>
          if bytes_eqb s (str "field3d_layer")
          then match get_num (n_attrs g) (str "components") false 4 [1%nat] None with
               | Ok d => Ok (Some (dec_i32 d))
               | Exn => Ok None
               | UB => UB
               end
          else Ok None
      | _ => Ok None
      end
  end.
Fixpoint list_layers (g : hnode) (l : list bytes) : res (list (bytes * Z)) :=
  match l with
  | [] => Ok []
  | n :: r =>
      match find_by n (n_links g) with
      | None => list_layers g r
      | Some x =>
          let* c := layer_comps x in
          let* rest := list_layers g r in
          Ok (match c with Some c => (n, c) :: rest | None => rest end)
      end
  end.
Definition with_comps (c : Z) (l : list (bytes * Z)) : list bytes := map fst (filter (fun x => snd x =? c) l).
(** 756-793. *)
Fixpoint add_layers (root : hnode) (names : list bytes) (l : list ihpart) : res (list ihpart) :=
  match names with
  | [] => Ok l
  | n :: r =>
      let* ls := match g_open root (Some []) n with
                 | Some p => match node_at root p with
                             | Some g => list_layers g (ord (map fst (n_links g)))
                             | None => Ok []
                             end
                 | None => Ok []
                 end in
      add_layers root r (upd_r n (fun p => IHPart (r_name p) (r_map p) (r_scalar p ++ with_comps 1 ls) (r_vector p ++ with_comps 3 ls)) l)
  end.

(** 586-702 [open] and 706-796 [readPartitionAndLayerInfo], on a file that the library opens. *)
Definition i_open (root : hnode) (f : ihfile) : res (ihfile * bool) :=
  let* v := version_ok root in
  if negb (v : bool) then Ok (IHFile None (i_names f) [] (i_meta f), false)
  else
    let* m := match find_by k_global (n_links root) with
              | Some (LGroup g) => get_meta (n_attrs g) (i_meta f)
              | _ => Ok (i_meta f)
              end in
    let names := i_names f ++ list_partitions root (ord (map fst (n_links root))) in
    let* l := list_mappings root names in
    match l with
    | None => Ok (IHFile None names [] m, false)
    | Some l => let* l := add_layers root names l in Ok (IHFile (Some root) names l m, true)
    end.

(** A layer opened by [readLayer]: the name, attribute, metadata and mapping the field is given;
    the class and the group that its contents are read from. *)
Record hlayer : Type := HLayer { y_name : bytes; y_attr : bytes; y_class : bytes; y_group : hnode; y_map : M; y_meta : meta }.

(** export/Field3DFileHDF5.h:1050-1151 [readLayer] and 1642-1673 [readField] up to the reader of the
    class. *)
Definition i_layer (f : ihfile) (vec : bool) (part layer : bytes) : res (option hlayer) :=
  match find_r part (i_parts f), i_root f with
  | Some p, Some root =>
      if negb (existsb (bytes_eqb layer) (r_layers vec p)) then Ok None
      else
        let path := part ++ [47] ++ layer in
        match g_open root (Some []) path with
        | None => Ok None
        | Some at_ =>
            match node_at root at_ with
            | None => Ok None
            | Some g =>
                let* cls := get_str (n_attrs g) (str "class_name") in
                let* m := match g_open root (Some []) (path ++ [47] ++ str "metadata") with
                          | Some mp => get_meta (attrs_at root mp) meta_empty
                          | None => Ok meta_empty
                          end in
                Ok (Some (HLayer (remove_id part) layer cls g (r_map p) m))
            end
        end
  | _, _ => Ok None
  end.

(** export/Field3DFileHDF5.h:908-1046 [readScalarLayers], [readVectorLayers]: the loops. *)
Fixpoint i_named (f : ihfile) (vec : bool) (part : bytes) (keep : bytes -> bool) (layers : list bytes) : res (list hlayer) :=
  match layers with
  | [] => Ok []
  | n :: r =>
      if keep n
      then
        let* x := i_layer f vec part n in
        let* rest := i_named f vec part keep r in
        Ok (match x with Some x => x :: rest | None => rest end)
      else i_named f vec part keep r
  end.
Fixpoint i_each (f : ihfile) (vec : bool) (parts : list bytes) (want keep : bytes -> bool) : res (list hlayer) :=
  match parts with
  | [] => Ok []
  | n :: r =>
      let* a :=
        if want n
        then i_named f vec n keep (match find_r n (i_parts f) with Some p => r_layers vec p | None => [] end)
        else Ok [] in
      let* rest := i_each f vec r want keep in
      Ok (a ++ rest)
  end.
(** 908-933 and 979-1003: by layer name, or all with the empty name. *)
Definition i_layers_all (f : ihfile) (vec : bool) (name : bytes) : res (list hlayer) :=
  i_each f vec (map r_name (i_parts f)) (fun _ => true) (fun n => is_nil name || bytes_eqb n name).
(** 940-972 and 1011-1043: by partition and layer. *)
Definition i_layers (f : ihfile) (vec : bool) (user layer : bytes) : res (list hlayer) :=
  if is_nil layer || is_nil user then Ok []
  else i_each f vec (map r_name (i_parts f)) (fun n => bytes_eqb (remove_id n) user) (fun n => bytes_eqb n layer).

(** src/Field3DFileHDF5.cpp:385-398 [getPartitionNames]. *)
Definition i_partition_names (f : ihfile) : list bytes := make_unique (map (fun p => remove_id (r_name p)) (i_parts f)).
(** 520-537 [numIntPartitions]. *)
Definition i_num (f : ihfile) (user : bytes) : nat :=
  List.length (filter (fun p => match before_last_dot (r_name p) with Some n => bytes_eqb n user | None => false end) (i_parts f)).
(** 402-434 [getScalarLayerNames], [getVectorLayerNames]. *)
Definition i_layer_names (f : ihfile) (vec : bool) (user : bytes) : list bytes :=
  make_unique (flat_map (fun i =>
    match find_r (int_partition user i) (i_parts f) with Some p => r_layers vec p | None => [] end)
    (seq 0 (i_num f user))).

End F.

(** * Fields *)

(** The groups of C56 hold integers by name; this is how those are the attributes and links of
    this file.  Arrays of [int] are stored with [H5T_NATIVE_INT] (src/Hdf5Util.cpp:437-477, 567-616). *)
Definition unstr (l : bytes) : string := string_of_list_ascii (map (fun z => ascii_of_nat (Z.to_nat z)) l).
Definition h5_attr (e : string * hattr) : bytes * aval :=
  (str (fst e), match snd e with AInts l => VNum false 4 [List.length l] (flat_map enc32 l) | AOther => VOther end).
Definition h5_set {A} (e : string * hset A) : bytes * hlink (A := A) := (str (fst e), LSet (snd e)).
Fixpoint ints (k : nat) (d : bytes) : list Z :=
  match k with O => [] | S k' => dec_i32 (firstn 4 d) :: ints k' (skipn 4 d) end.
Definition view_attr (v : aval) : hattr := match v with VNum false 4 [k] d => AInts (ints k d) | _ => AOther end.
Definition view {A} (n : hnode (A := A)) : hgroup A :=
  HGroup (map (fun e => (unstr (fst e), view_attr (snd e))) (n_attrs n))
         (flat_map (fun e => match snd e with LSet s => [(unstr (fst e), s)] | _ => [] end) (n_links n)).
