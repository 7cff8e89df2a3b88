(** Model of the Ogawa side of src/Field3DFile.cpp: partitions and layers of an output file,
    and how an input file lists and opens them.

    A file is the tree of its root group (C16 relates trees and archives).  Field mappings
    are of an arbitrary type [M]; the output file keeps the *pointer* to a field's mapping
    ([part->mapping = field->mapping()]), so mappings live in a heap [hp : nat -> M] and
    fields and partitions refer to them by address.  [FieldRes] never holds a null mapping
    (export/Field.h:325-358), so a field's mapping address is not optional.

    Not modelled here: the HDF5 fallback (C65); group membership; files opened for reading while being
    written.  Global metadata is a group written after the layers. *)
From Coq Require Import ZArith List Bool String Ascii DecimalString.
From Verif Require Import Model.Base Model.OgawaM Spec.OgawaSpec Model.OgM Model.FieldIOM.
Import ListNotations.
Open Scope Z_scope.

(** * Names *)

(** [boost::lexical_cast<std::string>(i)] for i >= 0: decimal digits. *)
Definition int_name (i : nat) : bytes := str (NilEmpty.string_of_uint (Nat.to_uint i)).

(** src/Field3DFile.cpp:664-669 [makeIntPartitionName]; '.' is 46. *)
Definition int_partition (name : bytes) (i : nat) : bytes := name ++ [46] ++ int_name i.

(** src/Field3DFile.cpp:478-487 [removeUniqueId]: up to the last '.', if any. *)
Fixpoint before_last_dot (name : bytes) : option bytes :=
  match name with
  | [] => None
  | c :: r =>
      match before_last_dot r with
      | Some p => Some (c :: p)
      | None => if c =? 46 then Some [] else None
      end
  end.
Definition remove_id (name : bytes) : bytes :=
  match before_last_dot name with Some p => p | None => name end.

(** [std::string]'s [operator <]: lexicographic, characters compared as bytes. *)
Fixpoint bytes_ltb (a b : bytes) : bool :=
  match a, b with
  | _, [] => false
  | [], _ :: _ => true
  | x :: a', y :: b' => if x <? y then true else if y <? x then false else bytes_ltb a' b'
  end.

(** src/Field3DFile.cpp:106-115 [makeUnique]: sort, then drop repetitions. *)
Fixpoint insert_name (x : bytes) (l : list bytes) : list bytes :=
  match l with
  | [] => [x]
  | y :: r => if bytes_ltb y x then y :: insert_name x r else x :: l
  end.
Definition sort_names (l : list bytes) : list bytes := fold_right insert_name [] l.
Fixpoint drop_repeats (l : list bytes) : list bytes :=
  match l with
  | [] => []
  | x :: r =>
      match r with
      | [] => [x]
      | y :: _ => if bytes_eqb x y then drop_repeats r else x :: drop_repeats r
      end
  end.
Definition make_unique (l : list bytes) : list bytes := drop_repeats (sort_names l).

(** * Writing *)

Definition k_mapping : bytes := str "mapping".
Definition k_global : bytes := str "field3d_global_metadata".

(** export/Field3DFile.h:132-190 [File::Partition] of an output file, with what its group
    contains so far. *)
Record part : Type := Part {
  p_name : bytes; p_map : option nat; p_layers : list bytes; p_kids : list tree }.

(** [Field3DOutputFile]: [m_partitionCount] and [m_partitions]. *)
Record ofile : Type := OFile { o_count : list (bytes * nat); o_parts : list part }.
Definition o_new : ofile := OFile [] [].

Inductive outcome : Type := Accepted | Rejected | Threw.

(** [std::map] access. *)
Fixpoint count_of (c : list (bytes * nat)) (name : bytes) : option nat :=
  match c with
  | [] => None
  | (k, v) :: r => if bytes_eqb k name then Some v else count_of r name
  end.
Definition count_set (c : list (bytes * nat)) (name : bytes) (v : nat) : list (bytes * nat) := (name, v) :: c.

(** src/Field3DFile.cpp:451-474 [partition]. *)
Definition find_part (name : bytes) (l : list part) : option part :=
  find (fun p => bytes_eqb (p_name p) name) l.
(** A change made through the pointer [partition] returned. *)
Fixpoint upd_part (name : bytes) (g : part -> part) (l : list part) : list part :=
  match l with
  | [] => []
  | p :: r => if bytes_eqb (p_name p) name then g p :: r else p :: upd_part name g r
  end.

Section File.
Context {M : Type}.
(** [FieldMapping::isIdentical] with the default tolerance. *)
Variable ident : M -> M -> bool.
(** What [writeMapping] puts in the "mapping" group and whether it returned true
    (src/Field3DFile.cpp:1013-1041; C25 for the three classes of the library). *)
Variable map_kids : M -> list tree.
Variable map_ok : M -> bool.

(** src/Field3DFile.cpp:437-446 and 1301-1314: the next internal name. *)
Definition next_name (f : ofile) (name : bytes) : ofile * bytes :=
  let i := match count_of (o_count f) name with Some n => S n | None => O end in
  (OFile (count_set (o_count f) name i) (o_parts f), int_partition name i).

(** src/Field3DFile.cpp:427-435: an existing partition with this mapping.  The null mapping
    of a partition whose creation failed is dereferenced. *)
Fixpoint matching (hp : nat -> M) (r : nat) (name : bytes) (l : list part) : res (option bytes) :=
  match l with
  | [] => Ok None
  | p :: l' =>
      if bytes_eqb (remove_id (p_name p)) name
      then match p_map p with
           | None => UB
           | Some r' => if ident (hp r') (hp r) then Ok (Some (p_name p)) else matching hp r name l'
           end
      else matching hp r name l'
  end.

(** src/Field3DFile.cpp:421-447 [intPartitionName]. *)
Definition int_partition_name (hp : nat -> M) (f : ofile) (name : bytes) (r : nat) : res (ofile * bytes) :=
  let* m := matching hp r name (o_parts f) in
  match m with
  | Some n => Ok (f, n)
  | None => Ok (next_name f name)
  end.

(** src/Field3DFile.cpp:1354-1402 [createNewPartition].  [Rejected]: a null pointer. *)
Definition create_partition (hp : nat -> M) (f : ofile) (name : bytes) (r : nat) : ofile * outcome :=
  if has_slash name then (f, Threw)
  else
    let m := node_group k_mapping (map_kids (hp r)) in
    let f1 := OFile (o_count f) (o_parts f ++ [Part name None [] [m]]) in
    if negb (map_ok (hp r)) then (f1, Rejected)
    else (OFile (o_count f1)
            (upd_part name (fun p => Part (p_name p) (Some r) (p_layers p)
                (p_kids p ++ [node_attr (str "is_field3d_partition") TString (str "1")])) (o_parts f1)),
          Accepted).

(** src/Field3DFile.cpp:1461-1510: the part of [writeLayer] after the partition is known.
    [body] is what the layer's group is given (see [layer_body]). *)
Definition add_layer (hp : nat -> M) (f : ofile) (name layer : bytes) (r : nat) (body : list tree)
  : res (ofile * outcome) :=
  match find_part name (o_parts f) with
  | None => UB
  | Some p =>
      match p_map p with
      | None => Ok (f, Rejected)
      | Some r' =>
          if negb (ident (hp r) (hp r')) then Ok (f, Rejected)
          else if has_slash layer then Ok (f, Threw)
          else Ok (OFile (o_count f)
                 (upd_part name (fun p => Part (p_name p) (p_map p) (p_layers p ++ [layer])
                    (p_kids p ++ [node_group layer body])) (o_parts f)), Accepted)
      end
  end.

(** src/Field3DFile.cpp:1408-1459 [writeLayer]: the user's partition and layer names, the
    field's mapping and contents. *)
Definition write_layer (hp : nat -> M) (f : ofile) (user layer : bytes) (r : nat) (body : list tree)
  : res (ofile * outcome) :=
  let* (f1, name) := int_partition_name hp f user r in
  match find_part name (o_parts f1) with
  | None =>
      let (f2, oc) := create_partition hp f1 name r in
      match oc with Accepted => add_layer hp f2 name layer r body | _ => Ok (f2, oc) end
  | Some p =>
      if existsb (bytes_eqb layer) (p_layers p)
      then
        let (f2, name2) := next_name f1 (remove_id name) in
        let (f3, oc) := create_partition hp f2 name2 r in
        match oc with Accepted => add_layer hp f3 name2 layer r body | _ => Ok (f3, oc) end
      else add_layer hp f1 name layer r body
  end.

(** One call: names, mapping, contents. *)
Record wr : Type := Wr { w_user : bytes; w_layer : bytes; w_ref : nat; w_body : list tree }.

(** A history of calls on one file, with their outcomes; the heap does not change. *)
Fixpoint write_all (hp : nat -> M) (f : ofile) (l : list wr) : res (ofile * list outcome) :=
  match l with
  | [] => Ok (f, [])
  | w :: r =>
      let* (f1, oc) := write_layer hp f (w_user w) (w_layer w) (w_ref w) (w_body w) in
      let* (f2, ocs) := write_all hp f1 r in
      Ok (f2, oc :: ocs)
  end.

(** [close] and [create] on the same object (src/Field3DFile.cpp:977-1009,
    export/Field3DFile.h:796-816): [m_partitionCount] is kept. *)
Definition o_reopen (f : ofile) : ofile := OFile (o_count f) [].

End File.

(** What the archive of an output file holds; [version] is the file's version number,
    [globals] the global metadata group if written (src/Field3DFile.cpp:1001-1006,
    1233-1297). *)
Definition file_tree (version : bytes) (f : ofile) (globals : option (list tree)) : tree :=
  node_group (str "f3droot")
    (node_attr (str "version_number") TVecI32 version ::
     map (fun p => node_group (p_name p) (p_kids p)) (o_parts f) ++
     match globals with Some k => [node_group k_global k] | None => [] end).

(** src/Field3DFile.cpp:1486-1500 and 223-241: what [writeLayer] puts in a layer's group:
    tag, metadata, class name, then what the field's writer adds. *)
Definition layer_body (metadata : list tree) (class_name : bytes) (field : list tree) : list tree :=
  [node_attr (str "class_type") TString (str "field3d_layer");
   node_group (str "metadata") metadata;
   node_attr (str "class_name") TString class_name] ++ field.

(** * Reading *)

(** src/OgIGroup.cpp:64-76 [findGroup]: an invalid group as [None]. *)
Definition find_valid (t : tree) (name : bytes) : res (option tree) :=
  let* g := find_group t name G_GROUP in
  Ok (match g with Some g => if validate g then Some g else None | None => None end).

(** A partition of an input file; [ip_map] is the group handed to [readFieldMapping]. *)
Record ipart : Type := IPart { ip_name : bytes; ip_map : option tree; ip_layers : list bytes }.

Definition find_ipart (name : bytes) (l : list ipart) : option ipart :=
  find (fun p => bytes_eqb (ip_name p) name) l.
Fixpoint upd_ipart (name : bytes) (g : ipart -> ipart) (l : list ipart) : list ipart :=
  match l with
  | [] => []
  | p :: r => if bytes_eqb (ip_name p) name then g p :: r else p :: upd_ipart name g r
  end.

(** src/Field3DFile.cpp:878-904: the mapping groups. *)
Fixpoint info_maps (t : tree) (names : list bytes) : res (list ipart) :=
  match names with
  | [] => Ok []
  | n :: r =>
      let* pg := find_valid t n in
      let* mg := match pg with Some g => find_valid g k_mapping | None => Ok None end in
      let* rest := info_maps t r in
      Ok (IPart n mg [] :: rest)
  end.
(** src/Field3DFile.cpp:908-935: the layer names. *)
Fixpoint info_layers (t : tree) (names : list bytes) (l : list ipart) : res (list ipart) :=
  match names with
  | [] => Ok l
  | n :: r =>
      let* pg := find_valid t n in
      let* ls := match pg with Some g => group_names g G_GROUP | None => Ok [] end in
      let ls := filter (fun x => negb (bytes_eqb x k_mapping)) ls in
      info_layers t r (upd_ipart n (fun p => IPart (ip_name p) (ip_map p) (ip_layers p ++ ls)) l)
  end.
(** src/Field3DFile.cpp:857-938 [readPartitionAndLayerInfo]. *)
Definition read_info (t : tree) : res (list ipart) :=
  let* names := group_names t G_GROUP in
  let names := filter (fun x => negb (bytes_eqb x k_global)) names in
  let* l := info_maps t names in
  info_layers t names l.

(** A layer opened by [readLayer]: the name and attribute the field is given, the group its
    contents are read from and the group its mapping is read from. *)
Record ilayer : Type := ILayer { il_name : bytes; il_attr : bytes; il_group : tree; il_map : option tree }.

(** src/Field3DFile.cpp:1514-1602 [readLayer] (the field cache aside, C26). *)
Definition read_layer (t : tree) (l : list ipart) (part layer : bytes) : res (option ilayer) :=
  match find_ipart part l with
  | None => Ok None
  | Some p =>
      if negb (existsb (bytes_eqb layer) (ip_layers p)) then Ok None
      else
        let* pg := find_valid t part in
        match pg with
        | None => Ok None
        | Some g =>
            let* lg := find_valid g layer in
            match lg with
            | None => Ok None
            | Some lg => Ok (Some (ILayer (remove_id part) layer lg (ip_map p)))
            end
        end
  end.

(** The inner loops of [readLayers]: [keep] says which layer names are wanted. *)
Fixpoint read_named (t : tree) (l : list ipart) (part : bytes) (keep : bytes -> bool) (layers : list bytes)
  : res (list ilayer) :=
  match layers with
  | [] => Ok []
  | n :: r =>
      if keep n
      then
        let* x := read_layer t l part n in
        let* rest := read_named t l part keep r in
        Ok (match x with Some x => x :: rest | None => rest end)
      else read_named t l part keep r
  end.
Fixpoint read_parts (t : tree) (l : list ipart) (parts : list bytes) (want : bytes -> bool) (keep : bytes -> bool)
  : res (list ilayer) :=
  match parts with
  | [] => Ok []
  | n :: r =>
      let* a :=
        if want n
        then read_named t l n keep (match find_ipart n l with Some p => ip_layers p | None => [] end)
        else Ok [] in
      let* rest := read_parts t l r want keep in
      Ok (a ++ rest)
  end.

Definition is_nil {A} (l : list A) : bool := match l with [] => true | _ => false end.

(** src/Field3DFile.cpp:1606-1640 [readLayers(name)]. *)
Definition read_layers_all (t : tree) (name : bytes) : res (list ilayer) :=
  let* l := read_info t in
  read_parts t l (map ip_name l) (fun _ => true) (fun n => is_nil name || bytes_eqb n name).

(** src/Field3DFile.cpp:1644-1674 [readLayers(partitionName, layerName)]. *)
Definition read_layers (t : tree) (user layer : bytes) : res (list ilayer) :=
  let* l := read_info t in
  if is_nil layer || is_nil user then Ok []
  else read_parts t l (map ip_name l) (fun n => bytes_eqb (remove_id n) user) (fun n => bytes_eqb n layer).

(** src/Field3DFile.cpp:491-509 [getPartitionNames]. *)
Definition partition_names (t : tree) : res (list bytes) :=
  let* l := read_info t in
  Ok (make_unique (map (fun p => remove_id (ip_name p)) l)).

(** src/Field3DFile.cpp:643-660 [numIntPartitions]. *)
Definition num_int_partitions (l : list ipart) (user : bytes) : nat :=
  List.length (filter (fun p => match before_last_dot (ip_name p) with
                                | Some n => bytes_eqb n user | None => false end) l).

(** src/Field3DFile.cpp:513-534 [getScalarLayerNames] (and 538-559 [getVectorLayerNames],
    the same). *)
Definition layer_names_of (l : list ipart) (user : bytes) : list bytes :=
  make_unique (flat_map (fun i =>
    match find_ipart (int_partition user i) l with Some p => ip_layers p | None => [] end)
    (seq 0 (num_int_partitions l user))).
Definition layer_names_in (t : tree) (user : bytes) : res (list bytes) :=
  let* l := read_info t in Ok (layer_names_of l user).
