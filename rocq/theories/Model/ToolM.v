(** Model of the command line tools f3dmerge (apps/f3dmerge/main.cpp) and f3dmakemip (apps/f3dmakemip/main.cpp), with
    Ogawa files as inputs and output.

    Both read the fields of the input files, layer by layer, and write the fields they make of each to one output file.
    Simplified: all is read first and written afterwards (the inputs do not change in between unless the output is one of
    them, and then it is cut before the first is read); option parsing and messages are left out; HDF5 is not modelled
    here. *)
From Coq Require Import ZArith List Bool String.
From Verif Require Import Model.Base Model.OgawaM Spec.OgawaSpec Model.OgM Model.FieldIOM Model.FileM.
Import ListNotations.

(** A field in memory, as far as [writeLayer] looks: names, mapping, and what its writer puts into a layer's group. *)
Record ofield (M : Type) : Type := OField { of_name : bytes; of_attr : bytes; of_map : M; of_body : list tree }.
Arguments OField {M}. Arguments of_name {M}. Arguments of_attr {M}. Arguments of_map {M}. Arguments of_body {M}.

(** A file on disk: an archive that was finished, or one that was begun and not finished, which does not open (C17). *)
Inductive disk : Type := Whole (t : tree) | Cut.
Definition files : Type := bytes -> option disk.
Definition put (fs : files) (name : bytes) (d : disk) : files := fun n => if bytes_eqb n name then Some d else fs n.

Section Tool.
Context {M : Type} (ident : M -> M -> bool) (map_kids : M -> list tree) (map_ok : M -> bool).
(** [readFieldMapping] of a mapping group; the value type (half, float, double, then the vectors of them) that a
    layer reads as, if any. *)
Context (read_map : option tree -> M) (kind : tree -> option nat).
(** [match(partition, options.names)], [match(layer, options.attributes)] (C42). *)
Context (want_part want_layer : bytes -> bool).
(** What the tool makes of the field of a layer: attribute, and what is written.  [crashes]: f3dmakemip on a field whose
    extents are not its data window, for which [makeMIP] (export/MIPUtil.h:494-496) gives a null pointer that
    [writeField] (224-236) follows. *)
Context (outs : bytes -> tree -> list (bytes * list tree)) (crashes : tree -> bool).
Context (version : bytes).

(** apps/f3dmerge/main.cpp:245-249 and so on; f3dmakemip 385-389: the layers of one type. *)
Definition has_kind (k : nat) (x : ilayer) : bool := match kind (il_group x) with Some i => Nat.eqb i k | None => false end.
Definition fields_of (x : ilayer) : list (ofield M) :=
  map (fun o => OField (il_name x) (fst o) (read_map (il_map x)) (snd o)) (outs (il_attr x) (il_group x)).
Definition visit_kind (t : tree) (part layer : bytes) (k : nat) : res (list (ofield M)) :=
  let* l := read_layers t part layer in
  let l := filter (has_kind k) l in
  if existsb (fun x => crashes (il_group x)) l then UB else Ok (flat_map fields_of l).
Fixpoint visit_all {A B} (f : A -> res (list B)) (l : list A) : res (list B) :=
  match l with [] => Ok [] | a :: r => let* x := f a in let* y := visit_all f r in Ok (x ++ y) end.
(** f3dmerge 239-264, 266-290: the layers whose name is wanted; the names of scalar and of vector layers are the same
    (src/Field3DFile.cpp:513-559). *)
Definition visit_layers (t : tree) (part : bytes) (kinds : list nat) (layers : list bytes) : res (list (ofield M)) :=
  visit_all (fun layer => if want_layer layer then visit_all (visit_kind t part layer) kinds else Ok []) layers.
(** f3dmerge 229-291; f3dmakemip 360-430. *)
Definition visit_part (t : tree) (part : bytes) : res (list (ofield M)) :=
  if want_part part then
    let* layers := layer_names_in t part in
    let* a := visit_layers t part [0; 1; 2]%nat layers in
    let* b := visit_layers t part [3; 4; 5]%nat layers in
    Ok (a ++ b)
  else Ok [].
Definition visit_file (t : tree) : res (list (ofield M)) :=
  let* parts := partition_names t in visit_all (visit_part t) parts.
(** f3dmerge 122-124, 213-217: [None] is [exit(1)]. *)
Fixpoint visit_files (fs : files) (inputs : list bytes) : res (option (list (ofield M))) :=
  match inputs with
  | [] => Ok (Some [])
  | n :: r =>
      match fs n with
      | Some (Whole t) =>
          let* a := visit_file t in
          let* b := visit_files fs r in
          Ok match b with Some b => Some (a ++ b) | None => None end
      | _ => Ok None
      end
  end.

(** The calls of [writeScalarLayer] and [writeVectorLayer] (export/Field3DFile.h:739-781: partition and layer are the
    field's name and attribute).  The mapping of the [n]-th field written has address [n]. *)
Definition calls_of (l : list (ofield M)) : list wr :=
  map (fun p => Wr (of_name (snd p)) (of_attr (snd p)) (fst p) (of_body (snd p))) (combine (seq 0 (List.length l)) l).
Definition heap_of (l : list (ofield M)) : nat -> M := fun n => nth n (map of_map l) (read_map None).

(** f3dmerge 83-126 [main]: the exit status and the files afterwards.  [exit] does not close the output file, and
    neither does an exception that is not caught. *)
Definition tool (creatable : bool) (fs : files) (inputs : list bytes) (out : bytes) : res (Z * files) :=
  if negb creatable then Ok (1%Z, fs)
  else
    let fs1 := put fs out Cut in
    let* l := visit_files fs1 inputs in
    match l with
    | None => Ok (1%Z, fs1)
    | Some l =>
        let* (f, ocs) := write_all ident map_kids map_ok (heap_of l) o_new (calls_of l) in
        if existsb (fun o => match o with Threw => true | _ => false end) ocs then Ok (134%Z, fs1)
        else Ok (0%Z, put fs out (Whole (file_tree version f None)))
    end.
End Tool.

(** f3dmerge 187-203 [writeField]: the field itself; [again] is what writing a field just read puts into the layer. *)
Definition merge_outs (again : tree -> list tree) (attr : bytes) (g : tree) : list (bytes * list tree) := [(attr, again g)].

(** f3dmakemip 253-343 [makeMIP]: fields of other classes give nothing; the "skip" of 380-383 only prints.
    [k_minSuffix], [k_maxSuffix]: src/MinMaxUtil.cpp:55-56.  Left out: data windows that do not begin at the origin, which
    [resample] refuses. *)
Definition s_min : bytes := str "_min".
Definition s_max : bytes := str "_max".
Definition mip_outs (supported : tree -> bool) (mip mn mx : tree -> list tree) (min_max : bool) (attr : bytes) (g : tree)
  : list (bytes * list tree) :=
  if supported g
  then (attr, mip g) :: if min_max then [(attr ++ s_min, mn g); (attr ++ s_max, mx g)] else []
  else [].
