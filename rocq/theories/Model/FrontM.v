(** Model of the two classes that users open files with, which choose between Ogawa and HDF5:
    [Field3DInputFile] and [Field3DOutputFile] (src/Field3DFile.cpp, export/Field3DFile.h).  What the
    two kinds of files do is modelled in [FileM] (C23) and [Hdf5FileM] (C58).

    Simplified: a file on disk is one of the cases of [dfile]; the disk never fails and files can
    be created wherever [FailOnExisting] allows it; fields are given with what their writers put into the
    two kinds of files; no null pointers are passed. *)
From Coq Require Import ZArith List Bool String.
From Verif Require Import Model.Base Model.OgawaM Spec.OgawaSpec Model.OgM Model.FieldIOM Model.FileM Model.MetaM Model.Hdf5M Model.Hdf5FileM
  Model.MembersM Model.ProxyM Model.ProxyH5M.
Import ListNotations.
Open Scope Z_scope.

Section F.
Context {A M : Type}.
Notation hnode := (hnode (A := A)).
Notation hfile := (hfile (A := A)).
Notation hfield := (hfield (A := A)).
Notation ihfile := (ihfile (A := A) (M := M)).
Notation hlayer := (hlayer (A := A) (M := M)).

(** What a name on disk refers to: no file; an Ogawa archive (C16); an HDF5 file; a file that neither
    library opens; a file that is being written, or that was not finished. *)
Inductive dfile : Type := NoFile | OgawaFile (t : tree) | Hdf5File (r : hnode) | OtherFile | Unfinished.

(** * Reading *)

(** [HDF5 input objects]: the order of links and the reader of mappings, as in [Hdf5FileM]. *)
Variable ord : list bytes -> list bytes.
Variable map_get : list (bytes * aval) -> res (option M).

(** export/Field3DFile.h:367-388, 602-607: [m_hdf5] (and [m_hdf5Base], the same object), [m_root],
    [m_partitions], [m_metadata]. *)
Record fin : Type := FIn { fi_h5 : option ihfile; fi_root : option tree; fi_parts : list ipart; fi_meta : meta }.
Definition fi_new : fin := FIn None None [] meta_empty.

(** export/Field3DFile.h:276-291 [metadata]. *)
Definition f_metadata (o : fin) : meta := match fi_h5 o with Some h => i_meta h | None => fi_meta o end.
Definition f_set_metadata (o : fin) (m : meta) : fin :=
  match fi_h5 o with
  | Some h => FIn (Some (IHFile (i_root h) (i_names h) (i_parts h) m)) (fi_root o) (fi_parts o) (fi_meta o)
  | None => FIn None (fi_root o) (fi_parts o) m
  end.
(** src/Field3DFile.cpp:616-626 [clear], export/Field3DFile.h:547-568 [closeInternal], [cleanup];
    src/Field3DFileHDF5.cpp:487-516. *)
Definition f_clear (o : fin) : fin :=
  match fi_h5 o with
  | Some h => FIn (Some (IHFile None (i_names h) [] (i_meta h))) (fi_root o) (fi_parts o) (fi_meta o)
  | None => FIn None None [] (fi_meta o)
  end.
(** src/Field3DFile.cpp:630-639 [close]. *)
Definition f_close (o : fin) : fin :=
  match fi_h5 o with
  | Some h => FIn (Some (IHFile None (i_names h) (i_parts h) (i_meta h))) (fi_root o) (fi_parts o) (fi_meta o)
  | None => FIn None None [] (fi_meta o)
  end.

(** src/Field3DFile.cpp:714-853 [open]; 739 is caught at 805, and nothing that an Ogawa file makes
    the reader do throws a [runtime_error].  Files that are being written: nothing is claimed. *)
Definition f_open (d : dfile) (o : fin) : res (fin * bool) :=
  let o := f_clear o in
  let hdf5 (x : res (ihfile * bool)) :=
    let* (h, ok) := x in
    let o := FIn (Some h) (fi_root o) (fi_parts o) (fi_meta o) in
    Ok (if ok then o else f_close o, ok) in
  match d with
  | NoFile => Ok (f_close o, false)
  | Hdf5File r => hdf5 (i_open ord map_get r i_new)
  | OtherFile => hdf5 (Ok (i_new, false))
  | Unfinished => UB
  | OgawaFile t =>
      let t := if validate t then t else Group [] in
      let o := FIn (fi_h5 o) (Some t) (fi_parts o) (fi_meta o) in
      let* v := OgM.get_attr t (str "version_number") TVecI32 (zeros 12) in
      let ok := match v with
                | Some b => supported (dec_i32 (firstn 4 b)) (dec_i32 (firstn 4 (skipn 4 b)))
                | None => true
                end in
      if negb ok then Ok (f_close o, false)
      else
        let* g := find_valid t k_global in
        let* m := match g with Some g => read_meta g (f_metadata o) | None => Ok (f_metadata o) end in
        let o := f_set_metadata o m in
        let* l := read_info t in
        Ok (FIn (fi_h5 o) (fi_root o) l (fi_meta o), true)
  end.

(** Calls that change an input object.  [IOpen d]: of a name that refers to [d] at that time. *)
Inductive iop : Type := IOpen (d : dfile) | IClear | IClose.
Definition istep (o : fin) (x : iop) : res fin :=
  match x with
  | IOpen d => let* (o, _) := f_open d o in Ok o
  | IClear => Ok (f_clear o)
  | IClose => Ok (f_close o)
  end.
Fixpoint irun (o : fin) (l : list iop) : res fin :=
  match l with [] => Ok o | x :: r => let* o := istep o x in irun o r end.

(** export/Field3DFile.h:434-438 [encoding]. *)
Definition f_encoding (o : fin) : string := match fi_h5 o with Some _ => "HDF5" | None => "Ogawa" end.
(** src/Field3DFile.cpp:491-509 [getPartitionNames]. *)
Definition f_partition_names (o : fin) : list bytes :=
  match fi_h5 o with
  | Some h => i_partition_names h
  | None => make_unique (map (fun p => remove_id (ip_name p)) (fi_parts o))
  end.
(** src/Field3DFile.cpp:513-559 [getScalarLayerNames], [getVectorLayerNames]. *)
Definition f_layer_names (o : fin) (vec : bool) (user : bytes) : list bytes :=
  match fi_h5 o with
  | Some h => i_layer_names h vec user
  | None => layer_names_of (fi_parts o) user
  end.

(** A layer that is found in a file of either kind. *)
Inductive flayer : Type := OgLayer (x : ilayer) | H5Layer (x : hlayer).
(** src/Field3DFile.cpp:1606-1674 [readLayers], both; [m_root] is dereferenced for every layer. *)
Definition f_own {B} (o : fin) (k : tree -> res (list B)) : res (list B) :=
  match fi_root o with
  | Some t => k t
  | None => if forallb (fun p => is_nil (ip_layers p)) (fi_parts o) then Ok [] else UB
  end.
Definition f_own_all (o : fin) (name : bytes) : res (list ilayer) :=
  f_own o (fun t => read_parts t (fi_parts o) (map ip_name (fi_parts o)) (fun _ => true) (fun n => is_nil name || bytes_eqb n name)).
Definition f_own_layers (o : fin) (user layer : bytes) : res (list ilayer) :=
  if is_nil layer || is_nil user then Ok []
  else f_own o (fun t => read_parts t (fi_parts o) (map ip_name (fi_parts o)) (fun n => bytes_eqb (remove_id n) user) (fun n => bytes_eqb n layer)).
(** export/Field3DFile.h:459-505 [readScalarLayers], [readVectorLayers]. *)
Definition lift_layers {B} (c : B -> flayer) (x : res (list B)) : res (list flayer) := let* l := x in Ok (map c l).
Definition f_layers_all (o : fin) (vec : bool) (name : bytes) : res (list flayer) :=
  match fi_h5 o with
  | Some h => lift_layers H5Layer (i_layers_all h vec name)
  | None => lift_layers OgLayer (f_own_all o name)
  end.
Definition f_layers (o : fin) (vec : bool) (user layer : bytes) : res (list flayer) :=
  match fi_h5 o with
  | Some h => lift_layers H5Layer (i_layers h vec user layer)
  | None => lift_layers OgLayer (f_own_layers o user layer)
  end.
(** src/Field3DFile.cpp:1753-1852 [readProxyLayer]. *)
Definition f_proxies {V} (o : fin) (vec : bool) (user layer : bytes) : res (list (proxy V + hproxy V M)) :=
  match fi_h5 o with
  | Some h => let* l := i_proxies h vec user layer in Ok (map inr l)
  | None => let* l := f_own o (fun t => read_proxy vec t (fi_parts o) user layer) in Ok (map inl l)
  end.

(** * Writing *)

Variable ident : M -> M -> bool.
(** Mappings in Ogawa files (C23) and in HDF5 files (C58). *)
Variable map_kids : M -> list tree.
Variable map_ok : M -> bool.
Variable map_put : M -> res (list (bytes * aval) * bool).
(** The bytes of the version of the library. *)
Variable version : bytes.

Definition disk : Type := bytes -> dfile.
Definition disk_set (k : disk) (n : bytes) (d : dfile) : disk := fun x => if bytes_eqb x n then d else k x.

(** An HDF5 output object: its file, the file's name, [m_metadata], [m_groupMembership].  An open Ogawa archive: its
    name, and the groups of global metadata, each with the number of partitions before it. *)
Record h5out : Type := H5Out { ho_file : hfile; ho_name : bytes; ho_meta : meta; ho_members : list (bytes * bytes) }.
Record ogout : Type := OgOut { go_name : bytes; go_globals : list (nat * list tree) }.
(** export/Field3DFile.h:367-388, 840-849: [m_hdf5], [m_archive], [m_partitionCount] with [m_partitions], [m_metadata],
    [m_groupMembership]. *)
Record fout : Type := FOut { fo_h5 : option h5out; fo_og : option ogout; fo_file : ofile; fo_meta : meta; fo_members : list (bytes * bytes) }.
Definition fo_new : fout := FOut None None o_new meta_empty [].

(** A call of [writeScalarLayer] or [writeVectorLayer]: what the writers of the two kinds of files put. *)
Record fcall : Type := FCall { fc_vec : bool; fc_user : bytes; fc_layer : bytes; fc_field : hfield; fc_body : list tree }.
Definition as_h5 (c : fcall) : hcall (A := A) := HCall (fc_vec c) (fc_user c) (fc_layer c) (fc_field c).
Definition as_og (c : fcall) : wr := Wr (fc_user c) (fc_layer c) (hf_ref (fc_field c)) (fc_body c).

(** The groups of an archive in the order in which they were made. *)
Definition part_node (p : part) : tree := node_group (p_name p) (p_kids p).
Fixpoint with_globals (gs : list (nat * list tree)) (n : nat) (ps : list part) : list tree :=
  match gs with
  | [] => map part_node ps
  | (k, g) :: r => map part_node (firstn (k - n) ps) ++ node_group k_global g :: with_globals r k (skipn (k - n) ps)
  end.
Definition archive_tree (g : ogout) (f : ofile) : tree :=
  node_group (str "f3droot") (node_attr (str "version_number") TVecI32 version :: with_globals (go_globals g) 0 (o_parts f)).

(** [H5Fclose], when the object has a file. *)
Definition h5_close (k : disk) (h : h5out) : disk * h5out :=
  match h_root (ho_file h) with
  | Some r => (disk_set k (ho_name h) (Hdf5File r), H5Out (HFile None (h_count (ho_file h)) (h_parts (ho_file h))) (ho_name h) (ho_meta h) (ho_members h))
  | None => (k, h)
  end.
(** export/Field3DFile.h:805-816 [cleanup]: the archive is finished. *)
Definition og_close (k : disk) (o : fout) : disk * fout :=
  (match fo_og o with Some g => disk_set k (go_name g) (OgawaFile (archive_tree g (fo_file o))) | None => k end,
   FOut (fo_h5 o) None (o_reopen (fo_file o)) (fo_meta o) (fo_members o)).
(** export/Field3DFile.h:796-803 [closeInternal]; src/Field3DFile.cpp:630-639 [close]. *)
Definition f_out_close (k : disk) (o : fout) : disk * fout :=
  match fo_h5 o with
  | Some h => let (k, h) := h5_close k h in (k, FOut (Some h) (fo_og o) (fo_file o) (fo_meta o) (fo_members o))
  | None => og_close k o
  end.
(** src/Field3DFile.cpp:970-973, the destructor: [cleanup], then the members. *)
Definition f_destroy (k : disk) (o : fout) : disk :=
  let (k, o) := og_close k o in
  match fo_h5 o with Some h => fst (h5_close k h) | None => k end.

Definition exists_file (d : dfile) : bool := match d with NoFile => false | _ => true end.
(** src/Field3DFile.cpp:977-1009 [create]; [ogawa] is [ms_doOgawa], [keep] is [FailOnExisting].  An archive that is open
    while one in HDF5 is made, and then replaced, is not finished. *)
Definition f_create (ogawa : bool) (name : bytes) (keep : bool) (k : disk) (o : fout) : disk * fout * bool :=
  if negb ogawa
  then
    let k := match fo_h5 o with Some h => fst (h5_close k h) | None => k end in
    let no := keep && exists_file (k name) in
    let h := if no then h_new else h_create version h_new in
    (if no then k else disk_set k name Unfinished, FOut (Some (H5Out h name meta_empty [])) (fo_og o) (fo_file o) (fo_meta o) (fo_members o), negb no)
  else
    let (k, o) := f_out_close k o in
    if keep && exists_file (k name) then (k, o, false)
    else (disk_set k name Unfinished, FOut (fo_h5 o) (Some (OgOut name [])) (fo_file o) (fo_meta o) (fo_members o), true).

(** Calls on an output object. *)
Inductive oop : Type :=
| OCreate (ogawa : bool) (name : bytes) (keep : bool)
| OWrite (c : fcall)
| OMeta (k : mkind) (n v : bytes)
| OGlobals
| OAddMembers (m : list (bytes * bytes))
| OMembers
| OClose.
Definition as_bool (b : bool) : outcome := if b then Accepted else Rejected.
(** export/Field3DFile.h:714-781 [writeScalarLayer], [writeVectorLayer]; src/Field3DFile.cpp:1233-1297
    [writeGlobalMetadata], [writeGroupMembership]; 673-694 [addGroupMembership]. *)
Definition ostep (hp : nat -> M) (k : disk) (o : fout) (x : oop) : res (disk * fout * outcome) :=
  match x with
  | OCreate ogawa name keep => let '(k, o, ok) := f_create ogawa name keep k o in Ok (k, o, as_bool ok)
  | OWrite c =>
      match fo_h5 o with
      | Some h =>
          let* (f, oc) := h_write ident map_put hp (ho_file h) (fc_vec c) (fc_user c) (fc_layer c) (fc_field c) in
          Ok (k, FOut (Some (H5Out f (ho_name h) (ho_meta h) (ho_members h))) (fo_og o) (fo_file o) (fo_meta o) (fo_members o), oc)
      | None =>
          match fo_og o with
          | None => Ok (k, o, Rejected)
          | Some g =>
              let* (f, oc) := write_layer ident map_kids map_ok hp (fo_file o) (fc_user c) (fc_layer c) (hf_ref (fc_field c)) (fc_body c) in
              Ok (k, FOut None (Some g) f (fo_meta o) (fo_members o), oc)
          end
      end
  | OMeta kd n v =>
      Ok (k, match fo_h5 o with
             | Some h => FOut (Some (H5Out (ho_file h) (ho_name h) (meta_set (ho_meta h) kd n v) (ho_members h))) (fo_og o) (fo_file o) (fo_meta o) (fo_members o)
             | None => FOut None (fo_og o) (fo_file o) (meta_set (fo_meta o) kd n v) (fo_members o)
             end, Accepted)
  | OGlobals =>
      match fo_h5 o with
      | Some h =>
          let (f, ok) := h_globals (ho_file h) (ho_meta h) in
          Ok (k, FOut (Some (H5Out f (ho_name h) (ho_meta h) (ho_members h))) (fo_og o) (fo_file o) (fo_meta o) (fo_members o), as_bool ok)
      | None =>
          match fo_og o with
          | None => UB
          | Some g =>
              Ok (k, FOut None (Some (OgOut (go_name g) (go_globals g ++ [(List.length (o_parts (fo_file o)), write_meta (fo_meta o))])))
                    (fo_file o) (fo_meta o) (fo_members o), Accepted)
          end
      end
  | OAddMembers m =>
      Ok (k, match fo_h5 o with
             | Some h => FOut (Some (H5Out (ho_file h) (ho_name h) (ho_meta h) (add_members (ho_members h) m))) (fo_og o) (fo_file o) (fo_meta o) (fo_members o)
             | None => FOut None (fo_og o) (fo_file o) (fo_meta o) (add_members (fo_members o) m)
             end, Accepted)
  | OMembers =>
      match fo_h5 o with
      | Some h =>
          let (f, ok) := h_members (ho_file h) (ho_members h) in
          Ok (k, FOut (Some (H5Out f (ho_name h) (ho_meta h) (ho_members h))) (fo_og o) (fo_file o) (fo_meta o) (fo_members o), as_bool ok)
      | None => Ok (k, o, Accepted)
      end
  | OClose => let (k, o) := f_out_close k o in Ok (k, o, Accepted)
  end.
Fixpoint orun (hp : nat -> M) (k : disk) (o : fout) (l : list oop) : res (disk * fout * list outcome) :=
  match l with
  | [] => Ok (k, o, [])
  | x :: r =>
      let* (k, o, oc) := ostep hp k o x in
      let* (k, o, ocs) := orun hp k o r in
      Ok (k, o, oc :: ocs)
  end.
End F.
