(** Model of group memberships: [addGroupMembership] of both file classes and
    [readGroupMembership] of HDF5 files (src/Field3DFile.cpp, src/Field3DFileHDF5.cpp).
    [writeGroupMembership] is [h_members] in Model/Hdf5FileM.v; for Ogawa files it returns true
    and does nothing (src/Field3DFile.cpp:1251-1296), and there is nothing to read. *)
From Coq Require Import ZArith List Bool String.
From Verif Require Import Model.Base Model.OgawaM Spec.OgawaSpec Model.OgM Model.FieldIOM Model.FileM Model.MetaM Model.Hdf5M Model.Hdf5FileM.
Import ListNotations.
Open Scope Z_scope.

(** src/Field3DFile.cpp:673-694 and src/Field3DFileHDF5.cpp:550-567 [addGroupMembership]: for each
    entry of the map that is given. *)
Definition add_member (m : list (bytes * bytes)) (e : bytes * bytes) : list (bytes * bytes) :=
  match smap_find m (fst e) with
  | Some v => smap_set m (fst e) (v ++ snd e)
  | None => smap_set m (fst e) (snd e)
  end.
Definition add_members (m new : list (bytes * bytes)) : list (bytes * bytes) := fold_left add_member new m.

(** src/Field3DFileHDF5.cpp:1098-1099: [boost::tokenizer] with [char_separator(" :")], which drops
    separators and empty tokens. *)
Definition is_sep (c : Z) : bool := (c =? 32) || (c =? 58).
Fixpoint tokens (cur s : bytes) : list bytes :=
  match s with
  | [] => match cur with [] => [] | _ => [cur] end
  | c :: r =>
      if is_sep c then match cur with [] => tokens [] r | _ => cur :: tokens [] r end
      else tokens (cur ++ [c]) r
  end.

(** 1100-1106: the tokens in pairs; a missing second one is read past the end. *)
Fixpoint regroup (l : list bytes) : res bytes :=
  match l with
  | [] => Ok []
  | [_] => UB
  | a :: b :: r => let* t := regroup r in Ok ((remove_id a ++ [58] ++ b ++ [32]) ++ t)
  end.

(** 1074-1115: for each attribute; 1056-1119 [readGroupMembership] into the map [m]. *)
Fixpoint get_members (l todo : list (bytes * aval)) (m : list (bytes * bytes)) : res (list (bytes * bytes)) :=
  match todo with
  | [] => Ok m
  | (n, v) :: r =>
      if bytes_eqb n k_is_members then get_members l r m
      else
        match v with
        | VStr _ =>
            let* s := get_str l n in
            let* t := regroup (tokens [] s) in
            get_members l r (smap_set m n t)
        | _ => get_members l r m
        end
  end.
Definition i_members {A} (root : hnode (A := A)) (m : list (bytes * bytes)) : res (list (bytes * bytes) * bool) :=
  match find_by k_members (n_links root) with
  | Some (LGroup g) => let* m := get_members (n_attrs g) (n_attrs g) m in Ok (m, true)
  | _ => Ok (m, false)
  end.
