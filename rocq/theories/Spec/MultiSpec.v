(** Specification vocabulary for the sampling of many fields at many points. *)
From Coq Require Import ZArith List Bool.
From Verif Require Import Model.Base Model.MultiM.
Import ListNotations.

(** Where a world space point is in the voxel space of a field. *)
Definition voxel_of {F P D S} (f : mfield F P D S) (p : P) : P := mf_map f (match mf_os f with Some o => o p | None => p end).
(** The values at [p] of the fields it is within, in order. *)
Definition shares {F P D S} (p : P) (spot : F) (l : list (mfield F P D S)) : list (list D) :=
  map (fun f => match mf_remap f with
                | Some g => g (mf_sample f (mf_spot f spot) (voxel_of f p)) | None => mf_sample f (mf_spot f spot) (voxel_of f p) end)
      (filter (fun f => mf_in f (voxel_of f p)) l).
(** Entry [i] of an array of entries of [d] cells. *)
Definition entry_of {A} (d : nat) (l : list A) (i : nat) : list A := firstn d (skipn (d * i) l).
(** The interpolators, and the remap operators, give [d] components. *)
Definition sized {F P D S} (d : nat) (l : list (mfield F P D S)) : Prop :=
  forall f, In f l -> forall s v, length (mf_sample f s v) = d /\ forall g, mf_remap f = Some g -> length (g (mf_sample f s v)) = d.
(** The world space bounds of a field are of use: points of the field are within them, and the one matrix does what the
    two steps do. *)
Definition ws_faithful {F P D S} (conv : F * F * F -> P) (f : mfield F P D S) : Prop :=
  forall w, mf_ws_map f (conv w) = voxel_of f (conv w) /\ (mf_in f (voxel_of f (conv w)) = true -> mf_ws_in f w = true).
