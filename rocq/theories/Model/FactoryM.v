(** Model of src/ClassFactory.cpp: registration and creation by name. *)
From Coq Require Import ZArith List Bool.
From Verif Require Import Model.Base Model.OgawaM Model.OgM Model.FieldIOM.
Import ListNotations.

(** A creation function: its identity, and the class name and (for fields) data type of
    the objects it makes; [None] when it returns a null pointer.  Simplified: a function
    makes objects of one class. *)
Record creator : Type := Creator { cr_id : nat; cr_makes : option (bytes * bytes) }.

(** [std::map<std::string, CreateFn>]. *)
Definition registry := list (bytes * creator).
Fixpoint lookup (m : registry) (name : bytes) : option creator :=
  match m with [] => None | (k, v) :: r => if bytes_eqb k name then Some v else lookup r name end.

(** src/ClassFactory.cpp:72-109 [registerField]; '<' is 60, '>' is 62.  The list of names,
    which only decides on a debug message, is left out. *)
Definition register_with (key : bytes * bytes -> bytes) (m : registry) (f : creator) : registry :=
  match cr_makes f with
  | None => m
  | Some c => match lookup m (key c) with Some _ => m | None => (key c, f) :: m end
  end.
Definition field_key (c : bytes * bytes) : bytes := fst c ++ [60%Z] ++ snd c ++ [62%Z].
(** src/ClassFactory.cpp:125-160, 177-211, 227-261: the other three use the class name. *)
Definition class_key (c : bytes * bytes) : bytes := fst c.

(** export/ClassFactory.h:145-162. *)
Record factory : Type := Factory { fa_fields : registry; fa_field_ios : registry; fa_mappings : registry; fa_mapping_ios : registry }.
Definition factory_init : factory := Factory [] [] [] [].
Inductive registration : Type := RField (f : creator) | RFieldIO (f : creator) | RMapping (f : creator) | RMappingIO (f : creator).
Definition register (s : factory) (r : registration) : factory :=
  match r with
  | RField f => Factory (register_with field_key (fa_fields s) f) (fa_field_ios s) (fa_mappings s) (fa_mapping_ios s)
  | RFieldIO f => Factory (fa_fields s) (register_with class_key (fa_field_ios s) f) (fa_mappings s) (fa_mapping_ios s)
  | RMapping f => Factory (fa_fields s) (fa_field_ios s) (register_with class_key (fa_mappings s) f) (fa_mapping_ios s)
  | RMappingIO f => Factory (fa_fields s) (fa_field_ios s) (fa_mappings s) (register_with class_key (fa_mapping_ios s) f)
  end.
(** src/ClassFactory.cpp:113-121, 164-173, 215-223, 265-273: the object made, [None] for a null
    pointer. *)
Definition create (m : registry) (name : bytes) : option (nat * (bytes * bytes)) :=
  match lookup m name with
  | Some f => match cr_makes f with Some c => Some (cr_id f, c) | None => None end
  | None => None
  end.
Definition create_field (s : factory) := create (fa_fields s).
Definition create_field_io (s : factory) := create (fa_field_ios s).
Definition create_mapping (s : factory) := create (fa_mappings s).
Definition create_mapping_io (s : factory) := create (fa_mapping_ios s).
