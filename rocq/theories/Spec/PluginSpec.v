(** What loading plugins must do. *)
From Coq Require Import ZArith List Bool.
From Verif Require Import Model.Base Model.OgM Model.FactoryM Model.PluginM Spec.NameSpec.
Import ListNotations.
Open Scope Z_scope.

(** A name that counts as one of a plugin file: "so" (115, 111) and any number of dots (46)
    at the end, with nothing or a dot before. *)
Definition so_name (n : list Z) : Prop :=
  exists before dots, n = before ++ [115; 111] ++ repeat 46 dots /\ (before = [] \/ exists b, before = b ++ [46]).
(** What one would expect: "something.so". *)
Definition dot_so (n : list Z) : Prop := exists base, base <> [] /\ n = base ++ [46; 115; 111].

(** A file: directory and name. *)
Definition file : Type := (list Z * list Z)%type.
Definition path_of (f : file) : list Z := fst f ++ 47 :: snd f.
(** The file names the system reports have no '/' (47). *)
Definition plain_names (s : system) : Prop := forall d names n, sy_dir s d = Some names -> In n names -> ~ In 47 n.

(** The plugin files of one directory, and of several, in order. *)
Inductive names_in (d : list Z) : list (list Z) -> list file -> Prop :=
| names_none : names_in d [] []
| names_other n names l : ~ so_name n -> names_in d names l -> names_in d (n :: names) l
| names_so n names l : so_name n -> names_in d names l -> names_in d (n :: names) ((d, n) :: l).
Inductive plugin_files (s : system) : list (list Z) -> list file -> Prop :=
| files_none : plugin_files s [] []
| files_skip d dirs l : sy_dir s d = None -> plugin_files s dirs l -> plugin_files s (d :: dirs) l
| files_dir d dirs names l l' : sy_dir s d = Some names -> names_in d names l -> plugin_files s dirs l' -> plugin_files s (d :: dirs) (l ++ l').
(** The plugin files on the search path: FIELD3D_DSO_PATH is split at ':' (58). *)
Inductive on_path (s : system) : list file -> Prop :=
| path_unset : sy_path s = None -> on_path s []
| path_set path dirs l : sy_path s = Some path -> tokens (eq 58) path dirs -> plugin_files s dirs l -> on_path s l.

(** The files whose name is neither in [seen] nor that of an earlier file. *)
Inductive unseen : list (list Z) -> list file -> list file -> Prop :=
| unseen_nil seen : unseen seen [] []
| unseen_old seen f l l' : In (snd f) seen -> unseen seen l l' -> unseen seen (f :: l) l'
| unseen_new seen f l l' : ~ In (snd f) seen -> unseen (snd f :: seen) l l' -> unseen seen (f :: l) (f :: l').

(** The registrations a file makes, and the files that make any (or are at least asked to). *)
Definition gives (s : system) (f : file) : list registration := match sy_lib s (path_of f) with Plugin regs _ => regs | _ => [] end.
Definition is_plugin (s : system) (f : file) : bool := match sy_lib s (path_of f) with Plugin _ _ => true | _ => false end.

(** The registrations in force after a history ([None]: there is no factory yet) and the
    names that have been tried. What happens: the first use of the factory drops the registrations of all plugins it
    loads, and loading plugins before the first use drops those of all but the first. *)
Inductive actual : list (system * pcall) -> option (list registration) -> list (list Z) -> Prop :=
| actual_nil : actual [] None []
| actual_use_first h s seen files new used :
    actual h None seen -> on_path s files -> unseen seen files new ->
    actual (h ++ [(s, Use used)]) (Some used) (seen ++ map snd new)
| actual_use h s regs seen used :
    actual h (Some regs) seen -> actual (h ++ [(s, Use used)]) (Some (regs ++ used)) seen
| actual_load h s regs seen files new :
    actual h (Some regs) seen -> on_path s files -> unseen seen files new ->
    actual (h ++ [(s, LoadPlugins)]) (Some (regs ++ flat_map (gives s) new)) (seen ++ map snd new)
| actual_load_first h s seen files new :
    actual h None seen -> on_path s files -> unseen seen files new ->
    actual (h ++ [(s, LoadPlugins)]) (option_map (gives s) (find (is_plugin s) new)) (seen ++ map snd new).
