(** Model of src/PluginLoader.cpp and of the creation of the class factory in
    src/ClassFactory.cpp: plugins found on FIELD3D_DSO_PATH and the classes they register. *)
From Coq Require Import String ZArith List Bool.
From Verif Require Import Model.Base Model.OgawaM Model.OgM Model.FieldIOM Model.PatternM Model.FactoryM.
Import ListNotations.
Open Scope Z_scope.

(** What a file is to [dlopen] and [dlsym]: not a library; a library without the function
    [registerField3DPlugin]; one whose function makes these registrations and returns this
    number.  Simplified: static initialisers of a library do not use Field3D, and the
    function registers the same classes whenever it is called. *)
Inductive library : Type :=
| NotLoadable
| NoFunction
| Plugin (regs : list registration) (result : Z).

(** The process environment and file system: the value of FIELD3D_DSO_PATH, the names in a
    directory in the order of [readdir] ([None] if it cannot be opened), and the files.
    Simplified: none of them changes during one call into Field3D. *)
Record system : Type := System {
  sy_path : option bytes;
  sy_dir : bytes -> option (list bytes);
  sy_lib : bytes -> library }.

(** [ClassFactory::ms_instance] (src/ClassFactory.cpp:59), [PluginLoader::ms_pluginsLoaded]
    (src/PluginLoader.cpp:98), and, for the record, the files given to [dlopen] and the
    files whose function was called, in order. *)
Record proc : Type := Proc {
  pr_inst : option factory;
  pr_loaded : list bytes;
  pr_opened : list bytes;
  pr_called : list bytes }.
Definition proc_init : proc := Proc None [] [] [].

(** src/PluginLoader.cpp:104-120 [filter] with the suffix "so"; '.' is 46. *)
Definition so_filter (name : bytes) : bool :=
  match rev (split_on [46] name) with [] => false | t :: _ => bytes_eqb t (str "so") end.
(** src/PluginLoader.cpp:124-175 [getDirSos]; '/' is 47. *)
Definition get_dir_sos (s : system) (dir : bytes) : option (list bytes) :=
  match sy_dir s dir with
  | None => None
  | Some names => Some (map (fun n => dir ++ [47] ++ n) (filter so_filter names))
  end.

(** src/PluginLoader.cpp:277-283: the last component of the path of a file, if any. *)
Definition plugin_name (sofile : bytes) : option bytes := match rev (split_on [47] sofile) with [] => None | t :: _ => Some t end.
(** 285-300. *)
Definition already_loaded (p : proc) (name : option bytes) : bool :=
  match name with None => false | Some n => existsb (fun l => bytes_eqb l n) (pr_loaded p) end.
(** 302-305. *)
Definition mark_loaded (p : proc) (name : option bytes) : proc :=
  match name with
  | None => p
  | Some n => Proc (pr_inst p) (pr_loaded p ++ [n]) (pr_opened p) (pr_called p)
  end.
Definition mark_opened (p : proc) (f : bytes) : proc := Proc (pr_inst p) (pr_loaded p) (pr_opened p ++ [f]) (pr_called p).
Definition mark_called (p : proc) (f : bytes) (regs : list registration) : proc :=
  Proc (match pr_inst p with Some i => Some (fold_left register regs i) | None => None end)
    (pr_loaded p) (pr_opened p) (pr_called p ++ [f]).

(** src/PluginLoader.cpp:273-320: the loop over the files of one directory.  [singleton] is
    [ClassFactory::singleton]; [None] is running out of fuel.  The function is called with
    the object [ms_instance] points to at that time.  The number it returns only decides on
    a message. *)
Fixpoint load_files (singleton : proc -> option proc) (s : system) (sos : list bytes) (p : proc) : option proc :=
  match sos with
  | [] => Some p
  | f :: r =>
      let name := plugin_name f in
      if already_loaded p name then load_files singleton s r p
      else
        let p := mark_opened (mark_loaded p name) f in
        match sy_lib s f with
        | Plugin regs _ =>
            match singleton p with
            | Some p => load_files singleton s r (mark_called p f regs)
            | None => None
            end
        | _ => load_files singleton s r p
        end
  end.
(** src/PluginLoader.cpp:265-321: the loop over the directories. *)
Fixpoint load_dirs (singleton : proc -> option proc) (s : system) (dirs : list bytes) (p : proc) : option proc :=
  match dirs with
  | [] => Some p
  | d :: r =>
      match get_dir_sos s d with
      | None => load_dirs singleton s r p
      | Some sos => match load_files singleton s sos p with Some p => load_dirs singleton s r p | None => None end
      end
  end.
(** src/PluginLoader.cpp:252-322 [loadPlugins]; ':' is 58. *)
Definition load_with (singleton : proc -> option proc) (s : system) (p : proc) : option proc :=
  match sy_path s with
  | None => Some p
  | Some path => load_dirs singleton s (split_on [58] path) p
  end.

(** src/ClassFactory.cpp:65-68, 277-284 [singleton]: the constructor of the new factory
    loads the plugins before [ms_instance] is set, and [reset] then destroys the factory
    that [ms_instance] points to by then, if any. *)
Fixpoint singleton_f (fuel : nat) (s : system) (p : proc) : option proc :=
  match pr_inst p with
  | Some _ => Some p
  | None =>
      match fuel with
      | O => None
      | S fuel =>
          match load_with (singleton_f fuel s) s p with
          | Some p => Some (Proc (Some factory_init) (pr_loaded p) (pr_opened p) (pr_called p))
          | None => None
          end
      end
  end.

(** Fuel: one call more than there are files. *)
Definition candidates (s : system) : list bytes :=
  match sy_path s with
  | None => []
  | Some path => flat_map (fun d => match get_dir_sos s d with Some l => l | None => [] end) (split_on [58] path)
  end.
Definition singleton (s : system) (p : proc) : option proc := singleton_f (S (List.length (candidates s))) s p.
Definition load_plugins (s : system) (p : proc) : option proc := load_with (singleton_f (S (List.length (candidates s))) s) s p.

(** What a program does: [ClassFactory::singleton()] and these registrations, as
    src/InitIO.cpp:67-83 [initIO] does, or [PluginLoader::loadPlugins()]. *)
Inductive pcall : Type := Use (regs : list registration) | LoadPlugins.
Definition pstep (s : system) (p : proc) (c : pcall) : option proc :=
  match c with
  | Use regs =>
      match singleton s p with
      | Some p => Some (Proc (match pr_inst p with Some i => Some (fold_left register regs i) | None => None end)
                          (pr_loaded p) (pr_opened p) (pr_called p))
      | None => None
      end
  | LoadPlugins => load_plugins s p
  end.
(** A history: each call with the system it finds. *)
Fixpoint pcalls (h : list (system * pcall)) (p : proc) : option proc :=
  match h with
  | [] => Some p
  | (s, c) :: r => match pstep s p c with Some p => pcalls r p | None => None end
  end.
