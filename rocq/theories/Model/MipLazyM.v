(** Model of the lazy loading of MIP levels: export/MIPField.h, any number of threads.
    Memory is sequentially consistent; each access to a member is one step. *)
From Coq Require Import Arith List Bool.
From Verif Require Import Model.Base.
Import ListNotations.

(** A loaded level: which one it is, whether its name, attribute and metadata have been
    set ([syncLevelInfo]), and whether its mapping has been adjusted. *)
Record lobj : Type := LObj { lo_level : nat; lo_synced : bool; lo_mapped : bool }.

(** The members of export/MIPField.h:252-275, per level: [m_fields], [m_rawFields] (as
    object numbers; [None]: null), whether [m_loadActions] holds an action; whether
    [m_ioMutex] is held; the objects; and, for the record, the levels loaded so far. *)
Record mipf : Type := Mipf {
  mf_fields : list (option nat); mf_raw : list (option nat); mf_actions : list bool; mf_lock : bool;
  mf_heap : list lobj; mf_log : list nat }.

(** Where a thread is in [rawMipLevel] (export/MIPField.h:480-491; [concreteMipLevel],
    [mipLevel] and [fastMipValue] begin alike) and [loadLevelFromDisk] (685-712). *)
Inductive lpc : Type :=
  | LCheck0           (* the check of the caller *)
  | LCheck1           (* the first check of [loadLevelFromDisk] *)
  | LLock             (* taking the mutex *)
  | LCheck2           (* the second check *)
  | LLoading          (* inside [load()] *)
  | LReset            (* [m_loadActions[level].reset()] *)
  | LAux (j : nat)    (* [updateAuxMembers] 650-656, level [j] next *)
  | LSync             (* [syncLevelInfo] *)
  | LMap              (* [setMapping] *)
  | LUnlock
  | LReturn.          (* reads the raw pointer and returns it *)

(** What a caller got: an exception, or the level and what it looked like. *)
Inductive outcome : Type := Threw | Got (id : nat) (seen : lobj).
(** A thread, its remaining requests and the answers so far. *)
Record lthread : Type := LThread { lt_pc : lpc; lt_todo : list nat; lt_results : list (nat * outcome) }.

Definition get_nth {A} (l : list A) (i : nat) : res A := match nth_error l i with Some a => Ok a | None => UB end.
Definition change_obj (h : list lobj) (id : nat) (f : lobj -> lobj) : res (list lobj) :=
  let* o := get_nth h id in Ok (list_set h id (f o)).

(** One step of a thread working on level [l].  [ok]: what [load()] returns, if this is the
    moment it does; it may return a null pointer. *)
Definition lazy_step (ok : bool) (s : mipf) (pc : lpc) (l : nat) (rest : list nat) (done : list (nat * outcome))
  : res (mipf * lthread) :=
  let stay p := LThread p (l :: rest) done in
  match pc with
  | LCheck0 => let* r := get_nth (mf_raw s) l in Ok (s, stay match r with Some _ => LReturn | None => LCheck1 end)
  | LCheck1 => let* r := get_nth (mf_raw s) l in Ok (s, stay match r with Some _ => LReturn | None => LLock end)
  | LLock =>
      if mf_lock s then Ok (s, stay LLock)
      else Ok (Mipf (mf_fields s) (mf_raw s) (mf_actions s) true (mf_heap s) (mf_log s), stay LCheck2)
  | LCheck2 => let* r := get_nth (mf_raw s) l in Ok (s, stay match r with Some _ => LUnlock | None => LLoading end)
  | LLoading =>
      let* a := get_nth (mf_actions s) l in
      if negb a then UB
      else if ok then
        Ok (Mipf (list_set (mf_fields s) l (Some (length (mf_heap s)))) (mf_raw s) (mf_actions s) (mf_lock s)
                 (mf_heap s ++ [LObj l false false]) (mf_log s ++ [l]), stay LReset)
      else
        Ok (Mipf (list_set (mf_fields s) l None) (mf_raw s) (mf_actions s) false (mf_heap s) (mf_log s),
            LThread LCheck0 rest (done ++ [(l, Threw)]))
  | LReset => Ok (Mipf (mf_fields s) (mf_raw s) (list_set (mf_actions s) l false) (mf_lock s) (mf_heap s) (mf_log s), stay (LAux 0))
  | LAux j =>
      match nth_error (mf_fields s) j with
      | Some p => Ok (Mipf (mf_fields s) (list_set (mf_raw s) j p) (mf_actions s) (mf_lock s) (mf_heap s) (mf_log s), stay (LAux (S j)))
      | None => Ok (s, stay LSync)
      end
  | LSync =>
      let* p := get_nth (mf_fields s) l in
      match p with
      | Some id => let* h := change_obj (mf_heap s) id (fun o => LObj (lo_level o) true (lo_mapped o)) in
                   Ok (Mipf (mf_fields s) (mf_raw s) (mf_actions s) (mf_lock s) h (mf_log s), stay LMap)
      | None => UB
      end
  | LMap =>
      let* p := get_nth (mf_fields s) l in
      match p with
      | Some id => let* h := change_obj (mf_heap s) id (fun o => LObj (lo_level o) (lo_synced o) true) in
                   Ok (Mipf (mf_fields s) (mf_raw s) (mf_actions s) (mf_lock s) h (mf_log s), stay LUnlock)
      | None => UB
      end
  | LUnlock => Ok (Mipf (mf_fields s) (mf_raw s) (mf_actions s) false (mf_heap s) (mf_log s), stay LReturn)
  | LReturn =>
      let* r := get_nth (mf_raw s) l in
      match r with
      | Some id => let* o := get_nth (mf_heap s) id in Ok (s, LThread LCheck0 rest (done ++ [(l, Got id o)]))
      | None => UB
      end
  end.

Definition lazy_state : Type := mipf * list lthread.
(** One step of thread [i]. *)
Definition lstep (e : nat * bool) (st : lazy_state) : res lazy_state :=
  let (s, ts) := st in
  match nth_error ts (fst e) with
  | Some (LThread pc (l :: rest) done) =>
      let* (s', t) := lazy_step (snd e) s pc l rest done in Ok (s', list_set ts (fst e) t)
  | _ => Ok st
  end.
(** A schedule says which thread is next and how the loads end. *)
Fixpoint lrun (sched : list (nat * bool)) (st : lazy_state) : res lazy_state :=
  match sched with
  | [] => Ok st
  | e :: t => let* st' := lstep e st in lrun t st'
  end.

(** export/MIPField.h:427-458 [setupLazyLoad] with [n] levels: nothing loaded, an action
    for every level. *)
Definition setup_lazy (n : nat) : mipf := Mipf (repeat None n) (repeat None n) (repeat true n) false [] [].
Definition callers (reqs : list (list nat)) : list lthread := map (fun l => LThread LCheck0 l []) reqs.

(** export/MIPField.h:354-384 [init], the copy of a field while no thread loads: the loaded
    levels are cloned, the load actions are shared, the mutex is new.  The record of the
    levels loaded so far goes on. *)
Fixpoint clone_levels (fields : list (option nat)) (heap new : list lobj) : res (list (option nat) * list lobj) :=
  match fields with
  | [] => Ok ([], new)
  | None :: r => let* (f, h) := clone_levels r heap new in Ok (None :: f, h)
  | Some id :: r =>
      let* o := get_nth heap id in
      let* (f, h) := clone_levels r heap (new ++ [o]) in Ok (Some (length new) :: f, h)
  end.
Definition clone_mip (s : mipf) : res mipf :=
  let* (f, h) := clone_levels (mf_fields s) (mf_heap s) [] in
  Ok (Mipf f f (mf_actions s) false h (mf_log s)).
