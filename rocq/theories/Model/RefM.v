(** Model of export/RefCount.h (objects counted by intrusive pointers) and export/FieldCache.h
    (the cache of loaded fields), one thread.

    Objects are numbered in order of creation and numbers are not reused; an address that is
    reused does not confuse the code either, because the cache tests its [weak_ptr], not the
    raw pointer.  Pointers live in a fixed number of variables.  [boost::intrusive_ptr] is
    taken to do what its documentation says: add a reference to the new pointee, swap, drop
    the reference to the old one. *)
From Coq Require Import ZArith List Bool Arith.
From Verif Require Import Model.Base Model.OgawaM Spec.OgawaSpec Model.OgM.
Import ListNotations.
Open Scope Z_scope.

Section Ref.
Context {V : Type}.

(** export/RefCount.h:207-217: the counter; [r_live] is false once destroyed, which is also
    when its [m_sharedPtr] goes and weak pointers to it expire. *)
Record robj : Type := RObj { r_cnt : Z; r_live : bool; r_val : V }.

(** [s_deleted]: the objects deleted, latest first.  [s_cache]: the cache, latest entry of a
    key first. *)
Record rst : Type := RSt {
  s_objs : list robj; s_vars : list (option nat); s_deleted : list nat; s_cache : list (bytes * nat) }.
Definition r_start (n : nat) : rst := RSt [] (repeat None n) [] [].

Fixpoint set_nth {A} (l : list A) (i : nat) (x : A) : list A :=
  match l, i with
  | [], _ => []
  | _ :: r, O => x :: r
  | y :: r, S j => y :: set_nth r j x
  end.
Definition with_obj (s : rst) (o : nat) (x : robj) : rst :=
  RSt (set_nth (s_objs s) o x) (s_vars s) (s_deleted s) (s_cache s).

(** A member of an object that has been destroyed is not to be touched. *)
Definition live_obj (s : rst) (o : nat) : res robj :=
  match nth_error (s_objs s) o with
  | Some x => if r_live x then Ok x else UB
  | None => UB
  end.

(** export/RefCount.h:150-156 [ref]. *)
Definition ref (s : rst) (o : nat) : res rst :=
  let* x := live_obj s o in Ok (with_obj s o (RObj (r_cnt x + 1) (r_live x) (r_val x))).
(** export/RefCount.h:159-167 [unref]. *)
Definition unref (s : rst) (o : nat) : res rst :=
  let* x := live_obj s o in Ok (with_obj s o (RObj (r_cnt x - 1) (r_live x) (r_val x))).
(** [delete r]. *)
Definition destroy (s : rst) (o : nat) : res rst :=
  let* x := live_obj s o in
  let s := with_obj s o (RObj (r_cnt x) false (r_val x)) in
  Ok (RSt (s_objs s) (s_vars s) (o :: s_deleted s) (s_cache s)).
(** export/RefCount.h:239-249 [intrusive_ptr_release]. *)
Definition release (s : rst) (o : nat) : res rst :=
  let* s := unref s o in
  let* x := live_obj s o in
  if r_cnt x =? 0 then destroy s o else Ok s.

Definition ref_opt (s : rst) (p : option nat) : res rst := match p with Some o => ref s o | None => Ok s end.
Definition release_opt (s : rst) (p : option nat) : res rst := match p with Some o => release s o | None => Ok s end.
Definition var (s : rst) (h : nat) : option nat := nth h (s_vars s) None.
Definition set_var (s : rst) (h : nat) (p : option nat) : rst :=
  RSt (s_objs s) (set_nth (s_vars s) h p) (s_deleted s) (s_cache s).
(** [boost::intrusive_ptr::operator =]. *)
Definition assign (s : rst) (h : nat) (p : option nat) : res rst :=
  let* s := ref_opt s p in
  let old := var s h in
  release_opt (set_var s h p) old.

(** export/RefCount.h:120-132: a new object, also when copied from another: counter 0. *)
Definition create (s : rst) (v : V) : rst * nat :=
  (RSt (s_objs s ++ [RObj 0 true v]) (s_vars s) (s_deleted s) (s_cache s), List.length (s_objs s)).

(** export/FieldCache.h:204-207 [key]. *)
Definition cache_key (file path : bytes) : bytes := file ++ [47] ++ path.
Fixpoint cache_find (c : list (bytes * nat)) (k : bytes) : option nat :=
  match c with
  | [] => None
  | (k', o) :: r => if bytes_eqb k' k then Some o else cache_find r k
  end.
(** export/FieldCache.h:145-164 [getCachedField]: [expired] is not [r_live]. *)
Definition cached (s : rst) (file path : bytes) : option nat :=
  match cache_find (s_cache s) (cache_key file path) with
  | None => None
  | Some o => match nth_error (s_objs s) o with
              | Some x => if r_live x then Some o else None
              | None => None
              end
  end.
(** export/FieldCache.h:168-176 [cacheField], of an object. *)
Definition put (s : rst) (o : nat) (file path : bytes) : rst :=
  RSt (s_objs s) (s_vars s) (s_deleted s) ((cache_key file path, o) :: s_cache s).

(** What a program does with its pointers; the last is the use [readLayer] makes of the
    cache (src/Field3DFile.cpp:1565-1601), [v] being what the file holds. *)
Inductive rop : Type :=
| RNew (h : nat) (v : V)                      (* h = new T(v) *)
| RCopy (h h' : nat)                          (* h = h' *)
| RReset (h : nat)                            (* h = 0 *)
| RClone (h h' : nat)                         (* if (h') h = new T( *h' ) *)
| RAssign (h h' : nat)                        (* if (h && h') *h = *h' *)
| RPut (h : nat) (file path : bytes)          (* if (h) cacheField(h, file, path) *)
| RGet (h : nat) (file path : bytes)          (* h = getCachedField(file, path) *)
| RRead (h : nat) (file path : bytes) (v : V). (* h = readLayer *)

(** Fields entered in the cache. *)
Inductive rev : Type := EvPut (file path : bytes) (o : nat).

Definition rstep (s : rst) (c : rop) : res (rst * list rev) :=
  match c with
  | RNew h v => let (s, o) := create s v in let* s := assign s h (Some o) in Ok (s, [])
  | RCopy h h' => let* s := assign s h (var s h') in Ok (s, [])
  | RReset h => let* s := assign s h None in Ok (s, [])
  | RClone h h' =>
      match var s h' with
      | None => Ok (s, [])
      | Some o' =>
          let* x := live_obj s o' in
          let (s, o) := create s (r_val x) in let* s := assign s h (Some o) in Ok (s, [])
      end
  | RAssign h h' =>
      match var s h, var s h' with
      | Some o, Some o' =>
          let* x' := live_obj s o' in
          let* x := live_obj s o in
          (* export/RefCount.h:135-136: the counter is left alone *)
          Ok (with_obj s o (RObj (r_cnt x) (r_live x) (r_val x')), [])
      | _, _ => Ok (s, [])
      end
  | RPut h file path =>
      match var s h with
      | None => Ok (s, [])
      | Some o => let* _ := live_obj s o in Ok (put s o file path, [EvPut file path o])
      end
  | RGet h file path => let* s := assign s h (cached s file path) in Ok (s, [])
  | RRead h file path v =>
      match cached s file path with
      | Some o => let* s := assign s h (Some o) in Ok (s, [])
      | None =>
          let (s, o) := create s v in
          let* s := assign s h (Some o) in
          Ok (put s o file path, [EvPut file path o])
      end
  end.
Fixpoint rrun (s : rst) (l : list rop) : res (rst * list rev) :=
  match l with
  | [] => Ok (s, [])
  | c :: r =>
      let* (s, e) := rstep s c in
      let* (s, es) := rrun s r in
      Ok (s, e ++ es)
  end.
End Ref.
