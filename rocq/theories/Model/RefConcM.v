(** Model of export/RefCount.h:150-167, 239-249 and export/FieldCache.h:145-164 with several
    threads sharing one object.

    A step is one access to memory other threads use: the locked increment, the locked
    decrement, the unlocked read of the counter, the deletion, and in the cache the test
    whether the object has expired and the increment that follows it.  Each thread owns its
    pointers; it may copy them, release them or hand one to another thread.  The model
    assumes steps take effect in one order seen by all threads; the unlocked read of the
    counter is a data race in C++, which can only make more outcomes possible. *)
From Coq Require Import ZArith List Bool Arith.
Import ListNotations.
Open Scope Z_scope.

(** Where a thread is: in none of the calls; after the decrement of
    [intrusive_ptr_release]; after it read 0 there; after [getCachedField] saw the object
    alive. *)
Inductive rpc : Type := PIdle | PUnrefd | PSawZero | PSawLive.
Record rthread : Type := RThread { q_refs : nat; q_pc : rpc }.
(** [x_deleted]: how often [delete] ran. *)
Record cref : Type := CRef { x_cnt : Z; x_live : bool; x_deleted : nat; x_threads : list rthread }.
(** The object is used after it was destroyed. *)
Inductive cres : Type := Fine (s : cref) | Dangling.

Inductive ract : Type := ACopy | ARelease | AGive (t : nat) | ANext | ALookup.

Fixpoint upd {A} (l : list A) (i : nat) (f : A -> A) : list A :=
  match l, i with
  | [], _ => []
  | x :: r, O => f x :: r
  | x :: r, S j => x :: upd r j f
  end.
Definition refs_add (d : nat) (q : rthread) : rthread := RThread (q_refs q + d) (q_pc q).
Definition refs_drop (q : rthread) : rthread := RThread (pred (q_refs q)) (q_pc q).
Definition go (p : rpc) (q : rthread) : rthread := RThread (q_refs q) p.

Definition cstep (s : cref) (t : nat) (a : ract) : cres :=
  match nth_error (x_threads s) t with
  | None => Fine s
  | Some q =>
      match q_pc q, a with
      | PIdle, ACopy =>
          if Nat.eqb (q_refs q) 0 then Fine s
          else if x_live s then Fine (CRef (x_cnt s + 1) true (x_deleted s) (upd (x_threads s) t (refs_add 1)))
          else Dangling
      | PIdle, AGive t' =>
          if Nat.eqb (q_refs q) 0 || negb (Nat.ltb t' (List.length (x_threads s))) then Fine s
          else Fine (CRef (x_cnt s) (x_live s) (x_deleted s) (upd (upd (x_threads s) t refs_drop) t' (refs_add 1)))
      | PIdle, ARelease =>
          if Nat.eqb (q_refs q) 0 then Fine s
          else if x_live s then Fine (CRef (x_cnt s - 1) true (x_deleted s) (upd (x_threads s) t (fun q => go PUnrefd (refs_drop q))))
          else Dangling
      | PIdle, ALookup =>
          (* the weak pointer is the cache's own: testing it is always safe *)
          if x_live s then Fine (CRef (x_cnt s) true (x_deleted s) (upd (x_threads s) t (go PSawLive))) else Fine s
      | PUnrefd, ANext =>
          if x_live s
          then Fine (CRef (x_cnt s) true (x_deleted s) (upd (x_threads s) t (go (if x_cnt s =? 0 then PSawZero else PIdle))))
          else Dangling
      | PSawZero, ANext =>
          if x_live s then Fine (CRef (x_cnt s) false (S (x_deleted s)) (upd (x_threads s) t (go PIdle)))
          else Dangling
      | PSawLive, ANext =>
          if x_live s then Fine (CRef (x_cnt s + 1) true (x_deleted s) (upd (x_threads s) t (fun q => go PIdle (refs_add 1 q))))
          else Dangling
      | _, _ => Fine s
      end
  end.
Fixpoint crun (s : cref) (l : list (nat * ract)) : cres :=
  match l with
  | [] => Fine s
  | (t, a) :: r => match cstep s t a with Fine s => crun s r | Dangling => Dangling end
  end.

(** A new object held once by each thread as given. *)
Definition shared (refs : list nat) : cref :=
  CRef (fold_right (fun n a => Z.of_nat n + a) 0 refs) true 0 (map (fun n => RThread n PIdle) refs).
