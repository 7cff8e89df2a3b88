(** What counting from several threads should do. *)
From Coq Require Import ZArith List Bool Arith.
From Verif Require Import Model.RefConcM.
Import ListNotations.

(** Some thread holds a pointer to the object. *)
Definition referenced (s : cref) : Prop := exists q, In q (x_threads s) /\ (0 < q_refs q)%nat.
(** No thread is in the middle of a call. *)
Definition quiet (s : cref) : Prop := Forall (fun q => q_pc q = PIdle) (x_threads s).
(** The cache is not used. *)
Definition no_lookup (l : list (nat * ract)) : Prop := Forall (fun x => snd x <> ALookup) l.
(** A pointer is only released while no other call is going on. *)
Fixpoint serial (s : cref) (l : list (nat * ract)) : Prop :=
  match l with
  | [] => True
  | (t, a) :: r =>
      (a = ARelease -> quiet s) /\ match cstep s t a with Fine s' => serial s' r | Dangling => True end
  end.
