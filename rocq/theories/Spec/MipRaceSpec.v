(** Specification of stores into a block. *)
From Coq Require Import Arith List.
Import ListNotations.

(** The contents of a block after some stores, one after the other. *)
Definition store {V} (m : nat -> V) (job : nat * V) : nat -> V := fun c => if c =? fst job then snd job else m c.
Definition after_writes {V} (m : nat -> V) (l : list (nat * V)) : nat -> V := fold_left store l m.

(** The stores stay inside a block of [n] cells. *)
Definition inside {V} (n : nat) (l : list (nat * V)) : Prop := forall c v, In (c, v) l -> c < n.

(** Different threads store into different cells. *)
Definition separate {V} (jobs : list (list (nat * V))) : Prop :=
  forall i j li lj c, i <> j -> nth_error jobs i = Some li -> nth_error jobs j = Some lj ->
    In c (map fst li) -> ~ In c (map fst lj).
