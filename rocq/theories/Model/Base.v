(** Common vocabulary of the model: outcomes, integer vectors, integer boxes,
    arrays with checked access.

    [res] is the outcome of a piece of C++ code.  [UB] stands for undefined
    behaviour (out-of-range access, null dereference, signed overflow): it is a
    distinct outcome and never a default value.  [Exn] is a thrown exception. *)
From Coq Require Import ZArith List Bool.
Import ListNotations.
Open Scope Z_scope.

Inductive res (A : Type) : Type :=
| Ok (a : A)
| Exn
| UB.
Arguments Ok {A} a.
Arguments Exn {A}.
Arguments UB {A}.

Definition bind {A B} (r : res A) (f : A -> res B) : res B :=
  match r with Ok a => f a | Exn => Exn | UB => UB end.

Notation "'let*' x := e 'in' k" := (bind e (fun x => k))
  (at level 200, x pattern, e at level 100, k at level 200, right associativity).

(** C++ [int] (32 bits).  Leaving the range in signed arithmetic is undefined
    behaviour, so [i32] turns it into [UB]. *)
Definition int_min : Z := - 2 ^ 31.
Definition int_max : Z := 2 ^ 31 - 1.
Definition in_int (z : Z) : bool := (int_min <=? z) && (z <=? int_max).
Definition i32 (z : Z) : res Z := if in_int z then Ok z else UB.

(** [Imath::V3i] and [Imath::Box3i] (Imath is a dependency, not in /repo; the
    meaning of its members used here is the documented one). *)
Record v3 : Type := V3 { vx : Z; vy : Z; vz : Z }.
Record box : Type := Box { bmin : v3; bmax : v3 }.

Definition v3_eqb (a b : v3) : bool :=
  (vx a =? vx b) && (vy a =? vy b) && (vz a =? vz b).
Definition v3_add (a b : v3) : v3 := V3 (vx a + vx b) (vy a + vy b) (vz a + vz b).
Definition v3_sub (a b : v3) : v3 := V3 (vx a - vx b) (vy a - vy b) (vz a - vz b).
Definition box_eqb (a b : box) : bool := v3_eqb (bmin a) (bmin b) && v3_eqb (bmax a) (bmax b).

(** [Imath::Box::intersects(point)]: closed on both sides. *)
Definition box_has (b : box) (p : v3) : bool :=
  (vx (bmin b) <=? vx p) && (vx p <=? vx (bmax b)) &&
  (vy (bmin b) <=? vy p) && (vy p <=? vy (bmax b)) &&
  (vz (bmin b) <=? vz p) && (vz p <=? vz (bmax b)).

(** [Imath::Box::isEmpty]. *)
Definition box_empty (b : box) : bool :=
  (vx (bmax b) <? vx (bmin b)) || (vy (bmax b) <? vy (bmin b)) ||
  (vz (bmax b) <? vz (bmin b)).

(** [Imath::Box::size]: the zero vector for an empty box, else max - min. *)
Definition box_size (b : box) : v3 :=
  if box_empty b then V3 0 0 0 else v3_sub (bmax b) (bmin b).

(** Contiguous storage ([std::vector<T>], [T[]]): index outside is [UB]. *)
Definition arr_get {A} (l : list A) (i : Z) : res A :=
  if i <? 0 then UB
  else match nth_error l (Z.to_nat i) with Some a => Ok a | None => UB end.

Fixpoint list_set {A} (l : list A) (n : nat) (a : A) : list A :=
  match l, n with
  | [], _ => []
  | _ :: t, O => a :: t
  | h :: t, S n' => h :: list_set t n' a
  end.

Definition arr_set {A} (l : list A) (i : Z) (a : A) : res (list A) :=
  if (0 <=? i) && (i <? Z.of_nat (length l)) then Ok (list_set l (Z.to_nat i) a) else UB.

(** [for (it = s; !(stop it); ++it)] as a fuelled function; [None] means the fuel
    ran out before the loop stopped.  Returns the states at which the loop body
    runs, in order. *)
Fixpoint for_loop {S : Type} (fuel : nat) (stop : S -> bool) (next : S -> S) (s : S)
  : option (list S) :=
  match fuel with
  | O => None
  | Datatypes.S f =>
      if stop s then Some []
      else match for_loop f stop next (next s) with
           | Some l => Some (s :: l)
           | None => None
           end
  end.
