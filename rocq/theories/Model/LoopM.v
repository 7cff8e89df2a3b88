(** Loops over ranges and boxes. *)
From Coq Require Import ZArith List.
From Verif Require Import Model.Base.
Import ListNotations.
Open Scope Z_scope.

(** [for (i = lo; i <= hi; ++i)]: the values of the variable, in order. *)
Definition zrange (lo hi : Z) : list Z := map (fun n => lo + Z.of_nat n)%Z (seq 0 (Z.to_nat (hi - lo + 1))).
(** Three nested loops, z outermost, x innermost. *)
Definition box_voxels (b : box) : list v3 :=
  flat_map (fun k => flat_map (fun j => map (fun i => V3 i j k) (zrange (vx (bmin b)) (vx (bmax b))))
                              (zrange (vy (bmin b)) (vy (bmax b)))) (zrange (vz (bmin b)) (vz (bmax b))).
(** A loop whose body changes a state and may fail. *)
Fixpoint each {A S : Type} (f : A -> S -> res S) (l : list A) (s : S) : res S :=
  match l with [] => Ok s | a :: t => let* s' := f a s in each f t s' end.
