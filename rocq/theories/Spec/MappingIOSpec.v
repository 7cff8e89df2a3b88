(** What the histories of a mapping leave in it, in terms of the calls alone. *)
From Coq Require Import ZArith List Bool.
From Verif Require Import Model.Base Model.CurveM Spec.CurveSpec Model.MappingIOM.
Import ListNotations.

(** The samples set since the last call that clears the others. *)
Definition matrix_history {T X} (t0 : T) (ops : list (@mop T X)) : list (T * X) :=
  fold_left (fun h o => match o with MSetAt t m => h ++ [(t, m)] | MSetOnly m => [(t0, m)] | MIdentity => [] end) ops [].
(** The distribution last set. *)
Definition last_dist {T X} (ops : list (@fop T X)) : Z :=
  fold_left (fun z o => match o with FDist z' => z' | _ => z end) ops 0%Z.
(** Every call that sets a transform sets it at time [t0]. *)
Definition only_at {T X} (t0 : T) (ops : list (@fop T X)) : Prop :=
  Forall (fun o => match o with FSetAt t _ _ => t = t0 | _ => True end) ops.
