(** What mappings in HDF5 files must do. *)
From Coq Require Import ZArith List Bool String.
From Verif Require Import Model.Base Model.OgawaM Model.OgM Model.FileM Model.CurveM Model.MappingIOM Model.Hdf5FileM.
Import ListNotations.
Open Scope Z_scope.

(** The calls on a frustum mapping since it was last reset. *)
Definition since_reset {T X} (ops : list (@fop T X)) : list (@fop T X) :=
  fold_left (fun acc o => match o with FReset => [] | _ => acc ++ [o] end) ops [].
(** The screen matrices it was given in all its life, the default ones included: those are
    never forgotten.  [ops] follow its construction. *)
Definition screen_history {T X} (t0 : T) (ss0 : X) (ops : list (@fop T X)) : list (T * X) :=
  (t0, ss0) :: flat_map (fun o => match o with FSetAt t ss _ => [(t, ss)] | FReset => [(t0, ss0)] | FDist _ => [] end) ops.
(** The camera matrices it was given since it was last reset, or the default one if none. *)
Definition camera_history {T X} (t0 : T) (cs0 : X) (ops : list (@fop T X)) : list (T * X) :=
  match flat_map (fun o => match o with FSetAt t _ cs => [(t, cs)] | _ => [] end) (since_reset ops) with
  | [] => [(t0, cs0)]
  | l => l
  end.
(** Every time at which it was ever given matrices is one since the last reset. *)
Definition same_times {T X} (screen camera : list (T * X)) : Prop := incl (map fst screen) (map fst camera).

(** Attributes that the readers of mappings can hold: single numbers of four bytes, matrices
    of at most sixteen doubles, each with as many bytes as it says. *)
Definition narrow (l : list (bytes * aval)) : Prop :=
  forall n fl size dims d, In (n, VNum fl size dims d) l ->
    List.length d = (size * fold_right Nat.mul 1 dims)%nat /\
    (dims = [1%nat] -> size = 4%nat) /\
    (dims = [16%nat] \/ dims = [4%nat; 4%nat] -> (size <= 8)%nat).

(** What comes back of a mapping: the same samples and distribution. *)
Definition copied {T X} (m : @mapping T X) : @mapping T X :=
  match m with MapFrustum f => MapFrustum (Fr (fr_ss f) (fr_cs f) false (fr_z f)) | _ => m end.
(** A mapping built by some calls, with samples that can be counted; a frustum whose matrices
    have the same times. *)
Definition built {T X} (ltb eqb : T -> T -> bool) (t0 : T) (ss0 cs0 : X) (m : @mapping T X) : Prop :=
  match m with
  | MapNull => True
  | MapMatrix c => (exists ops, c = fold_left (matrix_op ltb eqb t0) ops []) /\ Z.of_nat (List.length c) < 2 ^ 31
  | MapFrustum f =>
      (exists ops, f = fold_left (frustum_op ltb eqb t0 ss0 cs0) ops (fr_new ltb eqb t0 ss0 cs0) /\
         same_times (screen_history t0 ss0 ops) (camera_history t0 cs0 ops)) /\
      Z.of_nat (List.length (fr_ss f)) < 2 ^ 31 /\ in_int (fr_z f) = true
  end.
