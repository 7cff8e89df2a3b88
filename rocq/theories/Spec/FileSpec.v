(** What writing layers to a file and reading them back must do. *)
From Coq Require Import ZArith List Bool String Sorted.
From Verif Require Import Model.Base Model.OgawaM Spec.OgawaSpec Model.OgM Spec.OgSpec Model.FieldIOM Model.FileM.
Import ListNotations.
Open Scope Z_scope.

(** The calls of a history that returned true. *)
Definition accepted (calls : list wr) (outcomes : list outcome) : list wr :=
  map fst (filter (fun x => match snd x with Accepted => true | _ => false end) (combine calls outcomes)).

(** Names a caller may use: no NUL in either, a layer name that is not empty and is not the
    reserved "mapping". *)
Definition usable (w : wr) : Prop :=
  ~ In 0 (w_user w) /\ good_name (w_layer w) /\ w_layer w <> str "mapping".

(** A layer read is a call that was made: same names, same contents, and the mapping stored
    with it is one the call's mapping was found identical to. *)
Definition reads_as {M} (ident : M -> M -> bool) (map_kids : M -> list tree) (hp : nat -> M) (x : ilayer) (w : wr) : Prop :=
  il_name x = w_user w /\ il_attr x = w_layer w /\
  il_group x = node_group (w_layer w) (w_body w) /\
  exists r, il_map x = Some (node_group (str "mapping") (map_kids (hp r))) /\ ident (hp (w_ref w)) (hp r) = true.

(** Strictly increasing in the order of strings. *)
Definition increasing (l : list bytes) : Prop := StronglySorted (fun a b => bytes_ltb a b = true) l.
