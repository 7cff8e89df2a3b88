(** What a byte count must read like. *)
From Coq Require Import ZArith List Bool String.
From Verif Require Import Model.Base Model.OgM Model.FieldIOM Model.FileM Spec.NameSpec.
Import ListNotations.
Open Scope Z_scope.

(** The unit of a count that is not negative, and its name. *)
Inductive unit_of : Z -> Z -> string -> Prop :=
| UnitK b : 2 ^ 10 <= b < 2 ^ 20 -> unit_of b (2 ^ 10) "KB"
| UnitM b : 2 ^ 20 <= b < 2 ^ 30 -> unit_of b (2 ^ 20) "MB"
| UnitG b : 2 ^ 30 <= b -> unit_of b (2 ^ 30) "GB".
Definition digit (d : Z) : Prop := 0 <= d <= 9.
(** [s] is a decimal number of [n] thousandths, with three digits after the point, then a space and [name]; '-' is 45, '.' is 46. *)
Definition reads (s : list Z) (neg : bool) (n : Z) (name : string) : Prop :=
  exists t w x y z, decimal t w /\ digit x /\ digit y /\ digit z /\ n = 1000 * w + 100 * x + 10 * y + z /\
  s = (if neg then [45] else []) ++ t ++ [46; 48 + x; 48 + y; 48 + z] ++ [32] ++ str name.
(** [s] is a whole number of bytes. *)
Definition reads_bytes (s : list Z) (neg : bool) (n : Z) : Prop :=
  exists t, decimal t n /\ s = (if neg then [45] else []) ++ t ++ str "  B".
