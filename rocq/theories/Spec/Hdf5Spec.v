(** What storing fields in HDF5 groups must do. *)
From Coq Require Import ZArith List Bool String.
From Verif Require Import Model.Base Model.FieldM Model.Hdf5M.
Import ListNotations.
Open Scope Z_scope.

(** The library gives back what was stored when a data set is read with the type it was
    written with; chars stand for booleans. *)
Definition faithful {A} (convert : htype -> htype -> A -> A) (of_flag : bool -> A) (to_flag : A -> bool) : Prop :=
  (forall t x, convert t t x = x) /\ (forall b, to_flag (of_flag b) = b).

(** A value type: a fixed number of scalars, from which the value can be recovered, stored as
    half (a short), float or double. *)
Definition made_of {A V} (ty : htype) (comps : nat) (split : V -> list A) (join : list A -> V) : Prop :=
  ty <> HChar /\ (comps = 1%nat \/ comps = 3%nat) /\ forall v, List.length (split v) = comps /\ join (split v) = v.

(** The names that a field layer uses. *)
Definition layer_attrs : list string :=
  ["version"; "extents"; "data_window"; "components"; "bits_per_component"; "block_order"; "num_blocks"; "block_res";
   "num_occupied_blocks"]%string.
Definition layer_sets : list string :=
  ["data"; "block_is_allocated_data"; "block_empty_value_data"; "u_data"; "v_data"; "w_data"]%string.

(** A group in which none of them is taken. *)
Definition room_in {A} (g : hgroup A) : Prop :=
  (forall n, In n layer_attrs -> named n (hg_attrs g) = None) /\
  (forall n, In n layer_sets -> named n (hg_sets g) = None).
(** Two groups that hold the same layer, whatever else they hold. *)
Definition same_layer {A} (g g' : hgroup A) : Prop :=
  (forall n, In n layer_attrs -> named n (hg_attrs g') = named n (hg_attrs g)) /\
  (forall n, In n layer_sets -> named n (hg_sets g') = named n (hg_sets g)).
(** Everything else in the group is as it was. *)
Definition rest_kept {A} (g g' : hgroup A) : Prop :=
  (forall n, ~ In n layer_attrs -> named n (hg_attrs g') = named n (hg_attrs g)) /\
  (forall n, ~ In n layer_sets -> named n (hg_sets g') = named n (hg_sets g)).
