(** What storing fields in a file's groups must do. *)
From Coq Require Import ZArith List Bool String.
From Verif Require Import Model.Base Model.FieldM Model.DenseM Model.SparseM Spec.VoxelSpec Spec.DenseSpec
  Model.OgM Spec.OgSpec Model.FieldIOM.
Import ListNotations.
Open Scope Z_scope.

(** The value type: a fixed number of bytes, from which the value can be recovered. *)
Definition storable {V} (ty : ogtype) (enc : V -> bytes) (dec : bytes -> V) : Prop :=
  ty <> TString /\ forall v, List.length (enc v) = type_size ty /\ dec (enc v) = v.

(** zlib: never empty, within the announced bound, and lossless. *)
Definition lossless (compress : bytes -> bytes) (uncompress : nat -> bytes -> option bytes) (bound : nat -> nat) : Prop :=
  forall b, compress b <> [] /\ (List.length (compress b) <= bound (List.length b))%nat /\
            uncompress (List.length b) (compress b) = Some b.

(** Other entries of the same group: usable names, attributes of the right size. *)
Definition entries_ok (l : list entry) : Prop :=
  Forall (fun e => good_name (e_name e)) l /\
  forall n ty v, In (EAttr n ty v) l -> value_ok ty v.

(** The names a field layer uses. *)
Definition layer_names : list bytes :=
  map str ["version"; "extents_min"; "extents_max"; "data_window_min"; "data_window_max"; "components";
           "bits_per_component"; "block_order"; "num_blocks"; "block_res"; "data_is_compressed";
           "block_is_allocated_data"; "block_empty_value_data"; "num_occupied_blocks"; "data"]%string.
Definition unrelated (l : list entry) : Prop := Forall (fun e => ~ In (e_name e) layer_names) l.

(** Corners that are C++ [int]s. *)
Definition int_v3 (p : v3) : Prop := in_int (vx p) = true /\ in_int (vy p) = true /\ in_int (vz p) = true.
Definition int_corners (b : box) : Prop := int_v3 (bmin b) /\ int_v3 (bmax b).

(** A dense field obtained by some legal history. *)
Definition dense_reached {V} (dflt : V) (f : dense V) : Prop :=
  exists l, legal dflt (spec_init dflt) l /\ dense_run dflt dense_init l = Ok f.

(** The group of a layer: entries before, the field, entries after. *)
Definition layer_group (g : bytes) (pre : list entry) (layer : list Spec.OgawaSpec.tree) (post : list entry) :=
  node_group g (map written pre ++ layer ++ map written post).
