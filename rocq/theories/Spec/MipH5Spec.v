(** What storing a MIP field in an HDF5 file must do. *)
From Coq Require Import ZArith List Bool String.
From Verif Require Import Model.Base Model.FieldM Model.OgM Model.FieldIOM Model.FileM Model.MipIOM Model.Hdf5M Model.Hdf5FileM Model.MipH5M.
Import ListNotations.
Open Scope Z_scope.

Section S.
Context {A : Type}.
Implicit Types g : hnode (A := A).

(** The names that a MIP field uses in its layer's group. *)
Definition mip_attr_names : list bytes :=
  map str ["version"; "extents"; "data_window"; "components"; "bits_per_component"; "base_type"]%string.
Definition mip_link_name : bytes := str "mip_levels".

(** A group in which none of them is taken. *)
Definition mip_room g : Prop :=
  (forall n, In n mip_attr_names -> find_by n (n_attrs g) = None) /\ find_by mip_link_name (n_links g) = None.
(** Two groups that hold the same MIP field, whatever else they hold. *)
Definition same_mip g g' : Prop :=
  (forall n, In n mip_attr_names -> find_by n (n_attrs g') = find_by n (n_attrs g)) /\
  find_by mip_link_name (n_links g') = find_by mip_link_name (n_links g).
(** Everything else in the group is as it was. *)
Definition mip_rest g g' : Prop :=
  (forall n, ~ In n mip_attr_names -> find_by n (n_attrs g') = find_by n (n_attrs g)) /\
  (forall n, n <> mip_link_name -> find_by n (n_links g') = find_by n (n_links g)).
(** [path] leads to the group [g] in a file. *)
Definition leads_to (root : hnode) (path : bytes) g : Prop :=
  ~ In 0 path /\ exists p, g_open root (Some []) path = Some p /\ node_at root p = Some g.

(** A group gives back a MIP field: its kind, its extents, its data window, the number of its
    levels and the extents and data window of each; to a reader of other values it gives a null
    pointer; each level is loaded, through the path of the group, in whatever file the group is,
    as it was. *)
Definition gives_back {F} (ext dw : F -> box) (kind : base_kind) (ty : htype) (dims : nat) (rd : hgroup A -> res (option F))
    (m : mip_field F) (l : list F) g : Prop :=
  mip_h5_read ty dims g = Ok (Some (MipProxy kind (mi_ext m) (mi_dw m) (map (fun f => (ext f, dw f)) l))) /\
  (forall ty' dims', ty' <> ty \/ dims' <> dims -> mip_h5_read ty' dims' g = Ok None) /\
  forall root path i f, leads_to root path g -> nth_error l i = Some f -> load_h5 rd root path i = Ok f.

(** Attributes of one or six numbers that fit the variables they are read into, in every group
    of a tree. *)
Definition fitting (l : list (bytes * aval)) : Prop :=
  forall n fl size k d, In (n, VNum fl size [k] d) l ->
    (k = 1%nat -> size = 4%nat) /\ (k = 6%nat -> (size <= 4)%nat /\ List.length d = (6 * size)%nat).
Definition fitting_tree g : Prop := forall path n, node_at g path = Some n -> fitting (n_attrs n).
End S.
