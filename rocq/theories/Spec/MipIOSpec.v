(** What storing a MIP field in a file must do. *)
From Coq Require Import ZArith List Bool String.
From Verif Require Import Model.Base Model.FieldM Model.OgawaM Spec.OgawaSpec Model.OgM Spec.OgSpec Model.FieldIOM Spec.FieldIOSpec.
Import ListNotations.
Open Scope Z_scope.

(** The names the reader of a MIP field looks for in its group. *)
Definition mip_names : list bytes := map str ["version"; "components"; "base_type"; "dummy_data"; "mip_levels"]%string.
Definition unrelated_mip (l : list entry) : Prop := Forall (fun e => ~ In (e_name e) mip_names) l.

(** A file: the root has a partition, the partition has the layer.  [rpre], [ppre]: what was
    written before; [rpost], [ppost]: anything at all. *)
Definition file_with (rn part : bytes) (rpre ppre : list entry) (layer : tree) (ppost rpost : list tree) : tree :=
  node_group rn (map written rpre ++ node_group part (map written ppre ++ layer :: ppost) :: rpost).
(** No earlier group has that name. *)
Definition fresh_group (n : bytes) (l : list entry) : Prop :=
  Forall (fun e => good_name (e_name e)) l /\ (forall kids, ~ In (EGroup n kids) l).

(** Each level is smaller than the previous one: on no axis larger, on some axis smaller.  An
    empty box has no extent. *)
Definition span (b : box) (c : v3 -> Z) : Z := if box_empty b then 0 else c (bmax b) - c (bmin b).
Fixpoint smaller_each (prev : box) (l : list box) : Prop :=
  match l with
  | [] => True
  | b :: r =>
      (forall c, In c [vx; vy; vz] -> span b c <= span prev c) /\
      (exists c, In c [vx; vy; vz] /\ span b c < span prev c) /\
      smaller_each b r
  end.
Definition levels_ok (l : list box) : Prop := match l with [] => False | b :: r => smaller_each b r end.
