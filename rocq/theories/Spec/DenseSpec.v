(** Specification of a dense field: a map over a window. *)
From Coq Require Import ZArith List.
From Verif Require Import Model.Base Model.DenseM Spec.VoxelSpec.
Import ListNotations.
Open Scope Z_scope.

(** Meaning of each operation on the plain map. *)
Definition spec_step {V} (dflt : V) (a : amap V) (o : dop V) : amap V :=
  match o with
  | DSize e dw => AMap e dw (fun _ => dflt)
  | DClear v => AMap (a_ext a) (a_dw a) (fun _ => v)
  | DWrite p v => AMap (a_ext a) (a_dw a) (upd (a_val a) p v)
  end.

Definition spec_run {V} (dflt : V) (a : amap V) (l : list (dop V)) : amap V :=
  fold_left (spec_step dflt) l a.

Definition spec_init {V} (dflt : V) : amap V :=
  AMap (Box (V3 0 0 0) (V3 (-1) (-1) (-1))) (Box (V3 0 0 0) (V3 (-1) (-1) (-1)))
       (fun _ => dflt).

(** What the caller must respect: windows fit [int] and have fewer than 2^31
    voxels; writes stay inside the window current at that moment. *)
Fixpoint legal {V} (dflt : V) (a : amap V) (l : list (dop V)) : Prop :=
  match l with
  | [] => True
  | o :: t =>
      match o with
      | DSize _ dw => int_box dw
      | DClear _ => True
      | DWrite p _ => in_box p (a_dw a)
      end /\ legal dflt (spec_step dflt a o) t
  end.
