(** Model of the cell values of a MAC field (export/MACField.h:233-246, 630-633) and of the conversion of cell values to faces
    (export/MACFieldUtil.h:190-244) as they are computed, under the assumptions of Model/FloatM.v.  Not in the model: the
    rotation of vectors, by the identity for an axis-aligned mapping. *)
From Coq Require Import ZArith List Bool.
From Flocq Require Import Core BinarySingleNaN.
From Verif Require Import Model.Base Model.VecM Model.MacM Model.FloatM Model.FloatMipM.
Open Scope Z_scope.

(** [(a + b) * 0.5], assigned to a value of type [t]: the sum is one of the field's type, of [float] for [half], which
    has no arithmetic of its own; the product is one of [double]. *)
Definition fc_mean t (a b : val t) : val t :=
  narrow t (fmul (widen (ct t) (vadd (cast (ct t) a) (cast (ct t) b))) f_half).
(** export/MACField.h:233-246 [uCenter], [vCenter], [wCenter], the elements of what 630-633 [value] returns. *)
Definition fc_center t (faces : component -> v3 -> val t) (c : component) (p : v3) : val t :=
  fc_mean t (faces c p) (faces c (v3_add p (comp_axis c))).
(** export/MACFieldUtil.h:190-244: what the loops of [convertCellCenteredToMAC] leave in a face.  [cells c p]: the element
    of the cell [p] that belongs to the component.  Simplified: which loop writes which face is in [set_ends] and
    [set_inner] of Model/MacM.v; here is the value. *)
Definition along (c : component) (p : v3) : Z := match c with CompU => vx p | CompV => vy p | CompW => vz p end.
Definition fc_face t (dw : box) (cells : component -> v3 -> val t) (c : component) (p : v3) : val t :=
  if along c p =? along c (bmin dw) then cells c p
  else if along c p =? along c (bmax dw) + 1 then cells c (v3_sub p (comp_axis c))
  else fc_mean t (cells c p) (cells c (v3_sub p (comp_axis c))).
