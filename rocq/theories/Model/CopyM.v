(** Model of copying and comparing fields: export/Field.h ([setMapping], [copyFrom],
    [matchDefinition], [sameDefinition], [isIdentical]) and the comparison of mappings in
    src/FieldMapping.cpp. *)
From Coq Require Import ZArith Reals List Bool.
From Verif Require Import Model.Base Model.FieldM Model.DenseM Model.SparseM Model.OpsM
  Model.RealM Model.VecM Model.MatM Model.CurveM Model.MapM.
Import ListNotations.
Open Scope Z_scope.

(** ** Mappings of any class *)

Inductive mapping : Type := MapNull (f : frame) | MapMatrix (m : matmap) | MapFrustum (s : frustum).

(** src/FieldMapping.cpp:146-151 [setExtents] and the [extentsChanged] of the classes: the
    base class does nothing, the matrix mapping rebuilds its transforms (295-298).  The
    voxel sizes a frustum precomputes are left out (see [compute_voxel_size]). *)
Definition map_extents (m : mapping) (e : box) : res mapping :=
  let* fr := set_frame e in
  Ok match m with
     | MapNull _ => MapNull fr
     | MapMatrix m => MapMatrix (update_transform fr (mm_curve m))
     | MapFrustum s => MapFrustum (Frustum fr (fm_uniform s) (fm_lps s) (fm_cs s) (fm_near s) (fm_far s) (fm_default s))
     end.

(** [Imath::equalWithRelError], [equalWithAbsError] on numbers. *)
Definition near_rel (e x y : R) : bool := rleb (Rabs (x - y)) (e * Rabs x).
Definition near_abs (e x y : R) : bool := rleb (Rabs (x - y)) e.
Definition vec_near (f : R -> R -> bool) (a b : r3) : bool := f (rx a) (rx b) && f (ry a) (ry b) && f (rz a) (rz b).
Definition row_near (f : R -> R -> bool) (a b : r4) : bool :=
  f (e0 a) (e0 b) && f (e1 a) (e1 b) && f (e2 a) (e2 b) && f (e3 a) (e3 b).
Definition mat_near (f : R -> R -> bool) (a b : m44) : bool :=
  row_near f (row0 a) (row0 b) && row_near f (row1 a) (row1 b) && row_near f (row2 a) (row2 b) && row_near f (row3 a) (row3 b).

(** [Imath::extractSHRT] (Imath is a dependency, not in /repo): Gram-Schmidt on the three
    rows of the linear part, in exact arithmetic.  [None]: a scale of zero.  Dividing by the
    largest entry first, and multiplying the scale by it at the end, makes no difference in
    exact arithmetic and is left out.  The angles are an unknown function [euler] of the
    remaining rotation. *)
Record shrt : Type := Shrt { h_scale : r3; h_shear : r3; h_angles : r3; h_shift : r3 }.
Definition dot3 (a b : r3) : R := (rx a * rx b + ry a * ry b + rz a * rz b)%R.
Definition sub3 (a b : r3) (k : R) : r3 := R3 (rx a - k * rx b) (ry a - k * ry b) (rz a - k * rz b).
Definition over3 (a : r3) (k : R) : r3 := R3 (rx a / k) (ry a / k) (rz a / k).
Definition len3 (a : r3) : R := sqrt (dot3 a a).
Definition cross3 (a b : r3) : r3 :=
  R3 (ry a * rz b - rz a * ry b) (rz a * rx b - rx a * rz b) (rx a * ry b - ry a * rx b).
Definition part3 (v : r4) : r3 := R3 (e0 v) (e1 v) (e2 v).
Definition extract_shrt (euler : r3 -> r3 -> r3 -> r3) (m : m44) : option shrt :=
  let a := part3 (row0 m) in let b := part3 (row1 m) in let c := part3 (row2 m) in
  let sx := len3 a in
  if reqb sx 0 then None else
  let a := over3 a sx in
  let h0 := dot3 a b in
  let b := sub3 b a h0 in
  let sy := len3 b in
  if reqb sy 0 then None else
  let b := over3 b sy in
  let h1 := dot3 a c in
  let c := sub3 c a h1 in
  let h2 := dot3 b c in
  let c := sub3 c b h2 in
  let sz := len3 c in
  if reqb sz 0 then None else
  let c := over3 c sz in
  let h := R3 (h0 / sy) (h1 / sz) (h2 / sz) in
  let t := part3 (row3 m) in
  if rltb (dot3 a (cross3 b c)) 0
  then Some (Shrt (R3 (- sx) (- sy) (- sz)) h (euler (over3 a (-1)) (over3 b (-1)) (over3 c (-1))) t)
  else Some (Shrt (R3 sx sy sz) h (euler a b c) t).

Section Compare.
Variable euler : r3 -> r3 -> r3 -> r3.

(** src/FieldMapping.cpp:84-104 [checkMatricesIdentical]. *)
Definition same_matrix (m1 m2 : m44) (tol : R) : bool :=
  if mat_near (near_rel tol) m1 m2 then true
  else match extract_shrt euler m1 with
       | None => false
       | Some a =>
           match extract_shrt euler m2 with
           | None => false
           | Some b => vec_near (near_rel tol) (h_scale a) (h_scale b) && vec_near (near_abs tol) (h_angles a) (h_angles b) &&
                       vec_near (near_rel tol) (h_shift a) (h_shift b)
           end
       end.
(** The loops of src/FieldMapping.cpp:336-347 and 700-711: samples [i] of the first pair of
    curves, and of the second pair, which is indexed without a check. *)
Fixpoint same_samples (l1 l2 v1 v2 : mcurve) (tol : R) : res bool :=
  match l1, l2 with
  | (t1, a1) :: l1', (t2, a2) :: l2' =>
      if negb (reqb t1 t2) then Ok false
      else if negb (same_matrix a1 a2 tol) then Ok false
      else match v1, v2 with
           | (_, b1) :: v1', (_, b2) :: v2' =>
               if negb (same_matrix b1 b2 tol) then Ok false else same_samples l1' l2' v1' v2' tol
           | _, _ => UB
           end
  | _, _ => Ok true
  end.
Definition same_curves (l1 l2 v1 v2 : mcurve) (tol : R) : res bool :=
  if negb (length l1 =? length l2)%nat then Ok false else same_samples l1 l2 v1 v2 tol.

(** [isIdentical] of the three classes: src/FieldMapping.cpp:232-240, 309-358, 670-724. *)
Definition map_identical (m1 m2 : mapping) (tol : R) : res bool :=
  match m1, m2 with
  | MapNull _, MapNull _ => Ok true
  | MapMatrix a, MapMatrix b => same_curves (mm_curve a) (mm_curve b) (mm_vs_curve a) (mm_vs_curve b) tol
  | MapFrustum a, MapFrustum b =>
      if negb (Bool.eqb (fm_uniform a) (fm_uniform b)) then Ok false
      else same_curves (fm_lps a) (fm_lps b) (fm_cs a) (fm_cs b) tol
  | _, _ => Ok false
  end.
End Compare.

(** ** Fields with a mapping *)

Record mfield {V : Type} (k : kind) : Type := MField { c_fld : fld (V := V) k; c_map : mapping }.
Arguments MField {V k}. Arguments c_fld {V k}. Arguments c_map {V k}.

Section Copy.
Context {V W : Type}.
Variables (dflt zero : V) (euler : r3 -> r3 -> r3 -> r3).

(** export/Field.h:324-330: a new field has a matrix mapping with the (empty) extents of the
    field. *)
Definition c_new (k : kind) : res (mfield (V := V) k) :=
  let* f := f_new zero k in
  let* m := map_extents (MapMatrix mat_init) (f_ext f) in
  Ok (MField f m).

(** export/Field.h:347-358 [setMapping] with a mapping that is not null: a clone, with the
    extents of the field. *)
Definition set_mapping {k} (a : mfield (V := V) k) (m : mapping) : res (mfield (V := V) k) :=
  let* m := map_extents m (f_ext (c_fld a)) in Ok (MField (c_fld a) m).

(** export/Field.h:941-948 [setSize(extents, dataWindow)] and 901-902 [sizeChanged], which
    the classes call before they allocate. *)
Definition set_size {k} (a : mfield (V := V) k) (e dw : box) : res (mfield (V := V) k) :=
  let* m := map_extents (c_map a) e in
  let* f := f_size dflt zero (c_fld a) e dw in
  Ok (MField f m).

(** The loop of [copyFrom]: export/Field.h:974-979 and 992-997.  [i] runs over the window
    [w] of the target, [c] over the window of the source; voxels are converted by [conv]. *)
Fixpoint copy_loop {k j} (conv : W -> V) (fuel : nat) (w : box) (a : fld (V := V) k) (b : fld (V := W) j) (i c : v3)
  : option (res (fld (V := V) k)) :=
  match fuel with
  | O => None
  | S n =>
      if v3_eqb i (it_end w) then Some (Ok a)
      else match (let* v := f_get b c in f_set a i (conv v)) with
           | Ok a' => copy_loop conv n w a' b (it_next w i) (it_next (f_dw b) c)
           | Exn => Some Exn
           | UB => Some UB
           end
  end.
(** export/Field.h:967-980 [copyFrom] (and 984-998, from a field of another type); the two
    fields are different objects.  [None]: the loop does not end within [fuel] rounds. *)
Definition copy_from {k j} (conv : W -> V) (fuel : nat) (a : mfield (V := V) k) (b : mfield (V := W) j)
  : option (res (mfield (V := V) k)) :=
  match (let* a1 := set_mapping a (c_map b) in set_size a1 (f_ext (c_fld b)) (f_dw (c_fld b))) with
  | Ok a2 =>
      match copy_loop conv fuel (f_dw (c_fld a2)) (c_fld a2) (c_fld b) (it_begin (f_dw (c_fld a2))) (it_begin (f_dw (c_fld b))) with
      | Some (Ok f) => Some (Ok (MField f (c_map a2)))
      | Some Exn => Some Exn
      | Some UB => Some UB
      | None => None
      end
  | Exn => Some Exn
  | UB => Some UB
  end.

(** export/Field.h:1003-1007 [matchDefinition]. *)
Definition match_definition {k j} (a : mfield (V := V) k) (b : mfield (V := W) j) : res (mfield (V := V) k) :=
  let* a1 := set_size a (f_ext (c_fld b)) (f_dw (c_fld b)) in set_mapping a1 (c_map b).

(** export/Field.h:1016-1030 [sameDefinition]. *)
Definition same_definition {k j} (a : mfield (V := V) k) (b : mfield (V := W) j) (tol : R) : res bool :=
  if negb (box_eqb (f_ext (c_fld a)) (f_ext (c_fld b))) then Ok false
  else if negb (box_eqb (f_dw (c_fld a)) (f_dw (c_fld b))) then Ok false
  else map_identical euler (c_map a) (c_map b) tol.
End Copy.

(** [f->copyFrom(f)]: the same calls on one object. *)
Fixpoint copy_self_loop {V} {k} (fuel : nat) (w : box) (a : fld (V := V) k) (i c : v3) : option (res (fld (V := V) k)) :=
  match fuel with
  | O => None
  | S n =>
      if v3_eqb i (it_end w) then Some (Ok a)
      else match (let* v := f_get a c in f_set a i v) with
           | Ok a' => copy_self_loop n w a' (it_next w i) (it_next w c)
           | Exn => Some Exn
           | UB => Some UB
           end
  end.
Definition copy_self {V} (dflt zero : V) {k} (fuel : nat) (a : mfield (V := V) k) : option (res (mfield (V := V) k)) :=
  match (let* a1 := set_mapping a (c_map a) in set_size dflt zero a1 (f_ext (c_fld a1)) (f_dw (c_fld a1))) with
  | Ok a2 =>
      match copy_self_loop fuel (f_dw (c_fld a2)) (c_fld a2) (it_begin (f_dw (c_fld a2))) (it_begin (f_dw (c_fld a2))) with
      | Some (Ok f) => Some (Ok (MField f (c_map a2)))
      | Some Exn => Some Exn
      | Some UB => Some UB
      | None => None
      end
  | Exn => Some Exn
  | UB => Some UB
  end.

(** export/Field.h:1037-1055 [isIdentical]; [eqb] is the [==] of the data type. *)
Section Identical.
Context {V : Type}.
Variables (euler : r3 -> r3 -> r3 -> r3) (eqb : V -> V -> bool).
Fixpoint same_loop {k j} (fuel : nat) (a : fld (V := V) k) (b : fld (V := V) j) (i c : v3) : option (res bool) :=
  match fuel with
  | O => None
  | S n =>
      if v3_eqb i (it_end (f_dw a)) then Some (Ok true)
      else match (let* x := f_get a i in let* y := f_get b c in Ok (eqb x y)) with
           | Ok true => same_loop n a b (it_next (f_dw a) i) (it_next (f_dw b) c)
           | Ok false => Some (Ok false)
           | Exn => Some Exn
           | UB => Some UB
           end
  end.
Definition is_identical {k j} (fuel : nat) (a : mfield (V := V) k) (b : mfield (V := V) j) : option (res bool) :=
  match same_definition euler a b 0 with
  | Ok true => same_loop fuel (c_fld a) (c_fld b) (it_begin (f_dw (c_fld a))) (it_begin (f_dw (c_fld b)))
  | r => Some r
  end.
End Identical.
