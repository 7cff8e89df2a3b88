(** Model of export/MACField.h, export/MACFieldUtil.h and the MAC interpolators of
    export/FieldInterp.h, in exact arithmetic. *)
From Coq Require Import ZArith Reals List Bool.
From Verif Require Import Model.Base Model.LoopM Model.FieldM Model.RealM Model.VecM Model.MatM Model.DenseM Model.InterpM.
Import ListNotations.
Open Scope Z_scope.

(** export/MACField.h:71-75 [MACComponent]. *)
Inductive component : Type := CompU | CompV | CompW.

(** The storage of one component: [m_u], [m_uSize], [m_uSizeXY] and the same for v and w
    (export/MACField.h:303-323). *)
Record comp : Type := Comp { c_size : v3; c_xy : Z; c_data : list R }.
Record mac : Type := Mac { m_ext : box; m_dw : box; m_u : comp; m_v : comp; m_w : comp; m_dummy : r3 }.
Definition comp_of (m : mac) (c : component) : comp :=
  match c with CompU => m_u m | CompV => m_v m | CompW => m_w m end.
Definition set_comp (m : mac) (c : component) (d : comp) : mac :=
  match c with
  | CompU => Mac (m_ext m) (m_dw m) d (m_v m) (m_w m) (m_dummy m)
  | CompV => Mac (m_ext m) (m_dw m) (m_u m) d (m_w m) (m_dummy m)
  | CompW => Mac (m_ext m) (m_dw m) (m_u m) (m_v m) d (m_dummy m)
  end.

(** export/MACField.h:610-615 and export/Field.h:325-331: a default-constructed field.  The
    size members are not initialised; no index is legal before the first resize, so their
    value does not matter and zero is used. *)
Definition mac_init : mac :=
  let b := Box (V3 0 0 0) (V3 (-1) (-1) (-1)) in let c := Comp (V3 0 0 0) 0 [] in Mac b b c c c (R3 0 0 0).

(** The vector that is added for a component, export/MACField.h:588-597, 673-675. *)
Definition comp_axis (c : component) : v3 :=
  match c with CompU => V3 1 0 0 | CompV => V3 0 1 0 | CompW => V3 0 0 1 end.
(** export/MACField.h:586-602 [makeDataWindowForComponent]. *)
Definition component_window (dw : box) (c : component) : box := Box (bmin dw) (v3_add (bmax dw) (comp_axis c)).

(** [std::vector<real_t>::resize]: keeps what fits, new elements are zero. *)
Definition resize (n : nat) (l : list R) : list R := firstn n l ++ repeat 0%R (n - length l).
(** export/MACField.h:673-690, for one component: its size, slice size and storage. *)
Definition resize_comp (base : v3) (c : component) (old : comp) : res comp :=
  let s := v3_add base (comp_axis c) in
  let* _ := i32 (vx s) in let* _ := i32 (vy s) in let* _ := i32 (vz s) in
  let* xy := i32 (vx s * vy s) in
  let* n := i32 (xy * vz s) in
  Ok (Comp s xy (resize (Z.to_nat n) (c_data old))).
(** export/MACField.h:658-692 [sizeChanged] after the assignments of
    export/Field.h:941-948 [setSize(extents, dataWindow)].  Returns the new state and
    whether the call threw.  Allocation failure is not modelled. *)
Definition mac_set_size (e dw : box) (m : mac) : res (mac * bool) :=
  let* x := i32 (vx (bmax dw) - vx (bmin dw) + 1) in
  let* y := i32 (vy (bmax dw) - vy (bmin dw) + 1) in
  let* z := i32 (vz (bmax dw) - vz (bmin dw) + 1) in
  if Z.min (Z.min x y) z <? 0 then Ok (Mac e dw (m_u m) (m_v m) (m_w m) (m_dummy m), true)
  else
    let* u := resize_comp (V3 x y z) CompU (m_u m) in
    let* v := resize_comp (V3 x y z) CompV (m_v m) in
    let* w := resize_comp (V3 x y z) CompW (m_w m) in
    Ok (Mac e dw u v w (m_dummy m), false).

(** The index expression of export/MACField.h:696-806 [u], [v], [w] and 918-992 [uPtr],
    [vPtr], [wPtr]. *)
Definition comp_index (m : mac) (c : component) (p : v3) : res Z :=
  let d := comp_of m c in
  let* i := i32 (vx p - vx (bmin (m_dw m))) in
  let* j := i32 (vy p - vy (bmin (m_dw m))) in
  let* k := i32 (vz p - vz (bmin (m_dw m))) in
  let* jx := i32 (j * vx (c_size d)) in
  let* kxy := i32 (k * c_xy d) in
  let* s := i32 (i + jx) in
  i32 (s + kxy).
(** export/MACField.h:696-806: reading and assigning a face.  Asserts are compiled out. *)
Definition face (m : mac) (c : component) (p : v3) : res R :=
  let* ix := comp_index m c p in arr_get (c_data (comp_of m c)) ix.
Definition set_face (m : mac) (c : component) (p : v3) (x : R) : res mac :=
  let* ix := comp_index m c p in
  let* d := arr_set (c_data (comp_of m c)) ix x in
  Ok (set_comp m c (Comp (c_size (comp_of m c)) (c_xy (comp_of m c)) d)).

(** export/MACField.h:233-246 [uCenter], [vCenter], [wCenter]. *)
Definition center (m : mac) (c : component) (p : v3) : res R :=
  let* a := face m c p in
  let* b := face m c (v3_add p (comp_axis c)) in
  Ok ((a + b) * (1 / 2))%R.
(** export/MACField.h:630-633 [value]. *)
Definition mac_value (m : mac) (p : v3) : res r3 :=
  let* x := center m CompU p in let* y := center m CompV p in let* z := center m CompW p in Ok (R3 x y z).
(** export/MACField.h:649-653 [lvalue], and an assignment through it: only [m_dummy]
    changes. *)
Definition mac_write (m : mac) (p : v3) (x : r3) : res mac :=
  let* _ := mac_value m p in Ok (Mac (m_ext m) (m_dw m) (m_u m) (m_v m) (m_w m) x).
(** export/MACField.h:620-625 [clear]. *)
Definition fill (d : comp) (x : R) : comp := Comp (c_size d) (c_xy d) (map (fun _ => x) (c_data d)).
Definition mac_clear (m : mac) (x : r3) : mac :=
  Mac (m_ext m) (m_dw m) (fill (m_u m) (rx x)) (fill (m_v m) (ry x)) (fill (m_w m) (rz x)) (m_dummy m).

(** export/MACField.h:250-256 [copyMAC]; [matchDefinition] is export/Field.h:1003-1007 (the
    mapping is not modelled here).  An exception of the resize passes through. *)
Definition copy_into (src dst : list R) : res (list R) :=
  if (length src <=? length dst)%nat then Ok (src ++ skipn (length src) dst) else UB.
Definition copy_comp (src dst : comp) : res comp :=
  let* d := copy_into (c_data src) (c_data dst) in Ok (Comp (c_size dst) (c_xy dst) d).
Definition copy_mac (m other : mac) : res mac :=
  let* (m', thrown) := mac_set_size (m_ext other) (m_dw other) m in
  if (thrown : bool) then Exn else
  let* u := copy_comp (m_u other) (m_u m') in
  let* v := copy_comp (m_v other) (m_v m') in
  let* w := copy_comp (m_w other) (m_w m') in
  Ok (Mac (m_ext m') (m_dw m') u v w (m_dummy m')).

(** The iterators of a component, export/MACField.h:358-578, are the code of
    [DenseField]'s (export/DenseField.h:257-439) on the buffer of the component, so the
    model of those is used on a view of it. *)
Definition view (m : mac) (c : component) : dense R :=
  Dense (m_ext m) (component_window (m_dw m) c) (c_size (comp_of m c)) (c_xy (comp_of m c)) (c_data (comp_of m c)).
(** export/MACField.h:810-914 [cbegin_comp], [cend_comp] (and the non-const ones), with and
    without a sub-box. *)
Definition comp_begin (m : mac) (c : component) : res diter :=
  if v3_eqb (data_resolution (m_dw m)) (V3 0 0 0)
  then diter_make (view m c) (component_window (m_dw m) c) (it_end (component_window (m_dw m) c))
  else diter_make (view m c) (component_window (m_dw m) c) (bmin (component_window (m_dw m) c)).
Definition comp_begin_sub (m : mac) (c : component) (s : box) : res diter :=
  if box_empty s then diter_make (view m c) (component_window s c) (it_end (component_window s c))
  else diter_make (view m c) (component_window s c) (bmin s).
Definition comp_end_sub (m : mac) (c : component) (s : box) : res diter :=
  diter_make (view m c) (component_window s c) (it_end (component_window s c)).
(** [for (i = begin_comp(c, s); i != end_comp(c, s); ++i)] and the loop over the field. *)
Definition comp_iterate_sub (fuel : nat) (m : mac) (c : component) (s : box) : option (res (list diter)) :=
  match comp_begin_sub m c s, comp_end_sub m c s with
  | Ok b, Ok e => diter_loop fuel (view m c) (component_window s c) e b
  | _, _ => Some UB
  end.
Definition comp_iterate (fuel : nat) (m : mac) (c : component) : option (res (list diter)) :=
  match comp_begin m c, comp_end_sub m c (m_dw m) with
  | Ok b, Ok e => diter_loop fuel (view m c) (component_window (m_dw m) c) e b
  | _, _ => Some UB
  end.

(** Operations as histories. *)
Inductive mop : Type :=
| MSize (e dw : box)
| MClear (x : r3)
| MFace (c : component) (p : v3) (x : R)
| MWrite (p : v3) (x : r3).
Definition mac_step (m : mac) (o : mop) : res mac :=
  match o with
  | MSize e dw => let* (m', _) := mac_set_size e dw m in Ok m'
  | MClear x => Ok (mac_clear m x)
  | MFace c p x => set_face m c p x
  | MWrite p x => mac_write m p x
  end.
Fixpoint mac_run (m : mac) (l : list mop) : res mac :=
  match l with [] => Ok m | o :: t => let* m' := mac_step m o in mac_run m' t end.

(** ** Conversion *)

(** [M44d().rotate(r)]: rotation by Euler angles in XYZ order (Imath, documented). *)
Definition rotation (r : r3) : m44 :=
  let cx := cos (rx r) in let cy := cos (ry r) in let cz := cos (rz r) in
  let sx := sin (rx r) in let sy := sin (ry r) in let sz := sin (rz r) in
  (M44 (R4 (cz * cy) (sz * cy) (- sy) 0)
       (R4 (- sz * cx + cz * sy * sx) (cz * cx + sz * sy * sx) (cy * sx) 0)
       (R4 (- sz * - sx + cz * sy * cx) (cz * - sx + sz * sy * cx) (cy * cx) 0)
       (R4 0 0 0 1))%R.
Definition neg3 (r : r3) : r3 := (R3 (- rx r) (- ry r) (- rz r))%R.
(** [v * M] for a vector and a matrix; a zero weight is not finite. *)
Definition times (x : r3) (m : m44) : res r3 := match mult_vec m x with Some y => Ok y | None => UB end.
Definition flt_epsilon : R := (/ 2 ^ 23)%R.

(** export/MACFieldUtil.h:77-127 [convertMACToCellCentered] into a dense field.  [rot] is
    the rotation that [extractSHRT] finds in a matrix mapping, [None] for another kind of
    mapping or a singular matrix; [extractSHRT] is Imath's and is not modelled.  The
    mappings themselves are left out.  The loop over the iterator visits the window in
    x-fastest order (C03). *)
Definition mac_to_cells (rot : option r3) (m : mac) (cc : dense r3) : res (dense r3) :=
  let* cc' :=
    (if box_eqb (d_ext cc) (m_ext m) && box_eqb (d_dw cc) (m_dw m) then Ok cc
     else let* (d, thrown) := dense_set_size (R3 0 0 0) (m_ext m) (m_dw m) cc in if (thrown : bool) then Exn else Ok d) in
  each (fun p d =>
      let* x := mac_value m p in
      let* y := (match rot with
                 | Some r => if rltb flt_epsilon (rx r * rx r + ry r * ry r + rz r * rz r) then times x (rotation r) else Ok x
                 | None => Ok x
                 end) in
      dense_write d p y)
    (box_voxels (d_dw cc')) cc'.

(** export/MACFieldUtil.h:170-190: the copy of the cell-centred field rotated to the axes
    of the mapping.  [matchDefinition] resizes it. *)
Definition rotated (rot : option r3) (cc : dense r3) : res (dense r3) :=
  match rot with
  | None => Ok cc
  | Some r =>
      let* (d, thrown) := dense_set_size (R3 0 0 0) (d_ext cc) (d_dw cc) dense_init in
      if (thrown : bool) then Exn else
      each (fun p d => let* x := dense_value cc p in let* y := times x (rotation (neg3 r)) in dense_write d p y)
        (box_voxels (d_dw cc)) d
  end.
Definition part (c : component) (x : r3) : R := match c with CompU => rx x | CompV => ry x | CompW => rz x end.
(** export/MACFieldUtil.h:192-214: the two outermost faces of every line of cells. *)
Definition low_end (dw : box) (c : component) : box :=
  match c with
  | CompU => Box (bmin dw) (V3 (vx (bmin dw)) (vy (bmax dw)) (vz (bmax dw)))
  | CompV => Box (bmin dw) (V3 (vx (bmax dw)) (vy (bmin dw)) (vz (bmax dw)))
  | CompW => Box (bmin dw) (V3 (vx (bmax dw)) (vy (bmax dw)) (vz (bmin dw)))
  end.
Definition to_high (dw : box) (c : component) (p : v3) : v3 :=
  match c with
  | CompU => V3 (vx (bmax dw)) (vy p) (vz p)
  | CompV => V3 (vx p) (vy (bmax dw)) (vz p)
  | CompW => V3 (vx p) (vy p) (vz (bmax dw))
  end.
Definition set_ends (src : dense r3) (c : component) (m : mac) : res mac :=
  each (fun p m =>
      let* a := dense_value src p in
      let* m1 := set_face m c p (part c a) in
      let q := to_high (m_dw m) c p in
      let* b := dense_value src q in
      set_face m1 c (v3_add q (comp_axis c)) (part c b))
    (box_voxels (low_end (m_dw m) c)) m.
(** export/MACFieldUtil.h:217-243: the faces between two cells. *)
Definition set_inner (src : dense r3) (c : component) (m : mac) : res mac :=
  each (fun p m =>
      let* a := dense_value src p in
      let* b := dense_value src (v3_sub p (comp_axis c)) in
      set_face m c p ((part c a + part c b) * (1 / 2))%R)
    (box_voxels (Box (v3_add (bmin (m_dw m)) (comp_axis c)) (bmax (m_dw m)))) m.
(** export/MACFieldUtil.h:131-244 [convertCellCenteredToMAC] from a dense field. *)
Definition cells_to_mac (rot : option r3) (cc : dense r3) (m : mac) : res mac :=
  let* m0 :=
    (if box_eqb (m_ext m) (d_ext cc) && box_eqb (m_dw m) (d_dw cc) then Ok m
     else let* (d, thrown) := mac_set_size (d_ext cc) (d_dw cc) m in if (thrown : bool) then Exn else Ok d) in
  let* src := rotated rot cc in
  let* m1 := set_ends src CompU m0 in
  let* m2 := set_ends src CompV m1 in
  let* m3 := set_ends src CompW m2 in
  let* m4 := set_inner src CompU m3 in
  let* m5 := set_inner src CompV m4 in
  set_inner src CompW m5.

(** ** Interpolation *)

(** The position of a component's samples: export/FieldInterp.h:833, 869, 907: faces are at
    integer coordinates on their own axis and at half coordinates on the others. *)
Definition own (c : component) : r3 :=
  match c with CompU => R3 0 (1 / 2) (1 / 2) | CompV => R3 (1 / 2) 0 (1 / 2) | CompW => R3 (1 / 2) (1 / 2) 0 end%R.
(** export/FieldInterp.h:948-1075 [LinearMACFieldInterp::sample] of one component. *)
Definition mac_linear_one (m : mac) (c : component) (vsP : r3) : res R :=
  let* (ax, bx, f1x, f2x) := corner (rx vsP - rx (own c))%R in
  let* (ay, by_, f1y, f2y) := corner (ry vsP - ry (own c))%R in
  let* (az, bz, f1z, f2z) := corner (rz vsP - rz (own c))%R in
  let w := component_window (m_dw m) c in
  let cx := clamp_out (vx (bmin w)) (vx (bmax w)) in
  let cy := clamp_out (vy (bmin w)) (vy (bmax w)) in
  let cz := clamp_out (vz (bmin w)) (vz (bmax w)) in
  stencil (face m c) (V3 (cx ax) (cy ay) (cz az)) (V3 (cx bx) (cy by_) (cz bz)) (R3 f1x f1y f1z) (R3 f2x f2y f2z).
(** export/FieldInterp.h:817-941 [LinearMACFieldInterp::sample]: the same code for the
    three components. *)
Definition mac_linear (m : mac) (vsP : r3) : res r3 :=
  let* x := mac_linear_one m CompU vsP in let* y := mac_linear_one m CompV vsP in
  let* z := mac_linear_one m CompW vsP in Ok (R3 x y z).

(** One axis of export/FieldInterp.h:1219-1252, 1332-1358, 1440-1465. *)
Definition mac_cubic_axis (own_axis : bool) (lo hi : Z) (x : R) : res (Z * Z * Z * Z * R) :=
  let p := (if own_axis then x else Rmax (1 / 2) x - 1 / 2)%R in
  let* c := int_floor p in
  let t := (p - IZR c)%R in
  let im := clamp_in lo hi c in
  let* a := i32 (im - 1) in
  let* b := i32 (im + 1) in
  let* d := i32 (im + 2) in
  Ok (clamp_in lo hi a, im, clamp_in lo hi b, clamp_in lo hi d, t).
(** export/FieldInterp.h:1205-1541 [CubicMACFieldInterp::sample]. *)
Definition mac_cubic_one (m : mac) (c : component) (vsP : r3) : res R :=
  let w := component_window (m_dw m) c in
  let* i := mac_cubic_axis (match c with CompU => true | _ => false end) (vx (bmin w)) (vx (bmax w)) (rx vsP) in
  let* j := mac_cubic_axis (match c with CompV => true | _ => false end) (vy (bmin w)) (vy (bmax w)) (ry vsP) in
  let* k := mac_cubic_axis (match c with CompW => true | _ => false end) (vz (bmin w)) (vz (bmax w)) (rz vsP) in
  let '(i_1, i0, i1, i2, t) := i in
  let* a := cubic_plane (face m c) i_1 j k in
  let* b := cubic_plane (face m c) i0 j k in
  let* e := cubic_plane (face m c) i1 j k in
  let* d := cubic_plane (face m c) i2 j k in
  Ok (cubic a b e d t).
Definition mac_cubic (m : mac) (vsP : r3) : res r3 :=
  let* x := mac_cubic_one m CompU vsP in let* y := mac_cubic_one m CompV vsP in
  let* z := mac_cubic_one m CompW vsP in Ok (R3 x y z).
