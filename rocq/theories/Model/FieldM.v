(** Model of the geometry and iteration code of [export/Field.h]. *)
From Coq Require Import ZArith List Bool.
From Verif Require Import Model.Base.
Import ListNotations.
Open Scope Z_scope.

(** export/Field.h:256-257 [FieldRes::dataResolution]. *)
Definition data_resolution (dw : box) : v3 :=
  v3_add (v3_sub (bmax dw) (bmin dw)) (V3 1 1 1).

(** export/Field.h:362-372 [FieldRes::isInBounds]. *)
Definition is_in_bounds (dw : box) (i j k : Z) : bool :=
  if (i <? vx (bmin dw)) || (i >? vx (bmax dw)) ||
     (j <? vy (bmin dw)) || (j >? vy (bmax dw)) ||
     (k <? vz (bmin dw)) || (k >? vz (bmax dw))
  then false else true.

(** export/Field.h:289-293 [FieldRes::voxelCount]: the product is computed in
    [int], so a field with 2^31 voxels or more overflows. *)
Definition voxel_count (dw : box) : res Z :=
  let r := v3_add (box_size dw) (V3 1 1 1) in
  let* xy := i32 (vx r * vy r) in
  i32 (xy * vz r).

(** export/Field.h:519-534 [Field::const_iterator::operator++], same code at
    720-735 [WritableField::iterator::operator++].  The state of the iterator is
    its position; [w] is [m_window]. *)
Definition it_next (w : box) (p : v3) : v3 :=
  if vx p =? vx (bmax w) then
    if vy p =? vy (bmax w) then V3 (vx (bmin w)) (vy (bmin w)) (vz p + 1)
    else V3 (vx (bmin w)) (vy p + 1) (vz p)
  else V3 (vx p + 1) (vy p) (vz p).

(** export/Field.h:591-597 [cend], 603-609 [cend(subset)]; 787-793 [end],
    797-804 [end(subset)]. *)
Definition it_end (w : box) : v3 := V3 (vx (bmin w)) (vy (bmin w)) (vz (bmax w) + 1).

(** export/Field.h:569-574 [cbegin()], 766-773 [begin()]. *)
Definition it_begin (dw : box) : v3 :=
  if v3_eqb (data_resolution dw) (V3 0 0 0) then it_end dw else bmin dw.

(** export/Field.h:580-585 [cbegin(subset)], 776-783 [begin(subset)]. *)
Definition it_begin_sub (s : box) : v3 :=
  if box_empty s then it_end s else bmin s.

(** The user's loop [for (i = cbegin(); i != cend(); ++i)] (comparison of x, y and
    z, export/Field.h:536-545), over the whole field and over a sub-box. *)
Definition iterate (fuel : nat) (dw : box) : option (list v3) :=
  for_loop fuel (fun p => v3_eqb p (it_end dw)) (it_next dw) (it_begin dw).
Definition iterate_sub (fuel : nat) (s : box) : option (list v3) :=
  for_loop fuel (fun p => v3_eqb p (it_end s)) (it_next s) (it_begin_sub s).

(** export/Field.h:1161-1169 [advance(iter, num)]. *)
Fixpoint it_advance (w : box) (n : nat) (p : v3) : v3 :=
  match n with O => p | S m => it_advance w m (it_next w p) end.

(** export/Field.h:1175-1183 [advance(iter, num, end)]: stops at [e]. *)
Fixpoint it_advance_end (w : box) (n : nat) (e : v3) (p : v3) : v3 :=
  match n with
  | O => p
  | S m => if v3_eqb p e then p else it_advance_end w m e (it_next w p)
  end.

(** export/Field.h:1145-1155 [clipBounds]. *)
Definition clip_bounds (b c : box) : box :=
  Box (V3 (Z.max (vx (bmin b)) (vx (bmin c)))
          (Z.max (vy (bmin b)) (vy (bmin c)))
          (Z.max (vz (bmin b)) (vz (bmin c))))
      (V3 (Z.min (vx (bmax b)) (vx (bmax c)))
          (Z.min (vy (bmax b)) (vy (bmax c)))
          (Z.min (vz (bmax b)) (vz (bmax c)))).

(** export/Field.h:1187-1193 [indexToCoord].  Division by zero is [UB]. *)
Definition index_to_coord (idx : Z) (r : v3) : res v3 :=
  if (vx r =? 0) || (vy r =? 0) then UB
  else Ok (V3 (idx mod vx r) ((idx / vx r) mod vy r) (idx / (vx r * vy r))).

(** export/Field.h:913-925, 930-936, 941-948, 953-962: what the four [setSize]
    overloads assign to (extents, data window). *)
Definition size_v (s : v3) : box * box :=
  let e := Box (V3 0 0 0) (v3_sub s (V3 1 1 1)) in (e, e).
Definition size_box (e : box) : box * box := (e, e).
Definition size_box2 (e dw : box) : box * box := (e, dw).
Definition size_pad (s : v3) (pad : Z) : box * box :=
  (Box (V3 0 0 0) (v3_sub s (V3 1 1 1)),
   Box (V3 (- pad) (- pad) (- pad)) (v3_add s (V3 (pad - 1) (pad - 1) (pad - 1)))).
