(** Model of [export/DenseField.h]. *)
From Coq Require Import ZArith List Bool.
From Verif Require Import Model.Base Model.FieldM.
Import ListNotations.
Open Scope Z_scope.

(** [max - min + V3i(1)] along one axis, computed in [int]: export/DenseField.h:650,
    src/FieldMapping.cpp:149. *)
Definition axis_size (lo hi : Z) : res Z := let* d := i32 (hi - lo) in i32 (d + 1).

Section Dense.
Context {V : Type}.
(** [Data_T()] : the value-initialised element. *)
Variable dflt : V.

(** The data members of [DenseField] (export/DenseField.h:236-243) and the two
    windows inherited from [FieldRes].  The mapping is modelled elsewhere. *)
Record dense : Type := Dense {
  d_ext : box; d_dw : box; d_mem : v3; d_memXY : Z; d_data : list V }.

(** export/DenseField.h:446-451 and export/Field.h:325-331: a default-constructed
    field. *)
Definition dense_init : dense :=
  let b := Box (V3 0 0 0) (V3 (-1) (-1) (-1)) in Dense b b (V3 0 0 0) 0 [].

(** export/DenseField.h:644-673 [sizeChanged], preceded by the assignments of
    [setSize(extents, dataWindow)] export/Field.h:941-948.  Returns the new state
    and whether the call threw.  The differences, sums and products are computed in [int].
    Allocation failure ([bad_alloc]) is not modelled.  The call of the base class, which computes
    the size of the extents in the same way, is modelled in Model/ForeignM.v only. *)
Definition dense_set_size (e dw : box) (f : dense) : res (dense * bool) :=
  let* mx := axis_size (vx (bmin dw)) (vx (bmax dw)) in
  let* my := axis_size (vy (bmin dw)) (vy (bmax dw)) in
  let* mz := axis_size (vz (bmin dw)) (vz (bmax dw)) in
  let* mxy := i32 (mx * my) in
  if (vx (bmax dw) <? vx (bmin dw)) || (vy (bmax dw) <? vy (bmin dw)) ||
     (vz (bmax dw) <? vz (bmin dw))
  then Ok (Dense e dw (V3 mx my mz) mxy (d_data f), true)
  else
    let* n := i32 (mxy * mz) in
    Ok (Dense e dw (V3 mx my mz) mxy (repeat dflt (Z.to_nat n)), false).

(** The index expression of export/DenseField.h:528-532, 547-551, 681-685, 693-697
    ([fastValue], [fastLValue], [ptr]), evaluated in [int]. *)
Definition dense_index (f : dense) (i j k : Z) : res Z :=
  let* i' := i32 (i - vx (bmin (d_dw f))) in
  let* j' := i32 (j - vy (bmin (d_dw f))) in
  let* k' := i32 (k - vz (bmin (d_dw f))) in
  let* jx := i32 (j' * vx (d_mem f)) in
  let* kxy := i32 (k' * d_memXY f) in
  let* s := i32 (i' + jx) in
  i32 (s + kxy).

(** export/DenseField.h:519-533 [fastValue] (also [value], 493-496).  The asserts are
    compiled out in release builds; an index outside the buffer is [UB]. *)
Definition dense_value (f : dense) (p : v3) : res V :=
  let* ix := dense_index f (vx p) (vy p) (vz p) in arr_get (d_data f) ix.

(** export/DenseField.h:538-552 [fastLValue]: assignment through the reference. *)
Definition dense_write (f : dense) (p : v3) (v : V) : res dense :=
  let* ix := dense_index f (vx p) (vy p) (vz p) in
  let* d := arr_set (d_data f) ix v in
  Ok (Dense (d_ext f) (d_dw f) (d_mem f) (d_memXY f) d).

(** export/DenseField.h:456-459 [clear]. *)
Definition dense_clear (f : dense) (v : V) : dense :=
  Dense (d_ext f) (d_dw f) (d_mem f) (d_memXY f) (map (fun _ => v) (d_data f)).

(** export/DenseField.h:464-470 [numGrains] (computed in [int]). *)
Definition dense_num_grains (dw : box) : res Z :=
  let r := v3_add (box_size dw) (V3 1 1 1) in i32 (vy r * vz r).

(** export/DenseField.h:475-488 [getGrainBounds]. *)
Definition dense_grain_bounds (dw : box) (idx : Z) : res box :=
  let r := v3_add (box_size dw) (V3 1 1 1) in
  if vy r =? 0 then UB else
  let y := idx mod vy r in
  let z := idx / vy r in
  let s := v3_add (bmin dw) (V3 0 y z) in
  let e := v3_add (bmin dw) (V3 (vx r) y z) in
  Ok (clip_bounds (Box s e) dw).

(** export/DenseField.h:257-347 [const_iterator], 353-439 [iterator].  [m_p] is the
    index of the element pointed to, [None] for the null pointer.  The end test
    compares pointers ([m_p == &( *rhs)], 306-315): forming [&( *rhs)] from the null
    end pointer is formally undefined in C++ and read here as the null pointer. *)
Record diter : Type := DIter { di_pos : v3; di_p : option Z }.

(** export/DenseField.h:678-699 [ptr]: [&m_data[ix]]. *)
Definition dense_ptr (f : dense) (p : v3) : res Z :=
  let* ix := dense_index f (vx p) (vy p) (vz p) in
  if (0 <=? ix) && (ix <? Z.of_nat (length (d_data f))) then Ok ix else UB.

(** export/DenseField.h:276-285 constructor. *)
Definition diter_make (f : dense) (w : box) (p : v3) : res diter :=
  if box_has w p then let* ix := dense_ptr f p in Ok (DIter p (Some ix))
  else Ok (DIter p None).

(** export/DenseField.h:289-306 [operator++]; incrementing the null pointer is [UB]. *)
Definition diter_next (f : dense) (w : box) (it : diter) : res diter :=
  let p := di_pos it in
  if vx p =? vx (bmax w) then
    if vy p =? vy (bmax w) then
      if vz p =? vz (bmax w) then Ok (DIter p None)
      else let q := V3 (vx (bmin w)) (vy (bmin w)) (vz p + 1) in
           let* ix := dense_ptr f q in Ok (DIter q (Some ix))
    else let q := V3 (vx (bmin w)) (vy p + 1) (vz p) in
         let* ix := dense_ptr f q in Ok (DIter q (Some ix))
  else match di_p it with
       | Some ix => Ok (DIter (V3 (vx p + 1) (vy p) (vz p)) (Some (ix + 1)))
       | None => UB
       end.

Definition optZ_eqb (a b : option Z) : bool :=
  match a, b with
  | Some x, Some y => x =? y
  | None, None => true
  | _, _ => false
  end.

(** export/DenseField.h:556-640 [cbegin/cend/begin/end] over a sub-box [w]. *)
Definition diter_begin_sub (f : dense) (w : box) : res diter :=
  if box_empty w then diter_make f w (it_end w) else diter_make f w (bmin w).
Definition diter_end_sub (f : dense) (w : box) : res diter := diter_make f w (it_end w).
Definition diter_begin (f : dense) : res diter :=
  if v3_eqb (data_resolution (d_dw f)) (V3 0 0 0) then diter_make f (d_dw f) (it_end (d_dw f))
  else diter_make f (d_dw f) (bmin (d_dw f)).

(** [for (i = begin; i != end; ++i)]: the iterators at which the body runs. *)
Fixpoint diter_loop (fuel : nat) (f : dense) (w : box) (e : diter) (it : diter)
  : option (res (list diter)) :=
  match fuel with
  | O => None
  | S n =>
      if optZ_eqb (di_p it) (di_p e) then Some (Ok [])
      else match diter_next f w it with
           | Ok it' => match diter_loop n f w e it' with
                       | Some r => Some (let* l := r in Ok (it :: l))
                       | None => None
                       end
           | Exn => Some Exn
           | UB => Some UB
           end
  end.

Definition dense_iterate_sub (fuel : nat) (f : dense) (w : box) : option (res (list diter)) :=
  match diter_begin_sub f w, diter_end_sub f w with
  | Ok b, Ok e => diter_loop fuel f w e b
  | _, _ => Some UB
  end.
Definition dense_iterate (fuel : nat) (f : dense) : option (res (list diter)) :=
  match diter_begin f, diter_end_sub f (d_dw f) with
  | Ok b, Ok e => diter_loop fuel f (d_dw f) e b
  | _, _ => Some UB
  end.

(** The public operations, as histories. *)
Inductive dop : Type :=
| DSize (e dw : box)
| DClear (v : V)
| DWrite (p : v3) (v : V).

Definition dense_step (f : dense) (o : dop) : res dense :=
  match o with
  | DSize e dw => let* (f', _) := dense_set_size e dw f in Ok f'
  | DClear v => Ok (dense_clear f v)
  | DWrite p v => dense_write f p v
  end.

Fixpoint dense_run (f : dense) (l : list dop) : res dense :=
  match l with
  | [] => Ok f
  | o :: t => let* f' := dense_step f o in dense_run f' t
  end.
End Dense.
Arguments dense V : clear implicits.
Arguments dop V : clear implicits.
