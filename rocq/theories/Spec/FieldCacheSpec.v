(** Sparse fields as plain values: whatever is loaded lazily, copied, assigned or evicted,
    a field is a map over its data window. *)
From Coq Require Import ZArith List Bool Arith.
From Verif Require Import Model.Base Model.SparseM Model.CacheM Model.FieldCacheM
  Spec.VoxelSpec Spec.SparseSpec Spec.CacheSpec.
Import ListNotations.
Open Scope Z_scope.

Section S.
Context {V : Type}.
Variable zero : V.
Variable eqb : V -> V -> bool.

(** The in-memory field [f], made by a legal history of public operations, holds the map
    [m]. *)
Definition field_map (f : sparse V) (m : smap V) : Prop :=
  exists l f0, slegal zero (sspec_init zero) l /\ sparse_init zero = Ok f0 /\
    sparse_run zero eqb f0 l = Ok f /\ m = sspec_run zero (sspec_init zero) l.

(** A field the user has: its data type, whether it loads its blocks on demand, its map. *)
Record afield : Type := AField { af_type : nat; af_lazy : bool; af_map : smap V }.
Definition afields : Type := list (option afield).

(** Operations that replace all voxels. *)
Definition replaces (x : sop V) : bool :=
  match x with SSize _ _ | SOrder _ | SClear _ => true | _ => false end.

(** What each operation means, for the operations a careful user makes: fields that are
    named are alive, voxels are in the data window, sizes can be allocated, and single
    voxels or blocks are only written in fields that are held in memory.  The last argument
    is what the operation returns. *)
Inductive means : afields -> lop V -> afields -> list V -> Prop :=
| m_open a t f m elem : field_map f m -> 0 < elem ->
    means a (LOpen t (hollow f) (stored f elem)) (a ++ [Some (AField t true m)]) []
| m_new a t : means a (LNew t) (a ++ [Some (AField t false (sspec_init zero))]) []
| m_copy a j x : nth_error a j = Some (Some x) -> means a (LCopy j) (a ++ [Some x]) []
| m_assign a i j x y : nth_error a i = Some (Some x) -> nth_error a j = Some (Some y) ->
    af_type x = af_type y -> means a (LAssign i j) (list_set a i (Some y)) []
| m_edit a i x o : nth_error a i = Some (Some x) -> slegal zero (af_map x) [o] ->
    (af_lazy x = true -> replaces o = true) ->
    means a (LEdit i o)
          (list_set a i (Some (AField (af_type x) (af_lazy x) (sspec_step zero (af_map x) o)))) []
| m_read a i x p : nth_error a i = Some (Some x) -> in_box p (sm_dw (af_map x)) ->
    means a (LRead i p) a [sm_val (af_map x) p]
| m_destroy a i x : nth_error a i = Some (Some x) -> means a (LDestroy i) (list_set a i None) []
| m_flush a : means a LFlush a []
| m_max a m : means a (LSetMax m) a []
| m_limit a b : means a (LSetLimit b) a [].
Inductive means_all : afields -> list (lop V) -> afields -> list V -> Prop :=
| ma_nil a : means_all a [] a []
| ma_cons a o a1 v h a2 v' : means a o a1 v -> means_all a1 h a2 v' ->
    means_all a (o :: h) a2 (v ++ v').

(** The field whose block array an operation throws away. *)
Definition overwritten (o : lop V) : option nat :=
  match o with
  | LAssign i j => if Nat.eqb i j then None else Some i
  | LEdit i x => if replaces x then Some i else None
  | _ => None
  end.
(** Field [i] is loaded on demand and one of its blocks is in the cache. *)
Definition in_memory (w : lworld V) (i : nat) : Prop :=
  exists o k, nth_error (l_objs w) i = Some (Some o) /\ o_lazy o = true /\
    In (o_type o, o_id o, k) (cached (l_cache w)).
(** No operation of the history throws away the blocks of a field that has blocks in the
    cache. *)
Definition careful_step (w : lworld V) (o : lop V) : Prop :=
  forall i, overwritten o = Some i -> ~ in_memory w i.
Fixpoint careful (fuel : nat) (w : lworld V) (h : list (lop V)) : Prop :=
  match h with
  | [] => True
  | o :: r => careful_step w o /\
      forall w' v, lstep zero eqb fuel w o = Some (Ok (w', v)) -> careful fuel w' r
  end.

(** The state after some history of this kind, and the values of the fields in it. *)
Definition lreached (a : afields) (w : lworld V) : Prop :=
  exists fuel h v, means_all [] h a v /\ careful fuel l_init h /\
    lrun zero eqb fuel l_init h = Some (Ok (w, v)).
End S.
Arguments afield : clear implicits.
Arguments afields : clear implicits.
