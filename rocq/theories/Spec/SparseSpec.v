(** Specification of an in-memory sparse field: a map over a window plus a block
    side of 2^order voxels. *)
From Coq Require Import ZArith List Bool.
From Verif Require Import Model.Base Model.SparseM Spec.VoxelSpec.
Import ListNotations.
Open Scope Z_scope.

(** Number of blocks of side 2^o needed to cover [r] voxels. *)
Definition blocks_along (o r : Z) : Z := (r + 2 ^ o - 1) / 2 ^ o.

(** Voxels per axis of a window (an empty window is treated as one voxel, as the
    library does). *)
Definition res_of (dw : box) : v3 :=
  if box_empty dw then V3 1 1 1
  else V3 (vx (bmax dw) - vx (bmin dw) + 1)
          (vy (bmax dw) - vy (bmin dw) + 1)
          (vz (bmax dw) - vz (bmin dw) + 1).
Definition blocks_of (dw : box) (o : Z) : v3 :=
  V3 (blocks_along o (vx (res_of dw))) (blocks_along o (vy (res_of dw)))
     (blocks_along o (vz (res_of dw))).

(** The block containing voxel [p] is the one with coordinates [c]. *)
Definition in_block (dw : box) (o : Z) (p c : v3) : Prop :=
  vx c * 2 ^ o <= vx p - vx (bmin dw) < (vx c + 1) * 2 ^ o /\
  vy c * 2 ^ o <= vy p - vy (bmin dw) < (vy c + 1) * 2 ^ o /\
  vz c * 2 ^ o <= vz p - vz (bmin dw) < (vz c + 1) * 2 ^ o.
Definition in_blockb (dw : box) (o : Z) (p c : v3) : bool :=
  (vx c * 2 ^ o <=? vx p - vx (bmin dw)) && (vx p - vx (bmin dw) <? (vx c + 1) * 2 ^ o) &&
  (vy c * 2 ^ o <=? vy p - vy (bmin dw)) && (vy p - vy (bmin dw) <? (vy c + 1) * 2 ^ o) &&
  (vz c * 2 ^ o <=? vz p - vz (bmin dw)) && (vz p - vz (bmin dw) <? (vz c + 1) * 2 ^ o).

Definition block_in_grid (dw : box) (o : Z) (c : v3) : Prop :=
  0 <= vx c < vx (blocks_of dw o) /\ 0 <= vy c < vy (blocks_of dw o) /\
  0 <= vz c < vz (blocks_of dw o).

(** Block orders whose block volume fits an [int]. *)
Definition order_ok (o : Z) : Prop := 0 <= o <= 10.

(** Windows the caller may use: corners well inside [int], at most 2^24 voxels per
    axis, fewer than 2^31 blocks. *)
Definition window_ok (dw : box) (o : Z) : Prop :=
  (forall c, In c [vx (bmin dw); vy (bmin dw); vz (bmin dw);
                   vx (bmax dw); vy (bmax dw); vz (bmax dw)] -> - 2 ^ 30 < c < 2 ^ 30 - 1) /\
  vx (res_of dw) <= 2 ^ 24 /\ vy (res_of dw) <= 2 ^ 24 /\ vz (res_of dw) <= 2 ^ 24 /\
  vx (blocks_of dw o) * vy (blocks_of dw o) * vz (blocks_of dw o) < 2 ^ 31.

(** Abstract state: the map and the block order. *)
Record smap (V : Type) : Type := SMap { sm_map : amap V; sm_order : Z }.
Arguments SMap {V}. Arguments sm_map {V}. Arguments sm_order {V}.
Definition sm_dw {V} (a : smap V) := a_dw (sm_map a).
Definition sm_ext {V} (a : smap V) := a_ext (sm_map a).
Definition sm_val {V} (a : smap V) := a_val (sm_map a).

Definition sspec_step {V} (zero : V) (a : smap V) (o : sop V) : smap V :=
  match o with
  | SSize e dw => SMap (AMap e dw (fun _ => zero)) (sm_order a)
  | SOrder n => SMap (AMap (sm_ext a) (sm_dw a) (fun _ => zero)) n
  | SClear v => SMap (AMap (sm_ext a) (sm_dw a) (fun _ => v)) (sm_order a)
  | SWrite p v => SMap (AMap (sm_ext a) (sm_dw a) (upd (sm_val a) p v)) (sm_order a)
  | SBlockEmpty c v =>
      SMap (AMap (sm_ext a) (sm_dw a)
                 (fun p => if in_blockb (sm_dw a) (sm_order a) p c then v else sm_val a p))
           (sm_order a)
  | SRelease => a
  end.
Definition sspec_run {V} (zero : V) (a : smap V) (l : list (sop V)) : smap V :=
  fold_left (sspec_step zero) l a.
Definition sspec_init {V} (zero : V) : smap V :=
  SMap (AMap (Box (V3 0 0 0) (V3 (-1) (-1) (-1))) (Box (V3 0 0 0) (V3 (-1) (-1) (-1)))
             (fun _ => zero)) 4.

Fixpoint slegal {V} (zero : V) (a : smap V) (l : list (sop V)) : Prop :=
  match l with
  | [] => True
  | o :: t =>
      match o with
      | SSize _ dw => window_ok dw (sm_order a)
      | SOrder n => order_ok n /\ window_ok (sm_dw a) n
      | SClear _ => True
      | SWrite p _ => in_box p (sm_dw a)
      | SBlockEmpty c _ => block_in_grid (sm_dw a) (sm_order a) c
      | SRelease => True
      end /\ slegal zero (sspec_step zero a o) t
  end.

(** A field obtained by some legal history of public operations. *)
Definition sparse_reached {V} (zero : V) (eqb : V -> V -> bool) (f : sparse V) : Prop :=
  exists l f0, slegal zero (sspec_init zero) l /\ sparse_init zero = Ok f0 /\
    sparse_run zero eqb f0 l = Ok f.

(** [eqb] decides equality of values (C++ [operator==]; excludes NaN). *)
Definition decides_eq {V} (eqb : V -> V -> bool) : Prop := forall a b, eqb a b = true <-> a = b.

(** [l] lists, without repetition, the blocks satisfying [P]. *)
Definition lists_blocks (dw : box) (o : Z) (P : v3 -> Prop) (l : list v3) : Prop :=
  NoDup l /\ forall c, In c l <-> block_in_grid dw o c /\ P c.
