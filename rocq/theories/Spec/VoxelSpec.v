(** Specification vocabulary for voxel boxes and fields as plain maps.
    Only [v3] and [box] are shared with the model. *)
From Coq Require Import ZArith List Sorting.Sorted.
From Verif Require Import Model.Base.
Import ListNotations.
Open Scope Z_scope.

(** A voxel is in a box: closed on both sides. *)
Definition in_box (p : v3) (b : box) : Prop :=
  vx (bmin b) <= vx p <= vx (bmax b) /\
  vy (bmin b) <= vy p <= vy (bmax b) /\
  vz (bmin b) <= vz p <= vz (bmax b).

Definition box_nonempty (b : box) : Prop :=
  vx (bmin b) <= vx (bmax b) /\ vy (bmin b) <= vy (bmax b) /\ vz (bmin b) <= vz (bmax b).

Definition sub_box (a b : box) : Prop := forall p, in_box p a -> in_box p b.

(** x-fastest order: z is most significant, then y, then x. *)
Definition before (p q : v3) : Prop :=
  vz p < vz q \/
  (vz p = vz q /\ (vy p < vy q \/ (vy p = vy q /\ vx p < vx q))).

(** [l] lists each voxel of [b] exactly once, in x-fastest order. *)
Definition visits_box (l : list v3) (b : box) : Prop :=
  (forall p, In p l <-> in_box p b) /\ NoDup l /\ StronglySorted before l.

(** Number of voxels of a box. *)
Definition extent (lo hi : Z) : Z := Z.max 0 (hi - lo + 1).
Definition box_count (b : box) : Z :=
  extent (vx (bmin b)) (vx (bmax b)) *
  extent (vy (bmin b)) (vy (bmax b)) *
  extent (vz (bmin b)) (vz (bmax b)).

(** All corners fit a C++ [int] with room for [max - min + 1], and the products of
    the resolutions (the voxel count, for a non-empty box) are below 2^31. *)
Definition int_box (b : box) : Prop :=
  let rx := vx (bmax b) - vx (bmin b) + 1 in
  let ry := vy (bmax b) - vy (bmin b) + 1 in
  let rz := vz (bmax b) - vz (bmin b) + 1 in
  (forall c, In c [vx (bmin b); vy (bmin b); vz (bmin b); vx (bmax b); vy (bmax b); vz (bmax b)]
             -> - 2 ^ 30 < c < 2 ^ 30 - 1) /\
  Z.abs (rx * ry) < 2 ^ 31 /\ Z.abs (rx * ry * rz) < 2 ^ 31.

(** A field as a plain map: the specification that dense and sparse fields refine. *)
Record amap (V : Type) : Type := AMap { a_ext : box; a_dw : box; a_val : v3 -> V }.
Arguments AMap {V}. Arguments a_ext {V}. Arguments a_dw {V}. Arguments a_val {V}.

Definition v3_dec (p q : v3) : {p = q} + {p <> q}.
Proof. decide equality; apply Z.eq_dec. Defined.

Definition upd {V} (m : v3 -> V) (p : v3) (v : V) : v3 -> V :=
  fun q => if v3_dec q p then v else m q.
