(** Specification of a MAC field: three independent maps from faces to values. *)
From Coq Require Import ZArith Reals List.
From Verif Require Import Model.Base Model.VecM Model.MacM Spec.VoxelSpec Spec.InterpSpec.
Import ListNotations.
Open Scope Z_scope.

(** [p] is a face of the window for component [c]: there is one more face than cells
    along the component's own axis. *)
Definition is_face (dw : box) (c : component) (p : v3) : Prop :=
  match c with
  | CompU => vx (bmin dw) <= vx p <= vx (bmax dw) + 1 /\ vy (bmin dw) <= vy p <= vy (bmax dw) /\ vz (bmin dw) <= vz p <= vz (bmax dw)
  | CompV => vx (bmin dw) <= vx p <= vx (bmax dw) /\ vy (bmin dw) <= vy p <= vy (bmax dw) + 1 /\ vz (bmin dw) <= vz p <= vz (bmax dw)
  | CompW => vx (bmin dw) <= vx p <= vx (bmax dw) /\ vy (bmin dw) <= vy p <= vy (bmax dw) /\ vz (bmin dw) <= vz p <= vz (bmax dw) + 1
  end.
(** The faces on the two sides of a cell, and the component of a vector. *)
Definition next (c : component) (p : v3) : v3 :=
  match c with
  | CompU => V3 (vx p + 1) (vy p) (vz p) | CompV => V3 (vx p) (vy p + 1) (vz p) | CompW => V3 (vx p) (vy p) (vz p + 1)
  end.
Definition prev (c : component) (p : v3) : v3 :=
  match c with
  | CompU => V3 (vx p - 1) (vy p) (vz p) | CompV => V3 (vx p) (vy p - 1) (vz p) | CompW => V3 (vx p) (vy p) (vz p - 1)
  end.
Definition coord (c : component) (x : r3) : R := match c with CompU => rx x | CompV => ry x | CompW => rz x end.

(** The specification state: [None] is a face that has no defined value since the last
    resize. *)
Record macmap : Type := MacMap { mm_ext : box; mm_dw : box; mm_face : component -> v3 -> option R }.
Definition comp_dec (c d : component) : {c = d} + {c <> d}.
Proof. decide equality. Defined.
Definition mspec_step (a : macmap) (o : mop) : macmap :=
  match o with
  | MSize e dw => MacMap e dw (fun _ _ => None)
  | MClear x => MacMap (mm_ext a) (mm_dw a) (fun c _ => Some (coord c x))
  | MFace c p x => MacMap (mm_ext a) (mm_dw a) (fun d q => if comp_dec d c then if v3_dec q p then Some x else mm_face a d q else mm_face a d q)
  | MWrite _ _ => a
  end.
Definition mspec_run (a : macmap) (l : list mop) : macmap := fold_left mspec_step l a.
Definition mspec_init : macmap :=
  let b := Box (V3 0 0 0) (V3 (-1) (-1) (-1)) in MacMap b b (fun _ _ => None).
(** Windows fit [int] for every component; accesses stay inside the window. *)
Definition int_window (dw : box) : Prop :=
  int_box dw /\ int_box (Box (bmin dw) (next CompU (bmax dw))) /\ int_box (Box (bmin dw) (next CompV (bmax dw))) /\
  int_box (Box (bmin dw) (next CompW (bmax dw))).
Fixpoint mlegal (a : macmap) (l : list mop) : Prop :=
  match l with
  | [] => True
  | o :: t =>
      match o with
      | MSize _ dw => int_window dw
      | MClear _ => True
      | MFace c p _ => is_face (mm_dw a) c p
      | MWrite p _ => in_box p (mm_dw a)
      end /\ mlegal (mspec_step a o) t
  end.

(** The value a face gets from cell values [m]: the mean of the two cells it separates,
    at the border of the window the value of the only one. *)
Definition from_cells (dw : box) (m : v3 -> r3) (c : component) (p : v3) (x : R) : Prop :=
  (in_box p dw -> in_box (prev c p) dw -> x = (coord c (m p) + coord c (m (prev c p))) / 2)%R /\
  (in_box p dw -> ~ in_box (prev c p) dw -> x = coord c (m p)) /\
  (~ in_box p dw -> x = coord c (m (prev c p))).

(** The position of a face. *)
Definition face_centre (c : component) (p : v3) : r3 :=
  match c with
  | CompU => R3 (IZR (vx p)) (IZR (vy p) + 1 / 2) (IZR (vz p) + 1 / 2)
  | CompV => R3 (IZR (vx p) + 1 / 2) (IZR (vy p)) (IZR (vz p) + 1 / 2)
  | CompW => R3 (IZR (vx p) + 1 / 2) (IZR (vy p) + 1 / 2) (IZR (vz p))
  end%R.

Open Scope R_scope.
(** The faces around a position: those less than one voxel away on each axis, moved to
    the nearest face of the window. *)
Definition near_face (dw : box) (c : component) (p : r3) (q : v3) : Prop :=
  exists n, q = nearest (Box (bmin dw) (next c (bmax dw))) n /\
    Rabs (rx (face_centre c n) - rx p) < 1 /\ Rabs (ry (face_centre c n) - ry p) < 1 /\ Rabs (rz (face_centre c n) - rz p) < 1.
(** The box spanned by two face centres. *)
Definition between_faces (c : component) (a b : v3) (p : r3) : Prop :=
  rx (face_centre c a) <= rx p <= rx (face_centre c b) /\ ry (face_centre c a) <= ry p <= ry (face_centre c b) /\
  rz (face_centre c a) <= rz p <= rz (face_centre c b).
(** Positions and windows for which index arithmetic stays inside [int]. *)
Definition mac_pos_ok (p : r3) : Prop :=
  - 2 ^ 29 < rx p < 2 ^ 29 /\ - 2 ^ 29 < ry p < 2 ^ 29 /\ - 2 ^ 29 < rz p < 2 ^ 29.
(** The coordinates of a position that are not along the component's axis are at least [x]. *)
Definition across_from (c : component) (x : R) (p : r3) : Prop :=
  match c with
  | CompU => x <= ry p /\ x <= rz p | CompV => x <= rx p /\ x <= rz p | CompW => x <= rx p /\ x <= ry p
  end.
