(** Vocabulary for copying and comparing fields. *)
From Coq Require Import ZArith Reals List Bool.
From Verif Require Import Model.Base Model.OpsM Model.VecM Model.MatM Model.MapM Model.CopyM Spec.VoxelSpec Spec.OpsSpec.
Import ListNotations.
Open Scope Z_scope.

(** Mappings a user can make. *)
Inductive made : mapping -> Prop :=
| made_null f : made (MapNull f)
| made_matrix h s : mat_run mat_init h = Ok s -> made (MapMatrix s)
| made_frustum f u s : frustum_reset f u = Some s -> made (MapFrustum s)
| made_transforms s t ss cs s' : made (MapFrustum s) -> set_transforms s t ss cs = Some s' -> made (MapFrustum s')
| made_extents m e m' : made m -> map_extents m e = Ok m' -> made m'.

Section Built.
Context {V : Type}.
Variables dflt zero : V.
(** Fields a user can make: new ones, and what the operations make of them.  Sizes are such
    that the field can be resized ([fits]). *)
Inductive built : forall k, mfield (V := V) k -> Prop :=
| b_new k a : c_new zero k = Ok a -> built k a
| b_mapping k a m a' : built k a -> made m -> set_mapping a m = Ok a' -> built k a'
| b_size k a e dw a' : built k a -> fits k (c_fld a) dw -> box_nonempty dw -> set_size dflt zero a e dw = Ok a' -> built k a'
| b_write k a p v f : built k a -> in_box p (f_dw (c_fld a)) -> f_set (c_fld a) p v = Ok f -> built k (MField f (c_map a))
| b_copy k j a b fuel a' : built k a -> built j b -> fits k (c_fld a) (f_dw (c_fld b)) -> box_nonempty (f_dw (c_fld b)) ->
    copy_from dflt zero (fun v => v) fuel a b = Some (Ok a') -> built k a'
| b_match k j a b a' : built k a -> built j b -> fits k (c_fld a) (f_dw (c_fld b)) -> box_nonempty (f_dw (c_fld b)) ->
    match_definition dflt zero a b = Ok a' -> built k a'.
End Built.

(** The extents of the field and of its mapping agree: giving the mapping the extents of the
    field changes nothing. *)
Definition fitted {V} {k} (a : mfield (V := V) k) : Prop := map_extents (c_map a) (f_ext (c_fld a)) = Ok (c_map a).
(** The voxel space a mapping works in. *)
Definition frame_of (m : mapping) : frame :=
  match m with MapNull f => f | MapMatrix s => mm_frame s | MapFrustum s => fm_frame s end.
(** The same value at every voxel of a window. *)
Definition equal_values {V k j} (a : fld (V := V) k) (b : fld (V := V) j) (dw : box) : Prop :=
  forall p, in_box p dw -> exists v, f_get a p = Ok v /\ f_get b p = Ok v.

(** ** When mappings count as the same *)
Open Scope R_scope.
(** [y] differs from [x] by at most a fraction [e] of [x]; or by [e]. *)
Definition close (e x y : R) : Prop := Rabs (x - y) <= e * Rabs x.
Definition close_abs (e x y : R) : Prop := Rabs (x - y) <= e.
Definition each3 (P : R -> R -> Prop) (a b : r3) : Prop := P (rx a) (rx b) /\ P (ry a) (ry b) /\ P (rz a) (rz b).
Definition each4 (P : R -> R -> Prop) (a b : r4) : Prop := P (e0 a) (e0 b) /\ P (e1 a) (e1 b) /\ P (e2 a) (e2 b) /\ P (e3 a) (e3 b).
Definition each_entry (P : R -> R -> Prop) (a b : m44) : Prop :=
  each4 P (row0 a) (row0 b) /\ each4 P (row1 a) (row1 b) /\ each4 P (row2 a) (row2 b) /\ each4 P (row3 a) (row3 b).
(** Three perpendicular vectors of length one, right-handed. *)
Definition axes (a b c : r3) : Prop :=
  dot3 a a = 1 /\ dot3 b b = 1 /\ dot3 c c = 1 /\ dot3 a b = 0 /\ dot3 a c = 0 /\ dot3 b c = 0 /\ 0 < dot3 a (cross3 b c).
Definition mix3 (x : R) (a : r3) (y : R) (b : r3) (z : R) (c : r3) : r3 :=
  R3 (x * rx a + y * rx b + z * rx c) (x * ry a + y * ry b + z * ry c) (x * rz a + y * rz b + z * rz c).
(** A matrix that scales by [h_scale], shears by [h_shear], rotates to the axes [a], [b], [c],
    whose Euler angles are [h_angles], and moves by [h_shift].  (The fourth column is not
    looked at.) *)
Definition decomposed (euler : r3 -> r3 -> r3 -> r3) (m : m44) (s : shrt) : Prop :=
  exists a b c, axes a b c /\ h_angles s = euler a b c /\ part3 (row3 m) = h_shift s /\
    ((0 < rx (h_scale s) /\ 0 < ry (h_scale s) /\ 0 < rz (h_scale s)) \/ (rx (h_scale s) < 0 /\ ry (h_scale s) < 0 /\ rz (h_scale s) < 0)) /\
    part3 (row0 m) = mix3 (rx (h_scale s)) a 0 b 0 c /\
    part3 (row1 m) = mix3 (ry (h_scale s) * rx (h_shear s)) a (ry (h_scale s)) b 0 c /\
    part3 (row2 m) = mix3 (rz (h_scale s) * ry (h_shear s)) a (rz (h_scale s) * rz (h_shear s)) b (rz (h_scale s)) c.
(** Matrices alike up to a tolerance: in every entry, or in scale, angles and shift. *)
Definition alike (euler : r3 -> r3 -> r3 -> r3) (e : R) (m1 m2 : m44) : Prop :=
  each_entry (close e) m1 m2 \/
  exists s1 s2, decomposed euler m1 s1 /\ decomposed euler m2 s2 /\
    each3 (close e) (h_scale s1) (h_scale s2) /\ each3 (close_abs e) (h_angles s1) (h_angles s2) /\ each3 (close e) (h_shift s1) (h_shift s2).
Definition sample_alike (euler : r3 -> r3 -> r3 -> r3) (e : R) (a b : R * m44) : Prop := fst a = fst b /\ alike euler e (snd a) (snd b).
(** Mappings of the same class with the same samples, up to a tolerance.  The times of the
    second pair of curves are those of the first. *)
Definition same_mapping (euler : r3 -> r3 -> r3 -> r3) (e : R) (m1 m2 : mapping) : Prop :=
  match m1, m2 with
  | MapNull _, MapNull _ => True
  | MapMatrix a, MapMatrix b => Forall2 (sample_alike euler e) (mm_curve a) (mm_curve b) /\ Forall2 (sample_alike euler e) (mm_vs_curve a) (mm_vs_curve b)
  | MapFrustum a, MapFrustum b => fm_uniform a = fm_uniform b /\
      Forall2 (sample_alike euler e) (fm_lps a) (fm_lps b) /\ Forall2 (sample_alike euler e) (fm_cs a) (fm_cs b)
  | _, _ => False
  end.
(** No perspective and no shear: the axes of the box stay perpendicular. *)
Definition plain (m : m44) : Prop :=
  e3 (row0 m) = 0 /\ e3 (row1 m) = 0 /\ e3 (row2 m) = 0 /\ e3 (row3 m) = 1 /\
  dot3 (part3 (row0 m)) (part3 (row1 m)) = 0 /\ dot3 (part3 (row0 m)) (part3 (row2 m)) = 0 /\ dot3 (part3 (row1 m)) (part3 (row2 m)) = 0.
(** Angles tell rotations apart. *)
Definition tells_apart (euler : r3 -> r3 -> r3 -> r3) : Prop :=
  forall a b c a' b' c', axes a b c -> axes a' b' c' -> euler a b c = euler a' b' c' -> a = a' /\ b = b' /\ c = c'.
