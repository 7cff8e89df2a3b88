(** What mappings must do. *)
From Coq Require Import ZArith Reals List.
From Verif Require Import Model.Base Model.RealM Model.VecM Model.MatM Model.CurveM Model.MapM Spec.CurveSpec.
Import ListNotations.
Open Scope R_scope.

(** A matrix that can be undone. *)
Definition invertible (m : m44) : Prop := exists n, mmul m n = ident /\ mmul n m = ident.
(** A matrix without perspective. *)
Definition no_perspective (m : m44) : Prop := e3 (row0 m) = 0 /\ e3 (row1 m) = 0 /\ e3 (row2 m) = 0 /\ e3 (row3 m) = 1.

(** What a history of calls has asked for: the extents last set (a single voxel at the
    origin before that), and the samples set since the last call that clears them. *)
Definition extents_of (h : list mat_op) : box :=
  fold_left (fun e o => match o with MExtents e' => e' | _ => e end) h (Box (V3 0 0 0) (V3 0 0 0)).
Definition samples_of (h : list mat_op) : list (R * m44) :=
  fold_left (fun l o => match o with
    | MSet m => [(0, m)] | MSetAt t m => l ++ [(t, m)] | MIdentity => [] | MExtents _ => l end) h [].
(** The local-to-world matrix of a history at a time: entry by entry, the curve (see
    [C32_linear]) through the samples. *)
Definition entry (i j : nat) (m : m44) : R :=
  let r := match i with O => row0 m | 1%nat => row1 m | 2%nat => row2 m | _ => row3 m end in
  match j with O => e0 r | 1%nat => e1 r | 2%nat => e2 r | _ => e3 r end.
Definition interpolates (h : list mat_op) (t : R) (m : m44) : Prop :=
  forall i j, (i < 4)%nat -> (j < 4)%nat ->
    entry i j m = linear rltb (entry i j ident) mix (curve_run rltb reqb (map (fun s => (fst s, entry i j (snd s))) (samples_of h))) t.

(** All axes of the box are non-empty. *)
Definition has_voxels (e : box) : Prop :=
  (vx (bmin e) <= vx (bmax e) /\ vy (bmin e) <= vy (bmax e) /\ vz (bmin e) <= vz (bmax e))%Z.

(** A point between two corners. *)
Definition inside (lo hi p : r3) : Prop :=
  rx lo <= rx p <= rx hi /\ ry lo <= ry p <= ry hi /\ rz lo <= rz p <= rz hi.

(** ** Frustums *)
(** In a frustum whose matrices at a time are [lps] (local to world) and [cs] (camera to
    world): the points of one local depth are those of one camera depth. *)
Definition depth_in_step (lps cs : m44) : Prop :=
  forall p q wp wq cp cq, mult_vec lps p = Some wp -> mult_vec lps q = Some wq ->
    mult_vec (inverse cs) wp = Some cp -> mult_vec (inverse cs) wq = Some cq ->
    (rz p = rz q <-> rz cp = rz cq).
