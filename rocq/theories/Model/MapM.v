(** Model of the mappings of export/FieldMapping.h and src/FieldMapping.cpp: transforms
    between voxel, local and world space.  Times and matrix entries are reals. *)
From Coq Require Import ZArith Reals List Bool.
From Verif Require Import Model.Base Model.RealM Model.VecM Model.MatM Model.CurveM Model.CoordM.
Import ListNotations.
Open Scope R_scope.

(** export/FieldMapping.h:190-193: the base class. *)
Record frame : Type := Frame { fr_origin : r3; fr_res : r3 }.

(** src/FieldMapping.cpp:113-120, the default constructor. *)
Definition frame_init : frame := Frame (R3 0 0 0) (R3 1 1 1).
(** src/FieldMapping.cpp:146-151 [setExtents]; the subtraction is done in [int]. *)
Definition set_frame (e : box) : res frame :=
  let* x := i32 (vx (bmax e) - vx (bmin e)) in let* x := i32 (x + 1) in
  let* y := i32 (vy (bmax e) - vy (bmin e)) in let* y := i32 (y + 1) in
  let* z := i32 (vz (bmax e) - vz (bmin e)) in let* z := i32 (z + 1) in
  Ok (Frame (R3 (IZR (vx (bmin e))) (IZR (vy (bmin e))) (IZR (vz (bmin e)))) (R3 (IZR x) (IZR y) (IZR z))).

(** src/FieldMapping.cpp:155-158 [localToVoxel]. *)
Definition local_to_voxel (f : frame) (p : r3) : r3 :=
  R3 (rx (fr_origin f) + rx p * rx (fr_res f)) (ry (fr_origin f) + ry p * ry (fr_res f)) (rz (fr_origin f) + rz p * rz (fr_res f)).
(** src/FieldMapping.cpp:162-167 [voxelToLocal]. *)
Definition voxel_to_local (f : frame) (p : r3) : r3 :=
  let o := fr_origin f in let r := fr_res f in
  R3 (lerpfactor (rx p) (rx o) (rx o + rx r)) (lerpfactor (ry p) (ry o) (ry o + ry r)) (lerpfactor (rz p) (rz o) (rz o + rz r)).

(** A curve of matrices: export/Curve.h with the identity as default (241-248). *)
Definition mcurve := list (R * m44).
Definition mat_mix (a b : R * m44) (t : R) : m44 := mat_lerp (snd a) (snd b) (lerpfactor t (fst a) (fst b)).
Definition mlinear (c : mcurve) (t : R) : m44 := linear rltb ident mat_mix c t.
Definition madd (c : mcurve) (t : R) (m : m44) : mcurve := add_sample rltb reqb t m c.

(** ** MatrixFieldMapping *)

(** export/FieldMapping.h:502-531, the data members. *)
Record matmap : Type := Matmap {
  mm_frame : frame; mm_curve : mcurve; mm_vs_curve : mcurve; mm_varying : bool;
  mm_ls_ws : m44; mm_ws_ls : m44; mm_vs_ws : m44; mm_ws_vs : m44; mm_voxel : r3 }.

(** src/FieldMapping.cpp:402-410 [getLocalToVoxelMatrix]. *)
Definition local_to_voxel_matrix (f : frame) : m44 := mmul (scale (fr_res f)) (translate (fr_origin f)).

(** The length of the difference of two points. *)
Definition distance (a b : r3) : R :=
  sqrt ((rx a - rx b) * (rx a - rx b) + (ry a - ry b) * (ry a - ry b) + (rz a - rz b) * (rz a - rz b)).
Definition step_length (m : m44) (d : r3) : R :=
  match mult_vec m (R3 0 0 0), mult_vec m d with Some a, Some b => distance b a | _, _ => 0 end.

(** src/FieldMapping.cpp:363-398 [updateTransform].  (A voxel size that is not finite is
    represented by 0.) *)
Definition update_transform (f : frame) (c : mcurve) : matmap :=
  let vs_ls := inverse (local_to_voxel_matrix f) in
  let vs_curve := fold_left (fun acc s => madd acc (fst s) (mmul vs_ls (snd s))) c [] in
  let ls_ws := mlinear c 0 in
  let vs_ws := mmul vs_ls ls_ws in
  Matmap f c vs_curve (Nat.ltb 1 (length c)) ls_ws (inverse ls_ws) vs_ws (inverse vs_ws)
         (R3 (step_length vs_ws (R3 1 0 0)) (step_length vs_ws (R3 0 1 0)) (step_length vs_ws (R3 0 0 1))).

(** src/FieldMapping.cpp:253-257, the default constructor; 261-265 [makeIdentity] is
    what the constructor from extents calls too. *)
Definition mat_init : matmap := update_transform frame_init [].
Definition mat_init_extents (e : box) : res matmap := let* f := set_frame e in Ok (update_transform f []).

(** src/FieldMapping.cpp:269-275, 279-283 [setLocalToWorld], 287-291 [makeIdentity],
    295-298 [extentsChanged]. *)
Inductive mat_op : Type :=
| MSet (m : m44) | MSetAt (t : R) (m : m44) | MIdentity | MExtents (e : box).
Definition mat_step (s : matmap) (o : mat_op) : res matmap :=
  match o with
  | MSetAt t m => Ok (update_transform (mm_frame s) (madd (mm_curve s) t m))
  | MSet m =>
      let s' := if (0 <? length (mm_curve s))%nat then update_transform (mm_frame s) [] else s in
      Ok (update_transform (mm_frame s') (madd (mm_curve s') 0 m))
  | MIdentity => Ok (update_transform (mm_frame s) [])
  | MExtents e => let* f := set_frame e in Ok (update_transform f (mm_curve s))
  end.
Fixpoint mat_run (s : matmap) (l : list mat_op) : res matmap :=
  match l with [] => Ok s | o :: r => let* s' := mat_step s o in mat_run s' r end.

(** export/FieldMapping.h:412-455: the transforms with a time... *)
Definition m_world_to_voxel (s : matmap) (t : R) (p : r3) : option r3 :=
  if mm_varying s then mult_vec (inverse (mlinear (mm_vs_curve s) t)) p else mult_vec (mm_ws_vs s) p.
Definition m_voxel_to_world (s : matmap) (t : R) (p : r3) : option r3 :=
  if mm_varying s then mult_vec (mlinear (mm_vs_curve s) t) p else mult_vec (mm_vs_ws s) p.
Definition m_world_to_local (s : matmap) (t : R) (p : r3) : option r3 :=
  if mm_varying s then mult_vec (inverse (mlinear (mm_curve s) t)) p else mult_vec (mm_ws_ls s) p.
Definition m_local_to_world (s : matmap) (t : R) (p : r3) : option r3 :=
  if mm_varying s then mult_vec (mlinear (mm_curve s) t) p else mult_vec (mm_ls_ws s) p.
(** ... and without one. *)
Definition m_world_to_voxel0 (s : matmap) (p : r3) : option r3 := mult_vec (mm_ws_vs s) p.
Definition m_voxel_to_world0 (s : matmap) (p : r3) : option r3 := mult_vec (mm_vs_ws s) p.
Definition m_world_to_local0 (s : matmap) (p : r3) : option r3 := mult_vec (mm_ws_ls s) p.
Definition m_local_to_world0 (s : matmap) (p : r3) : option r3 := mult_vec (mm_ls_ws s) p.

(** ** FrustumFieldMapping *)

(** export/FieldMapping.h:648-690: the curves the transforms use, and the distribution of
    slices ([true] is [UniformDistribution]). *)
Record frustum : Type := Frustum {
  fm_frame : frame; fm_uniform : bool; fm_lps : mcurve; fm_cs : mcurve;
  fm_near : list (R * R); fm_far : list (R * R); fm_default : bool }.
Definition rlinear (c : list (R * R)) (t : R) : R := linear rltb 0 mix c t.

(** src/FieldMapping.cpp:441-497 [setTransforms].  [None]: near or far is not a number
    and the call throws (after adding to the matrix curves); the other outcomes of a zero
    divisor are infinite values, not modelled. *)
Definition ls_to_ss : m44 := mmul (scale (R3 2 2 1)) (translate (R3 (-1) (-1) 0)).
Definition set_transforms (s : frustum) (t : R) (ss_ws cs_ws : m44) : option frustum :=
  let s := if fm_default s then Frustum (fm_frame s) (fm_uniform s) [] [] [] [] false else s in
  let lps := mmul ls_to_ss ss_ws in
  let ws_cs := inverse cs_ws in
  match mult_vec lps (R3 (1 / 2) (1 / 2) 0), mult_vec lps (R3 (1 / 2) (1 / 2) 1) with
  | Some n, Some f =>
      match mult_vec ws_cs n, mult_vec ws_cs f with
      | Some n', Some f' =>
          Some (Frustum (fm_frame s) (fm_uniform s) (madd (fm_lps s) t lps) (madd (fm_cs s) t cs_ws)
                  (add_sample rltb reqb t (- rz n') (fm_near s)) (add_sample rltb reqb t (- rz f') (fm_far s)) (fm_default s))
      | _, _ => None
      end
  | _, _ => None
  end.

(** src/FieldMapping.cpp:507-529, the default camera of [reset]; [k] is [1 / tan (fov / 2)]. *)
Definition default_cs_ss (k : R) : m44 :=
  mmul (mmul (scale (R3 1 1 (-1)))
             (M44 (R4 1 0 0 0) (R4 0 1 0 0) (R4 0 0 (2 / (2 - 1)) 1) (R4 0 0 (- 2 * 1 / (2 - 1)) 0)))
       (scale (R3 (k / 1) k 1)).
Definition default_ss_ws (k : R) : m44 := mmul (inverse (default_cs_ss k)) ident.
Definition inv_tan : R := 1 / tan (45 * PI / 180 / 2).

(** src/FieldMapping.cpp:501-539 [reset] ([computeVoxelSize] is not modelled). *)
Definition frustum_reset (fr : frame) (uniform : bool) : option frustum :=
  match set_transforms (Frustum fr uniform [] [] [] [] false) 0 (default_ss_ws inv_tan) ident with
  | Some s => Some (Frustum (fm_frame s) (fm_uniform s) (fm_lps s) (fm_cs s) (fm_near s) (fm_far s) true)
  | None => None
  end.

(** src/FieldMapping.cpp:589-613 [worldToLocal]. *)
Definition f_world_to_local (s : frustum) (t : R) (p : r3) : option r3 :=
  if fm_uniform s then
    match mult_vec (inverse (mlinear (fm_lps s) t)) p, mult_vec (inverse (mlinear (fm_cs s) t)) p with
    | Some l, Some c =>
        Some (R3 (rx l) (ry l) (lerpfactor (- rz c) (rlinear (fm_near s) t) (rlinear (fm_far s) t)))
    | _, _ => None
    end
  else mult_vec (inverse (mlinear (fm_lps s) t)) p.

(** src/FieldMapping.cpp:624-658 [localToWorld]. *)
Definition f_local_to_world (s : frustum) (t : R) (p : r3) : option r3 :=
  if fm_uniform s then
    let depth := lerp (rlinear (fm_near s) t) (rlinear (fm_far s) t) (rz p) in
    match mult_vec (mlinear (fm_cs s) t) (R3 0 0 (- depth)) with
    | Some w =>
        match mult_vec (inverse (mlinear (fm_lps s) t)) w with
        | Some c => mult_vec (mlinear (fm_lps s) t) (R3 (rx p) (ry p) (rz c))
        | None => None
        end
    | None => None
    end
  else mult_vec (mlinear (fm_lps s) t) p.

(** src/FieldMapping.cpp:557-562 [worldToVoxel], 573-578 [voxelToWorld]. *)
Definition f_world_to_voxel (s : frustum) (t : R) (p : r3) : option r3 :=
  match f_world_to_local s t p with Some l => Some (local_to_voxel (fm_frame s) l) | None => None end.
Definition f_voxel_to_world (s : frustum) (t : R) (p : r3) : option r3 :=
  f_local_to_world s t (voxel_to_local (fm_frame s) p).

(** src/FieldMapping.cpp:737-771 [computeVoxelSize]: the stored sizes, one for each
    slice.  [vector::resize] keeps the entries it can; [None]: the number of slices is
    negative ([resize] throws) or a position is not finite. *)
Definition resize_sizes (old : list r3) (n : nat) : list r3 := firstn n old ++ repeat (R3 0 0 0) (n - length old).
Fixpoint set_nth_size (l : list r3) (n : nat) (v : r3) : list r3 :=
  match l, n with [], _ => [] | _ :: r, O => v :: r | a :: r, S n' => a :: set_nth_size r n' v end.
Definition slice_size (s : frustum) (i j k : Z) : option r3 :=
  let at_ v := f_voxel_to_world s 0 (disc_to_cont3 v) in
  match at_ (V3 i j k), at_ (V3 (i + 1) j k), at_ (V3 i (j + 1) k), at_ (V3 i j (k + 1)) with
  | Some p, Some px, Some py, Some pz => Some (R3 (distance px p) (distance py p) (distance pz p))
  | _, _, _, _ => None
  end.
Fixpoint fill_sizes (s : frustum) (i j k : Z) (idx n : nat) (l : list r3) : option (list r3) :=
  match n with
  | O => Some l
  | S n' => match slice_size s i j k with
            | Some v => fill_sizes s i j (k + 1) (S idx) n' (set_nth_size l idx v)
            | None => None
            end
  end.
Definition compute_voxel_size (s : frustum) (old : list r3) : option (list r3) :=
  let o := fr_origin (fm_frame s) in let r := fr_res (fm_frame s) in
  let nz := rtrunc (rz r) in
  if (nz <? 0)%Z then None else
  let l := resize_sizes old (Z.to_nat nz) in
  let i := rtrunc (rx o + rx r / 2) in let j := rtrunc (ry o + ry r / 2) in
  let zmin := rtrunc (rz o) in let zmax := rtrunc (rz o + rz r - 1) in
  match fill_sizes s i j zmin 0 (Z.to_nat (zmax - zmin)) l with
  | Some l => Some (if rleb 2 (rz r)
                    then set_nth_size l (Z.to_nat (rtrunc (rz r - 1))) (nth (Z.to_nat (rtrunc (rz r - 2))) l (R3 0 0 0)) else l)
  | None => None
  end.
(** src/FieldMapping.cpp:728-733 [wsVoxelSize]; indexing outside the vector is [UB]. *)
Definition f_voxel_size (s : frustum) (sizes : list r3) (k : Z) : res r3 :=
  let z := rtrunc (rz (fr_origin (fm_frame s))) in
  let k := Z.min (Z.max k z) (rtrunc (rz (fr_origin (fm_frame s)) + rz (fr_res (fm_frame s)) - 1)) in
  if (k - z <? 0)%Z then UB
  else match nth_error sizes (Z.to_nat (k - z)) with Some v => Ok v | None => UB end.

(** ** NullFieldMapping *)

(** export/FieldMapping.h:268-300. *)
Definition n_world_to_voxel (f : frame) (p : r3) : r3 := local_to_voxel f p.
Definition n_voxel_to_world (f : frame) (p : r3) : r3 := voxel_to_local f p.
Definition n_world_to_local (p : r3) : r3 := p.
Definition n_local_to_world (p : r3) : r3 := p.
Definition n_voxel_size (f : frame) : r3 := R3 (1 / rx (fr_res f)) (1 / ry (fr_res f)) (1 / rz (fr_res f)).

(** src/FieldInterp.cpp:52-59 [isPointInField], for a matrix mapping.  (A local position
    that is not finite is outside.) *)
Definition is_point_in_field (s : matmap) (w : r3) : bool :=
  match m_world_to_local0 s w with
  | Some l => rltb 0 (rx l) && rleb (rx l) 1 && rltb 0 (ry l) && rleb (ry l) 1 && rltb 0 (rz l) && rleb (rz l) 1
  | None => false
  end.

(** ** Boxes *)

(** [Imath::Box3d]: [None] is the empty box of [makeEmpty]; [extendBy] grows it by a
    point. *)
Definition extend_by (b : option rbox) (p : r3) : option rbox :=
  match b with
  | None => Some (RBox p p)
  | Some c =>
      let lower m x := if rltb x m then x else m in
      let upper m x := if rltb m x then x else m in
      Some (RBox (R3 (lower (rx (rmin c)) (rx p)) (lower (ry (rmin c)) (ry p)) (lower (rz (rmin c)) (rz p)))
                 (R3 (upper (rx (rmax c)) (rx p)) (upper (ry (rmax c)) (ry p)) (upper (rz (rmax c)) (rz p))))
  end.
(** src/FieldMapping.cpp:180-189, 204-213: the eight vertices. *)
Definition vertices (b : rbox) : list r3 :=
  let lo := rmin b in let hi := rmax b in
  [R3 (rx lo) (ry lo) (rz lo); R3 (rx hi) (ry lo) (rz lo); R3 (rx lo) (ry hi) (rz lo); R3 (rx hi) (ry hi) (rz lo);
   R3 (rx lo) (ry lo) (rz hi); R3 (rx hi) (ry lo) (rz hi); R3 (rx lo) (ry hi) (rz hi); R3 (rx hi) (ry hi) (rz hi)].
(** src/FieldMapping.cpp:200-220 [transformBounds], and 173-196 [worldToVoxel] of a box,
    where [f] is the mapping's [worldToVoxel].  [None] inside: a vertex is mapped to
    infinity. *)
Fixpoint extend_all (f : r3 -> option r3) (l : list r3) (b : option rbox) : option (option rbox) :=
  match l with
  | [] => Some b
  | v :: r => match f v with Some q => extend_all f r (extend_by b q) | None => None end
  end.
Definition map_bounds (f : r3 -> option r3) (b : rbox) : option (option rbox) := extend_all f (vertices b) None.
Definition transform_bounds (m : m44) (b : rbox) : option (option rbox) := map_bounds (mult_vec m) b.
Definition world_to_voxel_bounds (s : matmap) (b : rbox) : option (option rbox) := map_bounds (m_world_to_voxel0 s) b.
