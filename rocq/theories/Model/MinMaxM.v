(** Model of pre-filtered minimum and maximum fields: export/MinMaxUtil.h, and the queries
    that use them in export/FieldSampler.h and export/FieldGroup.h. *)
From Coq Require Import ZArith Reals List Bool.
From Verif Require Import Model.Base Model.LoopM Model.RealM Model.VecM Model.MatM Model.CurveM Model.CoordM Model.MapM Model.DenseM Model.OpsM
  Model.FilterM Model.MipM Model.CopyM Model.RayM Model.GroupM Model.MipMapM.
Import ListNotations.
Open Scope R_scope.

(** ** Making the fields *)

(** export/MinMaxUtil.h:100-106: the resolution of the finest level, on one axis, of a field
    of [n] voxels.  (The precision of [float] is left out.) *)
Definition min_max_axis (n : Z) (mult : R) : Z := Z.max (rtrunc (IZR n * Rmin 1 mult)) 2.
Definition min_max_res (n : v3) (mult : R) : v3 := V3 (min_max_axis (vx n) mult) (min_max_axis (vy n) mult) (min_max_axis (vz n) mult).
(** export/MinMaxUtil.h:108-120: one of the two fields, by [MinFilter] or [MaxFilter].  The
    target of a resampling that is refused stays a new field. *)
Definition make_extreme {k} (fuel : nat) (flt : filter) (base : fld (V := R) k) (mult : R) (n : nat) (sched : nat -> FilterM.axis -> list nat)
  : option (res (option (list (fld (V := R) k)))) :=
  let r := min_max_res (v3_add (box_size (f_dw base)) (V3 1 1 1)) mult in
  match (let* t := f_new 0 k in let* o := resample flt base t r in Ok (match o with Some u => u | None => t end)) with
  | Ok src => make_mip fuel flt src 2 (V3 0 0 0) n sched
  | Exn => Some Exn
  | UB => Some UB
  end.
(** export/MinMaxUtil.h:86-122 [makeMinMax].  ([sched] and [sched'] are the schedules of the
    threads of the two MIP fields.) *)
Definition make_min_max {k} (fuel : nat) (base : fld (V := R) k) (mult : R) (n : nat) (sched sched' : nat -> FilterM.axis -> list nat)
  : option (res (option (list (fld (V := R) k)))) * option (res (option (list (fld (V := R) k)))) :=
  (make_extreme fuel (min_filter 1) base mult n sched, make_extreme fuel (max_filter 1) base mult n sched').

(** ** Their positions *)

Definition as_any (m : mapping) : any_map := match m with MapNull f => ANull f | MapMatrix s => AMatrix s | MapFrustum s => AFrustum s end.
(** export/MIPField.h:548-566 [mappingChanged]: level [i] and the coarser ones of a field
    with the mapping [m].  Values are read by [fastMipValue]; a voxel the field does not have
    counts as 0 (no query visits one).  The bounds and the interpolator play no part. *)
Definition level_field {k} (m : mapping) (os : option m44) (f : fld (V := R) k) : gfield :=
  GField (Wrapper (as_any m) os) (f_dw f) (RBox (R3 0 0 0) (R3 0 0 0)) (fun p => match f_get f p with Ok x => x | _ => 0 end) (fun _ => 0) None.
Fixpoint level_fields {k} (m : mapping) (os : option m44) (i : Z) (fs : list (fld (V := R) k)) : option (res (list gfield)) :=
  match fs with
  | [] => Some (Ok [])
  | f :: r =>
      match (if (i =? 0)%Z then Some (Ok m) else level_mapping m (V3 0 0 0) (f_ext f) i), level_fields m os (i + 1) r with
      | Some n, Some l => Some (let* n' := n in let* l' := l in Ok (level_field n' os f :: l'))
      | _, _ => None
      end
  end.
(** export/Resample.h:543-546: the finest level gets the mapping of the field it was made
    from, with its own extents; export/FieldGroup.h:583-607 wraps it with the object
    transform [os] of the group. *)
Definition min_max_fields {k} (m : mapping) (os : option m44) (fs : list (fld (V := R) k)) : option (res (list gfield)) :=
  match fs with
  | [] => Some (Ok [])
  | f :: _ => match map_extents m (f_ext f) with Ok n => level_fields n os 0 fs | Exn => Some Exn | UB => Some UB end
  end.

(** ** Queries *)

(** export/FieldSampler.h:419-436: the voxels of one level.  [None]: a position that is not
    finite. *)
Definition level_box (g : gfield) (b : rbox) : option box :=
  match object_bounds (g_wrap g) b with
  | Some (Some ob) =>
      match map_bounds (a_world_to_voxel (w_map (g_wrap g))) ob with
      | Some (Some vb) => Some (clip_bounds (discrete_bounds vb) (g_dw g))
      | _ => None
      end
  | _ => None
  end.
(** export/FieldSampler.h:419-442: the first level with at most three voxels per axis, or
    the last one.  A field without levels has nothing to visit. *)
Definition few (b : box) : bool := let s := box_size b in (Z.max (vx s) (Z.max (vy s) (vz s)) <=? 2)%Z.
Fixpoint choose_level (b : rbox) (levels : list gfield) : option (option (gfield * box)) :=
  match levels with
  | [] => Some None
  | g :: r =>
      match level_box g b with
      | None => None
      | Some d => if few d then Some (Some (g, d)) else match r with [] => Some (Some (g, d)) | _ => choose_level b r end
      end
  end.
(** export/FieldSampler.h:409-418: infinite bounds use the coarsest level.  (A field without
    levels has none; the code does not check.) *)
Definition coarsest (levels : list gfield) : option (gfield * box) :=
  match rev levels with [] => None | g :: _ => Some (g, g_dw g) end.
Definition choose (query : option rbox) (levels : list gfield) : option (option (gfield * box)) :=
  match query with None => Some (coarsest levels) | Some b => choose_level b levels end.
(** export/FieldSampler.h:402-456 [getMinMaxPrefilt]; [op] is [detail::min] or
    [detail::max]. *)
Definition prefilt_one (op : R -> R -> R) (g : gfield) (acc : R) (v : v3) : R := op (g_value g v) acc.
Fixpoint prefilt_vec (op : R -> R -> R) (query : option rbox) (l : list (list gfield)) (acc : R) : option R :=
  match l with
  | [] => Some acc
  | levels :: r =>
      match choose query levels with
      | None => None
      | Some None => prefilt_vec op query r acc
      | Some (Some (g, b)) => prefilt_vec op query r (fold_left (prefilt_one op g) (box_voxels b) acc)
      end
  end.
(** export/FieldGroup.h:859-866 [getMinMax] with pre-filtered fields; the types are visited
    one after another. *)
Definition group_prefilt (query : option rbox) (mins maxs : list (list gfield)) (acc : R * R) : option (R * R) :=
  match prefilt_vec Rmin query mins (fst acc), prefilt_vec Rmax query maxs (snd acc) with
  | Some a, Some b => Some (a, b)
  | _, _ => None
  end.

(** ** The group *)
(** export/FieldGroup.h:437-470: the fields of a group, as if of one type, and the
    pre-filtered ones. *)
Record group : Type := Group { gr_fields : list gfield; gr_mins : list (list gfield); gr_maxs : list (list gfield) }.
Definition empty_group : group := Group [] [] [].
(** export/FieldGroup.h:559-613 [setup], [setupMinMax]. *)
Definition group_setup (s : group) (fields : list gfield) (mins maxs : list (list gfield)) : group :=
  Group (gr_fields s ++ fields) (gr_mins s ++ mins) (gr_maxs s ++ maxs).
(** [m_hasPrefiltMinMax]. *)
Definition has_prefilt (s : group) : bool := match gr_mins s, gr_maxs s with _ :: _, _ :: _ => true | _, _ => false end.
(** export/FieldGroup.h:853-877 [getMinMax]. *)
Definition group_query (s : group) (query : option rbox) (acc : R * R) : option (R * R) :=
  if has_prefilt s then group_prefilt query (gr_mins s) (gr_maxs s) acc else group_min_max query [gr_fields s] acc.
