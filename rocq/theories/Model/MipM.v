(** Model of [export/MIPUtil.h] and [src/MIPUtil.cpp]: building the levels of a MIP
    field with several threads; scalar fields, [float] modelled by real numbers. *)
From Coq Require Import ZArith List Bool Reals.
From Verif Require Import Model.Base Model.RealM Model.VecM Model.FieldM Model.DenseM Model.SparseM
  Model.OpsM Model.LoopM Model.FilterM.
Import ListNotations.
Open Scope Z_scope.

(** src/MIPUtil.cpp:70-77 [mipResolution]: [baseRes] is converted to [float], scaled by
    a power of two (exact) and rounded up.  [1 << level] is undefined from level 31 on. *)
Definition mip_res_axis (base level add : Z) : Z := ceil_shift (float_of_int base) level + add.
Definition mip_resolution (base : v3) (level : Z) (add : v3) : res v3 :=
  if level <=? 30 then
    Ok (V3 (mip_res_axis (vx base) level (vx add)) (mip_res_axis (vy base) level (vy add))
           (mip_res_axis (vz base) level (vz add)))
  else UB.

(** export/MIPUtil.h:119-131 [threadingBlockSize]. *)
Definition threading_block_size {k} : fld (V := R) k -> Z :=
  match k with KDense => fun _ => 16 | KSparse => fun f => Z.shiftl 1 (s_order f) end.

(** export/SparseField.h:675-699 [blockCoords]; [None]: the empty box. *)
Definition block_coords (f : sparse R) (b : box) : res (option box) :=
  if box_empty b then Ok None
  else
    let* lo := window_offset f (bmin b) in
    let* hi := window_offset f (bmax b) in
    Ok (Some (Box (block_coord (s_order f) lo) (block_coord (s_order f) hi))).

(** The test of export/MIPUtil.h:161-164 on one block: may it contain something? *)
Definition block_occupied (f : sparse R) (c : v3) : res bool :=
  let* a := block_is_allocated f c in
  if a then Ok true
  else let* e := get_block_empty_value f c in Ok (negb (reqb e 0)).

(** export/MIPUtil.h:135-171 [checkInputEmpty] for sparse fields: the target box, padded
    by half the support and doubled along the filtered axis, touches no occupied block.
    The loop stops at the first occupied block. *)
Definition sparse_input_empty (src : sparse R) (tgt_box : box) (support : R) (a : axis) : res bool :=
  let* int_support := int_ceil (support * (1 / 2)) in
  let pad := Z.max 0 int_support in
  let* lo := i32 (2 * (vget a (bmin tgt_box) - pad)) in
  let* hi := i32 (2 * (vget a (bmax tgt_box) + pad)) in
  let b := Box (vset a (bmin tgt_box) lo) (vset a (bmax tgt_box) hi) in
  let* bb := block_coords src (clip_bounds b (s_dw src)) in
  match bb with
  | None => Ok true
  | Some bb => each (fun c empty => if empty : bool then let* o := block_occupied src c in Ok (negb o)
                                    else Ok false) (box_voxels bb) true
  end.

(** export/MIPUtil.h:175-182: other fields are never skipped. *)
Definition check_input_empty {k} : fld (V := R) k -> box -> R -> axis -> res bool :=
  match k with
  | KDense => fun _ _ _ _ => Ok false
  | KSparse => fun f b s a => sparse_input_empty f b s a
  end.

(** export/MIPUtil.h:246-319: the value of target voxel [p], if it is assigned.
    [add] is [m_add[m_dim]]. *)
Definition mip_voxel {k} (flt : filter) (a : axis) (add : Z) (src : fld (V := R) k) (p : v3)
  : res (option R) :=
  let dw := f_dw src in
  let cur_src := (voxel_centre (vget a p) * 2 - IZR add)%R in
  let* start := int_floor (cur_src - fl_support flt * 2) in
  let* e := int_ceil (cur_src + fl_support flt * 2) in
  let* stop := i32 (e - 1) in
  filter_line flt (fun s => f_get src (vset a p s))
    (fun s => fl_eval flt (Rabs (voxel_centre s - cur_src) * (1 / 2)))
    (Z.max start (vget a (bmin dw))) (Z.min stop (vget a (bmax dw))).

(** The loop [for (k = 0; k < n; k += step)]; [n] rounds are enough. *)
Fixpoint stride (fuel : nat) (k n step : Z) : list Z :=
  match fuel with
  | O => []
  | S m => if k <? n then k :: stride m (k + step) n step else []
  end.
Definition starts (n step : Z) : list Z := stride (Z.to_nat n) 0 n step.

(** export/MIPUtil.h:380-398: the work items. *)
Definition mip_blocks (r : v3) (bs : Z) : list box :=
  flat_map (fun k => flat_map (fun j => map (fun i =>
      Box (V3 i j k) (V3 (Z.min (i + (bs - 1)) (vx r - 1)) (Z.min (j + (bs - 1)) (vy r - 1))
                         (Z.min (k + (bs - 1)) (vz r - 1))))
    (starts (vx r) bs)) (starts (vy r) bs)) (starts (vz r) bs).

(** export/MIPUtil.h:186-349 [MIPSeparableThreadOp]: the threads.  A thread is about to
    take an index, is working through the voxels of its item, or has finished. *)
Inductive tstate : Type := TFetch | TWork (todo : list v3) | TDone.
(** [m_nextIdx], the threads and the target; also, for the record, which thread took
    which item. *)
Record mstate (k : kind) : Type := MState {
  ms_next : nat; ms_threads : list tstate; ms_tgt : fld (V := R) k; ms_log : list (nat * nat) }.
Arguments MState {k}. Arguments ms_next {k}. Arguments ms_threads {k}. Arguments ms_tgt {k}. Arguments ms_log {k}.

Section Threads.
Context {k : kind}.
Variables (flt : filter) (a : axis) (add : Z) (src : fld (V := R) k) (blocks : list box).

(** One step of thread [i].  Taking an index is atomic (the mutex of
    export/MIPUtil.h:229-235 and 324-329); the test for empty input only reads the
    source.  Computing and storing one voxel is one step: voxels of different items are
    different memory locations, except that storing into an unallocated sparse block
    also allocates it (see [MipRaceM]). *)
Definition mip_step (i : nat) (s : mstate k) : res (mstate k) :=
  match nth_error (ms_threads s) i with
  | None => Ok s
  | Some TDone => Ok s
  | Some TFetch =>
      match nth_error blocks (ms_next s) with
      | None => Ok (MState (S (ms_next s)) (list_set (ms_threads s) i TDone) (ms_tgt s) (ms_log s))
      | Some b =>
          let* e := check_input_empty src b (fl_support flt) a in
          Ok (MState (S (ms_next s))
                (list_set (ms_threads s) i (if e : bool then TFetch else TWork (box_voxels b)))
                (ms_tgt s) (ms_log s ++ [(i, ms_next s)]))
      end
  | Some (TWork []) => Ok (MState (ms_next s) (list_set (ms_threads s) i TFetch) (ms_tgt s) (ms_log s))
  | Some (TWork (p :: l)) =>
      let* o := mip_voxel flt a add src p in
      let* t := match o with Some v => f_set (ms_tgt s) p v | None => Ok (ms_tgt s) end in
      Ok (MState (ms_next s) (list_set (ms_threads s) i (TWork l)) t (ms_log s))
  end.

(** Steps thread [i] still needs if it runs alone. *)
Definition cost (t : tstate) : nat :=
  match t with TFetch => 1%nat | TWork l => (2 + length l)%nat | TDone => 0%nat end.
Definition items_cost (l : list box) : nat := list_sum (map (fun b => 2 + length (box_voxels b))%nat l).
Definition alone (i : nat) (s : mstate k) : nat :=
  match nth_error (ms_threads s) i with
  | None => 0%nat
  | Some t => (cost t + items_cost (skipn (ms_next s) blocks))%nat
  end.

(** A schedule is a list of thread numbers.  After it, the remaining threads run one
    after the other until they finish ([join_all]): every terminating interleaving is
    one whose schedule leaves nothing to do. *)
Definition mip_run (sched : list nat) (s : mstate k) : res (mstate k) := each mip_step sched s.
Definition finish_thread (i : nat) (s : mstate k) : res (mstate k) := each mip_step (repeat i (alone i s)) s.
Definition mip_threads (n : nat) (sched : list nat) (tgt : fld (V := R) k) : res (mstate k) :=
  let* s := mip_run sched (MState 0 (repeat TFetch n) tgt []) in
  each finish_thread (seq 0 n) s.
End Threads.

(** export/MIPUtil.h:364-372: the resolution after filtering along one axis. *)
Definition pass_res (a : axis) (old new : v3) : v3 :=
  match a with
  | AxX => V3 (vx new) (vy old) (vz old) | AxY => V3 (vx new) (vy new) (vz old) | AxZ => new
  end.

(** export/MIPUtil.h:352-416 [mipSeparable]. *)
Definition mip_separable {k} (flt : filter) (a : axis) (add : v3) (src tgt : fld (V := R) k) (old new : v3)
           (n : nat) (sched : list nat) : res (fld (V := R) k) :=
  let r := pass_res a old new in
  let (e, dw) := size_v r in
  let* t := f_size 0%R 0%R tgt e dw in
  let* s := mip_threads flt a (vget a add) src (mip_blocks r (threading_block_size src)) n sched t in
  Ok (ms_tgt s).

(** export/MIPUtil.h:428-431: pad of one for odd offsets. *)
Definition add_axis (offset : Z) : Z := if Z.rem offset 2 =? 0 then 0 else 1.
Definition add_of (offset : v3) : v3 := V3 (add_axis (vx offset)) (add_axis (vy offset)) (add_axis (vz offset)).

(** export/MIPUtil.h:420-458 [mipResample].  Name, attribute, mapping and metadata are
    not modelled. *)
Definition mip_resample {k} (flt : filter) (base_dw : box) (src tgt : fld (V := R) k) (level : Z) (offset : v3)
           (n : nat) (sched : axis -> list nat) : res (fld (V := R) k) :=
  let add := add_of offset in
  let* new := mip_resolution (v3_add (box_size base_dw) (V3 1 1 1)) level add in
  let old := v3_add (box_size (f_dw src)) (V3 1 1 1) in
  let* tmp := f_new 0%R k in
  let* t1 := mip_separable flt AxX add src tgt old new n (sched AxX) in
  let* t2 := mip_separable flt AxY add t1 tmp old new n (sched AxY) in
  mip_separable flt AxZ add t2 t1 old new n (sched AxZ).

(** export/MIPUtil.h:525-532: halving an offset towards minus infinity; C++ division
    truncates.  (The overflow of [offset - 1] for the smallest [int] is not modelled.) *)
Definition half_offset (o : Z) : Z := if o <? 0 then Z.quot (o - 1) 2 else Z.quot o 2.
Definition half_offsets (o : v3) : v3 := V3 (half_offset (vx o)) (half_offset (vy o)) (half_offset (vz o)).

(** export/MIPUtil.h:515-516: the loop condition. *)
Definition mip_continue (r : v3) (min_size : Z) : bool :=
  ((vx r >? min_size) || (vy r >? min_size) || (vz r >? min_size)) &&
  ((vx r >? 2) && (vy r >? 2) && (vz r >? 2)).

(** export/MIPUtil.h:509-534: the loop; [prev] is [*result.back()], the result lists the
    levels from [prev] on.  [None]: out of fuel. *)
Fixpoint mip_levels {k} (fuel : nat) (flt : filter) (base_dw : box) (min_size : Z) (n : nat)
         (sched : nat -> axis -> list nat) (level : nat) (prev : fld (V := R) k) (r offset : v3)
  : option (res (list (fld (V := R) k))) :=
  match fuel with
  | O => None
  | S m =>
      if mip_continue r min_size then
        match (let* new := f_new 0%R k in
               mip_resample flt base_dw prev new (Z.of_nat level) offset n (sched level)) with
        | Ok f =>
            match mip_levels m flt base_dw min_size n sched (S level) f
                    (v3_add (box_size (f_dw f)) (V3 1 1 1)) (half_offsets offset) with
            | Some (Ok l) => Some (Ok (prev :: l))
            | other => other
            end
        | Exn => Some Exn
        | UB => Some UB
        end
      else Some (Ok [prev])
  end.

(** export/MIPField.h:719-758 [sanityChecks] (the levels are not null): sizes never
    grow and some axis shrinks. *)
Fixpoint sanity_from (prev : v3) (sizes : list v3) : bool :=
  match sizes with
  | [] => true
  | s :: t =>
      if (vx s >? vx prev) || (vy s >? vy prev) || (vz s >? vz prev) then false
      else if (vx s >=? vx prev) && (vy s >=? vy prev) && (vz s >=? vz prev) then false
      else sanity_from s t
  end.
Definition sanity_checks (exts : list box) : bool :=
  match map box_size exts with [] => false | s :: t => sanity_from s t end.

(** export/MIPUtil.h:488-544 [makeMIP] with [setup]: the levels.  [Ok None]: null pointer.
    A failed sanity check throws.  The base is cloned (its copy has the same values). *)
Definition make_mip {k} (fuel : nat) (flt : filter) (base : fld (V := R) k) (min_size : Z) (offset : v3) (n : nat)
           (sched : nat -> axis -> list nat) : option (res (option (list (fld (V := R) k)))) :=
  if negb (box_eqb (f_ext base) (f_dw base)) then Some (Ok None)
  else
    match mip_levels fuel flt (f_dw base) min_size n sched 1 base
            (v3_add (box_size (f_ext base)) (V3 1 1 1)) offset with
    | None => None
    | Some (Ok l) => if sanity_checks (map (fun f => f_ext f) l) then Some (Ok (Some l)) else Some Exn
    | Some Exn => Some Exn
    | Some UB => Some UB
    end.
