(** Model of the sampling of a vector of fields at one and at many points (export/FieldSampler.h), and of the flags that
    select its branches (export/FieldWrapper.h).  Arrays are lists of cells.  All arithmetic is left open: positions are
    of a type [P], cells of the result of a type [F], components of voxels of a type [D], spot sizes, as the interpolator
    gets them, of a type [S]; the theorems hold whatever the operations do, so also for rounded ones.  Hits are counted
    without the bound of [size_t]. *)
From Coq Require Import ZArith List Bool.
From Verif Require Import Model.Base Model.LoopM.
Import ListNotations.

(** export/FieldWrapper.h:63-148, 157-246: a field of a group.  [mf_os]: multiplication by [wsToOs], if [doOsToWs];
    [mf_map]: [mapping->worldToVoxel]; [mf_in]: [vsBounds.intersects]; [mf_sample]: the interpolator; [mf_spot]: the
    division of a spot size by [worldScale], in [double], and its conversion to [float]; [mf_opt]:
    [doWsBoundsOptimization], [None] if it is indeterminate; [mf_ws_in]: [wsBounds.intersects]; [mf_ws_map]: multiplication
    by [wsToVs]. *)
Record mfield (F P D S : Type) : Type := MField {
  mf_os : option (P -> P); mf_map : P -> P; mf_in : P -> bool; mf_sample : S -> P -> list D; mf_spot : F -> S;
  mf_remap : option (list D -> list D); mf_opt : option bool; mf_ws_in : F * F * F -> bool; mf_ws_map : P -> P }.
Arguments MField {F P D S}. Arguments mf_os {F P D S}. Arguments mf_map {F P D S}. Arguments mf_in {F P D S}. Arguments mf_sample {F P D S}.
Arguments mf_spot {F P D S}. Arguments mf_remap {F P D S}. Arguments mf_opt {F P D S}. Arguments mf_ws_in {F P D S}. Arguments mf_ws_map {F P D S}.

(** [data += value], on a number or a vector. *)
Definition ms_add {F D} (plus : F -> D -> F) (a : list F) (x : list D) : list F := map (fun c => plus (fst c) (snd c)) (combine a x).
(** export/FieldSampler.h:113-119, 210-216: what is added. *)
Definition ms_value {F P D S} (f : mfield F P D S) (spot : F) (v : P) : list D :=
  let raw := mf_sample f (mf_spot f spot) v in match mf_remap f with Some g => g raw | None => raw end.

(** export/FieldSampler.h:93-122 [sample], 188-219 [sampleMIP]: one field, and all. *)
Definition ms_one {F P D S} (plus : F -> D -> F) (p : P) (spot : F) (acc : list F * Z) (f : mfield F P D S) : list F * Z :=
  let v := match mf_os f with Some o => mf_map f (o p) | None => mf_map f p end in
  if mf_in f v then (ms_add plus (fst acc) (ms_value f spot v), (snd acc + 1)%Z) else acc.
Definition ms_sample {F P D S} plus p spot (l : list (mfield F P D S)) acc : list F * Z := fold_left (ms_one plus p spot) l acc.

(** Entry [i] of an array of entries of [d] cells. *)
Definition rd {A} (d : nat) (l : list A) (i : nat) : res (list A) := if Nat.leb (d * (i + 1)) (length l) then Ok (firstn d (skipn (d * i) l)) else UB.
Definition wr {A} (d : nat) (l : list A) (i : nat) (v : list A) : res (list A) :=
  if Nat.leb (d * (i + 1)) (length l) then Ok (firstn (d * i) l ++ v ++ skipn (d * (i + 1)) l) else UB.
(** [*reinterpret_cast<const V3f*>(wsPs + 3 * ieval)] *)
Definition rd3 {F} (pts : list F) (i : nat) : res (F * F * F) :=
  let* c := rd 3 pts i in match c with [x; y; z] => Ok (x, y, z) | _ => UB end.
Definition rd1 {A} (l : list A) (i : nat) : res A := let* c := rd 1 l i in match c with [x] => Ok x | _ => UB end.
(** export/FieldSampler.h:150-160 and its likes: [numHits[ieval]++; data[ieval] += x]. *)
Definition ms_hit {F D} (plus : F -> D -> F) (d i : nat) (x : list D) (st : list F * list Z) : res (list F * list Z) :=
  let* h := rd1 (snd st) i in
  let* hits := wr 1 (snd st) i [(h + 1)%Z] in
  let* a := rd d (fst st) i in
  let* data := wr d (fst st) i (ms_add plus a x) in
  Ok (data, hits).

(** export/FieldSampler.h:125-185 [sampleMultiple]; [conv] is the conversion of [V3f] to [V3d]; [d] is [Dims_T].  (Ordinary
    fields take no spot size: [spot] is passed on to the interpolator, which ignores it.) *)
Definition ms_multiple {F P D S} (conv : F * F * F -> P) plus d n (pts : list F) (spot : F) (l : list (mfield F P D S)) (st : list F * list Z) : res (list F * list Z) :=
  each (fun f st =>
    if (match mf_os f with Some _ => true | None => false end || match mf_remap f with Some _ => true | None => false end)%bool then
      each (fun i st =>
        let* w := rd3 pts i in
        let v := match mf_os f with Some o => mf_map f (o (conv w)) | None => mf_map f (conv w) end in
        if mf_in f v then
          ms_hit plus d i (match mf_remap f with Some g => g (mf_sample f (mf_spot f spot) v) | None => mf_sample f (mf_spot f spot) v end) st
        else Ok st) (seq 0 n) st
    else
      each (fun i st =>
        let* w := rd3 pts i in
        let v := mf_map f (conv w) in
        if mf_in f v then ms_hit plus d i (mf_sample f (mf_spot f spot) v) st else Ok st) (seq 0 n) st) l st.

(** export/FieldSampler.h:222-315 [sampleMIPMultiple].  The flag is only read if there is a remap operator. *)
Definition ms_mip_multiple {F P D S} (conv : F * F * F -> P) plus d n (pts spots : list F) (l : list (mfield F P D S)) (st : list F * list Z) : res (list F * list Z) :=
  each (fun f st =>
    match mf_os f, mf_remap f with
    | None, None =>
        each (fun i st =>
          let* w := rd3 pts i in
          let v := mf_map f (conv w) in
          if mf_in f v then let* s := rd1 spots i in ms_hit plus d i (mf_sample f (mf_spot f s) v) st else Ok st) (seq 0 n) st
    | _, _ =>
        let* opt := match mf_remap f with Some _ => match mf_opt f with Some b => Ok b | None => UB end | None => Ok false end in
        if opt then
          each (fun i st =>
            let* w := rd3 pts i in
            if mf_ws_in f w then
              let v := mf_ws_map f (conv w) in
              if mf_in f v then
                let* s := rd1 spots i in
                ms_hit plus d i (match mf_remap f with Some g => g (mf_sample f (mf_spot f s) v) | None => mf_sample f (mf_spot f s) v end) st
              else Ok st
            else Ok st) (seq 0 n) st
        else
          each (fun i st =>
            let* w := rd3 pts i in
            let* s := rd1 spots i in
            let v := match mf_os f with Some o => mf_map f (o (conv w)) | None => mf_map f (conv w) end in
            if mf_in f v then
              ms_hit plus d i (match mf_remap f with Some g => g (mf_sample f (mf_spot f s) v) | None => mf_sample f (mf_spot f s) v end) st
            else Ok st) (seq 0 n) st
    end) l st.

(** ** The flag *)
(** What of a new entry depends on it: whether there is a transform, [doWsBoundsOptimization] and whether there is a remap
    operator. *)
Record entry : Type := Entry { e_os : bool; e_opt : option bool; e_remap : bool }.
(** export/FieldWrapper.h:68-77 [FieldWrapper], 163-174 [MIPFieldWrapper], which does not initialise the flag. *)
Definition e_new (mip : bool) : entry := Entry false (if mip then None else Some false) false.
(** export/FieldWrapper.h:100-125, 197-222 [setWsBoundsOptimization]; [matrix]: the mapping is a matrix mapping. *)
Definition e_set_ws (matrix want : bool) (e : entry) : entry :=
  if negb want then e else if matrix then Entry (e_os e) (Some true) (e_remap e) else e.
(** export/FieldWrapper.h:79-98, 176-195 [setOsToWs] *)
Definition e_set_os (matrix : bool) (e : entry) : res entry :=
  let e' := Entry true (e_opt e) (e_remap e) in
  match e_opt e' with Some b => Ok (if b then e_set_ws matrix b e' else e') | None => UB end.
(** export/FieldGroup.h:910-938 [GrabFields]; [moved]: the transform of the group is not the identity. *)
Definition e_grab (mip matrix moved want remap : bool) : res entry :=
  let e := e_new mip in
  let* e := if moved then e_set_os matrix e else Ok e in
  let e := if want then e_set_ws matrix want e else e in
  Ok (if remap then Entry (e_os e) (e_opt e) true else e).
