(** Model of the HDF5 side of src/FieldMappingIO.cpp, and of [writeFieldMapping] and
    [readFieldMapping] in src/Field3DFileHDF5.cpp.

    Mappings are those of [MappingIOM]: the curves of their samples, times stored in 4 bytes
    and matrices in 128.  There are fewer than 2^31 samples.  [setTransforms] throws if a
    distance is not a number; that is not modelled. *)
From Coq Require Import ZArith List Bool String.
From Verif Require Import Model.Base Model.OgawaM Spec.OgawaSpec Model.OgM Model.FieldIOM Model.FileM Model.MetaM Model.CurveM Model.MappingIOM
  Model.Hdf5M Model.Hdf5FileM.
Import ListNotations.
Open Scope Z_scope.

Section Mapping.
Context {T X : Type}.
Variables ltb eqb : T -> T -> bool.
Variable t_enc : T -> bytes.
Variable t_dec : bytes -> T.
Variable x_enc : X -> bytes.
Variable x_dec : bytes -> X.
Variable t0 : T.
Variables ss0 cs0 : X.
(** The identity, which a matrix variable holds before anything is read into it. *)
Variable x_id : X.

(** A call of [writeAttribute] and what follows if it returned true. *)
Definition and_then (l : attrs) (put : option attrs) (k : attrs -> attrs * bool) : attrs * bool :=
  match put with Some l' => k l' | None => (l, false) end.
(** Of one [int] or [float]; of a matrix of [double] (the dimensions are [attrSize]). *)
Definition put_one (l : attrs) (n : bytes) (fl : bool) (d : bytes) : option attrs := put_num l n fl 4 [1%nat] d.
Definition put_mtx (l : attrs) (n : bytes) (m : X) : option attrs := put_num l n true 8 [4%nat; 4%nat] (x_enc m).

(** src/FieldMappingIO.cpp:115-125 [NullFieldMappingIO::write]. *)
Definition null_put (l : attrs) : attrs * bool :=
  and_then l (put_str l (str "NullFieldMapping data") (str "NullFieldMapping has no data")) (fun l => (l, true)).
(** src/FieldMappingIO.cpp:249-291 [MatrixFieldMappingIO::write]. *)
Fixpoint matrix_put_from (i : nat) (c : list (T * X)) (l : attrs) : attrs * bool :=
  match c with
  | [] => (l, true)
  | (t, m) :: r =>
      and_then l (put_one l (nth_name "time_" i) true (t_enc t)) (fun l =>
      and_then l (put_mtx l (nth_name "matrix_" i) m) (matrix_put_from (S i) r))
  end.
Definition matrix_put (c : list (T * X)) (l : attrs) : attrs * bool :=
  and_then l (put_one l (str "num_time_samples") false (enc32 (Z.of_nat (List.length c)))) (matrix_put_from 0 c).
(** src/FieldMappingIO.cpp:490-552 [FrustumFieldMappingIO::write]: [csSamples[i]] for every index
    of [ssSamples]. *)
Fixpoint frustum_put_from (i : nat) (ss cs : list (T * X)) (l : attrs) : res (attrs * bool) :=
  match ss with
  | [] => Ok (l, true)
  | (t, m) :: r =>
      match put_one l (nth_name "time_" i) true (t_enc t) with
      | None => Ok (l, false)
      | Some l =>
          match put_mtx l (nth_name "screen_to_world_" i) m with
          | None => Ok (l, false)
          | Some l =>
              match cs with
              | [] => UB
              | (_, k) :: cr =>
                  match put_mtx l (nth_name "camera_to_world_" i) k with
                  | None => Ok (l, false)
                  | Some l => frustum_put_from (S i) r cr l
                  end
              end
          end
      end
  end.
Definition frustum_put (f : frustum) (l : attrs) : res (attrs * bool) :=
  match put_one l (str "num_time_samples") false (enc32 (Z.of_nat (List.length (fr_ss f)))) with
  | None => Ok (l, false)
  | Some l =>
      let* (l, ok) := frustum_put_from 0 (fr_ss f) (fr_cs f) l in
      if negb (ok : bool) then Ok (l, false)
      else Ok (and_then l (put_one l (str "z_distribution") false (enc32 (fr_z f))) (fun l => (l, true)))
  end.
(** src/Field3DFileHDF5.cpp:1645-1665 [writeFieldMapping], into a new group. *)
Definition mapping_put (m : mapping) : res (attrs * bool) :=
  match put_str [] (str "mapping_type") (class_of m) with
  | None => Ok ([], false)
  | Some l =>
      match m with
      | MapNull => Ok (null_put l)
      | MapMatrix c => Ok (matrix_put c l)
      | MapFrustum f => frustum_put f l
      end
  end.

(** * Reading *)

(** What [catch (...)] around a read makes of it. *)
Definition or_else {B} (r : res B) (other : res B) : res B := match r with Exn => other | _ => r end.
Definition num_samples (l : attrs) : res nat :=
  or_else (let* d := get_num l (str "num_time_samples") false 4 [1%nat] (Some (enc32 0)) in Ok (Z.to_nat (dec_i32 d))) (Ok O).

(** src/FieldMappingIO.cpp:147-199 [MatrixFieldMappingIO::read]; [mtx] holds the bytes of the
    last matrix.  The time is not initialised. *)
Fixpoint matrix_get_from (l : attrs) (i n : nat) (mtx : bytes) (c : list (T * X)) : res (list (T * X)) :=
  match n with
  | O => Ok c
  | S n' =>
      let* time := get_num l (nth_name "time_" i) true 4 [1%nat] None in
      let* mtx := get_num l (nth_name "matrix_" i) true 8 [4%nat; 4%nat] (Some mtx) in
      matrix_get_from l (S i) n' mtx (matrix_op ltb eqb t0 c (MSetAt (t_dec time) (x_dec mtx)))
  end.
Definition matrix_get (l : attrs) : res (list (T * X)) :=
  or_else
    (let* mtx := get_num l (str "MatrixFieldMapping data") true 8 [16%nat] (Some (x_enc x_id)) in
     Ok (matrix_op ltb eqb t0 [] (MSetOnly (x_dec mtx))))
    (let* n := num_samples l in matrix_get_from l 0 n (x_enc x_id) []).

(** src/FieldMappingIO.cpp:343-409 [FrustumFieldMappingIO::read]; [time] outlives the loop. *)
Fixpoint frustum_get_from (l : attrs) (i n : nat) (time : option bytes) (ss cs : bytes) (f : frustum) : res frustum :=
  match n with
  | O => Ok f
  | S n' =>
      let* time := get_num l (nth_name "time_" i) true 4 [1%nat] time in
      let* ss := get_num l (nth_name "screen_to_world_" i) true 8 [4%nat; 4%nat] (Some ss) in
      let* cs := get_num l (nth_name "camera_to_world_" i) true 8 [4%nat; 4%nat] (Some cs) in
      frustum_get_from l (S i) n' (Some time) ss cs (set_transforms ltb eqb f (t_dec time) (x_dec ss) (x_dec cs))
  end.
Definition frustum_get (l : attrs) : res frustum :=
  let* n := num_samples l in
  let* f := frustum_get_from l 0 n None (x_enc x_id) (x_enc x_id) (fr_new ltb eqb t0 ss0 cs0) in
  let* z := or_else (let* d := get_num l (str "z_distribution") false 4 [1%nat] None in Ok (dec_i32 d)) (Ok 0) in
  Ok (frustum_op ltb eqb t0 ss0 cs0 f (FDist z)).

(** src/Field3DFileHDF5.cpp:1613-1641 [readFieldMapping], src/FieldMappingIO.cpp:87-97. *)
Definition mapping_get (l : attrs) : res (option mapping) :=
  let* c := get_str l (str "mapping_type") in
  if bytes_eqb c (str "NullFieldMapping") then let* _ := get_str l (str "NullFieldMapping data") in Ok (Some MapNull)
  else if bytes_eqb c (str "MatrixFieldMapping") then let* c := matrix_get l in Ok (Some (MapMatrix c))
  else if bytes_eqb c (str "FrustumFieldMapping") then let* f := frustum_get l in Ok (Some (MapFrustum f))
  else Ok None.
End Mapping.
