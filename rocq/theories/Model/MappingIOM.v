(** Model of the Ogawa side of src/FieldMappingIO.cpp, and of [writeMapping] and
    [readFieldMapping] in src/Field3DFile.cpp.

    Times are of a type [T] stored in 4 bytes, matrices of a type [X] stored in 128 bytes.
    Only what decides the stored samples is kept of a mapping: its curves. *)
From Coq Require Import ZArith List Bool String.
From Verif Require Import Model.Base Model.OgawaM Spec.OgawaSpec Model.OgM Model.FieldIOM Model.FileM Model.CurveM.
Import ListNotations.
Open Scope Z_scope.

Section Mapping.
Context {T X : Type}.
Variables ltb eqb : T -> T -> bool.
Variable t_enc : T -> bytes.
Variable t_dec : bytes -> T.
Variable x_enc : X -> bytes.
Variable x_dec : bytes -> X.
(** Time 0, and the matrices of a frustum in its default state
    (src/FieldMapping.cpp:501-532). *)
Variable t0 : T.
Variables ss0 cs0 : X.

(** * Matrix mappings *)

(** src/FieldMapping.cpp:269-292: the calls that change the samples. *)
Inductive mop : Type := MSetAt (t : T) (m : X) | MSetOnly (m : X) | MIdentity.
Definition matrix_op (c : list (T * X)) (o : mop) : list (T * X) :=
  match o with
  | MSetAt t m => add_sample ltb eqb t m c
  | MSetOnly m => add_sample ltb eqb t0 m (match c with [] => c | _ => [] end)
  | MIdentity => []
  end.

Definition nth_name (prefix : string) (i : nat) : bytes := str prefix ++ int_name i.

(** src/FieldMappingIO.cpp:296-330 [MatrixFieldMappingIO::write]. *)
Fixpoint matrix_samples (i : nat) (c : list (T * X)) : list tree :=
  match c with
  | [] => []
  | (t, m) :: r =>
      node_attr (nth_name "time_" i) TFloat32 (t_enc t) ::
      node_attr (nth_name "matrix_" i) TMtx64 (x_enc m) :: matrix_samples (S i) r
  end.
Definition matrix_write (c : list (T * X)) : list tree :=
  node_attr (str "num_time_samples") TInt32 (enc32 (Z.of_nat (List.length c))) :: matrix_samples 0 c.

(** src/FieldMappingIO.cpp:203-245 [MatrixFieldMappingIO::read]. [Ok None]: a null
    pointer. *)
Fixpoint matrix_read_from (t : tree) (i n : nat) (c : list (T * X)) : res (option (list (T * X))) :=
  match n with
  | O => Ok (Some c)
  | S n' =>
      let* a := get_attr t (nth_name "time_" i) TFloat32 (zeros 4) in
      match a with
      | None => Ok None
      | Some time =>
          let* b := get_attr t (nth_name "matrix_" i) TMtx64 (zeros 128) in
          match b with
          | None => Ok None
          | Some mtx => matrix_read_from t (S i) n' (matrix_op c (MSetAt (t_dec time) (x_dec mtx)))
          end
      end
  end.
Definition matrix_read (t : tree) : res (option (list (T * X))) :=
  let* a := get_attr t (str "num_time_samples") TInt32 (zeros 4) in
  match a with
  | None => Ok None
  | Some b => matrix_read_from t 0 (Z.to_nat (dec_i32 b)) []
  end.

(** * Frustum mappings *)

(** src/FieldMapping.cpp:441-539, 787-793: the two curves the writer uses, whether the
    mapping is in its default state, and the distribution of slices. *)
Record frustum : Type := Fr { fr_ss : list (T * X); fr_cs : list (T * X); fr_default : bool; fr_z : Z }.
(** [clearCurves] leaves [m_ssToWsCurve] alone. *)
Definition clear_curves (f : frustum) : frustum := Fr (fr_ss f) [] (fr_default f) (fr_z f).
Definition set_transforms (f : frustum) (t : T) (ss cs : X) : frustum :=
  let f := if fr_default f then (let g := clear_curves f in Fr (fr_ss g) (fr_cs g) false (fr_z g)) else f in
  Fr (add_sample ltb eqb t ss (fr_ss f)) (add_sample ltb eqb t cs (fr_cs f)) (fr_default f) (fr_z f).
Definition fr_reset (f : frustum) : frustum :=
  let f := set_transforms (clear_curves f) t0 ss0 cs0 in Fr (fr_ss f) (fr_cs f) true (fr_z f).
(** The default constructor, src/FieldMapping.cpp:423-429. *)
Definition fr_new : frustum := fr_reset (Fr [] [] true 0).

Inductive fop : Type := FSetAt (t : T) (ss cs : X) | FReset | FDist (z : Z).
Definition frustum_op (f : frustum) (o : fop) : frustum :=
  match o with
  | FSetAt t ss cs => set_transforms f t ss cs
  | FReset => fr_reset f
  | FDist z => Fr (fr_ss f) (fr_cs f) (fr_default f) z
  end.

(** src/FieldMappingIO.cpp:556-601 [FrustumFieldMappingIO::write]: [csSamples[i]] for every
    index of [ssSamples]. *)
Fixpoint frustum_samples (i : nat) (ss cs : list (T * X)) : res (list tree) :=
  match ss with
  | [] => Ok []
  | (t, m) :: r =>
      match cs with
      | [] => UB
      | (_, k) :: cr =>
          let* rest := frustum_samples (S i) r cr in
          Ok (node_attr (nth_name "time_" i) TFloat32 (t_enc t) ::
              node_attr (nth_name "screen_to_world_" i) TMtx64 (x_enc m) ::
              node_attr (nth_name "camera_to_world_" i) TMtx64 (x_enc k) :: rest)
      end
  end.
Definition frustum_write (f : frustum) : res (list tree) :=
  let* l := frustum_samples 0 (fr_ss f) (fr_cs f) in
  Ok (node_attr (str "num_time_samples") TInt32 (enc32 (Z.of_nat (List.length (fr_ss f)))) :: l ++
      [node_attr (str "z_distribution") TInt32 (enc32 (fr_z f))]).

(** src/FieldMappingIO.cpp:436-464: the loop over the samples. *)
Fixpoint frustum_read_from (t : tree) (i n : nat) (f : frustum) : res (option frustum) :=
  match n with
  | O => Ok (Some f)
  | S n' =>
      let* a := get_attr t (nth_name "time_" i) TFloat32 (zeros 4) in
      match a with
      | None => Ok None
      | Some time =>
          let* b := get_attr t (nth_name "screen_to_world_" i) TMtx64 (zeros 128) in
          let* c := get_attr t (nth_name "camera_to_world_" i) TMtx64 (zeros 128) in
          match b, c with
          | Some ss, Some cs => frustum_read_from t (S i) n' (set_transforms f (t_dec time) (x_dec ss) (x_dec cs))
          | _, _ => Ok None
          end
      end
  end.
(** src/FieldMappingIO.cpp:413-486 [FrustumFieldMappingIO::read].  [numSamples] is 0 when
    the loop starts: the attribute is found but its value is never taken. *)
Definition frustum_read (t : tree) : res (option frustum) :=
  let num_samples := O in
  let* a := get_attr t (str "num_time_samples") TInt32 (zeros 4) in
  match a with
  | None => Ok None
  | Some _ =>
      let* r := frustum_read_from t 0 num_samples fr_new in
      match r with
      | None => Ok None
      | Some f =>
          let* z := get_attr t (str "z_distribution") TInt32 (zeros 4) in
          Ok (match z with None => None | Some b => Some (frustum_op f (FDist (dec_i32 b))) end)
      end
  end.

(** * Any mapping *)
Inductive mapping : Type := MapNull | MapMatrix (c : list (T * X)) | MapFrustum (f : frustum).
Definition class_of (m : mapping) : bytes :=
  match m with MapNull => str "NullFieldMapping" | MapMatrix _ => str "MatrixFieldMapping" | MapFrustum _ => str "FrustumFieldMapping" end.

(** src/Field3DFile.cpp:1013-1041 [writeMapping] and src/FieldMappingIO.cpp:128-134: what
    the "mapping" group is given. *)
Definition mapping_kids (m : mapping) : res (list tree) :=
  let* l := match m with
            | MapNull => Ok [node_attr (str "NullFieldMapping data") TString (str "NullFieldMapping has no data")]
            | MapMatrix c => Ok (matrix_write c)
            | MapFrustum f => frustum_write f
            end in
  Ok (node_attr (str "mapping_type") TString (class_of m) :: l).

(** src/Field3DFile.cpp:190-217 [readFieldMapping], src/FieldMappingIO.cpp:103-115.
    [Ok None]: a null pointer. *)
Definition mapping_read (t : tree) : res (option mapping) :=
  let* a := get_attr t (str "mapping_type") TString [] in
  match a with
  | None => Ok None
  | Some c =>
      if bytes_eqb c (str "NullFieldMapping") then
        let* d := get_attr t (str "NullFieldMapping data") TString [] in
        Ok (match d with Some _ => Some MapNull | None => None end)
      else if bytes_eqb c (str "MatrixFieldMapping") then
        let* r := matrix_read t in Ok (option_map MapMatrix r)
      else if bytes_eqb c (str "FrustumFieldMapping") then
        let* r := frustum_read t in Ok (option_map MapFrustum r)
      else Ok None
  end.
End Mapping.
