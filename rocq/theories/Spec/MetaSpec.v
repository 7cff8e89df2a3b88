(** What metadata must do. *)
From Coq Require Import ZArith List Bool String.
From Verif Require Import Model.Base Model.OgM Spec.OgSpec Model.FieldIOM Model.FileM Model.MetaM.
Import ListNotations.
Open Scope Z_scope.

(** A history of settings: which map, name, value. *)
Record mset : Type := MSet { ms_kind : mkind; ms_name : bytes; ms_value : bytes }.
Definition meta_run (l : list mset) : meta :=
  fold_left (fun m s => meta_set m (ms_kind s) (ms_name s) (ms_value s)) l meta_empty.

Definition kind_eqb (a b : mkind) : bool := type_code (mtype a) =? type_code (mtype b).
(** The last value a history gave to a name of a kind. *)
Definition last_set (l : list mset) (k : mkind) (n : bytes) : option bytes :=
  fold_left (fun acc s => if kind_eqb (ms_kind s) k && bytes_eqb (ms_name s) n then Some (ms_value s) else acc) l None.

(** Names and values a file can hold. *)
Definition storable_set (s : mset) : Prop := plain_name (ms_name s) /\ value_ok (mtype (ms_kind s)) (ms_value s).

(** The kinds in the order they are written. *)
Definition kinds : list mkind := [KStr; KInt; KFloat; KVecInt; KVecFloat].
Definition before (k : mkind) : list mkind :=
  match k with KStr => [] | KInt => [KStr] | KFloat => [KStr; KInt] | KVecInt => [KStr; KInt; KFloat]
  | KVecFloat => [KStr; KInt; KFloat; KVecInt] end.
