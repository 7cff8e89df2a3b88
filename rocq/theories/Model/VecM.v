(** Real 3-vectors and boxes ([Imath::V3d], [Imath::Box3d]) in exact arithmetic. *)
From Coq Require Import ZArith Reals.
From Verif Require Import Model.Base Model.RealM.
Open Scope R_scope.

Record r3 : Type := R3 { rx : R; ry : R; rz : R }.
Record rbox : Type := RBox { rmin : r3; rmax : r3 }.

(** [static_cast<int>(floor(x))]: converting a value outside [int] is undefined. *)
Definition int_floor (x : R) : res Z := i32 (rfloor x).
