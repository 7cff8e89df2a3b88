(** Specification vocabulary for resampling in floating point. *)
From Coq Require Import ZArith.
From Verif Require Import Model.Base.
Open Scope Z_scope.

(** Voxel [s] of [old] and voxel [i] of [new] have a part of the common unit interval in common. *)
Definition overlap (old new i s : Z) : Prop := 0 <= s < old /\ s * new < (i + 1) * old /\ i * old < (s + 1) * new.
(** One size is a multiple of the other, and neither is above 2^19. *)
Definition whole (old new : Z) : Prop := 1 <= old <= 2 ^ 19 /\ 1 <= new <= 2 ^ 19 /\ exists c, 1 <= c /\ (old = c * new \/ new = c * old).

(** In space. *)
Definition under (old new p q : v3) : Prop := overlap (vx old) (vx new) (vx p) (vx q) /\ overlap (vy old) (vy new) (vy p) (vy q) /\ overlap (vz old) (vz new) (vz p) (vz q).
Definition whole3 (old new : v3) : Prop := whole (vx old) (vx new) /\ whole (vy old) (vy new) /\ whole (vz old) (vz new).
Definition multiple3 (old new : v3) : Prop := exists a b c, vx new = a * vx old /\ vy new = b * vy old /\ vz new = c * vz old.
