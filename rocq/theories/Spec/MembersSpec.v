(** What group memberships must do. *)
From Coq Require Import ZArith List Bool String.
From Verif Require Import Model.Base Model.OgM Spec.OgSpec Model.FieldIOM Model.FileM Model.MetaM Model.Hdf5FileM.
Import ListNotations.
Open Scope Z_scope.

(** A layer that belongs to a group: partition, the number that makes it unique, layer. *)
Record member : Type := Member { mb_part : bytes; mb_id : option bytes; mb_layer : bytes }.
Definition full_part (e : member) : bytes :=
  match mb_id e with Some i => mb_part e ++ [46] ++ i | None => mb_part e end.
(** As it is given, and as it is reported: without the number. *)
Definition member_text (e : member) : bytes := full_part e ++ [58] ++ mb_layer e ++ [32].
Definition member_shown (e : member) : bytes := mb_part e ++ [58] ++ mb_layer e ++ [32].

(** A word: not empty, without NUL, blanks and colons. *)
Definition word (w : bytes) : Prop := w <> [] /\ ~ In 0 w /\ ~ In 32 w /\ ~ In 58 w.
(** Names with a number, or without any dot. *)
Definition member_ok (e : member) : Prop :=
  word (full_part e) /\ word (mb_layer e) /\
  match mb_id e with Some i => ~ In 46 i | None => ~ In 46 (mb_part e) end.
(** Names of groups: not empty, without NUL, not the one the library uses. *)
Definition group_ok (n : bytes) : Prop := n <> [] /\ ~ In 0 n /\ n <> str "is_field3d_group_membership".

(** The members of a group after a history of additions. *)
Definition members_of (n : bytes) (h : list (bytes * list member)) : list member :=
  flat_map (fun x => if list_eq_dec Z.eq_dec (fst x) n then snd x else []) h.

(** The words of a text: what blanks and colons separate. *)
Definition sep (c : Z) : Prop := c = 32 \/ c = 58.
Definition run (w : bytes) : Prop := w <> [] /\ forall c, In c w -> ~ sep c.
Inductive splits : bytes -> list bytes -> Prop :=
| sp_nil : splits [] []
| sp_sep c s l : sep c -> splits s l -> splits (c :: s) l
| sp_last w : run w -> splits w [w]
| sp_word w c s l : run w -> sep c -> splits s l -> splits (w ++ c :: s) (w :: l).
(** Pairs of words, as they are reported: the first without what follows its last dot. *)
Inductive reported : list bytes -> bytes -> Prop :=
| rp_nil : reported [] []
| rp_dot p i b l t : ~ In 46 i -> reported l t -> reported ((p ++ [46] ++ i) :: b :: l) ((p ++ [58] ++ b ++ [32]) ++ t)
| rp_plain p b l t : ~ In 46 p -> reported l t -> reported (p :: b :: l) ((p ++ [58] ++ b ++ [32]) ++ t).
