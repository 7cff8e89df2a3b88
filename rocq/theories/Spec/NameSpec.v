(** What pattern matching, file sequences and class registration must do. *)
From Coq Require Import ZArith List Bool.
From Verif Require Import Model.Base Model.OgM Model.FileM Model.FactoryM.
Import ListNotations.
Open Scope Z_scope.

(** ** Patterns *)

(** The two kinds of patterns: one that starts with '-' or '^' excludes what the rest of
    it matches, any other non-empty one includes what it matches. *)
Definition includes (p q : list Z) : Prop := p = q /\ q <> [] /\ hd 0 q <> 45 /\ hd 0 q <> 94.
Definition excludes (p q : list Z) : Prop := p = 45 :: q \/ p = 94 :: q.

(** A string without NUL characters. *)
Definition text (s : list Z) : Prop := ~ In 0 s.

(** What a pattern is compared with: "name:attribute" if it has a colon (58), else the
    attribute. *)
Inductive compared (name attribute : list Z) : list Z -> list Z -> Prop :=
| compared_colon a b : compared name attribute (a ++ 58 :: b) (name ++ 58 :: attribute)
| compared_plain p : ~ In 58 p -> compared name attribute p attribute.
(** When only an attribute is given, what the pattern requires of it: the part after the
    first colon. *)
Inductive attribute_part : list Z -> list Z -> Prop :=
| part_colon a b : ~ In 58 a -> attribute_part (a ++ 58 :: b) b
| part_plain p : ~ In 58 p -> attribute_part p p.

(** A string and the tokens in it: characters between separators. *)
Inductive tokens (sep : Z -> Prop) : list Z -> list (list Z) -> Prop :=
| tokens_nil : tokens sep [] []
| tokens_sep c s l : sep c -> tokens sep s l -> tokens sep (c :: s) l
| tokens_last t : t <> [] -> (forall c, In c t -> ~ sep c) -> tokens sep t [t]
| tokens_cons t c s l : t <> [] -> (forall c, In c t -> ~ sep c) -> sep c -> tokens sep s l -> tokens sep (t ++ c :: s) (t :: l).

(** ** Sequences *)

(** A string of decimal digits and the number it stands for (leading zeros allowed). *)
Definition digits (d : list Z) : Prop := d <> [] /\ forall c, In c d -> 48 <= c <= 57.
Definition number (d : list Z) : Z := fold_left (fun n c => n * 10 + (c - 48)) d 0.
(** No sequence mark: '#' (35) or '@' (64). *)
Definition unmarked (s : list Z) : Prop := ~ In 35 s /\ ~ In 64 s.

(** ** Registration *)

(** The creators a history registers, per registry. *)
Definition fields_of (h : list registration) : list creator := flat_map (fun r => match r with RField f => [f] | _ => [] end) h.
Definition field_ios_of (h : list registration) : list creator := flat_map (fun r => match r with RFieldIO f => [f] | _ => [] end) h.
Definition mappings_of (h : list registration) : list creator := flat_map (fun r => match r with RMapping f => [f] | _ => [] end) h.
Definition mapping_ios_of (h : list registration) : list creator := flat_map (fun r => match r with RMappingIO f => [f] | _ => [] end) h.
(** The creator makes objects of this name: "Class<type>" for fields, "Class" otherwise. *)
Definition makes_field (name : list Z) (f : creator) : bool :=
  match cr_makes f with Some (cls, ty) => bytes_eqb (cls ++ 60 :: ty ++ [62]) name | None => false end.
Definition makes_class (name : list Z) (f : creator) : bool :=
  match cr_makes f with Some (cls, _) => bytes_eqb cls name | None => false end.

(** The first element of a history with a property. *)
Definition first_of {A} (q : A -> bool) (h : list A) (x : A) : Prop :=
  exists before after, h = before ++ x :: after /\ q x = true /\ forall y, In y before -> q y = false.

(** The decimal text of a natural number: its digits, without leading zeros. *)
Definition decimal (t : list Z) (n : Z) : Prop := digits t /\ number t = n /\ (hd 0 t = 48 -> t = [48]).
