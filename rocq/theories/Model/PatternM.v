(** Model of src/PatternMatch.cpp: matching names against patterns. *)
From Coq Require Import ZArith List Bool.
From Verif Require Import Model.Base Model.OgawaM Model.OgM Model.FieldIOM.
Import ListNotations.
Open Scope Z_scope.

(** [std::string::c_str] read as a C string: up to the first NUL. *)
Fixpoint c_str (s : bytes) : bytes :=
  match s with [] => [] | c :: r => if c =? 0 then [] else c :: c_str r end.

(** src/PatternMatch.cpp:82-97 [split]: [boost::tokenizer] with a [char_separator] and no
    kept delimiters, which drops empty tokens. *)
Fixpoint split_from (sep : Z -> bool) (s : bytes) (token : bytes) : list bytes :=
  let done rest := match token with [] => rest | _ => rev token :: rest end in
  match s with
  | [] => done []
  | c :: r => if sep c then done (split_from sep r []) else split_from sep r (c :: token)
  end.
Definition split_on (seps : bytes) (s : bytes) : list bytes := split_from (fun c => existsb (Z.eqb c) (c_str seps)) s [].
(** src/PatternMatch.cpp:74-78; ' ' is 32. *)
Definition split (s : bytes) : list bytes := split_on [32] s.

(** [pattern.find(":")]; ':' is 58. *)
Definition has_colon (p : bytes) : bool := existsb (Z.eqb 58) p.
Fixpoint after_colon (p : bytes) : bytes :=
  match p with [] => [] | c :: r => if c =? 58 then r else after_colon r end.

Section Match.
(** [fnmatch(pattern, string, FNM_NOESCAPE) == 0]. *)
Variable glob : bytes -> bytes -> bool.

(** src/PatternMatch.cpp:120-122, 180-182; '-' is 45, '^' is 94. *)
Definition is_exclusion (i : bytes) : bool := match i with c :: _ => (c =? 45) || (c =? 94) | [] => false end.
Definition pattern_of (i : bytes) : bytes := if is_exclusion i then tl i else i.

(** src/PatternMatch.cpp:102-148 [match] with a name and an attribute; [flags] is
    [flags && MatchEmptyPattern], true for any flags but [MatchNoFlags]. *)
Fixpoint match_loop (hit : bytes -> bool) (l : list bytes) (found excluded : bool) : bool :=
  match l with
  | [] => found && negb excluded
  | i :: r =>
      match i with
      | [] => match_loop hit r found excluded
      | _ => if hit (pattern_of i)
             then if is_exclusion i then match_loop hit r found true else match_loop hit r true excluded
             else match_loop hit r found excluded
      end
  end.
Definition match_named (name attribute : bytes) (patterns : list bytes) (flags : bool) : bool :=
  match patterns with
  | [] => flags
  | _ => match_loop (fun p => glob (c_str p) (c_str (if has_colon p then name ++ [58] ++ attribute else attribute))) patterns false false
  end.
(** src/PatternMatch.cpp:163-203 [match] with an attribute only. *)
Definition match_attribute (attribute : bytes) (patterns : list bytes) (flags : bool) : bool :=
  match patterns with
  | [] => flags
  | _ => match_loop (fun p => glob (c_str (if has_colon p then after_colon p else p)) (c_str attribute)) patterns false false
  end.
(** src/PatternMatch.cpp:152-158, 207-212: a string of patterns. *)
Definition match_named_string (name attribute patterns : bytes) (flags : bool) : bool := match_named name attribute (split patterns) flags.
Definition match_attribute_string (attribute patterns : bytes) (flags : bool) : bool := match_attribute attribute (split patterns) flags.
End Match.
