(** Model of src/FileSequence.cpp. *)
From Coq Require Import ZArith List Bool.
From Verif Require Import Model.Base Model.OgawaM Model.OgM Model.FieldIOM Model.FileM.
Import ListNotations.
Open Scope Z_scope.

(** [size_t] positions; [std::string::npos]. *)
Definition npos : Z := 2 ^ 64 - 1.
(** [size_t] subtraction wraps around. *)
Definition size_sub (a b : Z) : Z := (a - b) mod 2 ^ 64.

Definition is_digit (c : Z) : bool := (48 <=? c) && (c <=? 57).
(** '#' is 35, '@' is 64. *)
Definition is_mark (c : Z) : bool := (c =? 35) || (c =? 64).

(** [s.find_first_of(chars, pos)]. *)
Fixpoint find_first (q : Z -> bool) (s : bytes) (at_ : Z) : Z :=
  match s with [] => npos | c :: r => if q c then at_ else find_first q r (at_ + 1) end.
Definition find_first_of (q : Z -> bool) (s : bytes) (pos : Z) : Z := find_first q (skipn (Z.to_nat pos) s) pos.
(** [s.find_last_not_of(chars, pos)]: backwards from [min(pos, size - 1)]. *)
Fixpoint find_back (q : Z -> bool) (s : bytes) (n : nat) : Z :=
  match n with
  | O => npos
  | S n' => if q (nth n' s 0) then find_back q s n' else Z.of_nat n'
  end.
Definition find_last_not_of (q : Z -> bool) (s : bytes) (pos : Z) : Z :=
  let size := Z.of_nat (length s) in find_back q s (Z.to_nat (Z.min size (pos + 1))).
(** [s.substr(pos, count)]: throws beyond the end. *)
Definition substr (s : bytes) (pos count : Z) : res bytes :=
  if Z.of_nat (length s) <? pos then Exn else Ok (firstn (Z.to_nat (Z.min count (Z.of_nat (length s)))) (skipn (Z.to_nat pos) s)).

(** [atoi]: white space, a sign, digits.  A value outside [int] is [UB]. *)
Fixpoint read_digits (s : bytes) (n : Z) : Z :=
  match s with c :: r => if is_digit c then read_digits r (n * 10 + (c - 48)) else n | [] => n end.
Definition is_space (c : Z) : bool := (c =? 32) || ((9 <=? c) && (c <=? 13)).
Fixpoint skip_spaces (s : bytes) : bytes :=
  match s with c :: r => if is_space c then skip_spaces r else s | [] => [] end.
Definition atoi (s : bytes) : res Z :=
  match skip_spaces s with
  | c :: r => if c =? 45 then i32 (- read_digits r 0) else if c =? 43 then i32 (read_digits r 0) else i32 (read_digits (c :: r) 0)
  | [] => Ok 0
  end.

(** [stringstream << int]. *)
Definition int_text (z : Z) : bytes := if z <? 0 then 45 :: int_name (Z.to_nat (- z)) else int_name (Z.to_nat z).

(** src/FileSequence.cpp:150-154: the loop; [++i] after the largest [int] is [UB]. *)
Fixpoint names_from (base_start base_end : bytes) (i : Z) (n : nat) : list bytes :=
  match n with O => [] | S n' => (base_start ++ int_text i ++ base_end) :: names_from base_start base_end (i + 1) n' end.

(** src/FileSequence.cpp:64-155, the constructor.  [exists_] is [fileExists]. *)
Definition file_sequence (exists_ : bytes -> bool) (s : bytes) : res (list bytes) :=
  if exists_ s then Ok [s] else
  let mark := find_first_of is_mark s 0 in
  if mark =? npos then Ok [] else
  if negb (find_first_of is_mark s (mark + 1) =? npos) then Ok [] else
  let e := find_last_not_of is_digit s (size_sub mark 1) in
  if e =? npos then Ok [] else
  let e := e + 1 in
  if negb (nth (Z.to_nat (e - 1)) s 0 =? 45) then Ok [] else
  let b := find_last_not_of is_digit s (size_sub e 2) in
  if b =? npos then Ok [] else
  let b := b + 1 in
  let* start_str := substr s b (e - 1) in
  let* end_str := substr s e mark in
  let* start := atoi start_str in
  let* end_ := atoi end_str in
  let* base_start := substr s 0 b in
  let* base_end := substr s (mark + 1) npos in
  if end_ <? start then Ok []
  else if end_ =? int_max then UB
  else Ok (names_from base_start base_end start (Z.to_nat (end_ - start + 1))).
