(** Model of [bytesToString] (src/Log.cpp).  A number in [float] is printed as the decimal with three digits that is nearest to its
    exact value, ties to even, as glibc does (the C++ standard leaves this to the library). *)
From Coq Require Import ZArith List Bool String.
From Flocq Require Import Core BinarySingleNaN.
From Verif Require Import Model.Base Model.OgM Model.FieldIOM Model.FileM Model.FloatM Model.FloatMipM.
Import ListNotations.
Open Scope Z_scope.

(** [n / d] to the nearest integer, ties to even. *)
Definition div_even (n d : Z) : Z :=
  let q := n / d in
  let r := n mod d in
  if 2 * r <? d then q else if d <? 2 * r then q + 1 else if Z.even q then q else q + 1.
(** Thousandths of a number that is not negative. *)
Definition thousandths (x : val VFloat) : Z :=
  match x with
  | B754_finite _ m e _ => if 0 <=? e then 1000 * Zpos m * 2 ^ e else div_even (1000 * Zpos m) (2 ^ (- e))
  | _ => 0
  end.
(** [std::ios::fixed] with precision 3; '.' is 46, '0' is 48. *)
Definition fixed3 (x : val VFloat) : bytes :=
  let n := thousandths x in
  int_name (Z.to_nat (n / 1000)) ++ [46; 48 + n / 100 mod 10; 48 + n / 10 mod 10; 48 + n mod 10].

(** src/Log.cpp:121, 125, 129: [bytes / static_cast<float>(unit)]: the bytes are converted to [float]. *)
Definition in_units (b unit : Z) : val VFloat := vdiv (vnum VFloat b 0) (vnum VFloat unit 0).

(** src/Log.cpp:101-132 [bytesToString], of an [int64_t].  112: the negation of the least one is undefined. *)
Definition bytes_to_string (b : Z) : res bytes :=
  let sign := if b <? 0 then str "-" else [] in
  let* b := (if b <? 0 then if - b <=? 2 ^ 63 - 1 then Ok (- b) else UB else Ok b) in
  Ok (sign ++
    if b <? 1024 then int_name (Z.to_nat b) ++ str "  B"
    else if b <? 1024 * 1024 then fixed3 (in_units b 1024) ++ str " KB"
    else if b <? 1024 * 1024 * 1024 then fixed3 (in_units b (1024 * 1024)) ++ str " MB"
    else fixed3 (in_units b (1024 * 1024 * 1024)) ++ str " GB").
