(** C75: byte counts as text. *)
From Coq Require Import ZArith List Bool String Lia.
From Verif Require Import Model.Base Model.OgM Model.FieldIOM Model.FileM Model.LogM Spec.NameSpec Spec.LogSpec Proof.LogP.
Import ListNotations.
Open Scope Z_scope.

(** Below 1024 bytes in size, the text is the count itself. *)
Theorem C75_bytes b : Z.abs b < 1024 -> exists s, bytes_to_string b = Ok s /\ reads_bytes s (b <? 0) (Z.abs b).
Proof. exact (bytes_of b). Qed.
Print Assumptions C75_bytes.
Example C75_bytes_1023 : bytes_to_string (-1023) = Ok (str "-1023  B"). Proof. vm_compute. reflexivity. Qed.
Example C75_bytes_0 : bytes_to_string 0 = Ok (str "0  B"). Proof. vm_compute. reflexivity. Qed.

(** From there on it is a number of thousandths of the unit of the count.  It is off by at most half a thousandth of the unit and
    the 2^24th part of the count; up to 2^24 bytes by at most half a thousandth. *)
Theorem C75_units b U name : - 2 ^ 63 < b < 2 ^ 63 -> unit_of (Z.abs b) U name ->
  exists s n, bytes_to_string b = Ok s /\ reads s (b <? 0) n name /\
  2 ^ 24 * Z.abs (n * U - 1000 * Z.abs b) <= 2 ^ 23 * U + 1000 * Z.abs b /\
  (Z.abs b <= 2 ^ 24 -> 2 * Z.abs (n * U - 1000 * Z.abs b) <= U).
Proof.
  intros B H. destruct (string_of b U name B H) as (k & s & K & -> & R & E & D). exists s, (count (Z.abs b) k).
  split; [exact E|]. split; [exact D|]. apply count_error; auto.
Qed.
Print Assumptions C75_units.
Example C75_units_ex : unit_of (Z.abs (-1500)) (2 ^ 10) "KB" /\ bytes_to_string (-1500) = Ok (str "-1.465 KB").
Proof. split; [constructor; lia|]. vm_compute. reflexivity. Qed.
Example C75_units_ex2 : bytes_to_string 123456789 = Ok (str "117.738 MB"). Proof. vm_compute. reflexivity. Qed.

(** Such a text reads one way only. *)
Theorem C75_unambiguous s neg n name neg' n' name' : reads s neg n name -> reads s neg' n' name' ->
  neg = neg' /\ n = n' /\ str name = str name'.
Proof. exact (reads_once s neg n name neg' n' name'). Qed.
Print Assumptions C75_unambiguous.
Example C75_unambiguous_ex : reads (str "-1.465 KB") true 1465 "KB".
Proof.
  exists [49], 1, 4, 6, 5. unfold digit. split; [split; [split; [easy|]|split; [reflexivity|easy]]|].
  - intros c [<-|[]]. lia.
  - repeat split; lia.
Qed.

(** In one unit, more bytes never read as less. *)
Theorem C75_monotone a b U name : 0 <= a <= b -> b < 2 ^ 63 -> unit_of a U name -> unit_of b U name ->
  exists s t m n, bytes_to_string a = Ok s /\ bytes_to_string b = Ok t /\ reads s false m name /\ reads t false n name /\ m <= n.
Proof.
  intros A B HA HB. rewrite <- (Z.abs_eq a) in HA by lia. rewrite <- (Z.abs_eq b) in HB by lia.
  destruct (string_of a U name ltac:(lia) HA) as (k & s & K & EU & RA & EA & DA).
  destruct (string_of b U name ltac:(lia) HB) as (k' & t & K' & EU' & RB & EB & DB).
  assert (k = k') by (subst U; destruct K as [->|[->| ->]], K' as [->|[->| ->]]; auto; cbn in EU'; lia). subst k'.
  rewrite (proj2 (Z.ltb_ge a 0)) in DA by lia. rewrite (proj2 (Z.ltb_ge b 0)) in DB by lia.
  exists s, t, (count (Z.abs a) k), (count (Z.abs b) k). split; [exact EA|]. split; [exact EB|]. split; [exact DA|]. split; [exact DB|].
  apply count_le; lia.
Qed.
Print Assumptions C75_monotone.
Example C75_monotone_ex : unit_of 1024 (2 ^ 10) "KB" /\ unit_of 1048575 (2 ^ 10) "KB". Proof. split; constructor; lia. Qed.

(** The least count has no text: its sign cannot be changed. *)
Theorem C75_least_refuted : bytes_to_string (- 2 ^ 63) = UB.
Proof. reflexivity. Qed.
Print Assumptions C75_least_refuted.
(** A count below a unit may read as 1024 of the unit before. *)
Theorem C75_whole_unit_refuted : unit_of 1073741823 (2 ^ 20) "MB" /\ bytes_to_string 1073741823 = Ok (str "1024.000 MB").
Proof. split; [constructor; lia|]. vm_compute. reflexivity. Qed.
Print Assumptions C75_whole_unit_refuted.
