(** Model of include/MACFieldIO.h and src/MACFieldIO.cpp: MAC fields in the two kinds of files. *)
From Coq Require Import ZArith Reals List Bool String.
From Verif Require Import Model.Base Model.FieldM Model.VecM Model.MacM Model.Hdf5M.
Import ListNotations.
Open Scope Z_scope.

Section M.
Variable convert : htype -> htype -> R -> R.
Variable ty : htype.

(** src/MACFieldIO.cpp:72-74. *)
Definition comp_name (c : component) : string :=
  match c with CompU => "u_data" | CompV => "v_data" | CompW => "w_data" end.

(** include/MACFieldIO.h:239-315 [writeData]; returning false makes the caller throw.  A
    component without faces has no first face to take the address of. *)
Definition put_comp (gzip : bool) (m : mac) (g : hgroup R) (c : component) : res (hgroup R) :=
  let d := c_data (comp_of m c) in
  let total := Z.of_nat (List.length d) in
  if negb (chunk_ok gzip ty [Z.min 65536 (total / 2)]) then Exn else
  match d with
  | [] => UB
  | _ => or_throw (put_set g (comp_name c) (HSet ty [total] d))
  end.

(** src/MACFieldIO.cpp:164-201 [write], include/MACFieldIO.h:179-235 [writeInternal].  Every
    failure is an exception. *)
Definition mac_h5_write (gzip : bool) (m : mac) (g : hgroup R) : res (hgroup R * bool) :=
  let* g1 := or_throw (put_attr g "version" [1]) in
  let* g2 := or_throw (put_attr g1 "extents" (of_box (m_ext m))) in
  let* g3 := or_throw (put_attr g2 "data_window" (of_box (m_dw m))) in
  let* g4 := or_throw (put_attr g3 "components" [3]) in
  let* g5 := or_throw (put_attr g4 "bits_per_component" [h5bits ty]) in
  let* g6 := put_comp gzip m g5 CompU in
  let* g7 := put_comp gzip m g6 CompV in
  let* g8 := put_comp gzip m g7 CompW in
  Ok (g8, true).

(** include/MACFieldIO.h:319-415 [readData], for one component. *)
Definition read_comp (g : hgroup R) (c : component) (m : mac) : res mac :=
  let* s := or_throw (named (comp_name c) (hg_sets g)) in
  let* _ := get_dims s 1 in
  let* l := read_all convert ty s (c_data (comp_of m c)) in
  Ok (set_comp m c (Comp (c_size (comp_of m c)) (c_xy (comp_of m c)) l)).

(** src/MACFieldIO.cpp:78-150 [read]. *)
Definition mac_h5_read (g : hgroup R) : res (option mac) :=
  let* ver := get_int g "version" in
  if negb (ver =? 1) then Exn else
  let* e := get_box g "extents" in
  let* dw := get_box g "data_window" in
  let* _ := get_int g "components" in
  let* bits := get_int g "bits_per_component" in
  let on_disk := if bits =? 16 then HShort else if bits =? 64 then HDouble else HFloat in
  if negb (htype_eqb on_disk ty) then Ok None else
  let* (m, threw) := mac_set_size e dw mac_init in
  if (threw : bool) then Exn else
  let* m1 := read_comp g CompU m in
  let* m2 := read_comp g CompV m1 in
  let* m3 := read_comp g CompW m2 in
  Ok (Some m3).
End M.

(** The Ogawa side, src/MACFieldIO.cpp:154-160 and 205-209: nothing is written and success is
    reported; reading gives a null pointer.  The group can be of any type. *)
Definition mac_og_write {G} (m : mac) (g : G) : res (G * bool) := Ok (g, true).
Definition mac_og_read {G} (g : G) : res (option mac) := Ok None.
