(** Model of reading a file of any contents as an Ogawa archive: src/IStreams.cpp, src/IGroup.cpp, src/IData.cpp,
    src/IArchive.cpp, and the lowest functions of the layer above them, src/OgUtil.cpp [readString] and
    include/OgUtil.h [readData].  Model/OgawaM.v says what reading gives when everything asked for is in the file; here
    streams fail, buffers keep what they had, and [uint64_t] arithmetic wraps.

    One thread, one stream (see Model/StreamsM.v for several).  [strict]: whether [front()] of an empty vector is an
    error (it is undefined; without library assertions it gives a null pointer, which is then read into for 0 bytes).
    [mem]: the most bytes that a vector can be given; asking for more throws.  Simplified: the file does not change,
    reading from it fails at its end only. *)
From Coq Require Import ZArith List Bool.
From Verif Require Import Model.Base Model.OgawaM.
Import ListNotations.
Open Scope Z_scope.

(** [uint64_t] arithmetic. *)
Definition u64 (z : Z) : Z := z mod 2 ^ 64.

Section D.
Context (strict : bool) (mem : Z) (f : list Z).

(** What [std::istream::read] gets at [pos] when asked for [n] bytes. *)
Definition slice (pos n : Z) : list Z :=
  let len := Z.of_nat (length f) in
  if len <=? pos then [] else firstn (Z.to_nat (Z.min n len)) (skipn (Z.to_nat pos) f).

(** src/IStreams.cpp:214-260 [read] into a buffer.  [bad]: the stream has failed; it then does nothing.  A position
    or a size of 2^63 or more is negative as [std::streamoff], [std::streamsize]: the stream fails.  [UB]: more is
    stored than the buffer can hold. *)
Definition s_read (bad : bool) (pos n : Z) (buf : list Z) : res (bool * list Z) :=
  if bad || (2 ^ 63 <=? pos) || (2 ^ 63 <=? n) then Ok (true, buf)
  else
    let d := slice pos n in
    if Z.of_nat (length buf) <? Z.of_nat (length d) then UB
    else Ok (negb (Z.of_nat (length d) =? n), d ++ skipn (length d) buf).

(** Eight bytes into a [uint64_t] that is 0. *)
Definition s_read64 (bad : bool) (pos : Z) : res (bool * Z) :=
  let* (bad, b) := s_read bad pos 8 (repeat 0 8) in Ok (bad, dec_le b).

(** src/IGroup.cpp:64-90, the constructor.  [None]: [resize] threw ([max_size] is 2^60 - 1 elements). *)
Definition d_open_group (bad light : bool) (pos : Z) : res (bool * option igroup) :=
  if pos =? EMPTY_GROUP then Ok (bad, Some empty_igroup)
  else
    let* (bad, n) := s_read64 bad pos in
    if negb light || (n <? 9) then
      if (2 ^ 60 <=? n) || (mem <? 8 * n) then Ok (bad, None)
      else if strict && (n =? 0) then UB                                     (* childVec.front() *)
      else
        let* (bad, b) := s_read bad (u64 (pos + 8)) (u64 (n * 8)) (repeat 0 (Z.to_nat (8 * n))) in
        Ok (bad, Some (IGroup pos n (dec_vec (Z.to_nat n) b)))
    else Ok (bad, Some (IGroup pos n [])).

(** src/IGroup.cpp:157-179 [isChildGroup], [isChildData], [isEmptyChildGroup], [isEmptyChildData]. *)
Definition d_entry (g : igroup) (i : Z) : option Z :=
  if i <? Z.of_nat (length (ig_vec g)) then nth_error (ig_vec g) (Z.to_nat i) else None.
Definition d_is_group (g : igroup) (i : Z) : bool :=
  match d_entry g i with Some v => Z.land v EMPTY_DATA =? 0 | None => false end.
Definition d_is_data (g : igroup) (i : Z) : bool :=
  match d_entry g i with Some v => negb (Z.land v EMPTY_DATA =? 0) | None => false end.
Definition d_is_empty_group (g : igroup) (i : Z) : bool :=
  match d_entry g i with Some v => v =? EMPTY_GROUP | None => false end.
Definition d_is_empty_data (g : igroup) (i : Z) : bool :=
  match d_entry g i with Some v => v =? EMPTY_DATA | None => false end.

(** src/IGroup.cpp:97-123 and 125-150: the position of child [i], if the group has one. *)
Definition d_child (bad : bool) (g : igroup) (i : Z) : res (bool * option Z) :=
  if i_is_light g then
    if i <? ig_num g then
      let* (bad, v) := s_read64 bad (u64 (ig_pos g + 8 * i + 8)) in Ok (bad, Some v)
    else Ok (bad, None)
  else Ok (bad, d_entry g i).

(** src/IData.cpp:45-60, 67-85. *)
Record idata : Type := IData { id_pos : Z; id_size : Z }.
Definition d_open_data (bad : bool) (v : Z) : res (bool * idata) :=
  let pos := Z.land v INVALID_GROUP in
  if pos =? 0 then Ok (bad, IData pos 0)
  else let* (bad, n) := s_read64 bad pos in Ok (bad, IData pos n).
(** src/IData.cpp:87-98 [read]. *)
Definition d_read (bad : bool) (d : idata) (size off : Z) (buf : list Z) : res (bool * list Z) :=
  if (size =? 0) || (id_size d =? 0) || (id_size d <? u64 (off + size)) then Ok (bad, buf)
  else s_read bad (u64 (id_pos d + off + 8)) size buf.

(** * A reader: the groups and data it has got, in the order it got them; the root is group 0. *)
Record rstate : Type := RState { r_bad : bool; r_groups : list igroup; r_datas : list idata }.
(** Calls of the API; [g], [d]: which group or data. [CRead] passes a buffer. *)
Inductive call : Type :=
| CGroup (g : nat) (i : Z) (light : bool)
| CData (g : nat) (i : Z)
| CNum (g : nat)
| CIs (g : nat) (i : Z)
| CSize (d : nat)
| CRead (d : nat) (size off : Z) (buf : list Z).
(** [ANull]: a null pointer; [ANo]: there is no such group or data to call. *)
Inductive answer : Type :=
| ANo | ANull | AThrow
| AGroup | AData
| ANum (n : Z)
| AIs (group data empty_group empty_data : bool)
| ABuf (b : list Z).

Definition d_step (s : rstate) (c : call) : res (rstate * answer) :=
  match c with
  | CGroup g i light =>
      match nth_error (r_groups s) g with
      | None => Ok (s, ANo)
      | Some gr =>
          let* (bad, v) := d_child (r_bad s) gr i in
          match v with
          | Some v =>
              if Z.land v EMPTY_DATA =? 0 then
                let* (bad, h) := d_open_group bad light v in
                match h with
                | Some h => Ok (RState bad (r_groups s ++ [h]) (r_datas s), AGroup)
                | None => Ok (RState bad (r_groups s) (r_datas s), AThrow)
                end
              else Ok (RState bad (r_groups s) (r_datas s), ANull)
          | None => Ok (RState bad (r_groups s) (r_datas s), ANull)
          end
      end
  | CData g i =>
      match nth_error (r_groups s) g with
      | None => Ok (s, ANo)
      | Some gr =>
          let* (bad, v) := d_child (r_bad s) gr i in
          match v with
          | Some v =>
              if negb (Z.land v EMPTY_DATA =? 0) then
                let* (bad, d) := d_open_data bad v in
                Ok (RState bad (r_groups s) (r_datas s ++ [d]), AData)
              else Ok (RState bad (r_groups s) (r_datas s), ANull)
          | None => Ok (RState bad (r_groups s) (r_datas s), ANull)
          end
      end
  | CNum g =>
      match nth_error (r_groups s) g with
      | None => Ok (s, ANo)
      | Some gr => Ok (s, ANum (ig_num gr))
      end
  | CIs g i =>
      match nth_error (r_groups s) g with
      | None => Ok (s, ANo)
      | Some gr => Ok (s, AIs (d_is_group gr i) (d_is_data gr i) (d_is_empty_group gr i) (d_is_empty_data gr i))
      end
  | CSize d =>
      match nth_error (r_datas s) d with
      | None => Ok (s, ANo)
      | Some x => Ok (s, ANum (id_size x))
      end
  | CRead d size off buf =>
      match nth_error (r_datas s) d with
      | None => Ok (s, ANo)
      | Some x =>
          let* (bad, b) := d_read (r_bad s) x size off buf in
          Ok (RState bad (r_groups s) (r_datas s), ABuf b)
      end
  end.
Fixpoint d_run (s : rstate) (l : list call) : res (rstate * list answer) :=
  match l with
  | [] => Ok (s, [])
  | c :: r =>
      let* (s, a) := d_step s c in
      let* (s, al) := d_run s r in
      Ok (s, a :: al)
  end.

(** src/IArchive.cpp:40-62 with src/IStreams.cpp:84-193: [Ok None] if the file is not valid; [Ok (Some None)] if
    opening threw.  A version other than 1 leaves no stream to read from (see [i_open]). *)
Definition d_open : res (option (option rstate)) :=
  let st := stream_init f in
  if negb (is_valid st) then Ok None
  else if negb (is_version st =? 1) then UB
  else
    let* (bad, _) := s_read false 0 16 (repeat 0 16) in
    let* (bad, pos) := s_read64 bad 8 in
    let* (bad, g) := d_open_group bad false pos in
    Ok (Some match g with Some g => Some (RState bad [g] []) | None => None end).

(** * src/OgUtil.cpp:32-61 [readString].  [Ok (_, None)]: [false], there is no such data. [Exn]: [temp] cannot be
    made. *)
Fixpoint c_string (b : list Z) : list Z :=
  match b with [] => [] | x :: r => if x =? 0 then [] else x :: c_string r end.
Definition d_get_data (bad : bool) (g : igroup) (i : Z) : res (bool * option idata) :=
  let* (bad, v) := d_child bad g i in
  match v with
  | Some v => if negb (Z.land v EMPTY_DATA =? 0) then let* (bad, d) := d_open_data bad v in Ok (bad, Some d) else Ok (bad, None)
  | None => Ok (bad, None)
  end.
Definition d_string (bad : bool) (g : igroup) (i : Z) : res (bool * option (list Z)) :=
  let* (bad, d) := d_get_data bad g i in
  match d with
  | None => Ok (bad, None)
  | Some d =>
      let n := u64 (id_size d + 1) in
      if (2 ^ 63 <=? n) || (mem <? n) then Exn                              (* std::vector<char> temp(n) *)
      else if n <=? id_size d then UB                                        (* temp[size] = 0 *)
      else
        let* (bad, b) := d_read bad d (id_size d) 0 (repeat 0 (Z.to_nat n)) in
        Ok (bad, Some (c_string b))
  end.

(** include/OgUtil.h:104-121 [readData<T>]: [buf] is what is in the variable that is passed.  The pointer to the data
    is used without a check. *)
Definition d_value (bad : bool) (g : igroup) (i : Z) (buf : list Z) : res (bool * option (list Z)) :=
  let* (bad, d) := d_get_data bad g i in
  match d with
  | None => UB
  | Some d =>
      if id_size d =? Z.of_nat (length buf) then
        let* (bad, b) := d_read bad d (id_size d) 0 buf in Ok (bad, Some b)
      else Ok (bad, None)
  end.
End D.
