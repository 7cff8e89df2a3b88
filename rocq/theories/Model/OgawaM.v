(** Model of the Ogawa container library bundled with Field3D: src/OStream.cpp,
    src/OGroup.cpp, src/OData.cpp, src/OArchive.cpp (writing) and src/IStreams.cpp,
    src/IGroup.cpp, src/IData.cpp, src/IArchive.cpp (reading).

    A file is a list of bytes (numbers 0..255).  Each call of [OStream::write] is one
    event (it flushes, OStream.cpp:182-189), so a crash leaves the file after some
    prefix of the events.  Write errors are not modelled.  The start offset of the
    stream ([startPos]) is 0, as for files. *)
From Coq Require Import ZArith List Bool.
From Verif Require Import Model.Base.
Import ListNotations.
Open Scope Z_scope.

(** include/OgawaFoundation.h (Foundation.h:47-50).  [INVALID_GROUP] (2^63 - 1) marks a
    group that is not frozen; it is [None] in [og_pos]. *)
Definition EMPTY_DATA : Z := 2 ^ 63.
Definition EMPTY_GROUP : Z := 0.
Definition INVALID_GROUP : Z := 2 ^ 63 - 1.

(** The bytes of a [uint64_t] in memory, little endian (the only byte order supported,
    OStream.cpp:129-142), and back. *)
Fixpoint enc_le (n : nat) (z : Z) : list Z :=
  match n with O => [] | S m => z mod 256 :: enc_le m (z / 256) end.
Definition enc64 (z : Z) : list Z := enc_le 8 z.
Fixpoint dec_le (l : list Z) : Z :=
  match l with [] => 0 | b :: r => b + 256 * dec_le r end.

(** * Writing *)

(** Overwrite (or extend) a file at a position. *)
Definition write_at (f : list Z) (pos : nat) (bs : list Z) : list Z :=
  firstn pos f ++ bs ++ skipn (pos + length bs) f.

(** src/OGroup.cpp:47-64 [PrivateData], with a single parent: [addGroup(OGroupPtr)],
    which shares a group between parents, is not modelled (Field3D never calls it). *)
Record ogroup : Type := OGroup {
  og_children : list Z;               (* childVec *)
  og_pos : option Z;                  (* pos; None is INVALID_GROUP *)
  og_parent : option (nat * nat) }.   (* parent group and index; None for the root *)

(** The file, the write events so far (position, bytes), and all groups created, the
    root being number 0. *)
Record ostate : Type := OState {
  o_file : list Z; o_log : list (nat * list Z); o_groups : list ogroup }.

(** src/OStream.cpp:173-189 [seek] then [write]. *)
Definition emit (s : ostate) (pos : nat) (bs : list Z) : ostate :=
  OState (write_at (o_file s) pos bs) (o_log s ++ [(pos, bs)]) (o_groups s).

(** src/OStream.cpp:154-171 [getAndSeekEndPos] then [write]. *)
Definition append (s : ostate) (bs : list Z) : ostate := emit s (length (o_file s)) bs.

(** src/OStream.cpp:144-150, the header. *)
Definition header : list Z := [79; 103; 97; 119; 97; 0; 0; 1; 0; 0; 0; 0; 0; 0; 0; 0].

(** src/OArchive.cpp:44-54, src/OStream.cpp:100-110: a new archive. *)
Definition o_open : ostate :=
  OState header [(0%nat, header)] [OGroup [] None None].

Definition set_group (s : ostate) (g : nat) (gr : ogroup) : ostate :=
  OState (o_file s) (o_log s) (list_set (o_groups s) g gr).
Definition push_child (s : ostate) (g : nat) (gr : ogroup) (v : Z) : ostate :=
  set_group s g (OGroup (og_children gr ++ [v]) (og_pos gr) (og_parent gr)).

(** The group if it exists and is not frozen (OGroup.cpp:277-280). *)
Definition open_group_of (s : ostate) (g : nat) : option ogroup :=
  match nth_error (o_groups s) g with
  | Some gr => match og_pos gr with None => Some gr | Some _ => None end
  | None => None
  end.

(** src/OGroup.cpp:87-96 [addGroup]. *)
Definition o_add_group (s : ostate) (g : nat) : ostate :=
  match open_group_of s g with
  | Some gr =>
      let s1 := push_child s g gr 0 in
      OState (o_file s1) (o_log s1)
             (o_groups s1 ++ [OGroup [] None (Some (g, length (og_children gr)))])
  | None => s
  end.

(** src/OGroup.cpp:98-134 [addData(size, data)] (one buffer) and 136-188
    [addData(num, sizes, datas)] (several).  With nothing to write, [createData] pushes
    [EMPTY_DATA] and [addData] pushes [0 | EMPTY_DATA] again. *)
Fixpoint write_buffers (s : ostate) (bufs : list (list Z)) : ostate :=
  match bufs with
  | [] => s
  | b :: r => write_buffers (match b with [] => s | _ => append s b end) r
  end.
Definition o_add_data (s : ostate) (g : nat) (bufs : list (list Z)) : ostate :=
  match open_group_of s g with
  | Some gr =>
      let total := Z.of_nat (length (concat bufs)) in
      if total =? 0 then
        set_group s g (OGroup (og_children gr ++ [EMPTY_DATA; Z.lor 0 EMPTY_DATA])
                              (og_pos gr) (og_parent gr))
      else
        let pos := Z.of_nat (length (o_file s)) in
        let s1 := append s (enc64 total) in
        let s2 := write_buffers s1 bufs in
        push_child s2 g gr (Z.lor pos EMPTY_DATA)
  | None => s
  end.

(** src/OGroup.cpp:215-229 [addEmptyGroup], [addEmptyData]. *)
Definition o_add_empty (s : ostate) (g : nat) (v : Z) : ostate :=
  match open_group_of s g with Some gr => push_child s g gr v | None => s end.

(** src/OGroup.cpp:232-275 [freeze], also run by the destructor (82-85). *)
Definition o_freeze (s : ostate) (g : nat) : ostate :=
  match open_group_of s g with
  | None => s
  | Some gr =>
      let pos := match og_children gr with [] => 0 | _ => Z.of_nat (length (o_file s)) end in
      let s1 := match og_children gr with
                | [] => s
                | ch => append (append s (enc64 (Z.of_nat (length ch)))) (flat_map enc64 ch)
                end in
      let s2 := set_group s1 g (OGroup (og_children gr) (Some pos) (og_parent gr)) in
      match og_parent gr with
      | None => emit s2 8 (enc64 pos)
      | Some (p, i) =>
          match nth_error (o_groups s2) p with
          | None => s2
          | Some pg =>
              let s3 := match og_pos pg with
                        | Some pp => emit s2 (Z.to_nat pp + (i + 1) * 8) (enc64 pos)
                        | None => s2
                        end in
              set_group s3 p (OGroup (list_set (og_children pg) i pos) (og_pos pg) (og_parent pg))
          end
      end
  end.

(** src/OStream.cpp:112-120, the destructor: the "frozen" byte. *)
Definition o_close (s : ostate) : ostate := emit s 5 [255].

(** Operations on the output API; [g] is the handle of a group, numbered in order of
    creation.  [OFreeze] is an explicit [freeze()] or the destruction of the handle. *)
Inductive oop : Type :=
| OAddGroup (g : nat)
| OAddData (g : nat) (bufs : list (list Z))
| OAddEmptyGroup (g : nat)
| OAddEmptyData (g : nat)
| OFreeze (g : nat).

Definition o_step (s : ostate) (o : oop) : ostate :=
  match o with
  | OAddGroup g => o_add_group s g
  | OAddData g bufs => o_add_data s g bufs
  | OAddEmptyGroup g => o_add_empty s g EMPTY_GROUP
  | OAddEmptyData g => o_add_empty s g EMPTY_DATA
  | OFreeze g => o_freeze s g
  end.
Definition o_run (ops : list oop) (s : ostate) : ostate := fold_left o_step ops s.

(** The file after a list of write events. *)
Definition replay (l : list (nat * list Z)) : list Z :=
  fold_left (fun f e => write_at f (fst e) (snd e)) l [].

(** * Reading.  [None] is a read beyond the end of the file: the stream then fails and
    the buffer keeps what it had; nothing is claimed about what follows. *)
Definition read_at (f : list Z) (pos n : Z) : option (list Z) :=
  if (0 <=? pos) && (0 <=? n) && (pos + n <=? Z.of_nat (length f))
  then Some (firstn (Z.to_nat n) (skipn (Z.to_nat pos) f)) else None.
Definition read64 (f : list Z) (pos : Z) : option Z :=
  match read_at f pos 8 with Some b => Some (dec_le b) | None => None end.

(** src/IStreams.cpp:135-193 [init]: the header, zero-filled if the file is shorter. *)
Record istream : Type := IStream { is_valid : bool; is_frozen : bool; is_version : Z }.
Definition first16 (f : list Z) : list Z := firstn 16 (f ++ repeat 0 16).
Definition nthz (l : list Z) (n : nat) : Z := nth n l 0.
Definition stream_init (f : list Z) : istream :=
  let h := first16 f in
  if list_eq_dec Z.eq_dec (firstn 5 h) [79; 103; 97; 119; 97]
  then IStream true (nthz h 5 =? 255) (Z.lor (nthz h 6 * 256) (nthz h 7))
  else IStream false false 0.

(** src/IGroup.cpp:42-90. [ig_vec] is [childVec]. *)
Record igroup : Type := IGroup { ig_pos : Z; ig_num : Z; ig_vec : list Z }.
Definition empty_igroup : igroup := IGroup 0 0 [].

(** Split a buffer into [uint64_t]s. *)
Fixpoint dec_vec (n : nat) (b : list Z) : list Z :=
  match n with O => [] | S m => dec_le (firstn 8 b) :: dec_vec m (skipn 8 b) end.

Definition i_open_group (f : list Z) (light : bool) (pos : Z) : option igroup :=
  if pos =? EMPTY_GROUP then Some empty_igroup
  else match read64 f pos with
       | None => None
       | Some n =>
           if negb light || (n <? 9) then
             match read_at f (pos + 8) (n * 8) with
             | None => None
             | Some b => Some (IGroup pos n (dec_vec (Z.to_nat n) b))
             end
           else Some (IGroup pos n [])
       end.

(** src/IGroup.cpp:181-184 [isLight]. *)
Definition i_is_light (g : igroup) : bool :=
  negb (ig_num g =? 0) && match ig_vec g with [] => true | _ => false end.

Definition is_data_pos (v : Z) : bool := negb (Z.land v EMPTY_DATA =? 0).

(** The child position looked up by [getGroup] (97-123) and [getData] (125-150):
    [Some None] when there is no such child. *)
Definition i_child (f : list Z) (g : igroup) (i : Z) : option (option Z) :=
  if i_is_light g then
    if i <? ig_num g then
      match read64 f (ig_pos g + 8 * i + 8) with Some v => Some (Some v) | None => None end
    else Some None
  else Some (nth_error (ig_vec g) (Z.to_nat i)).

Definition i_get_group (f : list Z) (light : bool) (g : igroup) (i : Z) : option (option igroup) :=
  match i_child f g i with
  | None => None
  | Some None => Some None
  | Some (Some v) =>
      if is_data_pos v then Some None
      else match i_open_group f light v with Some h => Some (Some h) | None => None end
  end.

(** src/IData.cpp:67-98: size and contents of a data child. *)
Definition i_read_data (f : list Z) (v : Z) : option (list Z) :=
  let pos := Z.land v INVALID_GROUP in
  if pos =? 0 then Some []
  else match read64 f pos with
       | None => None
       | Some n => read_at f (pos + 8) n
       end.
Definition i_get_data (f : list Z) (g : igroup) (i : Z) : option (option (list Z)) :=
  match i_child f g i with
  | None => None
  | Some None => Some None
  | Some (Some v) =>
      if is_data_pos v
      then match i_read_data f v with Some b => Some (Some b) | None => None end
      else Some None
  end.

(** src/IArchive.cpp:40-62.  Opening a file whose magic number is right but whose version
    is not 1: IStreams.cpp:104-110 clears the list of streams but leaves [valid] set, and
    [IArchive::init] then reads from stream 0 of the empty list: [UB]. *)
Inductive opened : Type :=
| Invalid
| Opened (frozen : bool) (root : igroup).
Definition i_open (f : list Z) : res opened :=
  let st := stream_init f in
  if is_valid st then
    if is_version st =? 1 then
      match read64 f 8 with
      | Some pos =>
          match i_open_group f false pos with
          | Some g => Ok (Opened (is_frozen st) g)
          | None => UB
          end
      | None => Ok (Opened (is_frozen st) empty_igroup)
      end
    else UB
  else Ok Invalid.
