(** Model of the streams of an open Ogawa archive, shared by any number of threads
    (src/IStreams.cpp), and of the reader of groups and data (src/IGroup.cpp, src/IData.cpp) as calls of
    [IStreams::read].

    A step is taking or releasing a mutex, or one call on a stream.  Simplified: a stream is the bytes of the file
    that it was opened on, which never change; seeking does not fail; sizes and positions are below 2^63. *)
From Coq Require Import ZArith List Bool Arith.
From Verif Require Import Model.Base Model.OgawaM.
Import ListNotations.
Open Scope Z_scope.

(** * Streams *)

(** [std::istream]: bytes, [offsets[i]], position, and whether [failbit] is set. *)
Record strm : Type := Strm { st_bytes : list Z; st_off : Z; st_cur : Z; st_bad : bool }.
(** [seekg]: does nothing on a stream that failed. *)
Definition do_seek (s : strm) (p : Z) : strm :=
  if st_bad s then s else Strm (st_bytes s) (st_off s) (p + st_off s) false.
(** [read]: what it stores into the buffer; a stream that could not give all of it has failed from then on. *)
Definition do_read (s : strm) (n : Z) : strm * list Z :=
  if st_bad s then (s, [])
  else
    let d := firstn (Z.to_nat n) (skipn (Z.to_nat (st_cur s)) (st_bytes s)) in
    (Strm (st_bytes s) (st_off s) (st_cur s + Z.of_nat (length d)) (negb (Z.of_nat (length d) =? n)), d).

(** src/IStreams.cpp:135-193 [init] for one stream: [header] starts as zeros. *)
Record head : Type := Head { hd_valid : bool; hd_frozen : bool; hd_version : Z; hd_pos : Z }.
Definition read_head (s : strm) : strm * head :=
  let (s, d) := do_read s 16 in
  let h := firstn 16 (d ++ repeat 0 16) in
  let i := stream_init h in
  (s, Head (is_valid i) (is_frozen i) (is_version i) (dec_le (skipn 8 h))).
(** 157-192, all streams: all have to agree with the first. *)
Fixpoint init_rest (h0 : head) (l : list strm) : list strm * bool :=
  match l with
  | [] => ([], true)
  | s :: r =>
      let (s, h) := read_head s in
      if negb (hd_valid h) then (s :: r, false)
      else if negb (hd_pos h0 =? hd_pos h) || negb (Bool.eqb (hd_frozen h0) (hd_frozen h)) || negb (hd_version h0 =? hd_version h)
           then (s :: r, false)
           else let (r, ok) := init_rest h0 r in (s :: r, ok)
  end.
(** Streams, [valid], [version]. *)
Definition init_streams (l : list strm) : list strm * bool * Z :=
  match l with
  | [] => ([], false, 0)
  | s :: r =>
      let (s, h) := read_head s in
      if negb (hd_valid h) then (s :: r, false, 0)
      else let (r, ok) := init_rest h r in (s :: r, ok, if ok then hd_version h else 0)
  end.

(** * Threads *)

(** What a thread does with the archive: calls of [IStreams::read], each of which may depend on what earlier ones
    stored into their buffers. *)
Record req : Type := Req { rq_id : nat; rq_pos : Z; rq_size : Z }.
Inductive prog (A : Type) : Type :=
| Ret (a : A)
| Read (r : req) (k : list Z -> prog A).
Arguments Ret {A} a.
Arguments Read {A} r k.
Fixpoint pbind {A B} (p : prog A) (k : A -> prog B) : prog B :=
  match p with
  | Ret a => k a
  | Read r f => Read r (fun d => pbind (f d) k)
  end.

(** Where a thread is in [read] (src/IStreams.cpp:214-260): in no call; about to take mutex [i]; holding it; the
    stream is there; the position is set; returning with [d] in the buffer.  [held]: mutexes of callers of this
    call, innermost first. *)
Inductive spc : Type :=
| Out
| Ask (held : list nat) (i : nat)
| Inside (held : list nat) (i : nat)
| Found (held : list nat) (i : nat)
| Sought (held : list nat) (i : nat)
| Leave (held : list nat) (d : list Z).

Section W.
Context {A : Type}.
Record thread : Type := Thread { th_prog : prog A; th_pc : spc }.
(** [w_disk]: what the name of the file refers to now, [None] if it cannot be opened.  [w_named]: [fileName] is not
    empty.  [w_streams]: [None] is a null pointer.  [w_locks]: the thread holding each mutex.  [w_opens]: the streams
    that were opened by [read]. *)
Record world : Type := World {
  w_valid : bool; w_named : bool; w_disk : option (list Z); w_streams : list (option strm); w_locks : list (option nat);
  w_opens : list nat; w_threads : list thread }.

Definition set_pc (w : world) (t : nat) (p : prog A) (c : spc) : world :=
  World (w_valid w) (w_named w) (w_disk w) (w_streams w) (w_locks w) (w_opens w) (list_set (w_threads w) t (Thread p c)).
Definition set_lock (w : world) (i : nat) (o : option nat) : world :=
  World (w_valid w) (w_named w) (w_disk w) (w_streams w) (list_set (w_locks w) i o) (w_opens w) (w_threads w).
Definition set_stream (w : world) (i : nat) (s : strm) : world :=
  World (w_valid w) (w_named w) (w_disk w) (list_set (w_streams w) i (Some s)) (w_locks w) (w_opens w) (w_threads w).
Definition opened (w : world) (i : nat) : world :=
  World (w_valid w) (w_named w) (w_disk w) (w_streams w) (w_locks w) (w_opens w ++ [i]) (w_threads w).

(** One step of thread [t]; [Ok None]: it has nothing to do, or waits for a mutex. *)
Definition s_step (w : world) (t : nat) : res (option world) :=
  match nth_error (w_threads w) t with
  | Some (Thread (Read r k as p) pc) =>
      match pc with
      | Out =>
          if negb (w_valid w) then Ok (Some (set_pc w t (k []) Out))
          else Ok (Some (set_pc w t p (Ask [] (if Nat.ltb (rq_id r) (length (w_streams w)) then rq_id r else 0%nat))))
      | Ask held i =>
          match nth_error (w_locks w) i with
          | None => UB
          | Some (Some _) => Ok None
          | Some None => Ok (Some (set_pc (set_lock w i (Some t)) t p (Inside held i)))
          end
      | Inside held i =>
          match nth_error (w_streams w) i with
          | None => UB
          | Some (Some _) => Ok (Some (set_pc w t p (Found held i)))
          | Some None =>
              if negb (w_named w) then UB
              else match w_disk w with
                   | Some f => Ok (Some (set_pc (opened (set_stream w i (Strm f 0 0 false)) i) t p (Found held i)))
                   | None =>
                       if Nat.eqb i 0 then Ok (Some (set_pc w t p (Leave (i :: held) [])))
                       else Ok (Some (set_pc w t p (Ask (i :: held) 0)))
                   end
          end
      | Found held i =>
          match nth_error (w_streams w) i with
          | Some (Some s) => Ok (Some (set_pc (set_stream w i (do_seek s (rq_pos r))) t p (Sought held i)))
          | _ => UB
          end
      | Sought held i =>
          match nth_error (w_streams w) i with
          | Some (Some s) =>
              let (s, d) := do_read s (rq_size r) in
              Ok (Some (set_pc (set_stream w i s) t p (Leave (i :: held) d)))
          | _ => UB
          end
      | Leave (i :: held) d =>
          Ok (Some match held with
                   | [] => set_pc (set_lock w i None) t (k d) Out
                   | _ => set_pc (set_lock w i None) t p (Leave held d)
                   end)
      | Leave [] d => Ok None
      end
  | _ => Ok None
  end.

(** A schedule: which thread goes on, and when what the name refers to changes. *)
Inductive act : Type := Step (t : nat) | Disk (d : option (list Z)).
Definition s_act (w : world) (a : act) : res world :=
  match a with
  | Step t => let* x := s_step w t in Ok match x with Some w => w | None => w end
  | Disk d => Ok (World (w_valid w) (w_named w) d (w_streams w) (w_locks w) (w_opens w) (w_threads w))
  end.
Fixpoint s_run (w : world) (l : list act) : res world :=
  match l with [] => Ok w | a :: r => let* w := s_act w a in s_run w r end.

(** src/IStreams.cpp:84-117: by name, with [n] streams; the first is the one whose header was read.  A header of
    another version: the streams are gone, [valid] stays. *)
Definition by_name (d : option (list Z)) (n : nat) (l : list (prog A)) : world :=
  let ths := map (fun p => Thread p Out) l in
  match d with
  | None => World false false d [] [] [] ths
  | Some f =>
      let '(ss, ok, v) := init_streams [Strm f 0 0 false] in
      let ss := if ok && (v =? 1) then firstn n (map Some ss ++ repeat None n) else [] in
      World ok true d ss (map (fun _ => None) ss) [] ths
  end.
(** 119-133: on streams of the caller, each with its position. *)
Definition by_streams (l : list (list Z * Z)) (ps : list (prog A)) : world :=
  let '(ss, ok, v) := init_streams (map (fun s => Strm (fst s) (snd s) (snd s) false) l) in
  let ss := if ok && (v =? 1) then map Some ss else [] in
  World ok false None ss (map (fun _ => None) ss) [] (map (fun p => Thread p Out) ps).
End W.

(** * The reader of groups and data as such a program; [id]: the thread index that is passed. *)
Definition p_read64 (id : nat) (pos : Z) : prog Z := Read (Req id pos 8) (fun b => Ret (dec_le b)).
(** src/IGroup.cpp:64-90. *)
Definition p_open_group (id : nat) (light : bool) (pos : Z) : prog igroup :=
  if pos =? EMPTY_GROUP then Ret empty_igroup
  else pbind (p_read64 id pos) (fun n =>
       if negb light || (n <? 9) then Read (Req id (pos + 8) (n * 8)) (fun b => Ret (IGroup pos n (dec_vec (Z.to_nat n) b)))
       else Ret (IGroup pos n [])).
(** src/IGroup.cpp:97-150. *)
Definition p_child (id : nat) (g : igroup) (i : Z) : prog (option Z) :=
  if i_is_light g then
    if i <? ig_num g then pbind (p_read64 id (ig_pos g + 8 * i + 8)) (fun v => Ret (Some v)) else Ret None
  else Ret (nth_error (ig_vec g) (Z.to_nat i)).
Definition p_get_group (id : nat) (light : bool) (g : igroup) (i : Z) : prog (option igroup) :=
  pbind (p_child id g i) (fun v =>
  match v with
  | None => Ret None
  | Some v => if is_data_pos v then Ret None else pbind (p_open_group id light v) (fun h => Ret (Some h))
  end).
(** src/IData.cpp:67-98: nothing is read for empty data. *)
Definition p_read_data (id : nat) (v : Z) : prog (list Z) :=
  let pos := Z.land v INVALID_GROUP in
  if pos =? 0 then Ret []
  else pbind (p_read64 id pos) (fun n => if n =? 0 then Ret [] else Read (Req id (pos + 8) n) (fun b => Ret b)).
Definition p_get_data (id : nat) (g : igroup) (i : Z) : prog (option (list Z)) :=
  pbind (p_child id g i) (fun v =>
  match v with
  | None => Ret None
  | Some v => if is_data_pos v then pbind (p_read_data id v) (fun b => Ret (Some b)) else Ret None
  end).
