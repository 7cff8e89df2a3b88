(** C66: what a thread would get if it were alone with the bytes of the archive. *)
From Coq Require Import ZArith List Bool Arith.
From Verif Require Import Model.Base Model.OgawaM Spec.OgawaSpec Model.StreamsM.
Import ListNotations.
Open Scope Z_scope.

(** The result of a program on an archive; [None] if it reads outside of it. *)
Fixpoint alone {A} (f : list Z) (p : prog A) : option A :=
  match p with
  | Ret a => Some a
  | Read r k => match read_at f (rq_pos r) (rq_size r) with Some d => alone f (k d) | None => None end
  end.
(** How often it reads. *)
Fixpoint reads {A} (f : list Z) (p : prog A) : nat :=
  match p with
  | Ret a => 0
  | Read r k => S (match read_at f (rq_pos r) (rq_size r) with Some d => reads f (k d) | None => 0 end)
  end.
Definition total {A} (f : list Z) (l : list (prog A)) : nat := fold_right (fun p n => (reads f p + n)%nat) 0%nat l.

(** The bytes have a whole header that says so. *)
Definition archive (f : list Z) : Prop :=
  16 <= Z.of_nat (length f) /\ is_valid (stream_init f) = true /\ is_version (stream_init f) = 1.
(** The name may become unreadable and readable again, but refers to no other file. *)
Definition steady (f : list Z) (acts : list act) : Prop := forall d, In (Disk d) acts -> d = None \/ d = Some f.
(** At position [snd s] of the stream the archive begins. *)
Definition embedded (f : list Z) (s : list Z * Z) : Prop :=
  0 <= snd s /\ exists after, skipn (Z.to_nat (snd s)) (fst s) = f ++ after.

(** How many steps of a schedule do something. *)
Fixpoint moves {A} (w : world (A := A)) (l : list act) : nat :=
  match l with
  | [] => 0
  | a :: r =>
      match s_act w a with
      | Ok w' => (match a with Step t => match s_step w t with Ok None => 0 | _ => 1 end | Disk _ => 0 end + moves w' r)%nat
      | _ => 0
      end
  end.

(** A walk through all of the archive (the reader of C16) as calls of a thread with index [id]. *)
Fixpoint p_walk (depth : nat) (id : nat) (light : bool) (g : igroup) : prog (option tree) :=
  match depth with
  | O => Ret None
  | S d =>
      let child i :=
        pbind (p_get_group id light g (Z.of_nat i)) (fun h =>
        match h with
        | Some h => p_walk d id light h
        | None => pbind (p_get_data id g (Z.of_nat i)) (fun b => Ret (option_map Data b))
        end) in
      let fix all (l : list nat) : prog (option (list tree)) :=
        match l with
        | [] => Ret (Some [])
        | i :: r =>
            pbind (child i) (fun t => pbind (all r) (fun ts =>
            Ret (match t, ts with Some t, Some ts => Some (t :: ts) | _, _ => None end)))
        end in
      pbind (all (seq 0 (Z.to_nat (ig_num g)))) (fun ts => Ret (option_map Group ts))
  end.
Definition p_archive (depth : nat) (id : nat) (light : bool) : prog (option tree) :=
  pbind (p_read64 id 8) (fun pos => pbind (p_open_group id false pos) (fun g => p_walk depth id light g)).

(** The sixteen bytes at a position of a stream (nought where the stream is shorter), and what they say. *)
Definition head16 (s : list Z * Z) : list Z := firstn 16 (skipn (Z.to_nat (snd s)) (fst s) ++ repeat 0 16).
Definition starts_ogawa (h : list Z) : Prop := firstn 5 h = [79; 103; 97; 119; 97].
(** Two headers agree on whether the archive is finished, the version and where the first group is. *)
Definition agree (h h' : list Z) : Prop :=
  (nth 5 h 0 = 255 <-> nth 5 h' 0 = 255) /\ Z.lor (nth 6 h 0 * 256) (nth 7 h 0) = Z.lor (nth 6 h' 0 * 256) (nth 7 h' 0) /\
  dec_le (skipn 8 h) = dec_le (skipn 8 h').
(** The result of a program whose calls all leave the buffer empty. *)
Fixpoint unread {A} (p : prog A) : A := match p with Ret a => a | Read _ k => unread (k []) end.
