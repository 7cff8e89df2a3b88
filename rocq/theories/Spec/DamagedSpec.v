(** What reading a file of any contents must and must not do. *)
From Coq Require Import ZArith List Bool.
From Verif Require Import Model.Base Model.OgawaM Spec.OgawaSpec Model.DamagedM.
Import ListNotations.
Open Scope Z_scope.

Definition bytes (f : list Z) : Prop := Forall (fun b => 0 <= b < 256) f.

(** The file does not begin like an Ogawa archive of another version ([C17_other_version_undefined]). *)
Definition not_other_version (f : list Z) : Prop :=
  firstn 5 (f ++ repeat 0 16) = [79; 103; 97; 119; 97] -> firstn 2 (skipn 6 (f ++ repeat 0 16)) = [0; 1].

(** The [n] bytes of the file from position [p] on, as far as there are any. *)
Definition piece (f : list Z) (p n : Z) : list Z := firstn (Z.to_nat n) (skipn (Z.to_nat p) f).

(** Eight bytes of the file at [p] that say [n]. *)
Definition says (f : list Z) (p n : Z) : Prop :=
  exists b, piece f p 8 = b /\ length b = 8%nat /\ n = dec_le b.

(** Arguments are [uint64_t]s, and the buffer is as large as the caller says. *)
Definition call_ok (c : call) : Prop :=
  match c with
  | CGroup _ i _ | CData _ i | CIs _ i => 0 <= i < 2 ^ 64
  | CNum _ | CSize _ => True
  | CRead _ size off buf => 0 <= size <= Z.of_nat (length buf) /\ 0 <= off < 2 ^ 64
  end.

(** What a reader of the file can have, after any calls. *)
Definition reached (strict : bool) (mem : Z) (f : list Z) (s : rstate) : Prop :=
  exists s0 calls al, d_open strict mem f = Ok (Some (Some s0)) /\ Forall call_ok calls /\
  d_run strict mem f s0 calls = Ok (s, al).

(** Bytes of memory that the groups of a reader take for the positions of their children. *)
Definition memory (s : rstate) : Z := fold_right (fun g n => 8 * Z.of_nat (length (ig_vec g)) + n) 0 (r_groups s).

(** What calls give once nothing more can be read. *)
Definition empty_handed (s : rstate) (c : call) (s' : rstate) (a : answer) : Prop :=
  match c, a with
  | CGroup _ _ _, AGroup => exists g, r_groups s' = r_groups s ++ [g] /\ ig_num g = 0 /\ ig_vec g = [] /\ r_datas s' = r_datas s
  | CData _ _, AData => exists p, r_datas s' = r_datas s ++ [IData p 0] /\ r_groups s' = r_groups s
  | CRead _ _ _ buf, ABuf b => b = buf /\ r_groups s' = r_groups s /\ r_datas s' = r_datas s
  | _, _ => r_groups s' = r_groups s /\ r_datas s' = r_datas s
  end.

(** The calls that go down to a group, [path] being the numbers of the children on the way, and the data there; [h]: the
    group to begin with, [n]: how many groups the reader has. *)
Fixpoint get_at (light : bool) (h n : nat) (path : list nat) (i : nat) (d : nat) (buf : list Z) : list call :=
  match path with
  | [] => [CData h (Z.of_nat i); CSize d; CRead d (Z.of_nat (length buf)) 0 buf]
  | j :: r => CGroup h (Z.of_nat j) light :: get_at light n (S n) r i d buf
  end.
Fixpoint tree_get (t : tree) (path : list nat) : option tree :=
  match path with
  | [] => Some t
  | j :: r =>
      match t with
      | Group l => match nth_error l j with Some c => tree_get c r | None => None end
      | Data _ => None
      end
  end.
