(** What programs may do with iterators of a dynamically loaded field, and which block
    an iterator keeps in memory. *)
From Coq Require Import ZArith List Bool.
From Verif Require Import Model.Base Model.FieldM Model.SparseM Model.CacheM Model.IterCacheM
  Spec.VoxelSpec Spec.SparseSpec Spec.CacheSpec.
Import ListNotations.
Open Scope Z_scope.

(** At most 2^30 blocks; the window's minimum is a multiple of the block side. *)
Definition at_most_2_30_blocks (dw : box) (o : Z) : Prop :=
  vx (blocks_of dw o) * vy (blocks_of dw o) * vz (blocks_of dw o) <= 2 ^ 30.
Definition on_block_grid (dw : box) (o : Z) : Prop :=
  vx (bmin dw) mod 2 ^ o = 0 /\ vy (bmin dw) mod 2 ^ o = 0 /\ vz (bmin dw) mod 2 ^ o = 0.

Section I.
Context {V : Type}.

(** The number of the block position [p] lies in, if there is one. *)
Definition block_number (dw : box) (o : Z) (p : v3) : option nat :=
  let n := blocks_of dw o in
  let i := (vx p - vx (bmin dw)) / 2 ^ o in
  let j := (vy p - vy (bmin dw)) / 2 ^ o in
  let k := (vz p - vz (bmin dw)) / 2 ^ o in
  if (0 <=? i) && (i <? vx n) && (0 <=? j) && (j <? vy n) && (0 <=? k) && (k <? vz n)
  then Some (Z.to_nat (i + j * vx n + k * (vx n * vy n))) else None.

(** A live iterator: the box it walks through and where it stands. *)
Definition alive : Type := option (box * v3).
Definition stands_in (dw : box) (o : Z) (b : nat) (x : alive) : bool :=
  match x with
  | Some (_, p) => match block_number dw o p with Some n => Nat.eqb n b | None => false end
  | None => false
  end.
Definition how_many_in (dw : box) (o : Z) (b : nat) (l : list alive) : Z :=
  Z.of_nat (length (filter (stands_in dw o b) l)).

(** The open fields, the pins held by others, the iterators. *)
Record ispec : Type := ISpec { is_fields : fields V; is_pins : entry -> Z; is_its : list alive }.

Definition ispec_step (a : ispec) (o : iop V) : ispec :=
  match o with
  | IMake w p => ISpec (is_fields a) (is_pins a) (is_its a ++ [Some (w, p)])
  | INext i =>
      match nth_error (is_its a) i with
      | Some (Some (w, p)) => ISpec (is_fields a) (is_pins a) (list_set (is_its a) i (Some (w, it_next w p)))
      | _ => a
      end
  | IRead _ => a
  | IDrop i => ISpec (is_fields a) (is_pins a) (list_set (is_its a) i None)
  | ICopy i => ISpec (is_fields a) (is_pins a) (is_its a ++ [match nth_error (is_its a) i with Some x => x | None => None end])
  | IOther (CPin e) => ISpec (is_fields a) (fun e' => if entry_eqb e' e then is_pins a e' + 1 else is_pins a e') (is_its a)
  | IOther (CUnpin e) => ISpec (is_fields a) (fun e' => if entry_eqb e' e then is_pins a e' - 1 else is_pins a e') (is_its a)
  | IOther c => ISpec (fields_step (is_fields a) c) (is_pins a) (is_its a)
  end.
Definition ispec_run (a : ispec) (l : list (iop V)) : ispec := fold_left ispec_step l a.

Definition alive_at (a : ispec) (i : nat) (w : box) (p : v3) : Prop := nth_error (is_its a) i = Some (Some (w, p)).
(** Iterators are made at voxels of a box inside the data window [dw] or at its end,
    are read and advanced in front of the end, and are not copied.  The rest of the
    program does not flush the cache, destroy the field, or give back references it
    does not hold. *)
Definition iop_ok (dw : box) (t f : nat) (a : ispec) (o : iop V) : Prop :=
  match o with
  | IMake w p => box_nonempty w /\ sub_box w dw /\ (in_box p w \/ p = it_end w)
  | INext i | IRead i => exists w p, alive_at a i w p /\ in_box p w
  | IDrop i => exists w p, alive_at a i w p
  | ICopy _ => False
  | IOther c =>
      op_ok (is_fields a) c /\
      match c with
      | CFlush => False
      | CDestroy t' f' => (t', f') <> (t, f)
      | CUnpin e => 0 < is_pins a e
      | _ => True
      end
  end.
Fixpoint ilegal (dw : box) (t f : nat) (a : ispec) (l : list (iop V)) : Prop :=
  match l with [] => True | o :: r => iop_ok dw t f a o /\ ilegal dw t f (ispec_step a o) r end.

(** The positions a program reads, in order. *)
Fixpoint positions_read (a : ispec) (l : list (iop V)) : list v3 :=
  match l with
  | [] => []
  | o :: r =>
      match o with
      | IRead i => match nth_error (is_its a) i with Some (Some (_, p)) => [p] | _ => [] end
      | _ => []
      end ++ positions_read (ispec_step a o) r
  end.

(** The reference count of a block. *)
Definition pins_of (s : cache V) (e : entry) : Z :=
  match blk_at s e with Some k => cb_refs k | None => 0 end.

(** [for (i = cbegin(w), e = cend(w); i != e; ++i) use( *i)] over [n] voxels. *)
Fixpoint read_and_advance (n : nat) : list (iop V) :=
  match n with O => [] | S m => IRead 0 :: INext 0 :: read_and_advance m end.
Definition traversal (w : box) : list (iop V) :=
  IMake w (bmin w) :: IMake w (it_end w) ::
  read_and_advance (Z.to_nat (box_count w)) ++ [IDrop 1; IDrop 0].
End I.
Arguments ispec : clear implicits.
