(** What a group of fields must hold. *)
From Coq Require Import ZArith List Bool Arith.
From Verif Require Import Model.Base Model.GroupSetM.
Import ListNotations.

Section G.
Context {M P : Type} (ident : M) (same : M -> M -> bool) (types : list nat).

(** A field in a group: with the transform, the remap operator and the bounds optimisation ([None]: undefined). *)
Record placed : Type := Placed { pl_field : gfd; pl_os : option M; pl_op : option P; pl_opt : option bool }.
Definition shown (e : @entry M P) : placed := Placed (en_field e) (en_os e) (en_op e) (en_opt e).

(** The fields a group can hold. *)
Definition held (f : gfd) : bool := negb (cls_eqb (fd_class f) COther) && existsb (Nat.eqb (fd_type f)) types.
Definition held_mip (f : gfd) : bool := is_mip (fd_class f) && held f.

(** The current transform, optimisation and operator, the fields, the fields for minima and for maxima, and what was
    given to the last [setup] or [load]. *)
Record holding : Type := Holding {
  ho_os : M; ho_opt : bool; ho_op : option P; ho_fields : list placed; ho_mins : list placed; ho_maxs : list placed; ho_last : list gfd }.
Definition holding_init : holding := Holding ident false None [] [] [] [].

Definition place (h : holding) (f : gfd) : placed :=
  Placed f (if same (ho_os h) ident then None else Some (ho_os h)) (ho_op h)
    (if ho_opt h && fd_matrix f then Some true else if is_mip (fd_class f) then None else Some false).
Definition optimise (p : placed) : placed := if fd_matrix (pl_field p) then Placed (pl_field p) (pl_os p) (pl_op p) (Some true) else p.
(** The field made by [makeMinMax] for a field. *)
Definition made_min (f : gfd) : gfd :=
  Gfd (match fd_class f with CDense => CMipDense | CSparse => CMipSparse | c => c end) (fd_type f) (fd_matrix f) (MinOf (fd_from f)).
Definition made_max (f : gfd) : gfd :=
  Gfd (match fd_class f with CDense => CMipDense | CSparse => CMipSparse | c => c end) (fd_type f) (fd_matrix f) (MaxOf (fd_from f)).

Definition with_fields (h : holding) (fs mins maxs : list gfd) : holding :=
  Holding (ho_os h) (ho_opt h) (ho_op h) (ho_fields h ++ map (place h) (filter held fs)) (ho_mins h ++ map (place h) (filter held_mip mins))
    (ho_maxs h ++ map (place h) (filter held_mip maxs)) fs.
(** All the fields of the file with the attribute. *)
Definition in_file (fl : gfile) (attribute : list Z) : list gfd :=
  flat_map (fun p => flat_map (fl_read fl p attribute) types) (fl_parts fl).
Definition min_name (a : list Z) : list Z := a ++ [95; 109; 105; 110]%Z.
Definition max_name (a : list Z) : list Z := a ++ [95; 109; 97; 120]%Z.
Definition hstep (h : holding) (o : @gop M P) : holding :=
  match o with
  | SetOs m => Holding m (ho_opt h) (ho_op h) (ho_fields h) (ho_mins h) (ho_maxs h) (ho_last h)
  | SetOpt b => Holding (ho_os h) b (ho_op h) (if b then map optimise (ho_fields h) else ho_fields h) (ho_mins h) (ho_maxs h) (ho_last h)
  | SetOp o => Holding (ho_os h) (ho_opt h) o (ho_fields h) (ho_mins h) (ho_maxs h) (ho_last h)
  | Setup fs mins maxs => with_fields h fs mins maxs
  | LoadFile None _ => h
  | LoadFile (Some fl) a => with_fields h (in_file fl a) (in_file fl (min_name a)) (in_file fl (max_name a))
  | MakeMinMax =>
      Holding (ho_os h) (ho_opt h) (ho_op h) (ho_fields h) (ho_mins h ++ map (fun p => place h (made_min (pl_field p))) (ho_fields h))
        (ho_maxs h ++ map (fun p => place h (made_max (pl_field p))) (ho_fields h)) (ho_last h)
  end.
Definition holdings (l : list (@gop M P)) : holding := fold_left hstep l holding_init.

(** No MIP field is added while the transform is not the identity. *)
Definition no_mips (fs mins maxs : list gfd) : Prop := forall f, In f (fs ++ mins ++ maxs) -> held_mip f = false.
Definition step_safe (h : holding) (o : @gop M P) : Prop :=
  same (ho_os h) ident = true \/
  match o with
  | Setup fs mins maxs => no_mips fs mins maxs
  | LoadFile (Some fl) a => no_mips (in_file fl a) (in_file fl (min_name a)) (in_file fl (max_name a))
  | MakeMinMax => ho_fields h = []
  | _ => True
  end.
Definition safe (l : list (@gop M P)) : Prop := forall a o b, l = a ++ o :: b -> step_safe (holdings a) o.
(** A MIP field is added while the transform is not the identity. *)
Definition mip_given (fs mins maxs : list gfd) : Prop := exists f, In f (fs ++ mins ++ maxs) /\ held_mip f = true.
Definition step_unsafe (h : holding) (o : @gop M P) : Prop :=
  same (ho_os h) ident = false /\
  match o with
  | Setup fs mins maxs => mip_given fs mins maxs
  | LoadFile (Some fl) a => mip_given (in_file fl a) (in_file fl (min_name a)) (in_file fl (max_name a))
  | MakeMinMax => ho_fields h <> []
  | _ => False
  end.
(** The fields that a step offers to the group. *)
Definition offered (o : @gop M P) : list gfd :=
  match o with Setup fs _ _ => fs | LoadFile (Some fl) a => in_file fl a | _ => [] end.
(** What [load] says: how many fields the group took from the file, or -1. *)
Definition answer (o : @gop M P) : option Z :=
  match o with
  | LoadFile None _ => Some (-1)%Z
  | LoadFile (Some fl) a => Some (Z.of_nat (length (filter held (in_file fl a))))
  | _ => None
  end.

(** A wrapper: the last transform and the last operator; the bounds optimisation, once it was asked for. *)
Definition last_os (l : list (@wop M P)) : option M := fold_left (fun x o => match o with WOs m => Some m | _ => x end) l None.
Definition last_op (l : list (@wop M P)) : option P := fold_left (fun x o => match o with WOp p => Some p | _ => x end) l None.
Definition asked_opt (l : list (@wop M P)) : bool := existsb (fun o => match o with WOpt true => true | _ => false end) l.
(** The fields a step gives as minima and maxima. *)
Definition given_min_max (o : @gop M P) : list gfd :=
  match o with
  | Setup _ mins maxs => mins ++ maxs
  | LoadFile (Some fl) a => in_file fl (min_name a) ++ in_file fl (max_name a)
  | _ => []
  end.
End G.
