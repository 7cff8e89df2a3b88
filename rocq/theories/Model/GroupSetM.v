(** Model of the contents of a group of fields (export/FieldGroup.h, export/FieldWrapper.h): what [setup],
    [load] and [makeMinMax] put into it, and with which transform and options.

    A field is what the group looks at: its class, its value type, whether its mapping is a matrix, and an identity.
    Simplified: matrices and value remap operators are any types; [vsBounds], interpolators and the copies of a wrapper
    that [push_back] makes are left out. *)
From Coq Require Import ZArith List Bool Arith.
From Verif Require Import Model.Base.
Import ListNotations.

(** The classes a group can hold, and any other (a MAC field, an empty field, a null pointer). *)
Inductive cls : Type := CDense | CSparse | CMipDense | CMipSparse | COther.
Definition cls_eqb (a b : cls) : bool :=
  match a, b with
  | CDense, CDense | CSparse, CSparse | CMipDense, CMipDense | CMipSparse, CMipSparse | COther, COther => true
  | _, _ => false
  end.
Definition is_mip (c : cls) : bool := match c with CMipDense | CMipSparse => true | _ => false end.
(** Where a field comes from: the user, or [makeMinMax] of a field of the group. *)
Inductive origin : Type := User (id : nat) | MinOf (o : origin) | MaxOf (o : origin).
Record gfd : Type := Gfd { fd_class : cls; fd_type : nat; fd_matrix : bool; fd_from : origin }.

Section G.
(** [M]: [M44d]; [ident]: the default, the identity; [same]: its operator [==].  [P]: value remap operators.
    [types]: the list of value types of the group ([ScalarTypes], [VectorTypes]). *)
Context {M P : Type} (ident : M) (same : M -> M -> bool) (types : list nat).

(** export/FieldWrapper.h:62-152, 160-250.  [en_os]: [osToWs] if [doOsToWs].  [en_opt]: [doWsBoundsOptimization],
    [None] if it has no value: the constructor of [MIPFieldWrapper] (169-180) leaves it out.  [en_cached]: what [wsToVs]
    and [wsBounds] were computed with, if they were. *)
Record entry : Type := Entry { en_field : gfd; en_os : option M; en_op : option P; en_opt : option bool; en_cached : option (option M) }.
Definition new_entry (f : gfd) : entry := Entry f None None (if is_mip (fd_class f) then None else Some false) None.
(** 100-122, 197-219 [setWsBoundsOptimization(true)]: only with a matrix mapping. *)
Definition set_opt (e : entry) : entry :=
  if fd_matrix (en_field e) then Entry (en_field e) (en_os e) (en_op e) (Some true) (Some (en_os e)) else e.
(** 79-98, 182-195 [setOsToWs]: reads [doWsBoundsOptimization]. *)
Definition set_os (e : entry) (m : M) : res entry :=
  let e := Entry (en_field e) (Some m) (en_op e) (en_opt e) (en_cached e) in
  match en_opt e with None => UB | Some true => Ok (set_opt e) | Some false => Ok e end.
(** 124-128, 221-225 [setValueRemapOp]. *)
Definition set_op (e : entry) (o : P) : entry := Entry (en_field e) (en_os e) (Some o) (en_opt e) (en_cached e).

(** Any calls on a wrapper that stands alone. *)
Inductive wop : Type := WOs (m : M) | WOpt (b : bool) | WOp (o : P).
Definition wstep (e : entry) (o : wop) : res entry :=
  match o with WOs m => set_os e m | WOpt b => Ok (if b then set_opt e else e) | WOp o => Ok (set_op e o) end.
Fixpoint wsteps (l : list wop) (e : entry) : res entry :=
  match l with [] => Ok e | o :: r => let* e := wstep e o in wsteps r e end.

(** One of the [fusion] vectors: a [std::vector] of wrappers for each value type. *)
Definition bank : Type := list (nat * list entry).
Definition no_fields : bank := map (fun t => (t, [])) types.
Definition bank_entries (b : bank) : list entry := flat_map snd b.

(** export/FieldGroup.h:426-450. *)
Record group : Type := Group {
  gr_dense : bank; gr_sparse : bank; gr_mdense : bank; gr_msparse : bank;
  gr_mdense_min : bank; gr_msparse_min : bank; gr_mdense_max : bank; gr_msparse_max : bank;
  gr_prefilt : bool; gr_os : M; gr_opt : bool; gr_op : option P; gr_all : list gfd; gr_aux : list gfd }.
(** export/FieldGroup.h:481-486. *)
Definition group_init : group :=
  Group no_fields no_fields no_fields no_fields no_fields no_fields no_fields no_fields false ident false None [] [].

(** export/FieldGroup.h:898-951 [GrabFields]: the new entry, and the vectors of one family. *)
Definition grab_entry (g : group) (f : gfd) : res entry :=
  let e := new_entry f in
  let* e := if negb (same (gr_os g) ident) then set_os e (gr_os g) else Ok e in
  let e := if gr_opt g then set_opt e else e in
  Ok match gr_op g with Some o => set_op e o | None => e end.
Fixpoint grab (g : group) (c : cls) (f : gfd) (b : bank) : res bank :=
  match b with
  | [] => Ok []
  | (t, l) :: r =>
      let* l := if cls_eqb (fd_class f) c && Nat.eqb (fd_type f) t then let* e := grab_entry g f in Ok (l ++ [e]) else Ok l in
      let* r := grab g c f r in
      Ok ((t, l) :: r)
  end.
Fixpoint grab_all (g : group) (c : cls) (fs : list gfd) (b : bank) : res bank :=
  match fs with [] => Ok b | f :: r => let* b := grab g c f b in grab_all g c r b end.

(** export/FieldGroup.h:566-577: all the fields; the families do not depend on each other. *)
Definition setup_primary (g : group) (fs : list gfd) : res group :=
  let* d := grab_all g CDense fs (gr_dense g) in
  let* s := grab_all g CSparse fs (gr_sparse g) in
  let* md := grab_all g CMipDense fs (gr_mdense g) in
  let* ms := grab_all g CMipSparse fs (gr_msparse g) in
  Ok (Group d s md ms (gr_mdense_min g) (gr_msparse_min g) (gr_mdense_max g) (gr_msparse_max g)
        (gr_prefilt g) (gr_os g) (gr_opt g) (gr_op g) fs (gr_aux g)).
(** export/FieldGroup.h:977-990 [CountFields]. *)
Definition count (b : bank) : nat := length (bank_entries b).
(** export/FieldGroup.h:582-613 [setupMinMax]. *)
Definition setup_min_max (g : group) (mins maxs : list gfd) : res group :=
  let* dn := grab_all g CMipDense mins (gr_mdense_min g) in
  let* sn := grab_all g CMipSparse mins (gr_msparse_min g) in
  let* dx := grab_all g CMipDense maxs (gr_mdense_max g) in
  let* sx := grab_all g CMipSparse maxs (gr_msparse_max g) in
  let pre := Nat.ltb 0 (count dn + count sn) && Nat.ltb 0 (count dx + count sx) in
  Ok (Group (gr_dense g) (gr_sparse g) (gr_mdense g) (gr_msparse g) dn sn dx sx (gr_prefilt g || pre)
        (gr_os g) (gr_opt g) (gr_op g) (gr_all g) (gr_aux g ++ mins ++ maxs)).
(** export/FieldGroup.h:559-580 [setup]. *)
Definition setup (g : group) (fs mins maxs : list gfd) : res group :=
  let* g := setup_primary g fs in setup_min_max g mins maxs.

(** export/FieldGroup.h:686-697, 701-709 [size], [sizeMIP]; the fields [sample] visits, in order (713-743); [fields] (417). *)
Definition size (g : group) : nat := count (gr_dense g) + count (gr_sparse g) + count (gr_mdense g) + count (gr_msparse g).
Definition size_mip (g : group) : nat := count (gr_mdense g) + count (gr_msparse g).
Definition sampled (g : group) : list entry :=
  bank_entries (gr_dense g) ++ bank_entries (gr_sparse g) ++ bank_entries (gr_mdense g) ++ bank_entries (gr_msparse g).
(** export/FieldGroup.h:853-877 [getMinMax]: the fields whose minimum, and whose maximum, is looked at. *)
Definition looked_min (g : group) : list entry :=
  if gr_prefilt g then bank_entries (gr_mdense_min g) ++ bank_entries (gr_msparse_min g) else sampled g.
Definition looked_max (g : group) : list entry :=
  if gr_prefilt g then bank_entries (gr_mdense_max g) ++ bank_entries (gr_msparse_max g) else sampled g.
(** A file as [Field3DInputFile] shows it: the partition names, and the fields of a value type in the layers of that
    name. *)
Record gfile : Type := Gfile { fl_parts : list (list Z); fl_read : list Z -> list Z -> nat -> list gfd }.
Definition suffix_min : list Z := [95; 109; 105; 110]%Z.
Definition suffix_max : list Z := [95; 109; 97; 120]%Z.
(** export/FieldGroup.h:131-203 [LoadFields], 645-652: all partitions, in each all value types. *)
Definition load_fields (fl : gfile) (attribute : list Z) : list gfd :=
  flat_map (fun p => flat_map (fun t => fl_read fl p attribute t) types) (fl_parts fl).
(** export/FieldGroup.h:617-662 [load]; [None]: the file cannot be opened. *)
Definition load (g : group) (file : option gfile) (attribute : list Z) : res (group * Z) :=
  match file with
  | None => Ok (g, -1)
  | Some fl =>
      let* g' := setup g (load_fields fl attribute) (load_fields fl (attribute ++ suffix_min)) (load_fields fl (attribute ++ suffix_max)) in
      Ok (g', Z.of_nat (size g') - Z.of_nat (size g))
  end%Z.

(** export/FieldGroup.h:666-682, 994-1066 [makeMinMax]: the MIP fields made for a field; they have its mapping
    (export/MinMaxUtil.h:86-121). *)
Definition mip_class (c : cls) : cls := match c with CDense => CMipDense | CSparse => CMipSparse | c => c end.
Definition min_of (e : entry) : gfd :=
  let f := en_field e in Gfd (mip_class (fd_class f)) (fd_type f) (fd_matrix f) (MinOf (fd_from f)).
Definition max_of (e : entry) : gfd :=
  let f := en_field e in Gfd (mip_class (fd_class f)) (fd_type f) (fd_matrix f) (MaxOf (fd_from f)).
Definition make_min_max (g : group) : res group := setup_min_max g (map min_of (sampled g)) (map max_of (sampled g)).

(** export/FieldGroup.h:500-525 [setOsToWs], [setWsBoundsOptimization], [setValueRemapOp]. *)
Definition map_bank (h : entry -> entry) (b : bank) : bank := map (fun x => (fst x, map h (snd x))) b.
Inductive gop : Type :=
| SetOs (m : M) | SetOpt (b : bool) | SetOp (o : option P)
| Setup (fs mins maxs : list gfd) | LoadFile (file : option gfile) (attribute : list Z) | MakeMinMax.
Definition gstep (g : group) (o : gop) : res (group * option Z) :=
  let with_settings d s md ms os opt op :=
    Group d s md ms (gr_mdense_min g) (gr_msparse_min g) (gr_mdense_max g) (gr_msparse_max g) (gr_prefilt g) os opt op (gr_all g) (gr_aux g) in
  match o with
  | SetOs m => Ok (with_settings (gr_dense g) (gr_sparse g) (gr_mdense g) (gr_msparse g) m (gr_opt g) (gr_op g), None)
  | SetOpt b =>
      let h := if b then map_bank set_opt else fun x => x in
      Ok (with_settings (h (gr_dense g)) (h (gr_sparse g)) (h (gr_mdense g)) (h (gr_msparse g)) (gr_os g) b (gr_op g), None)
  | SetOp o => Ok (with_settings (gr_dense g) (gr_sparse g) (gr_mdense g) (gr_msparse g) (gr_os g) (gr_opt g) o, None)
  | Setup fs mins maxs => let* g := setup g fs mins maxs in Ok (g, None)
  | LoadFile file attribute => let* (g, n) := load g file attribute in Ok (g, Some n)
  | MakeMinMax => let* g := make_min_max g in Ok (g, None)
  end.
Fixpoint gsteps (h : list gop) (g : group) : res (group * list (option Z)) :=
  match h with
  | [] => Ok (g, [])
  | o :: r => let* (g, n) := gstep g o in let* (g, ns) := gsteps r g in Ok (g, n :: ns)
  end.
End G.
