(** What the Ogawa archive is for: a tree of groups and byte strings. *)
From Coq Require Import ZArith List Bool.
From Verif Require Import Model.Base Model.OgawaM.
Import ListNotations.
Open Scope Z_scope.

Inductive tree : Type :=
| Group (children : list tree)
| Data (bytes : list Z).

(** The tree a sequence of calls builds: groups are numbered in order of creation and
    each holds its items in the order they were added; a closed (frozen) group accepts
    nothing more. *)
Inductive item : Type := Sub (g : nat) | Bytes (b : list Z) | NoGroup.
Record tgroup : Type := TGroup { t_items : list item; t_closed : bool }.

Definition add_item (l : list tgroup) (g : nat) (i : item) : list tgroup :=
  match nth_error l g with
  | Some t => if t_closed t then l else list_set l g (TGroup (t_items t ++ [i]) false)
  | None => l
  end.
Definition can_add (l : list tgroup) (g : nat) : bool :=
  match nth_error l g with Some t => negb (t_closed t) | None => false end.
Definition t_step (l : list tgroup) (o : oop) : list tgroup :=
  match o with
  | OAddGroup g => if can_add l g then add_item l g (Sub (length l)) ++ [TGroup [] false] else l
  | OAddData g bufs => add_item l g (Bytes (concat bufs))
  | OAddEmptyGroup g => add_item l g NoGroup
  | OAddEmptyData g => add_item l g (Bytes [])
  | OFreeze g =>
      match nth_error l g with
      | Some t => list_set l g (TGroup (t_items t) true)
      | None => l
      end
  end.
Definition t_run (ops : list oop) : list tgroup := fold_left t_step ops [TGroup [] false].

(** The tree rooted at group [g]: sub-groups are always younger than their parent, so
    the number of groups is enough depth. *)
Fixpoint tree_at (depth : nat) (l : list tgroup) (g : nat) : tree :=
  match depth with
  | O => Group []
  | S d =>
      match nth_error l g with
      | None => Group []
      | Some t =>
          Group (map (fun i => match i with
                               | Sub h => tree_at d l h
                               | Bytes b => Data b
                               | NoGroup => Group []
                               end) (t_items t))
      end
  end.
Definition built (ops : list oop) : tree := tree_at (length (t_run ops)) (t_run ops) 0.

(** Every handle has been dropped, which must be the case when the stream is closed. *)
Definition all_closed (ops : list oop) : Prop := forall t, In t (t_run ops) -> t_closed t = true.

(** No data element is empty (see the refuted claim). *)
Definition data_ok (ops : list oop) : Prop :=
  forall g bufs, In (OAddData g bufs) ops -> concat bufs <> [].

(** Closing handles in the order destructors run: a group is only closed after all the
    groups created in it (each child keeps its parent alive). *)
Definition ready (l : list tgroup) (o : oop) : Prop :=
  match o with
  | OFreeze g =>
      forall t h, nth_error l g = Some t -> In (Sub h) (t_items t) ->
      exists th, nth_error l h = Some th /\ t_closed th = true
  | _ => True
  end.
Fixpoint raii_from (l : list tgroup) (ops : list oop) : Prop :=
  match ops with
  | [] => True
  | o :: r => ready l o /\ raii_from (t_step l o) r
  end.
Definition raii (ops : list oop) : Prop := raii_from [TGroup [] false] ops.

(** What a reader walking the archive through [getGroup]/[getData] sees. *)
Fixpoint walk (depth : nat) (light : bool) (f : list Z) (g : igroup) : option tree :=
  match depth with
  | O => None
  | S d =>
      let child i :=
        match i_get_group f light g (Z.of_nat i) with
        | Some (Some h) => walk d light f h
        | Some None =>
            match i_get_data f g (Z.of_nat i) with
            | Some (Some b) => Some (Data b)
            | _ => None
            end
        | None => None
        end in
      let fix all (l : list nat) : option (list tree) :=
        match l with
        | [] => Some []
        | i :: r =>
            match child i, all r with
            | Some t, Some ts => Some (t :: ts)
            | _, _ => None
            end
        end in
      match all (seq 0 (Z.to_nat (ig_num g))) with
      | Some ts => Some (Group ts)
      | None => None
      end
  end.

(** Opening the file gives an archive whose contents are [t]. *)
Definition reads_as (f : list Z) (frozen light : bool) (t : tree) : Prop :=
  exists g, i_open f = Ok (Opened frozen g) /\ exists d, walk d light f g = Some t.

(** The calls with every empty [addData] replaced by what it does: two empty children. *)
Definition as_stored (ops : list oop) : list oop :=
  flat_map (fun o => match o with
                     | OAddData g bufs =>
                         match concat bufs with
                         | [] => [OAddEmptyData g; OAddEmptyData g]
                         | _ => [o]
                         end
                     | _ => [o]
                     end) ops.

(** The reader interface on a group [g] of the file agrees with the list of children
    [ts]: how many there are, and for each index whether it is a group or data and what
    is in it. *)
Definition shows (f : list Z) (light : bool) (g : igroup) (ts : list tree) : Prop :=
  Z.to_nat (ig_num g) = length ts /\
  forall i c, nth_error ts i = Some c ->
    match c with
    | Data b => i_get_group f light g (Z.of_nat i) = Some None /\
                i_get_data f g (Z.of_nat i) = Some (Some b)
    | Group _ => exists h d, i_get_group f light g (Z.of_nat i) = Some (Some h) /\
                             walk d light f h = Some c
    end.
