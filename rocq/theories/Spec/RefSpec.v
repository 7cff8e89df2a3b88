(** What counted references and the field cache must do. *)
From Coq Require Import ZArith List Bool Arith.
From Verif Require Import Model.Base Model.OgawaM Spec.OgawaSpec Model.OgM Model.RefM.
Import ListNotations.

(** A variable refers to the object. *)
Definition held {V} (s : @rst V) (o : nat) : Prop := In (Some o) (s_vars s).
(** The object exists: it was created and not deleted. *)
Definition alive {V} (s : @rst V) (o : nat) : Prop := exists x, nth_error (s_objs s) o = Some x /\ r_live x = true.
(** The variables a call mentions exist. *)
Definition op_vars {V} (c : @rop V) : list nat :=
  match c with
  | RNew h _ | RReset h | RPut h _ _ | RGet h _ _ | RRead h _ _ _ => [h]
  | RCopy h h' | RClone h h' | RAssign h h' => [h; h']
  end.
Definition in_scope {V} (n : nat) (ops : list (@rop V)) : Prop := forall c h, In c ops -> In h (op_vars c) -> (h < n)%nat.

(** The object last put in the cache for a file and a path. *)
Definition last_put (evs : list rev) (file path : bytes) : option nat :=
  fold_left (fun acc e => match e with EvPut f p o => if bytes_eqb f file && bytes_eqb p path then Some o else acc end) evs None.
(** The path [readLayer] gives a layer: partition and layer names have no '/'. *)
Definition layer_path (path : bytes) : Prop :=
  exists part layer, path = part ++ [47%Z] ++ layer /\ ~ In 47%Z part /\ ~ In 47%Z layer.
Definition ops_layer_paths {V} (ops : list (@rop V)) : Prop :=
  forall c, In c ops -> match c with RPut _ _ p | RGet _ _ p | RRead _ _ p _ => layer_path p | _ => True end.
