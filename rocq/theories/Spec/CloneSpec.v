(** Fields as values: every field has its own data, mapping, labels and metadata, and an
    operation on one field concerns no other. *)
From Coq Require Import ZArith List Bool.
From Verif Require Import Model.Base Model.OpsM Model.VecM Model.MapM Model.CopyM Model.MetaM Model.CloneM Spec.VoxelSpec Spec.OpsSpec.
Import ListNotations.
Open Scope Z_scope.

Section Values.
Context {V : Type}.
Variables dflt zero : V.

(** What a user sees of a field: its data, extents and windows, its mapping, its name and
    attribute, its metadata. *)
Record vfield (k : kind) : Type := VField { v_fld : mfield (V := V) k; v_name : list Z; v_attr : list Z; v_meta : meta }.
Arguments VField {k}. Arguments v_fld {k}. Arguments v_name {k}. Arguments v_attr {k}. Arguments v_meta {k}.

(** What a user sees of field [i] of a state. *)
Definition seen {k} (w : world (V := V) k) (i : nat) : option (vfield k) :=
  match nth_error (w_fields w) i with
  | Some f => match nth_error (w_maps w) (h_map f) with
              | Some m => Some (VField (MField (h_fld f) m) (h_name f) (h_attr f) (h_meta f))
              | None => None
              end
  | None => None
  end.

(** Applying an operation to value [i] of a list. *)
Definition v_update {k} (l : list (vfield k)) (i : nat) (g : vfield k -> res (vfield k)) : res (list (vfield k)) :=
  match nth_error l i with Some a => let* b := g a in Ok (list_set l i b) | None => UB end.
Definition v_step {k} (l : list (vfield k)) (o : hop (V := V)) : res (list (vfield k)) :=
  match o with
  | HNew => let* f := c_new zero k in Ok (l ++ [VField f [] [] meta_empty])
  | HClone j => match nth_error l j with Some a => Ok (l ++ [a]) | None => UB end
  | HAssign i j => match nth_error l j with Some a => v_update l i (fun _ => Ok a) | None => UB end
  | HMapping i m => v_update l i (fun a => let* f := set_mapping (v_fld a) m in Ok (VField f (v_name a) (v_attr a) (v_meta a)))
  | HSize i e dw => v_update l i (fun a => let* f := set_size dflt zero (v_fld a) e dw in Ok (VField f (v_name a) (v_attr a) (v_meta a)))
  | HWrite i p v => v_update l i (fun a => let* f := f_set (c_fld (v_fld a)) p v in
                                           Ok (VField (MField f (c_map (v_fld a))) (v_name a) (v_attr a) (v_meta a)))
  | HChange i g => v_update l i (fun a => Ok (VField (MField (c_fld (v_fld a)) (g (c_map (v_fld a)))) (v_name a) (v_attr a) (v_meta a)))
  | HLabel i n t => v_update l i (fun a => Ok (VField (v_fld a) n t (v_meta a)))
  | HMeta i t n v => v_update l i (fun a => Ok (VField (v_fld a) (v_name a) (v_attr a) (meta_set (v_meta a) t n v)))
  end.
Fixpoint v_run {k} (l : list (vfield k)) (os : list hop) : res (list (vfield k)) :=
  match os with [] => Ok l | o :: r => let* l' := v_step l o in v_run l' r end.

(** Legal operations: the fields exist, sizes can be allocated, written voxels are in the
    data window. *)
Definition legal_op {k} (l : list (vfield k)) (o : hop (V := V)) : Prop :=
  match o with
  | HNew => True
  | HClone j => (j < length l)%nat
  | HAssign i j => (i < length l)%nat /\ (j < length l)%nat
  | HMapping i _ | HChange i _ | HLabel i _ _ | HMeta i _ _ _ => (i < length l)%nat
  | HSize i e dw => (exists a, nth_error l i = Some a /\ fits k (c_fld (v_fld a)) dw) /\ box_nonempty dw /\ exists f, set_frame e = Ok f
  | HWrite i p _ => exists a, nth_error l i = Some a /\ in_box p (f_dw (c_fld (v_fld a)))
  end.
Fixpoint legal_ops {k} (l : list (vfield k)) (os : list hop) : Prop :=
  match os with
  | [] => True
  | o :: r => legal_op l o /\ forall l', v_step l o = Ok l' -> legal_ops l' r
  end.

Definition is_assign (o : hop (V := V)) : bool := match o with HAssign _ _ => true | _ => false end.
(** The field an operation changes. *)
Definition target (o : hop (V := V)) : option nat :=
  match o with
  | HNew | HClone _ => None
  | HAssign i _ | HMapping i _ | HSize i _ _ | HWrite i _ _ | HChange i _ | HLabel i _ _ | HMeta i _ _ _ => Some i
  end.
End Values.
Arguments VField {V k}. Arguments v_fld {V k}. Arguments v_name {V k}. Arguments v_attr {V k}. Arguments v_meta {V k}.
