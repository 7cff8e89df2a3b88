(** What lazy loading of MIP levels promises. *)
From Coq Require Import Arith List Bool.
From Verif Require Import Model.Base Model.MipLazyM.
Import ListNotations.

(** Thread [i] asks for the levels [nth i reqs]; all of them exist. *)
Definition valid_requests (n : nat) (reqs : list (list nat)) : Prop :=
  forall r l, In r reqs -> In l r -> l < n.
Definition requested (reqs : list (list nat)) (l : nat) : Prop := exists r, In r reqs /\ In l r.

(** A state that some schedule leads to, on a field with [n] levels none of which is
    loaded. *)
Definition reached (n : nat) (reqs : list (list nat)) (st : lazy_state) : Prop :=
  exists sched, lrun sched (setup_lazy n, callers reqs) = Ok st.

(** How often level [l] has been read from disk. *)
Definition times_loaded (st : lazy_state) (l : nat) : nat := count_occ Nat.eq_dec (mf_log (fst st)) l.
(** Thread [t] was told [x] when it asked for level [l]. *)
Definition told (st : lazy_state) (l : nat) (x : outcome) : Prop :=
  exists t, In t (snd st) /\ In (l, x) (lt_results t).
(** Everybody has an answer to everything they asked. *)
Definition all_answered (reqs : list (list nat)) (st : lazy_state) : Prop :=
  forall i r, nth_error reqs i = Some r ->
    exists t, nth_error (snd st) i = Some t /\ lt_todo t = [] /\ map fst (lt_results t) = r.
(** Thread [i] is reading level [l] from disk. *)
Definition reading (st : lazy_state) (i l : nat) : Prop :=
  exists rest done, nth_error (snd st) i = Some (LThread LLoading (l :: rest) done).
(** Nobody is loading anything. *)
Definition at_rest (st : lazy_state) : Prop := mf_lock (fst st) = false.
(** Level [l] is there, with its metadata and its mapping. *)
Definition usable (s : mipf) (l id : nat) : Prop :=
  nth_error (mf_raw s) l = Some (Some id) /\ nth_error (mf_heap s) id = Some (LObj l true true).
