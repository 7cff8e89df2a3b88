(** C16 and C17: the Ogawa archive. *)
From Coq Require Import ZArith List Bool Lia Arith.
From Verif Require Import Model.Base Model.OgawaM Spec.OgawaSpec Proof.OgawaP Proof.OgawaP2 Proof.OgawaP3 Proof.OgawaP4 Proof.OgawaP5 Proof.OgawaP6.
Import ListNotations.
Open Scope Z_scope.

(** * C16: what is written is what is read, for every order of calls on the open groups,
    with the reader loading child tables eagerly or lazily ([light]). *)
Theorem C16_round_trip : forall ops light,
  data_ok ops -> all_closed ops ->
  Z.of_nat (length (o_file (o_run ops o_open))) < 2 ^ 63 ->
  reads_as (o_file (o_close (o_run ops o_open))) true light (built ops).
Proof. intros. apply roundtrip; auto. Qed.
Print Assumptions C16_round_trip.

(** Two groups open at once, the parent closed before its child, data in both, an empty
    data element and an empty group. *)
Definition ex_ops : list oop :=
  [OAddGroup 0; OAddGroup 0; OAddData 2 [[1; 2]; []; [3]]; OAddData 1 [[9]]; OAddEmptyData 1;
   OAddGroup 1; OAddData 0 [[7; 7]]; OFreeze 0; OAddData 3 [[5]]; OFreeze 3; OAddEmptyGroup 2;
   OFreeze 1; OAddData 1 [[8]]; OFreeze 2].
Definition ex_tree : tree :=
  Group [Group [Data [9]; Data []; Group [Data [5]]]; Group [Data [1; 2; 3]; Group []]; Data [7; 7]].

Example C16_example_hyps : data_ok ex_ops /\ all_closed ex_ops /\
  Z.of_nat (length (o_file (o_run ex_ops o_open))) < 2 ^ 63 /\ built ex_ops = ex_tree.
Proof.
  repeat split.
  - intros g bufs H. simpl in H. repeat (destruct H as [H|H]; [inversion H; subst; discriminate|]). destruct H.
  - intros t H. vm_compute in H. repeat (destruct H as [<-|H]; [reflexivity|]). destruct H.
Qed.
Example C16_example : reads_as (o_file (o_close (o_run ex_ops o_open))) true true ex_tree.
Proof.
  destruct C16_example_hyps as (A & B & C & <-). apply C16_round_trip; auto.
Qed.

(** An empty data element written with [addData] is not preserved: it becomes two. *)
Theorem C16_empty_data_refuted : exists ops, all_closed ops /\
  Z.of_nat (length (o_file (o_run ops o_open))) < 2 ^ 63 /\ built ops = Group [Data []] /\
  forall light, reads_as (o_file (o_close (o_run ops o_open))) true light (Group [Data []; Data []]).
Proof.
  exists [OAddData 0 [[]]; OFreeze 0]. repeat split.
  - intros t H. vm_compute in H. repeat (destruct H as [<-|H]; [reflexivity|]). destruct H.
  - intros light. eexists. split; [vm_compute; reflexivity|]. exists 3%nat. destruct light; vm_compute; reflexivity.
Qed.
Print Assumptions C16_empty_data_refuted.

(** Without any condition on the data: exactly the empty elements are doubled. *)
Theorem C16_any_calls : forall ops light,
  all_closed (as_stored ops) ->
  Z.of_nat (length (o_file (o_run ops o_open))) < 2 ^ 63 ->
  reads_as (o_file (o_close (o_run ops o_open))) true light (built (as_stored ops)).
Proof. intros ops light C L. rewrite (as_stored_run ops) in L |- *. apply roundtrip; auto. apply as_stored_ok. Qed.
Print Assumptions C16_any_calls.
Example C16_any_calls_example :
  all_closed (as_stored [OAddData 0 [[]]; OAddData 0 [[1]]; OFreeze 0]) /\
  built (as_stored [OAddData 0 [[]]; OAddData 0 [[1]]; OFreeze 0]) = Group [Data []; Data []; Data [1]].
Proof. split; [|vm_compute; reflexivity]. intros t H. vm_compute in H. destruct H as [<-|[]]. reflexivity. Qed.

(** Reading child by child ([getNumChildren], [getGroup], [getData]) shows the same tree. *)
Theorem C16_reader_interface : forall d light f g t,
  walk d light f g = Some t -> exists ts, t = Group ts /\ shows f light g ts.
Proof.
  intros d light f g t H. destruct d as [|d]; [discriminate|].
  destruct (walk_children d light f g t H) as (ts & -> & L & N). exists ts. split; auto. split; auto.
  intros i c Hc. specialize (N i c Hc). destruct c as [l|b].
  - destruct N as (h & A & B). eauto.
  - destruct N as [N|(h & _ & B)]; auto. apply walk_is_group in B. destruct B.
Qed.
Print Assumptions C16_reader_interface.
Example C16_reader_interface_example : exists g,
  i_open (o_file (o_close (o_run ex_ops o_open))) = Ok (Opened true g) /\
  walk 6 true (o_file (o_close (o_run ex_ops o_open))) g = Some ex_tree.
Proof. eexists. split; [vm_compute; reflexivity|vm_compute; reflexivity]. Qed.

(** * C17: crash points.  [o_log] lists the writes in order; the file after a crash is what
    a prefix of them leaves. *)
Theorem C17_crash_between_writes : forall ops light k,
  raii ops -> data_ok ops -> all_closed ops ->
  Z.of_nat (length (o_file (o_run ops o_open))) < 2 ^ 63 -> (1 <= k)%nat ->
  let log := o_log (o_close (o_run ops o_open)) in
  let f := replay (firstn k log) in
  reads_as f false light (Group []) \/ reads_as f (Nat.leb (length log) k) light (built ops).
Proof. exact crash_ok. Qed.
Print Assumptions C17_crash_between_writes.

(** The log is the file: replaying all of it gives the closed archive. *)
Theorem C17_log_is_file : forall ops, data_ok ops ->
  replay (o_log (o_close (o_run ops o_open))) = o_file (o_close (o_run ops o_open)).
Proof.
  intros ops D. destruct (run_inv ops o_open _ [] init_inv D) as (cs & I).
  apply emit_replay. apply (v_log _ _ _ I).
Qed.
Print Assumptions C17_log_is_file.

(** While the root group is open nothing is visible. *)
Theorem C17_nothing_visible_before_close : forall ops light k,
  raii ops -> data_ok ops -> can_add (t_run ops) 0 = true -> (1 <= k)%nat ->
  reads_as (replay (firstn k (o_log (o_run ops o_open)))) false light (Group []).
Proof. exact open_ok. Qed.
Print Assumptions C17_nothing_visible_before_close.

(** A write may also be cut short: harmless for every write but the header (position 0)
    and the root offset (position 8). *)
Theorem C17_torn_write : forall ops light k p bs j,
  raii ops -> data_ok ops -> all_closed ops ->
  let log := o_log (o_close (o_run ops o_open)) in
  nth_error log k = Some (p, bs) -> (16 <= p)%nat ->
  reads_as (write_at (replay (firstn k log)) p (firstn j bs)) false light (Group []).
Proof. exact torn_ok. Qed.
Print Assumptions C17_torn_write.

Definition ex_raii : list oop :=
  [OAddGroup 0; OAddData 1 [[9; 8]]; OAddGroup 1; OAddData 2 [[1]; [2]]; OFreeze 2; OFreeze 1; OAddData 0 [[7]]; OFreeze 0].
Example C17_example_hyps : raii ex_raii /\ data_ok ex_raii /\ all_closed ex_raii /\
  built ex_raii = Group [Group [Data [9; 8]; Group [Data [1; 2]]]; Data [7]] /\
  length (o_log (o_close (o_run ex_raii o_open))) = 16%nat.
Proof.
  repeat split; auto.
  - intros t h [= <-] []; discriminate || contradiction.
  - intros t h [= <-] H. simpl in H. destruct H as [H|[H|[]]]; [discriminate|]. injection H as <-. eexists. split; reflexivity.
  - intros t h [= <-] H. simpl in H. destruct H as [H|[H|[]]]; [|discriminate]. injection H as <-. eexists. split; reflexivity.
  - intros g bufs H. simpl in H. repeat (destruct H as [H|H]; [inversion H; subst; discriminate|]). destruct H.
  - intros t H. vm_compute in H. repeat (destruct H as [<-|H]; [reflexivity|]). destruct H.
Qed.
(** Both outcomes occur: at 14 writes the root is still invisible, at 15 all is there. *)
Example C17_example :
  reads_as (replay (firstn 14 (o_log (o_close (o_run ex_raii o_open))))) false true (Group []) /\
  reads_as (replay (firstn 15 (o_log (o_close (o_run ex_raii o_open))))) false true (built ex_raii) /\
  reads_as (replay (firstn 16 (o_log (o_close (o_run ex_raii o_open))))) true true (built ex_raii).
Proof.
  repeat split; (eexists; split; [vm_compute; reflexivity|exists 5%nat; vm_compute; reflexivity]).
Qed.

(** Closing a group while a group inside it is still open (an explicit [freeze]) makes a
    partial tree visible. *)
Theorem C17_early_close_refuted : exists ops k, data_ok ops /\ all_closed ops /\
  built ops = Group [Group [Data [5]]] /\
  reads_as (replay (firstn k (o_log (o_close (o_run ops o_open))))) false true (Group [Group []]).
Proof.
  exists [OAddGroup 0; OFreeze 0; OAddData 1 [[5]]; OFreeze 1], 4%nat. repeat split.
  - intros g bufs H. simpl in H. repeat (destruct H as [H|H]; [inversion H; subst; discriminate|]). destruct H.
  - intros t H. vm_compute in H. repeat (destruct H as [<-|H]; [reflexivity|]). destruct H.
  - eexists. split; [vm_compute; reflexivity|]. exists 4%nat. vm_compute. reflexivity.
Qed.
Print Assumptions C17_early_close_refuted.

(** A torn write of the 8-byte root offset makes a garbled tree visible. *)
Theorem C17_torn_root_refuted : exists ops k p bs j, raii ops /\ data_ok ops /\ all_closed ops /\
  let log := o_log (o_close (o_run ops o_open)) in
  nth_error log k = Some (p, bs) /\ built ops = Group [Data (repeat 0 44 ++ [1] ++ repeat 0 255)] /\
  reads_as (write_at (replay (firstn k log)) p (firstn j bs)) false true (Group [Group []]).
Proof.
  exists [OAddData 0 [repeat 0 44 ++ [1] ++ repeat 0 255]; OFreeze 0], 5%nat, 8%nat, (enc64 324), 1%nat.
  repeat split.
  - intros t h [= <-] H. simpl in H. destruct H as [H|[]]. discriminate.
  - intros g bufs [H|[H|[]]]; inversion H; subst; discriminate.
  - intros t H. vm_compute in H. destruct H as [<-|[]]. reflexivity.
  - eexists. split; [vm_compute; reflexivity|]. exists 4%nat. vm_compute. reflexivity.
Qed.
Print Assumptions C17_torn_root_refuted.

(** A header cut after the magic number, or any archive with a version other than 1, makes
    opening read from an empty list of streams. *)
Theorem C17_torn_header_refuted : exists j, (j < length header)%nat /\ i_open (firstn j header) = UB.
Proof. exists 5%nat. split; [simpl; lia|reflexivity]. Qed.
Print Assumptions C17_torn_header_refuted.
Theorem C17_other_version_undefined : forall fz v1 v2 rest, Z.lor (v1 * 256) v2 <> 1 ->
  i_open ([79; 103; 97; 119; 97; fz; v1; v2] ++ rest) = UB.
Proof.
  intros fz v1 v2 rest H. unfold i_open.
  assert (E : stream_init ([79; 103; 97; 119; 97; fz; v1; v2] ++ rest) = IStream true (fz =? 255) (Z.lor (v1 * 256) v2)) by reflexivity.
  rewrite E. cbn [is_valid is_version]. destruct (Z.eqb_spec (Z.lor (v1 * 256) v2) 1); [contradiction|]. reflexivity.
Qed.
Print Assumptions C17_other_version_undefined.
(** Anything not starting with the magic number is rejected. *)
Theorem C17_bad_magic_rejected : forall f, firstn 5 (f ++ repeat 0 16) <> [79; 103; 97; 119; 97] -> i_open f = Ok Invalid.
Proof.
  intros f H. unfold i_open, stream_init, first16. rewrite firstn_firstn. change (Nat.min 5 16) with 5%nat.
  destruct (list_eq_dec _ _ _); [contradiction|]. reflexivity.
Qed.
Print Assumptions C17_bad_magic_rejected.
