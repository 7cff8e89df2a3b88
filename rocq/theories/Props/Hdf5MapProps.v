(** C60: field mappings in HDF5 files. *)
From Coq Require Import ZArith List Bool String Lia Arith Permutation Sorted.
From Verif Require Import Model.Base Model.OgawaM Spec.OgawaSpec Model.OgM Spec.OgSpec Proof.OgP Model.FieldIOM Spec.FieldIOSpec Proof.FieldIOP
  Model.FileM Proof.FileP Model.MetaM Spec.MetaSpec Model.CurveM Spec.CurveSpec Proof.CurveP Model.MappingIOM Spec.MappingIOSpec Proof.MappingIOP Props.MappingIOProps
  Model.Hdf5M Model.Hdf5FileM Spec.Hdf5MetaSpec Proof.Hdf5MetaP Spec.Hdf5FileSpec Props.Hdf5FileProps Model.Hdf5MapM Spec.Hdf5MapSpec Proof.Hdf5MapP.
Import ListNotations.
Open Scope Z_scope.

(** A matrix mapping, whatever calls were made on it, is written, and read back from those
    attributes in any order it holds the same samples. *)
Theorem C60_matrix_round_trip : forall T X ltb eqb t_enc t_dec x_enc x_dec (t0 : T) (ss0 cs0 x_id : X) (ops : list (@mop T X)),
  ordered ltb eqb -> storable TFloat32 t_enc t_dec -> storable TMtx64 x_enc x_dec ->
  let samples := fold_left (matrix_op ltb eqb t0) ops [] in
  Z.of_nat (List.length samples) < 2 ^ 31 ->
  exists l, mapping_put t_enc x_enc (MapMatrix samples) = Ok (l, true) /\
    forall l', Permutation l' l -> mapping_get ltb eqb t_dec x_enc x_dec t0 ss0 cs0 x_id l' = Ok (Some (MapMatrix samples)).
Proof.
  intros T X ltb eqb te td xe xd t0 ss0 cs0 xi ops O ST SX samples N. eexists. split; [apply mattrs_eq|].
  intros l' P. apply (matrix_back ltb eqb te td xe xd t0 ss0 cs0 xi O ST SX); auto. apply (C25_matrix_samples T X ltb eqb t0 ops O).
Qed.
Print Assumptions C60_matrix_round_trip.

(** So is a null mapping. *)
Theorem C60_null_round_trip : forall T X ltb eqb (t_enc : T -> bytes) t_dec (x_enc : X -> bytes) x_dec (t0 : T) (ss0 cs0 x_id : X),
  exists l, mapping_put t_enc x_enc MapNull = Ok (l, true) /\
    forall l', Permutation l' l -> mapping_get ltb eqb t_dec x_enc x_dec t0 ss0 cs0 x_id l' = Ok (Some MapNull).
Proof.
  intros. eexists. split; [reflexivity|]. intros l' P.
  assert (ND : NoDup (map fst [(str "mapping_type", VStr (str "NullFieldMapping")); (str "NullFieldMapping data", VStr (str "NullFieldMapping has no data"))])).
  { repeat constructor; vm_compute; intuition discriminate. }
  unfold mapping_get. rewrite (type_ok l' (str "NullFieldMapping")); [|vm_compute; intuition discriminate|].
  2:{ eapply perm_find; [exact ND|exact P|left; auto]. }
  cbn [bind]. rewrite beq_refl. unfold get_str. change (cstr (str "NullFieldMapping data")) with (str "NullFieldMapping data").
  rewrite (perm_find _ l' (str "NullFieldMapping data") (VStr (str "NullFieldMapping has no data")) ND P) by (right; left; auto). reflexivity.
Qed.
Print Assumptions C60_null_round_trip.

(** The samples of a frustum mapping after any calls: in order of time, the last screen matrix
    that each time was ever given, and the last camera matrix since the last reset. *)
Theorem C60_frustum_samples : forall T X ltb eqb (t0 : T) (ss0 cs0 : X) (ops : list (@fop T X)), ordered ltb eqb ->
  let f := fold_left (frustum_op ltb eqb t0 ss0 cs0) ops (fr_new ltb eqb t0 ss0 cs0) in
  rising ltb (fr_ss f) /\ rising ltb (fr_cs f) /\
  (forall t m, In (t, m) (fr_ss f) <-> last_at eqb (screen_history t0 ss0 ops) t = Some m) /\
  (forall t m, In (t, m) (fr_cs f) <-> last_at eqb (camera_history t0 cs0 ops) t = Some m).
Proof.
  intros T X ltb eqb t0 ss0 cs0 ops O f. destruct (frustum_run_eq ltb eqb t0 ss0 cs0 ops) as (A & B & _). unfold f. rewrite A, B.
  pose proof (run_rising ltb eqb O (screen_history t0 ss0 ops)) as R1. pose proof (run_rising ltb eqb O (camera_history t0 cs0 ops)) as R2.
  split; auto. split; auto. split; intros t m; rewrite <- (value_in ltb eqb O) by auto; unfold curve_run; rewrite (curve_value ltb eqb O); reflexivity.
Qed.
Print Assumptions C60_frustum_samples.

(** A frustum mapping whose times are all since the last reset is written, and read back with
    the same samples and distribution (unlike in Ogawa files, C25). *)
Theorem C60_frustum_round_trip : forall T X ltb eqb t_enc t_dec x_enc x_dec (t0 : T) (ss0 cs0 x_id : X) (ops : list (@fop T X)),
  ordered ltb eqb -> storable TFloat32 t_enc t_dec -> storable TMtx64 x_enc x_dec ->
  let f := fold_left (frustum_op ltb eqb t0 ss0 cs0) ops (fr_new ltb eqb t0 ss0 cs0) in
  Z.of_nat (List.length (fr_ss f)) < 2 ^ 31 -> in_int (last_dist ops) = true ->
  same_times (screen_history t0 ss0 ops) (camera_history t0 cs0 ops) ->
  exists l, mapping_put t_enc x_enc (MapFrustum f) = Ok (l, true) /\
    forall l', Permutation l' l -> exists f', mapping_get ltb eqb t_dec x_enc x_dec t0 ss0 cs0 x_id l' = Ok (Some (MapFrustum f')) /\
      fr_ss f' = fr_ss f /\ fr_cs f' = fr_cs f /\ fr_z f' = last_dist ops.
Proof.
  intros T X ltb eqb te td xe xd t0 ss0 cs0 xi ops O ST SX f N Z S. apply (hist_times ltb eqb t0 ss0 cs0 O) in S.
  assert (Z0 : fr_z f = last_dist ops) by (unfold f, last_dist; rewrite fr_z_run; reflexivity).
  exists (fattrs te xe f). split.
  - rewrite fattrs_eq. apply Nat.leb_le in S. fold f in S. rewrite S. reflexivity.
  - intros l' P. eexists. split; [apply (hist_back ltb eqb te td xe xd t0 ss0 cs0 xi O ST SX ops l'); auto|].
    + fold f. rewrite Z0. auto.
    + cbn [fr_ss fr_cs fr_z]. auto.
Qed.
Print Assumptions C60_frustum_round_trip.

(** Any other is written from beyond the end of the camera samples. *)
Theorem C60_frustum_write_ub : forall T X ltb eqb t_enc x_enc (t0 : T) (ss0 cs0 : X) (ops : list (@fop T X)),
  ordered ltb eqb ->
  (mapping_put t_enc x_enc (MapFrustum (fold_left (frustum_op ltb eqb t0 ss0 cs0) ops (fr_new ltb eqb t0 ss0 cs0))) = UB <->
   ~ same_times (screen_history t0 ss0 ops) (camera_history t0 cs0 ops)).
Proof.
  intros T X ltb eqb te xe t0 ss0 cs0 ops O. rewrite fattrs_eq, <- (hist_times ltb eqb t0 ss0 cs0 O).
  match goal with |- context [Nat.leb ?a ?b] => destruct (Nat.leb_spec a b) end; split; try discriminate; try tauto; try lia; auto.
Qed.
Print Assumptions C60_frustum_write_ub.

(** So it is for a new frustum given its matrices at a time other than 0. *)
Theorem C60_frustum_write_refuted : forall T X ltb eqb t_enc x_enc (t0 t : T) (ss0 cs0 ss cs : X), ordered ltb eqb -> t <> t0 ->
  mapping_put t_enc x_enc (MapFrustum (fold_left (frustum_op ltb eqb t0 ss0 cs0) [FSetAt t ss cs] (fr_new ltb eqb t0 ss0 cs0))) = UB.
Proof.
  intros. apply C60_frustum_write_ub; auto. intros S. destruct (S t0) as [E|[]]; [left; auto|]. cbn in E. congruence.
Qed.
Print Assumptions C60_frustum_write_refuted.

(** Files of older versions hold one matrix. *)
Theorem C60_old_matrix : forall T X ltb eqb t_dec x_enc x_dec (t0 : T) (ss0 cs0 x_id m : X) l,
  storable TMtx64 x_enc x_dec ->
  find_by (str "mapping_type") l = Some (VStr (str "MatrixFieldMapping")) ->
  find_by (str "MatrixFieldMapping data") l = Some (VNum true 8 [16%nat] (x_enc m)) ->
  mapping_get ltb eqb t_dec x_enc x_dec t0 ss0 cs0 x_id l = Ok (Some (MapMatrix [(t0, m)])).
Proof.
  intros T X ltb eqb td xe xd t0 ss0 cs0 xi m l SX A B. unfold mapping_get.
  rewrite (type_ok l (str "MatrixFieldMapping")); [|vm_compute; intuition discriminate|auto]. cbn [bind].
  assert (bytes_eqb (str "MatrixFieldMapping") (str "NullFieldMapping") = false) as -> by reflexivity. rewrite beq_refl.
  unfold matrix_get. rewrite (get_num_ok _ _ _ _ _ (xe m)); [|vm_compute; intuition discriminate|auto]. cbn [bind or_else matrix_op].
  destruct SX as (_ & SX). destruct (SX m) as (_ & ->). reflexivity.
Qed.
Print Assumptions C60_old_matrix.

(** Whatever attributes a group has, if none is wider than the variable it is read into,
    reading a mapping of it is defined. *)
Theorem C60_read_safe : forall T X ltb eqb t_dec x_enc x_dec (t0 : T) (ss0 cs0 x_id : X) l,
  storable TMtx64 x_enc x_dec -> narrow l -> mapping_get ltb eqb t_dec x_enc x_dec t0 ss0 cs0 x_id l <> UB.
Proof. intros. eapply mapping_def; eauto. Qed.
Print Assumptions C60_read_safe.

(** With C58: so are opening a file of such groups and reading its layers. *)
Theorem C60_open_safe : forall A T X ltb eqb t_dec x_enc x_dec (t0 : T) (ss0 cs0 x_id : X) (root : hnode (A := A)) ord f,
  storable TMtx64 x_enc x_dec ->
  (forall path n, node_at root path = Some n -> four_bytes (n_attrs n) /\ narrow (n_attrs n) /\ forall m x, In (m, x) (n_links n) -> x <> LBad) ->
  i_open ord (mapping_get ltb eqb t_dec x_enc x_dec t0 ss0 cs0 x_id) root f <> UB /\
  forall f', i_open ord (mapping_get ltb eqb t_dec x_enc x_dec t0 ss0 cs0 x_id) root f = Ok (f', true) ->
    forall vec P L, i_layers f' vec P L <> UB /\ i_layers_all f' vec L <> UB.
Proof.
  intros A T X ltb eqb td xe xd t0 ss0 cs0 xi root ord f SX H. apply C58_open_safe. intros path n E. destruct (H path n E) as (F & N & L).
  split; auto. split; auto. eapply C60_read_safe; eauto.
Qed.
Print Assumptions C60_open_safe.

(** A built mapping is one that C58 asks for. *)
Lemma built_ok T X ltb eqb te td xe xd (t0 : T) (ss0 cs0 xi : X) m :
  ordered ltb eqb -> storable TFloat32 te td -> storable TMtx64 xe xd -> built ltb eqb t0 ss0 cs0 m ->
  exists l, mapping_put te xe m = Ok (l, true) /\ mapping_get ltb eqb td xe xd t0 ss0 cs0 xi l = Ok (Some (copied m)) /\ find_by (str "class_type") l = None.
Proof.
  intros O ST SX B. destruct m as [|c|f]; cbn [built copied] in *.
  - destruct (C60_null_round_trip T X ltb eqb te td xe xd t0 ss0 cs0 xi) as (l & P & G). exists l. split; auto. split; [apply G; auto|].
    cbn in P. injection P as <-. reflexivity.
  - destruct B as ((ops & ->) & N). exists (mattrs te xe (fold_left (matrix_op ltb eqb t0) ops [])). split; [apply mattrs_eq|]. split; [|apply class_none_m].
    apply (matrix_back ltb eqb te td xe xd t0 ss0 cs0 xi O ST SX); auto. apply (C25_matrix_samples T X ltb eqb t0 ops O).
  - destruct B as ((ops & -> & S) & N & Z). apply (hist_times ltb eqb t0 ss0 cs0 O) in S.
    exists (fattrs te xe (fold_left (frustum_op ltb eqb t0 ss0 cs0) ops (fr_new ltb eqb t0 ss0 cs0))). split; [|split; [|apply class_none_f]].
    + rewrite fattrs_eq. apply Nat.leb_le in S. rewrite S. reflexivity.
    + apply (hist_back ltb eqb te td xe xd t0 ss0 cs0 xi O ST SX ops); auto.
Qed.
(** So every layer of a file comes back with the samples of a mapping that its own was found
    identical to when it was written. *)
Theorem C60_layer_mapping : forall A T X ltb eqb t_enc t_dec x_enc x_dec (t0 : T) (ss0 cs0 x_id : X)
    ident (hp : nat -> @mapping T X) v h0 h h' (calls : list (hcall (A := A))) outcomes global root ord,
  ordered ltb eqb -> storable TFloat32 t_enc t_dec -> storable TMtx64 x_enc x_dec ->
  let put := mapping_put t_enc x_enc in
  let get := mapping_get ltb eqb t_dec x_enc x_dec t0 ss0 cs0 x_id in
  h_parts h0 = [] -> int_v3 v -> 0 <= vx v -> 0 <= vy v ->
  Forall (fun c => h_usable c /\ h_field_ok (c_vec c) (c_field c)) calls -> (forall r, built ltb eqb t0 ss0 cs0 (hp r)) ->
  h_writes ident put hp (h_create (enc_v3 v) h0) calls = Ok (h, outcomes) ->
  h_finished h h' global -> h_root h' = Some root -> any_order ord ->
  exists f, i_open ord get root i_new = Ok (f, true) /\
    forall vec P L, P <> [] -> L <> [] ->
      exists layers source, i_layers f vec P L = Ok layers /\
        Permutation source
          (filter (fun c => Bool.eqb (c_vec c) vec && bytes_eqb (c_user c) P && bytes_eqb (c_layer c) L) (h_accepted calls outcomes)) /\
        Forall2 (fun x c => h_reads_as ident put get hp x c /\
                            exists r, ident (hp (hf_ref (c_field c))) (hp r) = true /\ y_map x = copied (hp r)) layers source.
Proof.
  intros A T X ltb eqb te td xe xd t0 ss0 cs0 xi ident hp v h0 h h' calls ocs global root ord O ST SX put get E IV VX VY U B W F R OR.
  assert (S : session ident put get hp v h0 calls ocs global root).
  { split; auto. split; auto. split; auto. split; auto. split; [|eauto].
    eapply Forall_impl; [|exact U]. intros c (U1 & U2). split; auto. split; auto.
    destruct (built_ok T X ltb eqb te td xe xd t0 ss0 cs0 xi _ O ST SX (B (hf_ref (c_field c)))) as (l & P & G & K).
    exists l, (copied (hp (hf_ref (c_field c)))). auto. }
  destruct (C58_layers_read _ _ _ _ _ _ _ _ _ _ _ _ _ S OR) as (f & OP & _ & RD). exists f. split; auto.
  intros vec P L NP NL. destruct (RD vec P L NP NL) as (ls & src & R1 & R2 & R3). exists ls, src. split; auto. split; auto.
  clear R1 R2. induction R3 as [|x c ls src RA R3 IH]; constructor; auto. split; auto. destruct RA as (_ & _ & _ & _ & _ & r & l & I & P1 & G1).
  exists r. split; auto. destruct (built_ok T X ltb eqb te td xe xd t0 ss0 cs0 xi _ O ST SX (B r)) as (l2 & P2 & G2 & _).
  unfold put, get in *. congruence.
Qed.
Print Assumptions C60_layer_mapping.

(** * Instances *)

(** A frustum set at both times, after a reset, and its distribution. *)
Example C60_example_frustum :
  let ops := [FSetAt true true true; FReset; FDist 1; FSetAt false true false; FSetAt true false true; FSetAt true true true] in
  let f := fold_left (frustum_op lt2 Bool.eqb false false false) ops (fr_new lt2 Bool.eqb false false false) in
  same_times (screen_history false false ops) (camera_history false false ops) /\ last_dist ops = 1 /\
  f = Fr [(false, true); (true, true)] [(false, false); (true, true)] false 1 /\
  exists l, mapping_put t2_enc x2_enc (MapFrustum f) = Ok (l, true) /\ List.length l = 9%nat /\
    mapping_get lt2 Bool.eqb t2_dec x2_enc x2_dec false false false false (rev l) = Ok (Some (MapFrustum f)).
Proof.
  split; [intros t; cbn; tauto|]. split; [reflexivity|]. split; [reflexivity|]. eexists. split; [vm_compute; reflexivity|]. split; vm_compute; reflexivity.
Qed.
Example C60_example_matrix :
  let c := fold_left (matrix_op lt2 Bool.eqb false) [MSetAt true true; MSetAt false false; MSetAt true false; MSetAt false true] [] in
  c = [(false, true); (true, false)] /\
  exists l, mapping_put t2_enc x2_enc (MapMatrix c) = Ok (l, true) /\
    narrow l /\ mapping_get lt2 Bool.eqb t2_dec x2_enc x2_dec false false false false (rev l) = Ok (Some (MapMatrix c)).
Proof.
  split; [reflexivity|]. eexists. split; [vm_compute; reflexivity|]. split; [|vm_compute; reflexivity].
  intros n fl size dims d I. cbn [In] in I. repeat match goal with H : _ \/ _ |- _ => destruct H as [H|H] end; try discriminate; try contradiction;
    injection I as <- <- <- <- <-; (split; [reflexivity|]); (split; [congruence||reflexivity|intros [K|K]; (discriminate K || lia)]).
Qed.

(** A count of samples, a time or a distribution that takes 8 bytes goes past the variable. *)
Theorem C60_wide_refuted :
  let head c := [(str "mapping_type", VStr (str c))] in
  let get := mapping_get lt2 Bool.eqb t2_dec x2_enc x2_dec false false false false in
  get (head "MatrixFieldMapping"%string ++ [(str "num_time_samples", VNum false 8 [1%nat] (zeros 8))]) = UB /\
  get (head "MatrixFieldMapping"%string ++ [(str "num_time_samples", VNum false 4 [1%nat] (enc32 1)); (str "time_0", VNum true 8 [1%nat] (zeros 8))]) = UB /\
  get (head "FrustumFieldMapping"%string ++ [(str "z_distribution", VNum false 8 [1%nat] (zeros 8))]) = UB.
Proof. repeat split; vm_compute; reflexivity. Qed.
Print Assumptions C60_wide_refuted.

(** A mapping group without the count of samples is taken as a mapping without samples, even
    if the samples are there. *)
Theorem C60_no_count_refuted : forall T X ltb eqb t_dec x_enc x_dec (t0 : T) (ss0 cs0 x_id : X) l,
  find_by (str "mapping_type") l = Some (VStr (str "MatrixFieldMapping")) ->
  find_by (str "MatrixFieldMapping data") l = None -> find_by (str "num_time_samples") l = None ->
  mapping_get ltb eqb t_dec x_enc x_dec t0 ss0 cs0 x_id l = Ok (Some (MapMatrix [])).
Proof.
  intros T X ltb eqb td xe xd t0 ss0 cs0 xi l A B C. unfold mapping_get.
  rewrite (type_ok l (str "MatrixFieldMapping")); [|vm_compute; intuition discriminate|auto]. cbn [bind].
  assert (bytes_eqb (str "MatrixFieldMapping") (str "NullFieldMapping") = false) as -> by reflexivity. rewrite beq_refl.
  unfold matrix_get, num_samples, get_num. change (cstr (str "MatrixFieldMapping data")) with (str "MatrixFieldMapping data").
  change (cstr (str "num_time_samples")) with (str "num_time_samples"). rewrite B, C. reflexivity.
Qed.
Print Assumptions C60_no_count_refuted.
