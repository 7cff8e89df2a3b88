(** C25: field mappings in a file. *)
From Coq Require Import ZArith List Bool String Lia Arith Permutation.
From Verif Require Import Model.Base Model.OgawaM Spec.OgawaSpec Model.OgM Spec.OgSpec Model.FieldIOM Spec.FieldIOSpec
  Model.FileM Spec.FileSpec Props.FileProps Model.CurveM Spec.CurveSpec Proof.CurveP Model.MappingIOM Spec.MappingIOSpec Proof.MappingIOP.
Import ListNotations.
Open Scope Z_scope.

(** Whatever calls were made on a matrix mapping, it holds, in order of time, the last
    matrix set at each time since it was last cleared. *)
Theorem C25_matrix_samples : forall T X ltb eqb (t0 : T) (ops : list (@mop T X)), ordered ltb eqb ->
  let samples := fold_left (matrix_op ltb eqb t0) ops [] in
  rising ltb samples /\ forall t m, In (t, m) samples <-> last_at eqb (matrix_history t0 ops) t = Some m.
Proof.
  intros T X ltb eqb t0 ops O samples. unfold samples. rewrite matrix_run_eq by auto. unfold curve_run.
  assert (R : rising ltb (fold_left (fun l s => add_sample ltb eqb (fst s) (snd s) l) (matrix_history t0 ops) [])).
  { apply (curve_rising ltb eqb O). constructor. }
  split; auto. intros t m. rewrite <- (value_in ltb eqb O) by auto. rewrite curve_value by auto. reflexivity.
Qed.
Print Assumptions C25_matrix_samples.

(** Written and read back, it holds the same samples. *)
Theorem C25_matrix_round_trip : forall T X ltb eqb t_enc t_dec x_enc x_dec (t0 : T) (ss0 cs0 : X) (ops : list (@mop T X)) group,
  ordered ltb eqb -> storable TFloat32 t_enc t_dec -> storable TMtx64 x_enc x_dec ->
  let samples := fold_left (matrix_op ltb eqb t0) ops [] in
  Z.of_nat (List.length samples) < 2 ^ 31 ->
  exists kids, mapping_kids t_enc x_enc (MapMatrix samples) = Ok kids /\
    mapping_read ltb eqb t_dec x_dec t0 ss0 cs0 (node_group group kids) = Ok (Some (MapMatrix samples)).
Proof.
  intros T X ltb eqb te td xe xd t0 ss0 cs0 ops group O ST SX samples N. eexists. split; [apply mentries_eq|].
  apply (matrix_round ltb eqb te td xe xd t0 ss0 cs0 O ST SX); auto. apply (C25_matrix_samples T X ltb eqb t0 ops O).
Qed.
Print Assumptions C25_matrix_round_trip.

(** So does a null mapping. *)
Theorem C25_null_round_trip : forall T X ltb eqb (t_enc : T -> bytes) t_dec (x_enc : X -> bytes) x_dec (t0 : T) (ss0 cs0 : X) group,
  exists kids, mapping_kids t_enc x_enc MapNull = Ok kids /\
    mapping_read ltb eqb t_dec x_dec t0 ss0 cs0 (node_group group kids) = Ok (Some MapNull).
Proof.
  intros. eexists. split; [reflexivity|]. unfold mapping_read.
  set (l := [EAttr (str "mapping_type") TString (str "NullFieldMapping"); EAttr (str "NullFieldMapping data") TString (str "NullFieldMapping has no data")]).
  change (node_group group _) with (node_group group (map written l)) at 1.
  assert (A : Forall (fun e => good_name (e_name e)) l) by (repeat constructor; vm_compute; try discriminate; intuition discriminate).
  assert (V : forall n ty v, In (EAttr n ty v) l -> value_ok ty v).
  { intros n ty v [H|[H|[]]]; injection H as <- <- <-; vm_compute; intuition discriminate. }
  rewrite get_eq; auto; [|vm_compute; intuition discriminate].
  cbn [bind lookup find is_attr e_name andb l]. rewrite FileP.beq_refl. cbn [bind Z.eqb type_code Pos.eqb]. rewrite FileP.beq_refl.
  change (node_group group _) with (node_group group (map written l)).
  rewrite get_eq; auto; vm_compute; intuition discriminate.
Qed.
Print Assumptions C25_null_round_trip.

(** Together with C23: a field whose mapping is null or has matrix samples comes back with a
    mapping identical to the one it was written with. *)
Theorem C25_layer_mapping : forall T X ltb eqb t_enc t_dec x_enc x_dec (t0 : T) (ss0 cs0 : X)
    ident map_ok (hp : nat -> @mapping T X) f0 calls f outcomes version globals w,
  ordered ltb eqb -> storable TFloat32 t_enc t_dec -> storable TMtx64 x_enc x_dec ->
  (forall r, match hp r with
             | MapNull => True
             | MapMatrix c => exists ops, c = fold_left (matrix_op ltb eqb t0) ops [] /\ Z.of_nat (List.length c) < 2 ^ 31
             | MapFrustum _ => False end) ->
  let map_kids m := match mapping_kids t_enc x_enc m with Ok k => k | _ => [] end in
  o_parts f0 = [] -> Forall usable calls -> Forall (fun w => map_ok (hp (w_ref w)) = true) calls ->
  write_all ident map_kids map_ok hp f0 calls = Ok (f, outcomes) ->
  In w (accepted calls outcomes) -> w_user w <> [] ->
  exists layers x m group, read_layers (file_tree version f globals) (w_user w) (w_layer w) = Ok layers /\ In x layers /\
    il_name x = w_user w /\ il_attr x = w_layer w /\ il_group x = node_group (w_layer w) (w_body w) /\
    il_map x = Some group /\ mapping_read ltb eqb t_dec x_dec t0 ss0 cs0 group = Ok (Some m) /\ ident (hp (w_ref w)) m = true.
Proof.
  intros T X ltb eqb te td xe xd t0 ss0 cs0 ident mo hp f0 calls f ocs version globals w O ST SX H mk E U MO W I NU.
  assert (Uw : usable w).
  { unfold accepted in I. apply in_map_iff in I as ((w', oc) & <- & I). apply filter_In in I as (I & _). apply in_combine_l in I.
    apply (proj1 (Forall_forall _ _) U); auto. }
  destruct (C23_layers_read _ ident mk mo hp f0 calls f ocs version globals (w_user w) (w_layer w) E U MO W NU) as (ls & src & R & Pm & F);
    [apply Uw|].
  assert (Is : In w src).
  { apply (Permutation_in _ (Permutation_sym Pm)). apply filter_In. split; auto. rewrite !FileP.beq_refl. reflexivity. }
  clear Pm. assert (Q : exists x, In x ls /\ reads_as ident mk hp x w).
  { clear -F Is. induction F; [destruct Is|]. destruct Is as [->|Is]; [exists x; split; [left|]; auto|].
    destruct (IHF Is) as (z & A & C). exists z; split; [right|]; auto. }
  destruct Q as (x & Ix & X1 & X2 & X3 & r & X4 & X5). exists ls, x, (hp r), (node_group (str "mapping") (mk (hp r))).
  do 6 (split; auto). split; auto. specialize (H r). unfold mk. destruct (hp r) as [|c|]; [| |tauto].
  - destruct (C25_null_round_trip T X ltb eqb te td xe xd t0 ss0 cs0 (str "mapping")) as (k & -> & A). auto.
  - destruct H as (ops & -> & N).
    destruct (C25_matrix_round_trip T X ltb eqb te td xe xd t0 ss0 cs0 ops (str "mapping") O ST SX N) as (k & -> & A). auto.
Qed.
Print Assumptions C25_layer_mapping.

(** * Frustum mappings *)

(** However a frustum mapping was built, if writing it returns then reading gives the
    default frustum: only the distribution of slices is kept. *)
Theorem C25_frustum_reads_default : forall T X ltb eqb t_enc t_dec x_enc x_dec (t0 : T) (ss0 cs0 : X) (ops : list (@fop T X)) group kids,
  ordered ltb eqb -> storable TFloat32 t_enc t_dec -> storable TMtx64 x_enc x_dec ->
  let f := fold_left (frustum_op ltb eqb t0 ss0 cs0) ops (fr_new ltb eqb t0 ss0 cs0) in
  in_int (last_dist ops) = true ->
  mapping_kids t_enc x_enc (MapFrustum f) = Ok kids ->
  mapping_read ltb eqb t_dec x_dec t0 ss0 cs0 (node_group group kids) =
    Ok (Some (MapFrustum (Fr [(t0, ss0)] [(t0, cs0)] true (last_dist ops)))).
Proof.
  intros T X ltb eqb te td xe xd t0 ss0 cs0 ops group kids O ST SX f N K.
  assert (Z0 : fr_z f = last_dist ops) by (unfold f, last_dist; rewrite fr_z_run; reflexivity).
  rewrite fentries_eq in K. destruct (Nat.leb _ _); [|discriminate]. injection K as <-.
  rewrite <- Z0. apply (frustum_round ltb eqb te td xe xd t0 ss0 cs0 ST SX). rewrite Z0. auto.
Qed.
Print Assumptions C25_frustum_reads_default.

(** Writing returns as long as every transform is set at the default time. *)
Theorem C25_frustum_write_partial : forall T X ltb eqb t_enc x_enc (t0 : T) (ss0 cs0 : X) (ops : list (@fop T X)),
  ordered ltb eqb -> only_at t0 ops ->
  exists kids, mapping_kids t_enc x_enc (MapFrustum (fold_left (frustum_op ltb eqb t0 ss0 cs0) ops (fr_new ltb eqb t0 ss0 cs0))) = Ok kids.
Proof.
  intros T X ltb eqb te xe t0 ss0 cs0 ops O A.
  destruct (run_single ltb eqb t0 ss0 cs0 O ops A _ (new_single ltb eqb t0 ss0 cs0)) as (a & b & E1 & E2).
  rewrite fentries_eq, E1, E2. eexists. reflexivity.
Qed.
Print Assumptions C25_frustum_write_partial.

(** A new frustum mapping given its transforms at any other time is written from beyond the
    end of the camera samples: the default screen sample was not cleared. *)
Theorem C25_frustum_write_refuted : forall T X ltb eqb t_enc x_enc (t0 t : T) (ss0 cs0 ss cs : X),
  ordered ltb eqb -> t <> t0 ->
  mapping_kids t_enc x_enc (MapFrustum (fold_left (frustum_op ltb eqb t0 ss0 cs0) [FSetAt t ss cs] (fr_new ltb eqb t0 ss0 cs0))) = UB.
Proof.
  intros T X ltb eqb te xe t0 t ss0 cs0 ss cs O N. rewrite fentries_eq.
  match goal with |- context [Nat.leb ?a ?b] => assert (Nat.leb a b = false) as -> end; auto.
  unfold fr_new, fr_reset. cbn [fold_left frustum_op]. unfold set_transforms. cbn [clear_curves fr_ss fr_cs fr_default fr_z].
  unfold add_sample. cbn. rewrite (eqb_neq' ltb eqb O) by auto. cbn. destruct (ltb t t0); reflexivity.
Qed.
Print Assumptions C25_frustum_write_refuted.

(** * A concrete instance *)
Definition t2_enc (b : bool) : bytes := [if b then 1 else 0; 0; 0; 0].
Definition t2_dec (l : bytes) : bool := nth 0 l 0 =? 1.
Definition x2_enc (b : bool) : bytes := (if b then 1 else 0) :: zeros 127.
Definition x2_dec (l : bytes) : bool := nth 0 l 0 =? 1.
Definition lt2 (a b : bool) : bool := negb a && b.
Lemma ordered2 : ordered lt2 Bool.eqb.
Proof. split; unfold lt2; [intros [] []|intros []|intros [] [] []|intros [] []]; cbn; try split; congruence. Qed.
Lemma storable2 : storable TFloat32 t2_enc t2_dec /\ storable TMtx64 x2_enc x2_dec.
Proof. split; (split; [discriminate|]); intros []; split; reflexivity. Qed.

Example C25_example :
  let ops := [MSetAt true false; MSetOnly true; MSetAt true true; MSetAt true false; MSetAt false true] in
  fold_left (matrix_op lt2 Bool.eqb false) ops [] = [(false, true); (true, false)] /\
  matrix_history false ops = [(false, true); (true, true); (true, false); (false, true)].
Proof. split; reflexivity. Qed.

(** A frustum whose matrices are not the default ones comes back changed. *)
Theorem C25_frustum_round_trip_refuted : exists ops kids f',
  let f := fold_left (frustum_op lt2 Bool.eqb false false false) ops (fr_new lt2 Bool.eqb false false false) in
  only_at false ops /\ mapping_kids t2_enc x2_enc (MapFrustum f) = Ok kids /\
  mapping_read lt2 Bool.eqb t2_dec x2_dec false false false (node_group (str "mapping") kids) = Ok (Some (MapFrustum f')) /\ f' <> f.
Proof.
  exists [FSetAt false true true; FDist 1]. eexists. exists (Fr [(false, false)] [(false, false)] true 1).
  split; [repeat constructor|]. split; [reflexivity|]. split; [vm_compute; reflexivity|vm_compute; discriminate].
Qed.
Print Assumptions C25_frustum_round_trip_refuted.
