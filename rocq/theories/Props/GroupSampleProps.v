(** C41: minimum and maximum of a query and the values samples have there. *)
From Coq Require Import ZArith Reals List Bool Lra Lia.
From Verif Require Import Model.Base Model.LoopM Model.RealM Model.VecM Model.MatM Model.CurveM Model.CoordM Model.MapM Model.RayM Model.GroupM Model.InterpM
  Spec.VoxelSpec Spec.CoordSpec Spec.MapSpec Spec.GroupSpec Spec.InterpSpec Proof.BaseP Proof.RealP Proof.CoordP Proof.GroupP
  Props.GroupProps Props.InterpProps.
Import ListNotations.
Open Scope R_scope.

(** Two voxels, 0 and 10, sampled by the interpolator of the library. *)
Definition ramp (v : v3) : R := 10 * IZR (vx v).
Definition ramp_dw : box := Box (V3 0 0 0) (V3 1 0 0).
Definition ramp_field (remap : option (R -> R)) : gfield :=
  GField (Wrapper (ANull (Frame (R3 0 0 0) (R3 1 1 1))) None) ramp_dw (RBox (R3 0 0 0) (R3 2 1 1)) ramp
    (fun p => match generic_sample ramp_dw (fun v => Ok (ramp v)) p with Ok x => x | _ => 0 end) remap.
Lemma same_visit g h q : g_wrap g = g_wrap h -> g_dw g = g_dw h -> visit_box g q = visit_box h q.
Proof. intros A D. unfold visit_box. rewrite A, D. reflexivity. Qed.
Lemma ramp_affine remap : affine_field (ramp_field remap).
Proof.
  pose proof (null_affine ramp_dw ramp) as A. unfold affine_field in *.
  assert (W : g_wrap (ramp_field remap) = g_wrap (null_field ramp_dw ramp)) by reflexivity. rewrite W. exact A.
Qed.
Lemma ramp_query remap x : 0 <= x < 1 -> let w := R3 x (1 / 2) (1 / 2) in
  group_min_max (Some (RBox w w)) [[ramp_field remap]] (100, -100) = Some (0, 0).
Proof.
  intros X w.
  assert (C : forall y, 0 <= y < 1 -> clamp_for_int y = 0%Z).
  { intros y Y. unfold clamp_for_int. destruct (rltb_spec y (IZR int_min)) as [L|_].
    { assert (IZR int_min <= 0) by (apply IZR_le; unfold int_min; lia). lra. }
    destruct (rltb_spec (IZR int_max) y) as [L|_]. { assert (1 <= IZR int_max) by (apply IZR_le; unfold int_max; lia). lra. }
    unfold rtrunc. destruct (rleb_spec 0 y); [|lra]. apply rfloor_unique. lra. }
  cbn [group_min_max min_max_vec].
  assert (V : visit_box (ramp_field remap) (Some (RBox w w)) = Some (Some (Box (V3 0 0 0) (V3 0 0 0)))).
  { rewrite (same_visit _ (null_field ramp_dw ramp)) by reflexivity.
    unfold w. rewrite (null_visit _ _ _ _ 0 0 0 0 0 0); cbn [rx ry rz]; try lra; try (apply C; lra). reflexivity. }
  rewrite V. change (box_voxels (Box (V3 0 0 0) (V3 0 0 0))) with [V3 0 0 0]. cbn [fold_left]. unfold min_max_one. cbn [fst snd].
  change (g_value (ramp_field remap) (V3 0 0 0)) with (10 * 0). replace (10 * 0) with 0 by ring. rewrite Rmin_left, Rmax_left by lra. reflexivity.
Qed.
Lemma ramp_sample remap x : 1 / 2 <= x <= 3 / 2 -> let w := R3 x (1 / 2) (1 / 2) in
  group_sample true w [ramp_field remap] 0 = match remap with Some f => f (10 * x - 5) | None => 10 * x - 5 end.
Proof.
  intros X w. unfold group_sample. cbn [fold_left]. unfold sample_one.
  assert (W : g_wrap (ramp_field remap) = g_wrap (null_field ramp_dw ramp)) by reflexivity. rewrite W, null_position.
  assert (B : rbox_has (g_bounds (ramp_field remap)) w = true) by (apply rbox_has_iff; unfold inside; cbn; lra).
  rewrite B. cbn [g_remap ramp_field g_sample fst snd].
  destruct (C27_affine ramp_dw (fun v => Ok (ramp v)) ramp w (-5) 10 0 0) as (_ & E).
  - intros q _. reflexivity.
  - unfold pos_ok, w. cbn [rx ry rz]. assert (2 ^ 1 <= 2 ^ 30) by (apply Rle_pow; [lra|lia]). lra.
  - unfold box_nonempty, ramp_dw. cbn. lia.
  - intros q _. unfold ramp, InterpSpec.affine, centre. cbn [rx ry rz]. field.
  - unfold between, centre, ramp_dw, w. cbn. lra.
  - rewrite E. unfold InterpSpec.affine, w. cbn [rx ry rz]. replace (-5 + 10 * x + 0 * (1 / 2) + 0 * (1 / 2)) with (10 * x - 5) by ring.
    destruct remap; ring.
Qed.
(** Near the border of a voxel, samples inside the query are not between the minimum and the
    maximum of the query: samples mix in the neighbours, the query does not look at them. *)
Theorem C41_sampled_refuted : exists g w, affine_field g /\ made g /\ in_query (Some (RBox w w)) w /\
  group_min_max (Some (RBox w w)) [[g]] (100, -100) = Some (0, 0) /\ group_sample true w [g] 0 = 4.
Proof.
  exists (ramp_field None), (R3 (9 / 10) (1 / 2) (1 / 2)). split; [apply ramp_affine|]. split.
  { unfold made, small_voxel. cbn [ramp_field g_dw g_bounds ramp_dw bmin bmax vx vy vz]. split; [|lia].
    reflexivity. }
  split; [unfold in_query, inside; cbn; lra|]. split; [apply ramp_query; lra|]. rewrite ramp_sample by lra. field.
Qed.
Print Assumptions C41_sampled_refuted.
(** And the operator that changes the sampled values is not applied to them: here at the
    centre of a voxel. *)
Theorem C41_remapped_refuted : exists g w, affine_field g /\ in_query (Some (RBox w w)) w /\
  group_min_max (Some (RBox w w)) [[g]] (100, -100) = Some (0, 0) /\ group_sample true w [g] 0 = 7.
Proof.
  exists (ramp_field (Some (fun x => x + 7))), (R3 (1 / 2) (1 / 2) (1 / 2)). split; [apply ramp_affine|].
  split; [unfold in_query, inside; cbn; lra|]. split; [apply ramp_query; lra|]. rewrite ramp_sample by lra. field.
Qed.
Print Assumptions C41_remapped_refuted.
