(** The fields made by [makeMinMax] bound the field they are made from. *)
From Coq Require Import ZArith Reals List Bool Lra Lia.
From Verif Require Import Model.Base Model.RealM Model.VecM Model.MatM Model.CurveM Model.CoordM Model.MapM Model.DenseM Model.OpsM
  Model.FilterM Model.MipM Model.CopyM Model.RayM Model.GroupM Model.MipMapM Model.MinMaxM
  Spec.VoxelSpec Spec.OpsSpec Spec.CoordSpec Spec.MapSpec Spec.GroupSpec Spec.FilterSpec Spec.MipSpec Spec.MipMapSpec Spec.MinMaxSpec
  Proof.BaseP Proof.OpsP Proof.MapP Proof.RealP Proof.CoordP Proof.ResampleP Proof.ResampleP2 Proof.MipP3 Proof.MipP4 Proof.MipExtP Proof.MinMaxP2.
Import ListNotations.
Open Scope R_scope.

Lemma distance_whole c n s t : (0 < c)%Z -> (0 < n)%Z -> (distance (c * n) n s t <= 1 / 2 <-> (s / c)%Z = t).
Proof.
  intros C N. unfold FilterSpec.distance. rewrite Z.min_r by nia. apply IZR_lt in C as C'. apply IZR_lt in N as N'. rewrite mult_IZR.
  replace ((IZR s + 1 / 2) / (IZR c * IZR n) - (IZR t + 1 / 2) / IZR n) with (IZR (2 * s + 1 - c * (2 * t + 1)) * / (2 * (IZR c * IZR n))).
  2: { rewrite minus_IZR, mult_IZR, !plus_IZR, !mult_IZR. field. lra. }
  rewrite Rabs_mult, (Rabs_right (/ _)).
  2: { apply Rle_ge. left. apply Rinv_0_lt_compat. nra. }
  rewrite <- abs_IZR. replace (_ * _ * IZR n) with (IZR (Z.abs (2 * s + 1 - c * (2 * t + 1))) / (2 * IZR c)) by (field; lra).
  assert (E : (s / c)%Z = t <-> (c * t <= s < c * t + c)%Z).
  { split; [intros <-; pose proof (Z.div_mod s c ltac:(lia)); pose proof (Z.mod_pos_bound s c C); lia|].
    intros B. symmetry. apply Z.div_unique with (s - c * t)%Z; lia. }
  rewrite E. split.
  - intros D. assert (L : IZR (Z.abs (2 * s + 1 - c * (2 * t + 1))) <= IZR c).
    { apply Rmult_le_reg_r with (/ (2 * IZR c)); [apply Rinv_0_lt_compat; lra|]. replace (IZR c * / (2 * IZR c)) with (1 / 2) by (field; lra). exact D. }
    apply le_IZR in L. lia.
  - intros B. assert (L : IZR (Z.abs (2 * s + 1 - c * (2 * t + 1))) <= IZR c) by (apply IZR_le; lia).
    unfold Rdiv. replace (1 * / 2) with (IZR c * / (2 * IZR c)) by (field; lra). apply Rmult_le_compat_r; auto.
    left. apply Rinv_0_lt_compat. lra.
Qed.
Lemma cell_div x v k : (0 < k)%Z -> IZR v <= x < IZR v + 1 -> IZR (v / k) <= x / IZR k < IZR (v / k) + 1.
Proof.
  intros K (A & B). apply IZR_lt in K as K'. pose proof (Z.div_mod v k ltac:(lia)) as D. pose proof (Z.mod_pos_bound v k K) as M.
  assert (L : IZR k * IZR (v / k) <= IZR v) by (rewrite <- mult_IZR; apply IZR_le; lia).
  assert (U : IZR v + 1 <= IZR k * (IZR (v / k) + 1)) by (rewrite <- plus_IZR, <- plus_IZR, <- mult_IZR; apply IZR_le; lia).
  split.
  - apply Rmult_le_reg_l with (IZR k); auto. replace (IZR k * (x / IZR k)) with x by (field; lra). lra.
  - apply Rmult_lt_reg_l with (IZR k); auto. replace (IZR k * (x / IZR k)) with x by (field; lra). lra.
Qed.
Lemma level_add_0 l : level_add 0 l = 0%Z.
Proof. apply level_add_zero. Qed.
Lemma levels_ok b l : res_ok b -> res_ok (level_res b (V3 0 0 0) l).
Proof.
  intros Rb. apply level_res_ok; auto. destruct Rb as (X & Y & Z). unfold le3, level_res. cbn [vx vy vz].
  assert (H : forall n, (1 <= n)%Z -> (level_size n 0 l <= n)%Z); [|repeat split; apply H; lia].
  intros n N. unfold level_size. rewrite level_add_0. pose proof (Z.pow_pos_nonneg 2 (Z.of_nat l) ltac:(lia) ltac:(lia)) as P.
  set (k := (2 ^ Z.of_nat l)%Z) in *. assert ((n + k - 1) / k < n + 1)%Z; [apply Z.div_lt_upper_bound; nia|lia].
Qed.
Lemma whole_le b n : (1 <= n)%Z -> whole b n -> (n <= b)%Z.
Proof. intros N (c & C & ->). nia. Qed.
Lemma min_max_axis_le n mult : (2 <= n)%Z -> (2 <= min_max_axis n mult <= n)%Z.
Proof.
  intros N. unfold min_max_axis. split; [lia|]. apply Z.max_lub; auto. apply IZR_le in N as N'.
  assert (L : IZR n * Rmin 1 mult <= IZR n) by (pose proof (Rmin_l 1 mult); nra). set (x := IZR n * Rmin 1 mult) in *. clearbody x.
  unfold rtrunc. destruct (rleb_spec 0 x).
  - apply le_IZR. pose proof (rfloor_spec x). lra.
  - pose proof (rceil_spec x) as C. apply le_IZR. assert (IZR (rceil x) < 1) by lra. lra.
Qed.

(** The levels and their mappings. *)
Section Fields.
Variables (k : kind) (h : list mat_op) (s : matmap) (m0 : m44) (b : v3) (os : option m44).
Hypotheses (H : mat_run mat_init h = Ok s) (EX : extents_of h = res_box b) (NE : samples_of h <> []) (ST : steady h)
  (I0 : interpolates h 0 m0) (IV : invertible m0) (Rb : res_ok b) (A0 : affine_map (AMatrix s)).
Lemma level_fields_ok (fs : list (fld (V := R) k)) : forall i, (0 <= i)%Z ->
  (forall f, In f fs -> exists r, res_ok r /\ f_ext f = res_box r) ->
  exists gs, level_fields (MapMatrix s) os i fs = Some (Ok gs) /\ length gs = length fs /\
    forall j g, nth_error gs j = Some g -> exists f n, nth_error fs j = Some f /\ g = level_field (MapMatrix n) os f /\
      affine_map (AMatrix n) /\ forall w q, m_world_to_voxel0 s w = Some q -> m_world_to_voxel0 n w = Some (half3 (i + Z.of_nat j) q).
Proof.
  induction fs as [|f fs IH]; intros i L R.
  - exists []. split; [reflexivity|]. split; auto. intros [|j] g E; discriminate.
  - destruct (IH (i + 1)%Z) as (gs & E & Le & G); [lia|intros; apply R; cbn; auto|]. cbn [level_fields]. rewrite E.
    assert (N : exists n, (if (i =? 0)%Z then Some (Ok (MapMatrix s)) else level_mapping (MapMatrix s) (V3 0 0 0) (f_ext f) i) = Some (Ok (MapMatrix n)) /\
      affine_map (AMatrix n) /\ forall w q, m_world_to_voxel0 s w = Some q -> m_world_to_voxel0 n w = Some (half3 i q)).
    { destruct (Z.eqb_spec i 0) as [->|I].
      - exists s. split; auto. split; auto. intros w q Q. rewrite Q. unfold half3. change (2 ^ 0)%Z with 1%Z. destruct q as [x y z]. cbn [rx ry rz].
        f_equal. f_equal; field.
      - destruct (R f (or_introl eq_refl)) as (r & Rr & ->). apply (coarser h s m0 b r i); auto. }
    destruct N as (n & -> & An & Pn). cbn [bind]. exists (level_field (MapMatrix n) os f :: gs). split; [reflexivity|].
    split; [cbn; auto|]. intros [|j] g Ej; cbn [nth_error] in *.
    + injection Ej as <-. exists f, n. rewrite Z.add_0_r. auto.
    + destruct (G j g Ej) as (f' & n' & F1 & F2 & F3 & F4). exists f', n'. replace (i + Z.of_nat (S j))%Z with (i + 1 + Z.of_nat j)%Z by lia. auto.
Qed.
End Fields.

Section Extreme.
Variables (op : R -> R -> R) (rel : R -> R -> Prop) (top : R).
Hypotheses (rel_refl : forall a, rel a a) (rel_trans : forall a b c, rel a b -> rel b c -> rel a c)
  (op_l : forall a b, rel (op a b) a) (op_r : forall a b, rel (op a b) b) (op_or : forall a b, op a b = a \/ op a b = b).
Variable inside : R -> Prop.
Hypothesis top_out : forall a, inside a -> op top a = a /\ a <> top.

(** What [makeMinMax] makes, whatever the resolutions: [x] are the extents of the mapping. *)
Lemma make_extreme_levels k flt (base : fld (V := R) k) b x v mult n sched fuel h s m0 os :
  ext_kind op top flt 1 -> (0 < n)%nat -> holds base (res_box b) v -> (forall q, in_box q (res_box b) -> inside (v q)) ->
  res_ok b -> solid b -> fits_new k (res_box b) -> (25 <= fuel)%nat ->
  mat_run mat_init h = Ok s -> extents_of h = res_box x -> res_ok x -> samples_of h <> [] -> steady h -> interpolates h 0 m0 -> invertible m0 ->
  (forall o, os = Some o -> invertible o /\ no_perspective o) ->
  let new := min_max_res b mult in
  exists fs gs u, make_extreme fuel flt base mult n sched = Some (Ok (Some fs)) /\ min_max_fields (MapMatrix s) os fs = Some (Ok gs) /\
    (exists m, length gs = S m /\ depth new (V3 0 0 0) 2 m) /\
    (forall p, in_box p (res_box new) ->
      (exists q, in_box q (res_box b) /\ in_footprint 1 b new q p /\ u p = v q) /\
      (forall q, in_box q (res_box b) -> in_footprint 1 b new q p -> rel (u p) (v q))) /\
    forall l g, nth_error gs l = Some g -> affine_field g /\ w_os (g_wrap g) = os /\ g_dw g = res_box (level_res new (V3 0 0 0) l) /\
      (forall w q, m_world_to_voxel0 s w = Some q -> a_world_to_voxel (w_map (g_wrap g)) w = Some (half3 (Z.of_nat l) (part3 new x q))) /\
      forall p, in_box p (g_dw g) -> (exists q, in_box q (res_box new) /\ covered l q p /\ g_value g p = u q) /\
        (forall q, in_box q (res_box new) -> covered l q p -> rel (g_value g p) (u q)).
Proof.
  intros K N Hb In' Rb Sb Fb Lf Hr EX Rx NE ST I0 IV Os new. unfold make_extreme.
  assert (Dw : f_dw base = res_box b) by apply Hb. rewrite Dw, box_size_res by auto. fold new.
  assert (Le : (2 <= vx new <= vx b /\ 2 <= vy new <= vy b /\ 2 <= vz new <= vz b)%Z).
  { destruct Sb as (? & ? & ?). unfold new, min_max_res. cbn [vx vy vz]. repeat split; apply min_max_axis_le; auto. }
  clearbody new.
  assert (Rn : res_ok new) by (destruct Rb as (? & ? & ?); unfold res_ok; lia).
  destruct (inv_new (0 : R)%R (0 : R)%R k) as (t & -> & It & Ft). cbn [bind].
  destruct (resample_ext op rel top rel_refl rel_trans op_l op_r op_or inside top_out k flt 1 base t b new v) as (t' & u & -> & It' & Xt & Ft' & Ht & U); auto.
  { apply Ft. apply fits_new_mono with b; auto; [destruct Rb as (? & ? & ?); unfold res_ok; cbn; lia|unfold le3; cbn; lia]. }
  { apply fits_new_mono with b; auto; [destruct Rb as (? & ? & ?); unfold res_ok; cbn; lia|unfold le3; cbn; lia]. }
  { apply Ft. apply fits_new_mono with b; auto. unfold le3; cbn; lia. }
  cbn [bind].
  assert (Uin : forall q, in_box q (res_box new) -> inside (u q)).
  { intros q Q. destruct (U q Q) as ((q0 & Q0 & _ & ->) & _). auto. }
  destruct (make_mip_ext op rel top rel_refl rel_trans op_l op_r op_or inside top_out k flt t' new u 2 n sched fuel) as (fs & m & E & De & Len & Lv); auto.
  { apply fits_new_mono with b; auto. unfold le3; lia. }
  unfold zero3 in E. exists fs.
  assert (Xf : forall f, In f fs -> exists r, res_ok r /\ f_ext f = res_box r).
  { intros f F. apply In_nth_error in F. destruct F as (l & F). destruct (Lv l f F) as (X & _). eexists. split; [|exact X]. apply levels_ok; auto. }
  destruct fs as [|f0 fs0] eqn:Efs; [discriminate|]. rewrite <- Efs in *.
  assert (X0 : f_ext f0 = res_box new).
  { destruct (Lv O f0) as (X & _); [rewrite Efs; reflexivity|]. rewrite X. f_equal. apply level_res_0. }
  destruct (finest h s m0 x new) as (s' & M & Hs' & As' & Ps'); auto.
  destruct (level_fields_ok k (h ++ [MExtents (res_box new)]) s' m0 new os) with (fs := fs) (i := 0%Z) as (gs & G1 & G2 & G3); auto.
  all: try (rewrite samples_extents; auto); try (apply extents_extents); try (apply steady_extents; auto); try (apply interpolates_extents; auto); try lia.
  exists gs, u. split; [exact E|]. split.
  { unfold min_max_fields. rewrite Efs at 1. rewrite X0, M. exact G1. }
  split; [exists m; split; [lia|exact De]|]. split; auto.
  intros l g Eg. destruct (G3 l g Eg) as (f & nn & Ef & -> & An & Pn).
  destruct (Lv l f Ef) as (Xf' & Df' & Vf). split; [split; [exact An|exact Os]|]. split; [reflexivity|].
  split; [cbn [level_field g_dw]; rewrite Df'; exact Xf'|]. split.
  { intros w q Q. cbn [level_field g_wrap w_map as_any a_world_to_voxel]. apply (Pn w _ (Ps' w q Q)). }
  intros p P. cbn [level_field g_dw g_value] in *. destruct (Vf p P) as (y & Gy & Ay & By). rewrite Gy. split; auto.
Qed.

Lemma make_extreme_ok k flt (base : fld (V := R) k) b v mult n sched fuel h s m0 os g0 :
  ext_kind op top flt 1 -> (0 < n)%nat -> holds base (res_box b) v -> (forall q, in_box q (res_box b) -> inside (v q)) ->
  res_ok b -> solid b -> fits_new k (res_box b) -> whole_voxels b (min_max_res b mult) -> (25 <= fuel)%nat ->
  mat_run mat_init h = Ok s -> extents_of h = res_box b -> samples_of h <> [] -> steady h -> interpolates h 0 m0 -> invertible m0 ->
  (forall o, os = Some o -> invertible o /\ no_perspective o) ->
  g_wrap g0 = Wrapper (AMatrix s) os -> g_dw g0 = res_box b -> (forall q, in_box q (res_box b) -> g_value g0 q = v q) ->
  exists fs gs, make_extreme fuel flt base mult n sched = Some (Ok (Some fs)) /\ min_max_fields (MapMatrix s) os fs = Some (Ok gs) /\
    prefilters rel g0 gs /\ (let new := min_max_res b mult in (vx new = vy new -> vy new = vz new -> ends_small gs) /\
      (~ (2 < vx new /\ 2 < vy new /\ 2 < vz new)%Z -> exists g, gs = [g] /\ g_dw g = res_box new)).
Proof.
  intros K N Hb In' Rb Sb Fb Wh Lf Hr EX NE ST I0 IV Os Wg Dg Vg.
  destruct (make_extreme_levels k flt base b b v mult n sched fuel h s m0 os K N Hb In' Rb Sb Fb Lf Hr EX Rb NE ST I0 IV Os)
    as (fs & gs & u & E1 & E2 & (m & Len & De) & U & Lv).
  set (new := min_max_res b mult) in *.
  assert (Le : (2 <= vx new <= vx b /\ 2 <= vy new <= vy b /\ 2 <= vz new <= vz b)%Z).
  { destruct Sb as (? & ? & ?). unfold new, min_max_res. cbn [vx vy vz]. repeat split; apply min_max_axis_le; auto. }
  clearbody new.
  assert (Rn : res_ok new) by (destruct Rb as (? & ? & ?); unfold res_ok; lia).
  exists fs, gs. split; auto. split; auto. split.
  2: { intros n'. subst n'. split.
    2: { intros Th. destruct m as [|m]; [|destruct De as (De & _); specialize (De O ltac:(lia)); rewrite level_res_0 in De; unfold continues in De; tauto].
      destruct gs as [|g [|]]; try discriminate. exists g. split; auto. destruct (Lv O g eq_refl) as (_ & _ & -> & _). f_equal. apply level_res_0. }
    intros Exy Eyz. destruct (exists_last (l := gs)) as (r & g & ->); [intros ->; discriminate|]. exists r, g. split; auto.
    rewrite app_length in Len. cbn [length] in Len. assert (Er : length r = m) by lia.
    destruct (Lv m g) as (_ & _ & -> & _); [rewrite nth_error_app2 by lia; rewrite Er, Nat.sub_diag; reflexivity|].
    destruct De as (_ & De). unfold continues in De. unfold res_box, level_res in *. cbn [vx vy vz bmin bmax] in *. rewrite Exy, Eyz in De. rewrite Exy, Eyz. lia. }
  split; [intros ->; discriminate|].
  intros g Ig. apply In_nth_error in Ig. destruct Ig as (l & Eg). destruct (Lv l g Eg) as (Ag & Og & Xg & Pg & Vf). split; auto.
  assert (FP : forall q p, in_footprint 1 b new q p <->
    exists cx cy cz, ((0 < cx /\ vx b = cx * vx new) /\ (0 < cy /\ vy b = cy * vy new) /\ (0 < cz /\ vz b = cz * vz new) /\
      vx q / cx = vx p /\ vy q / cy = vy p /\ vz q / cz = vz p)%Z).
  { intros q p. unfold in_footprint. split.
    - intros (A & B & C). destruct Wh as ((cx & Cx & Ex) & (cy & Cy & Ey) & (cz & Cz & Ez)). exists cx, cy, cz. 
      rewrite Ex in A. rewrite Ey in B. rewrite Ez in C. apply distance_whole in A, B, C; try lia.
    - intros (cx & cy & cz & (Cx & Ex) & (Cy & Ey) & (Cz & Ez) & A & B & C). rewrite Ex, Ey, Ez. repeat split; apply distance_whole; auto; lia. }
  split.
  - intros v0 w V0 N0 (q & Q & Cq). rewrite Dg in V0. rewrite Wg in Q.
    destruct Wh as ((cx & Cx & Ex) & (cy & Cy & Ey) & (cz & Cz & Ez)).
    set (q1 := V3 (vx v0 / cx) (vy v0 / cy) (vz v0 / cz)).
    assert (B1 : in_box q1 (res_box new)).
    { unfold q1, in_box, res_box in *. cbn [bmin bmax vx vy vz] in *. destruct V0 as (? & ? & ?).
      assert (D : forall x c nn, (0 < c)%Z -> (0 <= x <= c * nn - 1)%Z -> (0 <= x / c <= nn - 1)%Z).
      { intros x c n' C B. split; [apply Z.div_pos; lia|]. assert (x / c < n')%Z; [apply Z.div_lt_upper_bound; lia|lia]. }
      split; [|split]; apply D; lia. }
    destruct (U q1 B1) as (_ & U1). specialize (U1 v0 V0). destruct Cq as (Cqx & Cqy & Cqz).
    assert (F1 : in_footprint 1 b new v0 q1) by (apply FP; exists cx, cy, cz; repeat split; auto).
    specialize (U1 F1).
    set (u1 := V3 (vx q1 / 2 ^ Z.of_nat l) (vy q1 / 2 ^ Z.of_nat l) (vz q1 / 2 ^ Z.of_nat l)).
    assert (B2 : in_box u1 (g_dw g)).
    { rewrite Xg. unfold u1, in_box, res_box, level_res. cbn [bmin bmax vx vy vz]. unfold in_box, res_box in B1. cbn [bmin bmax vx vy vz] in B1.
      split; [|split]; apply level_size_div; lia. }
    destruct (Vf u1 B2) as (_ & Bx). exists u1. split; [exact B2|].
    assert (B3 := B2). rewrite Xg in B3. pose proof (levels_ok new l Rn) as Rl. split.
    { unfold natural_voxel, int_voxel, int_min, int_max. unfold in_box, res_box in B3. cbn [bmin bmax] in B3. cbn [vx vy vz] in B3 |- *.
      destruct Rl as (? & ? & ?). cbn [u1 vx vy vz] in *. lia. }
    split.
    { unfold at_voxel, voxel_position in *. unfold to_object in *. rewrite Og. cbn [w_os w_map] in Q.
      match type of Q with match ?e with _ => _ end = _ => destruct e as [w'|]; [|discriminate] end. cbn [a_world_to_voxel] in Q.
      eexists. split; [exact (Pg w' q Q)|].
      unfold in_cell, half3, part3, part, u1, q1. cbn [rx ry rz vx vy vz]. rewrite Ex, Ey, Ez.
      assert (Pp : forall c n' x y, (0 < c)%Z -> (0 < n')%Z -> IZR y <= x < IZR y + 1 ->
        IZR (y / c / 2 ^ Z.of_nat l) <= x * IZR n' / IZR (c * n') / IZR (2 ^ Z.of_nat l) < IZR (y / c / 2 ^ Z.of_nat l) + 1).
      { intros c n' x y C N' B. apply cell_div; [apply Z.pow_pos_nonneg; lia|].
        rewrite mult_IZR. apply IZR_lt in C as C'. apply IZR_lt in N'. replace (x * IZR n' / (IZR c * IZR n')) with (x / IZR c) by (field; lra).
        apply cell_div; auto. }
      split; [|split]; apply Pp; auto; lia. }
    rewrite Vg by auto. apply rel_trans with (u q1); auto. apply Bx; auto. unfold covered, u1. auto.
  - intros u1 B2. destruct (Vf u1 B2) as ((q1 & B1 & _ & ->) & _).
    destruct (U q1 B1) as ((q0 & B0 & _ & ->) & _). exists q0. rewrite Dg. split; auto. symmetry. apply Vg; auto.
Qed.
End Extreme.
