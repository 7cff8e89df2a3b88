(** Rounding in cubic interpolation: operations, and four samples on a line. *)
From Coq Require Import ZArith Reals List Bool Lia Lra Psatz.
From Flocq Require Import Core BinarySingleNaN Relative Sterbenz.
From Verif Require Import Model.Base Model.VecM Model.RealM Model.InterpM Model.FloatM Model.FloatMipM Model.FloatCubicM.
From Verif Require Import Spec.VoxelSpec Spec.InterpSpec Spec.FloatSpec Spec.FloatCubicSpec.
From Verif Require Import Proof.BaseP Proof.RealP Proof.InterpP Proof.CubicP Proof.FloatP Proof.FloatP2 Proof.FloatMipP Proof.FloatMipP2.
Open Scope R_scope.

(** * Operations *)
Definition wider (t w : vtype) : Prop := (prec t <= prec w /\ emax t <= emax w)%Z.
Lemma wider_expr s t : wider t (expr s t).
Proof. destruct s, t; unfold wider; cbn; lia. Qed.
Lemma wider_ct t : wider t (ct t).
Proof. apply (wider_expr Scalar). Qed.
Lemma fmt_up t w x : wider t w -> vfmt t x -> vfmt w x.
Proof. intros (P & Q). apply (incl (prec t) (prec w) (3 - emax t - prec t) (3 - emax w - prec w)); destruct t, w; cbn in *; lia. Qed.
Lemma top_up t w : wider t w -> top t <= top w.
Proof.
  destruct t, w; unfold wider, top; cbn [prec emax]; intros (P & Q); try lia; try lra.
  - assert (bpow radix2 16 <= bpow radix2 127) by (apply bpow_le; lia). assert (bpow radix2 128 = 2 * bpow radix2 127) by (change 2 with (bpow radix2 1); rewrite <- bpow_plus; reflexivity).
    assert (bpow radix2 (128 - 24) <= bpow radix2 127) by (apply bpow_le; lia). pose proof (bpow_gt_0 radix2 (16 - 11)). lra.
  - assert (bpow radix2 16 <= bpow radix2 1023) by (apply bpow_le; lia). assert (bpow radix2 1024 = 2 * bpow radix2 1023) by (change 2 with (bpow radix2 1); rewrite <- bpow_plus; reflexivity).
    assert (bpow radix2 (1024 - 53) <= bpow radix2 1023) by (apply bpow_le; lia). pose proof (bpow_gt_0 radix2 (16 - 11)). lra.
  - assert (bpow radix2 128 <= bpow radix2 1023) by (apply bpow_le; lia). assert (bpow radix2 1024 = 2 * bpow radix2 1023) by (change 2 with (bpow radix2 1); rewrite <- bpow_plus; reflexivity).
    assert (bpow radix2 (1024 - 53) <= bpow radix2 1023) by (apply bpow_le; lia). pose proof (bpow_gt_0 radix2 (128 - 24)). lra.
Qed.
Lemma cast_up t w (x : val t) : wider t w -> is_finite x = true -> is_finite (cast w x) = true /\ B2R (cast w x) = B2R x.
Proof.
  intros W F. destruct (cast_ok t w x F) as (A & B).
  - unfold fits. eapply Rle_trans; [apply top_ge|]. apply top_up. auto.
  - split; auto. rewrite B. apply rnd_fmt. apply (fmt_up t); auto. apply fmt_val.
Qed.
Lemma fits_up t w x : wider t w -> fits t x -> fits w x.
Proof. unfold fits. intros W H. eapply Rle_trans; [exact H|]. apply top_up. auto. Qed.
(** The result of an operation of an expression of type [w]. *)
Definition r2 (w : vtype) (x : R) : R := rnd w (rnd (ct w) x).
Lemma r2_0 w : r2 w 0 = 0.
Proof. unfold r2. rewrite !rnd_0. auto. Qed.
Lemma fmt_r2 w x : vfmt w x -> r2 w x = x.
Proof. intros H. unfold r2. rewrite (rnd_fmt (ct w)) by (apply (fmt_up w); auto; apply wider_ct). apply rnd_fmt. auto. Qed.
Lemma rnd_ct_fits w x : fits w x -> fits w (rnd (ct w) x).
Proof. intros H. unfold fits. apply abs_round_le_generic; auto; try typeclasses eauto. apply (fmt_up w); [apply wider_ct|apply top_fmt]. Qed.
Lemma cast_r2 w (y : val (ct w)) z : is_finite y = true -> fits w z -> B2R y = rnd (ct w) z -> is_finite (cast w y) = true /\ B2R (cast w y) = r2 w z.
Proof.
  intros F Z E. destruct (cast_ok (ct w) w y F) as (A & B); [rewrite E; apply rnd_ct_fits; auto|]. split; auto. rewrite B, E. auto.
Qed.
Lemma wadd_ok w (x y : val w) : is_finite x = true -> is_finite y = true -> fits w (B2R x + B2R y) ->
  is_finite (wadd x y) = true /\ B2R (wadd x y) = r2 w (B2R x + B2R y).
Proof.
  intros X Y S. destruct (cast_up w (ct w) x (wider_ct w) X) as (XF & XV). destruct (cast_up w (ct w) y (wider_ct w) Y) as (YF & YV).
  destruct (vadd_ok (ct w) _ _ XF YF) as (A & B); [rewrite XV, YV; apply (fits_up w); auto; apply wider_ct|]. rewrite XV, YV in B. apply cast_r2; auto.
Qed.
Lemma wsub_ok w (x y : val w) : is_finite x = true -> is_finite y = true -> fits w (B2R x - B2R y) ->
  is_finite (wsub x y) = true /\ B2R (wsub x y) = r2 w (B2R x - B2R y).
Proof.
  intros X Y S. destruct (cast_up w (ct w) x (wider_ct w) X) as (XF & XV). destruct (cast_up w (ct w) y (wider_ct w) Y) as (YF & YV).
  destruct (vsub_ok (ct w) _ _ XF YF) as (A & B); [rewrite XV, YV; apply (fits_up w); auto; apply wider_ct|]. rewrite XV, YV in B. apply cast_r2; auto.
Qed.
Lemma wmul_ok w (x y : val w) : is_finite x = true -> is_finite y = true -> fits w (B2R x * B2R y) ->
  is_finite (wmul x y) = true /\ B2R (wmul x y) = r2 w (B2R x * B2R y).
Proof.
  intros X Y S. destruct (cast_up w (ct w) x (wider_ct w) X) as (XF & XV). destruct (cast_up w (ct w) y (wider_ct w) Y) as (YF & YV).
  destruct (vmul_ok (ct w) _ _ XF YF) as (A & B); [rewrite XV, YV; apply (fits_up w); auto; apply wider_ct|]. rewrite XV, YV in B. apply cast_r2; auto.
Qed.
Lemma fits_0 t : fits t 0.
Proof. unfold fits. rewrite Rabs_R0. eapply Rle_trans; [|apply (top_ge t (B754_zero false))]. apply Rabs_pos. Qed.
Lemma fits_val t (x : val t) : fits t (B2R x).
Proof. apply top_ge. Qed.
Lemma vconst w m e v : is_finite (vnum w m e) = true -> SF2R radix2 (B2SF (vnum w m e)) = v -> is_finite (vnum w m e) = true /\ B2R (vnum w m e) = v.
Proof. intros A B. split; auto. rewrite <- SF2R_B2SF. auto. Qed.
Lemma half_w w : is_finite (vnum w 1 (-1)) = true /\ B2R (vnum w 1 (-1)) = / 2.
Proof. destruct w; (split; [reflexivity|cbn; unfold F2R; cbn; lra]). Qed.
Lemma two_w w : is_finite (vnum w 2 0) = true /\ B2R (vnum w 2 0) = 2.
Proof. destruct w; (split; [reflexivity|cbn; unfold F2R; cbn; lra]). Qed.
Lemma three_w w : is_finite (vnum w 3 0) = true /\ B2R (vnum w 3 0) = 3.
Proof. destruct w; (split; [reflexivity|cbn; unfold F2R; cbn; lra]). Qed.

(** * The error of an operation or a store *)
Definition er (t : vtype) : R := 2 * unit t.
Definition ab (t : vtype) : R := 2 * tiny t.
Lemma er_pos t : 0 < er t <= / 1024.
Proof.
  unfold er, unit. split; [pose proof (bpow_gt_0 radix2 (- prec t)); lra|]. assert (bpow radix2 (- prec t) <= bpow radix2 (-11)) by (apply bpow_le; destruct t; cbn; lia).
  change (bpow radix2 (-11)) with (/ 2048) in H. lra.
Qed.
Lemma ab_pos t : 0 < ab t <= er t.
Proof.
  unfold er, ab, unit, tiny. split; [pose proof (bpow_gt_0 radix2 (2 - emax t - prec t)); lra|].
  assert (bpow radix2 (2 - emax t - prec t) <= bpow radix2 (- prec t)) by (apply bpow_le; destruct t; cbn; lia). lra.
Qed.
Lemma unit_up t w : wider t w -> unit w <= unit t.
Proof. intros (A & B). apply bpow_le. lia. Qed.
Lemma tiny_up t w : wider t w -> tiny w <= tiny t.
Proof. intros (A & B). apply bpow_le. lia. Qed.
Lemma rnd_er t x : Rabs (rnd t x - x) <= er t * Rabs x + ab t.
Proof.
  eapply Rle_trans; [apply rnd_err|]. unfold er, ab. pose proof (Rabs_pos x). assert (0 < unit t) by apply bpow_gt_0. assert (0 < tiny t) by apply bpow_gt_0. nra.
Qed.
Lemma r2_er w x : Rabs (r2 w x - x) <= er w * Rabs x + ab w.
Proof.
  destruct w; [|unfold r2; cbn [ct]; rewrite (rnd_fmt _ (rnd _ x)) by apply rnd_is; apply rnd_er ..].
  unfold r2. cbn [ct]. pose proof (rnd_err VFloat x) as A. set (y := rnd VFloat x) in *. pose proof (rnd_err VHalf y) as B. set (z := rnd VHalf y) in *.
  unfold er, ab. assert (U : unit VHalf = / 2048) by reflexivity. assert (T : tiny VHalf = / 33554432) by reflexivity.
  assert (U' : unit VFloat = / 16777216) by reflexivity. assert (T' : 0 < tiny VFloat <= / 67108864) by (split; [apply bpow_gt_0|apply (bpow_le radix2 (-150) (-26)); lia]).
  rewrite U, T, U' in *. set (k := tiny VFloat) in *. pose proof (Rabs_pos x). 
  assert (C : Rabs y <= Rabs x + Rabs (y - x)) by (replace y with (x + (y - x)) at 1 by ring; apply Rabs_triang).
  replace (z - x) with ((z - y) + (y - x)) by ring. eapply Rle_trans; [apply Rabs_triang|]. lra.
Qed.
Lemma er_up t w : wider t w -> er w <= er t.
Proof. intros H. unfold er. pose proof (unit_up t w H). lra. Qed.
Lemma ab_up t w : wider t w -> ab w <= ab t.
Proof. intros H. unfold ab. pose proof (tiny_up t w H). lra. Qed.
