(** Proofs about the cell values of MAC fields in floating point. *)
From Coq Require Import ZArith Reals List Bool Lia Lra.
From Flocq Require Import Core BinarySingleNaN.
From Verif Require Import Model.Base Model.VecM Model.MacM Model.FloatM Model.FloatMipM Model.FloatCentreM.
From Verif Require Import Spec.VoxelSpec Spec.MacSpec Spec.FloatMipSpec Spec.FloatCentreSpec.
From Verif Require Import Proof.BaseP Proof.MacP Proof.FloatP Proof.FloatP2 Proof.FloatMipP Proof.FloatMipP2 Proof.FloatMipP3.
Open Scope R_scope.

(** Half of a [float] is a [double]. *)
Lemma half_fmt x : vfmt VFloat x -> rd (x * / 2) = x * / 2.
Proof.
  intros F. apply round_generic; [typeclasses eauto|]. change (vfmt VFloat x) with (generic_format radix2 (FLT_exp (-149) 24) x) in F.
  apply FLT_format_generic in F; [|reflexivity]. destruct F as [f E M X]. apply generic_format_FLT.
  exists (Float radix2 (Fnum f) (Fexp f - 1)); cbn [Fnum Fexp].
  - rewrite E. unfold F2R. cbn [Fnum Fexp]. change (/ 2) with (bpow radix2 (-1)). rewrite Rmult_assoc, <- bpow_plus. reflexivity.
  - eapply Z.lt_trans; [exact M|]. reflexivity.
  - lia.
Qed.
Lemma sum_le t x y M : vfmt t M -> x <= M -> y <= M -> rnd (ct t) (x + y) / 2 <= M.
Proof.
  intros F X Y. assert (E : rnd (ct t) (2 * M) = 2 * M) by (apply rnd_fmt, double_fmt, fmt_ct; auto).
  assert (rnd (ct t) (x + y) <= rnd (ct t) (2 * M)) by (apply rnd_le; lra). lra.
Qed.
Lemma sum_ge t x y M : vfmt t M -> M <= x -> M <= y -> M <= rnd (ct t) (x + y) / 2.
Proof.
  intros F X Y. assert (E : rnd (ct t) (2 * M) = 2 * M) by (apply rnd_fmt, double_fmt, fmt_ct; auto).
  assert (rnd (ct t) (2 * M) <= rnd (ct t) (x + y)) by (apply rnd_le; lra). lra.
Qed.
Lemma mean_ok t (a b : val t) : good a -> good b -> is_finite (fc_mean t a b) = true /\ B2R (fc_mean t a b) = avg t (B2R a) (B2R b).
Proof.
  intros A B. destruct (two_fit t a b A B) as (Fi & _). destruct A as (FA & _). destruct B as (FB & _).
  destruct (up_ok t a FA) as (UA & VA). destruct (up_ok t b FB) as (UB & VB).
  destruct (vadd_ok (ct t) _ _ UA UB) as (SF & SV); [rewrite VA, VB; exact Fi|]. rewrite VA, VB in SV.
  unfold fc_mean. set (s := vadd (cast (ct t) a) (cast (ct t) b)) in *.
  destruct (widen_ok (ct t) s SF) as (WF & WV). rewrite SV in WV. set (w := widen (ct t) s) in *. destruct half_ok as (HF & HV).
  assert (TA := top_ge t a). assert (TB := top_ge t b). apply Rabs_le_inv in TA, TB.
  assert (L : - top t <= rnd (ct t) (B2R a + B2R b) / 2) by (apply sum_ge; [apply generic_format_opp, top_fmt|tauto|tauto]).
  assert (U : rnd (ct t) (B2R a + B2R b) / 2 <= top t) by (apply sum_le; [apply top_fmt|tauto|tauto]).
  set (r := rnd (ct t) (B2R a + B2R b)) in *.
  assert (TT : top t < bpow radix2 1024).
  { eapply Rlt_le_trans; [apply top_lt|]. apply bpow_le. destruct t; cbn; lia. }
  destruct (vmul_ok VDouble w f_half WF HF) as (MF & MV).
  { change (B2R (f_half : val VDouble)) with (B2R f_half). change (B2R (w : val VDouble)) with (B2R w). rewrite WV, HV. unfold fits. apply Rabs_le.
    assert (top t <= top VDouble).
    { destruct t; [..|lra]; (apply Rlt_le; eapply Rlt_le_trans; [apply top_lt|]; unfold top;
      assert (bpow radix2 (emax VDouble) = 2 * bpow radix2 1023) by (change (emax VDouble) with (1 + 1023)%Z; rewrite bpow_plus; reflexivity);
      assert (bpow radix2 (emax VDouble - prec VDouble) <= bpow radix2 1023) by (apply bpow_le; cbn; lia)).
      - assert (bpow radix2 (emax VHalf) <= bpow radix2 1023) by (apply bpow_le; cbn; lia). lra.
      - assert (bpow radix2 (emax VFloat) <= bpow radix2 1023) by (apply bpow_le; cbn; lia). lra. }
    lra. }
  change (vmul (w : val VDouble) (f_half : val VDouble)) with (fmul w f_half) in MF, MV.
  change (B2R (f_half : val VDouble)) with (B2R f_half) in MV. change (B2R (w : val VDouble)) with (B2R w) in MV. rewrite WV, HV in MV.
  set (m := fmul w f_half) in *.
  assert (FR : vfmt (ct t) r) by apply rnd_is.
  destruct t.
  - change (rnd VDouble (r * / 2)) with (rd (r * / 2)) in MV. rewrite half_fmt in MV by exact FR.
    assert (N : VHalf <> VDouble) by congruence.
    assert (0 <= spread (top VHalf)) by (unfold spread; pose proof eta_pos; pose proof u_small; pose proof (Rabs_pos (top VHalf)); nra).
    destruct (narrow_ok VHalf m N MF) as (P & Q); [change (B2R (m : val VDouble)) with (B2R m) in MV; rewrite MV; lra|].
    split; [exact P|]. rewrite Q. change (B2R (m : val VDouble)) with (B2R m) in MV. rewrite MV. reflexivity.
  - change (rnd VDouble (r * / 2)) with (rd (r * / 2)) in MV. rewrite half_fmt in MV by exact FR.
    assert (N : VFloat <> VDouble) by congruence.
    assert (0 <= spread (top VFloat)) by (unfold spread; pose proof eta_pos; pose proof u_small; pose proof (Rabs_pos (top VFloat)); nra).
    destruct (narrow_ok VFloat m N MF) as (P & Q); [change (B2R (m : val VDouble)) with (B2R m) in MV; rewrite MV; lra|].
    split; [exact P|]. rewrite Q. change (B2R (m : val VDouble)) with (B2R m) in MV. rewrite MV. unfold avg. cbn [ct].
    rewrite (rnd_fmt VFloat (rnd VFloat _)) by apply rnd_is. reflexivity.
  - split; [exact MF|]. eapply eq_trans; [exact MV|]. unfold avg. cbn [ct]. rewrite (rnd_fmt VDouble (rnd VDouble (_ / 2))) by apply rnd_is. reflexivity.
Qed.
Lemma mean_good t (a b : val t) : good a -> good b -> good (fc_mean t a b) /\ forall lo hi, lo <= B2R a <= hi -> lo <= B2R b <= hi -> lo <= B2R (fc_mean t a b) <= hi.
Proof.
  intros A B. destruct (mean_ok t a b A B) as (F & V).
  assert (L : Rmin (B2R a) (B2R b) <= B2R (fc_mean t a b)) by (rewrite V; apply avg_ge; [apply fmt_Rmin; apply fmt_val|apply Rmin_l|apply Rmin_r]).
  assert (U : B2R (fc_mean t a b) <= Rmax (B2R a) (B2R b)).
  { rewrite V. apply avg_le; [unfold Rmax; destruct (Rle_dec (B2R a) (B2R b)); apply fmt_val|apply Rmax_l|apply Rmax_r]. }
  split; [apply (good_between t a b); auto|]. intros lo hi X Y. split.
  - eapply Rle_trans; [|exact L]. apply Rmin_glb; tauto.
  - eapply Rle_trans; [exact U|]. apply Rmax_lub; tauto.
Qed.
Lemma prev_sub c p : v3_sub p (comp_axis c) = prev c p.
Proof. destruct c, p; unfold v3_sub, prev; cbn; f_equal; lia. Qed.
Lemma face_cases t dw (cells : component -> v3 -> val t) c p : box_nonempty dw -> is_face dw c p ->
  (in_box p dw /\ fc_face t dw cells c p = cells c p) \/ (in_box (prev c p) dw /\ fc_face t dw cells c p = cells c (prev c p)) \/
  (in_box p dw /\ in_box (prev c p) dw /\ fc_face t dw cells c p = fc_mean t (cells c p) (cells c (prev c p))).
Proof.
  intros NE I. unfold fc_face. rewrite prev_sub. unfold box_nonempty, is_face in *. destruct p as [i j k].
  destruct (Z.eqb_spec (along c (V3 i j k)) (along c (bmin dw))) as [E|E]; [left|right; destruct (Z.eqb_spec (along c (V3 i j k)) (along c (bmax dw) + 1)) as [E'|E']; [left|right]];
    unfold in_box, along, prev in *; destruct c; cbn [vx vy vz] in *; repeat split; auto; lia.
Qed.
Lemma face_good t dw (cells : component -> v3 -> val t) c p : box_nonempty dw -> is_face dw c p -> (forall q, beside dw c p q -> good (cells c q)) ->
  good (fc_face t dw cells c p) /\
  forall lo hi, (forall q, beside dw c p q -> lo <= B2R (cells c q) <= hi) -> lo <= B2R (fc_face t dw cells c p) <= hi.
Proof.
  intros NE I G. destruct (face_cases t dw cells c p NE I) as [(D & ->)|[(D & ->)|(D & D' & ->)]].
  - assert (Q : beside dw c p p) by (split; auto). split; auto.
  - assert (Q : beside dw c p (prev c p)) by (split; auto). split; auto.
  - assert (Q : beside dw c p p) by (split; auto). assert (Q' : beside dw c p (prev c p)) by (split; auto).
    destruct (mean_good t _ _ (G _ Q) (G _ Q')) as (A & B). split; auto.
Qed.
Lemma prev_next c p : prev c (next c p) = p.
Proof. destruct c, p; unfold prev, next; cbn; f_equal; lia. Qed.
Lemma cell_faces dw c p : in_box p dw -> is_face dw c p /\ is_face dw c (next c p).
Proof. unfold in_box, is_face. destruct p as [i j k]. destruct c; cbn [next vx vy vz]; lia. Qed.
Lemma back_good t dw (cells : component -> v3 -> val t) c p : box_nonempty dw -> in_box p dw -> (forall q, in_line dw c p q -> good (cells c q)) ->
  good (fc_center t (fc_face t dw cells) c p) /\
  forall lo hi, (forall q, in_line dw c p q -> lo <= B2R (cells c q) <= hi) -> lo <= B2R (fc_center t (fc_face t dw cells) c p) <= hi.
Proof.
  intros NE I G. unfold fc_center. rewrite next_add. destruct (cell_faces dw c p I) as (F1 & F2).
  assert (B1 : forall q, beside dw c p q -> in_line dw c p q) by (intros q (A & [B|B]); split; auto).
  assert (B2 : forall q, beside dw c (next c p) q -> in_line dw c p q) by (intros q (A & [B|B]); split; auto; rewrite prev_next in B; auto).
  destruct (face_good t dw cells c p NE F1) as (G1 & R1); [auto|]. destruct (face_good t dw cells c (next c p) NE F2) as (G2 & R2); [auto|].
  destruct (mean_good t _ _ G1 G2) as (A & B). split; [exact A|]. intros lo hi R. apply B; auto.
Qed.
