(** C71: MIP levels as they are computed, with rounding. *)
From Coq Require Import ZArith Reals List Bool Lia Lra.
From Flocq Require Import Core BinarySingleNaN.
From Verif Require Import Model.Base Model.FilterM Model.FloatM Model.FloatMipM.
From Verif Require Import Spec.VoxelSpec Spec.FilterSpec Spec.MipSpec Spec.FloatMipSpec.
From Verif Require Import Proof.BaseP Proof.MipP4 Proof.FloatP2 Proof.FloatMipP Proof.FloatMipP2 Proof.FloatMipP3 Proof.FloatMipP4.
Open Scope R_scope.

Lemma held_eq {t} lo hi (r : res (val t)) x : held lo hi r -> r = Ok x -> lo <= B2R x <= hi.
Proof. intros (v & V & _ & B) E. rewrite V in E. injection E as ->. auto. Qed.

(** One level: a voxel of the next level is a number and lies within the range of the voxels beneath it, to the last bit;
    if there are none, it is zero.  In a field of [half] it is enough that these are numbers. *)
Theorem C71_level : forall t (value : v3 -> val t) add old p, pad_ok add -> tell_apart p ->
  (forall q, beneath add old p q -> addable (value q)) ->
  exists r, fm_level t default_width add old (fun q => Ok (value q)) p = Ok r /\ addable r /\
    (forall lo hi, (exists q, beneath add old p q) -> (forall q, beneath add old p q -> lo <= B2R (value q) <= hi) -> lo <= B2R r <= hi) /\
    ((forall q, ~ beneath add old p q) -> B2R r = 0).
Proof.
  intros t value add old p A P G. change default_width with w1.
  assert (X : exists B, 0 <= B /\ forall q, beneath add old p q -> - B <= B2R (value q) <= B).
  { exists (bpow radix2 (emax t)). split; [apply bpow_ge_0|]. intros q _. apply Rabs_le_inv, Rlt_le. apply abs_B2R_lt_emax. }
  destruct X as (B & B0 & HB).
  destruct (level_held t add old (fun q => Ok (value q)) p (- B) B A P) as (r & R & Gr & _); [|right; lra|].
  { intros q Q. exists (value q). split; auto. split; auto. apply good_addable; auto. }
  exists r. split; auto. split; [apply good_addable; auto|]. split.
  - intros lo hi Ex H. eapply held_eq; [|exact R]. apply level_held; auto. intros q Q. exists (value q). split; auto. split; auto. apply good_addable; auto.
  - intros N. assert (K : 0 <= B2R r <= 0); [|lra]. eapply held_eq; [|exact R]. apply level_held; auto; [|right; lra]. intros q Q. exfalso. eapply N; eauto.
Qed.
Print Assumptions C71_level.

(** Raising voxels never lowers the next level. *)
Theorem C71_monotone : forall t (v w : v3 -> val t) add old p r s, pad_ok add -> tell_apart p ->
  (forall q, beneath add old p q -> addable (v q) /\ addable (w q) /\ B2R (v q) <= B2R (w q)) ->
  fm_level t default_width add old (fun q => Ok (v q)) p = Ok r -> fm_level t default_width add old (fun q => Ok (w q)) p = Ok s -> B2R r <= B2R s.
Proof.
  intros t v w add old p r s A P H R S. change default_width with w1 in *.
  destruct (level_below t add old (fun q => Ok (v q)) (fun q => Ok (w q)) p A P) as (x & y & X & Y & _ & _ & L).
  { intros q Q. destruct (H q Q) as (V & W & L). exists (v q), (w q). repeat split; auto; apply good_addable; auto. }
  rewrite R in X. rewrite S in Y. injection X as ->. injection Y as ->. auto.
Qed.
Print Assumptions C71_monotone.

(** All levels of a field without offset: a voxel is within the range of the voxels of the base that it covers. *)
Theorem C71_levels : forall t (value : v3 -> val t) base l, res_ok base -> (l <= 25)%nat ->
  (forall q, in_box q (res_box base) -> addable (value q)) ->
  exists o v, fm_levels t default_width base (V3 0 0 0) value l = Ok (level_res base (V3 0 0 0) l, o, v) /\
    forall p, in_box p (res_box (level_res base (V3 0 0 0) l)) -> exists r, v p = Ok r /\ addable r /\
      forall lo hi, (forall q, in_box q (res_box base) -> covered l q p -> lo <= B2R (value q) <= hi) -> lo <= B2R r <= hi.
Proof.
  intros t value base l Rb L G. change default_width with w1. change (V3 0 0 0) with zero3.
  destruct (levels_held t base value Rb (fun q Q => proj2 (good_addable t (value q)) (G q Q)) l L) as (v & E & H).
  eexists. exists v. split; [exact E|]. intros p P.
  destruct (H p P (- bpow radix2 (emax t)) (bpow radix2 (emax t))) as (r & R & Gr & _).
  { intros q _ _. apply Rabs_le_inv, Rlt_le. apply abs_B2R_lt_emax. }
  exists r. split; auto. split; [apply good_addable; auto|]. intros lo hi K. eapply held_eq; [|exact R]. apply H; auto.
Qed.
Print Assumptions C71_levels.

(** So all levels of a constant field hold its value. *)
Theorem C71_constant : forall t (value : v3 -> val t) base l c, res_ok base -> (l <= 25)%nat ->
  (forall q, in_box q (res_box base) -> addable (value q) /\ B2R (value q) = c) ->
  exists o v, fm_levels t default_width base (V3 0 0 0) value l = Ok (level_res base (V3 0 0 0) l, o, v) /\
    forall p, in_box p (res_box (level_res base (V3 0 0 0) l)) -> exists r, v p = Ok r /\ is_finite r = true /\ B2R r = c.
Proof.
  intros t value base l c Rb L G. destruct (C71_levels t value base l Rb L) as (o & v & E & H); [intros q Q; apply G; auto|].
  exists o, v. split; auto. intros p P. destruct (H p P) as (r & R & (F & _) & B). exists r. split; auto. split; auto.
  destruct (B c c); [intros q Q _; destruct (G q Q) as (_ & ->); lra|lra].
Qed.
Print Assumptions C71_constant.

(** How far level [l] is from the level in exact arithmetic (C34). *)
Theorem C71_error : forall t (value : v3 -> val t) base l B, res_ok base -> (l <= 25)%nat ->
  (forall q, in_box q (res_box base) -> addable (value q) /\ Rabs (B2R (value q)) <= B) ->
  exists o v, fm_levels t default_width base (V3 0 0 0) value l = Ok (level_res base (V3 0 0 0) l, o, v) /\
    forall p, in_box p (res_box (level_res base (V3 0 0 0) l)) -> exists r, v p = Ok r /\ is_finite r = true /\
      Rabs (B2R r - level_val (fl_eval (box_filter 1)) base (V3 0 0 0) (fun q => B2R (value q)) l p) <= INR l * mip_rounding t B.
Proof.
  intros t value base l B Rb L G. change default_width with w1. change (V3 0 0 0) with zero3.
  destruct (levels_off t base value B Rb) with (l := l) as (v & E & H); auto.
  { intros q Q. destruct (G q Q). split; auto. apply good_addable; auto. }
  eexists. exists v. split; [exact E|]. intros p P. destruct (H p P) as (r & R & (F & _) & _ & D). exists r. auto.
Qed.
Print Assumptions C71_error.

(** ** What does not hold *)
Definition sf {p e} (r : res (binary_float p e)) : SpecFloat.spec_float := match r with Ok x => B2SF x | _ => SpecFloat.S754_nan end.
(** Two voxels of 2^127, which is half the range of a [float], average to infinity. *)
Theorem C71_overflow_refuted : exists (value : v3 -> val VFloat) old p r, (forall q, is_finite (value q) = true /\ B2R (value q) = 2 ^ 127) /\
  (exists q, beneath (V3 0 0 0) old p q) /\ tell_apart p /\
  fm_level VFloat default_width (V3 0 0 0) old (fun q => Ok (value q)) p = Ok r /\ r = B754_infinity false.
Proof.
  exists (fun _ => vnum VFloat 1 127), (V3 2 2 2), (V3 0 0 0), (B754_infinity false).
  split; [intros _; split; [reflexivity|]; rewrite pow_bpow; cbn; unfold F2R; cbn; lra|].
  split; [exists (V3 0 0 0); unfold beneath, in_box; cbn; lia|]. split; [unfold tell_apart; cbn; lia|]. split; [|reflexivity].
  set (e := fm_level _ _ _ _ _ _). assert (Q : sf e = SpecFloat.S754_infinity false) by (vm_compute; reflexivity).
  destruct e as [r| |]; [|discriminate..]. f_equal. apply B2SF_inj. exact Q.
Qed.
Print Assumptions C71_overflow_refuted.

(** The source position of voxel 2^23 is not a [float]: all voxels beneath it are one, but it reads another, which is
    zero. *)
Theorem C71_position_refuted : exists (value : v3 -> val VFloat) old p r, (forall q, addable (value q)) /\
  (exists q, beneath (V3 0 0 0) old p q) /\ (forall q, beneath (V3 0 0 0) old p q -> B2R (value q) = 1) /\
  fm_level VFloat default_width (V3 0 0 0) old (fun q => Ok (value q)) p = Ok r /\ B2R r = 0.
Proof.
  exists (fun q => if (vx q <? 2 ^ 24)%Z then B754_zero false else vnum VFloat 1 0), (V3 (2 ^ 24 + 2) 1 1), (V3 (2 ^ 23) 0 0), (B754_zero false).
  split; [|split; [|split; [|split; [|reflexivity]]]].
  - intros q. destruct (vx q <? 2 ^ 24)%Z; apply good_addable; [apply zero_good|]. split; [reflexivity|]. intros _. destruct w1_ok as (_ & E).
    change (vnum VFloat 1 0) with w1. rewrite E, Rabs_R1. apply (bpow_lt radix2 0 127). reflexivity.
  - exists (V3 (2 ^ 24) 0 0). unfold beneath, in_box. cbn. repeat split; try lia.
  - intros [i j k] (_ & X & _). cbn [vx] in *. destruct (Z.ltb_spec i (2 ^ 24)); [exfalso; Z.div_mod_to_equations; lia|]. apply w1_ok.
  - set (e := fm_level _ _ _ _ _ _). assert (Q : sf e = SpecFloat.S754_zero false) by (vm_compute; reflexivity).
    destruct e as [r| |]; [|discriminate..]. f_equal. apply B2SF_inj. exact Q.
Qed.
Print Assumptions C71_position_refuted.

(** ** Instances *)
(** Three voxels of [half]: 1, 2 and 5; the next level is 1.5 and 5. *)
Definition three (q : v3) : val VHalf := vnum VHalf (match vx q with 0 => 1 | 1 => 2 | _ => 5 end)%Z 0.
Example C71_ex : sf (fm_level VHalf default_width (V3 0 0 0) (V3 3 1 1) (fun q => Ok (three q)) (V3 0 0 0)) = SpecFloat.S754_finite false 1536 (-10) /\
  sf (fm_level VHalf default_width (V3 0 0 0) (V3 3 1 1) (fun q => Ok (three q)) (V3 1 0 0)) = SpecFloat.S754_finite false 1280 (-8) /\
  sf (fm_level VHalf default_width (V3 1 0 0) (V3 3 1 1) (fun q => Ok (three q)) (V3 1 0 0)) = SpecFloat.S754_finite false 1792 (-9).
Proof. repeat split; vm_compute; reflexivity. Qed.
Example C71_ex_hyps : pad_ok (V3 1 0 0) /\ tell_apart (V3 1 0 0) /\ res_ok (V3 3 1 1) /\ (forall q, addable (three q)) /\
  beneath (V3 1 0 0) (V3 3 1 1) (V3 1 0 0) (V3 2 0 0) /\ (forall q, ~ beneath (V3 0 0 0) (V3 3 1 1) (V3 2 0 0) q) /\ covered 1 (V3 2 0 0) (V3 1 0 0).
Proof.
  split; [unfold pad_ok; cbn; lia|]. split; [unfold tell_apart; cbn; lia|]. split; [unfold res_ok; cbn; lia|].
  split; [intros [[|[]|] j k]; split; auto; reflexivity|]. split; [unfold beneath, in_box; cbn; repeat split; lia|].
  split; [intros [i j k] ((X & _) & Y & _); cbn in *; Z.div_mod_to_equations; lia|]. unfold covered; cbn; auto.
Qed.
