(** C88: the levels of MIP fields of vectors as they are computed, with rounding. *)
From Coq Require Import ZArith Reals List Bool Lia Lra.
From Flocq Require Import Core BinarySingleNaN.
From Verif Require Import Model.Base Model.FilterM Model.FloatM Model.FloatMipM Model.FloatMipVecM.
From Verif Require Import Spec.VoxelSpec Spec.FilterSpec Spec.MipSpec Spec.FloatMipSpec Spec.FloatMipVecSpec.
From Verif Require Import Proof.BaseP Proof.FloatP2 Proof.FloatMipP Proof.FloatMipP2 Proof.FloatMipP3 Proof.FloatCubicP Proof.FloatMipVecP.
Open Scope R_scope.

Lemma vheld_eq {t} lo hi (r : res (val t)) x : vheld lo hi r -> r = Ok x -> lo <= B2R x <= hi.
Proof. intros (v & V & _ & B) E. rewrite V in E. injection E as ->. auto. Qed.

(** One level: if two components may be added without overflow, a component of the next level is such a number and lies
    within the range of those beneath it, to the last bit; if there are none, it is zero. *)
Theorem C88_level : forall t (value : v3 -> val t) add old p, pad_ok add -> tell_apart p ->
  (forall q, beneath add old p q -> addable_in (value q)) ->
  exists r, fv_level t default_width add old (fun q => Ok (value q)) p = Ok r /\ addable_in r /\
    (forall lo hi, (exists q, beneath add old p q) -> (forall q, beneath add old p q -> lo <= B2R (value q) <= hi) -> lo <= B2R r <= hi) /\
    ((forall q, ~ beneath add old p q) -> B2R r = 0).
Proof.
  intros t value add old p A P G. change default_width with w1.
  assert (X : exists B, 0 <= B /\ forall q, beneath add old p q -> - B <= B2R (value q) <= B).
  { exists (bpow radix2 (emax t)). split; [apply bpow_ge_0|]. intros q _. apply Rabs_le_inv, Rlt_le. apply abs_B2R_lt_emax. }
  destruct X as (B & B0 & HB).
  destruct (vlevel_held t add old (fun q => Ok (value q)) p (- B) B A P) as (r & R & Gr & _); [|right; lra|].
  { intros q Q. exists (value q). split; auto. split; auto. apply vgood_addable; auto. }
  exists r. split; auto. split; [apply vgood_addable; auto|]. split.
  - intros lo hi Ex H. eapply vheld_eq; [|exact R]. apply vlevel_held; auto. intros q Q. exists (value q). split; auto. split; auto. apply vgood_addable; auto.
  - intros N. assert (K : 0 <= B2R r <= 0); [|lra]. eapply vheld_eq; [|exact R]. apply vlevel_held; auto; [|right; lra]. intros q Q. exfalso. eapply N; eauto.
Qed.
Print Assumptions C88_level.

(** A field of one value keeps it. *)
Theorem C88_constant : forall t (c : val t) add old p, pad_ok add -> tell_apart p -> addable_in c -> (exists q, beneath add old p q) ->
  exists r, fv_level t default_width add old (fun _ => Ok c) p = Ok r /\ is_finite r = true /\ B2R r = B2R c.
Proof.
  intros t c add old p A P G Ex. destruct (C88_level t (fun _ => c) add old p A P) as (r & R & (F & _) & H & _); [auto|].
  exists r. split; auto. split; auto. destruct (H (B2R c) (B2R c) Ex); [intros; lra|lra].
Qed.
Print Assumptions C88_constant.

(** Vectors of float and double are filtered bit for bit as scalars are, whatever the width of the filter, so that all of C71
    holds of them. *)
Theorem C88_scalar : forall t width add old (value : v3 -> res (val t)) p, t <> VHalf ->
  fv_level t width add old value p = fm_level t width add old value p.
Proof. intros. apply level_scalar. auto. Qed.
Print Assumptions C88_scalar.

(** Two voxels side by side give their mean: exactly, if the sum and the mean are numbers of the component type. *)
Theorem C88_mean : forall t (value : v3 -> val t) n i (sum mean : val t), (0 <= i < 2 ^ 23)%Z -> (2 * i + 1 < n)%Z ->
  addable_in (value (V3 (2 * i) 0 0)) -> addable_in (value (V3 (2 * i + 1) 0 0)) ->
  B2R sum = B2R (value (V3 (2 * i) 0 0)) + B2R (value (V3 (2 * i + 1) 0 0)) -> B2R mean = B2R sum / 2 ->
  exists r, fv_level t default_width (V3 0 0 0) (V3 n 1 1) (fun q => Ok (value q)) (V3 i 0 0) = Ok r /\ is_finite r = true /\ B2R r = B2R mean.
Proof.
  intros t value n i sum mean I N G G' S M. apply vgood_addable in G, G'. destruct (vlevel_pair t value n i I N G G') as (r & R & F & E).
  exists r. split; auto. split; auto. rewrite E. unfold vavg. rewrite <- S, (fmt_r2 t (B2R sum)) by apply fmt_val. rewrite <- M. apply fmt_r2, fmt_val.
Qed.
Print Assumptions C88_mean.

(** Without that premise it fails: two vectors of [half] of the same finite value have an infinite average.  In a field of
    [half] itself the average is that value (C71). *)
Definition h40000 : val VHalf := vnum VHalf 40000 0.
Definition msf {t} (r : res (val t)) : SpecFloat.spec_float := match r with Ok x => B2SF x | _ => SpecFloat.S754_nan end.
Lemma msf_inf {t} (r : res (val t)) b : msf r = SpecFloat.S754_infinity b -> exists x, r = Ok x /\ is_finite x = false.
Proof. destruct r as [x| |]; cbn; try discriminate. intros H. exists x. split; auto. destruct x; try discriminate; reflexivity. Qed.
Lemma msf_fin {t} (r : res (val t)) (c : val t) : msf r = B2SF c -> is_finite c = true -> r = Ok c.
Proof. destruct r as [x| |]; cbn; intros H F; [f_equal; apply B2SF_inj; auto|destruct c; discriminate|destruct c; discriminate]. Qed.
Theorem C88_half_overflow_refuted : exists (c : val VHalf) add old p, is_finite c = true /\ pad_ok add /\ tell_apart p /\ (exists q, beneath add old p q) /\
  (exists r, fv_level VHalf default_width add old (fun _ => Ok c) p = Ok r /\ is_finite r = false) /\
  fm_level VHalf default_width add old (fun _ => Ok c) p = Ok c.
Proof.
  assert (A : msf (fv_level VHalf default_width (V3 0 0 0) (V3 2 1 1) (fun _ => Ok h40000) (V3 0 0 0)) = SpecFloat.S754_infinity false) by (vm_compute; reflexivity).
  assert (B : msf (fm_level VHalf default_width (V3 0 0 0) (V3 2 1 1) (fun _ => Ok h40000) (V3 0 0 0)) = B2SF h40000) by (vm_compute; reflexivity).
  assert (F : is_finite h40000 = true) by (vm_compute; reflexivity).
  exists h40000, (V3 0 0 0), (V3 2 1 1), (V3 0 0 0). split; [exact F|]. split; [unfold pad_ok; cbn; lia|]. split; [unfold tell_apart; cbn; lia|].
  split; [exists (V3 1 0 0); unfold beneath, in_box; cbn; repeat split; lia|]. split; [exact (msf_inf _ _ A)|exact (msf_fin _ _ B F)].
Qed.
Print Assumptions C88_half_overflow_refuted.

(** ** Examples *)
Definition pair_v (q : v3) : val VHalf := if Z.eqb (vx q) 0 then vnum VHalf 1 0 else vnum VHalf 2 0.
Example C88_ex : msf (fv_level VHalf default_width (V3 0 0 0) (V3 2 1 1) (fun q => Ok (pair_v q)) (V3 0 0 0)) = SpecFloat.S754_finite false 1536 (-10).
Proof. vm_compute; reflexivity. Qed.
Example C88_ex_hyps : pad_ok (V3 0 0 0) /\ tell_apart (V3 0 0 0) /\ (forall q, addable_in (pair_v q)) /\
  beneath (V3 0 0 0) (V3 2 1 1) (V3 0 0 0) (V3 1 0 0).
Proof.
  split; [unfold pad_ok; cbn; lia|]. split; [unfold tell_apart; cbn; lia|].
  split; [|unfold beneath, in_box; cbn; repeat split; lia].
  intros q. unfold pair_v. destruct (Z.eqb (vx q) 0); (split; [reflexivity|]); cbn; unfold F2R; cbn; rewrite Rabs_pos_eq; lra.
Qed.
Example C88_ex_mean : B2R (vnum VHalf 3 0) = B2R (pair_v (V3 (2 * 0) 0 0)) + B2R (pair_v (V3 (2 * 0 + 1) 0 0)) /\
  B2R (vnum VHalf 3 (-1)) = B2R (vnum VHalf 3 0) / 2.
Proof. split; cbn; unfold F2R; cbn; lra. Qed.
