From Coq Require Import ZArith Reals Lra Lia.
From Verif Require Import Model.RealM.
Open Scope R_scope.

Lemma rltb_spec a b : Bool.reflect (a < b) (rltb a b).
Proof. unfold rltb. destruct (Rlt_dec a b); constructor; auto. Qed.
Lemma rleb_spec a b : Bool.reflect (a <= b) (rleb a b).
Proof. unfold rleb. destruct (Rle_dec a b); constructor; auto. Qed.
Lemma reqb_spec a b : Bool.reflect (a = b) (reqb a b).
Proof. unfold reqb. destruct (Req_EM_T a b); constructor; auto. Qed.
Lemma lerpfactor_ne m a b : a <> b -> lerpfactor m a b = (m - a) / (b - a).
Proof. intros N. unfold lerpfactor. destruct (reqb_spec (b - a) 0); [lra|auto]. Qed.
Lemma rfloor_spec x : IZR (rfloor x) <= x < IZR (rfloor x) + 1.
Proof. unfold rfloor. destruct (base_Int_part x). lra. Qed.
Lemma rfloor_unique x z : IZR z <= x < IZR z + 1 -> rfloor x = z.
Proof.
  intros H. pose proof (rfloor_spec x). assert (IZR z < IZR (rfloor x) + 1) by lra. assert (IZR (rfloor x) < IZR z + 1) by lra.
  rewrite <- plus_IZR in *. apply lt_IZR in H1. apply lt_IZR in H2. lia.
Qed.
Lemma rfloor_add x z : rfloor (x + IZR z) = (rfloor x + z)%Z.
Proof. apply rfloor_unique. rewrite plus_IZR. pose proof (rfloor_spec x). lra. Qed.
Lemma rfloor_IZR z : rfloor (IZR z) = z.
Proof. apply rfloor_unique. lra. Qed.
Lemma rfloor_mono x y : x <= y -> (rfloor x <= rfloor y)%Z.
Proof.
  intros H. pose proof (rfloor_spec x). pose proof (rfloor_spec y). assert (IZR (rfloor x) < IZR (rfloor y) + 1) by lra.
  rewrite <- plus_IZR in H2. apply lt_IZR in H2. lia.
Qed.
Lemma rceil_spec x : IZR (rceil x) - 1 < x <= IZR (rceil x).
Proof. unfold rceil. rewrite opp_IZR. destruct (base_Int_part (- x)). lra. Qed.
Lemma rceil_unique x z : IZR z - 1 < x <= IZR z -> rceil x = z.
Proof.
  intros H. pose proof (rceil_spec x). assert (IZR z < IZR (rceil x) + 1) by lra. assert (IZR (rceil x) < IZR z + 1) by lra.
  rewrite <- plus_IZR in *. apply lt_IZR in H1. apply lt_IZR in H2. lia.
Qed.
