(** Rounding in the filtering of MIP levels: whole levels. *)
From Coq Require Import ZArith Reals List Bool Lia Lra.
From Flocq Require Import Core BinarySingleNaN Relative.
From Verif Require Import Model.Base Model.LoopM Model.FilterM Model.MipM Model.FloatM Model.FloatMipM.
From Verif Require Import Spec.VoxelSpec Spec.FilterSpec Spec.MipSpec Spec.FloatMipSpec.
From Verif Require Import Proof.BaseP Proof.FloatP Proof.FloatP2 Proof.FloatMipP Proof.FloatMipP2.
Import ListNotations.
Open Scope R_scope.

Definition held {t} (lo hi : R) (r : res (val t)) : Prop := exists v, r = Ok v /\ good v /\ lo <= B2R v <= hi.
Definition inside (tgt add n s : Z) : Prop := (0 <= s < n /\ (s + add) / 2 = tgt)%Z.
Lemma range2 c : zrange c (c + 1) = [c; (c + 1)%Z].
Proof. unfold zrange. replace (Z.to_nat (c + 1 - c + 1)) with 2%nat by lia. cbn [seq map]. rewrite Z.add_0_r. reflexivity. Qed.
Lemma range1 c : zrange c c = [c].
Proof. unfold zrange. replace (Z.to_nat (c - c + 1)) with 1%nat by lia. cbn. f_equal. lia. Qed.
Lemma range0 a b : (b < a)%Z -> zrange a b = [].
Proof. intros H. unfold zrange. replace (Z.to_nat (b - a + 1)) with 0%nat by lia. reflexivity. Qed.
Lemma inside_iff tgt add n s : inside tgt add n s <-> (0 <= s < n /\ (s = 2 * tgt - add \/ s = 2 * tgt + 1 - add))%Z.
Proof. unfold inside. split; intros (A & B); split; auto; [|destruct B; subst s]; Z.div_mod_to_equations; lia. Qed.
Lemma good_between t (x y r : val t) : good x -> good y -> is_finite r = true ->
  Rmin (B2R x) (B2R y) <= B2R r <= Rmax (B2R x) (B2R y) -> good r.
Proof.
  intros (FX & X) (FY & Y) F (L & U). split; auto. intros N. specialize (X N). specialize (Y N). apply Rabs_def2 in X, Y.
  unfold Rmin in L. unfold Rmax in U. destruct (Rle_dec (B2R x) (B2R y)); apply Rabs_def1; lra.
Qed.
Lemma fmt_Rmin t x y : vfmt t x -> vfmt t y -> vfmt t (Rmin x y).
Proof. intros. unfold Rmin. destruct (Rle_dec x y); auto. Qed.
Lemma zero_good t : good (B754_zero false : val t).
Proof. split; [reflexivity|]. intros _. cbn. rewrite Rabs_R0. apply bpow_gt_0. Qed.

(** The cases of one row. *)
Inductive row_case t (value : Z -> res (val t)) (tgt add n : Z) : Prop :=
| RTwo : inside tgt add n (2 * tgt - add) -> inside tgt add n (2 * tgt + 1 - add) ->
    zrange (Z.max (2 * tgt - add) 0) (Z.min (2 * tgt + 1 - add) (n - 1)) = [(2 * tgt - add)%Z; (2 * tgt + 1 - add)%Z] -> row_case t value tgt add n
| ROne s : inside tgt add n s -> (forall s', inside tgt add n s' -> s' = s) ->
    zrange (Z.max (2 * tgt - add) 0) (Z.min (2 * tgt + 1 - add) (n - 1)) = [s] -> row_case t value tgt add n
| RNone : (forall s, ~ inside tgt add n s) ->
    zrange (Z.max (2 * tgt - add) 0) (Z.min (2 * tgt + 1 - add) (n - 1)) = [] -> row_case t value tgt add n.
Lemma row_cases t value tgt add n : row_case t value tgt add n.
Proof.
  set (c := (2 * tgt - add)%Z). replace (2 * tgt + 1 - add)%Z with (c + 1)%Z in * by lia.
  destruct (Z_le_dec 0 c) as [C0|C0]; destruct (Z_le_dec (c + 1) (n - 1)) as [C1|C1].
  - apply RTwo; rewrite ?inside_iff; fold c; replace (2 * tgt + 1 - add)%Z with (c + 1)%Z by lia; try lia.
    replace (Z.max c 0) with c by lia. replace (Z.min (c + 1) (n - 1)) with (c + 1)%Z by lia. apply range2.
  - destruct (Z_le_dec c (n - 1)) as [C2|C2].
    + apply (ROne _ _ _ _ _ c); [rewrite inside_iff; fold c; lia|intros s'; rewrite inside_iff; fold c; lia|]. fold c. replace (2 * tgt + 1 - add)%Z with (c + 1)%Z by lia.
      replace (Z.max c 0) with c by lia. replace (Z.min (c + 1) (n - 1)) with c by lia. apply range1.
    + apply RNone; [intros s; rewrite inside_iff; fold c; lia|]. fold c. apply range0. lia.
  - destruct (Z.eq_dec (c + 1) 0) as [C2|C2].
    + apply (ROne _ _ _ _ _ (c + 1)%Z); [rewrite inside_iff; fold c; lia|intros s'; rewrite inside_iff; fold c; lia|]. fold c. replace (2 * tgt + 1 - add)%Z with (c + 1)%Z by lia.
      replace (Z.max c 0) with (c + 1)%Z by lia. replace (Z.min (c + 1) (n - 1)) with (c + 1)%Z by lia. apply range1.
    + apply RNone; [intros s; rewrite inside_iff; fold c; lia|]. fold c. apply range0. lia.
  - destruct (Z.eq_dec (c + 1) 0) as [C2|C2].
    + apply RNone; [intros s; rewrite inside_iff; fold c; lia|]. fold c. apply range0. lia.
    + apply RNone; [intros s; rewrite inside_iff; fold c; lia|]. fold c. apply range0. lia.
Qed.
Lemma row_held t value tgt add n lo hi : near tgt add -> (forall s, inside tgt add n s -> held lo hi (value s)) ->
  (exists s, inside tgt add n s) \/ lo <= 0 <= hi -> held lo hi (row t value tgt add n).
Proof.
  intros N H Ex. destruct (row_cases t value tgt add n) as [I0 I1 L|s I U L|I L].
  - destruct (H _ I0) as (v & V & G & B). destruct (H _ I1) as (v' & V' & G' & B').
    destruct (row_two t value tgt add n _ _ v v' N L V G V' G') as (r & R & F & E). exists r. split; auto.
    assert (Lo : Rmin (B2R v) (B2R v') <= B2R r) by (rewrite E; apply avg_ge; [apply fmt_Rmin; apply fmt_val|apply Rmin_l|apply Rmin_r]).
    assert (Hi : B2R r <= Rmax (B2R v) (B2R v')) by (rewrite E; apply avg_le; [apply fmt_Rmax; apply fmt_val|apply Rmax_l|apply Rmax_r]).
    split; [apply (good_between t v v'); auto|]. split.
    + eapply Rle_trans; [|exact Lo]. apply Rmin_glb; lra.
    + eapply Rle_trans; [exact Hi|]. apply Rmax_lub; lra.
  - destruct (H _ I) as (v & V & G & B). destruct (row_one t value tgt add n s v N L V) as (r & R & F & E); [apply G|]. exists r. split; auto. rewrite E. split; auto.
    split; auto. rewrite E. apply G.
  - exists (B754_zero false). rewrite row_none by auto. split; auto. split; [apply zero_good|]. change (lo <= 0 <= hi). destruct Ex as [(s & K)|K]; auto. exfalso. eapply I; eauto.
Qed.
Lemma pass_row t a add n value p : fm_pass t w1 a add n value p = row t (fun s => value (vset a p s)) (vget a p) add n.
Proof. reflexivity. Qed.
Lemma near_ok tgt add : (0 <= tgt < 2 ^ 23)%Z -> (0 <= add <= 1)%Z -> near tgt add.
Proof. unfold near. lia. Qed.

Lemma level_held t add old value p lo hi : pad_ok add -> tell_apart p -> (forall q, beneath add old p q -> held lo hi (value q)) ->
  (exists q, beneath add old p q) \/ lo <= 0 <= hi -> held lo hi (fm_level t w1 add old value p).
Proof.
  intros (AX & AY & AZ) (PX & PY & PZ) H Ex.
  assert (EX : (exists s, inside (vx p) (vx add) (vx old) s) \/ lo <= 0 <= hi).
  { destruct Ex as [([i j k] & (I & J & K) & X & Y & Z)|Ex]; auto. left. exists i. unfold inside. cbn in *. lia. }
  assert (EY : (exists s, inside (vy p) (vy add) (vy old) s) \/ lo <= 0 <= hi).
  { destruct Ex as [([i j k] & (I & J & K) & X & Y & Z)|Ex]; auto. left. exists j. unfold inside. cbn in *. lia. }
  assert (EZ : (exists s, inside (vz p) (vz add) (vz old) s) \/ lo <= 0 <= hi).
  { destruct Ex as [([i j k] & (I & J & K) & X & Y & Z)|Ex]; auto. left. exists k. unfold inside. cbn in *. lia. }
  unfold fm_level. rewrite pass_row. apply row_held; [apply near_ok; auto| |exact EZ]. intros z IZ. cbn [vget] in IZ.
  rewrite pass_row. apply row_held; [apply near_ok; auto| |exact EY]. intros y IY. cbn [vget vset vx vy vz] in IY.
  rewrite pass_row. apply row_held; [apply near_ok; auto| |exact EX]. intros x IX. cbn [vget vset vx vy vz] in IX.
  apply H. cbn [vset vx vy vz]. unfold inside in *. unfold beneath, in_box, res_box. cbn [bmin bmax vx vy vz]. repeat split; try lia.
Qed.

Lemma pow_bpow k : 2 ^ k = bpow radix2 (Z.of_nat k).
Proof. rewrite bpow_powerRZ. rewrite pow_powerRZ. reflexivity. Qed.
Lemma good_addable t (v : val t) : good v <-> addable v.
Proof.
  unfold good, addable. destruct t; cbn [emax]; split; intros (F & H); split; auto; try (intros N; congruence).
  - rewrite pow_bpow. apply H. discriminate.
  - intros _. rewrite pow_bpow in H. exact H.
  - rewrite pow_bpow. apply H. discriminate.
  - intros _. rewrite pow_bpow in H. exact H.
Qed.
