(** Rounding in the filtering of MIP levels: all levels, and the error. *)
From Coq Require Import ZArith Reals List Bool Lia Lra.
From Flocq Require Import Core BinarySingleNaN Relative.
From Verif Require Import Model.Base Model.LoopM Model.FilterM Model.MipM Model.FloatM Model.FloatMipM.
From Verif Require Import Spec.VoxelSpec Spec.FilterSpec Spec.MipSpec Spec.FloatMipSpec.
From Verif Require Import Proof.BaseP Proof.MipP3 Proof.MipP4 Proof.MipExtP Proof.FloatP Proof.FloatP2 Proof.FloatMipP Proof.FloatMipP2 Proof.FloatMipP3.
Import ListNotations.
Open Scope R_scope.

(** * The error of one average *)
Lemma unit_pos t : 0 < unit t <= / 1000.
Proof.
  unfold unit. split; [apply bpow_gt_0|]. apply Rle_trans with (bpow radix2 (-11)); [apply bpow_le; destruct t; cbn [prec]; lia|].
  cbn. lra.
Qed.
Lemma tiny_pos t : 0 < tiny t.
Proof. apply bpow_gt_0. Qed.
Lemma two_err t x y B : Rabs x <= B -> Rabs y <= B ->
  Rabs (rnd t (rnd t (x + y) / 2) - (x + y) / 2) <= (2 + / 100) * unit t * B + (2 - / 10) * tiny t.
Proof.
  intros X Y. pose proof (unit_pos t) as U. pose proof (tiny_pos t) as H. set (e := unit t) in *. set (h := tiny t) in *.
  assert (B0 : 0 <= B) by (eapply Rle_trans; [apply Rabs_pos|exact X]).
  set (s := x + y). assert (S : Rabs s <= 2 * B) by (unfold s; eapply Rle_trans; [apply Rabs_triang|]; lra).
  pose proof (rnd_err t s) as E1. fold e h in E1. set (r1 := rnd t s) in *.
  pose proof (rnd_err t (r1 / 2)) as E2. fold e h in E2. set (r2 := rnd t (r1 / 2)) in *.
  assert (A1 : e * Rabs s <= e * (2 * B)) by (apply Rmult_le_compat_l; lra).
  assert (eB : 0 <= e * B <= B / 1000) by nra. assert (eh : 0 <= e * h <= h / 1000) by nra.
  assert (D1 : Rabs (r1 / 2 - s / 2) <= e * B + h / 2).
  { replace (r1 / 2 - s / 2) with ((r1 - s) * / 2) by field. rewrite Rabs_mult, (Rabs_pos_eq (/ 2)) by lra. lra. }
  assert (M : Rabs (r1 / 2) <= B + B / 1000 + h / 2).
  { replace (r1 / 2) with (s / 2 + (r1 / 2 - s / 2)) by ring. eapply Rle_trans; [apply Rabs_triang|].
    unfold Rdiv at 1. rewrite Rabs_mult, (Rabs_pos_eq (/ 2)) by lra. lra. }
  assert (A2 : e * Rabs (r1 / 2) <= e * (B + B / 1000 + h / 2)) by (apply Rmult_le_compat_l; lra).
  replace (r2 - s / 2) with ((r2 - r1 / 2) + (r1 / 2 - s / 2)) by ring. eapply Rle_trans; [apply Rabs_triang|].
  assert (e * (B + B / 1000 + h / 2) = e * B + e * B / 1000 + e * h / 2) by field. lra.
Qed.
Definition avg_rounding (t : vtype) (B : R) : R := mip_rounding t B / 3.
Lemma inv_pow k : / 2 ^ k = bpow radix2 (- Z.of_nat k).
Proof. rewrite pow_bpow, <- bpow_opp. reflexivity. Qed.
Lemma avg_err t x y B : Rabs x <= B -> Rabs y <= B -> Rabs (avg t x y - (x + y) / 2) <= avg_rounding t B.
Proof.
  intros X Y. assert (B0 : 0 <= B) by (eapply Rle_trans; [apply Rabs_pos|exact X]).
  pose proof (two_err (ct t) x y B X Y) as E. unfold avg. set (z := rnd (ct t) (rnd (ct t) (x + y) / 2)) in *.
  destruct t; cbn [ct] in *; unfold avg_rounding, mip_rounding.
  - pose proof (rnd_err VHalf z) as E2. set (r := rnd VHalf z) in *.
    assert (Z : Rabs z <= B + B / 100 + tiny VFloat * 2).
    { pose proof (unit_pos VFloat). pose proof (tiny_pos VFloat). replace z with ((x + y) / 2 + (z - (x + y) / 2)) by ring. eapply Rle_trans; [apply Rabs_triang|].
      assert (Rabs ((x + y) / 2) <= B).
      { unfold Rdiv. rewrite Rabs_mult, (Rabs_pos_eq (/ 2)) by lra. pose proof (Rabs_triang x y). lra. }
      assert (unit VFloat * B <= B / 1000) by nra. nra. }
    assert (UF : unit VFloat <= unit VHalf / 1000).
    { unfold unit. change (- prec VFloat)%Z with (-11 + -13)%Z. rewrite bpow_plus. change (- prec VHalf)%Z with (-11)%Z. pose proof (bpow_gt_0 radix2 (-11)).
      assert (bpow radix2 (-13) <= / 1000) by (cbn; lra). nra. }
    assert (TF : tiny VFloat <= tiny VHalf / 1000).
    { unfold tiny. change (2 - emax VFloat - prec VFloat)%Z with (-25 + -125)%Z. rewrite bpow_plus. change (2 - emax VHalf - prec VHalf)%Z with (-25)%Z. pose proof (bpow_gt_0 radix2 (-25)).
      assert (bpow radix2 (-125) <= / 1000) by (apply Rle_trans with (bpow radix2 (-13)); [apply bpow_le; lia|cbn; lra]). nra. }
    pose proof (unit_pos VHalf) as U. pose proof (tiny_pos VHalf) as T. pose proof (unit_pos VFloat) as U1. pose proof (tiny_pos VFloat) as T1.
    assert (E9 : B / 2 ^ 9 = 4 * unit VHalf * B).
    { unfold Rdiv. rewrite inv_pow. unfold unit. change (- Z.of_nat 9)%Z with (2 + - prec VHalf)%Z. rewrite bpow_plus. change (bpow radix2 2) with 4. ring. }
    assert (E22 : / 2 ^ 22 = 8 * tiny VHalf).
    { rewrite inv_pow. unfold tiny. change (- Z.of_nat 22)%Z with (3 + (2 - emax VHalf - prec VHalf))%Z. rewrite bpow_plus. change (bpow radix2 3) with 8. ring. }
    rewrite E9, E22. set (e := unit VHalf) in *. set (h := tiny VHalf) in *. set (e1 := unit VFloat) in *. set (h1 := tiny VFloat) in *.
    assert (A : e * Rabs z <= e * (B + B / 100 + h1 * 2)) by (apply Rmult_le_compat_l; lra).
    assert (K : e1 * B <= e * B / 1000) by nra. assert (K2 : e * h1 <= h1 / 1000) by nra. assert (0 <= e * B) by nra.
    replace (r - (x + y) / 2) with ((r - z) + (z - (x + y) / 2)) by ring. eapply Rle_trans; [apply Rabs_triang|].
    assert (e * (B + B / 100 + h1 * 2) = e * B + e * B / 100 + e * h1 * 2) by field. lra.
  - rewrite (rnd_fmt VFloat z) by apply rnd_is. eapply Rle_trans; [exact E|].
    assert (E1 : B / 2 ^ 21 = 8 * unit VFloat * B).
    { unfold Rdiv. rewrite inv_pow. unfold unit. change (- Z.of_nat 21)%Z with (3 + - prec VFloat)%Z. rewrite bpow_plus. change (bpow radix2 3) with 8. ring. }
    assert (E2 : / 2 ^ 147 = 8 * tiny VFloat).
    { rewrite inv_pow. unfold tiny. change (- Z.of_nat 147)%Z with (3 + (2 - emax VFloat - prec VFloat))%Z. rewrite bpow_plus. change (bpow radix2 3) with 8. ring. }
    rewrite E1, E2. pose proof (unit_pos VFloat). pose proof (tiny_pos VFloat). assert (0 <= unit VFloat * B) by nra. lra.
  - rewrite (rnd_fmt VDouble z) by apply rnd_is. eapply Rle_trans; [exact E|].
    assert (E1 : B / 2 ^ 50 = 8 * unit VDouble * B).
    { unfold Rdiv. rewrite inv_pow. unfold unit. change (- Z.of_nat 50)%Z with (3 + - prec VDouble)%Z. rewrite bpow_plus. change (bpow radix2 3) with 8. ring. }
    assert (E2 : / 2 ^ 1072 = 8 * tiny VDouble).
    { rewrite inv_pow. unfold tiny. change (- Z.of_nat 1072)%Z with (3 + (2 - emax VDouble - prec VDouble))%Z. rewrite bpow_plus. change (bpow radix2 3) with 8. ring. }
    rewrite E1, E2. pose proof (unit_pos VDouble). pose proof (tiny_pos VDouble). assert (0 <= unit VDouble * B) by nra. lra.
Qed.
Lemma avg_rounding_pos t B : 0 <= B -> 0 <= avg_rounding t B.
Proof. intros H. eapply Rle_trans; [apply Rabs_pos|apply (avg_err t B B B)]; rewrite Rabs_pos_eq; lra. Qed.

(** * The error of a level *)
(** A value [v], not larger than [B], that is [d] away from [w]. *)
Definition off {t} (B d : R) (w : R) (r : res (val t)) : Prop := exists v, r = Ok v /\ good v /\ Rabs (B2R v) <= B /\ Rabs (B2R v - w) <= d.
Lemma off_held t B d w (r : res (val t)) : off B d w r -> held (- B) B r.
Proof. intros (v & V & G & A & _). exists v. split; auto. split; auto. apply Rabs_le_inv. auto. Qed.
Lemma row_off t value tgt add n (w : Z -> R) B d : near tgt add -> (0 <= n)%Z -> 0 <= B -> 0 <= d -> (forall s, inside tgt add n s -> off B d (w s) (value s)) ->
  off B (d + avg_rounding t B) (halved_row (box_eval 1) add n w tgt) (row t value tgt add n).
Proof.
  intros N N0 B0 D0 H. pose proof (avg_rounding_pos t B B0) as A0. rewrite halved_row_box by auto. unfold pair_mean.
  destruct (row_held t value tgt add n (- B) B N) as (r & R & G & Br); [intros; eapply off_held; eauto|right; lra|].
  exists r. split; auto. split; auto. split; [apply Rabs_le; auto|].
  destruct (row_cases t value tgt add n) as [I0 I1 L|s I U L|I L].
  - destruct (H _ I0) as (v & V & Gv & Bv & Ev). destruct (H _ I1) as (v' & V' & Gv' & Bv' & Ev').
    destruct (row_two t value tgt add n _ _ v v' N L V Gv V' Gv') as (r' & R' & F & E). rewrite R in R'. injection R' as <-.
    unfold inside in I0, I1. replace ((0 <=? 2 * tgt - add)%Z && (2 * tgt - add <? n)%Z) with true by lia.
    replace ((0 <=? 2 * tgt - add + 1)%Z && (2 * tgt - add + 1 <? n)%Z) with true by lia. replace (2 * tgt - add + 1)%Z with (2 * tgt + 1 - add)%Z by lia.
    set (w0 := w (2 * tgt - add)%Z) in *. set (w' := w (2 * tgt + 1 - add)%Z) in *. pose proof (avg_err t (B2R v) (B2R v') B Bv Bv') as K.
    rewrite E. replace (avg t (B2R v) (B2R v') - (w0 + w') / 2) with ((avg t (B2R v) (B2R v') - (B2R v + B2R v') / 2) + ((B2R v - w0) + (B2R v' - w')) * / 2) by field.
    eapply Rle_trans; [apply Rabs_triang|]. rewrite Rabs_mult, (Rabs_pos_eq (/ 2)) by lra. pose proof (Rabs_triang (B2R v - w0) (B2R v' - w')). lra.
  - destruct (H _ I) as (v & V & Gv & Bv & Ev). destruct (row_one t value tgt add n s v N L V) as (r' & R' & F & E); [apply Gv|]. rewrite R in R'. injection R' as <-. rewrite E.
    assert (C := I). apply inside_iff in C. assert (U0 := U (2 * tgt - add)%Z). assert (U1 := U (2 * tgt + 1 - add)%Z). rewrite inside_iff in U0, U1. destruct C as (S0 & [Q|Q]).
    + subst s. replace ((0 <=? 2 * tgt - add)%Z && (2 * tgt - add <? n)%Z) with true by lia.
      replace ((0 <=? 2 * tgt - add + 1)%Z && (2 * tgt - add + 1 <? n)%Z) with false by lia. lra.
    + subst s. replace ((0 <=? 2 * tgt - add)%Z && (2 * tgt - add <? n)%Z) with false by lia.
      replace ((0 <=? 2 * tgt - add + 1)%Z && (2 * tgt - add + 1 <? n)%Z) with true by lia. replace (2 * tgt - add + 1)%Z with (2 * tgt + 1 - add)%Z by lia. lra.
  - rewrite row_none in R by auto. injection R as <-.
    assert (I0 := I (2 * tgt - add)%Z). assert (I1 := I (2 * tgt + 1 - add)%Z). rewrite inside_iff in I0, I1.
    replace ((0 <=? 2 * tgt - add)%Z && (2 * tgt - add <? n)%Z) with false by lia.
    replace ((0 <=? 2 * tgt - add + 1)%Z && (2 * tgt - add + 1 <? n)%Z) with false by lia. cbn. rewrite Rminus_0_r, Rabs_R0. lra.
Qed.
Lemma level_off t add old value (w : v3 -> R) p B d : pad_ok add -> tell_apart p -> res_ok old -> 0 <= B -> 0 <= d ->
  (forall q, beneath add old p q -> off B d (w q) (value q)) ->
  off B (d + mip_rounding t B) (halved (box_eval 1) add old w p) (fm_level t w1 add old value p).
Proof.
  intros (AX & AY & AZ) (PX & PY & PZ) (OX & OY & OZ) B0 D0 H. pose proof (avg_rounding_pos t B B0) as A0.
  replace (d + mip_rounding t B) with (d + avg_rounding t B + avg_rounding t B + avg_rounding t B) by (unfold avg_rounding; field).
  unfold fm_level, halved. rewrite pass_row. apply row_off; [apply near_ok; auto|lia|auto|lra|]. intros z IZ. cbn [vget] in IZ.
  rewrite pass_row. cbn [vget vset vx vy vz]. apply row_off; [apply near_ok; auto|lia|auto|lra|]. intros y IY.
  rewrite pass_row. cbn [vget vset vx vy vz]. apply row_off; [apply near_ok; auto|lia|auto|lra|]. intros x IX.
  apply H. unfold inside in *. unfold beneath, in_box, res_box. cbn [bmin bmax vx vy vz]. repeat split; try lia.
Qed.

(** * All levels, without offset *)
Lemma halvings_0 o : halvings o 0 = o.
Proof. unfold halvings. cbn. rewrite !Z.div_1_r. destruct o; reflexivity. Qed.
Lemma levels_step t base o value l old v : res_ok base -> (l <= 24)%nat ->
  fm_levels t w1 base o value l = Ok (level_res base o l, halvings o l, v) -> old = level_res base o l ->
  fm_levels t w1 base o value (S l) = Ok (level_res base o (S l), halvings o (S l), fm_level t w1 (level_adds o (S l)) old v).
Proof.
  intros Rb L E ->. cbn [fm_levels]. rewrite E. cbn [bind]. rewrite mip_resolution_ok by auto. cbn [bind]. rewrite halvings_S, add_of_ok. reflexivity.
Qed.
Lemma cdiv_le b l : (1 <= b)%Z -> (level_size b 0 l <= b)%Z.
Proof.
  intros B. induction l as [|l IH]; [rewrite level_size_0; lia|]. rewrite level_size_zero. pose proof (level_size_pos b 0 l B).
  assert ((level_size b 0 l + 1) / 2 <= level_size b 0 l)%Z by (Z.div_mod_to_equations; lia). lia.
Qed.
Lemma level_zero_ok base l : res_ok base -> res_ok (level_res base zero3 l).
Proof.
  intros (X & Y & Z). unfold res_ok, level_res, zero3. cbn [vx vy vz].
  pose proof (cdiv_le (vx base) l ltac:(lia)). pose proof (cdiv_le (vy base) l ltac:(lia)). pose proof (cdiv_le (vz base) l ltac:(lia)).
  pose proof (level_size_pos (vx base) 0 l ltac:(lia)). pose proof (level_size_pos (vy base) 0 l ltac:(lia)). pose proof (level_size_pos (vz base) 0 l ltac:(lia)). lia.
Qed.
Lemma pad_zero l : level_adds zero3 l = zero3.
Proof. unfold level_adds, zero3. cbn [vx vy vz]. rewrite !level_add_zero. reflexivity. Qed.
Lemma zero_pad : pad_ok zero3.
Proof. unfold pad_ok, zero3. cbn. lia. Qed.
Lemma window_apart base l p : res_ok base -> in_box p (res_box (level_res base zero3 (S l))) -> tell_apart p.
Proof.
  intros Rb (X & Y & Z). destruct (level_zero_ok base l Rb) as (X1 & Y1 & Z1). cbn [res_box level_res zero3 bmin bmax vx vy vz] in *.
  rewrite level_size_zero in X, Y, Z. unfold tell_apart. Z.div_mod_to_equations. lia.
Qed.
Lemma beneath_ex base l p : res_ok base -> in_box p (res_box (level_res base zero3 (S l))) -> exists q, beneath zero3 (level_res base zero3 l) p q.
Proof.
  intros Rb (X & Y & Z). exists (V3 (2 * vx p) (2 * vy p) (2 * vz p)). unfold beneath, in_box. cbn [res_box level_res zero3 bmin bmax vx vy vz] in *.
  rewrite level_size_zero in X, Y, Z. Z.div_mod_to_equations. lia.
Qed.
Lemma beneath_covered base l p q q0 : beneath zero3 (level_res base zero3 l) p q -> covered l q0 q -> covered (S l) q0 p.
Proof.
  intros (_ & X & Y & Z) (X0 & Y0 & Z0). unfold covered. cbn [zero3 vx vy vz] in *. rewrite Z.add_0_r in X, Y, Z.
  assert (P : (0 < 2 ^ Z.of_nat l)%Z) by (apply Z.pow_pos_nonneg; lia).
  rewrite Nat2Z.inj_succ, Z.pow_succ_r, (Z.mul_comm 2) by lia. rewrite <- !Z.div_div by lia. rewrite X0, Y0, Z0. auto.
Qed.
Lemma levels_held t base value : res_ok base -> (forall q, in_box q (res_box base) -> good (value q)) -> forall l, (l <= 25)%nat ->
  exists v, fm_levels t w1 base zero3 value l = Ok (level_res base zero3 l, halvings zero3 l, v) /\
    forall p, in_box p (res_box (level_res base zero3 l)) -> forall lo hi,
      (forall q, in_box q (res_box base) -> covered l q p -> lo <= B2R (value q) <= hi) -> held lo hi (v p).
Proof.
  intros Rb G. induction l as [|l IH]; intros L.
  - exists (fun p => Ok (value p)). split; [cbn [fm_levels]; rewrite level_res_0, halvings_0; reflexivity|]. intros p P lo hi H. rewrite level_res_0 in P.
    exists (value p). split; auto. split; auto. apply H; auto. unfold covered. cbn. rewrite !Z.div_1_r. auto.
  - destruct (IH ltac:(lia)) as (v & E & H). exists (fm_level t w1 zero3 (level_res base zero3 l) v). split.
    + rewrite (levels_step t base zero3 value l _ v Rb ltac:(lia) E eq_refl). rewrite pad_zero. reflexivity.
    + intros p P lo hi K. apply level_held; [apply zero_pad|eapply window_apart; eauto| |left; apply beneath_ex; auto].
      intros q Q. apply H; [apply Q|]. intros q0 Q0 C. apply K; auto. eapply beneath_covered; eauto.
Qed.
Lemma levels_off t base value B : res_ok base -> (forall q, in_box q (res_box base) -> good (value q) /\ Rabs (B2R (value q)) <= B) -> forall l, (l <= 25)%nat ->
  exists v, fm_levels t w1 base zero3 value l = Ok (level_res base zero3 l, halvings zero3 l, v) /\
    forall p, in_box p (res_box (level_res base zero3 l)) ->
      off B (INR l * mip_rounding t B) (level_val (box_eval 1) base zero3 (fun q => B2R (value q)) l p) (v p).
Proof.
  intros Rb G.
  assert (B0 : 0 <= B).
  { destruct Rb as (X & Y & Z). eapply Rle_trans; [apply Rabs_pos|apply (G (V3 0 0 0))]. unfold in_box. cbn. lia. }
  assert (M0 : 0 <= mip_rounding t B) by (pose proof (avg_rounding_pos t B B0) as K; unfold avg_rounding in K; lra).
  induction l as [|l IH]; intros L.
  - exists (fun p => Ok (value p)). split; [cbn [fm_levels]; rewrite level_res_0, halvings_0; reflexivity|]. intros p P. rewrite level_res_0 in P. destruct (G p P) as (Gp & Bp).
    exists (value p). split; auto. split; auto. split; auto. cbn [level_val INR]. unfold Rminus. rewrite Rplus_opp_r, Rabs_R0. lra.
  - destruct (IH ltac:(lia)) as (v & E & H). exists (fm_level t w1 zero3 (level_res base zero3 l) v). split.
    + rewrite (levels_step t base zero3 value l _ v Rb ltac:(lia) E eq_refl). rewrite pad_zero. reflexivity.
    + intros p P. cbn [level_val]. rewrite pad_zero. rewrite S_INR, Rmult_plus_distr_r, Rmult_1_l.
      apply level_off; [apply zero_pad|eapply window_apart; eauto|apply level_zero_ok; auto|auto|apply Rmult_le_pos; [apply pos_INR|auto]|].
      intros q Q. apply H. apply Q.
Qed.

(** * Order *)
Definition below {t} (f g : res (val t)) : Prop := exists v w, f = Ok v /\ g = Ok w /\ good v /\ good w /\ B2R v <= B2R w.
Lemma row_below t f g tgt add n : near tgt add -> (forall s, inside tgt add n s -> below (f s) (g s)) -> below (row t f tgt add n) (row t g tgt add n).
Proof.
  intros N H.
  assert (HF : forall s, inside tgt add n s -> exists v, f s = Ok v /\ good v) by (intros s I; destruct (H s I) as (v & w & V & W & GV & GW & _); eauto).
  assert (HG : forall s, inside tgt add n s -> exists v, g s = Ok v /\ good v) by (intros s I; destruct (H s I) as (v & w & V & W & GV & GW & _); eauto).
  destruct (row_cases t f tgt add n) as [I0 I1 L|s I U L|I L].
  - destruct (H _ I0) as (v & w & V & W & GV & GW & LE). destruct (H _ I1) as (v' & w' & V' & W' & GV' & GW' & LE').
    destruct (row_two t f tgt add n _ _ v v' N L V GV V' GV') as (r & R & F & E).
    destruct (row_two t g tgt add n _ _ w w' N L W GW W' GW') as (r' & R' & F' & E').
    assert (B : forall x y z : val t, is_finite z = true -> B2R z = avg t (B2R x) (B2R y) -> good x -> good y -> good z).
    { intros x y z Fz Ez Gx Gy. apply (good_between t x y); auto. rewrite Ez.
      split; [apply avg_ge; [apply fmt_Rmin; apply fmt_val|apply Rmin_l|apply Rmin_r]|apply avg_le; [apply fmt_Rmax; apply fmt_val|apply Rmax_l|apply Rmax_r]]. }
    exists r, r'. split; auto. split; auto. split; [eapply B; eauto|]. split; [eapply B; eauto|]. rewrite E, E'. apply avg_mono; auto.
  - destruct (H _ I) as (v & w & V & W & GV & GW & LE).
    destruct (row_one t f tgt add n s v N L V) as (r & R & F & E); [apply GV|]. destruct (row_one t g tgt add n s w N L W) as (r' & R' & F' & E'); [apply GW|].
    exists r, r'. split; auto. split; auto. unfold good. rewrite E, E'. destruct GV, GW. auto.
  - exists (B754_zero false), (B754_zero false). rewrite !row_none by auto. repeat split; auto; try apply zero_good. apply Rle_refl.
Qed.
Lemma level_below t add old f g p : pad_ok add -> tell_apart p -> (forall q, beneath add old p q -> below (f q) (g q)) ->
  below (fm_level t w1 add old f p) (fm_level t w1 add old g p).
Proof.
  intros (AX & AY & AZ) (PX & PY & PZ) H. unfold fm_level.
  rewrite !pass_row. apply row_below; [apply near_ok; auto|]. intros z IZ. cbn [vget] in IZ.
  rewrite !pass_row. apply row_below; [apply near_ok; auto|]. intros y IY. cbn [vget vset vx vy vz] in IY.
  rewrite !pass_row. apply row_below; [apply near_ok; auto|]. intros x IX. cbn [vget vset vx vy vz] in IX.
  apply H. cbn [vset vx vy vz]. unfold inside in *. unfold beneath, in_box, res_box. cbn [bmin bmax vx vy vz]. repeat split; try lia.
Qed.
