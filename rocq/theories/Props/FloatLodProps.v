(** C76: rounding in samples of MIP fields. *)
From Coq Require Import ZArith Reals List Bool Lia Lra Psatz.
From Flocq Require Import Core BinarySingleNaN.
From Verif Require Import Model.Base Model.MipMapM Model.VecM Model.FloatM Model.FloatMipM Model.FloatCurveM Model.FloatLodM.
From Verif Require Import Spec.VoxelSpec Spec.InterpSpec Spec.FloatSpec Spec.FloatCurveSpec Spec.FloatLodSpec.
From Verif Require Import Proof.BaseP Proof.FloatP Proof.FloatP2 Proof.FloatP3 Proof.FloatMipP Proof.FloatMipP2 Proof.FloatCurveP Proof.FloatLodP Proof.FloatLodP2.
Import ListNotations.
Open Scope R_scope.

(** A spot no larger than a voxel samples the first level, at the position that was given. *)
Theorem C76_close : forall t size offset (fs : list (lod_level t)) x y z spot, fs <> [] -> (length fs <= 31)%nat -> size_ok size (length fs - 1) ->
  is_finite spot = true -> B2R spot <= B2R size -> lod_sample t size offset fs x y z spot = lod_at t fs 0 x y z.
Proof.
  intros t size offset fs x y z spot NE L S F B. destruct fs as [|f fs]; [congruence|]. cbn [length Nat.sub] in *. rewrite Nat.sub_0_r in S.
  apply (sample_low t size offset (length fs)); auto; [lia|]. unfold side. cbn [pow]. lra.
Qed.
Print Assumptions C76_close.

(** A spot larger than a voxel of the last level samples that level alone; so does one that is not a number. *)
Theorem C76_far : forall t size offset (fs : list (lod_level t)) x y z spot m, length fs = S (S m) -> (length fs <= 31)%nat -> size_ok size (S m) ->
  is_nan spot = true \/ (is_finite spot = true /\ side size (S m) < B2R spot) ->
  lod_sample t size offset fs x y z spot = lod_in t offset fs (S m) x y z.
Proof.
  intros t size offset fs x y z spot m E L S [N|(F & B)]; [apply (sample_nan t size offset (Datatypes.S m)); auto; lia|apply (sample_high t size offset (Datatypes.S m)); auto; lia].
Qed.
Print Assumptions C76_far.

(** Any other spot mixes the samples [u] and [w] of the two levels that it lies between: the sample is where it should be
    on the straight line from one to the other, but for rounding, and between them, or, unless the values are [half], a
    few parts in ten million outside. *)
Theorem C76_between : forall t size offset (fs : list (lod_level t)) x y z spot j, levels_ok fs -> size_ok size (length fs - 1) -> shift_ok offset ->
  place_ok x -> place_ok y -> place_ok z -> is_finite spot = true -> (S j < length fs)%nat -> side size j < B2R spot <= side size (S j) ->
  exists u w r, lod_in t offset fs j x y z = Ok u /\ lod_in t offset fs (S j) x y z = Ok w /\ lod_sample t size offset fs x y z spot = Ok r /\
    is_finite r = true /\
    Rabs (B2R r - (B2R u + (B2R w - B2R u) * fraction size j (B2R spot))) <= lod_rounding t (B2R u) (B2R w) /\
    (forall lo hi, lo <= B2R u <= hi -> lo <= B2R w <= hi -> lo - lod_slack t lo <= B2R r <= hi + lod_slack t hi).
Proof.
  intros t size offset fs x y z spot j LO SO O X Y Z F J B. pose proof LO as (NE & L31 & LV).
  assert (LM : length fs = S (length fs - 1)) by lia. set (m := (length fs - 1)%nat) in *.
  destruct (sample_mid t size offset m fs SO LM ltac:(lia) spot j x y z F ltac:(lia) B) as (f & FF & FV & E).
  destruct (in_ok t offset fs j x y z LO O ltac:(lia) X Y Z) as (u & U & UO & _). destruct (in_ok t offset fs (S j) x y z LO O ltac:(lia) X Y Z) as (w & W & WO & _).
  exists u, w, (lod_lerp u w f). rewrite E, U, W. cbn [bind]. split; [reflexivity|]. split; [reflexivity|]. split; [reflexivity|].
  assert (P : 0 < side size j) by (apply (side_le size j m SO); lia).
  assert (D : side size (S j) = 2 * side size j) by (unfold side; cbn [pow]; ring).
  destruct (factor_range (side size j) (B2R spot) P ltac:(lra)) as (R1 & R2 & _). rewrite <- FV in R1, R2.
  assert (FR : fraction size j (B2R spot) = (B2R spot - side size j) / side size j) by (unfold fraction; rewrite D; f_equal; ring). rewrite <- FR in R2.
  assert (T : 0 <= fraction size j (B2R spot) <= 1).
  { rewrite FR. split; [apply Rmult_le_pos; [lra|apply Rlt_le, Rinv_0_lt_compat; auto]|]. apply Rmult_le_reg_r with (side size j); auto. unfold Rdiv. rewrite Rmult_assoc, Rinv_l by lra. lra. }
  destruct (lod_lerp_ok t u w f UO WO FF R1) as (_ & _ & _ & LF & _). split; [exact LF|]. split.
  - destruct (lerp_near t u w f (fraction size j (B2R spot)) UO WO FF R1) as [H|H]; [|exact H|contradiction].
    eapply Rle_trans; [exact R2|]. rewrite inv_pow_bpow. change (- Z.of_nat 150)%Z with (-150)%Z. destruct tiny_f as (_ & K). unfold c24 in *.
    replace (fraction size j (B2R spot) / 2 ^ 24) with (fraction size j (B2R spot) * / 16777216) by (simpl; field). lra.
  - intros lo hi BU BW. pose proof (slack_level t lo). pose proof (slack_level t hi). split; [apply lerp_floor|apply lerp_upper]; auto; lra.
Qed.
Print Assumptions C76_between.

(** A spot of exactly the side of a voxel of a level samples that level, with no error. *)
Theorem C76_exact : forall t size offset (fs : list (lod_level t)) x y z spot j, levels_ok fs -> size_ok size (length fs - 1) -> shift_ok offset ->
  place_ok x -> place_ok y -> place_ok z -> is_finite spot = true -> (S j < length fs)%nat -> B2R spot = side size (S j) ->
  exists w r, lod_in t offset fs (S j) x y z = Ok w /\ lod_sample t size offset fs x y z spot = Ok r /\ B2R r = B2R w.
Proof.
  intros t size offset fs x y z spot j LO SO O X Y Z F J B. pose proof LO as (NE & L31 & LV).
  assert (LM : length fs = S (length fs - 1)) by lia. set (m := (length fs - 1)%nat) in *.
  assert (P : 0 < side size j) by (apply (side_le size j m SO); lia).
  assert (D : side size (S j) = 2 * side size j) by (unfold side; cbn [pow]; ring).
  destruct (sample_mid t size offset m fs SO LM ltac:(lia) spot j x y z F ltac:(lia) ltac:(lra)) as (f & FF & FV & E).
  destruct (in_ok t offset fs j x y z LO O ltac:(lia) X Y Z) as (u & U & UO & _). destruct (in_ok t offset fs (S j) x y z LO O ltac:(lia) X Y Z) as (w & W & WO & _).
  exists w, (lod_lerp u w f). rewrite E, U, W. cbn [bind]. split; [reflexivity|]. split; [reflexivity|].
  destruct (factor_range (side size j) (B2R spot) P ltac:(lra)) as (_ & _ & R3). apply lod_lerp_high; auto. rewrite FV. apply R3. lra.
Qed.
Print Assumptions C76_exact.

(** The position in a level is the one in real numbers, but for the rounding of [float]. *)
Theorem C76_position : forall offset l x, place_ok x -> (Z.abs offset < 2 ^ 30)%Z -> (l <= 24)%nat ->
  is_finite (lod_coord offset l x) = true /\
  Rabs (B2R (lod_coord offset l x) - level_position offset l (B2R x)) <= (Rabs (B2R x) + 2 ^ l) / 2 ^ l / 2 ^ 21 + / 2 ^ 148.
Proof.
  intros offset l x X O L. destruct (coord_val offset l x X O ltac:(lia)) as (F & _ & _). split; [exact F|].
  pose proof (coord_err offset l x X O L) as E. cbv zeta in E. destruct (shift_range offset (Z.of_nat l) O ltac:(lia)) as (R & _).
  assert (S : mip_shift offset (Z.of_nat l) = (- (offset mod 2 ^ Z.of_nat l))%Z).
  { unfold mip_shift. rewrite Z.shiftr_div_pow2, Z.shiftl_mul_pow2 by lia. assert (P : (0 < 2 ^ Z.of_nat l)%Z) by (apply Z.pow_pos_nonneg; lia). pose proof (Z.div_mod offset (2 ^ Z.of_nat l)). lia. }
  unfold level_position. rewrite S, opp_IZR in *. set (s := IZR (offset mod 2 ^ Z.of_nat l)) in *. set (v := B2R x) in *.
  replace (v - - s) with (v + s) in E by ring. eapply Rle_trans; [exact E|]. apply Rplus_le_compat_r.
  assert (P2 : IZR (2 ^ Z.of_nat l) = 2 ^ l) by (rewrite <- pow_IZR; reflexivity).
  assert (SB : 0 <= s <= 2 ^ l) by (unfold s; rewrite <- P2; split; apply IZR_le; lia).
  assert (T : Rabs (v + s) <= Rabs v + s) by (eapply Rle_trans; [apply Rabs_triang|]; rewrite (Rabs_pos_eq s); lra).
  assert (P3 : 0 < / 2 ^ l) by (apply Rinv_0_lt_compat, pow_lt; lra). unfold Rdiv.
  replace (/ 2 ^ 21) with (2 * / 2 ^ 22) by (simpl; lra). set (h := / 2 ^ 22). assert (0 < h) by (apply Rinv_0_lt_compat, pow_lt; lra).
  replace ((Rabs v + 2 ^ l) * / 2 ^ l * (2 * h)) with ((2 * Rabs v + 2 * 2 ^ l) * / 2 ^ l * h) by ring.
  apply Rmult_le_compat_r; [lra|]. apply Rmult_le_compat_r; [lra|]. lra.
Qed.
Print Assumptions C76_position.

(** The sample of a level is the linear interpolation of its voxels (C70) at such a position, axis by axis. *)
Theorem C76_level : forall t offset (fs : list (lod_level t)) l dw value x y z, shift_ok offset -> place_ok x -> place_ok y -> place_ok z -> (l <= 24)%nat ->
  nth_error fs l = Some (dw, value) ->
  exists px py pz, lod_in t offset fs l x y z = f_sample t value dw px py pz /\ place_ok px /\ place_ok py /\ place_ok pz /\
    Rabs (B2R px - level_position (vx offset) l (B2R x)) <= (Rabs (B2R x) + 2 ^ l) / 2 ^ l / 2 ^ 21 + / 2 ^ 148 /\
    Rabs (B2R py - level_position (vy offset) l (B2R y)) <= (Rabs (B2R y) + 2 ^ l) / 2 ^ l / 2 ^ 21 + / 2 ^ 148 /\
    Rabs (B2R pz - level_position (vz offset) l (B2R z)) <= (Rabs (B2R z) + 2 ^ l) / 2 ^ l / 2 ^ 21 + / 2 ^ 148.
Proof.
  intros t offset fs l dw value x y z (OX & OY & OZ) X Y Z L N. unfold lod_in, lod_at. rewrite N. cbn [fst snd].
  do 3 eexists. split; [reflexivity|]. repeat split; try (apply coord_place; auto; lia); apply C76_position; auto.
Qed.
Print Assumptions C76_level.

(** Whatever the spot, a sample is a number in the range of the voxels of the field, or, unless the values are [half], a
    few parts in ten million outside it; voxels that are not negative do not give a negative sample. *)
Theorem C76_bounded : forall t size offset (fs : list (lod_level t)) x y z spot, levels_ok fs -> size_ok size (length fs - 1) -> shift_ok offset ->
  place_ok x -> place_ok y -> place_ok z ->
  exists r, lod_sample t size offset fs x y z spot = Ok r /\ is_finite r = true /\
    (forall lo hi, (forall f q, In f fs -> in_box q (fst f) -> lo <= B2R (snd f q) <= hi) -> lo - lod_slack t lo <= B2R r <= hi + lod_slack t hi) /\
    ((forall f q, In f fs -> in_box q (fst f) -> 0 <= B2R (snd f q)) -> 0 <= B2R r).
Proof.
  intros t size offset fs x y z spot LO SO O X Y Z. pose proof LO as (NE & L31 & LV).
  assert (LM : length fs = S (length fs - 1)) by (destruct fs; [congruence|cbn; lia]). set (m := (length fs - 1)%nat) in *.
  assert (ONE : forall r : val t, level_ok r ->
    (forall lo hi, (forall f q, In f fs -> in_box q (fst f) -> lo <= B2R (snd f q) <= hi) -> lo - level_slack t lo <= B2R r <= hi + level_slack t hi) ->
    is_finite r = true /\ (forall lo hi, (forall f q, In f fs -> in_box q (fst f) -> lo <= B2R (snd f q) <= hi) -> lo - lod_slack t lo <= B2R r <= hi + lod_slack t hi)).
  { intros r (RF & _) RB. split; [exact RF|]. intros lo hi B. pose proof (slack_level t lo). pose proof (slack_level t hi). pose proof (RB lo hi B). lra. }
  destruct (sample_shape t size offset m spot x y z SO ltac:(lia)) as [E|[E|(j & f & J & FF & FR & E)]]; rewrite (E fs LM).
  - destruct (at_ok t fs 0 x y z LO ltac:(lia) X Y Z) as (r & R & RO & RB & RP). exists r. split; [exact R|]. destruct (ONE r RO RB). auto.
  - destruct (in_ok t offset fs m x y z LO O ltac:(lia) X Y Z) as (r & R & RO & RB & RP). exists r. split; [exact R|]. destruct (ONE r RO RB). auto.
  - destruct (in_ok t offset fs j x y z LO O ltac:(lia) X Y Z) as (u & U & UO & UB & UP). destruct (in_ok t offset fs (S j) x y z LO O ltac:(lia) X Y Z) as (w & W & WO & WB & WP).
    exists (lod_lerp u w f). rewrite U, W. split; [reflexivity|]. destruct (lod_lerp_ok t u w f UO WO FF FR) as (_ & _ & _ & LF & _). split; [exact LF|]. split.
    + intros lo hi B. destruct (UB lo hi B), (WB lo hi B). split; [apply lerp_floor|apply lerp_upper]; auto.
    + intros P. apply lerp_pos; auto.
Qed.
Print Assumptions C76_bounded.

(** So a [half] field of a constant gives that constant. *)
Theorem C76_half_constant : forall size offset (fs : list (lod_level VHalf)) x y z spot c, levels_ok fs -> size_ok size (length fs - 1) -> shift_ok offset ->
  place_ok x -> place_ok y -> place_ok z -> (forall f q, In f fs -> in_box q (fst f) -> B2R (snd f q) = c) ->
  exists r, lod_sample VHalf size offset fs x y z spot = Ok r /\ B2R r = c.
Proof.
  intros size offset fs x y z spot c LO SO O X Y Z C. destruct (C76_bounded VHalf size offset fs x y z spot LO SO O X Y Z) as (r & R & _ & B & _). exists r. split; [exact R|].
  destruct (B c c) as (L & U); [intros f q I Q; rewrite (C f q I Q); lra|]. rewrite slack_half in *. lra.
Qed.
Print Assumptions C76_half_constant.

(** Raising voxels never lowers a sample. *)
Theorem C76_monotone : forall t size offset (fs gs : list (lod_level t)) x y z spot r s, levels_ok fs -> levels_ok gs -> size_ok size (length fs - 1) -> shift_ok offset ->
  place_ok x -> place_ok y -> place_ok z ->
  Forall2 (fun f g => fst f = fst g /\ forall q, in_box q (fst f) -> B2R (snd f q) <= B2R (snd g q)) fs gs ->
  lod_sample t size offset fs x y z spot = Ok r -> lod_sample t size offset gs x y z spot = Ok s -> B2R r <= B2R s.
Proof.
  intros t size offset fs gs x y z spot r s LF LG SO O X Y Z FG R S. pose proof LF as (NE & L31 & LV). assert (LL : length fs = length gs) by (clear - FG; induction FG; cbn; congruence).
  assert (LM : length fs = Datatypes.S (length fs - 1)) by (destruct fs; [congruence|cbn; lia]). set (m := (length fs - 1)%nat) in *. assert (LM' : length gs = Datatypes.S m) by lia.
  destruct (sample_shape t size offset m spot x y z SO ltac:(lia)) as [E|[E|(j & f & J & FF & FR & E)]]; rewrite (E fs LM) in R; rewrite (E gs LM') in S.
  - exact (at_mono t fs gs _ _ _ _ r s LF LG FG R S).
  - exact (at_mono t fs gs _ _ _ _ r s LF LG FG R S).
  - destruct (in_ok t offset fs j x y z LF O ltac:(lia) X Y Z) as (u & U & UO & _). destruct (in_ok t offset fs (Datatypes.S j) x y z LF O ltac:(lia) X Y Z) as (w & W & WO & _).
    destruct (in_ok t offset gs j x y z LG O ltac:(lia) X Y Z) as (u' & U' & UO' & _). destruct (in_ok t offset gs (Datatypes.S j) x y z LG O ltac:(lia) X Y Z) as (w' & W' & WO' & _).
    rewrite U, W in R. rewrite U', W' in S. cbn [bind] in R, S. injection R as <-. injection S as <-. unfold lod_in in U, W, U', W'.
    apply lerp_mono; auto; [exact (at_mono t fs gs _ _ _ _ u u' LF LG FG U U')|exact (at_mono t fs gs _ _ _ _ w w' LF LG FG W W')].
Qed.
Print Assumptions C76_monotone.

(** The side that spots are compared with is the smallest of the three, rounded to [float]. *)
Theorem C76_side : forall x y z : val VDouble, is_finite x = true -> is_finite y = true -> is_finite z = true ->
  Rabs (B2R x) <= 2 ^ 127 -> Rabs (B2R y) <= 2 ^ 127 -> Rabs (B2R z) <= 2 ^ 127 ->
  is_finite (lod_base x y z) = true /\ B2R (lod_base x y z) = rnd VFloat (Rmin (Rmin (B2R x) (B2R y)) (B2R z)).
Proof.
  intros x y z FX FY FZ X Y Z. rewrite pow_127 in X, Y, Z.
  destruct (cast_ok VDouble VFloat x FX (fits_bp _ X)) as (CX & VX). destruct (cast_ok VDouble VFloat y FY (fits_bp _ Y)) as (CY & VY). destruct (cast_ok VDouble VFloat z FZ (fits_bp _ Z)) as (CZ & VZ).
  assert (M : forall (a b : time) u v, is_finite a = true -> is_finite b = true -> B2R a = rnd VFloat u -> B2R b = rnd VFloat v -> is_finite (std_min a b) = true /\ B2R (std_min a b) = rnd VFloat (Rmin u v)).
  { intros a b u v A B VA VB. unfold std_min. rewrite Bltb_correct by auto. rewrite VA, VB. destruct (Rlt_bool_spec (rnd VFloat v) (rnd VFloat u)) as [L|L].
    - split; auto. rewrite VB, Rmin_right; auto. destruct (Rle_lt_dec v u); auto. exfalso. assert (rnd VFloat u <= rnd VFloat v) by (apply rnd_le; lra). lra.
    - split; auto. rewrite VA. destruct (Rle_lt_dec u v) as [H|H]; [rewrite Rmin_left; auto|]. rewrite Rmin_right by lra. apply Rle_antisym; auto. apply rnd_le. lra. }
  destruct (M _ _ _ _ CX CY VX VY) as (A & B). apply (M _ _ _ _ A CZ B VZ).
Qed.
Print Assumptions C76_side.

(** In a field of [double] a constant is not kept: the weights of the two levels are [float] and do not add up to one. *)
Definition lod_cell : box := Box (V3 0 0 0) (V3 1 1 1).
Definition ones : list (lod_level VDouble) := [(lod_cell, fun _ => f_one); (lod_cell, fun _ => f_one)].
Definition three : time := vnum VFloat 3 0.
Definition four : time := vnum VFloat 4 0.
Definition lod_sf {t} (r : res (val t)) : SpecFloat.spec_float := match r with Ok v => B2SF v | _ => SpecFloat.S754_nan end.
Lemma one_64 : is_finite (f_one : val VDouble) = true /\ B2R (f_one : val VDouble) = 1.
Proof. split; [reflexivity|]. cbn. unfold F2R. cbn. lra. Qed.
Lemma ones_ok : levels_ok ones.
Proof.
  split; [discriminate|]. split; [cbn; lia|]. intros f I. assert (E : f = (lod_cell, fun _ => f_one : val VDouble)) by (destruct I as [<-|[<-|[]]]; reflexivity). subst f.
  split; [unfold box_nonempty; cbn; lia|]. intros q _. destruct one_64 as (F & V). split; [exact F|]. cbn [snd]. rewrite V, Rabs_R1. apply pow_R1_Rle. lra.
Qed.
Lemma three_v : is_finite three = true /\ B2R three = 3.
Proof. split; [reflexivity|]. cbn. unfold F2R. cbn. lra. Qed.
Lemma four_v : is_finite four = true /\ B2R four = 4.
Proof. split; [reflexivity|]. cbn. unfold F2R. cbn. lra. Qed.
Lemma size_three : size_ok three 1.
Proof.
  destruct three_v as (F & V). split; [exact F|]. unfold side. rewrite V. split; [lra|]. apply Rlt_le_trans with (2 ^ 3); [simpl; lra|]. apply Rle_pow; [lra|lia].
Qed.
Lemma place_one : place_ok f_one.
Proof. destruct one_64 as (F & V). split; [exact F|]. change (B2R f_one) with (B2R (f_one : val VDouble)). rewrite V, Rabs_R1. apply pow_R1_Rle. lra. Qed.
Lemma shift_zero : shift_ok (V3 0 0 0).
Proof. unfold shift_ok. cbn. lia. Qed.
Theorem C76_double_constant_refuted : exists size (fs : list (lod_level VDouble)) x spot r, levels_ok fs /\ size_ok size (length fs - 1) /\ place_ok x /\ is_finite spot = true /\
  (forall f q, In f fs -> B2R (snd f q) = 1) /\ lod_sample VDouble size (V3 0 0 0) fs x x x spot = Ok r /\ B2R r <> 1.
Proof.
  destruct (C76_bounded VDouble three (V3 0 0 0) ones f_one f_one f_one four ones_ok size_three shift_zero place_one place_one place_one) as (r & R & F & _).
  exists three, ones, f_one, four, r. split; [exact ones_ok|]. split; [exact size_three|]. split; [exact place_one|]. split; [reflexivity|].
  split; [intros f q [<-|[<-|[]]]; apply one_64|]. split; [exact R|].
  assert (S : lod_sf (lod_sample VDouble three (V3 0 0 0) ones f_one f_one f_one four) = lod_sf (Ok r)) by (rewrite R; reflexivity).
  assert (V : lod_sf (lod_sample VDouble three (V3 0 0 0) ones f_one f_one f_one four) = SpecFloat.S754_finite false 9007198986305536 (-53)) by (vm_compute; reflexivity).
  rewrite V in S. cbn [lod_sf] in S. rewrite <- SF2R_B2SF. rewrite <- S. cbn. unfold F2R. cbn. lra.
Qed.
Print Assumptions C76_double_constant_refuted.

(** ** Instances: two levels of ones, voxels of side 3, spots of 4, 6 and 7. *)
Definition six : time := vnum VFloat 6 0.
Definition seven : time := vnum VFloat 7 0.
Lemma six_v : is_finite six = true /\ B2R six = 6.
Proof. split; [reflexivity|]. cbn. unfold F2R. cbn. lra. Qed.
Lemma seven_v : is_finite seven = true /\ B2R seven = 7.
Proof. split; [reflexivity|]. cbn. unfold F2R. cbn. lra. Qed.
Example C76_close_instance : lod_sample VDouble three (V3 0 0 0) ones f_one f_one f_one three = lod_at VDouble ones 0 f_one f_one f_one.
Proof. apply C76_close; [discriminate|cbn; lia|exact size_three|reflexivity|lra]. Qed.
Example C76_far_instance : lod_sample VDouble three (V3 0 0 0) ones f_one f_one f_one seven = lod_in VDouble (V3 0 0 0) ones 1 f_one f_one f_one.
Proof.
  apply (C76_far VDouble three (V3 0 0 0) ones f_one f_one f_one seven 0); [reflexivity|cbn; lia|exact size_three|right].
  destruct seven_v as (F & V), three_v as (_ & T). split; [exact F|]. unfold side. rewrite T, V. cbn [pow]. lra.
Qed.
Example C76_between_instance : exists u w r, lod_in VDouble (V3 0 0 0) ones 0 f_one f_one f_one = Ok u /\ lod_in VDouble (V3 0 0 0) ones 1 f_one f_one f_one = Ok w /\
  lod_sample VDouble three (V3 0 0 0) ones f_one f_one f_one four = Ok r /\ is_finite r = true /\
  Rabs (B2R r - (B2R u + (B2R w - B2R u) * fraction three 0 4)) <= lod_rounding VDouble (B2R u) (B2R w).
Proof.
  destruct four_v as (F & V), three_v as (_ & T).
  destruct (C76_between VDouble three (V3 0 0 0) ones f_one f_one f_one four 0 ones_ok size_three shift_zero place_one place_one place_one F) as (u & w & r & A & B & C & D & E & _).
  - cbn. lia.
  - unfold side. rewrite T, V. cbn [pow]. lra.
  - rewrite V in E. exists u, w, r. auto.
Qed.
Example fraction_instance : fraction three 0 4 = 1 / 3.
Proof. destruct three_v as (_ & T). unfold fraction, side. rewrite T. cbn [pow]. lra. Qed.
Example C76_exact_instance : exists w r, lod_in VDouble (V3 0 0 0) ones 1 f_one f_one f_one = Ok w /\ lod_sample VDouble three (V3 0 0 0) ones f_one f_one f_one six = Ok r /\ B2R r = B2R w.
Proof.
  destruct six_v as (F & V), three_v as (_ & T).
  apply (C76_exact VDouble three (V3 0 0 0) ones f_one f_one f_one six 0 ones_ok size_three shift_zero place_one place_one place_one F); [cbn; lia|]. unfold side. rewrite T, V. cbn [pow]. lra.
Qed.
Example C76_bounded_instance : exists r, lod_sample VDouble three (V3 0 0 0) ones f_one f_one f_one B754_nan = Ok r /\ is_finite r = true /\ 0 <= B2R r.
Proof.
  destruct (C76_bounded VDouble three (V3 0 0 0) ones f_one f_one f_one B754_nan ones_ok size_three shift_zero place_one place_one place_one) as (r & R & F & _ & P).
  exists r. split; [exact R|]. split; [exact F|]. apply P. intros f q [<-|[<-|[]]] _; cbn [snd]; rewrite (proj2 one_64); lra.
Qed.
(** The corner of level 1 of a field with offset 5 lies at 4: the position 1, that is 6, is 2 from there, that is 1 voxel. *)
Example C76_position_instance : Rabs (B2R (lod_coord 5 1 f_one) - (1 + 1) / 2) <= (1 + 2) / 2 / 2 ^ 21 + / 2 ^ 148.
Proof.
  destruct (C76_position 5 1 f_one place_one) as (_ & P); [lia|lia|]. unfold level_position in P. change (B2R f_one) with (B2R (f_one : val VDouble)) in P. rewrite (proj2 one_64), Rabs_R1 in P.
  change (5 mod 2 ^ Z.of_nat 1)%Z with 1%Z in P. replace (2 ^ 1) with 2 in P by ring. exact P.
Qed.
Example C76_level_instance : exists px py pz, lod_in VDouble (V3 0 0 0) ones 1 f_one f_one f_one = f_sample VDouble (fun _ => f_one) lod_cell px py pz.
Proof.
  destruct (C76_level VDouble (V3 0 0 0) ones 1 lod_cell (fun _ => f_one) f_one f_one f_one shift_zero place_one place_one place_one) as (px & py & pz & E & _); [lia|reflexivity|]. eauto.
Qed.
Definition half_one : val VHalf := vnum VHalf 1 0.
Definition half_ones : list (lod_level VHalf) := [(lod_cell, fun _ => half_one); (lod_cell, fun _ => half_one)].
Example C76_half_constant_instance : exists r, lod_sample VHalf three (V3 0 0 0) half_ones f_one f_one f_one four = Ok r /\ B2R r = 1.
Proof.
  assert (V : B2R half_one = 1) by (cbn; unfold F2R; cbn; lra).
  assert (I2 : forall f, In f half_ones -> f = (lod_cell, fun _ => half_one)) by (intros f [<-|[<-|[]]]; reflexivity).
  apply C76_half_constant; auto using size_three, shift_zero, place_one.
  - split; [discriminate|]. split; [cbn; lia|]. intros f I. rewrite (I2 f I). split; [unfold box_nonempty; cbn; lia|]. intros q _. split; [reflexivity|exact Logic.I].
  - intros f q I _. rewrite (I2 f I). exact V.
Qed.
Definition zeros : list (lod_level VDouble) := [(lod_cell, fun _ => B754_zero false); (lod_cell, fun _ => B754_zero false)].
Example C76_monotone_instance : forall r s, lod_sample VDouble three (V3 0 0 0) zeros f_one f_one f_one four = Ok r ->
  lod_sample VDouble three (V3 0 0 0) ones f_one f_one f_one four = Ok s -> B2R r <= B2R s.
Proof.
  intros r s. apply C76_monotone; auto using ones_ok, size_three, shift_zero, place_one.
  - split; [discriminate|]. split; [cbn; lia|]. intros f I. assert (E : f = (lod_cell, fun _ => B754_zero false)) by (destruct I as [<-|[<-|[]]]; reflexivity). subst f.
    split; [unfold box_nonempty; cbn; lia|]. intros q _. split; [reflexivity|]. cbn [snd B2R]. rewrite Rabs_R0. apply pow_le. lra.
  - assert (H : forall q : v3, B2R (B754_zero false : val VDouble) <= B2R (f_one : val VDouble)) by (intros _; rewrite (proj2 one_64); cbn [B2R]; lra).
    unfold zeros, ones. apply Forall2_cons; [split; [reflexivity|intros q _; exact (H q)]|]. apply Forall2_cons; [split; [reflexivity|intros q _; exact (H q)]|]. apply Forall2_nil.
Qed.
Example C76_side_instance : B2R (lod_base f_one f_one f_one) = rnd VFloat (Rmin (Rmin 1 1) 1).
Proof.
  assert (P : Rabs 1 <= 2 ^ 127) by (rewrite Rabs_R1; apply pow_R1_Rle; lra). pose proof (proj2 one_64) as V.
  destruct (C76_side f_one f_one f_one) as (_ & E); try reflexivity; try (rewrite V; exact P). rewrite E, V. reflexivity.
Qed.
