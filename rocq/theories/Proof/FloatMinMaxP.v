(** Minimum and maximum levels in floating point. *)
From Coq Require Import ZArith Reals List Bool Lia Lra.
From Flocq Require Import Core BinarySingleNaN.
From Verif Require Import Model.Base Model.LoopM Model.FilterM Model.MipM Model.FloatM Model.FloatMipM Model.FloatMinMaxM.
From Verif Require Import Spec.VoxelSpec Spec.FilterSpec Spec.MipSpec Spec.FloatMipSpec Spec.FloatCubicSpec Spec.FloatMinMaxSpec.
From Verif Require Import Proof.BaseP Proof.MipP3 Proof.MipP4 Proof.MipExtP Proof.FloatP Proof.FloatP2 Proof.FloatMipP Proof.FloatMipP2 Proof.FloatMipP3 Proof.FloatMipP4.
Import ListNotations.
Open Scope R_scope.

(** * Comparison as an order of reals: infinities are put beyond all numbers. *)
Definition inf : R := bpow radix2 1024.
Definition key {t} (x : val t) : R := match x with B754_infinity s => if s then - inf else inf | _ => B2R x end.
Lemma finite_inf t (x : val t) : is_finite x = true -> - inf < B2R x < inf.
Proof.
  intros _. assert (H : Rabs (B2R x) < inf) by (eapply Rlt_le_trans; [apply abs_B2R_lt_emax|apply bpow_le; destruct t; cbn; lia]). apply Rabs_def2 in H. lra.
Qed.
Lemma inf_pos : 0 < inf. Proof. apply bpow_gt_0. Qed.
Lemma ltb_key t (x y : val t) : is_nan x = false -> is_nan y = false -> Bltb x y = Rlt_bool (key x) (key y).
Proof.
  intros X Y. destruct (is_finite x) eqn:FX; destruct (is_finite y) eqn:FY.
  - replace (key x) with (B2R x) by (destruct x; try discriminate; reflexivity). replace (key y) with (B2R y) by (destruct y; try discriminate; reflexivity). apply Bltb_correct; auto.
  - pose proof (finite_inf t x FX). destruct y as [|[]| |]; try discriminate; unfold key; (replace (match x with B754_infinity s => if s then - inf else inf | _ => B2R x end) with (B2R x) by (destruct x; try discriminate; reflexivity)).
    + rewrite Rlt_bool_false by lra. destruct x as [[]|[]| |[]]; try discriminate; reflexivity.
    + rewrite Rlt_bool_true by lra. destruct x as [[]|[]| |[]]; try discriminate; reflexivity.
  - pose proof (finite_inf t y FY). destruct x as [|[]| |]; try discriminate; unfold key; (replace (match y with B754_infinity s => if s then - inf else inf | _ => B2R y end) with (B2R y) by (destruct y; try discriminate; reflexivity)).
    + rewrite Rlt_bool_true by lra. destruct y as [[]|[]| |[]]; try discriminate; reflexivity.
    + rewrite Rlt_bool_false by lra. destruct y as [[]|[]| |[]]; try discriminate; reflexivity.
  - pose proof inf_pos. destruct x as [|[]| |]; try discriminate; destruct y as [|[]| |]; try discriminate; unfold key; cbn;
      first [rewrite Rlt_bool_true by lra; reflexivity|rewrite Rlt_bool_false by lra; reflexivity].
Qed.
Lemma ltb_nan t (x y : val t) : is_nan x = true \/ is_nan y = true -> Bltb x y = false.
Proof. intros [H|H]; [destruct x; try discriminate; reflexivity|]. destruct y; try discriminate. destruct x as [[]|[]| |[]]; reflexivity. Qed.
Lemma leb_key t (x y : val t) : is_nan x = false -> is_nan y = false -> Bleb x y = Rle_bool (key x) (key y).
Proof.
  intros X Y. assert (E : Bleb x y = negb (Bltb y x)).
  { unfold Bleb, Bltb, SpecFloat.SFleb, SpecFloat.SFltb. destruct x as [[]|[]| |[] m e]; try discriminate; destruct y as [[]|[]| |[] m' e']; try discriminate; try reflexivity; cbn [B2SF SpecFloat.SFcompare];
      rewrite (Z.compare_antisym e e'); destruct (Z.compare e e'); cbn; auto; change (Pos.compare_cont Eq) with Pos.compare; rewrite (Pos.compare_antisym m m'); destruct (Pos.compare m m'); reflexivity. }
  rewrite E, ltb_key by auto. destruct (Rle_bool_spec (key x) (key y)); destruct (Rlt_bool_spec (key y) (key x)); auto; lra.
Qed.
Lemma eqb_key t (x y : val t) : is_nan x = false -> is_nan y = false -> Beqb x y = true <-> key x = key y.
Proof.
  intros X Y. assert (E : Beqb x y = Bleb x y && Bleb y x).
  { unfold Bleb, Beqb, SpecFloat.SFleb, SpecFloat.SFeqb. destruct x as [[]|[]| |[] m e]; try discriminate; destruct y as [[]|[]| |[] m' e']; try discriminate; try reflexivity; cbn [B2SF SpecFloat.SFcompare];
      rewrite (Z.compare_antisym e e'); destruct (Z.compare e e'); cbn; auto; change (Pos.compare_cont Eq) with Pos.compare; rewrite (Pos.compare_antisym m m'); destruct (Pos.compare m m'); reflexivity. }
  rewrite E, !leb_key by auto. destruct (Rle_bool_spec (key x) (key y)); destruct (Rle_bool_spec (key y) (key x)); cbn; split; intros; try discriminate; auto; lra.
Qed.
(** Conversions. *)
Lemma up_key t (v : val t) : is_nan (cast (ct t) v) = is_nan v /\ (is_nan v = false -> key (cast (ct t) v) = key v).
Proof.
  destruct (is_finite v) eqn:F.
  - destruct (up_ok t v F) as (P & Q). split; [destruct v; try discriminate; destruct (cast _ _); try discriminate; reflexivity|]. intros _.
    replace (key v) with (B2R v) by (destruct v; try discriminate; reflexivity). rewrite <- Q. destruct (cast _ _); try discriminate; reflexivity.
  - destruct v; try discriminate; cbn; split; auto.
Qed.
Lemma back_key t (v : val t) : is_nan v = false -> is_nan (cast t (cast (ct t) v)) = false /\ key (cast t (cast (ct t) v)) = key v.
Proof.
  intros N. destruct (is_finite v) eqn:F.
  - destruct (up_ok t v F) as (P & Q). destruct (cast_ok (ct t) t _ P) as (P' & Q'); [rewrite Q; apply top_ge|]. rewrite Q in Q'.
    rewrite rnd_fmt in Q' by apply fmt_val. replace (key v) with (B2R v) by (destruct v; try discriminate; reflexivity). rewrite <- Q'.
    destruct (cast t (cast (ct t) v)); try discriminate; split; reflexivity.
  - destruct v; try discriminate; split; reflexivity.
Qed.

(** * The filter *)
(** The order in which the filter looks for the least. *)
Definition ky {t} (k : extreme) (x : val t) : R := match k with Lowest => key x | Highest => - key x end.
Definition big : R := largest VFloat.
Lemma op_nan k t (a b : val t) : is_nan b = true -> fx_op k a b = a.
Proof. intros H. unfold fx_op. destruct k; rewrite ltb_nan; auto. Qed.
Lemma op_key k t (a b : val t) : is_nan a = false -> is_nan b = false -> fx_op k a b = if Rlt_bool (ky k b) (ky k a) then b else a.
Proof.
  intros A B. unfold fx_op, ky. destruct k; rewrite ltb_key by auto; auto.
  destruct (Rlt_bool_spec (key a) (key b)); [rewrite Rlt_bool_true by lra|rewrite Rlt_bool_false by lra]; auto.
Qed.
Definition initial k t : val (ct t) := cast (ct t) (fx_initial k).
Lemma initial_SF k t : B2SF (initial k t) = SpecFloat.S754_finite (match k with Lowest => false | Highest => true end)
  (match t with VDouble => 9007198717870080 | _ => 16777215 end) (match t with VDouble => 75 | _ => 104 end).
Proof. destruct k, t; vm_compute; reflexivity. Qed.
Lemma initial_ok k t : is_nan (initial k t) = false /\ ky k (initial k t) = big.
Proof.
  pose proof (initial_SF k t) as H. assert (N : is_finite (initial k t) = true) by (destruct (initial k t); try discriminate H; reflexivity).
  split; [destruct (initial k t); try discriminate; reflexivity|]. unfold ky. replace (key (initial k t)) with (B2R (initial k t)) by (destruct (initial k t); try discriminate; reflexivity).
  rewrite <- SF2R_B2SF, H. unfold big, largest, SF2R, F2R. cbn [Fnum Fexp].
  assert (E1 : bpow radix2 104 = 2 ^ 104) by (rewrite pow_bpow; reflexivity). assert (E2 : 536870912 * bpow radix2 75 = 2 ^ 104).
  { rewrite <- E1. change 104%Z with (29 + 75)%Z. rewrite bpow_plus. reflexivity. }
  assert (E3 : 2 ^ 24 = 16777216) by (simpl; lra). rewrite E3.
  destruct k, t; cbn [cond_Zopp]; rewrite ?opp_IZR; rewrite ?E1; try lra; rewrite <- E2; change (Z.opp 9007198717870080) with (-9007198717870080)%Z; lra.
Qed.

(** One row. *)
Definition xrow k t value tgt add n : res (val t) :=
  let* o := fx_line k t w1 value tgt add 0 (n - 1) in Ok (match o with Some v => v | None => B754_zero false end).
Definition xloop k t (value : Z -> res (val t)) (l : list Z) (a : val (ct t)) : res (val (ct t)) :=
  each (fun s acc => let* v := value s in Ok (fx_op k acc (cast (ct t) v))) l a.
Definition xfinish k t (acc : val (ct t)) : val t := if negb (Beqb acc (initial k t)) then cast t acc else B754_zero false.
Lemma xrow_loop k t value tgt add n : near tgt add ->
  xrow k t value tgt add n = (let* acc := xloop k t value (zrange (Z.max (2 * tgt - add) 0) (Z.min (2 * tgt + 1 - add) (n - 1))) (initial k t) in Ok (xfinish k t acc)).
Proof.
  intros (T & A & H). destruct (interval tgt add T A H) as (I1 & I2). unfold xrow, fx_line. rewrite I1. cbn [bind]. rewrite I2. cbn [bind].
  rewrite (i32_ok (2 * tgt + 2 - add - 1)) by (unfold in_int, int_min, int_max; lia). cbn [bind]. replace (2 * tgt + 2 - add - 1)%Z with (2 * tgt + 1 - add)%Z by lia.
  unfold xloop. match goal with |- context [each ?f ?l ?s] => set (F := f); set (L := l) end.
  rewrite (each_ext F (fun s acc => let* v := value s in Ok (fx_op k acc (cast (ct t) v))) L).
  2:{ intros s acc I. apply in_zrange in I. unfold F. rewrite weight_one by (auto; lia). reflexivity. }
  fold (initial k t). destruct (each _ L _) as [acc| |]; cbn [bind]; auto. unfold xfinish. destruct (Beqb acc (initial k t)); reflexivity.
Qed.
(** A voxel is read, and is a number or an infinity. *)
Definition seen {t} (r : res (val t)) (v : val t) : Prop := r = Ok v /\ is_nan v = false.
Lemma xloop_ok k t (value : Z -> res (val t)) l : forall a, is_nan a = false -> (forall s, In s l -> exists v, value s = Ok v) ->
  exists b, xloop k t value l a = Ok b /\ is_nan b = false /\ ky k b <= ky k a /\ (forall s v, In s l -> seen (value s) v -> ky k b <= ky k v) /\
    (b = a \/ exists s v, In s l /\ seen (value s) v /\ b = cast (ct t) v /\ ky k v < ky k a).
Proof.
  unfold xloop. induction l as [|s l IH]; intros a A H; cbn [each].
  - exists a. repeat split; auto; try lra. intros s v [].
  - destruct (H s (or_introl eq_refl)) as (v & V). rewrite V. cbn [bind]. destruct (up_key t v) as (UN & UK).
    assert (H' : forall s, In s l -> exists v, value s = Ok v) by (intros; apply H; right; auto).
    destruct (is_nan v) eqn:N.
    + rewrite op_nan by (rewrite UN; auto). destruct (IH a A H') as (b & B & BN & L & LV & C). exists b. repeat split; auto.
      * intros s' v' [<-|I] (S & SN); [congruence|]. apply (LV s'); auto. split; auto.
      * destruct C as [C|(s' & v' & I & C)]; auto. right. exists s', v'. split; [right; auto|auto].
    + rewrite op_key by (rewrite ?UN; auto). specialize (UK eq_refl). assert (K : ky k (cast (ct t) v) = ky k v) by (unfold ky; rewrite UK; auto).
      destruct (Rlt_bool_spec (ky k (cast (ct t) v)) (ky k a)) as [L|L].
      * destruct (IH (cast (ct t) v)) as (b & B & BN & Lb & LV & C); auto. exists b. repeat split; auto; try lra.
        -- intros s' v' [<-|I] (S & SN); [rewrite V in S; injection S as <-; lra|]. apply (LV s'); auto. split; auto.
        -- right. destruct C as [->|(s' & v' & I & S & E & C)]; [exists s, v; repeat split; auto; [left; auto|lra]|]. exists s', v'. repeat split; auto; try apply S; [right; auto|lra].
      * destruct (IH a A H') as (b & B & BN & Lb & LV & C). exists b. repeat split; auto.
        -- intros s' v' [<-|I] (S & SN); [rewrite V in S; injection S as <-; lra|]. apply (LV s'); auto. split; auto.
        -- destruct C as [C|(s' & v' & I & C)]; auto. right. exists s', v'. split; [right; auto|auto].
Qed.
Lemma inside_range tgt add n s : In s (zrange (Z.max (2 * tgt - add) 0) (Z.min (2 * tgt + 1 - add) (n - 1))) <-> inside tgt add n s.
Proof.
  rewrite inside_iff. split; intros H; [apply in_zrange in H; lia|]. unfold zrange. rewrite in_map_iff.
  exists (Z.to_nat (s - Z.max (2 * tgt - add) 0)). split; [lia|]. apply in_seq. lia.
Qed.
Lemma xrow_ok k t value tgt add n : near tgt add -> (forall s, inside tgt add n s -> exists v, value s = Ok v) ->
  exists r, xrow k t value tgt add n = Ok r /\ is_nan r = false /\ (forall s v, inside tgt add n s -> seen (value s) v -> ky k r <= ky k v) /\
    ((exists s v, inside tgt add n s /\ seen (value s) v /\ ky k r = ky k v) \/ forall s v, inside tgt add n s -> seen (value s) v -> big <= ky k v).
Proof.
  intros N H. rewrite xrow_loop by auto. set (L := zrange _ _). destruct (initial_ok k t) as (IN & IK).
  destruct (xloop_ok k t value L (initial k t) IN) as (b & B & BN & Lb & LV & C); [intros s I; apply H, inside_range, I|].
  rewrite B. cbn [bind]. eexists. split; [reflexivity|]. rewrite IK in *. unfold xfinish.
  assert (G : 0 < big). { unfold big, largest. apply Rmult_lt_0_compat; [simpl; lra|apply pow_lt; lra]. }
  destruct C as [->|(s & v & I & S & E & C)].
  - replace (Beqb (initial k t) (initial k t)) with true by (symmetry; apply eqb_key; auto). cbn [negb].
    assert (X : forall s v, inside tgt add n s -> seen (value s) v -> big <= ky k v).
    { intros s v I S. rewrite <- IK. apply (LV s v); auto. apply inside_range. auto. }
    split; [reflexivity|]. split; [|right; auto]. intros s v I S. specialize (X s v I S). replace (ky k (B754_zero false : val t)) with 0 by (destruct k; cbn; lra). lra.
  - assert (Q : Beqb b (initial k t) = false).
    { destruct (Beqb b (initial k t)) eqn:Q; auto. apply eqb_key in Q; auto. exfalso. destruct (up_key t v) as (_ & UK). specialize (UK (proj2 S)).
      rewrite E in Q. rewrite UK in Q. unfold ky in *. rewrite Q in C. destruct k; lra. }
    rewrite Q. cbn [negb]. rewrite E. destruct (back_key t v (proj2 S)) as (KN & KK). assert (KE : ky k (cast t (cast (ct t) v)) = ky k v) by (unfold ky; rewrite KK; auto).
    split; auto. rewrite KE. split.
    + intros s' v' I' S'. assert (J : ky k b <= ky k v') by (apply (LV s'); auto; apply inside_range; auto). rewrite E in J. destruct (up_key t v) as (_ & UK). unfold ky in *. rewrite UK in J; [auto|apply S].
    + left. exists s, v. split; [apply inside_range; auto|auto].
Qed.

(** One level: bounds. *)
Lemma xpass_row k t a add n value p : fx_pass k t w1 a add n value p = xrow k t (fun s => value (vset a p s)) (vget a p) add n.
Proof. reflexivity. Qed.
Lemma xlevel_defined k t add old value p : pad_ok add -> tell_apart p -> (forall q, beneath add old p q -> exists v, value q = Ok v) ->
  exists r, seen (fx_level k t w1 add old value p) r /\ forall q v, beneath add old p q -> seen (value q) v -> ky k r <= ky k v.
Proof.
  intros (AX & AY & AZ) (PX & PY & PZ) H. unfold fx_level. rewrite xpass_row.
  assert (R1 : forall z y, inside (vz p) (vz add) (vz old) z -> inside (vy p) (vy add) (vy old) y ->
    exists r, seen (fx_pass k t w1 AxX (vx add) (vx old) value (V3 (vx p) y z)) r /\ forall x v, inside (vx p) (vx add) (vx old) x -> seen (value (V3 x y z)) v -> ky k r <= ky k v).
  { intros z y IZ IY. rewrite xpass_row. cbn [vget vset vx vy vz]. destruct (xrow_ok k t (fun s => value (V3 s y z)) (vx p) (vx add) (vx old)) as (r & R & RN & L & _); [apply near_ok; auto| |exists r; repeat split; auto].
    intros x IX. apply H. unfold inside in *. unfold beneath, in_box, res_box. cbn [bmin bmax vx vy vz]. repeat split; lia. }
  assert (R2 : forall z, inside (vz p) (vz add) (vz old) z ->
    exists r, seen (fx_pass k t w1 AxY (vy add) (vy old) (fx_pass k t w1 AxX (vx add) (vx old) value) (V3 (vx p) (vy p) z)) r /\
      forall x y v, inside (vx p) (vx add) (vx old) x -> inside (vy p) (vy add) (vy old) y -> seen (value (V3 x y z)) v -> ky k r <= ky k v).
  { intros z IZ. rewrite xpass_row. cbn [vget vset vx vy vz]. destruct (xrow_ok k t (fun s => fx_pass k t w1 AxX (vx add) (vx old) value (V3 (vx p) s z)) (vy p) (vy add) (vy old)) as (r & R & RN & L & _); [apply near_ok; auto| |exists r; repeat split; auto].
    - intros y IY. destruct (R1 z y IZ IY) as (r & (R & _) & _). eauto.
    - intros x y v IX IY S. destruct (R1 z y IZ IY) as (r' & R' & L'). eapply Rle_trans; [apply (L y r'); auto|apply (L' x); auto]. }
  cbn [vget vset vx vy vz]. destruct (xrow_ok k t (fun s => fx_pass k t w1 AxY (vy add) (vy old) (fx_pass k t w1 AxX (vx add) (vx old) value) (V3 (vx p) (vy p) s)) (vz p) (vz add) (vz old)) as (r & R & RN & L & _); [apply near_ok; auto| |exists r; repeat split; auto].
  - intros z IZ. destruct (R2 z IZ) as (r & (R & _) & _). eauto.
  - intros [x y z] v ((X & Y & Z) & EX & EY & EZ) S. cbn [res_box bmin bmax vx vy vz] in *. assert (IZ : inside (vz p) (vz add) (vz old) z) by (unfold inside; lia).
    destruct (R2 z IZ) as (r' & R' & L'). eapply Rle_trans; [apply (L z r'); auto|apply (L' x y); auto; unfold inside; lia].
Qed.

(** One level: the bound is one of the voxels. *)
Definition picked {t} k (r : res (val t)) (K : R -> Prop) : Prop := exists v, seen r v /\ ky k v < big /\ K (ky k v).
Lemma xrow_picked k t value tgt add n K : near tgt add -> (forall s, inside tgt add n s -> picked k (value s) K) -> (exists s, inside tgt add n s) ->
  picked k (xrow k t value tgt add n) K.
Proof.
  intros N H (s0 & I0). destruct (xrow_ok k t value tgt add n N) as (r & R & RN & L & C); [intros s I; destruct (H s I) as (v & (V & _) & _); eauto|].
  exists r. split; [split; auto|]. destruct C as [(s & v & I & S & E)|C].
  - destruct (H s I) as (v' & (V' & N') & B & P). destruct S as (S & _). rewrite V' in S. injection S as <-. rewrite E. auto.
  - exfalso. destruct (H s0 I0) as (v & S & B & _). specialize (C s0 v I0 S). lra.
Qed.
Lemma xlevel_picked k t add old value p K : pad_ok add -> tell_apart p -> (forall q, beneath add old p q -> picked k (value q) K) ->
  (exists q, beneath add old p q) -> picked k (fx_level k t w1 add old value p) K.
Proof.
  intros (AX & AY & AZ) (PX & PY & PZ) H Ex.
  assert (EX : exists s, inside (vx p) (vx add) (vx old) s) by (destruct Ex as ([i j l] & (I & J & K') & X & Y & Z); exists i; unfold inside; cbn in *; lia).
  assert (EY : exists s, inside (vy p) (vy add) (vy old) s) by (destruct Ex as ([i j l] & (I & J & K') & X & Y & Z); exists j; unfold inside; cbn in *; lia).
  assert (EZ : exists s, inside (vz p) (vz add) (vz old) s) by (destruct Ex as ([i j l] & (I & J & K') & X & Y & Z); exists l; unfold inside; cbn in *; lia).
  unfold fx_level. rewrite xpass_row. apply xrow_picked; [apply near_ok; auto| |exact EZ]. intros z IZ. cbn [vget] in IZ.
  rewrite xpass_row. apply xrow_picked; [apply near_ok; auto| |exact EY]. intros y IY. cbn [vget vset vx vy vz] in IY.
  rewrite xpass_row. apply xrow_picked; [apply near_ok; auto| |exact EX]. intros x IX. cbn [vget vset vx vy vz] in IX.
  apply H. cbn [vset vx vy vz]. unfold inside in *. unfold beneath, in_box, res_box. cbn [bmin bmax vx vy vz]. repeat split; try lia.
Qed.

(** All levels. *)
Lemma xlevels_step k t base o value l old v : res_ok base -> (l <= 24)%nat ->
  fx_levels k t w1 base o value l = Ok (level_res base o l, halvings o l, v) -> old = level_res base o l ->
  fx_levels k t w1 base o value (S l) = Ok (level_res base o (S l), halvings o (S l), fx_level k t w1 (level_adds o (S l)) old v).
Proof.
  intros Rb L E ->. cbn [fx_levels]. rewrite E. cbn [bind]. rewrite mip_resolution_ok by auto. cbn [bind]. rewrite halvings_S, add_of_ok. reflexivity.
Qed.
Lemma size_covers b q l : (0 <= q < b)%Z -> (0 <= q / 2 ^ Z.of_nat l < level_size b 0 l)%Z.
Proof.
  intros H. induction l as [|l IH]; [cbn; rewrite Z.div_1_r, level_size_0; auto|].
  assert (P : (0 < 2 ^ Z.of_nat l)%Z) by (apply Z.pow_pos_nonneg; lia).
  rewrite Nat2Z.inj_succ, Z.pow_succ_r, (Z.mul_comm 2) by lia. rewrite <- Z.div_div by lia. rewrite level_size_zero. Z.div_mod_to_equations. lia.
Qed.
Lemma covered_beneath base l p q0 : in_box q0 (res_box base) -> covered (S l) q0 p ->
  exists q, covered l q0 q /\ beneath zero3 (level_res base zero3 l) p q.
Proof.
  intros (X0 & Y0 & Z0) (X & Y & Z). cbn [res_box bmin bmax vx vy vz] in *. assert (P : (0 < 2 ^ Z.of_nat l)%Z) by (apply Z.pow_pos_nonneg; lia).
  rewrite Nat2Z.inj_succ, Z.pow_succ_r, (Z.mul_comm 2) in X, Y, Z by lia. rewrite <- Z.div_div in X, Y, Z by lia.
  exists (V3 (vx q0 / 2 ^ Z.of_nat l) (vy q0 / 2 ^ Z.of_nat l) (vz q0 / 2 ^ Z.of_nat l))%Z. split; [unfold covered; auto|].
  unfold beneath, in_box. cbn [zero3 res_box level_res bmin bmax vx vy vz]. rewrite !Z.add_0_r.
  pose proof (size_covers (vx base) (vx q0) l ltac:(lia)). pose proof (size_covers (vy base) (vy q0) l ltac:(lia)). pose proof (size_covers (vz base) (vz q0) l ltac:(lia)). repeat split; auto; lia.
Qed.
Lemma xlevels_low k t base (value : v3 -> val t) : res_ok base -> forall l, (l <= 25)%nat ->
  exists v, fx_levels k t w1 base zero3 value l = Ok (level_res base zero3 l, halvings zero3 l, v) /\
    forall p, in_box p (res_box (level_res base zero3 l)) -> exists r, v p = Ok r /\ (is_nan r = true -> l = 0%nat) /\
      forall q, in_box q (res_box base) -> covered l q p -> is_nan (value q) = false -> is_nan r = false /\ ky k r <= ky k (value q).
Proof.
  intros Rb. induction l as [|l IH]; intros L.
  - exists (fun p => Ok (value p)). split; [cbn [fx_levels]; rewrite level_res_0, halvings_0; reflexivity|]. intros p P. exists (value p). split; auto. split; auto.
    intros q Q (X & Y & Z) N. cbn in X, Y, Z. rewrite Z.div_1_r in X, Y, Z. replace p with q by (destruct p, q; cbn in *; congruence). split; auto. lra.
  - destruct (IH ltac:(lia)) as (v & E & H). exists (fx_level k t w1 zero3 (level_res base zero3 l) v). split.
    { rewrite (xlevels_step k t base zero3 value l _ v Rb ltac:(lia) E eq_refl). rewrite pad_zero. reflexivity. }
    intros p P. destruct (xlevel_defined k t zero3 (level_res base zero3 l) v p) as (r & (R & N) & B); [apply zero_pad|eapply window_apart; eauto|intros q Q; destruct (H q (proj1 Q)) as (w & W & _); eauto|].
    exists r. split; auto. split; [intros; congruence|]. intros q Q C QN. split; auto. destruct (covered_beneath base l p q Q C) as (q1 & C1 & B1).
    destruct (H q1 (proj1 B1)) as (w & W & _ & LW). destruct (LW q Q C1 QN) as (WN & WL). eapply Rle_trans; [apply (B q1 w); auto; split; auto|auto].
Qed.
Lemma xlevels_picked k t base (value : v3 -> val t) : res_ok base -> (forall q, in_box q (res_box base) -> is_nan (value q) = false /\ ky k (value q) < big) ->
  forall l, (l <= 25)%nat -> forall v o, fx_levels k t w1 base zero3 value l = Ok (level_res base zero3 l, o, v) ->
    forall p, in_box p (res_box (level_res base zero3 l)) -> picked k (v p) (fun x => exists q, in_box q (res_box base) /\ covered l q p /\ x = ky k (value q)).
Proof.
  intros Rb G. induction l as [|l IH]; intros L v o E p P.
  - cbn [fx_levels] in E. injection E as _ _ <-. rewrite level_res_0 in P. destruct (G p P) as (N & B). exists (value p). split; [split; auto|]. split; auto. exists p. split; auto. split; auto. unfold covered. cbn. rewrite !Z.div_1_r. auto.
  - destruct (xlevels_low k t base value Rb l ltac:(lia)) as (w & W & _).
    rewrite (xlevels_step k t base zero3 value l _ w Rb ltac:(lia) W eq_refl), pad_zero in E. injection E as _ <-.
    apply xlevel_picked; [apply zero_pad|eapply window_apart; eauto| |apply beneath_ex; auto].
    intros q Q. destruct (IH ltac:(lia) w _ W q (proj1 Q)) as (u & S & B & (q0 & Q0 & C0 & E0)). exists u. split; auto. split; auto. exists q0. split; auto. split; auto. eapply beneath_covered; eauto.
Qed.

(** The specification's words. *)
Lemma bounds_ky k t (r v : val t) : is_nan r = false -> is_nan v = false -> bounds k r v <-> ky k r <= ky k v.
Proof.
  intros R V. unfold bounds, ky. destruct k; rewrite leb_key by auto.
  - destruct (Rle_bool_spec (key r) (key v)); split; intros; auto; try discriminate; lra.
  - destruct (Rle_bool_spec (key v) (key r)); split; intros; auto; try discriminate; lra.
Qed.
Lemma tellable_ky k t (v : val t) : tellable k v <-> is_nan v = false /\ ky k v < big.
Proof.
  assert (G : 0 < big < inf).
  { split; [unfold big, largest; apply Rmult_lt_0_compat; [simpl; lra|apply pow_lt; lra]|]. unfold big, largest, inf.
    apply Rlt_le_trans with (2 ^ 24 * 2 ^ 104); [apply Rmult_lt_compat_r; [apply pow_lt; lra|lra]|]. rewrite !pow_bpow, <- bpow_plus. apply bpow_le. cbn. lia. }
  unfold tellable, ky, key. fold big. destruct v as [s|s| |s m e H]; cbn [is_nan]; destruct k; try (split; [intros; split; auto; lra|intros (_ & ?); lra]).
  - destruct s; split; intros; auto; try discriminate; [split; auto; lra|destruct H; lra].
  - destruct s; split; intros; auto; try discriminate; [destruct H; lra|split; auto; lra].
  - split; [intros []|intros (? & _); discriminate].
  - split; [intros []|intros (? & _); discriminate].
Qed.
Lemma same_ky k t (r v : val t) : is_nan r = false -> is_nan v = false -> ky k r = ky k v -> Beqb r v = true.
Proof. intros R V E. apply eqb_key; auto. unfold ky in E. destruct k; lra. Qed.
