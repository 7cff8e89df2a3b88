(** Rounding in the filtering of MIP levels: the values. *)
From Coq Require Import ZArith Reals List Bool Lia Lra.
From Flocq Require Import Core BinarySingleNaN Relative.
From Verif Require Import Model.Base Model.LoopM Model.FilterM Model.MipM Model.FloatM Model.FloatMipM.
From Verif Require Import Proof.BaseP Proof.FloatP Proof.FloatP2 Proof.FloatMipP.
Import ListNotations.
Open Scope R_scope.

Definition good {t} (v : val t) : Prop := is_finite v = true /\ (t <> VHalf -> Rabs (B2R v) < bpow radix2 (emax t - 1)).
Lemma fmt_ct t x : vfmt t x -> vfmt (ct t) x.
Proof. destruct t; auto. apply (incl 11 24 (-24) (-149)); lia. Qed.
Lemma top_ct t : top t <= top (ct t).
Proof.
  destruct t; try (apply Rle_refl). cbn [ct]. apply Rlt_le. eapply Rlt_le_trans; [apply top_lt|].
  unfold top. assert (A : bpow radix2 (emax VFloat) = 2 * bpow radix2 127) by (change (emax VFloat) with (1 + 127)%Z; rewrite bpow_plus; reflexivity).
  assert (bpow radix2 (emax VFloat - prec VFloat) <= bpow radix2 127) by (apply bpow_le; cbn; lia).
  assert (bpow radix2 (emax VHalf) <= bpow radix2 127) by (apply bpow_le; cbn; lia). lra.
Qed.
Lemma up_ok t (v : val t) : is_finite v = true -> is_finite (cast (ct t) v) = true /\ B2R (cast (ct t) v) = B2R v.
Proof.
  intros F. destruct (cast_ok t (ct t) v F) as (P & Q); [unfold fits; eapply Rle_trans; [apply top_ge|apply top_ct]|].
  rewrite rnd_fmt in Q; auto. apply fmt_ct, fmt_val.
Qed.
Lemma ct_not t : ct t <> VHalf.
Proof. destruct t; discriminate. Qed.
Lemma small_int_cast t (w : val VFloat) k : is_finite w = true -> B2R w = IZR k -> (Z.abs k <= 2 ^ 10)%Z ->
  is_finite (cast (ct t) w) = true /\ B2R (cast (ct t) w) = IZR k.
Proof.
  intros F V K. destruct (cast_ok VFloat (ct t) w F) as (P & Q).
  { rewrite V. apply (fits_le _ (2 ^ 10)); [rewrite <- abs_IZR; apply IZR_le; auto|lia|apply ct_not]. }
  split; auto. rewrite Q, V. apply rnd_fmt, int_fmt. destruct t; cbn [ct prec]; lia.
Qed.
(** One term of the sum. *)
Lemma term_ok t (v : val t) : is_finite v = true ->
  is_finite (vmul (cast (ct t) v) (cast (ct t) w1)) = true /\ B2R (vmul (cast (ct t) v) (cast (ct t) w1)) = B2R v.
Proof.
  intros F. destruct (up_ok t v F) as (UF & UV). destruct w1_ok as (WF & WV). destruct (small_int_cast t w1 1 WF WV) as (CF & CV); [lia|].
  destruct (vmul_ok (ct t) _ _ UF CF) as (P & Q); [rewrite UV, CV, Rmult_1_r; unfold fits; eapply Rle_trans; [apply top_ge|apply top_ct]|].
  split; auto. rewrite Q, UV, CV, Rmult_1_r. apply rnd_fmt, fmt_ct, fmt_val.
Qed.
(** Two terms do not overflow. *)
Lemma two_fit t (x y : val t) : good x -> good y -> fits (ct t) (B2R x + B2R y) /\ Rabs (B2R x) <= top (ct t) / 2 /\ Rabs (B2R y) <= top (ct t) / 2.
Proof.
  assert (H : forall z : val t, good z -> Rabs (B2R z) <= top (ct t) / 2).
  { intros z (F & G). destruct t.
    - pose proof (top_ge VHalf z) as A. cbn [ct]. eapply Rle_trans; [exact A|]. apply Rlt_le. eapply Rlt_le_trans; [apply top_lt|].
      unfold top. assert (E : bpow radix2 (emax VFloat) = 2 * bpow radix2 127) by (change (emax VFloat) with (1 + 127)%Z; rewrite bpow_plus; reflexivity).
      assert (bpow radix2 (emax VFloat - prec VFloat) <= bpow radix2 126) by (apply bpow_le; cbn; lia).
      assert (bpow radix2 (emax VHalf) <= bpow radix2 126) by (apply bpow_le; cbn; lia).
      assert (bpow radix2 127 = 2 * bpow radix2 126) by (change 127%Z with (1 + 126)%Z; rewrite bpow_plus; reflexivity). pose proof (bpow_gt_0 radix2 126). lra.
    - cbn [ct]. specialize (G ltac:(discriminate)). change (emax VFloat - 1)%Z with 127%Z in G.
      assert (P : Rabs (B2R z) <= pred radix2 (fx VFloat) (bpow radix2 127)).
      { apply pred_ge_gt; auto; try typeclasses eauto; [apply generic_format_abs, fmt_val|apply generic_format_bpow; cbn; lia]. }
      rewrite pred_bpow in P. change (fx VFloat 127) with 103%Z in P. assert (E : top VFloat = 2 * (bpow radix2 127 - bpow radix2 103)).
      { unfold top. rewrite Rmult_minus_distr_l. change 2 with (bpow radix2 1). rewrite <- !bpow_plus. reflexivity. }
      rewrite E. lra.
    - cbn [ct]. specialize (G ltac:(discriminate)). change (emax VDouble - 1)%Z with 1023%Z in G.
      assert (P : Rabs (B2R z) <= pred radix2 (fx VDouble) (bpow radix2 1023)).
      { apply pred_ge_gt; auto; try typeclasses eauto; [apply generic_format_abs, fmt_val|apply generic_format_bpow; cbn; lia]. }
      rewrite pred_bpow in P. change (fx VDouble 1023) with 970%Z in P. assert (E : top VDouble = 2 * (bpow radix2 1023 - bpow radix2 970)).
      { unfold top. rewrite Rmult_minus_distr_l. change 2 with (bpow radix2 1). rewrite <- !bpow_plus. reflexivity. }
      rewrite E. lra. }
  intros X Y. pose proof (H x X). pose proof (H y Y). split; [|auto]. unfold fits. eapply Rle_trans; [apply Rabs_triang|]. lra.
Qed.

(** * The average of two values, rounded *)
Definition avg (t : vtype) (x y : R) : R := rnd t (rnd (ct t) (rnd (ct t) (x + y) / 2)).
Lemma avg_mono t x y x' y' : x <= x' -> y <= y' -> avg t x y <= avg t x' y'.
Proof. intros. unfold avg. apply rnd_le, rnd_le. assert (rnd (ct t) (x + y) <= rnd (ct t) (x' + y')) by (apply rnd_le; lra). lra. Qed.
Lemma avg_same t x : vfmt t x -> avg t x x = x.
Proof.
  intros F. unfold avg. replace (x + x) with (2 * x) by ring. rewrite (rnd_fmt (ct t) (2 * x)) by (apply double_fmt, fmt_ct; auto).
  replace (2 * x / 2) with x by field. rewrite (rnd_fmt (ct t)) by (apply fmt_ct; auto). apply rnd_fmt. auto.
Qed.
Lemma avg_le t x y M : vfmt t M -> x <= M -> y <= M -> avg t x y <= M.
Proof. intros F X Y. rewrite <- (avg_same t M F). apply avg_mono; auto. Qed.
Lemma avg_ge t x y M : vfmt t M -> M <= x -> M <= y -> M <= avg t x y.
Proof. intros F X Y. rewrite <- (avg_same t M F). apply avg_mono; auto. Qed.
Definition tiny (t : vtype) : R := bpow radix2 (2 - emax t - prec t).
Definition unit (t : vtype) : R := bpow radix2 (- prec t).
Lemma rnd_err t x : Rabs (rnd t x - x) <= unit t * Rabs x + tiny t.
Proof.
  destruct (error_N_FLT radix2 (3 - emax t - prec t) (prec t) (gt_prec t) (fun x => negb (Z.even x)) x) as (e & h & A & B & _ & E).
  unfold rnd. rewrite fx_flt. rewrite E. replace (x * (1 + e) + h - x) with (e * x + h) by ring.
  eapply Rle_trans; [apply Rabs_triang|]. rewrite Rabs_mult. apply Rplus_le_compat.
  - apply Rmult_le_compat_r; [apply Rabs_pos|]. eapply Rle_trans; [exact A|]. apply Req_le. unfold u_ro, unit.
    change (/ 2) with (bpow radix2 (-1)). rewrite <- bpow_plus. f_equal. lia.
  - eapply Rle_trans; [exact B|]. apply Req_le. unfold tiny. change (/ 2) with (bpow radix2 (-1)). rewrite <- bpow_plus. f_equal. lia.
Qed.

(** * One row *)
Definition row t value tgt add n : res (val t) :=
  let* o := fm_line t w1 value tgt add 0 (n - 1) in Ok (match o with Some v => v | None => B754_zero false end).
Definition near (tgt add : Z) : Prop := (Z.abs tgt <= 2 ^ 26 /\ Z.abs add <= 2 ^ 26 /\ Z.abs (2 * tgt + 1 - add) < 2 ^ 24)%Z.
Definition loop t (value : Z -> res (val t)) (l : list Z) : res (val VFloat * val (ct t)) :=
  each (fun s acc =>
      let* v := value s in
      Ok (vadd (fst acc) w1, vadd (snd acc) (vmul (cast (ct t) v) (cast (ct t) w1)))) l (B754_zero false, B754_zero false).
Definition finish t (acc : val VFloat * val (ct t)) : val t :=
  if Bltb (B754_zero false) (fst acc) && negb (Beqb (snd acc) (B754_zero false)) then cast t (vdiv (snd acc) (cast (ct t) (fst acc))) else B754_zero false.
Lemma each_ext {A S} (f g : A -> S -> res S) l s : (forall a s, In a l -> f a s = g a s) -> each f l s = each g l s.
Proof. revert s. induction l as [|a l IH]; intros s H; cbn [each]; auto. rewrite (H a s) by (left; auto). destruct (g a s); cbn [bind]; auto. apply IH. intros. apply H. right. auto. Qed.
Lemma in_zrange x lo hi : In x (zrange lo hi) -> (lo <= x <= hi)%Z.
Proof. unfold zrange. rewrite in_map_iff. intros (k & <- & K). apply in_seq in K. lia. Qed.
Lemma row_loop t value tgt add n : near tgt add ->
  row t value tgt add n = (let* acc := loop t value (zrange (Z.max (2 * tgt - add) 0) (Z.min (2 * tgt + 1 - add) (n - 1))) in Ok (finish t acc)).
Proof.
  intros (T & A & H). destruct (interval tgt add T A H) as (I1 & I2). unfold row, fm_line. rewrite I1. cbn [bind]. rewrite I2. cbn [bind].
  rewrite (i32_ok (2 * tgt + 2 - add - 1)) by (unfold in_int, int_min, int_max; lia). cbn [bind]. replace (2 * tgt + 2 - add - 1)%Z with (2 * tgt + 1 - add)%Z by lia.
  unfold loop. match goal with |- context [each ?f ?l ?s] => set (F := f); set (L := l) end.
  rewrite (each_ext F (fun s acc => let* v := value s in Ok (vadd (fst acc) w1, vadd (snd acc) (vmul (cast (ct t) v) (cast (ct t) w1)))) L).
  2:{ intros s acc I. apply in_zrange in I. unfold F. rewrite weight_one by (auto; lia). reflexivity. }
  destruct (each _ L _) as [[aw av]| |]; cbn [bind]; auto. unfold finish. cbn [fst snd].
  destruct (Bltb (B754_zero false) aw && negb (Beqb av (B754_zero false))); reflexivity.
Qed.
Lemma zero_ok t : is_finite (B754_zero false : val t) = true /\ B2R (B754_zero false : val t) = 0.
Proof. split; reflexivity. Qed.
Lemma finish_ok t aw (av : val (ct t)) k : is_finite aw = true -> B2R aw = IZR k -> (1 <= k <= 2 ^ 10)%Z -> is_finite av = true -> fits t (B2R av / IZR k) ->
  is_finite (finish t (aw, av)) = true /\ B2R (finish t (aw, av)) = rnd t (rnd (ct t) (B2R av / IZR k)).
Proof.
  intros WF WV K AF Ft. unfold finish. cbn [fst snd].
  assert (K1 : 1 <= IZR k) by (apply IZR_le; lia).
  assert (L : Bltb (B754_zero false) aw = true).
  { rewrite (Bltb_correct (prec VFloat) (emax VFloat)) by auto. apply Rlt_bool_true. change (0 < B2R aw). rewrite WV. lra. }
  rewrite L. cbn [andb].
  assert (E : Beqb av (B754_zero false) = Req_bool (B2R av) 0) by (rewrite (Beqb_correct (prec (ct t)) (emax (ct t))) by auto; reflexivity).
  rewrite E. destruct (Req_bool_spec (B2R av) 0) as [Z|NZ]; cbn [negb].
  - rewrite Z. replace (0 / IZR k) with 0 by (unfold Rdiv; ring). rewrite !rnd_0. apply zero_ok.
  - destruct (small_int_cast t aw k WF WV) as (CF & CV); [lia|].
    destruct (vdiv_ok (ct t) av (cast (ct t) aw) AF) as (DF & DV); [rewrite CV; lra|rewrite CV; unfold fits in *; eapply Rle_trans; [exact Ft|apply top_ct]|].
    rewrite CV in DV. destruct (cast_ok (ct t) t _ DF) as (P & Q).
    { rewrite DV. unfold fits. apply abs_round_le_generic; try typeclasses eauto; [apply fmt_ct, top_fmt|exact Ft]. }
    rewrite DV in Q. auto.
Qed.
Lemma count1 : is_finite (vadd (B754_zero false) w1) = true /\ B2R (vadd (B754_zero false) w1) = 1.
Proof. split; [reflexivity|]. cbn. unfold F2R. cbn. lra. Qed.
Lemma count2 : is_finite (vadd (vadd (B754_zero false) w1) w1) = true /\ B2R (vadd (vadd (B754_zero false) w1) w1) = 2.
Proof. split; [reflexivity|]. cbn. unfold F2R. cbn. lra. Qed.
Lemma first_ok t (v : val t) : is_finite v = true ->
  is_finite (vadd (B754_zero false) (vmul (cast (ct t) v) (cast (ct t) w1))) = true /\ B2R (vadd (B754_zero false) (vmul (cast (ct t) v) (cast (ct t) w1))) = B2R v.
Proof.
  intros F. destruct (term_ok t v F) as (TF & TV). destruct (zero_ok (ct t)) as (ZF & ZV).
  destruct (vadd_ok (ct t) (B754_zero false) _ ZF TF) as (P & Q); rewrite ZV, TV, Rplus_0_l in *.
  - unfold fits. eapply Rle_trans; [apply top_ge|apply top_ct].
  - split; auto. rewrite Q. apply rnd_fmt, fmt_ct, fmt_val.
Qed.
Lemma row_one t value tgt add n s v : near tgt add -> zrange (Z.max (2 * tgt - add) 0) (Z.min (2 * tgt + 1 - add) (n - 1)) = [s] ->
  value s = Ok v -> is_finite v = true -> exists r, row t value tgt add n = Ok r /\ is_finite r = true /\ B2R r = B2R v.
Proof.
  intros N L V F. rewrite row_loop, L by auto. unfold loop. cbn [each]. rewrite V. cbn [bind fst snd].
  destruct (first_ok t v F) as (AF & AV). destruct count1 as (WF & WV).
  eexists. split; [reflexivity|]. destruct (finish_ok t _ _ 1 WF WV ltac:(lia) AF) as (P & Q); rewrite AV in *.
  - unfold Rdiv. rewrite Rinv_1, Rmult_1_r. apply top_ge.
  - split; [exact P|]. eapply eq_trans; [exact Q|]. unfold Rdiv. rewrite Rinv_1, Rmult_1_r. rewrite (rnd_fmt (ct t)) by apply fmt_ct, fmt_val. apply rnd_fmt, fmt_val.
Qed.
Lemma fmt_Rmax t x y : vfmt t x -> vfmt t y -> vfmt t (Rmax x y).
Proof. intros. unfold Rmax. destruct (Rle_dec x y); auto. Qed.
Lemma row_two t value tgt add n s s' v v' : near tgt add -> zrange (Z.max (2 * tgt - add) 0) (Z.min (2 * tgt + 1 - add) (n - 1)) = [s; s'] ->
  value s = Ok v -> good v -> value s' = Ok v' -> good v' -> exists r, row t value tgt add n = Ok r /\ is_finite r = true /\ B2R r = avg t (B2R v) (B2R v').
Proof.
  intros N L V G V' G'. rewrite row_loop, L by auto. unfold loop. cbn [each]. rewrite V. cbn [bind fst snd]. rewrite V'. cbn [bind fst snd].
  pose proof G as (F & _). pose proof G' as (F' & _). destruct (two_fit t v v' G G') as (Ft & _ & _).
  destruct (first_ok t v F) as (AF & AV). destruct (term_ok t v' F') as (BF & BV). destruct count2 as (WF & WV).
  destruct (vadd_ok (ct t) _ _ AF BF) as (SF & SV); [rewrite AV, BV; auto|]. rewrite AV, BV in SV.
  eexists. split; [reflexivity|]. destruct (finish_ok t _ _ 2 WF WV ltac:(lia) SF) as (P & Q); rewrite SV in *; [|split; auto].
  set (M := Rmax (Rabs (B2R v)) (Rabs (B2R v'))).
  assert (FM : vfmt t M) by (apply fmt_Rmax; apply generic_format_abs, fmt_val).
  assert (HM : Rabs (rnd (ct t) (B2R v + B2R v')) <= 2 * M).
  { apply abs_round_le_generic; try typeclasses eauto; [apply double_fmt, fmt_ct; auto|]. eapply Rle_trans; [apply Rabs_triang|].
    pose proof (Rmax_l (Rabs (B2R v)) (Rabs (B2R v'))). pose proof (Rmax_r (Rabs (B2R v)) (Rabs (B2R v'))). fold M in H, H0. lra. }
  unfold fits, Rdiv. rewrite Rabs_mult, (Rabs_pos_eq (/ 2)) by lra.
  assert (M <= top t) by (apply Rmax_lub; apply top_ge). lra.
Qed.
Lemma row_none t value tgt add n : near tgt add -> zrange (Z.max (2 * tgt - add) 0) (Z.min (2 * tgt + 1 - add) (n - 1)) = [] ->
  row t value tgt add n = Ok (B754_zero false).
Proof. intros N L. rewrite row_loop, L by auto. reflexivity. Qed.
