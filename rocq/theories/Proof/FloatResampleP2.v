(** Resampling in floating point: the results. *)
From Coq Require Import ZArith Reals List Bool Lia Lra.
From Flocq Require Import Core BinarySingleNaN.
From Verif Require Import Model.Base Model.LoopM Model.FilterM Model.MipM Model.FloatM Model.FloatMipM Model.FloatMinMaxM Model.FloatResampleM.
From Verif Require Import Spec.VoxelSpec Spec.FloatCubicSpec Spec.FloatMinMaxSpec Spec.FloatResampleSpec.
From Verif Require Import Proof.BaseP Proof.LoopP Proof.FloatP2 Proof.FloatMipP Proof.FloatMipP2 Proof.FloatMinMaxP Proof.FloatResampleP.
Import ListNotations.
Open Scope R_scope.

Definition frow f t value old new i : res (val t) :=
  let* o := fr_line f t value old new i in Ok (match o with Some v => v | None => B754_zero false end).
Lemma fpass_row f t a old new value p : fr_pass f t a old new value p = frow f t (fun s => value (vset a p s)) old new (vget a p).
Proof. reflexivity. Qed.
Lemma some_overlap old new i : (1 <= old)%Z -> (1 <= new)%Z -> (0 <= i < new)%Z -> overlap old new i (i * old / new).
Proof.
  intros O N I. pose proof (Z.div_mod (i * old) new ltac:(lia)). pose proof (Z.mod_pos_bound (i * old) new ltac:(lia)).
  assert (0 <= i * old / new)%Z by (apply Z.div_pos; nia). unfold overlap. repeat split; try nia.
Qed.
Lemma overlap_in old new i lo hi s : (forall s, overlap old new i s -> (lo <= s <= hi)%Z) -> overlap old new i s -> In s (zrange (Z.max lo 0) (Z.min hi (old - 1))).
Proof. intros H O. specialize (H s O). destruct O as (S & _). apply zrange_in. lia. Qed.

(** * Minimum and maximum *)
Definition start k t : val t := cast t (fx_initial k).
Lemma start_ok k t : is_nan (start k t) = false /\ big <= ky k (start k t).
Proof.
  destruct t; [|destruct (initial_ok k VFloat) as (A & B); split; [exact A|rewrite <- B; apply Rle_refl]|destruct (initial_ok k VDouble) as (A & B); split; [exact A|rewrite <- B; apply Rle_refl]].
  assert (E : start k VHalf = B754_infinity (match k with Lowest => false | Highest => true end)) by (destruct k; apply B2SF_inj; vm_compute; reflexivity).
  rewrite E. split; auto. assert (T : tellable k (B754_infinity (match k with Lowest => true | Highest => false end) : val VFloat)) by (destruct k; reflexivity).
  assert (G : big < inf). { unfold big, largest, inf. apply Rlt_le_trans with (2 ^ 24 * 2 ^ 104); [apply Rmult_lt_compat_r; [apply pow_lt; lra|lra]|]. rewrite !FloatMipP3.pow_bpow, <- bpow_plus. apply bpow_le. cbn. lia. }
  unfold ky, key. destruct k; lra.
Qed.
Definition eloop k t (value : Z -> res (val t)) (l : list (Z * val VFloat)) (a : val t) : res (val t) :=
  each (fun s acc => let* v := value (fst s) in Ok (if Bltb (B754_zero false) (snd s) then fx_op k acc v else acc)) l a.
Lemma eloop_ok k t (value : Z -> res (val t)) (o : Z -> bool) l : forall a, is_nan a = false -> (forall s, In s l -> exists v, value s = Ok v) ->
  exists b, eloop k t value (map (fun s => (s, if o s then w1 else zero32)) l) a = Ok b /\ is_nan b = false /\ ky k b <= ky k a /\
    (forall s v, In s l -> o s = true -> seen (value s) v -> ky k b <= ky k v) /\
    (b = a \/ exists s v, In s l /\ o s = true /\ seen (value s) v /\ b = v /\ ky k v < ky k a).
Proof.
  unfold eloop. induction l as [|s l IH]; intros a A H; cbn [map each fst snd].
  - exists a. repeat split; auto; try lra. intros s v [].
  - destruct (H s (or_introl eq_refl)) as (v & V). rewrite V. cbn [bind]. assert (H' : forall s, In s l -> exists v, value s = Ok v) by (intros; apply H; right; auto).
    destruct (o s) eqn:O.
    2: { change (Bltb (B754_zero false) zero32) with false. cbv iota. destruct (IH a A H') as (b & B & BN & L & LV & C). exists b. repeat split; auto.
      - intros s' v' [<-|I] Os S; [congruence|]. apply (LV s'); auto.
      - destruct C as [C|(s' & v' & I & C)]; auto. right. exists s', v'. split; [right; auto|auto]. }
    replace (Bltb (B754_zero false) w1) with true by (vm_compute; reflexivity). destruct (is_nan v) eqn:N.
    + rewrite op_nan by auto. destruct (IH a A H') as (b & B & BN & L & LV & C). exists b. repeat split; auto.
      * intros s' v' [<-|I] Os (S & SN); [congruence|]. apply (LV s'); auto. split; auto.
      * destruct C as [C|(s' & v' & I & C)]; auto. right. exists s', v'. split; [right; auto|auto].
    + rewrite op_key by auto. destruct (Rlt_bool_spec (ky k v) (ky k a)) as [L|L].
      * destruct (IH v N H') as (b & B & BN & Lb & LV & C). exists b. repeat split; auto; try lra.
        -- intros s' v' [<-|I] Os (S & SN); [rewrite V in S; injection S as <-; lra|]. apply (LV s'); auto. split; auto.
        -- right. destruct C as [->|(s' & v' & I & Os & S & E & C)]; [exists s, v; repeat split; auto; left; auto|]. exists s', v'. repeat split; auto; try apply S; [right; auto|lra].
      * destruct (IH a A H') as (b & B & BN & Lb & LV & C). exists b. repeat split; auto.
        -- intros s' v' [<-|I] Os (S & SN); [rewrite V in S; injection S as <-; lra|]. apply (LV s'); auto. split; auto.
        -- destruct C as [C|(s' & v' & I & C)]; auto. right. exists s', v'. split; [right; auto|auto].
Qed.
Lemma erow_ok k t value old new i : whole old new -> (0 <= i < new)%Z -> (forall s, (0 <= s < old)%Z -> exists v, value s = Ok v) ->
  exists r, frow (Extreme k) t value old new i = Ok r /\ is_nan r = false /\ (forall s v, overlap old new i s -> seen (value s) v -> ky k r <= ky k v) /\
    ((exists s v, overlap old new i s /\ seen (value s) v /\ ky k r = ky k v) \/ forall s v, overlap old new i s -> seen (value s) v -> big <= ky k v).
Proof.
  intros W I H. destruct (taps_ok old new i W I) as (lo & hi & T & In). unfold frow, fr_line. rewrite T. cbn [bind]. fold (start k t). destruct (start_ok k t) as (SN & SK).
  set (l := zrange (Z.max lo 0) (Z.min hi (old - 1))) in *. assert (IL : forall s, List.In s l -> (0 <= s < old)%Z) by (intros s S; apply zrange_in in S; lia).
  destruct (eloop_ok k t value (ov old new i) l (start k t) SN) as (b & B & BN & Lb & LV & C); [intros s S; apply H, IL, S|]. unfold eloop in B. rewrite B. cbn [bind].
  eexists. split; [reflexivity|]. assert (OV : forall s, overlap old new i s -> List.In s l /\ ov old new i s = true).
  { intros s O. split; [apply (overlap_in old new i lo hi); auto|]. apply ov_iff; auto. apply O. }
  assert (G : 0 < big). { unfold big, largest. apply Rmult_lt_0_compat; [simpl; lra|apply pow_lt; lra]. }
  destruct C as [->|(s & v & S & O & V & -> & C)].
  - replace (Beqb (start k t) (start k t)) with true by (symmetry; apply eqb_key; auto). cbn [negb].
    assert (X : forall s v, overlap old new i s -> seen (value s) v -> big <= ky k v).
    { intros s v O V. destruct (OV s O) as (S & O'). eapply Rle_trans; [exact SK|]. apply (LV s v); auto. }
    split; [reflexivity|]. split; [|right; auto]. intros s v O V. specialize (X s v O V). replace (ky k (B754_zero false : val t)) with 0 by (destruct k; cbn; lra). lra.
  - assert (Q : Beqb v (start k t) = false).
    { destruct (Beqb v (start k t)) eqn:Q; auto. apply eqb_key in Q; auto. exfalso. unfold ky in C. rewrite Q in C. destruct k; lra. }
    rewrite Q. cbn [negb]. split; auto. split.
    + intros s' v' O' V'. destruct (OV s' O'). apply (LV s'); auto.
    + left. exists s, v. split; [apply ov_iff; auto|auto].
Qed.
Lemma erow_picked k t value old new i K : whole old new -> (0 <= i < new)%Z -> (forall s, (0 <= s < old)%Z -> exists v, value s = Ok v) ->
  (forall s, overlap old new i s -> picked k (value s) K) -> picked k (frow (Extreme k) t value old new i) K.
Proof.
  intros W I H P. destruct (erow_ok k t value old new i W I H) as (r & R & RN & L & C). exists r. split; [split; auto|]. destruct C as [(s & v & O & S & E)|C].
  - destruct (P s O) as (v' & (V' & N') & B & Q). destruct S as (S & _). rewrite V' in S. injection S as <-. rewrite E. auto.
  - exfalso. destruct W as (O1 & N1 & _). pose proof (some_overlap old new i ltac:(lia) ltac:(lia) I) as O. destruct (P _ O) as (v & S & B & _). specialize (C _ v O S). lra.
Qed.
(** In space. *)
Definition within (n p : v3) : Prop := (0 <= vx p < vx n)%Z /\ (0 <= vy p < vy n)%Z /\ (0 <= vz p < vz n)%Z.
Lemma eall k t (value : v3 -> val t) old new p : whole3 old new -> within new p ->
  exists r, seen (fr_resample (Extreme k) t old new (fun q => Ok (value q)) p) r /\ (forall q, under old new p q -> is_nan (value q) = false -> ky k r <= ky k (value q)) /\
    ((forall q, under old new p q -> is_nan (value q) = false /\ ky k (value q) < big) -> exists q, under old new p q /\ ky k r = ky k (value q)).
Proof.
  intros (WX & WY & WZ) (PX & PY & PZ). unfold fr_resample.
  set (fx := fr_pass (Extreme k) t AxX (vx old) (vx new) (fun q => Ok (value q))). set (fy := fr_pass (Extreme k) t AxY (vy old) (vy new) fx).
  assert (R1 : forall y z, exists r, seen (fx (V3 (vx p) y z)) r /\ forall x, overlap (vx old) (vx new) (vx p) x -> is_nan (value (V3 x y z)) = false -> ky k r <= ky k (value (V3 x y z))).
  { intros y z. unfold fx. rewrite fpass_row. cbn [vget vset vx vy vz]. destruct (erow_ok k t (fun s => Ok (value (V3 s y z))) (vx old) (vx new) (vx p)) as (r & R & RN & L & _); eauto.
    exists r. split; [split; auto|]. intros x O N. apply (L x); auto. split; auto. }
  assert (R2 : forall z, exists r, seen (fy (V3 (vx p) (vy p) z)) r /\
    forall x y, overlap (vx old) (vx new) (vx p) x -> overlap (vy old) (vy new) (vy p) y -> is_nan (value (V3 x y z)) = false -> ky k r <= ky k (value (V3 x y z))).
  { intros z. unfold fy. rewrite fpass_row. cbn [vget vset vx vy vz]. destruct (erow_ok k t (fun s => fx (V3 (vx p) s z)) (vy old) (vy new) (vy p)) as (r & R & RN & L & _); auto.
    - intros s _. destruct (R1 s z) as (r & (R & _) & _). eauto.
    - exists r. split; [split; auto|]. intros x y OX OY N. destruct (R1 y z) as (r' & S' & L'). eapply Rle_trans; [apply (L y r'); auto|apply L'; auto]. }
  rewrite fpass_row. cbn [vget vset vx vy vz]. destruct (erow_ok k t (fun s => fy (V3 (vx p) (vy p) s)) (vz old) (vz new) (vz p)) as (r & R & RN & L & _); auto.
  - intros s _. destruct (R2 s) as (r & (R & _) & _). eauto.
  - exists r. split; [split; auto|]. split.
    + intros [x y z] (OX & OY & OZ) N. cbn [vx vy vz] in *. destruct (R2 z) as (r' & S' & L'). eapply Rle_trans; [apply (L z r'); auto|apply L'; auto].
    + intros T. assert (Q : picked k (frow (Extreme k) t (fun s => fy (V3 (vx p) (vy p) s)) (vz old) (vz new) (vz p)) (fun x => exists q, under old new p q /\ x = ky k (value q))).
      { apply erow_picked; auto; [intros s _; destruct (R2 s) as (r' & (R' & _) & _); eauto|]. intros z OZ. unfold fy. rewrite fpass_row. cbn [vget vset vx vy vz].
        apply erow_picked; auto; [intros s _; destruct (R1 s z) as (r' & (R' & _) & _); eauto|]. intros y OY. unfold fx. rewrite fpass_row. cbn [vget vset vx vy vz].
        apply erow_picked; eauto. intros x OX. assert (U : under old new p (V3 x y z)) by (unfold under; cbn; auto). destruct (T _ U) as (N & B). exists (value (V3 x y z)). split; [split; auto|]. split; auto. exists (V3 x y z). auto. }
      destruct Q as (v & (V & _) & _ & q & U & E). rewrite R in V. injection V as <-. eauto.
Qed.

(** * Mean, of voxels that are split or kept *)
Definition mstep t (value : Z -> res (val t)) (s : Z * val VFloat) (acc : val VFloat * val t) : res (val VFloat * val t) :=
  let* v := value (fst s) in Ok (vadd (fst acc) (snd s), cast t (vadd (cast (ct t) (snd acc)) (vmul (cast (ct t) v) (cast (ct t) (snd s))))).
Definition holds {t} (x : val t) (r : R) : Prop := is_finite x = true /\ B2R x = r.
Lemma weight_up t (w : val VFloat) r : holds w r -> r = 0 \/ r = 1 -> holds (cast (ct t) w : val (ct t)) r.
Proof.
  intros (F & V) H. destruct (cast_ok VFloat (ct t) w F) as (A & B); [rewrite V; apply (fits_le _ 1); [destruct H as [->| ->]; rewrite Rabs_pos_eq; lra|lia|destruct t; discriminate]|].
  split; auto. rewrite B, V. apply rnd_fmt. destruct H as [->| ->]; [apply (int_fmt _ 0)|apply (int_fmt _ 1)]; destruct t; cbn; lia.
Qed.
Lemma mstep_ok t (value : Z -> res (val t)) s (w aw : val VFloat) (av v : val t) ra rv rw : value s = Ok v -> is_finite v = true -> holds aw ra -> holds av rv -> holds w rw ->
  (rw = 0 /\ (ra = 0 \/ ra = 1)) \/ (rw = 1 /\ ra = 0 /\ rv = 0) ->
  exists aw' av', mstep t value (s, w) (aw, av) = Ok (aw', av') /\ holds aw' (ra + rw) /\ holds av' (rv + B2R v * rw).
Proof.
  intros V F (AF & AV) (BF & BV) (WF & WV) C. unfold mstep. cbn [fst snd]. rewrite V. cbn [bind]. eexists. eexists. split; [reflexivity|].
  assert (S : ra + rw = 0 \/ ra + rw = 1) by lra. split.
  - destruct (vadd_ok VFloat aw w AF WF) as (P & Q); rewrite AV, WV in *; [apply (fits_le _ 1); [rewrite Rabs_pos_eq; lra|lia|discriminate]|]. split; auto. rewrite Q. apply rnd_fmt.
    destruct S as [->| ->]; [apply (int_fmt _ 0)|apply (int_fmt _ 1)]; cbn; lia.
  - destruct (weight_up t w rw (conj WF WV)) as (UF & UV); [lra|]. destruct (up_ok t v F) as (VF & VV). destruct (up_ok t av BF) as (CF & CV).
    assert (VT : fits (ct t) (B2R v)) by (rewrite <- VV; apply top_ge). assert (BT : fits (ct t) (B2R av)) by (rewrite <- CV; apply top_ge).
    assert (Z0 : fits (ct t) 0) by (apply (fits_le _ 1); [rewrite Rabs_R0; lra|lia|destruct t; discriminate]).
    assert (VM : vfmt (ct t) (B2R v)) by (rewrite <- VV; apply fmt_val). assert (BM : vfmt (ct t) (B2R av)) by (rewrite <- CV; apply fmt_val).
    destruct (vmul_ok (ct t) (cast (ct t) v) (cast (ct t) w) VF UF) as (MF & MV); rewrite VV, UV in *.
    { destruct C as [(-> & _)|(-> & _)]; [rewrite Rmult_0_r; auto|rewrite Rmult_1_r; auto]. }
    assert (ME : rnd (ct t) (B2R v * rw) = B2R v * rw) by (destruct C as [(-> & _)|(-> & _)]; [rewrite Rmult_0_r; apply rnd_0|rewrite Rmult_1_r; apply rnd_fmt; auto]). rewrite ME in MV.
    assert (TOT : rv + B2R v * rw = B2R av \/ rv + B2R v * rw = B2R v) by (destruct C as [(-> & _)|(-> & _ & ->)]; [left; rewrite BV; ring|right; ring]).
    destruct (vadd_ok (ct t) (cast (ct t) av) (vmul (cast (ct t) v) (cast (ct t) w)) CF MF) as (SF & SV); rewrite CV, MV, BV in *; [destruct TOT as [->| ->]; auto|].
    rewrite rnd_fmt in SV by (destruct TOT as [->| ->]; auto).
    destruct (cast_ok (ct t) t _ SF) as (QF & QV); [rewrite SV; destruct TOT as [->| ->]; [rewrite <- BV|]; apply top_ge|]. split; auto. rewrite QV, SV. apply rnd_fmt. destruct TOT as [->| ->]; [rewrite <- BV|]; apply fmt_val.
Qed.
Lemma mskip t (value : Z -> res (val t)) (o : Z -> bool) l : (forall s, In s l -> o s = false /\ exists v, value s = Ok v /\ is_finite v = true) ->
  forall (aw : val VFloat) (av : val t) ra rv, holds aw ra -> holds av rv -> ra = 0 \/ ra = 1 ->
  exists aw' av', each (mstep t value) (map (fun s => (s, if o s then w1 else zero32)) l) (aw, av) = Ok (aw', av') /\ holds aw' ra /\ holds av' rv.
Proof.
  induction l as [|s l IH]; intros H aw av ra rv A B C; cbn [map each]; [eauto|]. destruct (H s (or_introl eq_refl)) as (O & v & V & F). rewrite O.
  destruct (mstep_ok t value s zero32 aw av v ra rv 0) as (aw1 & av1 & E & A1 & B1); auto; [split; reflexivity|]. rewrite E. cbn [bind].
  apply IH; auto; [intros; apply H; right; auto|replace ra with (ra + 0) by ring; auto|replace rv with (rv + B2R v * 0) by ring; auto].
Qed.
Lemma each_app {A S} (f : A -> S -> res S) l m s : each f (l ++ m) s = (let* x := each f l s in each f m x).
Proof. revert s. induction l as [|a l IH]; intros s; cbn [app each bind]; auto. destruct (f a s); cbn [bind]; auto. Qed.
Lemma mrow_ok t (value : Z -> res (val t)) old c i : (1 <= c)%Z -> whole old (c * old) -> (0 <= i < c * old)%Z ->
  (forall s, (0 <= s < old)%Z -> exists v, value s = Ok v /\ is_finite v = true) ->
  exists r, frow Mean t value old (c * old) i = Ok r /\ is_finite r = true /\ forall s v, overlap old (c * old) i s -> value s = Ok v -> B2R r = B2R v.
Proof.
  intros C W I H. destruct (taps_ok old (c * old) i W I) as (lo & hi & T & In). unfold frow, fr_line. rewrite T. cbn [bind].
  set (l := zrange (Z.max lo 0) (Z.min hi (old - 1))) in *. assert (IL : forall s, List.In s l -> (0 <= s < old)%Z) by (intros s S; apply zrange_in in S; lia).
  destruct W as (O1 & N1 & _). pose proof (some_overlap old (c * old) i ltac:(lia) ltac:(lia) I) as O. set (s0 := (i * old / (c * old))%Z) in *.
  assert (U : forall s, overlap old (c * old) i s -> s = s0).
  { intros s (S & A & B). destruct O as (S' & A' & B'). assert (s * c < i + 1)%Z by nia. assert (i < (s + 1) * c)%Z by nia. assert (s0 * c < i + 1)%Z by nia. assert (i < (s0 + 1) * c)%Z by nia. nia. }
  assert (I0 : List.In s0 l) by (apply (overlap_in old (c * old) i lo hi); auto). pose proof (zrange_nodup (Z.max lo 0) (Z.min hi (old - 1))) as ND. fold l in ND.
  apply in_split in I0 as (l1 & l2 & E). rewrite E in *. apply NoDup_remove in ND as (_ & ND). rewrite in_app_iff in ND.
  assert (SK : forall m, (forall s, List.In s m -> List.In s (l1 ++ s0 :: l2)) -> ~ List.In s0 m -> forall s, List.In s m -> ov old (c * old) i s = false /\ exists v, value s = Ok v /\ is_finite v = true).
  { intros m M Nm s S. split; [|apply H, IL, M, S]. destruct (ov old (c * old) i s) eqn:Q; auto. apply ov_iff in Q; [|apply IL, M, S]. exfalso. apply Nm. rewrite <- (U s Q). auto. }
  assert (O0 : ov old (c * old) i s0 = true) by (apply ov_iff; auto; apply O). destruct (H s0) as (v & V & F); [apply O|].
  change (fun (s : Z * val VFloat) (acc : val VFloat * val t) => let* v := value (fst s) in Ok (vadd (fst acc) (snd s), cast t (vadd (cast (ct t) (snd acc)) (vmul (cast (ct t) v) (cast (ct t) (snd s)))))) with (mstep t value).
  rewrite map_app, each_app. destruct (mskip t value (ov old (c * old) i) l1) with (aw := B754_zero false : val VFloat) (av := B754_zero false : val t) (ra := 0) (rv := 0) as (aw1 & av1 & E1 & A1 & B1); auto; try (split; reflexivity).
  { apply SK; [intros; apply in_app_iff; auto|tauto]. }
  match goal with |- context [each ?f ?l ?a] => replace (each f l a) with (Ok (aw1, av1)) by (symmetry; exact E1) end. cbn [bind map each]. rewrite O0. destruct w1_ok as (WF & WV).
  destruct (mstep_ok t value s0 w1 aw1 av1 v 0 0 1) as (aw2 & av2 & E2 & A2 & B2); auto; [split; auto|]. rewrite E2. cbn [bind].
  destruct (mskip t value (ov old (c * old) i) l2) with (aw := aw2) (av := av2) (ra := 0 + 1) (rv := 0 + B2R v * 1) as (aw & av & E3 & (AF & AV) & (BF & BV)); auto; [|lra|].
  { apply SK; [intros; apply in_app_iff; right; right; auto|tauto]. }
  rewrite E3. cbn [bind]. eexists. split; [reflexivity|]. rewrite Rplus_0_l in AV. rewrite Rplus_0_l, Rmult_1_r in BV.
  assert (L : Bltb (B754_zero false) aw = true) by (rewrite Bltb_correct by auto; rewrite AV; apply Rlt_bool_true; cbn; lra). rewrite L. cbn [andb].
  assert (R : forall s v', overlap old (c * old) i s -> value s = Ok v' -> B2R v' = B2R v) by (intros s v' Os Vs; rewrite (U s Os), V in Vs; injection Vs as <-; auto).
  destruct (Beqb av (B754_zero false)) eqn:Q; cbn [negb].
  - split; auto. intros s v' Os Vs. rewrite (R s v' Os Vs). rewrite Beqb_correct in Q by auto.  revert Q. case Req_bool_spec; [|discriminate]. intros Q _. rewrite <- BV, Q. reflexivity.
  - destruct (up_ok t av BF) as (CF & CV). destruct (weight_up t aw 1 (conj AF AV)) as (UF & UV); auto.
    assert (QE : B2R (cast (ct t) av) / B2R (cast (ct t) aw : val (ct t)) = B2R av) by (rewrite CV, UV; field).
    destruct (vdiv_ok (ct t) (cast (ct t) av) (cast (ct t) aw) CF) as (DF & DV); [rewrite UV; lra|rewrite QE, <- CV; apply top_ge|]. rewrite QE, rnd_fmt in DV by (rewrite <- CV; apply fmt_val).
    destruct (cast_ok (ct t) t _ DF) as (RF & RV); [rewrite DV; apply top_ge|]. split; auto. intros s v' Os Vs. rewrite (R s v' Os Vs), RV, DV, rnd_fmt by apply fmt_val. auto.
Qed.
Lemma mall t (value : v3 -> val t) old new p : whole3 old new -> multiple3 old new -> within new p -> (forall q, is_finite (value q) = true) ->
  exists r, fr_resample Mean t old new (fun q => Ok (value q)) p = Ok r /\ is_finite r = true /\ forall q, under old new p q -> B2R r = B2R (value q).
Proof.
  intros (WX & WY & WZ) (a & b & c & A & B & C) (PX & PY & PZ) F. rewrite A in *. rewrite B in *. rewrite C in *.
  assert (A1 : (1 <= a)%Z) by (destruct WX as (? & ? & _); nia). assert (B1 : (1 <= b)%Z) by (destruct WY as (? & ? & _); nia). assert (C1 : (1 <= c)%Z) by (destruct WZ as (? & ? & _); nia).
  unfold fr_resample. rewrite A, B, C. set (fx := fr_pass Mean t AxX (vx old) (a * vx old) (fun q => Ok (value q))). set (fy := fr_pass Mean t AxY (vy old) (b * vy old) fx).
  assert (R1 : forall y z, exists r, fx (V3 (vx p) y z) = Ok r /\ is_finite r = true /\ forall x, overlap (vx old) (a * vx old) (vx p) x -> B2R r = B2R (value (V3 x y z))).
  { intros y z. unfold fx. rewrite fpass_row. cbn [vget vset vx vy vz]. destruct (mrow_ok t (fun s => Ok (value (V3 s y z))) (vx old) a (vx p)) as (r & R & RF & RV); eauto. }
  assert (R2 : forall z, exists r, fy (V3 (vx p) (vy p) z) = Ok r /\ is_finite r = true /\
    forall x y, overlap (vx old) (a * vx old) (vx p) x -> overlap (vy old) (b * vy old) (vy p) y -> B2R r = B2R (value (V3 x y z))).
  { intros z. unfold fy. rewrite fpass_row. cbn [vget vset vx vy vz]. destruct (mrow_ok t (fun s => fx (V3 (vx p) s z)) (vy old) b (vy p)) as (r & R & RF & RV); auto.
    - intros s _. destruct (R1 s z) as (r & R & RF & _). eauto.
    - exists r. split; auto. split; auto. intros x y OX OY. destruct (R1 y z) as (r' & R' & _ & E'). rewrite (RV y r' OY R'). apply E'. auto. }
  rewrite fpass_row. cbn [vget vset vx vy vz]. destruct (mrow_ok t (fun s => fy (V3 (vx p) (vy p) s)) (vz old) c (vz p)) as (r & R & RF & RV); auto.
  - intros s _. destruct (R2 s) as (r & R & RF & _). eauto.
  - exists r. split; auto. split; auto. intros [x y z] (OX & OY & OZ). cbn [vx vy vz] in *. rewrite A in OX. rewrite B in OY. rewrite C in OZ.
    destruct (R2 z) as (r' & R' & _ & E'). rewrite (RV z r' OZ R'). apply E'; auto.
Qed.
