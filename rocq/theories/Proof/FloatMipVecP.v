From Coq Require Import ZArith Reals List Bool Lia Lra.
From Flocq Require Import Core BinarySingleNaN Relative.
From Verif Require Import Model.Base Model.VecM Model.LoopM Model.FilterM Model.MipM Model.FloatM Model.FloatMipM Model.FloatCubicM Model.FloatMipVecM.
From Verif Require Import Spec.VoxelSpec Spec.FilterSpec Spec.MipSpec Spec.FloatMipSpec Spec.FloatMipVecSpec.
From Verif Require Import Proof.BaseP Proof.FloatP Proof.FloatP2 Proof.FloatMipP Proof.FloatMipP2 Proof.FloatMipP3 Proof.FloatCubicP Proof.FloatVecP.
Import ListNotations.
Open Scope R_scope.

Definition vgood {t} (v : val t) : Prop := is_finite v = true /\ Rabs (B2R v) < bpow radix2 (emax t - 1).
Lemma vgood_addable t (v : val t) : vgood v <-> addable_in v.
Proof. unfold vgood, addable_in. destruct t; rewrite pow_bpow; reflexivity. Qed.
Lemma wdiv_ok w (x y : val w) : is_finite x = true -> is_finite y = true -> B2R y <> 0 -> fits w (B2R x / B2R y) ->
  is_finite (wdiv x y) = true /\ B2R (wdiv x y) = r2 w (B2R x / B2R y).
Proof.
  intros X Y N S. destruct (cast_up w (ct w) x (wider_ct w) X) as (XF & XV). destruct (cast_up w (ct w) y (wider_ct w) Y) as (YF & YV).
  destruct (vdiv_ok (ct w) (cast (ct w) x) (cast (ct w) y) XF) as (A & B); [rewrite YV; auto|rewrite XV, YV; apply (fits_up w); auto; apply wider_ct|]. rewrite XV, YV in B. apply cast_r2; auto.
Qed.
Lemma small_fits t x : Rabs x <= 2 -> fits t x.
Proof.
  intros H. unfold fits. eapply Rle_trans; [exact H|]. destruct (two_w t) as (_ & V). pose proof (top_ge t (vnum t 2 0)) as T. rewrite V, Rabs_pos_eq in T by lra. exact T.
Qed.
Lemma count_cast t (w : val VFloat) k : is_finite w = true -> B2R w = IZR k -> (1 <= k <= 2)%Z -> is_finite (cast t w) = true /\ B2R (cast t w) = IZR k.
Proof.
  intros F V K. destruct (cast_ok VFloat t w F) as (P & Q).
  { rewrite V. apply small_fits. rewrite <- abs_IZR. apply IZR_le. lia. }
  split; auto. rewrite Q, V. apply rnd_fmt, int_fmt. destruct t; cbn [prec]; lia.
Qed.
Lemma vterm_ok t (v : val t) : is_finite v = true -> is_finite (wmul v (cast t w1)) = true /\ B2R (wmul v (cast t w1)) = B2R v.
Proof.
  intros F. destruct w1_ok as (WF & WV). destruct (count_cast t w1 1 WF WV) as (CF & CV); [lia|].
  destruct (wmul_ok t v _ F CF) as (P & Q); [rewrite CV, Rmult_1_r; apply fits_val|]. split; auto. rewrite Q, CV, Rmult_1_r. apply fmt_r2, fmt_val.
Qed.
Lemma vhalf_top t (z : val t) : vgood z -> Rabs (B2R z) <= top t / 2.
Proof.
  intros (F & G). assert (E : (fx t (emax t - 1) = emax t - 1 - prec t)%Z) by (destruct t; reflexivity).
  assert (P : Rabs (B2R z) <= pred radix2 (fx t) (bpow radix2 (emax t - 1))).
  { apply pred_ge_gt; auto; try typeclasses eauto; [apply generic_format_abs, fmt_val|apply generic_format_bpow; destruct t; cbn; lia]. }
  rewrite pred_bpow, E in P. assert (T : top t = 2 * (bpow radix2 (emax t - 1) - bpow radix2 (emax t - 1 - prec t))).
  { unfold top. rewrite Rmult_minus_distr_l. replace 2 with (bpow radix2 1) by reflexivity. rewrite <- !bpow_plus. replace (1 + (emax t - 1))%Z with (emax t) by lia. replace (1 + (emax t - 1 - prec t))%Z with (emax t - prec t)%Z by lia. reflexivity. }
  rewrite T. lra.
Qed.
Definition vavg (t : vtype) (x y : R) : R := r2 t (r2 t (x + y) / 2).
Lemma r2_le t x y : x <= y -> r2 t x <= r2 t y.
Proof. intros H. apply rnd_le, rnd_le. auto. Qed.
Lemma vavg_mono t x y x' y' : x <= x' -> y <= y' -> vavg t x y <= vavg t x' y'.
Proof. intros. unfold vavg. apply r2_le. assert (r2 t (x + y) <= r2 t (x' + y')) by (apply r2_le; lra). lra. Qed.
Lemma vavg_same t x : vfmt t x -> vavg t x x = x.
Proof. intros F. unfold vavg. replace (x + x) with (2 * x) by ring. rewrite (fmt_r2 t (2 * x)) by (apply double_fmt; auto). replace (2 * x / 2) with x by field. apply fmt_r2. auto. Qed.
Lemma vavg_le t x y M : vfmt t M -> x <= M -> y <= M -> vavg t x y <= M.
Proof. intros F X Y. rewrite <- (vavg_same t M F). apply vavg_mono; auto. Qed.
Lemma vavg_ge t x y M : vfmt t M -> M <= x -> M <= y -> M <= vavg t x y.
Proof. intros F X Y. rewrite <- (vavg_same t M F). apply vavg_mono; auto. Qed.

Definition vrow t value tgt add n : res (val t) :=
  let* o := fv_line t w1 value tgt add 0 (n - 1) in Ok (match o with Some v => v | None => B754_zero false end).
Definition vloop t (value : Z -> res (val t)) (l : list Z) : res (val VFloat * val t) :=
  each (fun s acc => let* v := value s in Ok (vadd (fst acc) w1, wadd (snd acc) (wmul v (cast t w1)))) l (B754_zero false, B754_zero false).
Definition vfinish t (acc : val VFloat * val t) : val t :=
  if Bltb (B754_zero false) (fst acc) && negb (Beqb (snd acc) (B754_zero false)) then wdiv (snd acc) (cast t (fst acc)) else B754_zero false.
Lemma vrow_loop t value tgt add n : near tgt add ->
  vrow t value tgt add n = (let* acc := vloop t value (zrange (Z.max (2 * tgt - add) 0) (Z.min (2 * tgt + 1 - add) (n - 1))) in Ok (vfinish t acc)).
Proof.
  intros (T & A & H). destruct (interval tgt add T A H) as (I1 & I2). unfold vrow, fv_line. rewrite I1. cbn [bind]. rewrite I2. cbn [bind].
  rewrite (i32_ok (2 * tgt + 2 - add - 1)) by (unfold in_int, int_min, int_max; lia). cbn [bind]. replace (2 * tgt + 2 - add - 1)%Z with (2 * tgt + 1 - add)%Z by lia.
  unfold vloop. match goal with |- context [each ?f ?l ?s] => set (F := f); set (L := l) end.
  rewrite (each_ext F (fun s acc => let* v := value s in Ok (vadd (fst acc) w1, wadd (snd acc) (wmul v (cast t w1)))) L).
  2:{ intros s acc I. apply in_zrange in I. unfold F. rewrite weight_one by (auto; lia). reflexivity. }
  destruct (each _ L _) as [[aw av]| |]; cbn [bind]; auto. unfold vfinish. cbn [fst snd].
  destruct (Bltb (B754_zero false) aw && negb (Beqb av (B754_zero false))); reflexivity.
Qed.
Lemma vfinish_ok t aw (av : val t) k : is_finite aw = true -> B2R aw = IZR k -> (1 <= k <= 2)%Z -> is_finite av = true -> fits t (B2R av / IZR k) ->
  is_finite (vfinish t (aw, av)) = true /\ B2R (vfinish t (aw, av)) = r2 t (B2R av / IZR k).
Proof.
  intros WF WV K AF Ft. unfold vfinish. cbn [fst snd].
  assert (K1 : 1 <= IZR k) by (apply IZR_le; lia).
  assert (L : Bltb (B754_zero false) aw = true).
  { rewrite (Bltb_correct (prec VFloat) (emax VFloat)) by auto. apply Rlt_bool_true. change (0 < B2R aw). rewrite WV. lra. }
  rewrite L. cbn [andb].
  assert (E : Beqb av (B754_zero false) = Req_bool (B2R av) 0) by (rewrite (Beqb_correct (prec t) (emax t)) by auto; reflexivity).
  rewrite E. destruct (Req_bool_spec (B2R av) 0) as [Z|NZ]; cbn [negb].
  - rewrite Z. replace (0 / IZR k) with 0 by (unfold Rdiv; ring). rewrite r2_0. apply zero_ok.
  - destruct (count_cast t aw k WF WV K) as (CF & CV). destruct (wdiv_ok t av (cast t aw) AF CF) as (P & Q); [rewrite CV; lra|rewrite CV; auto|]. rewrite CV in Q. auto.
Qed.
Lemma vfirst_ok t (v : val t) : is_finite v = true ->
  is_finite (wadd (B754_zero false) (wmul v (cast t w1))) = true /\ B2R (wadd (B754_zero false) (wmul v (cast t w1))) = B2R v.
Proof.
  intros F. destruct (vterm_ok t v F) as (TF & TV). destruct (zero_ok t) as (ZF & ZV).
  destruct (wadd_ok t (B754_zero false) _ ZF TF) as (P & Q); rewrite ZV, TV, Rplus_0_l in *.
  - apply fits_val.
  - split; auto. rewrite Q. apply fmt_r2, fmt_val.
Qed.
Lemma vrow_one t value tgt add n s v : near tgt add -> zrange (Z.max (2 * tgt - add) 0) (Z.min (2 * tgt + 1 - add) (n - 1)) = [s] ->
  value s = Ok v -> is_finite v = true -> exists r, vrow t value tgt add n = Ok r /\ is_finite r = true /\ B2R r = B2R v.
Proof.
  intros N L V F. rewrite vrow_loop, L by auto. unfold vloop. cbn [each]. rewrite V. cbn [bind fst snd].
  destruct (vfirst_ok t v F) as (AF & AV). destruct count1 as (WF & WV).
  eexists. split; [reflexivity|]. destruct (vfinish_ok t _ _ 1 WF WV ltac:(lia) AF) as (P & Q); rewrite AV in *.
  - unfold Rdiv. rewrite Rinv_1, Rmult_1_r. apply fits_val.
  - split; [exact P|]. eapply eq_trans; [exact Q|]. unfold Rdiv. rewrite Rinv_1, Rmult_1_r. apply fmt_r2, fmt_val.
Qed.
Lemma vrow_two t value tgt add n s s' v v' : near tgt add -> zrange (Z.max (2 * tgt - add) 0) (Z.min (2 * tgt + 1 - add) (n - 1)) = [s; s'] ->
  value s = Ok v -> vgood v -> value s' = Ok v' -> vgood v' -> exists r, vrow t value tgt add n = Ok r /\ is_finite r = true /\ B2R r = vavg t (B2R v) (B2R v').
Proof.
  intros N L V G V' G'. rewrite vrow_loop, L by auto. unfold vloop. cbn [each]. rewrite V. cbn [bind fst snd]. rewrite V'. cbn [bind fst snd].
  pose proof G as (F & _). pose proof G' as (F' & _). pose proof (vhalf_top t v G) as T. pose proof (vhalf_top t v' G') as T'.
  assert (Ft : fits t (B2R v + B2R v')) by (unfold fits; eapply Rle_trans; [apply Rabs_triang|lra]).
  destruct (vfirst_ok t v F) as (AF & AV). destruct (vterm_ok t v' F') as (BF & BV). destruct count2 as (WF & WV).
  destruct (wadd_ok t _ _ AF BF) as (SF & SV); [rewrite AV, BV; auto|]. rewrite AV, BV in SV.
  eexists. split; [reflexivity|]. destruct (vfinish_ok t _ _ 2 WF WV ltac:(lia) SF) as (P & Q); [|rewrite SV in Q; split; auto].
  unfold fits, Rdiv. rewrite Rabs_mult, (Rabs_pos_eq (/ 2)) by lra. set (s0 := wadd _ _). pose proof (top_ge t s0). pose proof (Rabs_pos (B2R s0)). lra.
Qed.
Lemma vrow_none t value tgt add n : near tgt add -> zrange (Z.max (2 * tgt - add) 0) (Z.min (2 * tgt + 1 - add) (n - 1)) = [] ->
  vrow t value tgt add n = Ok (B754_zero false).
Proof. intros N L. rewrite vrow_loop, L by auto. reflexivity. Qed.
Definition vheld {t} (lo hi : R) (r : res (val t)) : Prop := exists v, r = Ok v /\ vgood v /\ lo <= B2R v <= hi.
Lemma vgood_between t (x y r : val t) : vgood x -> vgood y -> is_finite r = true -> Rmin (B2R x) (B2R y) <= B2R r <= Rmax (B2R x) (B2R y) -> vgood r.
Proof.
  intros (FX & X) (FY & Y) F (L & U). split; auto. apply Rabs_def2 in X, Y.
  unfold Rmin in L. unfold Rmax in U. destruct (Rle_dec (B2R x) (B2R y)); apply Rabs_def1; lra.
Qed.
Lemma vrow_held t value tgt add n lo hi : near tgt add -> (forall s, inside tgt add n s -> vheld lo hi (value s)) ->
  (exists s, inside tgt add n s) \/ lo <= 0 <= hi -> vheld lo hi (vrow t value tgt add n).
Proof.
  intros N H Ex. destruct (row_cases t value tgt add n) as [I0 I1 L|s I U L|I L].
  - destruct (H _ I0) as (v & V & G & B). destruct (H _ I1) as (v' & V' & G' & B').
    destruct (vrow_two t value tgt add n _ _ v v' N L V G V' G') as (r & R & F & E). exists r. split; auto.
    assert (Lo : Rmin (B2R v) (B2R v') <= B2R r) by (rewrite E; apply vavg_ge; [apply fmt_Rmin; apply fmt_val|apply Rmin_l|apply Rmin_r]).
    assert (Hi : B2R r <= Rmax (B2R v) (B2R v')) by (rewrite E; apply vavg_le; [apply fmt_Rmax; apply fmt_val|apply Rmax_l|apply Rmax_r]).
    split; [apply (vgood_between t v v'); auto|]. split.
    + eapply Rle_trans; [|exact Lo]. apply Rmin_glb; lra.
    + eapply Rle_trans; [exact Hi|]. apply Rmax_lub; lra.
  - destruct (H _ I) as (v & V & G & B). destruct (vrow_one t value tgt add n s v N L V) as (r & R & F & E); [apply G|]. exists r. split; auto. rewrite E. split; auto.
    split; auto. rewrite E. apply G.
  - exists (B754_zero false). rewrite vrow_none by auto. split; auto. split; [split; [reflexivity|cbn; rewrite Rabs_R0; apply bpow_gt_0]|]. change (lo <= 0 <= hi). destruct Ex as [(s & K)|K]; auto. exfalso. eapply I; eauto.
Qed.
Lemma vpass_row t a add n value p : fv_pass t w1 a add n value p = vrow t (fun s => value (vset a p s)) (vget a p) add n.
Proof. reflexivity. Qed.
Lemma vlevel_held t add old value p lo hi : pad_ok add -> tell_apart p -> (forall q, beneath add old p q -> vheld lo hi (value q)) ->
  (exists q, beneath add old p q) \/ lo <= 0 <= hi -> vheld lo hi (fv_level t w1 add old value p).
Proof.
  intros (AX & AY & AZ) (PX & PY & PZ) H Ex.
  assert (EX : (exists s, inside (vx p) (vx add) (vx old) s) \/ lo <= 0 <= hi).
  { destruct Ex as [([i j k] & (I & J & K) & X & Y & Z)|Ex]; auto. left. exists i. unfold inside. cbn in *. lia. }
  assert (EY : (exists s, inside (vy p) (vy add) (vy old) s) \/ lo <= 0 <= hi).
  { destruct Ex as [([i j k] & (I & J & K) & X & Y & Z)|Ex]; auto. left. exists j. unfold inside. cbn in *. lia. }
  assert (EZ : (exists s, inside (vz p) (vz add) (vz old) s) \/ lo <= 0 <= hi).
  { destruct Ex as [([i j k] & (I & J & K) & X & Y & Z)|Ex]; auto. left. exists k. unfold inside. cbn in *. lia. }
  unfold fv_level. rewrite vpass_row. apply vrow_held; [apply near_ok; auto| |exact EZ]. intros z IZ. cbn [vget] in IZ.
  rewrite vpass_row. apply vrow_held; [apply near_ok; auto| |exact EY]. intros y IY. cbn [vget vset vx vy vz] in IY.
  rewrite vpass_row. apply vrow_held; [apply near_ok; auto| |exact EX]. intros x IX. cbn [vget vset vx vy vz] in IX.
  apply H. cbn [vset vx vy vz]. unfold inside in *. unfold beneath, in_box, res_box. cbn [bmin bmax vx vy vz]. repeat split; try lia.
Qed.

(** ** Float and double: as scalars *)
Lemma line_scalar t width value tgt add lo hi : t <> VHalf -> fv_line t width value tgt add lo hi = fm_line t width value tgt add lo hi.
Proof.
  intros H. destruct t; [congruence| |]; unfold fv_line, fm_line, wadd, wmul, wdiv; cbn [ct].
  all: destruct (vfloor _) as [st| |]; cbn [bind]; auto; destruct (vceil _) as [e| |]; cbn [bind]; auto; destruct (i32 _) as [stop| |]; cbn [bind]; auto.
  all: match goal with |- bind (each ?f ?l ?s) _ = bind (each ?g _ _) _ =>
    rewrite (each_ext f g l s) by (intros k acc _; cbv beta zeta; destruct (value k); cbn [bind]; auto; rewrite !cast_same; reflexivity) end.
  all: destruct (each _ _ _) as [[aw av]| |]; cbn [bind]; auto; rewrite !cast_same; reflexivity.
Qed.
Lemma line_ext t width v v' tgt add lo hi : (forall s, v s = v' s) -> fm_line t width v tgt add lo hi = fm_line t width v' tgt add lo hi.
Proof.
  intros E. unfold fm_line.
  destruct (vfloor _) as [st| |]; cbn [bind]; auto; destruct (vceil _) as [e| |]; cbn [bind]; auto; destruct (i32 _) as [stop| |]; cbn [bind]; auto.
  match goal with |- bind (each ?f ?l ?s) _ = bind (each ?g _ _) _ => rewrite (each_ext f g l s) by (intros k acc _; rewrite E; reflexivity) end. reflexivity.
Qed.
Lemma level_scalar t width add old value p : t <> VHalf -> fv_level t width add old value p = fm_level t width add old value p.
Proof.
  intros H. assert (P : forall a ad n v v' q, (forall q, v q = v' q) -> fv_pass t width a ad n v q = fm_pass t width a ad n v' q).
  { intros a ad n v v' q E. unfold fv_pass, fm_pass. rewrite line_scalar by auto. rewrite (line_ext t width _ (fun s => v' (vset a q s))) by auto. reflexivity. }
  unfold fv_level, fm_level. apply P. intros. apply P. intros. apply P. auto.
Qed.

(** ** Exact means *)
Lemma vlevel_pair t (value : v3 -> val t) n i : (0 <= i < 2 ^ 23)%Z -> (2 * i + 1 < n)%Z -> vgood (value (V3 (2 * i) 0 0)) -> vgood (value (V3 (2 * i + 1) 0 0)) ->
  exists r, fv_level t w1 (V3 0 0 0) (V3 n 1 1) (fun q => Ok (value q)) (V3 i 0 0) = Ok r /\ is_finite r = true /\
    B2R r = vavg t (B2R (value (V3 (2 * i) 0 0))) (B2R (value (V3 (2 * i + 1) 0 0))).
Proof.
  intros I N G G'.
  assert (X : exists r, vrow t (fun s => Ok (value (V3 s 0 0))) i 0 n = Ok r /\ is_finite r = true /\ B2R r = vavg t (B2R (value (V3 (2 * i) 0 0))) (B2R (value (V3 (2 * i + 1) 0 0)))).
  { apply (vrow_two t _ i 0 n (2 * i) (2 * i + 1)); auto; [apply near_ok; lia|].
    replace (Z.max (2 * i - 0) 0) with (2 * i)%Z by lia. replace (Z.min (2 * i + 1 - 0) (n - 1)) with (2 * i + 1)%Z by lia. apply range2. }
  destruct X as (x & X & XF & XV).
  destruct (vrow_one t (fun s => fv_pass t w1 AxX 0 n (fun q => Ok (value q)) (V3 i s 0)) 0 0 1 0 x) as (y & Y & YF & YV); auto; [apply near_ok; lia|].
  destruct (vrow_one t (fun s => fv_pass t w1 AxY 0 1 (fv_pass t w1 AxX 0 n (fun q => Ok (value q))) (V3 i 0 s)) 0 0 1 0 y) as (z & Z & ZF & ZV); auto; [apply near_ok; lia|].
  exists z. split; [exact Z|]. split; auto. rewrite ZV, YV. exact XV.
Qed.
