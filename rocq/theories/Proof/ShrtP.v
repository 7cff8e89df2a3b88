(** The decomposition of matrices and the comparison of mappings. *)
From Coq Require Import ZArith Reals List Bool Lia Lra.
From Verif Require Import Model.Base Model.FieldM Model.OpsM Model.RealM Model.VecM Model.MatM Model.CurveM Model.MapM Model.CopyM
  Spec.CopySpec Proof.RealP Proof.MatP Proof.MapP Proof.CopyP.
Import ListNotations.
Open Scope R_scope.

(** ** Gram-Schmidt *)
Lemma r3_eq a b : rx a = rx b -> ry a = ry b -> rz a = rz b -> a = b.
Proof. destruct a, b. cbn. congruence. Qed.
Definition sc (k : R) (a : r3) : r3 := R3 (k * rx a) (k * ry a) (k * rz a).
Ltac vec := unfold sc, over3, sub3, mix3, dot3, cross3, part3; cbn [rx ry rz].
Lemma dot_sc k a b : dot3 (sc k a) b = k * dot3 a b.
Proof. vec. ring. Qed.
Lemma dot_flip a b : dot3 (sc (-1) a) (sc (-1) b) = dot3 a b.
Proof. vec. ring. Qed.
Lemma dot_comm a b : dot3 a b = dot3 b a.
Proof. vec. ring. Qed.
Lemma dot_pos a : 0 <= dot3 a a.
Proof. vec. nra. Qed.
Lemma len_sc k a : dot3 a a = 1 -> len3 (sc k a) = Rabs k.
Proof.
  intros H. unfold len3. rewrite dot_sc, dot_comm, dot_sc, H. replace (k * (k * 1)) with (Rsqr k) by (unfold Rsqr; ring). apply sqrt_Rsqr_abs.
Qed.
Lemma len_dot a : len3 a * len3 a = dot3 a a.
Proof. unfold len3. apply sqrt_sqrt, dot_pos. Qed.
Lemma unit_over a : len3 a <> 0 -> dot3 (over3 a (len3 a)) (over3 a (len3 a)) = 1.
Proof.
  intros H. pose proof (len_dot a) as L. replace (dot3 (over3 a (len3 a)) (over3 a (len3 a))) with (dot3 a a / (len3 a * len3 a)) by (vec; field; auto).
  rewrite <- L. field. auto.
Qed.
Lemma over_back a k : k <> 0 -> sc k (over3 a k) = a.
Proof. intros H. apply r3_eq; vec; field; auto. Qed.
Lemma over_neg a : over3 a (-1) = sc (-1) a.
Proof. apply r3_eq; vec; field. Qed.
(** The triple product of perpendicular unit vectors is not zero. *)
Lemma triple_sq a b c : dot3 a a = 1 -> dot3 b b = 1 -> dot3 c c = 1 -> dot3 a b = 0 -> dot3 a c = 0 -> dot3 b c = 0 ->
  Rsqr (dot3 a (cross3 b c)) = 1.
Proof.
  intros A B C AB AC BC.
  assert (G : Rsqr (dot3 a (cross3 b c)) = dot3 a a * (dot3 b b * dot3 c c - dot3 b c * dot3 b c)
              - dot3 a b * (dot3 a b * dot3 c c - dot3 b c * dot3 a c) + dot3 a c * (dot3 a b * dot3 b c - dot3 b b * dot3 a c)) by (unfold Rsqr; vec; ring).
  rewrite G, A, B, C, AB, AC, BC. ring.
Qed.

Lemma put_back_b b0 h a k b b1 c : sc k b = b1 -> b0 = mix3 1 b1 h a 0 a -> b0 = mix3 h a k b 0 c.
Proof. intros <- ->. apply r3_eq; vec; ring. Qed.
Lemma put_back_c c0 h a g b k c c2 : sc k c = c2 -> c0 = mix3 1 c2 h a g b -> c0 = mix3 h a g b k c.
Proof. intros <- ->. apply r3_eq; vec; ring. Qed.

Section Euler.
Variable euler : r3 -> r3 -> r3 -> r3.

Lemma extract_sound m s : extract_shrt euler m = Some s -> decomposed euler m s.
Proof.
  unfold extract_shrt. set (a0 := part3 (row0 m)). set (b0 := part3 (row1 m)). set (c0 := part3 (row2 m)).
  destruct (reqb_spec (len3 a0) 0) as [|Na]; [discriminate|].
  pose proof (unit_over a0 Na) as Ua. pose proof (over_back a0 _ Na) as Ba. set (a := over3 a0 (len3 a0)) in *.
  set (b1 := sub3 b0 a (dot3 a b0)). destruct (reqb_spec (len3 b1) 0) as [|Nb]; [discriminate|].
  pose proof (unit_over b1 Nb) as Ub. pose proof (over_back b1 _ Nb) as Bb.
  assert (AB1 : dot3 a b1 = 0) by (unfold b1; replace (dot3 a (sub3 b0 a (dot3 a b0))) with (dot3 a b0 * (1 - dot3 a a)) by (vec; ring); rewrite Ua; ring).
  set (b := over3 b1 (len3 b1)) in *.
  assert (AB : dot3 a b = 0) by (unfold b; replace (dot3 a (over3 b1 (len3 b1))) with (dot3 a b1 / len3 b1) by (vec; field; auto); rewrite AB1; field; auto).
  set (c1 := sub3 c0 a (dot3 a c0)). set (c2 := sub3 c1 b (dot3 b c1)).
  destruct (reqb_spec (len3 c2) 0) as [|Nc]; [discriminate|].
  pose proof (unit_over c2 Nc) as Uc. pose proof (over_back c2 _ Nc) as Bc.
  assert (AC1 : dot3 a c1 = 0) by (unfold c1; replace (dot3 a (sub3 c0 a (dot3 a c0))) with (dot3 a c0 * (1 - dot3 a a)) by (vec; ring); rewrite Ua; ring).
  assert (AC2 : dot3 a c2 = 0) by (unfold c2; replace (dot3 a (sub3 c1 b (dot3 b c1))) with (dot3 a c1 - dot3 b c1 * dot3 a b) by (vec; ring); rewrite AC1, AB; ring).
  assert (BC2 : dot3 b c2 = 0) by (unfold c2; replace (dot3 b (sub3 c1 b (dot3 b c1))) with (dot3 b c1 * (1 - dot3 b b)) by (vec; ring); rewrite Ub; ring).
  set (c := over3 c2 (len3 c2)) in *.
  assert (AC : dot3 a c = 0) by (unfold c; replace (dot3 a (over3 c2 (len3 c2))) with (dot3 a c2 / len3 c2) by (vec; field; auto); rewrite AC2; field; auto).
  assert (BC : dot3 b c = 0) by (unfold c; replace (dot3 b (over3 c2 (len3 c2))) with (dot3 b c2 / len3 c2) by (vec; field; auto); rewrite BC2; field; auto).
  pose proof (triple_sq a b c Ua Ub Uc AB AC BC) as T.
  assert (Pa : 0 < len3 a0) by (pose proof (sqrt_pos (dot3 a0 a0)); unfold len3 in *; lra).
  assert (Pb : 0 < len3 b1) by (pose proof (sqrt_pos (dot3 b1 b1)); unfold len3 in *; lra).
  assert (Pc : 0 < len3 c2) by (pose proof (sqrt_pos (dot3 c2 c2)); unfold len3 in *; lra).
  assert (Ea : a0 = mix3 (len3 a0) a 0 b 0 c) by (rewrite <- Ba at 1; apply r3_eq; vec; ring).
  assert (Eb : b0 = mix3 (dot3 a b0) a (len3 b1) b 0 c).
  { apply (put_back_b _ _ _ _ _ b1); auto. unfold b1. apply r3_eq; vec; ring. }
  assert (Ec : c0 = mix3 (dot3 a c0) a (dot3 b c1) b (len3 c2) c).
  { apply (put_back_c _ _ _ _ _ _ _ c2); auto. transitivity (mix3 1 c1 (dot3 a c0) a 0 a); [unfold c1; apply r3_eq; vec; ring|unfold c2; generalize (dot3 b c1); intros k; apply r3_eq; vec; ring]. }
  unfold rltb. destruct (Rlt_dec _ _) as [L|L]; intros H; injection H as <-; unfold decomposed; cbn [h_scale h_shear h_angles h_shift rx ry rz].
  - exists (over3 a (-1)), (over3 b (-1)), (over3 c (-1)). rewrite !over_neg.
    split; [|split; [reflexivity|split; [reflexivity|split; [right; lra|split; [|split]]]]].
    + unfold axes. rewrite !dot_flip. repeat split; auto.
      replace (dot3 (sc (-1) a) (cross3 (sc (-1) b) (sc (-1) c))) with (- dot3 a (cross3 b c)) by (vec; ring). lra.
    + fold a0. rewrite Ea at 1. apply r3_eq; vec; ring.
    + fold b0. rewrite Eb at 1. apply r3_eq; vec; field; auto.
    + fold c0. rewrite Ec at 1. apply r3_eq; vec; field; auto.
  - exists a, b, c. split; [|split; [reflexivity|split; [reflexivity|split; [left; lra|split; [|split]]]]].
    + unfold axes. repeat split; auto. unfold Rsqr in T. nra.
    + fold a0. auto.
    + fold b0. rewrite Eb at 1. apply r3_eq; vec; field; auto.
    + fold c0. rewrite Ec at 1. apply r3_eq; vec; field; auto.
Qed.

Lemma over_sc k a : k <> 0 -> over3 (sc k a) k = a.
Proof. intros H. apply r3_eq; vec; field; auto. Qed.
Lemma extract_complete m s : decomposed euler m s -> extract_shrt euler m = Some s.
Proof.
  destruct s as [[sx sy sz] [hx hy hz] ang sh]. unfold decomposed. cbn [h_scale h_shear h_angles h_shift rx ry rz].
  intros (a & b & c & (Ua & Ub & Uc & AB & AC & BC & T) & -> & <- & Sg & E0 & E1 & E2).
  unfold extract_shrt. rewrite E0, E1, E2.
  (* [g]: the sign of the scale *)
  assert (G : exists g, (g = 1 /\ 0 < sx /\ 0 < sy /\ 0 < sz) \/ (g = -1 /\ sx < 0 /\ sy < 0 /\ sz < 0)) by (destruct Sg as [P|P]; [exists 1|exists (-1)]; intuition).
  destruct G as (g & G). assert (Gg : g * g = 1) by (destruct G as [(-> & _)|(-> & _)]; ring).
  assert (Ax : Rabs sx = g * sx) by (destruct G as [(-> & P)|(-> & P)]; [rewrite Rabs_right by lra|rewrite Rabs_left by lra]; ring).
  assert (Ay : Rabs sy = g * sy) by (destruct G as [(-> & P)|(-> & P)]; [rewrite Rabs_right by lra|rewrite Rabs_left by lra]; ring).
  assert (Az : Rabs sz = g * sz) by (destruct G as [(-> & P)|(-> & P)]; [rewrite Rabs_right by lra|rewrite Rabs_left by lra]; ring).
  assert (Nx : g * sx <> 0) by (destruct G as [(-> & P)|(-> & P)]; lra).
  assert (Ny : g * sy <> 0) by (destruct G as [(-> & P)|(-> & P)]; lra).
  assert (Nz : g * sz <> 0) by (destruct G as [(-> & P)|(-> & P)]; lra).
  assert (Ng : g <> 0) by (destruct G as [(-> & P)|(-> & P)]; lra).
  assert (Nsy : sy <> 0) by (destruct G as [(_ & P)|(_ & P)]; lra). assert (Nsz : sz <> 0) by (destruct G as [(_ & P)|(_ & P)]; lra).
  replace (mix3 sx a 0 b 0 c) with (sc sx a) by (apply r3_eq; vec; ring). rewrite (len_sc _ _ Ua), Ax.
  destruct (reqb_spec (g * sx) 0) as [|_]; [contradiction|].
  assert (Oa : over3 (sc sx a) (g * sx) = sc g a).
  { rewrite <- (over_sc (g * sx) (sc g a)) by auto. f_equal. transitivity (sc (g * g * sx) a); [rewrite Gg; apply r3_eq; vec; ring|apply r3_eq; vec; ring]. }
  rewrite Oa.
  assert (H0 : dot3 (sc g a) (mix3 (sy * hx) a sy b 0 c) = g * sy * hx).
  { replace (dot3 (sc g a) (mix3 (sy * hx) a sy b 0 c)) with (g * (sy * hx * dot3 a a + sy * dot3 a b)) by (vec; ring). rewrite Ua, AB. ring. }
  rewrite H0.
  assert (S1 : sub3 (mix3 (sy * hx) a sy b 0 c) (sc g a) (g * sy * hx) = sc sy b).
  { transitivity (mix3 (sy * hx - g * g * sy * hx) a sy b 0 c); [apply r3_eq; vec; ring|rewrite Gg; apply r3_eq; vec; ring]. }
  rewrite S1, (len_sc _ _ Ub), Ay. destruct (reqb_spec (g * sy) 0) as [|_]; [contradiction|].
  assert (Ob : over3 (sc sy b) (g * sy) = sc g b).
  { rewrite <- (over_sc (g * sy) (sc g b)) by auto. f_equal. transitivity (sc (g * g * sy) b); [rewrite Gg; apply r3_eq; vec; ring|apply r3_eq; vec; ring]. }
  rewrite Ob.
  assert (H1 : dot3 (sc g a) (mix3 (sz * hy) a (sz * hz) b sz c) = g * sz * hy).
  { replace (dot3 (sc g a) (mix3 (sz * hy) a (sz * hz) b sz c)) with (g * (sz * hy * dot3 a a + sz * hz * dot3 a b + sz * dot3 a c)) by (vec; ring). rewrite Ua, AB, AC. ring. }
  rewrite H1.
  assert (S2 : sub3 (mix3 (sz * hy) a (sz * hz) b sz c) (sc g a) (g * sz * hy) = mix3 0 a (sz * hz) b sz c).
  { transitivity (mix3 (sz * hy - g * g * sz * hy) a (sz * hz) b sz c); [apply r3_eq; vec; ring|rewrite Gg; apply r3_eq; vec; ring]. }
  rewrite S2.
  assert (H2 : dot3 (sc g b) (mix3 0 a (sz * hz) b sz c) = g * sz * hz).
  { replace (dot3 (sc g b) (mix3 0 a (sz * hz) b sz c)) with (g * (sz * hz * dot3 b b + sz * dot3 b c)) by (vec; ring). rewrite Ub, BC. ring. }
  rewrite H2.
  assert (S3 : sub3 (mix3 0 a (sz * hz) b sz c) (sc g b) (g * sz * hz) = sc sz c).
  { transitivity (mix3 0 a (sz * hz - g * g * sz * hz) b sz c); [apply r3_eq; vec; ring|rewrite Gg; apply r3_eq; vec; ring]. }
  rewrite S3, (len_sc _ _ Uc), Az. destruct (reqb_spec (g * sz) 0) as [|_]; [contradiction|].
  assert (Oc : over3 (sc sz c) (g * sz) = sc g c).
  { rewrite <- (over_sc (g * sz) (sc g c)) by auto. f_equal. transitivity (sc (g * g * sz) c); [rewrite Gg; apply r3_eq; vec; ring|apply r3_eq; vec; ring]. }
  rewrite Oc.
  assert (Hs : R3 (g * sy * hx / (g * sy)) (g * sz * hy / (g * sz)) (g * sz * hz / (g * sz)) = R3 hx hy hz) by (f_equal; field; auto).
  rewrite Hs. replace (dot3 (sc g a) (cross3 (sc g b) (sc g c))) with (g * dot3 a (cross3 b c)).
  2: { transitivity (g * (g * g) * dot3 a (cross3 b c)); [rewrite Gg; ring|vec; ring]. }
  unfold rltb. destruct G as [(-> & P)|(-> & P)]; destruct (Rlt_dec _ _) as [L|L]; try lra.
  - f_equal. f_equal; [f_equal; ring|]. f_equal; apply r3_eq; vec; ring.
  - f_equal. f_equal; [f_equal; ring|]. f_equal; rewrite over_neg; apply r3_eq; vec; ring.
Qed.

(** ** Comparing *)
Lemma near_close e x y : near_rel e x y = true <-> close e x y.
Proof. unfold near_rel, close, rleb. destruct (Rle_dec _ _); split; auto; discriminate || contradiction. Qed.
Lemma near_close_abs e x y : near_abs e x y = true <-> close_abs e x y.
Proof. unfold near_abs, close_abs, rleb. destruct (Rle_dec _ _); split; auto; discriminate || contradiction. Qed.
Lemma vec_each f P a b : (forall x y, f x y = true <-> P x y) -> (vec_near f a b = true <-> each3 P a b).
Proof. intros H. unfold vec_near, each3. rewrite !andb_true_iff, !H. tauto. Qed.
Lemma row_each f P a b : (forall x y, f x y = true <-> P x y) -> (row_near f a b = true <-> each4 P a b).
Proof. intros H. unfold row_near, each4. rewrite !andb_true_iff, !H. tauto. Qed.
Lemma mat_each f P a b : (forall x y, f x y = true <-> P x y) -> (mat_near f a b = true <-> each_entry P a b).
Proof. intros H. unfold mat_near, each_entry. rewrite !andb_true_iff, !(row_each f P) by auto. tauto. Qed.
Lemma same_alike m1 m2 e : same_matrix euler m1 m2 e = true <-> alike euler e m1 m2.
Proof.
  unfold same_matrix, alike. pose proof (mat_each (near_rel e) (close e) m1 m2 (near_close e)) as M.
  destruct (mat_near (near_rel e) m1 m2); [split; [intros _; left; apply M; auto|auto]|].
  assert (Nm : ~ each_entry (close e) m1 m2) by (rewrite <- M; discriminate). split.
  - intros H. right. destruct (extract_shrt euler m1) as [s1|] eqn:E1; [|discriminate]. destruct (extract_shrt euler m2) as [s2|] eqn:E2; [|discriminate].
    apply andb_true_iff in H as [H H3]. apply andb_true_iff in H as [H1 H2]. exists s1, s2. split; [apply extract_sound; auto|]. split; [apply extract_sound; auto|].
    split; [|split]; [apply (vec_each _ _ _ _ (near_close e))|apply (vec_each _ _ _ _ (near_close_abs e))|apply (vec_each _ _ _ _ (near_close e))]; auto.
  - intros [H|(s1 & s2 & D1 & D2 & H1 & H2 & H3)]; [contradiction|]. rewrite (extract_complete _ _ D1), (extract_complete _ _ D2).
    apply (vec_each _ _ _ _ (near_close e)) in H1, H3. apply (vec_each _ _ _ _ (near_close_abs e)) in H2. rewrite H1, H2, H3. reflexivity.
Qed.
Lemma curves_alike l1 : forall l2 v1 v2 e, map fst v1 = map fst l1 -> map fst v2 = map fst l2 ->
  (same_curves euler l1 l2 v1 v2 e = Ok true <-> Forall2 (sample_alike euler e) l1 l2 /\ Forall2 (sample_alike euler e) v1 v2).
Proof.
  unfold same_curves. induction l1 as [|[t1 a1] l1 IH]; intros [|[t2 a2] l2] [|[u1 b1] v1] [|[u2 b2] v2] e M1 M2; cbn in M1, M2; try discriminate.
  - cbn. split; auto.
  - cbn. split; [discriminate|intros [H _]; inversion H].
  - cbn. split; [discriminate|intros [H _]; inversion H].
  - injection M1 as -> M1. injection M2 as -> M2. specialize (IH l2 v1 v2 e M1 M2). cbn [length Nat.eqb]. cbn [same_samples].
    destruct (reqb_spec t1 t2) as [<-|N]; cbn [negb].
    + destruct (same_matrix euler a1 a2 e) eqn:S1; cbn [negb].
      * destruct (same_matrix euler b1 b2 e) eqn:S2; cbn [negb].
        -- apply same_alike in S1, S2. destruct (negb (length l1 =? length l2)%nat).
           ++ split; [discriminate|]. intros [H1 H2]. inversion H1; subst. inversion H2; subst. apply IH. auto.
           ++ rewrite IH. split; [intros [H1 H2]; split; constructor; auto; split; auto|intros [H1 H2]; inversion H1; inversion H2; auto].
        -- split; [destruct (negb _); discriminate|]. intros [_ H]. inversion H as [|? ? ? ? [_ K] _]; subst. cbn in K. apply same_alike in K. congruence.
      * split; [destruct (negb _); discriminate|]. intros [H _]. inversion H as [|? ? ? ? [_ K] _]; subst. cbn in K. apply same_alike in K. congruence.
    + split; [destruct (negb _); discriminate|]. intros [H _]. inversion H as [|? ? ? ? [K _] _]; subst. cbn in K. contradiction.
Qed.
Lemma good_times s : good s -> map fst (mm_vs_curve s) = map fst (mm_curve s).
Proof.
  intros G. destruct G as [Rs E]. rewrite E at 1. unfold update_transform. cbn [mm_vs_curve]. rewrite rebuild by auto. unfold left_by. rewrite map_map. reflexivity.
Qed.
Lemma map_identical_same m1 m2 e : even m1 -> even m2 -> (map_identical euler m1 m2 e = Ok true <-> same_mapping euler e m1 m2).
Proof.
  destruct m1 as [f1|s1|s1], m2 as [f2|s2|s2]; cbn [even map_identical same_mapping]; intros E1 E2; try (split; [discriminate|contradiction]).
  - tauto.
  - apply curves_alike; apply good_times; auto.
  - destruct (Bool.eqb (fm_uniform s1) (fm_uniform s2)) eqn:U; cbn [negb].
    + apply eqb_prop in U. rewrite curves_alike by (symmetry; auto). tauto.
    + split; [discriminate|]. intros [H _]. rewrite H, eqb_reflx in U. discriminate.
Qed.

(** ** Without a tolerance *)
Lemma close_eq x y : close 0 x y -> x = y.
Proof. intros H. apply near_eq, near_close. auto. Qed.
Lemma close_abs_eq x y : close_abs 0 x y -> x = y.
Proof.
  unfold close_abs. intros H. pose proof (Rabs_pos (x - y)). assert (Z : Rabs (x - y) = 0) by lra.
  destruct (Req_dec (x - y) 0) as [|N]; [lra|]. apply Rabs_no_R0 in N. contradiction.
Qed.
Lemma each3_eq (P : R -> R -> Prop) a b : (forall x y, P x y -> x = y) -> each3 P a b -> a = b.
Proof. intros H (X & Y & Z). apply r3_eq; auto. Qed.
Lemma each4_eq (P : R -> R -> Prop) a b : (forall x y, P x y -> x = y) -> each4 P a b -> a = b.
Proof. intros H (X & Y & Z & T). destruct a, b. cbn in *. f_equal; auto. Qed.
Lemma entry_eq (P : R -> R -> Prop) a b : (forall x y, P x y -> x = y) -> each_entry P a b -> a = b.
Proof. intros H (X & Y & Z & T). destruct a, b. cbn in *. f_equal; apply (each4_eq P); auto. Qed.
(** Perpendicular rows have no shear. *)
Lemma no_shear m s : plain m -> decomposed euler m s -> h_shear s = R3 0 0 0.
Proof.
  intros (_ & _ & _ & _ & P1 & P2 & P3) (a & b & c & (Ua & Ub & Uc & AB & AC & BC & _) & _ & _ & Sg & E0 & E1 & E2).
  rewrite E0, E1 in P1. rewrite E0, E2 in P2. rewrite E1, E2 in P3. destruct s as [[sx sy sz] [hx hy hz] ang sh]. cbn [h_scale h_shear rx ry rz] in *.
  assert (X : sx * sy * hx = 0).
  { replace (dot3 (mix3 sx a 0 b 0 c) (mix3 (sy * hx) a sy b 0 c)) with (sx * sy * hx * dot3 a a + sx * sy * dot3 a b) in P1 by (vec; ring). rewrite Ua, AB in P1. lra. }
  assert (Y : sx * sz * hy = 0).
  { replace (dot3 (mix3 sx a 0 b 0 c) (mix3 (sz * hy) a (sz * hz) b sz c)) with (sx * sz * hy * dot3 a a + sx * sz * hz * dot3 a b + sx * sz * dot3 a c) in P2 by (vec; ring).
    rewrite Ua, AB, AC in P2. lra. }
  assert (Nx : sx <> 0) by (destruct Sg; lra). assert (Ny : sy <> 0) by (destruct Sg; lra). assert (Nz : sz <> 0) by (destruct Sg; lra).
  assert (Hx : hx = 0). { apply Rmult_integral in X as [X|X]; auto. apply Rmult_integral in X as [X|X]; contradiction. }
  assert (Hy : hy = 0). { apply Rmult_integral in Y as [Y|Y]; auto. apply Rmult_integral in Y as [Y|Y]; contradiction. }
  subst hx hy.
  assert (Z : sy * sz * hz = 0).
  { replace (dot3 (mix3 (sy * 0) a sy b 0 c) (mix3 (sz * 0) a (sz * hz) b sz c)) with (sy * sz * hz * dot3 b b + sy * sz * dot3 b c) in P3 by (vec; ring). rewrite Ub, BC in P3. lra. }
  apply Rmult_integral in Z as [Z|Z]; [apply Rmult_integral in Z as [Z|Z]; contradiction|]. subst. reflexivity.
Qed.
Lemma part3_eq a b : part3 a = part3 b -> e3 a = e3 b -> a = b.
Proof. destruct a, b. unfold part3. cbn. intros H <-. injection H as -> -> ->. reflexivity. Qed.
Lemma alike_eq m1 m2 : tells_apart euler -> plain m1 -> plain m2 -> alike euler 0 m1 m2 -> m1 = m2.
Proof.
  intros T P1 P2 [H|(s1 & s2 & D1 & D2 & H1 & H2 & H3)]; [apply (entry_eq (close 0)); auto; apply close_eq|].
  pose proof (no_shear _ _ P1 D1) as Sh1. pose proof (no_shear _ _ P2 D2) as Sh2.
  apply (each3_eq (close 0) _ _ close_eq) in H1, H3. apply (each3_eq (close_abs 0) _ _ close_abs_eq) in H2.
  destruct D1 as (a & b & c & A & An & Tr & _ & E0 & E1 & E2). destruct D2 as (a' & b' & c' & A' & An' & Tr' & _ & E0' & E1' & E2').
  destruct (T a b c a' b' c' A A') as (-> & -> & ->); [congruence|].
  rewrite H1, ?Sh1 in E0. rewrite H1, Sh1 in E1. rewrite H1, Sh1 in E2. rewrite Sh2 in E1'. rewrite Sh2 in E2'. rewrite <- E0' in E0. rewrite <- E1' in E1. rewrite <- E2' in E2. rewrite H3, <- Tr' in Tr.
  destruct P1 as (p0 & p1 & p2 & p3 & _), P2 as (q0 & q1 & q2 & q3 & _).
  destruct m1 as [a0 a1 a2 a3], m2 as [c0 c1 c2 c3]. cbn [row0 row1 row2 row3] in *. f_equal; apply part3_eq; congruence.
Qed.
Lemma curve_eq l1 l2 : tells_apart euler -> Forall (fun s => plain (snd s)) l1 -> Forall (fun s => plain (snd s)) l2 ->
  Forall2 (sample_alike euler 0) l1 l2 -> l1 = l2.
Proof.
  intros T F1 F2 H. induction H as [|[t a] [u b] l1 l2 [E A] H IH]; auto. inversion F1; subst. inversion F2; subst. cbn in *. subst u. f_equal; auto.
  f_equal. apply alike_eq; auto.
Qed.
End Euler.
