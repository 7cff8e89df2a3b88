(** Proofs about ray intersection. *)
From Coq Require Import ZArith Reals List Bool Lra Lia.
From Verif Require Import Model.Base Model.RealM Model.VecM Model.MatM Model.CurveM Model.MapM Model.RayM
  Spec.MapSpec Spec.RaySpec Proof.MatP Proof.PointP.
Import ListNotations.
Open Scope R_scope.

Lemma rltb_t a b : rltb a b = true <-> a < b.
Proof. unfold rltb. destruct (Rlt_dec a b); split; intros; auto; try discriminate; lra. Qed.
Lemma rltb_f a b : rltb a b = false <-> b <= a.
Proof. unfold rltb. destruct (Rlt_dec a b); split; intros; auto; try discriminate; lra. Qed.
Lemma reqb_t a b : reqb a b = true <-> a = b.
Proof. unfold reqb. destruct (Req_EM_T a b); split; intros; auto; try discriminate; lra. Qed.

Definition in_axis (a : axis) (t : R) : Prop := ax_min a <= ax_pos a + t * ax_dir a <= ax_max a.
Definition good_axis (eps : R) (a : axis) : Prop :=
  ax_min a <= ax_max a /\ regular_axis eps (ax_min a) (ax_max a) (ax_pos a) (ax_dir a) (ax_neg a).

Lemma max_fin n x : fp_max (Fin n) (Fin x) = Fin (Rmax n x).
Proof. unfold fp_max. cbn. destruct (rltb n x) eqn:L; [apply rltb_t in L; rewrite Rmax_right|apply rltb_f in L; rewrite Rmax_left]; auto; lra. Qed.
Lemma min_fin n x : fp_min (Fin n) (Fin x) = Fin (Rmin n x).
Proof. unfold fp_min. cbn. destruct (rltb x n) eqn:L; [apply rltb_t in L; rewrite Rmin_right|apply rltb_f in L; rewrite Rmin_left]; auto; lra. Qed.

Lemma div_le a b d : 0 < d -> a / d <= b <-> a <= b * d.
Proof. intros D. split; intros H. - apply (Rmult_le_compat_r d) in H; [|lra]. unfold Rdiv in H. rewrite Rmult_assoc, Rinv_l in H; lra.
  - apply (Rmult_le_reg_r d); auto. unfold Rdiv. rewrite Rmult_assoc, Rinv_l; lra. Qed.
Lemma le_div a b d : 0 < d -> b <= a / d <-> b * d <= a.
Proof. intros D. split; intros H. - apply (Rmult_le_compat_r d) in H; [|lra]. unfold Rdiv in H. rewrite Rmult_assoc, Rinv_l in H; lra.
  - apply (Rmult_le_reg_r d); auto. unfold Rdiv. rewrite Rmult_assoc, Rinv_l; lra. Qed.
Lemma div_opp a d : a / d = (- a) / (- d).
Proof. destruct (Req_dec d 0) as [->|N]; [rewrite Ropp_0; unfold Rdiv; rewrite Rinv_0; ring|field; auto]. Qed.

(** One slab. *)
Lemma slab_step eps a n f : 0 < eps -> good_axis eps a ->
  rltb (Rabs (ax_dir a)) eps && (rltb (ax_pos a) (ax_min a) || rltb (ax_max a) (ax_pos a)) = false ->
  let t0 := fp_div (ax_min a - ax_pos a) (ax_dir a) (ax_neg a) in
  let t1 := fp_div (ax_max a - ax_pos a) (ax_dir a) (ax_neg a) in
  let p := if fp_lt t1 t0 then (t1, t0) else (t0, t1) in
  exists n' f', fp_max (Fin n) (fst p) = Fin n' /\ fp_min (Fin f) (snd p) = Fin f' /\
    forall t, n' <= t <= f' <-> n <= t <= f /\ in_axis a t.
Proof.
  intros E (B & G) K. destruct a as [lo hi x d neg]. cbn [ax_min ax_max ax_pos ax_dir ax_neg] in *. unfold in_axis. cbn [ax_min ax_max ax_pos ax_dir ax_neg].
  unfold fp_div. destruct (reqb d 0) eqn:D.
  - apply reqb_t in D. subst d.
    assert (I : lo <= x <= hi).
    { apply andb_false_iff in K as [K|K]. - apply rltb_f in K. rewrite Rabs_R0 in K. lra.
      - apply orb_false_iff in K as (K1 & K2). apply rltb_f in K1, K2. lra. }
    assert (S : neg = false \/ x <> lo /\ x <> hi).
    { destruct G as [G|[G|G]]; [rewrite Rabs_R0 in G; lra|lra|tauto]. }
    assert (U : forall t, lo <= x + t * 0 <= hi) by (intros; rewrite Rmult_0_r, Rplus_0_r; auto).
    exists n, f. cbn zeta.
    assert (X : let p := (if fp_lt (if reqb (hi - x) 0 then NaN else if eqb (rltb (hi - x) 0) neg then PInf else NInf)
                  (if reqb (lo - x) 0 then NaN else if eqb (rltb (lo - x) 0) neg then PInf else NInf)
               then (if reqb (hi - x) 0 then NaN else if eqb (rltb (hi - x) 0) neg then PInf else NInf,
                     if reqb (lo - x) 0 then NaN else if eqb (rltb (lo - x) 0) neg then PInf else NInf)
               else (if reqb (lo - x) 0 then NaN else if eqb (rltb (lo - x) 0) neg then PInf else NInf,
                     if reqb (hi - x) 0 then NaN else if eqb (rltb (hi - x) 0) neg then PInf else NInf)) in
              (fst p = NaN \/ fst p = NInf) /\ (snd p = NaN \/ snd p = PInf)).
    { destruct (reqb (hi - x) 0) eqn:H1, (reqb (lo - x) 0) eqn:H2; cbn; auto.
      - apply reqb_t in H1. assert (rltb (lo - x) 0 = true) as ->. { apply rltb_t. unfold reqb in H2. destruct (Req_EM_T (lo - x) 0); try discriminate. lra. }
        destruct neg; cbn; auto. destruct S as [S|S]; [discriminate|lra].
      - apply reqb_t in H2. assert (rltb (hi - x) 0 = false) as ->. { apply rltb_f. unfold reqb in H1. destruct (Req_EM_T (hi - x) 0); try discriminate. lra. }
        destruct neg; cbn; auto. destruct S as [S|S]; [discriminate|lra].
      - assert (rltb (lo - x) 0 = true) as ->. { apply rltb_t. unfold reqb in H2. destruct (Req_EM_T (lo - x) 0); try discriminate. lra. }
        assert (rltb (hi - x) 0 = false) as ->. { apply rltb_f. unfold reqb in H1. destruct (Req_EM_T (hi - x) 0); try discriminate. lra. }
        destruct neg; cbn; auto. }
    cbn zeta in X. destruct X as (X1 & X2).
    split; [destruct X1 as [-> | ->]; reflexivity|]. split; [destruct X2 as [-> | ->]; reflexivity|].
    intros t. specialize (U t). tauto.
  - unfold reqb in D. destruct (Req_EM_T d 0) as [|N]; [discriminate|]. clear D.
    assert (X : let p := if rltb ((hi - x) / d) ((lo - x) / d) then ((hi - x) / d, (lo - x) / d) else ((lo - x) / d, (hi - x) / d) in
            forall t, fst p <= t <= snd p <-> lo <= x + t * d <= hi).
    { cbn zeta. destruct (Rlt_dec 0 d) as [P|P].
      - assert (L : (lo - x) / d <= (hi - x) / d) by (apply (proj2 (div_le _ _ _ P)); unfold Rdiv; rewrite Rmult_assoc, Rinv_l; lra).
        apply rltb_f in L. rewrite L. cbn [fst snd]. intros t. rewrite div_le, le_div by auto. lra.
      - assert (P' : 0 < - d) by lra. rewrite (div_opp (hi - x)), (div_opp (lo - x)).
        assert (L : - (hi - x) / - d <= - (lo - x) / - d) by (apply (proj2 (div_le _ _ _ P')); unfold Rdiv; rewrite Rmult_assoc, Rinv_l; lra).
        destruct (rltb (- (hi - x) / - d) _) eqn:Q; cbn [fst snd]; intros t.
                  + rewrite div_le, le_div by auto. lra.
        + apply rltb_f in Q. assert (Z : - (hi - x) / - d = - (lo - x) / - d) by lra.
          assert (hi = lo) as ->.
          { apply (f_equal (fun q => q * - d)) in Z. unfold Rdiv in Z. rewrite !Rmult_assoc, !Rinv_l in Z by lra. lra. }
          rewrite div_le, le_div by auto. lra. }
    cbn zeta in X |- *. cbn [fp_lt].
    destruct (rltb ((hi - x) / d) ((lo - x) / d)); cbn [fst snd] in *; rewrite max_fin, min_fin; eexists; eexists; (split; [reflexivity|]; split; [reflexivity|]);
      intros t; rewrite <- X; (split; [intros (A1 & A2)|intros ((A1 & A2) & A3 & A4)]).
    + pose proof (Rmax_l n ((hi - x) / d)). pose proof (Rmax_r n ((hi - x) / d)). pose proof (Rmin_l f ((lo - x) / d)). pose proof (Rmin_r f ((lo - x) / d)). lra.
    + split; [apply Rmax_lub|apply Rmin_glb]; auto.
    + pose proof (Rmax_l n ((lo - x) / d)). pose proof (Rmax_r n ((lo - x) / d)). pose proof (Rmin_l f ((hi - x) / d)). pose proof (Rmin_r f ((hi - x) / d)). lra.
    + split; [apply Rmax_lub|apply Rmin_glb]; auto.
Qed.

Lemma slabs_right eps l n f : 0 < eps -> Forall (good_axis eps) l -> n <= f -> 0 <= f ->
  match slabs eps l (Fin n) (Fin f) with
  | Some (a, b) => exists t0 t1, a = Fin t0 /\ b = Fin t1 /\ t0 <= t1 /\ 0 <= t1 /\ forall t, t0 <= t <= t1 <-> n <= t <= f /\ Forall (fun a => in_axis a t) l
  | None => forall t, 0 <= t -> n <= t <= f -> ~ Forall (fun a => in_axis a t) l
  end.
Proof.
  intros E. revert n f. induction l as [|a l IH]; intros n f G NF F.
  - cbn. exists n, f. repeat split; auto; try tauto; intros; try (destruct H; lra).
  - inversion G; subst. clear G. cbn [slabs].
    destruct (rltb (Rabs (ax_dir a)) eps && (rltb (ax_pos a) (ax_min a) || rltb (ax_max a) (ax_pos a))) eqn:K.
    + intros t T0 T X. apply Forall_inv in X. destruct H1 as (B & R0). unfold in_axis in X.
      apply andb_true_iff in K as (K1 & K2). apply rltb_t in K1.
      assert (O : ax_pos a < ax_min a \/ ax_max a < ax_pos a) by (apply orb_true_iff in K2 as [K2|K2]; apply rltb_t in K2; auto).
      destruct R0 as [R0|[R0|(R0 & _)]]; [lra|lra|]. rewrite R0, Rmult_0_r in X. lra.
    + destruct (slab_step eps a n f E H1 K) as (n' & f' & A & B & C). cbn zeta in A, B.
      destruct (if fp_lt (fp_div (ax_max a - ax_pos a) (ax_dir a) (ax_neg a)) (fp_div (ax_min a - ax_pos a) (ax_dir a) (ax_neg a))
                then _ else _) as (t0, t1). cbn [fst snd] in A, B. rewrite A, B. cbn [fp_lt].
      destruct (rltb f' n') eqn:L.
      { apply rltb_t in L. intros t T0 T X. inversion X; subst. assert (n' <= t <= f') by (apply C; auto). lra. }
      apply rltb_f in L. destruct (rltb f' 0) eqn:Z.
      { apply rltb_t in Z. intros t T0 T X. inversion X; subst. assert (n' <= t <= f') by (apply C; auto). lra. }
      apply rltb_f in Z. specialize (IH n' f' H2 L Z).
      destruct (slabs eps l (Fin n') (Fin f')) as [(u, v)|].
      * destruct IH as (u0 & v0 & -> & -> & U & V & W). exists u0, v0. do 4 (split; [auto|]). intros t. rewrite W, C, Forall_cons_iff. tauto.
      * intros t T0 T X. pose proof (Forall_inv X). pose proof (Forall_inv_tail X). apply (IH t T0); auto. apply C; auto.
Qed.

Lemma intersect_right big eps r b : 0 < big -> 0 < eps ->
  rx (rmin b) <= rx (rmax b) -> ry (rmin b) <= ry (rmax b) -> rz (rmin b) <= rz (rmax b) -> regular eps r b ->
  right_answer big (intersect big eps r b) (fun t => inside (rmin b) (rmax b) (along (ray_pos r) (ray_dir r) t)).
Proof.
  intros BG E X Y Z (RX & RY & RZ). unfold intersect, right_answer.
  assert (G : Forall (good_axis eps) (axes r b)) by (constructor; [|constructor; [|constructor; [|constructor]]]; split; cbn; auto).
  pose proof (slabs_right eps (axes r b) (- big) big E G ltac:(lra) ltac:(lra)) as H.
  assert (I : forall t, Forall (fun a => in_axis a t) (axes r b) <-> inside (rmin b) (rmax b) (along (ray_pos r) (ray_dir r) t)).
  { intros t. unfold axes, in_axis, inside, along. cbn [rx ry rz]. split.
    - intros F. inversion F as [|? ? A F1]; subst. inversion F1 as [|? ? B F2]; subst. inversion F2 as [|? ? C F3]; subst. cbn in *. auto.
    - intros (A & B & C). constructor; [|constructor; [|constructor; [|constructor]]]; cbn; lra. }
  destruct (slabs eps (axes r b) (Fin (- big)) (Fin big)) as [(u, v)|].
  - destruct H as (t0 & t1 & A & B & C & D & F). exists t0, t1. do 4 (split; [auto|]). intros t. rewrite F, I. tauto.
  - intros t T J. apply I in J. apply (H t); auto; lra.
Qed.
