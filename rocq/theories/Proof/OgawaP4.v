From Coq Require Import ZArith List Bool Lia Arith.
From Verif Require Import Model.Base Model.OgawaM Spec.OgawaSpec Proof.BaseP Proof.OgawaP Proof.OgawaP2 Proof.OgawaP3.
Import ListNotations.
Open Scope Z_scope.

(** * The data bit *)
Lemma land_low p : 0 <= p < 2 ^ 63 -> Z.land p EMPTY_DATA = 0.
Proof.
  intros H. assert (E : Z.land p (Z.ones 63) = p) by (rewrite Z.land_ones, Z.mod_small; lia).
  rewrite <- E, <- Z.land_assoc. change (Z.land (Z.ones 63) EMPTY_DATA) with 0. apply Z.land_0_r.
Qed.
Lemma lor_data p : 0 <= p < 2 ^ 63 -> Z.lor p EMPTY_DATA = p + 2 ^ 63.
Proof. intros H. change (2 ^ 63) with EMPTY_DATA. rewrite Z.add_nocarry_lxor, Z.lxor_lor; auto using land_low. Qed.
Lemma is_data_low p : 0 <= p < 2 ^ 63 -> is_data_pos p = false.
Proof. intros H. unfold is_data_pos. rewrite land_low; auto. Qed.
Lemma is_data_high p : 0 <= p < 2 ^ 63 -> is_data_pos (Z.lor p EMPTY_DATA) = true.
Proof.
  intros H. unfold is_data_pos. rewrite Z.land_lor_distr_l, land_low, Z.lor_0_l, Z.land_diag by auto. reflexivity.
Qed.
Lemma data_pos_low p : 0 <= p < 2 ^ 63 -> Z.land (Z.lor p EMPTY_DATA) INVALID_GROUP = p.
Proof.
  intros H. rewrite Z.land_lor_distr_l. change (Z.land EMPTY_DATA INVALID_GROUP) with 0. rewrite Z.lor_0_r.
  change INVALID_GROUP with (Z.ones 63). rewrite Z.land_ones, Z.mod_small; lia.
Qed.

Section READ.
Variables (s : ostate) (l : list tgroup) (cs : list chunk) (fz rp : Z).
Hypothesis I : Inv s l cs.
Hypothesis CL : forall t, In t l -> t_closed t = true.
Let gs := o_groups s.
Let F := hdr fz rp ++ render gs cs.
Hypothesis SZ : Z.of_nat (length F) < 2 ^ 63.

Lemma off_bound k c : nth_error cs k = Some c -> (16 <= off gs cs k)%nat /\ Z.of_nat (off gs cs k) + 8 <= Z.of_nat (length F).
Proof.
  intros H. split; [unfold off; lia|]. unfold F. destruct (file_split gs cs k c fz rp H) as (A & B & -> & <-).
  pose proof (cbytes_pos gs c). rewrite !app_length. lia.
Qed.
Lemma pos_range g gr : nth_error gs g = Some gr -> 0 <= pos0 (og_pos gr) < 2 ^ 63.
Proof.
  intros E. destruct (og_pos gr) as [p|] eqn:P; cbn [pos0]; [|lia].
  destruct (v_frozen _ _ _ I g gr p E P) as [(_ & ->)|(k & Hk & ->)]; [lia|].
  fold gs. destruct (off_bound k _ Hk). lia.
Qed.
Lemma child_range g : Forall (fun z => 0 <= z < 2 ^ 64) (kids gs g).
Proof.
  apply Forall_forall. intros v H. unfold kids in H. destruct (nth_error gs g) as [gr|] eqn:E; [|destruct H].
  destruct (nth_error l g) as [t|] eqn:T.
  2:{ apply nth_error_None in T. rewrite <- (v_len _ _ _ I) in T. apply nth_error_None in T. unfold gs in E. congruence. }
  pose proof (v_kids _ _ _ I g gr t E T) as K. apply In_nth_error in H as (i & Hi).
  destruct (nth_error (t_items t) i) as [it|] eqn:Ti.
  2:{ apply nth_error_None in Ti. rewrite <- (Forall2_length' _ _ _ K) in Ti. apply nth_error_None in Ti. congruence. }
  pose proof (Forall2_nth _ _ _ _ _ _ K Hi Ti) as OK. destruct it as [h|b|]; cbn [child_ok] in OK.
  - destruct OK as (gh & Hh & ->). pose proof (pos_range h gh Hh). lia.
  - destruct OK as [(_ & ->)|(_ & k & Hk & ->)]; [unfold EMPTY_DATA; lia|].
    destruct (off_bound k _ Hk). fold gs. rewrite lor_data by lia. lia.
  - subst. lia.
Qed.

Definition good (g : nat) (ig : igroup) : Prop :=
  ig_num ig = Z.of_nat (length (kids gs g)) /\ forall i, i_child F ig (Z.of_nat i) = Some (nth_error (kids gs g) i).

Lemma open_good light g gr p : nth_error gs g = Some gr -> og_pos gr = Some p ->
  exists ig, i_open_group F light p = Some ig /\ good g ig.
Proof.
  intros E P. assert (KG : kids gs g = og_children gr) by (unfold kids; rewrite E; auto).
  destruct (v_frozen _ _ _ I g gr p E P) as [(K & ->)|(k & Hk & ->)].
  - exists empty_igroup. split; auto. split; [rewrite KG, K; auto|]. intros i. rewrite KG, K. unfold i_child. cbn.
    destruct (Z.to_nat (Z.of_nat i)), i; auto.
  - fold gs. destruct (off_bound k _ Hk) as (B1 & B2).
    unfold i_open_group, EMPTY_GROUP. destruct (Z.eqb_spec (Z.of_nat (off gs cs k)) 0) as [Z0|_]; [lia|].
    unfold good. destruct (file_split gs cs k _ fz rp Hk) as (A & B & FE & LA). fold F in FE. cbn [cbytes] in FE.
    set (n := Z.of_nat (length (kids gs g))) in *.
    assert (LF : (length F = length A + (8 + 8 * length (kids gs g) + length B))%nat).
    { rewrite FE, !app_length, enc64_length, flat_enc_length. lia. }
    assert (Rn : 0 <= n < 2 ^ 64) by (unfold n; lia).
    assert (R1 : read64 F (Z.of_nat (off gs cs k)) = Some n).
    { rewrite FE, <- LA, <- app_assoc. apply read64_mid. auto. }
    rewrite R1. destruct (negb light || (n <? 9)) eqn:LT.
    + assert (R2 : read_at F (Z.of_nat (off gs cs k) + 8) (n * 8) = Some (flat_map enc64 (kids gs g))).
      { rewrite FE, <- LA, <- !app_assoc. rewrite (app_assoc A).
        replace (Z.of_nat (length A) + 8) with (Z.of_nat (length (A ++ enc64 n))) by (rewrite app_length, enc64_length; lia).
        replace (n * 8) with (Z.of_nat (length (flat_map enc64 (kids gs g)))) by (rewrite flat_enc_length; unfold n; lia).
        apply read_at_mid. }
      rewrite R2. eexists. split; [reflexivity|]. cbn [ig_num]. split; auto. intros i.
      unfold n. rewrite Nat2Z.id. rewrite <- (app_nil_r (flat_map enc64 (kids gs g))), dec_vec_enc by apply child_range.
      unfold i_child, i_is_light. cbn [ig_num ig_vec]. rewrite Nat2Z.id.
      destruct (kids gs g) as [|c ch]; [destruct i; auto|]. rewrite andb_false_r. auto.
    + eexists. split; [reflexivity|]. cbn [ig_num]. split; auto. intros i.
      apply orb_false_iff in LT as [_ LT]. apply Z.ltb_ge in LT.
      unfold i_child, i_is_light. cbn [ig_num ig_vec ig_pos].
      destruct (Z.eqb_spec n 0); [lia|]. cbn [negb andb].
      destruct (Z.ltb_spec (Z.of_nat i) n) as [L|L].
      * destruct (nth_error (kids gs g) i) as [v|] eqn:V; [|apply nth_error_None in V; unfold n in L; lia].
        assert (read64 F (Z.of_nat (off gs cs k) + 8 * Z.of_nat i + 8) = Some v) as ->; auto.
        rewrite FE, <- LA, (nth_split_k _ _ _ V), flat_map_app. cbn [flat_map]. rewrite <- !app_assoc.
        set (X := flat_map enc64 (firstn i (kids gs g))).
        rewrite (app_assoc A), (app_assoc (A ++ enc64 n)).
        replace (Z.of_nat (length A) + 8 * Z.of_nat i + 8) with (Z.of_nat (length ((A ++ enc64 n) ++ X))).
        2:{ rewrite !app_length, enc64_length. unfold X. rewrite flat_enc_length, firstn_length.
            assert (i < length (kids gs g))%nat by (apply nth_error_Some; congruence). lia. }
        apply read64_mid. apply (proj1 (Forall_forall _ _) (child_range g)). eapply nth_error_In; eauto.
      * rewrite (proj2 (nth_error_None _ _)); auto. unfold n in L. lia.
Qed.

Lemma read_data_good k b : nth_error cs k = Some (KData b) ->
  i_read_data F (Z.lor (Z.of_nat (off gs cs k)) EMPTY_DATA) = Some b.
Proof.
  intros Hk. destruct (off_bound k _ Hk) as (B1 & B2). unfold i_read_data. rewrite data_pos_low by lia.
  destruct (Z.eqb_spec (Z.of_nat (off gs cs k)) 0) as [Z0|_]; [lia|].
  destruct (file_split gs cs k _ fz rp Hk) as (A & B & FE & LA). fold F in FE. cbn [cbytes] in FE.
  assert (LF : (length F = length A + (8 + length b + length B))%nat) by (rewrite FE, !app_length, enc64_length; lia).
  rewrite FE, <- LA, <- !app_assoc. rewrite read64_mid by lia. rewrite app_assoc.
  replace (Z.of_nat (length A) + 8) with (Z.of_nat (length (A ++ enc64 (Z.of_nat (length b))))) by (rewrite app_length, enc64_length; lia).
  apply read_at_mid.
Qed.

Lemma walk_good light : forall d g ig, (g < length l)%nat -> (length l - g <= d)%nat -> good g ig ->
  walk (S d) light F ig = Some (tree_at d l g).
Proof.
  induction d as [|d IH]; intros g ig Lg Ld (N & CH); [lia|].
  destruct (nth_error l g) as [t|] eqn:T; [|apply nth_error_None in T; lia].
  destruct (nth_error gs g) as [gr|] eqn:E.
  2:{ apply nth_error_None in E. unfold gs in E. rewrite (v_len _ _ _ I) in E. lia. }
  pose proof (v_kids _ _ _ I g gr t E T) as K. fold gs in K.
  assert (KG : kids gs g = og_children gr) by (unfold kids; rewrite E; auto). rewrite KG in *.
  remember (S d) as d1 eqn:D1. cbn [walk]. replace (tree_at d1 l g) with (tree_at (S d) l g) by (rewrite D1; auto). cbn [tree_at]. rewrite T, N, Nat2Z.id.
  match goal with |- context [match ?a with Some ts => _ | None => _ end] => assert (a = Some (map (fun i => match i with
                               | Sub h => tree_at d l h
                               | Bytes b => Data b
                               | NoGroup => Group []
                               end) (t_items t))) as ->; auto end.
  assert (ALL : forall pre ch its, og_children gr = pre ++ ch -> Forall2 (child_ok gs cs) ch its ->
     (forall it, In it its -> In it (t_items t)) ->
     (fix all (l0 : list nat) : option (list tree) :=
     match l0 with
     | [] => Some []
     | i :: r =>
         match
           match i_get_group F light ig (Z.of_nat i) with
           | Some (Some h) => walk d1 light F h
           | Some None =>
               match i_get_data F ig (Z.of_nat i) with
               | Some (Some b) => Some (Data b)
               | _ => None
               end
           | None => None
           end
         with
         | Some t0 => match all r with
                      | Some ts => Some (t0 :: ts)
                      | None => None
                      end
         | None => None
         end
     end) (seq (length pre) (length ch)) = Some (map (fun i => match i with
                               | Sub h => tree_at d l h
                               | Bytes b => Data b
                               | NoGroup => Group []
                               end) its)).
  2:{ apply (ALL [] (og_children gr)); auto. }
  intros pre ch its Hp F2. revert pre Hp. induction F2 as [|v it ch its OK F2 IHF]; intros pre Hp IN; [reflexivity|].
  cbn [length seq map].
  assert (REST := IHF (pre ++ [v])). rewrite app_length in REST. cbn [length] in REST. rewrite Nat.add_1_r in REST.
  rewrite REST by (rewrite <- ?app_assoc; auto; intros; apply IN; right; auto). clear REST.
  assert (CV : i_child F ig (Z.of_nat (length pre)) = Some (Some v)).
  { rewrite CH, Hp, nth_error_app2, Nat.sub_diag by lia. auto. }
  unfold i_get_group, i_get_data. rewrite CV.
  destruct it as [h|b|]; cbn [child_ok] in OK.
  - destruct OK as (gh & Hh & ->). pose proof (pos_range h gh Hh) as R. rewrite is_data_low by auto.
    assert (Lh : (h < length l)%nat) by (rewrite <- (v_len _ _ _ I); apply nth_error_Some; unfold gs in Hh; congruence).
    destruct (nth_error l h) as [th|] eqn:TH; [|apply nth_error_None in TH; lia].
    assert (C : t_closed th = true) by (apply CL; eapply nth_error_In; eauto).
    apply (v_closed _ _ _ I h gh th Hh TH) in C. destruct (og_pos gh) as [ph|] eqn:PH; [|congruence]. cbn [pos0].
    destruct (open_good light h gh ph Hh PH) as (ih & -> & G).
    rewrite (IH h ih); auto.
    assert (IS : In (Sub h) (t_items t)) by (apply IN; left; auto).
    apply In_nth_error in IS as (j & Hj). destruct (v_sub _ _ _ I g t j h T Hj). lia.
  - destruct OK as [(-> & ->)|(_ & k & Hk & ->)].
    + change (is_data_pos EMPTY_DATA) with true. cbn [i_read_data]. reflexivity.
    + destruct (off_bound k _ Hk). rewrite is_data_high by lia. rewrite (read_data_good k b) by auto. auto.
  - subst v. rewrite D1. reflexivity.
Qed.

Lemma read_root light : fz = 0 \/ fz = 255 -> rp = root_pos gs -> reads_as F (fz =? 255) light (tree_at (length l) l 0).
Proof.
  intros FZ RP. pose proof (v_pos _ _ _ I) as LP.
  destruct (nth_error gs 0) as [gr|] eqn:E.
  2:{ apply nth_error_None in E. unfold gs in E. rewrite (v_len _ _ _ I) in E. lia. }
  destruct (nth_error l 0) as [t|] eqn:T; [|apply nth_error_None in T; lia].
  assert (C : t_closed t = true) by (apply CL; eapply nth_error_In; eauto).
  apply (v_closed _ _ _ I 0%nat gr t E T) in C. destruct (og_pos gr) as [p|] eqn:P; [|congruence].
  destruct (open_good false 0%nat gr p E P) as (ig & O & G).
  exists ig. split; [|exists (S (length l)); apply walk_good; auto; lia].
  assert (R8 : read64 F 8 = Some p).
  { assert (rp = p) as HH. { rewrite RP. unfold root_pos. rewrite E, P. auto. }
    unfold F, hdr. rewrite HH. rewrite <- !app_assoc. change 8 with (Z.of_nat (length [79; 103; 97; 119; 97; fz; 0; 1])).
    apply read64_mid. pose proof (pos_range 0%nat gr E). rewrite P in H. cbn in H. lia. }
  unfold i_open. assert (SI : stream_init F = IStream true (fz =? 255) 1) by reflexivity.
  rewrite SI. cbn [is_valid is_version is_frozen]. rewrite R8, O. reflexivity.
Qed.
End READ.
