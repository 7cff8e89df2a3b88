From Coq Require Import ZArith List Bool String Lia.
From Verif Require Import Model.Base Model.FieldM Model.DenseM Model.SparseM Spec.VoxelSpec Spec.DenseSpec Spec.SparseSpec
  Proof.BaseP Proof.FieldP Proof.DenseP Proof.SparseP Proof.FieldIOP Spec.FieldIOSpec Proof.FieldIOP2 Model.Hdf5M Spec.Hdf5Spec
  Proof.Hdf5P.
Import ListNotations.
Open Scope Z_scope.

Definition occ {V} (bl : list (block V)) : nat := List.length (filter b_alloc bl).
Lemma list_set_mid {A} (pre t : list A) x y : list_set (pre ++ y :: t) (List.length pre) x = pre ++ x :: t.
Proof. induction pre as [|a pre IH]; cbn; auto. now rewrite IH. Qed.
Lemma concat_len {A} (n : nat) (l : list (list A)) : Forall (fun r => List.length r = n) l ->
  List.length (List.concat l) = (List.length l * n)%nat.
Proof. induction 1 as [|r l H _ IH]; auto. cbn. rewrite app_length, IH, H. lia. Qed.
Lemma skipn_concat {A} (n i : nat) (l : list (list A)) : Forall (fun r => List.length r = n) l ->
  skipn (i * n) (List.concat l) = List.concat (skipn i l).
Proof.
  intros F. revert l F. induction i as [|i IH]; intros l F; auto. destruct l as [|r l]; [now rewrite !skipn_nil|].
  inversion F as [|? ? H F']; subst. cbn [Nat.mul List.concat skipn]. rewrite skipn_app, skipn_all2 by lia.
  replace (List.length r + i * List.length r - List.length r)%nat with (i * List.length r)%nat by lia. cbn. auto.
Qed.
Lemma firstn_concat {A} (n i : nat) (l : list (list A)) : Forall (fun r => List.length r = n) l ->
  firstn (i * n) (List.concat l) = List.concat (firstn i l).
Proof.
  intros F. revert l F. induction i as [|i IH]; intros l F; auto. destruct l as [|r l]; [now rewrite !firstn_nil|].
  inversion F as [|? ? H F']; subst. cbn [Nat.mul List.concat firstn]. rewrite firstn_app, firstn_all2 by lia.
  replace (List.length r + i * List.length r - List.length r)%nat with (i * List.length r)%nat by lia. f_equal. auto.
Qed.
Lemma Forall_sub {A} (P : A -> Prop) i l : Forall P l -> Forall P (skipn i l) /\ Forall P (firstn i l).
Proof.
  intros F. rewrite <- (firstn_skipn i l) in F. apply Forall_app in F. tauto.
Qed.

Lemma skip_skip {A} (l : list A) a : forall b, skipn a (skipn b l) = skipn (b + a) l.
Proof. revert a. induction l as [|x l IH]; intros a [|b]; cbn [skipn Nat.add]; auto; now rewrite !skipn_nil. Qed.

Section V.
Context {A V : Type}.
Variables (convert : htype -> htype -> A -> A) (of_flag : bool -> A) (to_flag : A -> bool).
Hypothesis fa : faithful convert of_flag to_flag.
Variables (ty : htype) (comps : nat) (split : V -> list A) (join : list A -> V) (zero : V).
Hypothesis mo : made_of ty comps split join.

Definition row (b : block V) : list A := match b_data b with Some d => split_all split d | None => [] end.
Definition rows_of (bl : list (block V)) : list (list A) := map row (filter b_alloc bl).
(** Allocated blocks have data of the right size, others none. *)
Definition full (nvox : nat) (b : block V) : Prop :=
  if b_alloc b then exists d, b_data b = Some d /\ List.length d = nvox else b_data b = None.
Lemma rows_full nvox bl : Forall (full nvox) bl -> Forall (fun r => List.length r = (nvox * comps)%nat) (rows_of bl).
Proof.
  intros F. apply Forall_forall. intros r I. apply in_map_iff in I as (b & <- & I). apply filter_In in I as [I Al].
  rewrite Forall_forall in F. specialize (F b I). unfold full in F. rewrite Al in F. destruct F as (d & E & L).
  unfold row. rewrite E, (split_len ty comps split join mo), L. reflexivity.
Qed.
Lemma occ_rows bl : List.length (rows_of bl) = occ bl.
Proof. unfold rows_of. apply map_length. Qed.

Lemma put_rows_ok nvox bl : Forall (full nvox) bl -> forall pre,
  put_rows split (nvox * comps) bl (List.length pre) (pre ++ repeat [] (occ bl)) = Ok (pre ++ rows_of bl).
Proof.
  induction bl as [|b bl IH]; intros F pre.
  - cbn. reflexivity.
  - inversion F as [|? ? Hb F']; subst. unfold full in Hb. cbn [put_rows]. unfold occ, rows_of. cbn [filter].
    destruct (b_alloc b) eqn:Al; [|apply IH; auto].
    destruct Hb as (d & E & L). rewrite E. cbn [map List.length repeat].
    pose proof (split_len ty comps split join mo d) as SL. rewrite L in SL.
    rewrite SL, Nat.ltb_irrefl, app_length. cbn [List.length].
    replace (Nat.ltb _ _) with true by (symmetry; apply Nat.ltb_lt; lia).
    rewrite list_set_mid, <- SL, firstn_all. specialize (IH F' (pre ++ [split_all split d])).
    rewrite app_length, Nat.add_1_r, <- !app_assoc, <- SL in IH. cbn [List.length app] in IH. unfold occ in IH. rewrite IH.
    replace (row b) with (split_all split d) by (unfold row; now rewrite E). reflexivity.
Qed.

Section F.
Variable f : sparse V.
Hypothesis S0 : sshape f.
Definition nvox : nat := Z.to_nat (2 ^ (s_order f * 3)).
Definition vpb : Z := 2 ^ (s_order f * 3) * Z.of_nat comps.
Lemma pow3 o : 0 <= o -> 2 ^ (o * 3) = 2 ^ o * 2 ^ o * 2 ^ o.
Proof. intros H. replace (o * 3) with (o + o + o) by lia. now rewrite !Z.pow_add_r by lia. Qed.
Lemma order_nn : 0 <= s_order f <= 10.
Proof. pose proof (ss_order _ S0) as O. unfold order_ok in O. lia. Qed.
Lemma blocks_full : Forall (full nvox) (s_blocks f).
Proof.
  pose proof order_nn. eapply Forall_impl; [|apply (ss_blk _ S0)]. intros b. unfold block_shape, full. destruct (b_alloc b); auto.
  intros (d & E & L). exists d. split; auto. unfold nvox. rewrite pow3 by lia. lia.
Qed.
Lemma vpb_nat : Z.to_nat vpb = (nvox * comps)%nat.
Proof.
  unfold vpb, nvox. pose proof order_nn. assert (0 < 2 ^ (s_order f * 3)) by (apply Z.pow_pos_nonneg; lia).
  rewrite Z2Nat.inj_mul, Nat2Z.id by lia. reflexivity.
Qed.
Lemma vpb_pos : 0 < vpb.
Proof.
  unfold vpb. pose proof order_nn. assert (0 < 2 ^ (s_order f * 3)) by (apply Z.pow_pos_nonneg; lia).
  pose proof (comps_pos ty comps split join mo). nia.
Qed.

Definition nblk : nat := List.length (s_blocks f).
Definition sparse_attrs : list (string * hattr) :=
  [("version", AInts [1]); ("extents", AInts (of_box (s_ext f))); ("data_window", AInts (of_box (s_dw f)));
   ("components", AInts [Z.of_nat comps]); ("block_order", AInts [s_order f]); ("num_blocks", AInts [Z.of_nat nblk]);
   ("block_res", AInts [vx (s_bres f); vy (s_bres f); vz (s_bres f)]); ("bits_per_component", AInts [h5bits ty]);
   ("num_occupied_blocks", AInts [Z.of_nat (occ (s_blocks f))])]%string.
Definition flag_sets : list (string * hset A) :=
  [("block_is_allocated_data", HSet HChar [Z.of_nat nblk] (map (fun b => of_flag (b_alloc b)) (s_blocks f)));
   ("block_empty_value_data", HSet ty [Z.of_nat (nblk * comps)] (split_all split (map b_empty (s_blocks f))))]%string.
Definition data_set : hset A := HSet ty [Z.of_nat (occ (s_blocks f)); vpb] (List.concat (rows_of (s_blocks f))).
Definition sparse_sets : list (string * hset A) :=
  if Nat.eqb (occ (s_blocks f)) 0 then flag_sets else flag_sets ++ [("data", data_set)]%string.

End F.

(** All but the last step depends only on the number of blocks. *)
Lemma sparse_write_pre f f' gzip g : sshape f ->
  s_order f' = s_order f -> s_bres f' = s_bres f -> List.length (s_blocks f') = List.length (s_blocks f) ->
  room_in g -> in_int (vpb f) = true ->
  sparse_h5_write of_flag ty comps split gzip f' g =
  if Nat.eqb (occ (s_blocks f')) 0 then Ok (added g (sparse_attrs f') (flag_sets f'), true)
  else if negb (chunk_ok gzip ty [1; vpb f]) then Ok (added g (sparse_attrs f') (flag_sets f'), false)
  else let* rows := put_rows split (nvox f * comps) (s_blocks f') 0 (repeat [] (occ (s_blocks f'))) in
       Ok (added g (sparse_attrs f') (flag_sets f' ++ [("data"%string, HSet ty [Z.of_nat (occ (s_blocks f')); vpb f] (List.concat rows))]), true).
Proof.
  intros S0 EO EB EL Rm IV. destruct (nblocks_pos f S0) as (X & Y & Z0 & NB & XY & IB). pose proof (order_nn f S0) as O.
  unfold sparse_h5_write. rewrite (added_nil g) at 1.
  rewrite put_attr_added by (auto; in_layer). cbn [or_throw bind app]. rewrite EO.
  replace (10 <? s_order f) with false by lia. fold (vpb f). unfold i32 at 1. rewrite IV. cbn [bind].
  do 4 (rewrite put_attr_added by (auto; (reflexivity || in_layer)); cbn [app]). rewrite EB.
  unfold i32 at 1. replace (in_int _) with true.
  2:{ symmetry. apply in_int_iff. assert (0 < vx (s_bres f) * vy (s_bres f)) by (apply Z.mul_pos_pos; lia). lia. }
  cbn [bind]. rewrite <- (ss_len _ S0), <- EL. fold (nblk f'). unfold i32 at 1.
  replace (in_int (Z.of_nat (nblk f'))) with true by (symmetry; apply in_int_iff; unfold nblk; lia). cbn [bind].
  do 3 (rewrite put_attr_added by (auto; (reflexivity || in_layer)); cbn [app]).
  rewrite Z.eqb_refl. cbn [negb]. unfold put_simple.
  rewrite put_set_added by (auto; (reflexivity || in_layer)). cbn [or_throw bind app].
  assert (NE : s_blocks f' <> []) by (intros E; rewrite E in EL; cbn in EL; lia).
  destruct (map (fun b => of_flag (b_alloc b)) (s_blocks f')) as [|a0 al] eqn:M1; [destruct (s_blocks f'); [congruence|discriminate]|].
  rewrite <- M1. clear M1 a0 al. cbn [bind].
  rewrite put_set_added by (auto; (reflexivity || in_layer)). cbn [or_throw bind app].
  destruct (split_all split (map b_empty (s_blocks f'))) as [|a0 al] eqn:M1.
  { apply (f_equal (@List.length A)) in M1. rewrite (split_len ty comps split join mo), map_length in M1. cbn in M1.
    pose proof (comps_pos ty comps split join mo). assert (0 < List.length (s_blocks f'))%nat by lia. nia. }
  rewrite <- M1. clear M1 a0 al. cbn [bind].
  rewrite put_attr_added by (auto; (reflexivity || in_layer)). cbn [or_throw bind app]. fold (occ (s_blocks f')).
  replace (added g _ _) with (added g (sparse_attrs f') (flag_sets f')).
  2:{ unfold sparse_attrs, flag_sets, nblk. rewrite (split_len ty comps split join mo), !map_length, EO, EB. reflexivity. }
  destruct (Nat.eqb (occ (s_blocks f')) 0); auto.
  destruct (chunk_ok gzip ty [1; vpb f]); cbn [negb]; auto.
  rewrite (vpb_nat f S0). destruct (put_rows _ _ _ _ _); cbn [bind]; auto.
  rewrite put_set_added by (auto; (reflexivity || in_layer)). reflexivity.
Qed.
Lemma sparse_write_eq f (S0 : sshape f) gzip g : room_in g -> in_int (vpb f) = true ->
  sparse_h5_write of_flag ty comps split gzip f g =
  if Nat.eqb (occ (s_blocks f)) 0 || chunk_ok gzip ty [1; vpb f] then Ok (added g (sparse_attrs f) (sparse_sets f), true)
  else Ok (added g (sparse_attrs f) (flag_sets f), false).
Proof.
  intros Rm IV. rewrite (sparse_write_pre f f gzip g) by auto. unfold sparse_sets.
  destruct (Nat.eqb (occ (s_blocks f)) 0); cbn [orb]; auto. destruct (chunk_ok gzip ty [1; vpb f]); cbn [negb]; auto.
  pose proof (put_rows_ok (nvox f) (s_blocks f) (blocks_full f S0) []) as P. cbn [app List.length] in P. rewrite P. reflexivity.
Qed.
Lemma put_rows_none n bl : (forall b, In b bl -> b_data b = None) -> occ bl <> 0%nat ->
  forall next rows, put_rows split n bl next rows = Exn.
Proof.
  induction bl as [|b bl IH]; intros D O next rows; [now destruct O|]. cbn [put_rows]. unfold occ in O. cbn [filter] in O.
  destruct (b_alloc b); [now rewrite (D b (or_introl eq_refl))|]. apply IH; auto. intros x I. apply D. now right.
Qed.

(** * Reading *)
Definition prep (alloc : bool) (n : nat) (b : block V) : block V :=
  if alloc && b_alloc b then Block true (b_empty b) (Some (repeat zero n)) else Block (b_alloc b) (b_empty b) None.
Lemma set_blocks_ok alloc n bl :
  set_blocks to_flag alloc n (List.length bl) (repeat (block_init zero) (List.length bl))
    (map (fun b => of_flag (b_alloc b)) bl) (map b_empty bl) = Ok (map (prep alloc n) bl).
Proof.
  induction bl as [|b bl IH]; auto. cbn [List.length repeat map set_blocks]. rewrite IH. cbn [bind].
  rewrite (proj2 fa). unfold prep at 2. cbn [block_init b_empty b_data]. destruct (alloc && b_alloc b) eqn:E; auto.
Qed.

Lemma rows_at_ok d nv R i k : Forall (fun r => List.length r = (nv * comps)%nat) R -> (i + k <= List.length R)%nat ->
  rows_at convert ty (HSet ty d (List.concat R)) (nv * comps) i k = Some (List.concat (firstn k (skipn i R))).
Proof.
  intros F L. unfold rows_at. cbn [hs_type hs_data]. rewrite (convert_same convert of_flag to_flag fa), skipn_concat, firstn_concat; auto; [|apply Forall_sub; auto].
  rewrite (concat_len (nv * comps)); [|apply Forall_sub, Forall_sub; auto].
  rewrite firstn_length_le by (rewrite skipn_length; lia). now rewrite Nat.eqb_refl.
Qed.

Lemma pass_ok limit bytes (bl : list (block V)) : forall mem, mem < limit -> let '(n, k) := pass limit bytes mem bl in
  (n <= List.length bl)%nat /\ k = occ (firstn n bl) /\ (k = 0%nat -> n = List.length bl) /\ (bl <> [] -> (0 < n)%nat).
Proof.
  assert (G : forall (bl : list (block V)) mem, let '(n, k) := pass limit bytes mem bl in (n <= List.length bl)%nat /\ k = occ (firstn n bl)).
  { clear. induction bl as [|b bl IH]; intros mem; cbn [pass].
    - cbn. auto.
    - destruct (mem <? limit); [|cbn; split; [lia|reflexivity]]. specialize (IH (if b_alloc b then mem + bytes else mem)).
      destruct (pass limit bytes _ bl) as [n k]. destruct IH as [L K]. cbn [List.length firstn]. split; [lia|].
      unfold occ. cbn [filter]. destruct (b_alloc b); cbn [List.length]; unfold occ in K; congruence. }
  induction bl as [|b bl IH]; intros mem M.
  - cbn. repeat split; auto. congruence.
  - specialize (G (b :: bl) mem). cbn [pass] in *. replace (mem <? limit) with true in * by lia.
    specialize (IH (if b_alloc b then mem + bytes else mem)).
    destruct (pass limit bytes (if b_alloc b then mem + bytes else mem) bl) as [n k]. destruct G as [G1 G2].
    split; auto. split; auto. split; [|lia]. intros K. destruct (b_alloc b); [discriminate|]. destruct (IH M) as (_ & _ & I & _).
    cbn [List.length]. auto.
Qed.

Lemma full_prep nv bl : Forall (full nv) bl -> occ bl = 0%nat -> map (prep true nv) bl = bl.
Proof.
  induction 1 as [|b bl H _ IH]; auto. unfold occ. cbn [filter map]. unfold full in H. destruct (b_alloc b) eqn:E; [discriminate|].
  intros O. rewrite IH by auto. f_equal. unfold prep. rewrite E. cbn [andb]. destruct b; cbn in *. congruence.
Qed.
Lemma occ_prep al nv bl : occ (map (prep al nv) bl) = occ bl.
Proof.
  unfold occ. induction bl as [|b bl IH]; auto. cbn [map filter]. replace (b_alloc (prep al nv b)) with (b_alloc b).
  - destruct (b_alloc b); cbn; auto.
  - unfold prep. destruct al, (b_alloc b) eqn:E; auto.
Qed.

Lemma deal_ok nv bl r : Forall (full nv) bl ->
  deal comps join nv (nv * comps) (List.concat (rows_of bl) ++ r) (map (prep true nv) bl) = bl.
Proof.
  induction 1 as [|b bl H F IH]; auto. unfold rows_of. cbn [filter map deal].
  unfold full in H. unfold prep at 1 2. destruct (b_alloc b) eqn:E; cbn [andb b_alloc b_empty].
  - destruct H as (d & D & L). cbn [map List.concat]. replace (row b) with (split_all split d) by (unfold row; now rewrite D).
    fold (rows_of bl). rewrite <- !app_assoc. subst nv. rewrite (join_split ty comps split join mo).
    rewrite skipn_app, (split_len ty comps split join mo), Nat.sub_diag, skipn_all2 by (rewrite (split_len ty comps split join mo); lia).
    cbn [skipn app]. rewrite IH. f_equal. destruct b; cbn in *. congruence.
  - fold (rows_of bl). f_equal; [unfold prep; rewrite E; cbn [andb]; destruct b; cbn in *; congruence|]. apply IH.
Qed.

Lemma rows_app a b : rows_of (a ++ b) = rows_of a ++ rows_of b.
Proof. unfold rows_of. now rewrite filter_app, map_app. Qed.
Lemma rows_firstn n bl : rows_of (firstn n bl) = firstn (occ (firstn n bl)) (rows_of bl).
Proof.
  assert (H : rows_of bl = rows_of (firstn n bl) ++ rows_of (skipn n bl)) by now rewrite <- rows_app, firstn_skipn.
  now rewrite H, <- occ_rows, firstn_app, Nat.sub_diag, firstn_O, app_nil_r, firstn_all.
Qed.
Lemma rows_skipn n bl : rows_of (skipn n bl) = skipn (occ (firstn n bl)) (rows_of bl).
Proof.
  assert (H : rows_of bl = rows_of (firstn n bl) ++ rows_of (skipn n bl)) by now rewrite <- rows_app, firstn_skipn.
  now rewrite H, <- occ_rows, skipn_app, Nat.sub_diag, skipn_all.
Qed.

Lemma passes_ok limit bytes nv d R : 0 < limit -> Forall (fun r => List.length r = (nv * comps)%nat) R ->
  forall fuel bl next, (List.length bl < fuel)%nat -> Forall (full nv) bl -> (next <= List.length R)%nat -> skipn next R = rows_of bl ->
  passes convert ty comps join fuel (HSet ty d (List.concat R)) limit bytes nv (nv * comps) next (map (prep true nv) bl) = Some (Ok bl).
Proof.
  intros L FR. induction fuel as [|fuel IH]; intros bl next Lf F Ln SR; [lia|]. cbn [passes].
  pose proof (pass_ok limit bytes (map (prep true nv) bl) 0 L) as P. destruct (pass limit bytes 0 (map (prep true nv) bl)) as [n k].
  rewrite map_length in P. destruct P as (P1 & P2 & P3 & P4). rewrite firstn_map, occ_prep in P2.
  destruct (Nat.eqb_spec k 0) as [K|K].
  - rewrite full_prep; auto. specialize (P3 K). subst k. rewrite P3, firstn_all in K. auto.
  - assert (SL : (next + occ bl = List.length R)%nat) by (rewrite <- occ_rows, <- SR, skipn_length; lia).
    assert (KL : (k <= occ bl)%nat).
    { rewrite P2. unfold occ. rewrite <- (firstn_skipn n bl) at 2. rewrite filter_app, app_length. lia. }
    rewrite rows_at_ok by (auto; lia). rewrite SR, P2, <- rows_firstn, <- P2.
    assert (N0 : (0 < n)%nat) by (destruct n; [subst k; cbn in K; congruence|lia]).
    rewrite firstn_map, skipn_map, IH.
    + rewrite <- (app_nil_r (List.concat _)), deal_ok, firstn_skipn; auto. apply Forall_sub; auto.
    + rewrite skipn_length. lia.
    + apply Forall_sub; auto.
    + lia.
    + rewrite rows_skipn, <- P2, <- SR, skip_skip. reflexivity.
Qed.
End V.
