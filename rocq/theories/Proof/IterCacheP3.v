(** The invariant of programs with iterators over a dynamically loaded field. *)
From Coq Require Import ZArith List Bool Lia Arith.
From Verif Require Import Model.Base Model.FieldM Model.SparseM Model.CacheM Model.IterCacheM
  Spec.VoxelSpec Spec.SparseSpec Spec.CacheSpec Spec.IterCacheSpec
  Proof.BaseP Proof.FieldP Proof.SparseP Proof.SparseP2 Proof.SparseP3 Proof.CacheP Proof.CacheP2 Proof.CacheP3 Proof.CacheP4
  Proof.IterCacheP Proof.IterCacheP2.
Import ListNotations.
Open Scope Z_scope.

Lemma F2_nth {A B} (R : A -> B -> Prop) l l' : Forall2 R l l' -> forall i x, nth_error l i = Some x ->
  exists y, nth_error l' i = Some y /\ R x y.
Proof. induction 1; intros [|i] z H1; cbn in *; try discriminate; eauto. injection H1 as <-. eauto. Qed.
Lemma F2_set {A B} (R : A -> B -> Prop) l l' x y : Forall2 R l l' -> R x y -> forall i, Forall2 R (list_set l i x) (list_set l' i y).
Proof. induction 1; intros Rxy [|i]; cbn; constructor; auto. Qed.

Section S.
Context {V : Type}.
Variables (f : sparse V) (elem : Z) (t fid : nat).
Hypothesis S : sshape f.
Hypothesis F : few_blocks f.
Hypothesis Al : aligned f.
Notation dw := (s_dw f).
Notation ord := (s_order f).

Definition delta (e : entry) (x : alive) : Z :=
  let '(t', f', i) := e in
  if Nat.eqb t' t && Nat.eqb f' fid then (if stands_in dw ord i x then 1 else 0) else 0.
Definition count_at (e : entry) (l : list alive) : Z :=
  let '(t', f', i) := e in if Nat.eqb t' t && Nat.eqb f' fid then how_many_in dw ord i l else 0.

Lemma count_app e l x : count_at e (l ++ [x]) = count_at e l + delta e x.
Proof.
  destruct e as [[t' f'] i]. unfold count_at, delta, how_many_in. destruct (_ && _); auto.
  rewrite filter_app, app_length. cbn [filter]. destruct (stands_in dw ord i x); cbn [length]; lia.
Qed.
Lemma count_set e l : forall i x y, nth_error l i = Some x -> count_at e (list_set l i y) = count_at e l - delta e x + delta e y.
Proof.
  destruct e as [[t' f'] n]. unfold count_at, delta, how_many_in. destruct (_ && _); [|intros; lia].
  induction l as [|z l IH]; intros [|i] x y H; try discriminate; cbn [list_set filter nth_error] in *.
  - injection H as <-. destruct (stands_in dw ord n z), (stands_in dw ord n y); cbn [length]; lia.
  - specialize (IH i x y H). destruct (stands_in dw ord n z); cbn [length]; lia.
Qed.
Lemma count_pos e l : 0 <= count_at e l.
Proof. destruct e as [[t' f'] n]. unfold count_at, how_many_in. destruct (_ && _); lia. Qed.
Lemma count_in e l x : In x l -> delta e x <= count_at e l.
Proof.
  destruct e as [[t' f'] n]. unfold count_at, delta, how_many_in. destruct (_ && _); [|lia]. intros I.
  destruct (stands_in dw ord n x) eqn:E; [|lia].
  assert (In x (filter (stands_in dw ord n) l)) by (apply filter_In; auto).
  destruct (filter (stands_in dw ord n) l); [contradiction|]. cbn [length]. lia.
Qed.

Lemma has_block_iff i : has_block f i = true <-> exists b, 0 <= i /\ nth_error (s_blocks f) (Z.to_nat i) = Some b /\ b_alloc b = true.
Proof.
  unfold has_block. rewrite !andb_true_iff. split.
  - intros [[A B] C]. destruct (arr_get (s_blocks f) i) as [b| |] eqn:E; try discriminate.
    apply arr_get_inv in E. exists b. split; [lia|]. tauto.
  - intros (b & P & N & A). rewrite (arr_get_some _ _ _ P N).
    assert (Z.to_nat i < length (s_blocks f))%nat by (apply nth_error_Some; congruence). lia.
Qed.
Lemma has_block_names a i : is_open a t fid (stored f elem) -> has_block f i = true -> names_block a (t, fid, Z.to_nat i).
Proof.
  intros O H. apply has_block_iff in H. destruct H as (b & _ & N & _). exists (stored f elem). split; auto.
  cbn. rewrite map_length. apply nth_error_Some. congruence.
Qed.
Lemma in_file_block a i : is_open a t fid (stored f elem) -> in_file a (t, fid, i) <->
  exists b, nth_error (s_blocks f) i = Some b /\ b_alloc b = true.
Proof.
  intros O. split.
  - intros (d & O' & N). unfold is_open in *. rewrite O in O'. injection O' as <-. cbn in N. rewrite nth_error_map in N.
    destruct (nth_error (s_blocks f) i) as [b|]; [|discriminate]. cbn in N. exists b. split; auto. congruence.
  - intros (b & N & A). exists (stored f elem). split; auto. cbn. rewrite nth_error_map, N. cbn. congruence.
Qed.

(** The block an iterator points to is the block it stands in. *)
Lemma delta_lid e w p : standing f w p -> has_block f (lid (s_bres f) (bc f p)) = true ->
  delta e (Some (w, p)) = if entry_eqb e (t, fid, Z.to_nat (lid (s_bres f) (bc f p))) then 1 else 0.
Proof.
  intros P H. apply has_block_iff in H. destruct H as (b & Z0 & N & _).
  assert (L : (Z.to_nat (lid (s_bres f) (bc f p)) < length (s_blocks f))%nat) by (apply nth_error_Some; congruence).
  destruct e as [[t' f'] i]. unfold delta, entry_eqb. rewrite (stands_lid f w p i S P). destruct (_ && _); auto. cbn [andb].
  set (l := lid _ _) in *. destruct (Nat.eqb_spec i (Z.to_nat l)).
  - subst i. rewrite Z2Nat.id by auto. rewrite Z.eqb_refl. cbn [andb].
    replace (l <? _) with true; auto. symmetry. apply Z.ltb_lt. lia.
  - replace (l =? Z.of_nat i) with false; auto. symmetry. apply Z.eqb_neq. lia.
Qed.
Lemma delta_none a e w p : is_open a t fid (stored f elem) -> standing f w p -> has_block f (lid (s_bres f) (bc f p)) = false ->
  in_file a e -> delta e (Some (w, p)) = 0.
Proof.
  intros O P H I. destruct e as [[t' f'] i]. unfold delta. destruct (Nat.eqb_spec t' t) as [->|]; auto.
  destruct (Nat.eqb_spec f' fid) as [->|]; auto. cbn [andb]. rewrite (stands_lid f w p i S P).
  destruct (lid (s_bres f) (bc f p) =? Z.of_nat i) eqn:E; auto. exfalso.
  apply Z.eqb_eq in E. apply (in_file_block a i O) in I. destruct I as (b & N & A).
  rewrite (proj2 (has_block_iff _)) in H; [discriminate|]. exists b. rewrite E, Nat2Z.id. split; [lia|auto].
Qed.

Definition moved (a : fields V) (s s' : cache V) (d : entry -> Z) : Prop :=
  forall e k, blk_at s e = Some k -> exists k', blk_at s' e = Some k' /\
    cb_loaded k' = cb_loaded k /\ cb_loads k' = cb_loads k /\ (in_file a e -> cb_refs k' = cb_refs k + d e).

Lemma moved_trans a s1 s2 s3 d1 d2 d : moved a s1 s2 d1 -> moved a s2 s3 d2 -> (forall e, d e = d1 e + d2 e) -> moved a s1 s3 d.
Proof.
  intros A B D e k K. destruct (A e k K) as (k1 & K1 & L1 & N1 & R1). destruct (B e k1 K1) as (k2 & K2 & L2 & N2 & R2).
  exists k2. split; auto. split; [congruence|]. split; [congruence|]. intros I. rewrite R2, R1, D by auto. lia.
Qed.

Lemma count_eff a s w p d : cinv a s -> is_open a t fid (stored f elem) -> standing f w p ->
  exists s', (if has_block f (lid (s_bres f) (bc f p)) then ref_count s (t, fid, Z.to_nat (lid (s_bres f) (bc f p))) d else Ok s) = Ok s' /\
    cinv a s' /\ moved a s s' (fun e => d * delta e (Some (w, p))).
Proof.
  intros I O P. destruct (has_block f (lid (s_bres f) (bc f p))) eqn:H.
  - destruct (ref_count_eff a s (t, fid, Z.to_nat (lid (s_bres f) (bc f p))) d I (has_block_names a _ O H)) as (s' & E & I' & M).
    exists s'. split; auto. split; auto. intros e k K. destruct (M e k K) as (k' & K' & L & N & R). exists k'.
    split; auto. split; auto. split; auto. intros Fi. rewrite R by auto. rewrite (delta_lid e w p P H). destruct (entry_eqb _ _); lia.
  - exists s. split; auto. split; auto. intros e k K. exists k. split; auto. split; auto. split; auto. intros Fi.
    rewrite (delta_none a e w p O P H Fi). lia.
Qed.
Lemma unpin_eff a s w p : cinv a s -> is_open a t fid (stored f elem) -> standing f w p ->
  exists s', unpin s t fid (hollow f) (lid (s_bres f) (bc f p)) = Ok s' /\ cinv a s' /\ moved a s s' (fun e => - delta e (Some (w, p))).
Proof.
  intros I O P. destruct (count_eff a s w p (-1) I O P) as (s' & E & I' & M). exists s'. unfold unpin. rewrite has_block_hollow.
  split; [exact E|]. split; [exact I'|]. intros e k K. destruct (M e k K) as (k' & K' & L & N & R). exists k'.
  split; [exact K'|]. split; [exact L|]. split; [exact N|]. intros Fi. rewrite R by auto. lia.
Qed.
Lemma pin_eff a s w p : cinv a s -> is_open a t fid (stored f elem) -> standing f w p ->
  exists s', pin s t fid (hollow f) (lid (s_bres f) (bc f p)) = Ok s' /\ cinv a s' /\ moved a s s' (fun e => delta e (Some (w, p))).
Proof.
  intros I O P. destruct (count_eff a s w p 1 I O P) as (s' & E & I' & M). exists s'. unfold pin. rewrite has_block_hollow.
  change (s_xy (hollow f)) with (s_xy f). change (s_bres (hollow f)) with (s_bres f).
  split; [|split; [exact I'|]].
  - destruct (lid (s_bres f) (bc f p) >=? s_xy f * vz (s_bres f)) eqn:G; auto.
    destruct (has_block f (lid (s_bres f) (bc f p))) eqn:H; auto. exfalso. unfold has_block in H.
    rewrite (ss_xy _ S) in G. rewrite (ss_len _ S) in H. lia.
  - intros e k K. destruct (M e k K) as (k' & K' & L & N & R). exists k'.
    split; [exact K'|]. split; [exact L|]. split; [exact N|]. intros Fi. rewrite R by auto. lia.
Qed.
Lemma move_eff a s w p w' q : cinv a s -> is_open a t fid (stored f elem) -> standing f w p -> standing f w' q ->
  exists s', move_pin s t fid (hollow f) (lid (s_bres f) (bc f p)) (lid (s_bres f) (bc f q)) = Ok s' /\ cinv a s' /\
    moved a s s' (fun e => delta e (Some (w', q)) - delta e (Some (w, p))).
Proof.
  intros I O P Q. unfold move_pin. destruct (_ =? _) eqn:E.
  - exists s. split; auto. split; auto. intros e k K. exists k. split; auto. split; auto. split; auto. intros _.
    apply Z.eqb_eq in E. destruct e as [[t' f'] i]. unfold delta. destruct (_ && _); [|lia].
    rewrite (stands_lid f w p i S P), (stands_lid f w' q i S Q), E. lia.
  - destruct (unpin_eff a s w p I O P) as (s1 & -> & I1 & M1). cbn [bind].
    destruct (pin_eff a s1 w' q I1 O Q) as (s2 & -> & I2 & M2). exists s2. split; auto. split; auto.
    eapply moved_trans; eauto. intros e. cbv beta. lia.
Qed.

Definition irel (s : cache V) (x : alive) (y : option miter) : Prop :=
  match x, y with
  | None, None => True
  | Some (w, p), Some m =>
      mi_win m = w /\ standing f w p /\ si_pos (mi_it m) = p /\
      si_block (mi_it m) = lid (s_bres f) (bc f p) /\
      (in_box p w -> good_si true f (mi_it m) /\
         (si_active (mi_it m) = true -> si_empty (mi_it m) = false ->
            exists k, blk_at s (t, fid, Z.to_nat (si_block (mi_it m))) = Some k /\
                      cb_loaded k = true /\ cb_loads k = mi_gen m))
  | _, _ => False
  end.

Record iinv (A : ispec V) (W : iworld V) : Prop := {
  ii_c : cinv (is_fields A) (iw_cache W);
  ii_o : is_open (is_fields A) t fid (stored f elem);
  ii_r : Forall2 (irel (iw_cache W)) (is_its A) (iw_its W);
  ii_p : forall e k, blk_at (iw_cache W) e = Some k -> in_file (is_fields A) e ->
     cb_refs k = is_pins A e + count_at e (is_its A);
  ii_n : forall e, 0 <= is_pins A e;
  ii_d : forall t' f' i, is_pins A (t', f', i) <> 0 -> (f' < length (is_fields A t'))%nat }.

Lemma good_alloc w p it : standing f w p -> si_pos it = p -> good_si true f it -> si_empty it = false ->
  exists b, arr_get (s_blocks f) (si_block it) = Ok b /\ b_alloc b = true /\ si_block it = lid (s_bres f) (bc f p).
Proof.
  intros P Ep (b & Eb & Ei & Et & Ee & Pe & Pa) Em. exists b. rewrite Ei. subst p. split; auto. split; auto.
  rewrite Ee in Em. destruct (b_alloc b); auto.
Qed.
Lemma arr_get_has i b : arr_get (s_blocks f) i = Ok b -> b_alloc b = true -> has_block f i = true.
Proof. intros E A. apply arr_get_inv in E. apply has_block_iff. exists b. split; [lia|]. tauto. Qed.

(** Iterators that stand in a block keep it pinned. *)
Lemma its_keep A W s' : iinv A W ->
  (forall i k, blk_at (iw_cache W) (t, fid, i) = Some k -> 0 < cb_refs k -> cb_loaded k = true ->
     exists k', blk_at s' (t, fid, i) = Some k' /\ cb_loaded k' = true /\ cb_loads k' = cb_loads k) ->
  Forall2 (irel s') (is_its A) (iw_its W).
Proof.
  intros [C O R P N D] H. destruct W as [s its]. cbn [iw_cache iw_its] in *.
  assert (Q : forall x, In x (is_its A) -> forall y, irel s x y -> irel s' x y).
  { intros [[w p]|] I [m|] X; cbn [irel] in *; auto. destruct X as (X1 & X2 & X3 & X4 & X5).
    do 4 (split; [auto|]). intros B. destruct (X5 B) as [G K]. split; auto. intros Ac Em. destruct (K Ac Em) as (k & Kb & Kl & Kn).
    destruct (good_alloc w p _ X2 X3 G Em) as (b & Eb & A1 & El).
    destruct (H _ _ Kb) as (k' & K1 & K2 & K3); auto.
    - assert (Fi : in_file (is_fields A) (t, fid, Z.to_nat (si_block (mi_it m)))).
      { apply (in_file_block _ _ O). exists b. split; auto. apply arr_get_inv in Eb. tauto. }
      rewrite (P _ _ Kb Fi). specialize (N (t, fid, Z.to_nat (si_block (mi_it m)))).
      pose proof (count_in (t, fid, Z.to_nat (si_block (mi_it m))) _ _ I) as Ci.
      rewrite (delta_lid _ w p X2) in Ci by (rewrite <- El; apply (arr_get_has _ b); auto).
      rewrite El, entry_eqb_refl in Ci. rewrite El in *. lia.
    - exists k'. split; auto. split; auto. congruence. }
  clear - R Q. induction R; constructor.
  - apply Q; auto. left; auto.
  - apply IHR. intros z I. apply Q. right; auto.
Qed.

Lemma block_value i b p : arr_get (s_blocks f) (lid (s_bres f) (bc f p)) = Ok b -> in_box p dw -> i = lid (s_bres f) (bc f p) ->
  sparse_value f p = read_block f b p.
Proof. intros E B ->. apply (value_in_block f _ (bc f p)); auto. Qed.

Lemma aligned_cell p : cell_index ord (voxel_in_block ord p) = cid (2 ^ ord) (vc f p).
Proof.
  assert (O := ss_order _ S). unfold order_ok in O. pose proof (pow2_pos ord ltac:(lia)) as Pw.
  rewrite voxel_in_block_eq, cell_index_cid by lia. f_equal. destruct Al as (A1 & A2 & A3).
  unfold vc. rewrite !mod_sub_aligned; auto.
Qed.

(** Reading through a pointer into a loaded block. *)
Lemma fetch_cell a s m w p b k v : cinv a s -> is_open a t fid (stored f elem) -> standing f w p -> in_box p dw ->
  arr_get (s_blocks f) (si_block (mi_it m)) = Ok b -> b_alloc b = true -> si_block (mi_it m) = lid (s_bres f) (bc f p) ->
  si_p (mi_it m) = PCell (si_block (mi_it m)) (cid (2 ^ ord) (vc f p)) ->
  blk_at s (t, fid, Z.to_nat (si_block (mi_it m))) = Some k -> cb_loaded k = true -> cb_loads k = mi_gen m ->
  sparse_value f p = Ok v -> miter_fetch s t fid (hollow f) m = Ok v.
Proof.
  intros I O P B Eb A El Ep K L N Hv. unfold miter_fetch. rewrite Ep.
  assert (Eb' := Eb). apply arr_get_inv in Eb. destruct Eb as [Rg Nb].
  replace (si_block (mi_it m) <? 0) with false by lia. rewrite K.
  rewrite (loaded_data a s t fid f elem _ b k I S O Nb A K L).
  rewrite El in Eb'. rewrite (block_value _ b p Eb' B eq_refl) in Hv. unfold read_block in Hv. rewrite A in Hv.
  unfold block_cell in Hv. destruct (b_data b); [|discriminate]. rewrite N, Z.eqb_refl. exact Hv.
Qed.
End S.
