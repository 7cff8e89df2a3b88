From Coq Require Import ZArith List Bool Lia ZifyBool.
From Verif Require Import Model.Base Model.FieldM Model.SparseM Spec.VoxelSpec Spec.SparseSpec
  Proof.BaseP Proof.FieldP Proof.DenseP Proof.SparseP.
Import ListNotations.
Open Scope Z_scope.

Definition carry (rx ry x y z : Z) : Z * Z * Z :=
  if x >=? rx then if y + 1 >=? ry then (0, 0, z + 1) else (0, y + 1, z) else (x, y, z).

Lemma carry_ok rx ry x y z x' y' z' : 0 < rx -> 0 < ry ->
  0 <= x <= rx -> 0 <= y < ry -> 0 <= z -> carry rx ry x y z = (x', y', z') ->
  0 <= x' < rx /\ 0 <= y' < ry /\ 0 <= z' /\
  x' + y' * rx + z' * (rx * ry) = x + y * rx + z * (rx * ry).
Proof.
  intros Rx Ry X Y Z0. unfold carry.
  destruct (x >=? rx) eqn:E; [destruct (y + 1 >=? ry) eqn:F|]; intros H; inversion H; subst;
    repeat split; try lia.
  assert (x = rx) by lia. assert (y = ry - 1) by lia. subst. ring.
Qed.

Section W.
Context {V : Type}.

Lemma check_walk_spec (bad : V -> bool) interior valid s : 0 < s ->
  (interior = true -> valid = V3 s s s) ->
  forall d x y z, 0 <= x <= s -> 0 <= y < s -> 0 <= z ->
  cid s (V3 x y z) + Z.of_nat (length d) <= s * s * s ->
  (check_walk bad interior valid s d x y z = true <->
   forall n v c, nth_error d n = Some v ->
     0 <= vx c < s -> 0 <= vy c < s -> 0 <= vz c ->
     cid s c = cid s (V3 x y z) + Z.of_nat n ->
     vx c < vx valid -> vy c < vy valid -> vz c < vz valid -> bad v = false).
Proof.
  intros Hs Hint. induction d as [|v d IH]; intros x y z X Y Z0 L.
  - simpl. split; auto. intros _ n v c E. destruct n; discriminate.
  - cbn [check_walk]. destruct (if x >=? s then _ else _) as [[x' y'] z'] eqn:C.
    destruct (carry_ok s s x y z x' y' z' Hs Hs X Y Z0 C) as (X' & Y' & Z' & Eq).
    cbn [length] in L. unfold cid in L; cbn [vx vy vz] in L.
    assert (I : check_walk bad interior valid s d (x' + 1) y' z' = true <->
      forall n v0 c, nth_error d n = Some v0 ->
        0 <= vx c < s -> 0 <= vy c < s -> 0 <= vz c ->
        cid s c = cid s (V3 x y z) + Z.of_nat (S n) ->
        vx c < vx valid -> vy c < vy valid -> vz c < vz valid -> bad v0 = false).
    { rewrite IH; try lia; [|unfold cid; cbn [vx vy vz]; lia].
      split; intros H n v0 c E A B D F; apply (H n v0 c E A B D); unfold cid in *; cbn [vx vy vz] in *; lia. }
    assert (Head : forall c, 0 <= vx c < s -> 0 <= vy c < s -> 0 <= vz c ->
              cid s c = cid s (V3 x y z) + 0 -> c = V3 x' y' z').
    { intros c A B D F. unfold cid in F; cbn [vx vy vz] in F.
      rewrite Z.add_0_r, <- Eq in F. apply linear_index_inj in F; try lia.
      destruct F as (-> & -> & ->) || idtac. apply v3_ext; simpl; lia. }
    assert (S0 : (forall n v0 c, nth_error (v :: d) n = Some v0 ->
     0 <= vx c < s -> 0 <= vy c < s -> 0 <= vz c ->
     cid s c = cid s (V3 x y z) + Z.of_nat n ->
     vx c < vx valid -> vy c < vy valid -> vz c < vz valid -> bad v0 = false) <->
     (x' < vx valid -> y' < vy valid -> z' < vz valid -> bad v = false) /\
     (forall n v0 c, nth_error d n = Some v0 ->
        0 <= vx c < s -> 0 <= vy c < s -> 0 <= vz c ->
        cid s c = cid s (V3 x y z) + Z.of_nat (S n) ->
        vx c < vx valid -> vy c < vy valid -> vz c < vz valid -> bad v0 = false)).
    { split.
      - intros H. split.
        + intros A B D. apply (H O v (V3 x' y' z')); simpl; auto.
          unfold cid; cbn [vx vy vz]. lia.
        + intros n v0 c E. apply (H (S n) v0 c). auto.
      - intros [H1 H2] [|n] v0 c E A B D F G1 G2 G3.
        + injection E as <-. rewrite (Head c A B D F) in *. simpl in *. auto.
        + apply (H2 n v0 c); auto. }
    rewrite S0, <- I. clear S0 I Head.
    destruct (negb interior && _) eqn:N.
    + split; [|tauto]. intros K. split; auto. intros. lia.
    + assert (x' < vx valid /\ y' < vy valid /\ z' < vz valid).
      { destruct interior; [|simpl in N; lia]. rewrite Hint by auto. cbn [vx vy vz].
        split; [lia|]. split; [lia|]. nia. }
      destruct (bad v) eqn:Bv.
      * split; [discriminate|]. intros [K _]. assert (true = false); [|discriminate]. tauto.
      * tauto.
Qed.

Definition valid_of (res_ bres : v3) (s : Z) (c : v3) : v3 :=
  V3 (if vx c =? vx bres - 1 then vx res_ - vx c * s else s)
     (if vy c =? vy bres - 1 then vy res_ - vy c * s else s)
     (if vz c =? vz bres - 1 then vz res_ - vz c * s else s).

Definition rel_spec (bad : V -> V -> bool) (valid : v3) (s : Z) (b b' : block V) : Prop :=
  (b_alloc b = false /\ b' = b) \/
  (b_alloc b = true /\ exists d first, b_data b = Some d /\ nth_error d 0 = Some first /\
     b' = if check_walk (bad first) (v3_eqb valid (V3 s s s)) valid s d 0 0 0
          then dealloc_block first else b).

Fixpoint count_alloc (bl : list (block V)) : Z :=
  match bl with [] => 0 | b :: t => (if b_alloc b then 1 else 0) + count_alloc t end.

Lemma check_block_ok (bad : V -> V -> bool) (b : block V) valid o : order_ok o -> block_shape o b -> b_alloc b = true ->
  exists d first, b_data b = Some d /\ nth_error d 0 = Some first /\
   check_block bad b valid (2 ^ o) =
     Ok (if check_walk (bad first) (v3_eqb valid (V3 (2 ^ o) (2 ^ o) (2 ^ o))) valid (2 ^ o) d 0 0 0
         then Some first else None).
Proof.
  intros O S A. unfold block_shape in S. rewrite A in S. destruct S as (d & E & L).
  unfold order_ok in O. pose proof (pow2_pos o ltac:(lia)).
  assert (0 < 2 ^ o * 2 ^ o * 2 ^ o) by (repeat apply Z.mul_pos_pos; lia).
  destruct d as [|first d]; [simpl in L; lia|].
  exists (first :: d), first. split; auto. split; auto.
  unfold check_block. rewrite E. replace (arr_get (first :: d) 0) with (@Ok V first) by reflexivity.
  cbn [bind]. rewrite L, Z.eqb_refl. destruct (check_walk _ _ _ _ _ _ _ _); auto.
Qed.

Lemma release_walk_spec (bad : V -> V -> bool) res_ bres o : order_ok o -> 0 < vx bres -> 0 < vy bres ->
  forall bl x y z, 0 <= x <= vx bres -> 0 <= y < vy bres -> 0 <= z ->
  Forall (block_shape o) bl ->
  exists bl' n, release_walk bad res_ bres (2 ^ o) bl x y z = Ok (bl', n) /\
    length bl' = length bl /\ Forall (block_shape o) bl' /\
    n = count_alloc bl - count_alloc bl' /\
    forall k b, nth_error bl k = Some b ->
      exists b', nth_error bl' k = Some b' /\
      exists c, 0 <= vx c < vx bres /\ 0 <= vy c < vy bres /\ 0 <= vz c /\
        lid bres c = lid bres (V3 x y z) + Z.of_nat k /\
        rel_spec bad (valid_of res_ bres (2 ^ o) c) (2 ^ o) b b'.
Proof.
  intros O Rx Ry. induction bl as [|b bl IH]; intros x y z X Y Z0 F.
  - exists [], 0. simpl. repeat split; auto. intros k b E. destruct k; discriminate.
  - inversion F as [|b0 l0 Fb Fl]; subst. cbn [release_walk].
    destruct (if x >=? vx bres then _ else _) as [[x' y'] z'] eqn:C.
    destruct (carry_ok (vx bres) (vy bres) x y z x' y' z' Rx Ry X Y Z0 C) as (X' & Y' & Z' & Eq).
    change (V3 (if x' =? vx bres - 1 then _ else _) _ _) with (valid_of res_ bres (2 ^ o) (V3 x' y' z')).
    destruct (IH (x' + 1) y' z') as (bl' & n & E & L & Fs & N & K); try lia; auto.
    assert (H : exists b' m, (if b_alloc b then
           let* r := check_block bad b (valid_of res_ bres (2 ^ o) (V3 x' y' z')) (2 ^ o) in
           match r with Some e => Ok (dealloc_block e, 1) | None => Ok (b, 0) end
         else Ok (b, 0)) = Ok (b', m) /\ block_shape o b' /\
         m = (if b_alloc b then 1 else 0) - (if b_alloc b' then 1 else 0) /\
         rel_spec bad (valid_of res_ bres (2 ^ o) (V3 x' y' z')) (2 ^ o) b b').
    { destruct (b_alloc b) eqn:A.
      - destruct (check_block_ok bad b (valid_of res_ bres (2 ^ o) (V3 x' y' z')) o O Fb A)
          as (d & first & Ed & E0 & ->). cbn [bind].
        set (cw := check_walk _ _ _ _ _ _ _ _) in *. destruct cw eqn:Cw.
        + eexists; eexists. split; [reflexivity|]. split; [reflexivity|].
          split; [reflexivity|]. right. split; auto. exists d, first.
          split; auto. split; auto. unfold cw in Cw. rewrite Cw. auto.
        + eexists; eexists. split; [reflexivity|]. split; [auto|].
          split; [rewrite A; reflexivity|]. right. split; auto. exists d, first.
          split; auto. split; auto. unfold cw in Cw. rewrite Cw. auto.
      - exists b, 0. rewrite A. repeat split; auto. left; auto. }
    destruct H as (b' & m & Eb & Sb & M & R).
    rewrite Eb. cbn [bind]. rewrite E. cbn [bind].
    exists (b' :: bl'), (m + n). split; [reflexivity|]. split; [simpl; auto|].
    split; [constructor; auto|]. split; [simpl; lia|].
    intros [|k] b1 E1.
    + injection E1 as <-. exists b'. split; [reflexivity|]. exists (V3 x' y' z').
      cbn [vx vy vz]. repeat split; try lia; auto. unfold lid; cbn [vx vy vz]. lia.
    + destruct (K k b1 E1) as (b2 & E2 & c & A1 & A2 & A3 & A4 & A5).
      exists b2. split; auto. exists c. repeat split; try lia; auto.
      unfold lid in *; cbn [vx vy vz] in *. lia.
Qed.

(** * Release on a field *)
Definition corner (f : sparse V) (c : v3) : v3 :=
  V3 (vx (bmin (s_dw f)) + vx c * 2 ^ s_order f) (vy (bmin (s_dw f)) + vy c * 2 ^ s_order f)
     (vz (bmin (s_dw f)) + vz c * 2 ^ s_order f).

(** cell [e] of block [c] as a voxel *)
Definition cell_voxel (f : sparse V) (c e : v3) : v3 := v3_add (corner f c) e.

Lemma cell_voxel_addr (f : sparse V) c e : order_ok (s_order f) ->
  0 <= vx e < 2 ^ s_order f -> 0 <= vy e < 2 ^ s_order f -> 0 <= vz e < 2 ^ s_order f ->
  bc f (cell_voxel f c e) = c /\ vc f (cell_voxel f c e) = e.
Proof.
  intros O X Y Z0. unfold order_ok in O. pose proof (pow2_pos (s_order f) ltac:(lia)) as P.
  unfold bc, vc, cell_voxel, corner, v3_add; cbn [vx vy vz].
  set (s := 2 ^ s_order f) in *.
  assert (D : forall m a b, 0 <= b < s -> (m + a * s + b - m) / s = a).
  { intros. symmetry. apply Z.div_unique with b; lia. }
  assert (M : forall m a b, 0 <= b < s -> (m + a * s + b - m) mod s = b).
  { intros. symmetry. apply Z.mod_unique with a; lia. }
  rewrite !D, !M by lia. rewrite !v3_eta. auto.
Qed.

Lemma voxel_cell (f : sparse V) p : order_ok (s_order f) -> cell_voxel f (bc f p) (vc f p) = p.
Proof.
  intros O. pose proof (vc_range f p O) as R.
  destruct (cell_voxel_addr f (bc f p) (vc f p) O) as [A B]; try lia.
  apply (addr_inj f); auto.
Qed.

(** A cell is valid exactly when its voxel is in the window. *)
Lemma valid_in_window (f : sparse V) c e : sshape f -> box_nonempty (s_dw f) ->
  block_in_grid (s_dw f) (s_order f) c ->
  0 <= vx e < 2 ^ s_order f -> 0 <= vy e < 2 ^ s_order f -> 0 <= vz e < 2 ^ s_order f ->
  let w := valid_of (data_resolution (s_dw f)) (s_bres f) (2 ^ s_order f) c in
  (vx e < vx w /\ vy e < vy w /\ vz e < vz w) <-> in_box (cell_voxel f c e) (s_dw f).
Proof.
  intros S N G X Y Z0 w. destruct S as [O _ R _ _ _]. unfold order_ok in O.
  pose proof (pow2_pos (s_order f) ltac:(lia)) as P.
  unfold block_in_grid, blocks_of in G. cbn [vx vy vz] in G.
  pose proof (res_of_pos (s_dw f)) as Rp.
  assert (DR : data_resolution (s_dw f) = res_of (s_dw f)).
  { unfold data_resolution, res_of. rewrite (proj2 (box_empty_false _) N).
    unfold v3_add, v3_sub; simpl. reflexivity. }
  assert (A : forall ci ei r m M, 0 <= ci < blocks_along (s_order f) r -> 1 <= r -> M = m + r - 1 ->
            0 <= ei < 2 ^ s_order f ->
            (ei < (if ci =? blocks_along (s_order f) r - 1 then r - ci * 2 ^ s_order f
                   else 2 ^ s_order f) <-> m <= m + ci * 2 ^ s_order f + ei <= M)).
  { intros ci ei r m M Hc Hr -> He.
    pose proof (blocks_along_full (s_order f) r ci ltac:(lia) ltac:(lia)).
    assert (0 <= ci * 2 ^ s_order f) by (apply Z.mul_nonneg_nonneg; lia).
    destruct (ci =? _) eqn:Q; lia. }
  unfold w, valid_of. rewrite R, DR. unfold blocks_of. cbn [vx vy vz].
  unfold in_box, cell_voxel, corner, v3_add; cbn [vx vy vz].
  assert (E : vx (bmax (s_dw f)) = vx (bmin (s_dw f)) + vx (res_of (s_dw f)) - 1 /\
              vy (bmax (s_dw f)) = vy (bmin (s_dw f)) + vy (res_of (s_dw f)) - 1 /\
              vz (bmax (s_dw f)) = vz (bmin (s_dw f)) + vz (res_of (s_dw f)) - 1).
  { unfold res_of. rewrite (proj2 (box_empty_false _) N). simpl. lia. }
  destruct E as (E1 & E2 & E3).
  rewrite (A (vx c) (vx e) (vx (res_of (s_dw f))) _ _ ltac:(lia) ltac:(lia) E1 X).
  rewrite (A (vy c) (vy e) (vy (res_of (s_dw f))) _ _ ltac:(lia) ltac:(lia) E2 Y).
  rewrite (A (vz c) (vz e) (vz (res_of (s_dw f))) _ _ ltac:(lia) ltac:(lia) E3 Z0).
  tauto.
Qed.

Lemma release_shape (f : sparse V) bad : sshape f ->
  exists g n, sparse_release f bad = Ok (g, n) /\ sshape g /\
    s_ext g = s_ext f /\ s_dw g = s_dw f /\ s_order g = s_order f /\ s_bres g = s_bres f /\
    n = count_alloc (s_blocks f) - count_alloc (s_blocks g) /\
    forall c, block_in_grid (s_dw f) (s_order f) c ->
      exists b b', arr_get (s_blocks f) (lid (s_bres f) c) = Ok b /\
        arr_get (s_blocks g) (lid (s_bres f) c) = Ok b' /\
        rel_spec bad (valid_of (data_resolution (s_dw f)) (s_bres f) (2 ^ s_order f) c)
                 (2 ^ s_order f) b b'.
Proof.
  intros S. assert (S' := S). destruct S' as [O W R X L F].
  pose proof (blocks_of_pos (s_dw f) (s_order f) ltac:(unfold order_ok in O; lia)) as P.
  rewrite <- R in P.
  destruct (release_walk_spec bad (data_resolution (s_dw f)) (s_bres f) (s_order f) O
              ltac:(lia) ltac:(lia) (s_blocks f) 0 0 0 ltac:(lia) ltac:(lia) ltac:(lia) F)
    as (bl' & n & E & Ln & Fs & N & K).
  unfold sparse_release. rewrite Z.shiftl_1_l, E. cbn [bind].
  eexists; eexists. split; [reflexivity|]. split.
  { constructor; cbn [s_ext s_dw s_order s_blocks s_bres s_xy]; auto. rewrite Ln; auto. }
  cbn [s_ext s_dw s_order s_blocks s_bres s_xy]. do 4 (split; auto). split; auto.
  intros c G. destruct (block_id_ok f c S G) as [_ I].
  destruct (arr_get_ok _ _ I) as [b Eb]. exists b. assert (Eb' := Eb).
  apply arr_get_inv in Eb'. destruct Eb' as [_ Eb'].
  destruct (K _ _ Eb') as (b' & Eb'' & c' & A1 & A2 & A3 & A4 & A5).
  exists b'. split; auto. split.
  { apply arr_get_some; auto; lia. }
  assert (c' = c); [|subst c'; auto].
  unfold block_in_grid in G. rewrite <- R in G.
  unfold lid in A4 at 1 2. cbn [vx vy vz] in A4. rewrite Z2Nat.id in A4 by lia.
  unfold lid in A4. replace (0 + 0 * vx (s_bres f) + 0 * (vx (s_bres f) * vy (s_bres f)) +
    (vx c + vy c * vx (s_bres f) + vz c * (vx (s_bres f) * vy (s_bres f)))) with
    (vx c + vy c * vx (s_bres f) + vz c * (vx (s_bres f) * vy (s_bres f))) in A4 by lia.
  apply linear_index_inj in A4; try lia. apply v3_ext; lia.
Qed.

Lemma value_in_block (f : sparse V) p c b : sshape f -> in_box p (s_dw f) -> bc f p = c ->
  arr_get (s_blocks f) (lid (s_bres f) c) = Ok b -> sparse_value f p = read_block f b p.
Proof. intros S B <- E. rewrite sparse_value_eq, E by auto. auto. Qed.

(** What release does to each block, in terms of the voxels of the window. *)
Lemma release_blocks (f : sparse V) bad : sshape f -> box_nonempty (s_dw f) ->
  exists g n, sparse_release f bad = Ok (g, n) /\ sshape g /\
    s_ext g = s_ext f /\ s_dw g = s_dw f /\ s_order g = s_order f /\ s_bres g = s_bres f /\
    n = count_alloc (s_blocks f) - count_alloc (s_blocks g) /\
    forall c, block_in_grid (s_dw f) (s_order f) c ->
      exists b b', arr_get (s_blocks f) (lid (s_bres f) c) = Ok b /\
        arr_get (s_blocks g) (lid (s_bres f) c) = Ok b' /\
        in_box (corner f c) (s_dw f) /\ bc f (corner f c) = c /\
        ((b_alloc b = false /\ b' = b) \/
         exists first, b_alloc b = true /\ sparse_value f (corner f c) = Ok first /\
          ((b' = dealloc_block first /\
            forall p v, in_box p (s_dw f) -> bc f p = c -> sparse_value f p = Ok v ->
               bad first v = false) \/
           (b' = b /\ exists p v, in_box p (s_dw f) /\ bc f p = c /\ sparse_value f p = Ok v /\
               bad first v = true))).
Proof.
  intros S N. destruct (release_shape f bad S) as (g & n & E & Sg & X1 & X2 & X3 & X4 & Cn & K).
  exists g, n. do 7 (split; auto). intros c G.
  destruct (K c G) as (b & b' & Eb & Eb' & R). exists b, b'. split; auto. split; auto.
  assert (O := ss_order _ S). assert (O' := O). unfold order_ok in O'.
  pose proof (pow2_pos (s_order f) ltac:(lia)) as P.
  assert (C0 : corner f c = cell_voxel f c (V3 0 0 0)).
  { unfold cell_voxel, v3_add. cbn [vx vy vz]. rewrite !Z.add_0_r. rewrite v3_eta. auto. }
  assert (IC : in_box (corner f c) (s_dw f)).
  { unfold block_in_grid, blocks_of in G. cbn [vx vy vz] in G.
    pose proof (res_of_pos (s_dw f)).
    apply res_of_in_inv; auto; unfold corner; cbn [vx vy vz];
    rewrite Z.add_simpl_l; (split; [apply Z.mul_nonneg_nonneg; lia|]);
    apply blocks_along_start; lia. }
  destruct (cell_voxel_addr f c (V3 0 0 0) O) as [BC VC]; cbn [vx vy vz]; try lia.
  rewrite <- C0 in BC, VC. split; auto. split; auto.
  destruct R as [R|(A & d & first & Ed & E0 & Eb1)]; [left; auto|right].
  exists first. split; auto.
  pose proof (block_shape_get f _ _ S Eb) as Sb. unfold block_shape in Sb. rewrite A in Sb.
  destruct Sb as (d' & Ed' & Ld). rewrite Ed in Ed'. injection Ed' as <-.
  assert (RB : forall p, read_block f b p = arr_get d (cid (2 ^ s_order f) (vc f p))).
  { intros p. unfold read_block, block_cell. rewrite A, Ed. auto. }
  split.
  { rewrite (value_in_block f _ c b) by auto. rewrite RB, VC. unfold cid. simpl.
    apply arr_get_some; [lia|]. auto. }
  set (w := valid_of _ _ _ c) in *.
  assert (CW := check_walk_spec (bad first) (v3_eqb w (V3 (2 ^ s_order f) (2 ^ s_order f) (2 ^ s_order f)))
     w (2 ^ s_order f) P (fun H => proj1 (v3_eqb_eq _ _) H) d 0 0 0 ltac:(lia) ltac:(lia) ltac:(lia)).
  unfold cid at 1 in CW. cbn [vx vy vz] in CW. specialize (CW ltac:(lia)).
  destruct (check_walk _ _ _ _ _ _ _ _) eqn:Cw.
  - left. split; auto. intros p v Bp Bc Ev.
    rewrite (value_in_block f _ c b) in Ev by auto. rewrite RB in Ev.
    apply arr_get_inv in Ev. destruct Ev as [Ev1 Ev2].
    pose proof (vc_range f p O) as VR.
    assert (in_box (cell_voxel f c (vc f p)) (s_dw f)) as IV.
    { rewrite <- Bc, voxel_cell; auto. }
    apply (valid_in_window f c (vc f p)) in IV; auto; try tauto. fold w in IV.
    apply (proj1 CW eq_refl _ _ (vc f p) Ev2); try tauto.
    unfold cid at 2. cbn [vx vy vz]. lia.
  - right. split; auto.
    (* some valid cell is bad: search the list *)
    assert (D : exists n0 v, nth_error d n0 = Some v /\ bad first v = true /\
       exists e, 0 <= vx e < 2 ^ s_order f /\ 0 <= vy e < 2 ^ s_order f /\ 0 <= vz e /\
         cid (2 ^ s_order f) e = Z.of_nat n0 /\ vx e < vx w /\ vy e < vy w /\ vz e < vz w).
    { set (Q := fun n0 => match nth_error d n0 with
        | Some v => bad first v &&
            (let i := Z.of_nat n0 in let s := 2 ^ s_order f in
             (i mod s <? vx w) && ((i / s) mod s <? vy w) && (i / s / s <? vz w))
        | None => false end).
      destruct (existsb Q (seq 0 (length d))) eqn:Ex.
      - apply existsb_exists in Ex. destruct Ex as (n0 & _ & Hq). unfold Q in Hq.
        destruct (nth_error d n0) as [v|] eqn:En; [|discriminate].
        exists n0, v. split; auto. cbv zeta in Hq. split; [lia|].
        set (s := 2 ^ s_order f) in *. set (i := Z.of_nat n0) in *.
        exists (V3 (i mod s) ((i / s) mod s) (i / s / s)). cbn [vx vy vz].
        pose proof (Z.mod_pos_bound i s P). pose proof (Z.mod_pos_bound (i / s) s P).
        assert (0 <= i / s) by (apply Z.div_pos; lia).
        assert (0 <= i / s / s) by (apply Z.div_pos; lia).
        repeat split; try lia. unfold cid; cbn [vx vy vz].
        pose proof (Z.div_mod i s ltac:(lia)). pose proof (Z.div_mod (i / s) s ltac:(lia)).
        clear - H3 H4. rewrite H3 at 4. rewrite H4 at 3. ring.
      - exfalso. assert (false = true); [|discriminate]. apply CW.
        intros n0 v e En A1 A2 A3 A4 A5 A6 A7.
        destruct (bad first v) eqn:Bv; auto. exfalso.
        assert (existsb Q (seq 0 (length d)) = true); [|congruence].
        apply existsb_exists. exists n0. split.
        { apply in_seq. pose proof (proj1 (nth_error_Some d n0)). rewrite En in H.
          assert (n0 < length d)%nat by (apply H; discriminate). lia. }
        unfold Q. rewrite En, Bv. cbv zeta. unfold cid in A4. cbn [vx vy vz] in A4.
        set (s := 2 ^ s_order f) in *. set (i := Z.of_nat n0) in *.
        assert (i = s * (vy e + vz e * s) + vx e) by (clear - A4; lia).
        assert (M1 : i mod s = vx e) by (symmetry; apply Z.mod_unique with (vy e + vz e * s); lia).
        assert (D1 : i / s = vy e + vz e * s) by (symmetry; apply Z.div_unique with (vx e); lia).
        assert (M2 : (i / s) mod s = vy e)
          by (rewrite D1; symmetry; apply Z.mod_unique with (vz e); lia).
        assert (D2 : i / s / s = vz e)
          by (rewrite D1; symmetry; apply Z.div_unique with (vy e); lia).
        rewrite M1, M2, D2. lia. }
    destruct D as (n0 & v & En & Bv & e & A1 & A2 & A3 & A4 & A5 & A6 & A7).
    assert (A3' : vz e < 2 ^ s_order f).
    { assert (Z.of_nat n0 < Z.of_nat (length d)).
      { apply Nat2Z.inj_lt. apply nth_error_Some. rewrite En. discriminate. }
      rewrite Ld, <- A4 in H. unfold cid in H.
      apply Z.nle_gt. intros C. clear - H C P A1 A2. 
      assert (2 ^ s_order f * (2 ^ s_order f * 2 ^ s_order f) <= vz e * (2 ^ s_order f * 2 ^ s_order f)).
      { apply Z.mul_le_mono_nonneg_r; [apply Z.mul_nonneg_nonneg; lia|lia]. }
      assert (0 <= vy e * 2 ^ s_order f) by (apply Z.mul_nonneg_nonneg; lia). lia. }
    destruct (cell_voxel_addr f c e O) as [Be Ve]; try lia.
    exists (cell_voxel f c e), v.
    assert (in_box (cell_voxel f c e) (s_dw f)) by (apply (valid_in_window f c e); auto; lia).
    split; auto. split; auto. split; auto.
    rewrite (value_in_block f _ c b) by auto. rewrite RB, Ve, A4.
    apply arr_get_some; [lia|]. rewrite Nat2Z.id. auto.
Qed.
End W.
