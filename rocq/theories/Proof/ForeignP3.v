(** Metadata and values read from archives of any contents. *)
From Coq Require Import ZArith List Bool String Lia.
From Verif Require Import Model.Base Proof.BaseP Model.FieldM Model.DenseM Model.SparseM Model.OgawaM Spec.OgawaSpec Model.OgM Model.FieldIOM
  Model.FileM Model.MetaM Spec.MetaSpec Proof.MetaP Proof.DenseP Model.ForeignM Spec.VoxelSpec Spec.FieldIOSpec Proof.FieldIOP Spec.ForeignSpec Proof.ForeignP Proof.ForeignP2.
Import ListNotations.
Open Scope Z_scope.

Lemma read_kind_rec t n k x : tidy t -> plain n ->
  read_kind t n k x = Ok (match rec_meta t k n with Some v => meta_set x k n v | None => x end).
Proof.
  intros T N. unfold read_kind, get_attr, find_typed, rec_meta. rewrite find_group_found by auto. cbn [bind]. change G_ATTR with 1.
  destruct (found 1 n t) as [g|] eqn:E; [|reflexivity].
  destruct (attr_shape g (found_ok _ _ _ _ T E)) as (a & b & d & v & l & ->).
  cbn [read_dtype get_data t_kids nth_error bind]. rewrite dtype_eqb.
  destruct (_ && _); cbn [bind]; [|reflexivity].
  destruct k; cbn [mtype attr_value read_string read_data get_data t_kids nth_error bind type_size]; try reflexivity;
  destruct (Nat.eqb _ _); reflexivity.
Qed.
Definition meta_step t (n : bytes) (x : meta) : meta :=
  fold_left (fun x k => match rec_meta t k n with Some v => meta_set x k n v | None => x end) kinds x.
Lemma read_name_rec t n x : tidy t -> plain n -> read_name t n x = Ok (meta_step t n x).
Proof. intros T N. unfold read_name, meta_step. cbn [kinds fold_left]. do 5 (rewrite read_kind_rec by auto; cbn [bind]). reflexivity. Qed.
Lemma meta_step_find t n x k' n' : smap_find (meta_map (meta_step t n x) k') n' =
  match (if bytes_eqb n n' then rec_meta t k' n else None) with Some v => Some v | None => smap_find (meta_map x k') n' end.
Proof.
  unfold meta_step.
  assert (A : forall k x, smap_find (meta_map (match rec_meta t k n with Some v => meta_set x k n v | None => x end) k') n' =
     match (if kind_eqb k k' && bytes_eqb n n' then rec_meta t k n else None) with Some v => Some v | None => smap_find (meta_map x k') n' end).
  { intros k y. destruct (rec_meta t k n); [rewrite find_meta_set; destruct (_ && _); auto|destruct (_ && _); auto]. }
  cbn [kinds fold_left]. rewrite !A.
  destruct (bytes_eqb n n'); destruct k'; cbn [kind_eqb mtype type_code Z.eqb Pos.eqb andb]; reflexivity.
Qed.
Lemma read_names_rec t ns : tidy t -> Forall plain ns -> forall x, exists y, read_names t ns x = Ok y /\
  forall k n, smap_find (meta_map y k) n =
    match (if existsb (bytes_eqb n) ns then rec_meta t k n else None) with Some v => Some v | None => smap_find (meta_map x k) n end.
Proof.
  intros T. induction 1 as [|n ns N NS IH]; intros x; cbn [read_names existsb].
  - exists x. split; auto.
  - rewrite read_name_rec by auto. cbn [bind]. destruct (IH (meta_step t n x)) as (y & E & F). exists y. split; auto.
    intros k n'. rewrite F, meta_step_find. destruct (ForeignP2.bytes_eqb_spec n' n) as [->|D]; cbn [orb].
    + destruct (ForeignP2.bytes_eqb_spec n n); [|easy]. destruct (existsb _ ns); destruct (rec_meta t k n); auto.
    + destruct (ForeignP2.bytes_eqb_spec n n'); [congruence|]. reflexivity.
Qed.
Lemma found_named gt n t g : found gt n t = Some g -> In n (named gt t).
Proof.
  intros H. unfold found in H. apply find_some in H. destruct H as [I H]. apply before_stranger_in in I. destruct I as [I _].
  unfold has in H. destruct (entry g) as [[[m k] r]|] eqn:E; [|easy]. apply andb_prop in H. destruct H as [H1 H2].
  unfold named. apply in_flat_map. exists g. split; auto. rewrite E, H1.
  destruct (ForeignP2.bytes_eqb_spec m n); [left; auto|easy].
Qed.
Lemma read_meta_rec t : tidy t -> Forall plain (named 1 t) -> exists y, read_meta t meta_empty = Ok y /\
  forall k n, smap_find (meta_map y k) n = rec_meta t k n.
Proof.
  intros T P. unfold read_meta. rewrite group_names_named by auto. cbn [bind].
  destruct (read_names_rec t (named 1 t) T P meta_empty) as (y & E & F). exists y. split; [exact E|].
  intros k n. rewrite F.
  assert (Z0 : smap_find (meta_map meta_empty k) n = None) by (destruct k; reflexivity). rewrite Z0.
  destruct (existsb (bytes_eqb n) (named 1 t)) eqn:X; [now destruct (rec_meta t k n)|].
  unfold rec_meta. destruct (found 1 n t) as [g|] eqn:G; [|reflexivity]. exfalso. apply found_named in G.
  assert (existsb (bytes_eqb n) (named 1 t) = true); [|congruence]. apply existsb_exists. exists n. split; auto.
  now destruct (ForeignP2.bytes_eqb_spec n n).
Qed.
Lemma group_meta t s : tidy t -> plain (str s) -> plain_meta t s ->
  exists m, (let* g := find_valid t (str s) in match g with Some g => read_meta g meta_empty | None => Ok meta_empty end) = Ok m /\
  is_meta_of t s m.
Proof.
  intros T N P. rewrite find_valid_found by auto. cbn [bind]. unfold is_meta_of, plain_meta in *.
  destruct (found 0 (str s) t) as [g|] eqn:E.
  - assert (Tg : tidy g) by (destruct (found_ok _ _ _ _ T E) as (_ & _ & K); auto).
    destruct (read_meta_rec g Tg (P g eq_refl)) as (m & M & F). exists m. auto.
  - exists meta_empty. split; auto. intros k n. now destruct k.
Qed.

(** * Values of dense layers *)
Lemma place_bound w p : in_box p w -> 0 <= place w p < vx (sides w) * vy (sides w) * vz (sides w).
Proof.
  unfold in_box, place, sides. cbn [vx vy vz]. intros (X & Y & Z0).
  set (a := vx p - vx (bmin w)). set (b := vy p - vy (bmin w)). set (c := vz p - vz (bmin w)).
  set (rx := vx (bmax w) - vx (bmin w) + 1). set (ry := vy (bmax w) - vy (bmin w) + 1). set (rz := vz (bmax w) - vz (bmin w) + 1).
  assert (0 <= a < rx) by lia. assert (0 <= b < ry) by lia. assert (0 <= c < rz) by lia. clearbody a b c rx ry rz.
  assert (0 <= b + ry * c <= ry * rz - 1) by nia. nia.
Qed.
Lemma dense_index_place {V} (f : dense V) w p : countable w -> in_box p w -> d_dw f = w -> d_mem f = sides w ->
  d_memXY f = vx (sides w) * vy (sides w) -> dense_index f (vx p) (vy p) (vz p) = Ok (place w p).
Proof.
  intros C B W M X. pose proof (place_bound w p B) as L. unfold dense_index. rewrite X, M, W. unfold countable in C. rewrite sized_axes in C. unfold int_range, no_voxels in C.
  unfold in_box in B. unfold place in *.
  assert (SX : vx (sides w) = vx (bmax w) - vx (bmin w) + 1) by reflexivity.
  assert (SY : vy (sides w) = vy (bmax w) - vy (bmin w) + 1) by reflexivity.
  assert (SZ : vz (sides w) = vz (bmax w) - vz (bmin w) + 1) by reflexivity.
  set (a := vx p - vx (bmin w)) in *. set (b := vy p - vy (bmin w)) in *. set (c := vz p - vz (bmin w)) in *.
  assert (0 <= a < vx (sides w)) by lia. assert (0 <= b < vy (sides w)) by lia. assert (0 <= c < vz (sides w)) by lia.
  destruct C as (((_ & C1) & (_ & C2) & (_ & C3)) & C4 & C5).
  rewrite <- SX in C1. rewrite <- SY in C2. rewrite <- SZ in C3. assert (C6 : vx (sides w) * vy (sides w) * vz (sides w) < 2 ^ 31) by lia. clear C5 SX SY SZ B W M X.
  generalize dependent (vx (sides w)). generalize dependent (vy (sides w)). generalize dependent (vz (sides w)). clearbody a b c.
  intros rz C3 Hc ry C2 Hb rx C1 C4 L Ha C6.
  assert (E : a + rx * (b + ry * c) = a + b * rx + c * (rx * ry)) by ring. rewrite E in L |- *. clear E.
  assert (0 <= b * rx) by nia. assert (0 <= c * (rx * ry)) by nia.
  do 3 (rewrite i32_ok by (unfold int_min, int_max; lia); cbn [bind]).
  set (u := b * rx) in *. set (v := c * (rx * ry)) in *. clearbody u v. set (q := rx * ry * rz) in *. clearbody q.
  repeat (rewrite i32_ok by (unfold int_min, int_max; lia); cbn [bind]). reflexivity.
Qed.

Lemma skip_skip {A} i : forall j (l : list A), skipn i (skipn j l) = skipn (j + i) l.
Proof. intros j. induction j as [|j IH]; intros l; [reflexivity|]. destruct l; [now rewrite !skipn_nil|]. apply IH. Qed.
Section Field.
Context {V : Type}.
Variable ty : ogtype.
Variable enc : V -> bytes.
Variable dec : bytes -> V.
Variable zero : V.
Hypothesis st : storable ty enc dec.

Lemma nth_dec_all k : forall b i, (i < k)%nat ->
  nth_error (dec_all ty dec k b) i = Some (dec (firstn (type_size ty) (skipn (i * type_size ty) b))).
Proof.
  induction k as [|k IH]; intros b i L; [lia|]. cbn [dec_all]. destruct i as [|i]; [reflexivity|]. cbn [nth_error].
  rewrite IH by lia. do 3 f_equal. rewrite skip_skip. reflexivity.
Qed.

(** A dense layer with its data in full. *)
Lemma dense_read_full t w b l : tidy t -> dense_header t ty w -> countable w -> ~ no_voxels w ->
  rec_data t 2 "data" ty = Some (Data b :: l) ->
  Z.of_nat (List.length b) = vx (sides w) * vy (sides w) * vz (sides w) * Z.of_nat (type_size ty) ->
  exists f, dense_read ty enc dec zero t = Ok (Some f) /\ Some (d_ext f) = rec_box t "extents_min" "extents_max" /\ d_dw f = w /\
  forall p, in_box p w ->
    dense_value f p = Ok (dec (firstn (type_size ty) (skipn (Z.to_nat (place w p) * type_size ty) b))).
Proof.
  intros T ((ver & Ever & Hver) & He & Hw & Hc & _) C NV Ed Lb. unfold dense_read, rec_box in *.
  rewrite !need_attr_rec by (auto; try ns; discriminate). rewrite Ever. cbn [bind]. rewrite Hver. cbn [Z.eqb Pos.eqb negb].
  destruct (rec_attr t "extents_min" TVecI32) as [emin|]; [|easy]. cbn [bind].
  destruct (rec_attr t "extents_max" TVecI32) as [emax|]; [|easy]. cbn [bind].
  destruct (rec_attr t "data_window_min" TVecI32) as [dmin|]; [|easy]. cbn [bind].
  destruct (rec_attr t "data_window_max" TVecI32) as [dmax|]; [|easy]. cbn [bind].
  destruct (rec_attr t "components" TInt32) as [comp|]; [|easy]. cbn [bind].
  injection Hw as Hw. rewrite Hw.
  destruct (data_rec t "data" 2 ty T ltac:(ns) ltac:(auto)) as [(z & Ez & Bz) D]. rewrite Ed in Bz, D.
  change G_DATASET with 2. rewrite Ez. cbn [bind]. rewrite Bz. cbn [negb]. destruct D as (d & -> & G & _).
  assert (P : 0 < vx (sides w) * vy (sides w) * vz (sides w)).
  { unfold no_voxels in NV. apply Z.mul_pos_pos; [apply Z.mul_pos_pos|]; lia. }
  assert (SS : dense_set_size zero (Box (dec_v3 emin) (dec_v3 emax)) w dense_init =
    Ok (Dense (Box (dec_v3 emin) (dec_v3 emax)) w (sides w) (vx (sides w) * vy (sides w))
         (repeat zero (Z.to_nat (vx (sides w) * vy (sides w) * vz (sides w)))), false)).
  { destruct C as (C1 & C4 & C5). destruct C5 as [C5|C5]; [easy|]. apply sized_axes in C1. unfold dense_set_size, int_range in *.
    rewrite (axis_size_ok (vx (bmin w))), (axis_size_ok (vy (bmin w))), (axis_size_ok (vz (bmin w))) by (unfold int_min, int_max; lia).
    cbn [bind].
    change (vx (bmax w) - vx (bmin w) + 1) with (vx (sides w)).
    change (vy (bmax w) - vy (bmin w) + 1) with (vy (sides w)).
    change (vz (bmax w) - vz (bmin w) + 1) with (vz (sides w)).
    do 1 (rewrite i32_ok by (unfold int_min, int_max; lia); cbn [bind]).
    replace (_ || _) with false by (unfold no_voxels, sides in NV; cbn [vx vy vz] in NV; lia).
    rewrite i32_ok by (unfold int_min, int_max; lia). reflexivity. }
  rewrite SS. cbn [bind d_data]. unfold get_values. rewrite G. cbn [element nth_error]. unfold overlay.
  rewrite (enc_all_length ty enc dec st), repeat_length.
  set (N := Z.to_nat (vx (sides w) * vy (sides w) * vz (sides w))) in *.
  assert (LN : List.length b = (N * type_size ty)%nat) by (unfold N; nia).
  rewrite (proj2 (Nat.leb_le _ _)) by lia. cbn [bind].
  rewrite skipn_all2 by (rewrite (enc_all_length ty enc dec st), repeat_length; lia). rewrite app_nil_r.
  eexists. split; [reflexivity|]. cbn [d_ext d_dw d_mem d_memXY]. split; [reflexivity|]. split; [reflexivity|].
  intros p B. unfold dense_value. pose proof (place_bound w p B) as L.
  rewrite (dense_index_place _ w p C B) by reflexivity. cbn [bind d_data]. unfold arr_get.
  destruct (Z.ltb_spec (place w p) 0); [lia|]. now rewrite nth_dec_all by (unfold N; lia).
Qed.
End Field.
