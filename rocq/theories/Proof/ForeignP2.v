(** Reading layers of archives of any contents. *)
From Coq Require Import ZArith List Bool String Lia.
From Verif Require Import Model.Base Proof.BaseP Model.FieldM Model.DenseM Model.SparseM Model.OgawaM Spec.OgawaSpec Model.OgM Model.FieldIOM
  Model.BlockIOM Spec.BlockIOSpec Model.FileM Model.MetaM Model.ForeignM Spec.SparseSpec Proof.SparseP Spec.FieldIOSpec Proof.FieldIOP
  Props.BlockIOProps Spec.ForeignSpec Proof.ForeignP.
Import ListNotations.
Open Scope Z_scope.

(** * The layers of a partition *)
Definition layers_in (t : tree) (n : list Z) : list (list Z) :=
  filter (fun x => negb (bytes_eqb x k_mapping)) (match found 0 n t with Some g => named 0 g | None => [] end).
Lemma bytes_eqb_spec a b : reflect (a = b) (bytes_eqb a b).
Proof. unfold bytes_eqb. destruct (list_eq_dec Z.eq_dec a b); now constructor. Qed.
Lemma upd_ipart_in n f l p' : NoDup (map ip_name l) -> In p' (upd_ipart n f l) ->
  exists p, In p l /\ p' = if bytes_eqb (ip_name p) n then f p else p.
Proof.
  induction l as [|q l IH]; [easy|]. cbn [upd_ipart map]. intros N. inversion N as [|? ? N1 N2]; subst.
  destruct (bytes_eqb_spec (ip_name q) n) as [E|E]; intros [<-|H].
  - exists q. split; [now left|]. destruct (bytes_eqb_spec (ip_name q) n); easy.
  - exists p'. split; [now right|]. destruct (bytes_eqb_spec (ip_name p') n); auto.
    elim N1. rewrite E, <- e. now apply in_map.
  - exists q. split; [now left|]. destruct (bytes_eqb_spec (ip_name q) n); easy.
  - destruct (IH N2 H) as (p & I & ->). exists p. split; auto. now right.
Qed.
Lemma info_layers_all t ns : tidy t -> Forall (fun n => ~ In 47 n) ns -> NoDup ns -> forall l l', NoDup (map ip_name l) ->
  info_layers t ns l = Ok l' -> forall p', In p' l' -> exists p, In p l /\ ip_name p' = ip_name p /\ ip_map p' = ip_map p /\
    ip_layers p' = ip_layers p ++ if in_dec (list_eq_dec Z.eq_dec) (ip_name p) ns then layers_in t (ip_name p) else [].
Proof.
  intros T. induction ns as [|n ns IH]; intros S D l l' N E p' I.
  - injection E as <-. exists p'. repeat split; auto. cbn. now rewrite app_nil_r.
  - inversion S as [|? ? S1 S2]; subst. inversion D as [|? ? D1 D2]; subst. cbn [info_layers] in E.
    rewrite find_valid_found in E by auto. cbn [bind] in E.
    assert (Q : match found 0 n t with Some g => group_names g G_GROUP | None => Ok [] end =
      Ok (match found 0 n t with Some g => named 0 g | None => [] end)).
    { destruct (found 0 n t) as [g|] eqn:F; auto. apply group_names_named.
      destruct (found_ok _ _ _ _ T F) as (_ & _ & K). auto. }
    rewrite Q in E. cbn [bind] in E. fold (layers_in t n) in E.
    set (f := fun p : ipart => _) in E. 
    assert (N' : NoDup (map ip_name (upd_ipart n f l))).
    { destruct (upd_ipart_maps n f l) as [-> _]; [now split|auto]. }
    destruct (IH S2 D2 _ _ N' E p' I) as (p & I2 & E1 & E2 & E3).
    destruct (upd_ipart_in n f l p N I2) as (q & I3 & Eq). exists q. split; auto.
    destruct (bytes_eqb_spec (ip_name q) n) as [En|En]; subst p.
    + cbn [f ip_name ip_map ip_layers] in E1, E2, E3. split; auto. split; auto. rewrite E3.
      destruct (in_dec _ (ip_name q) ns) as [J|J]; [rewrite En in J; easy|].
      destruct (in_dec _ (ip_name q) (n :: ns)) as [K|K]; [|elim K; now left].
      now rewrite app_nil_r, En.
    + split; auto. split; auto. rewrite E3. f_equal.
      destruct (in_dec _ (ip_name q) ns) as [J|J]; destruct (in_dec _ (ip_name q) (n :: ns)) as [K|K]; auto.
      * elim K. now right.
      * destruct K; [congruence|easy].
Qed.
Lemma info_maps_all t ns l : tidy t -> Forall (fun n => ~ In 47 n) ns -> info_maps t ns = Ok l ->
  forall p, In p l -> In (ip_name p) ns /\ ip_layers p = [] /\
    ip_map p = match found 0 (ip_name p) t with Some g => found 0 k_mapping g | None => None end.
Proof.
  intros T S. revert l. induction S as [|n ns S1 S2 IH]; intros l E p I.
  - injection E as <-. easy.
  - cbn [info_maps] in E. rewrite find_valid_found in E by auto. cbn [bind] in E.
    assert (Q : match found 0 n t with Some g => find_valid g k_mapping | None => Ok None end =
      Ok (match found 0 n t with Some g => found 0 k_mapping g | None => None end)).
    { destruct (found 0 n t) as [g|] eqn:F; auto. apply find_valid_found; [|vm_compute; intuition discriminate].
      destruct (found_ok _ _ _ _ T F) as (_ & _ & K). auto. }
    rewrite Q in E. cbn [bind] in E. destruct (info_maps t ns) as [l1| |] eqn:E1; try easy. cbn [bind] in E.
    injection E as <-. destruct I as [<-|I].
    + cbn. auto.
    + destruct (IH _ eq_refl p I) as (A & B & C). split; auto. now right.
Qed.
Lemma read_info_all t l : tidy t -> Forall (fun n => ~ In 47 n) (parts_of t) -> NoDup (parts_of t) -> read_info t = Ok l ->
  forall p, In p l -> ip_layers p = layers_in t (ip_name p) /\
    ip_map p = match found 0 (ip_name p) t with Some g => found 0 k_mapping g | None => None end.
Proof.
  intros T S D E p I. unfold read_info in E. rewrite group_names_named in E by auto. cbn [bind] in E.
  change (filter _ (named G_GROUP t)) with (parts_of t) in E.
  destruct (info_maps_tidy t (parts_of t) T) as (l0 & E0 & M & _). rewrite E0 in E. cbn [bind] in E.
  destruct (info_layers_all t (parts_of t) T S D l0 l ltac:(now rewrite M) E p I) as (q & I2 & E1 & E2 & E3).
  destruct (info_maps_all t (parts_of t) l0 T S E0 q I2) as (A & B & C). rewrite E1, E2, E3, B. split; auto.
  destruct (in_dec _ (ip_name q) (parts_of t)); easy.
Qed.

(** * Dense layers *)
Lemma i32_dec z : (int_range z /\ i32 z = Ok z) \/ (~ int_range z /\ i32 z = UB).
Proof.
  unfold int_range, i32, in_int, int_min, int_max.
  destruct (Z.leb_spec (- 2 ^ 31) z); destruct (Z.leb_spec z (2 ^ 31 - 1)); cbn [andb]; [left|right|right|right]; split; auto; lia.
Qed.
Lemma axis_size_dec lo hi : (int_range (hi - lo) /\ int_range (hi - lo + 1) /\ axis_size lo hi = Ok (hi - lo + 1)) \/
  (~ (int_range (hi - lo) /\ int_range (hi - lo + 1)) /\ axis_size lo hi = UB).
Proof.
  unfold axis_size. destruct (i32_dec (hi - lo)) as [[A ->]|[A ->]]; cbn [bind]; [|right; tauto].
  destruct (i32_dec (hi - lo + 1)) as [[B ->]|[B ->]]; [left|right]; tauto.
Qed.
Lemma sized_axes w : sized w <->
  (int_range (vx (bmax w) - vx (bmin w)) /\ int_range (vx (bmax w) - vx (bmin w) + 1)) /\
  (int_range (vy (bmax w) - vy (bmin w)) /\ int_range (vy (bmax w) - vy (bmin w) + 1)) /\
  (int_range (vz (bmax w) - vz (bmin w)) /\ int_range (vz (bmax w) - vz (bmin w) + 1)).
Proof.
  unfold sized. split.
  - intros H. repeat split; apply H; cbn; auto.
  - intros (A & B & C) f [<-|[<-|[<-|[]]]]; auto.
Qed.
Lemma map_extents_dec e : (sized e /\ map_extents e = Ok (sides e)) \/ (~ sized e /\ map_extents e = UB).
Proof.
  rewrite sized_axes. unfold map_extents.
  destruct (axis_size_dec (vx (bmin e)) (vx (bmax e))) as [(A1 & A2 & ->)|[A ->]]; cbn [bind]; [|right; tauto].
  destruct (axis_size_dec (vy (bmin e)) (vy (bmax e))) as [(B1 & B2 & ->)|[B ->]]; cbn [bind]; [|right; tauto].
  destruct (axis_size_dec (vz (bmin e)) (vz (bmax e))) as [(C1 & C2 & ->)|[C ->]]; cbn [bind]; [|right; tauto].
  left. split; [tauto|reflexivity].
Qed.
Lemma dense_set_size_ub {V} (zero : V) e w f0 :
  (dense_set_size zero e w f0 = UB /\ ~ countable w) \/
  (countable w /\ no_voxels w /\ exists f, dense_set_size zero e w f0 = Ok (f, true)) \/
  (countable w /\ ~ no_voxels w /\ exists f, dense_set_size zero e w f0 = Ok (f, false) /\
     d_data f = repeat zero (Z.to_nat (vx (sides w) * vy (sides w) * vz (sides w)))).
Proof.
  unfold dense_set_size, countable. rewrite sized_axes.
  destruct (axis_size_dec (vx (bmin w)) (vx (bmax w))) as [(A1 & B1 & ->)|[A1 ->]]; cbn [bind]; [|left; tauto].
  destruct (axis_size_dec (vy (bmin w)) (vy (bmax w))) as [(A2 & B2 & ->)|[A2 ->]]; cbn [bind]; [|left; tauto].
  destruct (axis_size_dec (vz (bmin w)) (vz (bmax w))) as [(A3 & B3 & ->)|[A3 ->]]; cbn [bind]; [|left; tauto].
  change (vx (bmax w) - vx (bmin w) + 1) with (vx (sides w)) in *.
  change (vy (bmax w) - vy (bmin w) + 1) with (vy (sides w)) in *.
  change (vz (bmax w) - vz (bmin w) + 1) with (vz (sides w)) in *.
  destruct (i32_dec (vx (sides w) * vy (sides w))) as [[A4 ->]|[A4 ->]]; cbn [bind]; [|left; tauto].
  assert (R : reflect (no_voxels w) ((vx (bmax w) <? vx (bmin w)) || (vy (bmax w) <? vy (bmin w)) || (vz (bmax w) <? vz (bmin w)))).
  { apply iff_reflect. unfold no_voxels, sides. cbn [vx vy vz]. rewrite !orb_true_iff, !Z.ltb_lt. lia. }
  destruct R as [R|R].
  - right; left. split; [tauto|]. split; auto. eexists; reflexivity.
  - destruct (i32_dec (vx (sides w) * vy (sides w) * vz (sides w))) as [[A5 ->]|[A5 ->]]; cbn [bind]; [|left; tauto].
    right; right. split; [tauto|]. split; auto. eexists. split; reflexivity.
Qed.

Ltac ns := vm_compute; intuition discriminate.
Section Field.
Context {V : Type}.
Variable ty : ogtype.
Variable enc : V -> bytes.
Variable dec : bytes -> V.
Variable zero : V.
Hypothesis st : storable ty enc dec.
Variable uncompress : nat -> bytes -> option bytes.
Variable compress_bound : nat -> nat.

Lemma dense_read_ub t : tidy t ->
  (dense_read ty enc dec zero t = UB <->
   exists w, dense_header t ty w /\ (~ countable w \/ (~ no_voxels w /\ too_long t ty w))).
Proof.
  intros T. unfold dense_read, dense_header, too_long, rec_box.
  rewrite !need_attr_rec by (auto; try ns; discriminate).
  destruct (rec_attr t "version" TInt32) as [ver|]; cbn [bind]; [|split; [easy|intros (w & ((v & A & _) & _) & _); easy]].
  destruct (Z.eqb_spec (dec_i32 ver) 1) as [EV|EV]; cbn [negb];
    [|split; [easy|intros (w & ((v & A & B) & _) & _); injection A as <-; easy]].
  destruct (rec_attr t "extents_min" TVecI32) as [emin|]; cbn [bind]; [|split; [easy|intros (w & (_ & A & _) & _); easy]].
  destruct (rec_attr t "extents_max" TVecI32) as [emax|]; cbn [bind]; [|split; [easy|intros (w & (_ & A & _) & _); easy]].
  destruct (rec_attr t "data_window_min" TVecI32) as [dmin|]; cbn [bind]; [|split; [easy|intros (w & (_ & _ & A & _) & _); easy]].
  destruct (rec_attr t "data_window_max" TVecI32) as [dmax|]; cbn [bind]; [|split; [easy|intros (w & (_ & _ & A & _) & _); easy]].
  destruct (rec_attr t "components" TInt32) as [comp|]; cbn [bind]; [|split; [easy|intros (w & (_ & _ & _ & A & _) & _); easy]].
  destruct (data_rec t "data" 2 ty T ltac:(ns) ltac:(auto)) as [(z & Ez & Bz) D].
  change G_DATASET with 2. rewrite Ez. cbn [bind]. rewrite Bz.
  destruct (rec_data t 2 "data" ty) as [l|]; cbn [negb]; [|split; [easy|intros (w & (_ & _ & _ & _ & A) & _); easy]].
  destruct D as (d & -> & G & _).
  set (w := Box (dec_v3 dmin) (dec_v3 dmax)).
  assert (HD : forall P : box -> Prop, P w <-> exists w', ((exists v, Some ver = Some v /\ dec_i32 v = 1) /\
     Some (Box (dec_v3 emin) (dec_v3 emax)) <> None /\ Some w = Some w' /\ Some comp <> None /\ Some l <> None) /\ P w').
  { intros P. split.
    - intros H. exists w. repeat split; auto; try discriminate. eauto.
    - intros (w' & (_ & _ & E & _) & H). injection E as <-. auto. }
  rewrite <- (HD (fun w => ~ countable w \/ ~ no_voxels w /\ exists b l0, Some l = Some (Data b :: l0) /\
     vx (sides w) * vy (sides w) * vz (sides w) * Z.of_nat (type_size ty) < Z.of_nat (List.length b))).
  clear HD.
  destruct (dense_set_size_ub zero (Box (dec_v3 emin) (dec_v3 emax)) w dense_init)
    as [[-> C]|[(C & NV & f & ->)|(C & NV & f & -> & DD)]]; cbn [bind].
  - tauto.
  - split; [easy|]. tauto.
  - unfold get_values. rewrite G. unfold overlay. rewrite (enc_all_length ty enc dec st), DD, repeat_length.
    assert (P : 0 < vx (sides w) * vy (sides w) * vz (sides w)).
    { unfold no_voxels in NV. apply Z.mul_pos_pos; [apply Z.mul_pos_pos|]; lia. }
    destruct l as [|[k|b] l]; cbn [element nth_error].
    + cbn [bind]. split; [easy|]. intros [H|(_ & b & l0 & H & _)]; [tauto|easy].
    + cbn [bind]. split; [easy|]. intros [H|(_ & b & l0 & H & _)]; [tauto|easy].
    + destruct (Nat.leb_spec (List.length b) (Z.to_nat (vx (sides w) * vy (sides w) * vz (sides w)) * type_size ty)) as [L|L]; cbn [bind].
      * split; [easy|]. intros [H|(_ & b' & l0 & H & Q)]; [tauto|]. injection H as <- <-. exfalso. nia.
      * split; [|easy]. intros _. right. split; auto. exists b, l. split; auto. nia.
Qed.

(** * Sparse layers *)
Lemma set_flags_ok : forall (bl : list (block V)) fl ev, List.length fl = List.length ev -> (List.length fl <= List.length bl)%nat ->
  exists bl', set_flags bl fl ev = Ok bl' /\ List.length bl' = List.length bl /\
  (forall i, (i < List.length fl)%nat -> exists b, nth_error bl' i = Some b /\ b_alloc b = negb (nth i fl 0 =? 0)) /\
  (forall i, (List.length fl <= i)%nat -> nth_error bl' i = nth_error bl i).
Proof.
  induction bl as [|b bl IH]; intros [|a fl] [|e ev] E L; cbn in E, L; try lia.
  - exists []. cbn. repeat split; auto. lia.
  - exists (b :: bl). cbn. repeat split; auto. lia.
  - destruct (IH fl ev ltac:(lia) ltac:(lia)) as (bl' & S & L' & A & B). cbn [set_flags]. rewrite S. cbn [bind].
    eexists. split; [reflexivity|]. cbn [List.length]. split; [now rewrite L'|]. split.
    + intros [|i] H; [eexists; split; reflexivity|]. cbn [nth_error nth]. apply A. lia.
    + intros [|i] H; [lia|]. cbn [nth_error]. apply B. lia.
Qed.
Lemma dec_all_length k : forall b, List.length (dec_all ty dec k b) = k.
Proof. induction k; intros; cbn; auto. Qed.
Lemma rank_le (fl : list Z) : forall b, (rank (fun i => negb (nth i fl 0 =? 0)%Z) b <= set_bytes fl)%nat.
Proof.
  unfold rank, set_bytes. induction fl as [|a fl IH]; intros b.
  - replace (filter _ (seq 0 b)) with (@nil nat); [cbn; lia|]. symmetry.
    induction (seq 0 b) as [|i s I]; auto. cbn [filter]. now destruct i.
  - destruct b as [|b]; [cbn; lia|]. cbn [seq filter nth]. rewrite <- seq_shift.
    assert (M : List.length (filter (fun i => negb (nth i (a :: fl) 0 =? 0)) (map S (seq 0 b))) =
                List.length (filter (fun i => negb (nth i fl 0 =? 0)) (seq 0 b))).
    { clear. induction (seq 0 b) as [|i s I]; auto. cbn [map filter nth]. destruct (negb _); cbn [List.length]; auto. }
    specialize (IH b). destruct (negb (a =? 0)); cbn [List.length]; cbn [nth] in M; rewrite M; lia.
Qed.
Lemma rank_lt (fl : list Z) (b : nat) : nth b fl 0 <> 0 -> (rank (fun i => negb (nth i fl 0 =? 0)%Z) b < set_bytes fl)%nat.
Proof.
  intros H. pose proof (rank_le fl (S b)) as R. unfold rank in *. rewrite seq_S, filter_app, app_length in R. cbn [filter Nat.add] in R.
  destruct (Z.eqb_spec (nth b fl 0) 0); [easy|]. cbn in R. lia.
Qed.
Lemma rank_ext f g b : (forall i, f i = g i) -> rank f b = rank g b.
Proof. intros H. unfold rank. now rewrite (filter_ext f g). Qed.
Lemma cells_8 o : 0 <= o -> cells_per_block o = 8 ^ o.
Proof.
  intros. unfold cells_per_block. rewrite !Z.shiftl_mul_pow2 by auto. change 8 with (2 ^ 3).
  rewrite <- Z.pow_mul_r, Z.mul_1_l, <- !Z.pow_add_r by lia. f_equal. lia.
Qed.
Lemma fill_blocks_ok o comp mem : keeps_room uncompress -> forall bl i,
  (forall j e, mem j = Some e ->
     if comp : bool then (List.length e <= compress_bound (Z.to_nat (cells_per_block o) * type_size ty))%nat
     else (List.length e <= Z.to_nat (cells_per_block o) * type_size ty)%nat) ->
  exists r, fill_blocks ty enc dec zero uncompress compress_bound o comp mem i bl = Ok r.
Proof.
  intros U bl. induction bl as [|b bl IH]; intros i M; [eexists; reflexivity|]. cbn [fill_blocks].
  assert (exists b', fill_block ty enc dec zero uncompress compress_bound o comp (mem i) b = Ok b') as [b' ->].
  { unfold fill_block. destruct (b_alloc b); [|eexists; reflexivity].
    destruct (mem i) as [e|] eqn:E; [|eexists; reflexivity]. specialize (M i e E).
    unfold read_block_data, overlay. rewrite (enc_all_length ty enc dec st), repeat_length. destruct comp.
    - rewrite (proj2 (Nat.ltb_ge _ _)) by exact M.
      destruct (uncompress _ e) as [u|] eqn:Eu; [|eexists; reflexivity]. apply U in Eu.
      rewrite (proj2 (Nat.leb_le _ _)) by exact Eu. eexists; reflexivity.
    - rewrite (proj2 (Nat.leb_le _ _)) by exact M. eexists; reflexivity. }
  cbn [bind]. destruct (IH (S i) M) as [r ->]. eexists; reflexivity.
Qed.

Lemma set_bytes_zeros k : set_bytes (zeros k) = 0%nat.
Proof. unfold set_bytes, zeros. induction k; cbn; auto. Qed.
Lemma set_bytes_pad b n : set_bytes (b ++ skipn (List.length b) (zeros n)) = set_bytes b.
Proof.
  unfold set_bytes. rewrite filter_app, app_length.
  replace (skipn (List.length b) (zeros n)) with (zeros (n - List.length b)).
  - fold (set_bytes (zeros (n - List.length b))). rewrite set_bytes_zeros. lia.
  - unfold zeros. generalize (List.length b) as k. induction n as [|n IH]; intros [|k]; cbn; auto.
Qed.

(** What the header of a sound layer tells. *)
Lemma sparse_header_sound t : tidy t -> sparse_sound t ty compress_bound ->
  sparse_header ty enc dec zero t = Exn \/ sparse_header ty enc dec zero t = Ok None \/
  exists h o fl, sparse_header ty enc dec zero t = Ok (Some h) /\
    rec_attr t "block_order" TUint8 = Some o /\ s_order (h_field h) = dec_le o /\
    (forall i, alloc_of (h_field h) i = negb (nth i fl 0 =? 0)) /\
    (forall l, rec_data t (if h_compressed h then 3 else 2) "data" ty = Some l -> forall k, (k < set_bytes fl)%nat -> element l k <> None).
Proof.
  intros T S. unfold sparse_header.
  rewrite !need_attr_rec by (auto; try ns; discriminate).
  destruct (rec_attr t "version" TInt32) as [ver|]; cbn [bind]; [|auto].
  destruct (dec_i32 ver =? 1); cbn [negb]; [|auto].
  destruct (rec_attr t "extents_min" TVecI32) as [emin|]; cbn [bind]; [|auto].
  destruct (rec_attr t "extents_max" TVecI32) as [emax|]; cbn [bind]; [|auto].
  destruct (rec_attr t "data_window_min" TVecI32) as [dmin|] eqn:Edmin; cbn [bind]; [|auto].
  destruct (rec_attr t "data_window_max" TVecI32) as [dmax|] eqn:Edmax; cbn [bind]; [|auto].
  assert (EW : rec_box t "data_window_min" "data_window_max" = Some (Box (dec_v3 dmin) (dec_v3 dmax))).
  { unfold rec_box. now rewrite Edmin, Edmax. }
  destruct (rec_attr t "components" TUint8) as [comps|]; cbn [bind]; [|auto].
  destruct (rec_attr t "block_order" TUint8) as [o|] eqn:Eo; cbn [bind]; [|auto].
  destruct (rec_attr t "num_blocks" TUint32) as [nb|] eqn:En; cbn [bind]; [|auto].
  destruct (rec_attr t "block_res" TVecI32) as [bres|] eqn:Er; cbn [bind]; [|auto].
  destruct (so_res _ _ _ S _ Er) as [R1 R2].
  destruct (i32_dec (vx (dec_v3 bres) * vy (dec_v3 bres))) as [[_ ->]|[B _]]; [|easy]. cbn [bind].
  destruct (i32_dec (vx (dec_v3 bres) * vy (dec_v3 bres) * vz (dec_v3 bres))) as [[_ ->]|[B _]]; [|easy]. cbn [bind].
  destruct (_ =? dec_i32 nb); cbn [negb]; [|auto].
  destruct (rec_attr t "num_occupied_blocks" TUint32) as [occ|]; cbn [bind]; [|auto].
  destruct (rec_attr t "data_is_compressed" TUint8) as [comp|]; cbn [bind]; [|auto].
  set (c := negb (dec_le comp =? 0)).
  change (if c then G_CDATASET else G_DATASET) with (if c then 3 else 2).
  destruct (data_rec t "data" (if c then 3 else 2) ty T ltac:(ns) ltac:(destruct c; auto)) as [(z & Ez & _) _].
  rewrite Ez. cbn [bind]. destruct (type_code ty =? z); cbn [negb]; [|auto].
  pose proof (so_order _ _ _ S _ Eo) as Oo. destruct (so_window _ _ _ S _ _ EW Eo) as [W4 Wo].
  destruct (setup_blocks_ok zero (Box (dec_v3 emin) (dec_v3 emax)) _ 4 ltac:(unfold order_ok; lia) W4) as (f0 & -> & _). cbn [bind].
  destruct (Z.ltb_spec 10 (dec_le o)); [lia|].
  destruct (setup_blocks_ok zero (Box (dec_v3 emin) (dec_v3 emax)) _ (dec_le o) Oo Wo) as (f & -> & _ & _ & _ & Fo & Fb). cbn [bind].
  destruct (Z.ltb_spec (dec_i32 nb) 0); [auto|].
  pose proof (so_count _ _ _ S _ _ _ EW Eo En) as Cn. unfold num_of in Cn.
  set (n := Z.to_nat (dec_i32 nb)) in *.
  assert (Ln : (n <= List.length (s_blocks f))%nat) by (rewrite Fb, repeat_length; unfold n; lia).
  destruct (data_rec t "block_is_allocated_data" 2 TUint8 T ltac:(ns) ltac:(auto)) as [_ Da].
  change G_DATASET with 2.
  destruct (rec_data t 2 "block_is_allocated_data" TUint8) as [la|] eqn:Ela; [|rewrite Da; auto].
  destruct Da as (da & -> & Ga & _). cbn [bind]. rewrite Ga.
  assert (exists fl, match element la 0 with None => Ok (zeros n) | Some b => overlay (zeros n) b end = Ok fl /\ List.length fl = n /\
     (forall l, rec_data t (if c then 3 else 2) "data" ty = Some l -> forall k, (k < set_bytes fl)%nat -> element l k <> None))
    as (fl & -> & Lf & Kf).
  { destruct (element la 0) as [b|] eqn:Eb.
    - pose proof (so_flags _ _ _ S _ _ _ En Ela Eb) as Lb. unfold overlay. unfold zeros at 1 2. rewrite repeat_length.
      rewrite (proj2 (Nat.leb_le _ _)) by (unfold n; lia). eexists. split; [reflexivity|]. split.
      + rewrite app_length, skipn_length. unfold zeros. rewrite repeat_length. unfold n. lia.
      + intros l El k. change (repeat 0 n) with (zeros n). rewrite set_bytes_pad.
        apply (so_blocks _ _ _ S (if c then 3 else 2) la b l); auto. destruct c; auto.
    - exists (zeros n). split; [reflexivity|]. split; [apply repeat_length|]. intros l _ k. rewrite set_bytes_zeros. lia. }
  cbn [bind].
  destruct (data_rec t "block_empty_value_data" 2 ty T ltac:(ns) ltac:(auto)) as [_ De].
  destruct (rec_data t 2 "block_empty_value_data" ty) as [le|] eqn:Ele; [|rewrite De; auto].
  destruct De as (de & -> & Ge & _). cbn [bind]. unfold get_values. rewrite Ge.
  assert (exists ev, match element le 0 with
     | None => Ok None
     | Some b => let* m := overlay (enc_all enc (repeat zero n)) b in Ok (Some (dec_all ty dec (List.length (repeat zero n)) m))
     end = Ok ev /\ List.length (match ev with Some l => l | None => repeat zero n end) = n) as (ev & -> & Le).
  { destruct (element le 0) as [b|] eqn:Eb.
    - pose proof (so_values _ _ _ S _ _ _ En Ele Eb) as Lb. unfold overlay.
      rewrite (enc_all_length ty enc dec st), repeat_length. rewrite (proj2 (Nat.leb_le _ _)) by (unfold n; nia).
      cbn [bind]. eexists. split; [reflexivity|]. apply dec_all_length.
    - exists None. split; [reflexivity|]. apply repeat_length. }
  cbn [bind].
  destruct (set_flags_ok (s_blocks f) fl (match ev with Some l => l | None => repeat zero n end)) as (bl & -> & _ & A & B);
    [congruence|lia|].
  cbn [bind]. right; right. eexists; exists o, fl. split; [reflexivity|]. cbn [h_field h_compressed s_order].
  split; auto. split; auto. split; [|exact Kf]. intros i. unfold alloc_of. cbn [s_blocks].
  destruct (Nat.lt_ge_cases i (List.length fl)) as [L|L].
  - destruct (A i L) as (b & -> & E). exact E.
  - rewrite (B i L), (nth_overflow fl) by auto. rewrite Fb.
    destruct (nth_error _ i) as [b|] eqn:E; [|reflexivity]. apply nth_error_In, repeat_spec in E. now subst b.
Qed.

Lemma sparse_read_defined t sched : tidy t -> keeps_room uncompress -> sparse_sound t ty compress_bound ->
  sparse_read ty enc dec zero uncompress compress_bound t sched <> UB.
Proof.
  intros T U S. unfold sparse_read.
  destruct (sparse_header_sound t T S) as [->|[->|(h & o & fl & -> & Eo & Oh & Al & El)]]; cbn [bind]; try discriminate.
  pose proof (so_order _ _ _ S _ Eo) as Oo.
  destruct (h_occupied h =? 0).
  - destruct (fill_blocks_ok (s_order (h_field h)) (h_compressed h) (fun _ => None) U (s_blocks (h_field h)) 0) as [r ->]; [easy|].
    discriminate.
  - unfold open_blocks. change (if h_compressed h then G_CDATASET else G_DATASET) with (if h_compressed h then 3 else 2).
    destruct (data_rec t "data" (if h_compressed h then 3 else 2) ty T ltac:(ns) ltac:(destruct (h_compressed h); auto)) as [_ D].
    destruct (rec_data t (if h_compressed h then 3 else 2) "data" ty) as [l|] eqn:Ed; [|rewrite D; discriminate].
    destruct D as (d & -> & G & _). cbn [bind]. destruct (ds_num d =? h_occupied h); [|discriminate]. cbn [bind].
    set (al := alloc_of (h_field h)) in *.
    destruct (C20_read_blocks _ (h_nblocks h) al (ds_get d) (Datatypes.S (list_max sched)) sched ltac:(lia)) as (_ & _ & M & N).
    { unfold sched_of. eapply Forall_impl; [|apply list_max_le, Nat.le_refl]. cbn. lia. }
    destruct N as [NF _].
    { intros b _ Hb. rewrite G. apply (El l eq_refl).
      rewrite (rank_ext _ _ b Al). apply rank_lt. rewrite Al in Hb. now destruct (Z.eqb_spec (nth b fl 0) 0). }
    destruct (existsb _ sched) eqn:X.
    { apply existsb_exists in X. destruct X as (x & I & X). exfalso. apply (NF x).
      - pose proof (proj1 (list_max_le sched (list_max sched)) (Nat.le_refl _)) as F. rewrite Forall_forall in F.
        specialize (F x I). lia.
      - now destruct (r_pc _ x). }
    match goal with |- context [fill_blocks _ _ _ _ _ _ ?a ?b ?m ?i ?bl] => destruct (fill_blocks_ok a b m U bl i) as [r ->]; [|discriminate] end.
    intros j e E. destruct (M j) as (_ & _ & E'); [congruence|]. rewrite E, G in E'. symmetry in E'.
    rewrite Oh, cells_8 by lia. destruct (so_lengths _ _ _ S _ _ _ _ Eo E') as [L2 L3].
    destruct (h_compressed h); [exact (L3 Ed)|]. specialize (L2 Ed).
    assert (0 <= 8 ^ dec_le o) by (apply Z.pow_nonneg; lia). nia.
Qed.
End Field.

(** * Checking examples *)
Definition entry_okb (c : tree) : bool :=
  match c with
  | Group (Data _ :: Data k :: r) =>
      negb (Nat.eqb (List.length k) 4) ||
      ((negb (dec_le k =? 1) || match r with Data _ :: Data _ :: _ => true | _ => false end) &&
       (negb ((dec_le k =? 2) || (dec_le k =? 3)) || match r with Data _ :: _ => true | _ => false end))
  | Group (Data _ :: _) => false
  | _ => true
  end.
Lemma entry_okb_ok c : entry_okb c = true -> entry_ok c.
Proof.
  destruct c as [[|[?|?] [|[?|k] r]]|]; cbn; try easy. intros H L. rewrite (proj2 (Nat.eqb_eq _ _) L) in H. cbn [negb orb] in H.
  apply andb_prop in H. destruct H as [H1 H2]. split.
  - intros E. rewrite (proj2 (Z.eqb_eq _ _) E) in H1. cbn in H1. destruct r as [|[?|?] [|[?|?] r]]; try easy. do 3 eexists. reflexivity.
  - intros E. replace ((dec_le k =? 2) || (dec_le k =? 3)) with true in H2 by lia. cbn in H2.
    destruct r as [|[?|?] r]; try easy. do 2 eexists. reflexivity.
Qed.
Fixpoint tidyb (n : nat) (t : tree) : bool :=
  match n with
  | O => false
  | S n => forallb entry_okb (kids t) &&
      forallb (fun c => match entry c with Some (_, k, _) => negb (k =? 0) || tidyb n c | None => true end) (kids t)
  end.
Lemma check_tidy n : forall t, tidyb n t = true -> tidy t.
Proof.
  induction n as [|n IH]; intros t H; [easy|]. cbn [tidyb] in H. apply andb_prop in H. destruct H as [H1 H2].
  rewrite forallb_forall in H1, H2. constructor.
  - apply Forall_forall. intros c I. now apply entry_okb_ok, H1.
  - intros c m r I E. specialize (H2 c I). rewrite E in H2. cbn in H2. auto.
Qed.
