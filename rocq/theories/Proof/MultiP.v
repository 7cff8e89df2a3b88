(** Sampling of many fields at many points. *)
From Coq Require Import ZArith List Bool Lia.
From Verif Require Import Model.Base Model.LoopM Model.MultiM Spec.MultiSpec.
Import ListNotations.
Open Scope nat_scope.

(** * Arrays *)
Lemma rd_ok {A} d (l : list A) i : d * (i + 1) <= length l -> rd d l i = Ok (entry_of d l i).
Proof. intros H. unfold rd. apply Nat.leb_le in H. rewrite H. reflexivity. Qed.
Lemma entry_length {A} d (l : list A) i : d * (i + 1) <= length l -> length (entry_of d l i) = d.
Proof. intros H. unfold entry_of. rewrite firstn_length, skipn_length. nia. Qed.
Definition put {A} d (l : list A) i v : list A := firstn (d * i) l ++ v ++ skipn (d * (i + 1)) l.
Lemma wr_ok {A} d (l : list A) i v : d * (i + 1) <= length l -> wr d l i v = Ok (put d l i v).
Proof. intros H. unfold wr. apply Nat.leb_le in H. rewrite H. reflexivity. Qed.
Lemma put_length {A} d (l : list A) i v : d * (i + 1) <= length l -> length v = d -> length (put d l i v) = length l.
Proof. intros H V. unfold put. rewrite !app_length, firstn_length, skipn_length, V. nia. Qed.
Lemma put_nth {A} d (l : list A) i v j : d * (i + 1) <= length l -> length v = d ->
  nth_error (put d l i v) j = if (d * i <=? j) && (j <? d * (i + 1)) then nth_error v (j - d * i) else nth_error l j.
Proof.
  intros H V. unfold put. assert (L : length (firstn (d * i) l) = d * i) by (rewrite firstn_length; nia).
  destruct (Nat.leb_spec (d * i) j) as [A1|A1]; cbn [andb].
  - rewrite nth_error_app2, L by lia. destruct (Nat.ltb_spec j (d * (i + 1))) as [B1|B1].
    + rewrite nth_error_app1 by nia. reflexivity.
    + rewrite nth_error_app2, V by nia. rewrite <- (firstn_skipn (d * (i + 1)) l) at 2. rewrite nth_error_app2; rewrite firstn_length, Nat.min_l by lia; [f_equal; nia|lia].
  - rewrite nth_error_app1 by lia. rewrite <- (firstn_skipn (d * i) l) at 2. rewrite nth_error_app1 by lia. reflexivity.
Qed.
Lemma list_ext {A} (l m : list A) : (forall j, nth_error l j = nth_error m j) -> l = m.
Proof.
  revert m. induction l as [|a l IH]; intros [|b m] H; auto; [discriminate (H 0)|discriminate (H 0)|]. pose proof (H 0) as E. injection E as ->. f_equal. apply IH. intros j. apply (H (Datatypes.S j)).
Qed.
Lemma skipn_nth {A} n (l : list A) j : nth_error (skipn n l) j = nth_error l (n + j).
Proof. revert l. induction n as [|n IH]; intros l; auto. destruct l; cbn; [destruct j; auto|apply IH]. Qed.
Lemma firstn_nth {A} n (l : list A) j : nth_error (firstn n l) j = if j <? n then nth_error l j else None.
Proof. revert l j. induction n as [|n IH]; intros l j; [destruct j; auto|]. destruct l as [|a l]; [destruct j; cbn [firstn nth_error]; destruct (_ <? Datatypes.S n); reflexivity|]. destruct j; [reflexivity|]. cbn [firstn nth_error]. rewrite IH. reflexivity. Qed.
Lemma entry_nth {A} d (l : list A) i j : nth_error (entry_of d l i) j = if j <? d then nth_error l (d * i + j) else None.
Proof. unfold entry_of. rewrite firstn_nth, skipn_nth. reflexivity. Qed.
Lemma entry_put_same {A} d (l : list A) i v : d * (i + 1) <= length l -> length v = d -> entry_of d (put d l i v) i = v.
Proof.
  intros H V. apply list_ext. intros j. rewrite entry_nth. destruct (Nat.ltb_spec j d) as [B|B].
  - rewrite put_nth by auto. replace ((d * i <=? d * i + j) && (d * i + j <? d * (i + 1))) with true; [f_equal; lia|]. symmetry. apply andb_true_iff. rewrite Nat.leb_le, Nat.ltb_lt. nia.
  - symmetry. apply nth_error_None. lia.
Qed.
Lemma entry_put_other {A} d (l : list A) i k v : d * (i + 1) <= length l -> length v = d -> k <> i -> entry_of d (put d l i v) k = entry_of d l k.
Proof.
  intros H V N. apply list_ext. intros j. rewrite !entry_nth. destruct (Nat.ltb_spec j d) as [B|B]; auto. rewrite put_nth by auto.
  replace ((d * i <=? d * k + j) && (d * k + j <? d * (i + 1))) with false; auto. symmetry. apply andb_false_iff. rewrite Nat.leb_gt, Nat.ltb_ge.
  destruct (Nat.lt_ge_cases k i) as [K|K]; [left; nia|right; nia].
Qed.
Lemma put_same {A} d (l : list A) i : d * (i + 1) <= length l -> put d l i (entry_of d l i) = l.
Proof.
  intros H. apply list_ext. intros j. rewrite put_nth by (auto; apply entry_length; auto). destruct (Nat.leb_spec (d * i) j); cbn [andb]; auto. destruct (Nat.ltb_spec j (d * (i + 1))); auto.
  rewrite entry_nth. replace (j - d * i <? d) with true by (symmetry; apply Nat.ltb_lt; nia). f_equal. lia.
Qed.
Lemma entry_1 {A} (l : list A) i : i < length l -> exists x, entry_of 1 l i = [x] /\ nth_error l i = Some x.
Proof.
  intros H. destruct (nth_error l i) eqn:E; [|apply nth_error_None in E; lia]. exists a. split; auto. apply list_ext. intros j. rewrite entry_nth. destruct j as [|j].
  - cbn [Nat.ltb Nat.leb nth_error]. rewrite <- E. f_equal. lia.
  - cbn. destruct j; auto.
Qed.
Lemma rd1_ok {A} (l : list A) i : i < length l -> exists x, rd1 l i = Ok x /\ nth_error l i = Some x.
Proof. intros H. destruct (entry_1 l i H) as (x & E & N). exists x. unfold rd1. rewrite rd_ok by lia. cbn [bind]. rewrite E. auto. Qed.
Lemma rd3_ok {A} (l : list A) i : 3 * (i + 1) <= length l -> exists x y z, rd3 l i = Ok (x, y, z) /\ entry_of 3 l i = [x; y; z].
Proof.
  intros H. pose proof (entry_length 3 l i H) as L. unfold rd3. rewrite rd_ok by auto. cbn [bind]. destruct (entry_of 3 l i) as [|x [|y [|z [|]]]]; try discriminate L. exists x, y, z. auto.
Qed.

(** * One loop *)
Definition big_enough {F} d n (st : list F * list Z) : Prop := d * n <= length (fst st) /\ n <= length (snd st).
(** What a loop does to the entries. *)
Definition entrywise {F} d n (g : nat -> list F * Z -> list F * Z) (st st' : list F * list Z) : Prop :=
  length (fst st') = length (fst st) /\ length (snd st') = length (snd st) /\
  (forall i h, i < n -> nth_error (snd st) i = Some h -> entry_of d (fst st') i = fst (g i (entry_of d (fst st) i, h)) /\ nth_error (snd st') i = Some (snd (g i (entry_of d (fst st) i, h)))) /\
  (forall j, d * n <= j -> nth_error (fst st') j = nth_error (fst st) j) /\ (forall j, n <= j -> nth_error (snd st') j = nth_error (snd st) j).
Lemma hit_ok {F D} (plus : F -> D -> F) d n i x st h : big_enough d n st -> i < n -> length x = d -> nth_error (snd st) i = Some h ->
  ms_hit plus d i x st = Ok (put d (fst st) i (ms_add plus (entry_of d (fst st) i) x), put 1 (snd st) i [(h + 1)%Z]).
Proof.
  intros (A & B) I X H. unfold ms_hit. destruct (rd1_ok (snd st) i) as (h' & R & H'); [lia|]. rewrite H in H'. injection H' as <-. rewrite R. cbn [bind]. rewrite wr_ok by lia. cbn [bind].
  rewrite rd_ok by nia. cbn [bind]. rewrite wr_ok by nia. reflexivity.
Qed.
Lemma add_length {F D} (plus : F -> D -> F) a x : length (ms_add plus a x) = min (length a) (length x).
Proof. unfold ms_add. rewrite map_length, combine_length. reflexivity. Qed.
(** A body that changes entry [i] only. *)
Definition body_ok {F} d n (body : nat -> list F * list Z -> res (list F * list Z)) (g : nat -> list F * Z -> list F * Z) : Prop :=
  forall i st h, big_enough d n st -> i < n -> nth_error (snd st) i = Some h ->
    body i st = Ok (put d (fst st) i (fst (g i (entry_of d (fst st) i, h))), put 1 (snd st) i [snd (g i (entry_of d (fst st) i, h))]) /\
    length (fst (g i (entry_of d (fst st) i, h))) = d.
Lemma loop_ok {F} d n body (g : nat -> list F * Z -> list F * Z) : body_ok d n body g -> forall m st, m <= n -> big_enough d n st ->
  exists st', each body (seq 0 m) st = Ok st' /\ entrywise d m g st st'.
Proof.
  intros B. induction m as [|m IH]; intros st M Big.
  - exists st. split; auto. repeat split; auto; lia.
  - destruct (IH st ltac:(lia) Big) as (s1 & E1 & L1 & L2 & En & O1 & O2). destruct Big as (B1 & B2).
    destruct (nth_error (snd st) m) as [h|] eqn:Hh; [|apply nth_error_None in Hh; lia].
    assert (EN : entry_of d (fst s1) m = entry_of d (fst st) m) by (apply list_ext; intros j; rewrite !entry_nth; destruct (j <? d); auto; apply O1; lia).
    destruct (B m s1 h) as (E2 & L); [split; lia|lia|rewrite O2 by lia; auto|]. rewrite EN in *. set (r := g m (entry_of d (fst st) m, h)) in *.
    exists (put d (fst s1) m (fst r), put 1 (snd s1) m [snd r]). split.
    { rewrite seq_S. cbn [plus]. assert (App : forall l k s, each body (l ++ k) s = (let* x := each body l s in each body k x)).
      { induction l as [|a l IHl]; intros k s; cbn [app each bind]; auto. destruct (body a s); cbn [bind]; auto. }
      rewrite App, E1. cbn [bind each]. change (0 + m) with m. rewrite E2. reflexivity. }
    assert (Q1 : d * (m + 1) <= length (fst s1)) by nia. assert (Q2 : 1 * (m + 1) <= length (snd s1)) by lia.
    unfold entrywise. cbn [fst snd]. rewrite !put_length by auto. split; auto. split; auto. split; [|split].
    + intros i h' I Hi. destruct (Nat.eq_dec i m) as [->|N].
      * rewrite Hh in Hi. injection Hi as <-. rewrite entry_put_same by auto. split; auto. rewrite put_nth by auto.
        replace ((1 * m <=? m) && (m <? 1 * (m + 1))) with true by (symmetry; apply andb_true_iff; rewrite Nat.leb_le, Nat.ltb_lt; lia). replace (m - 1 * m) with 0 by lia. reflexivity.
      * rewrite entry_put_other by auto. destruct (En i h' ltac:(lia) Hi) as (A & C). split; auto. rewrite put_nth by auto.
        replace ((1 * m <=? i) && (i <? 1 * (m + 1))) with false by (symmetry; apply andb_false_iff; rewrite Nat.leb_gt, Nat.ltb_ge; lia). auto.
    + intros j J. rewrite put_nth by auto. replace ((d * m <=? j) && (j <? d * (m + 1))) with false by (symmetry; apply andb_false_iff; rewrite Nat.leb_gt, Nat.ltb_ge; right; nia). apply O1. nia.
    + intros j J. rewrite put_nth by auto. replace ((1 * m <=? j) && (j <? 1 * (m + 1))) with false by (symmetry; apply andb_false_iff; rewrite Nat.leb_gt, Nat.ltb_ge; lia). apply O2. lia.
Qed.
Lemma loops_ok {F A} d n (bodies : A -> list F * list Z -> res (list F * list Z)) (g : nat -> list F * Z -> A -> list F * Z) l :
  (forall f st, In f l -> big_enough d n st -> exists st', bodies f st = Ok st' /\ entrywise d n (fun i acc => g i acc f) st st') ->
  forall st, big_enough d n st -> exists st', each bodies l st = Ok st' /\ entrywise d n (fun i acc => fold_left (g i) l acc) st st'.
Proof.
  induction l as [|f l IH]; intros H st Big.
  - exists st. split; auto. repeat split; auto.
  - destruct (H f st (or_introl eq_refl) Big) as (s1 & E1 & L1 & L2 & En & O1 & O2). cbn [each]. rewrite E1. cbn [bind].
    destruct (IH ltac:(intros; apply H; [right; auto|auto]) s1) as (s2 & E2 & M1 & M2 & Em & P1 & P2); [destruct Big; split; lia|].
    exists s2. split; auto. split; [lia|]. split; [lia|]. split; [|split; intros j J; [rewrite P1, O1|rewrite P2, O2]; auto].
    intros i h I Hi. destruct (En i h I Hi) as (A1 & A2). destruct (Em i _ I A2) as (B1 & B2). cbn [fold_left]. rewrite A1 in B1, B2. rewrite <- surjective_pairing in B1, B2. auto.
Qed.

(** * The bodies *)
Lemma skip_body {F} d n i (st : list F * list Z) h : big_enough d n st -> i < n -> nth_error (snd st) i = Some h ->
  st = (put d (fst st) i (entry_of d (fst st) i), put 1 (snd st) i [h]).
Proof.
  intros (A & B) I H. rewrite put_same by nia. destruct (entry_1 (snd st) i) as (x & E & N); [lia|]. rewrite H in N. injection N as <-. rewrite <- E, put_same by lia. apply surjective_pairing.
Qed.
Lemma sized_value {F P D S} d (l : list (mfield F P D S)) f spot v : sized d l -> In f l -> length (ms_value f spot v) = d.
Proof. intros H I. destruct (H f I (mf_spot f spot) v) as (A & B). unfold ms_value. destruct (mf_remap f); auto. Qed.
(** A body that adds the value at [v], if [v] is in the field, and does nothing otherwise. *)
Lemma value_body {F P D S} (plus : F -> D -> F) d n (body : nat -> list F * list Z -> res (list F * list Z)) (p : nat -> P) (s : nat -> F) (f : mfield F P D S) :
  (forall spot v, length (ms_value f spot v) = d) ->
  (forall i st, i < n -> body i st = if mf_in f (voxel_of f (p i)) then ms_hit plus d i (ms_value f (s i) (voxel_of f (p i))) st else Ok st) ->
  body_ok d n body (fun i acc => ms_one plus (p i) (s i) acc f).
Proof.
  intros L H i st h Big I Hh. rewrite H by auto. unfold ms_one. replace (match mf_os f with Some o => mf_map f (o (p i)) | None => mf_map f (p i) end) with (voxel_of f (p i)) by (unfold voxel_of; destruct (mf_os f); auto).
  assert (EL : length (entry_of d (fst st) i) = d) by (apply entry_length; destruct Big; nia). destruct (mf_in f (voxel_of f (p i))); cbn [fst snd].
  - split; [apply (hit_ok plus d n); auto|]. rewrite add_length, EL, L. lia.
  - split; auto. f_equal. apply (skip_body d n); auto.
Qed.
Definition point {F} (pts : list F) (i : nat) (dflt : F) : F * F * F :=
  match entry_of 3 pts i with [x; y; z] => (x, y, z) | _ => (dflt, dflt, dflt) end.
Lemma rd3_point {F} (pts : list F) i dflt : 3 * (i + 1) <= length pts -> rd3 pts i = Ok (point pts i dflt).
Proof. intros H. destruct (rd3_ok pts i H) as (x & y & z & R & E). rewrite R. unfold point. rewrite E. auto. Qed.
Lemma multiple_ok {F P D S} (conv : F * F * F -> P) plus d n pts spot (l : list (mfield F P D S)) st : sized d l -> 3 * n <= length pts -> big_enough d n st ->
  exists st', ms_multiple conv plus d n pts spot l st = Ok st' /\ entrywise d n (fun i acc => ms_sample plus (conv (point pts i spot)) spot l acc) st st'.
Proof.
  intros Sz Pts Big. unfold ms_multiple. apply (loops_ok d n _ (fun i acc f => ms_one plus (conv (point pts i spot)) spot acc f)); auto.
  clear st Big. intros f st I Big. assert (L : forall s v, length (ms_value f s v) = d) by (intros; apply (sized_value d l); auto).
  destruct (match mf_os f with Some _ => true | None => false end || match mf_remap f with Some _ => true | None => false end)%bool eqn:Q.
  - apply (loop_ok d n); auto. apply (value_body plus d n _ (fun i => conv (point pts i spot)) (fun _ => spot)); auto. intros i s J. rewrite (rd3_point pts i spot) by lia. cbn [bind].
    unfold voxel_of, ms_value. destruct (mf_os f); reflexivity.
  - apply (loop_ok d n); auto. apply (value_body plus d n _ (fun i => conv (point pts i spot)) (fun _ => spot)); auto. intros i s J. rewrite (rd3_point pts i spot) by lia. cbn [bind].
    unfold voxel_of, ms_value. destruct (mf_os f); [discriminate Q|]. destruct (mf_remap f); [discriminate Q|]. reflexivity.
Qed.
(** The flag is known where it is read, and if it is set the bounds are faithful. *)
Definition flag_ok {F P D S} (conv : F * F * F -> P) (f : mfield F P D S) : Prop :=
  mf_remap f = None \/ mf_opt f = Some false \/ mf_opt f = Some true /\ ws_faithful conv f.
Lemma mip_multiple_ok {F P D S} (conv : F * F * F -> P) plus d n pts spots dflt (l : list (mfield F P D S)) st : sized d l -> (forall f, In f l -> flag_ok conv f) ->
  3 * n <= length pts -> n <= length spots -> big_enough d n st ->
  exists st', ms_mip_multiple conv plus d n pts spots l st = Ok st' /\ entrywise d n (fun i acc => ms_sample plus (conv (point pts i dflt)) (nth i spots dflt) l acc) st st'.
Proof.
  intros Sz Fl Pts Sp Big. unfold ms_mip_multiple. apply (loops_ok d n _ (fun i acc f => ms_one plus (conv (point pts i dflt)) (nth i spots dflt) acc f)); auto.
  clear st Big. intros f st I Big. assert (L : forall s v, length (ms_value f s v) = d) by (intros; apply (sized_value d l); auto).
  assert (R1 : forall i, i < n -> rd1 spots i = Ok (nth i spots dflt)). { intros i J. destruct (rd1_ok spots i) as (x & R & N); [lia|]. rewrite R. f_equal. symmetry. apply nth_error_nth. auto. }
  assert (G : exists st', each (fun i st => let* w := rd3 pts i in let* s := rd1 spots i in let v := match mf_os f with Some o => mf_map f (o (conv w)) | None => mf_map f (conv w) end in
     if mf_in f v then ms_hit plus d i (match mf_remap f with Some g => g (mf_sample f (mf_spot f s) v) | None => mf_sample f (mf_spot f s) v end) st else Ok st) (seq 0 n) st = Ok st' /\
     entrywise d n (fun i acc => ms_one plus (conv (point pts i dflt)) (nth i spots dflt) acc f) st st').
  { apply (loop_ok d n); auto. apply (value_body plus d n _ (fun i => conv (point pts i dflt)) (fun i => nth i spots dflt)); auto. intros i s J. rewrite (rd3_point pts i dflt) by lia. cbn [bind]. rewrite R1 by auto. cbn [bind].
    unfold voxel_of, ms_value. destruct (mf_os f); reflexivity. }
  assert (W : forall g, mf_remap f = Some g -> mf_opt f = Some true -> ws_faithful conv f -> exists st', each (fun i st => let* w := rd3 pts i in
     if mf_ws_in f w then let v := mf_ws_map f (conv w) in if mf_in f v then let* s := rd1 spots i in
        ms_hit plus d i (g (mf_sample f (mf_spot f s) v)) st else Ok st else Ok st) (seq 0 n) st = Ok st' /\
     entrywise d n (fun i acc => ms_one plus (conv (point pts i dflt)) (nth i spots dflt) acc f) st st').
  { intros g Rm Op Wf. apply (loop_ok d n); auto. apply (value_body plus d n _ (fun i => conv (point pts i dflt)) (fun i => nth i spots dflt)); auto. intros i s J. rewrite (rd3_point pts i dflt) by lia. cbn [bind].
    destruct (Wf (point pts i dflt)) as (W1 & W2). cbv zeta. rewrite W1. rewrite R1 by auto. cbn [bind]. unfold ms_value. rewrite Rm.
    destruct (mf_in f (voxel_of f (conv (point pts i dflt)))); [rewrite W2 by auto; reflexivity|]. destruct (mf_ws_in f (point pts i dflt)); reflexivity. }
  pose proof (Fl f I) as Fo. destruct (mf_os f) as [o|] eqn:Os; destruct (mf_remap f) as [g|] eqn:Rm; cbn [bind].
  - destruct Fo as [Fo|[Fo|(Fo & Wf)]]; [congruence| |]; rewrite Fo; cbn [bind]; [exact G|apply (W g); auto].
  - exact G.
  - destruct Fo as [Fo|[Fo|(Fo & Wf)]]; [congruence| |]; rewrite Fo; cbn [bind]; [exact G|apply (W g); auto].
  - apply (loop_ok d n); auto. apply (value_body plus d n _ (fun i => conv (point pts i dflt)) (fun i => nth i spots dflt)); auto. intros i s J. rewrite (rd3_point pts i dflt) by lia. cbn [bind]. rewrite R1 by auto. cbn [bind].
    unfold voxel_of, ms_value. rewrite Os, Rm. reflexivity.
Qed.
Lemma sample_shares {F P D S} (plus : F -> D -> F) (p : P) spot (l : list (mfield F P D S)) : forall a h,
  ms_sample plus p spot l (a, h) = (fold_left (ms_add plus) (shares p spot l) a, (h + Z.of_nat (length (shares p spot l)))%Z).
Proof.
  unfold ms_sample. induction l as [|f l IH]; intros a h; [cbn; f_equal; lia|]. cbn [fold_left]. unfold ms_one at 2. unfold shares. cbn [filter map].
  replace (match mf_os f with Some o => mf_map f (o p) | None => mf_map f p end) with (voxel_of f p) by (unfold voxel_of; destruct (mf_os f); auto).
  destruct (mf_in f (voxel_of f p)); cbn [map]; [|apply IH]. rewrite IH. cbn [fold_left fst snd length]. unfold shares, ms_value. rewrite map_length. f_equal. lia.
Qed.
Lemma each_id {A B} (body : A -> B -> res B) l st : (forall x, In x l -> body x st = Ok st) -> each body l st = Ok st.
Proof. induction l as [|x l IH]; intros H; [reflexivity|]. cbn [each]. rewrite H by (left; auto). cbn [bind]. apply IH. intros y I. apply H. right. auto. Qed.
