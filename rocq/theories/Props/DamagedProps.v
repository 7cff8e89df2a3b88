(** C73: reading files of any contents. *)
From Coq Require Import ZArith List Bool Arith Lia.
From Verif Require Import Model.Base Model.OgawaM Spec.OgawaSpec Model.DamagedM Spec.DamagedSpec Proof.OgawaP Proof.OgawaP2 Proof.OgawaP3 Proof.OgawaP4 Proof.OgawaP5 Proof.DamagedP Proof.DamagedP2 Proof.DamagedP3 Props.OgawaProps.
Import ListNotations.
Open Scope Z_scope.

Lemma check_bytes f : forallb (fun b => (0 <=? b) && (b <? 256)) f = true -> bytes f.
Proof.
  intros H. apply Forall_forall. intros b I. rewrite forallb_forall in H. apply H, andb_prop in I.
  rewrite Z.leb_le, Z.ltb_lt in I. exact I.
Qed.

(** How an archive begins. *)
Definition head_of (pos : Z) : list Z := [79; 103; 97; 119; 97; 255; 0; 1] ++ enc64 pos.

(** Any bytes, any memory limit, any calls: opening and every call is defined, nothing is stored outside the buffers.
    Missing: that taking the address of [front()] of an empty vector does no harm is assumed; see the next theorem and
    [C73_cut_off_refuted]. *)
Theorem C73_any_bytes_partial : forall mem f, bytes f -> not_other_version f ->
  exists r, d_open false mem f = Ok r /\
  forall s0 calls, r = Some (Some s0) -> Forall call_ok calls ->
  exists s al, d_run false mem f s0 calls = Ok (s, al) /\ length al = length calls.
Proof.
  intros mem f B N. destruct (open_ok mem f B N) as (r & E & I). exists r. split; [exact E|].
  intros s0 calls -> C. destruct (run_ok mem f calls s0 B (proj1 (I _ eq_refl)) C) as (s & al & R & _ & L & _). eauto.
Qed.
Print Assumptions C73_any_bytes_partial.

(** The same if [front()] of an empty vector is an error, as long as no group is found that has a place in the file but
    no children. *)
Theorem C73_any_bytes_strict : forall mem f s0 calls s al, bytes f -> not_other_version f -> Forall call_ok calls ->
  d_open false mem f = Ok (Some (Some s0)) -> d_run false mem f s0 calls = Ok (s, al) ->
  (forall g, In g (r_groups s) -> ig_num g = 0 -> ig_pos g = 0) ->
  d_open true mem f = Ok (Some (Some s0)) /\ d_run true mem f s0 calls = Ok (s, al).
Proof.
  intros mem f s0 calls s al B N C O R Z. destruct (open_ok mem f B N) as (r & E & I). rewrite O in E. injection E as <-.
  destruct (I _ eq_refl) as (I0 & L0 & D0).
  assert (Z' : Forall no_bare (r_groups s)) by (apply Forall_forall; exact Z).
  split; [|eapply strict_run; eauto].
  destruct (run_ok mem f calls s0 B I0 C) as (s' & al' & R' & _ & _ & _ & (gs & ds & Eg & _)). rewrite R in R'. injection R' as <- _.
  rewrite Eg in Z'. apply Forall_app in Z'. destruct Z' as [Z0 _].
  unfold d_open in *. destruct (negb (is_valid (stream_init f))); [discriminate|]. destruct (negb (is_version (stream_init f) =? 1)); [discriminate|].
  destruct (s_read f false 0 16 (repeat 0 16)) as [[b0 x]| |]; cbn [bind] in *; try discriminate.
  destruct (s_read64 f b0 8) as [[b1 p]| |]; cbn [bind] in *; try discriminate.
  destruct (d_open_group false mem f b1 false p) as [[b2 h]| |] eqn:G; cbn [bind] in *; try discriminate.
  rewrite (strict_group mem f _ _ _ _ _ G); [exact O|]. intros g ->. injection O as <-. inversion Z0; auto.
Qed.
Print Assumptions C73_any_bytes_strict.

(** What a call of [read] stores: some bytes of the file, from the place asked for on, no more than asked for, and none
    unless all that was asked for is within the size that the file gives for the data.  All of them if the file has
    them and nothing failed before. *)
Theorem C73_stored : forall mem f s d x size off buf, bytes f -> not_other_version f -> reached false mem f s ->
  nth_error (r_datas s) d = Some x -> 0 <= size <= Z.of_nat (length buf) -> 0 <= off ->
  off + size < 2 ^ 64 -> id_pos x + 8 + off < 2 ^ 64 ->
  exists s' k, d_step false mem f s (CRead d size off buf) = Ok (s', ABuf (piece f (id_pos x + 8 + off) k ++ skipn (Z.to_nat k) buf)) /\
  0 <= k <= size /\ length (piece f (id_pos x + 8 + off) k) = Z.to_nat k /\
  (0 < k -> off + size <= id_size x /\ says f (id_pos x) (id_size x)) /\
  (r_bad s = false -> off + size <= id_size x -> id_pos x + 8 + off + size <= Z.of_nat (length f) ->
   Z.of_nat (length f) < 2 ^ 63 -> k = size /\ r_bad s' = false).
Proof.
  intros mem f s d x size off buf B N R Nx Sz Of W1 W2. pose proof (reached_inv mem f s B N R) as I.
  cbn [d_step]. rewrite Nx.
  destruct (d_read_ok f (r_bad s) x size off buf (at_nth _ _ _ _ (in_datas _ _ I) Nx) Sz ltac:(lia)) as (bad' & b & E & _ & _ & K).
  rewrite E. cbn [bind]. destruct (K W2 W1) as (k & -> & Rk & Lk & Pk & _ & Q). eexists _, k. split; [reflexivity|].
  split; [auto|]. split; [auto|]. split; [|exact Q]. intros Kp. destruct (Pk Kp) as [Bd Le]. split; [auto|].
  destruct (at_nth _ _ _ _ (in_true _ _ I Bd) Nx) as [Z0|[S _]]; [lia|auto].
Qed.
Print Assumptions C73_stored.

(** Once a read has failed, nothing more is stored, and what is found has no contents. *)
Theorem C73_failed : forall mem f s c, bytes f -> not_other_version f -> reached false mem f s -> call_ok c -> r_bad s = true ->
  exists s' a, d_step false mem f s c = Ok (s', a) /\ r_bad s' = true /\ empty_handed s c s' a.
Proof.
  intros mem f s c B N R C Bad. destruct (step_ok mem f s c B (reached_inv mem f s B N R) C) as (s' & a & E & _ & F & _).
  exists s', a. split; [auto|]. apply F, Bad.
Qed.
Print Assumptions C73_failed.

(** [isChildGroup] and [isChildData] tell what [getGroup] and [getData] will give, and [isEmptyChildGroup] and
    [isEmptyChildData] that there is nothing in it; in a group that is not light each child is one or the other. *)
Definition full (g : igroup) : Prop := ig_vec g = [] \/ length (ig_vec g) = Z.to_nat (ig_num g).
Lemma open_full mem f bad light p bad' g : d_open_group false mem f bad light p = Ok (bad', Some g) -> full g.
Proof.
  unfold d_open_group. destruct (p =? EMPTY_GROUP); [intros E; injection E as <- <-; left; reflexivity|].
  destruct (s_read64 f bad p) as [[b1 n]| |]; cbn [bind]; try discriminate. destruct (negb light || (n <? 9)).
  - destruct ((2 ^ 60 <=? n) || (mem <? 8 * n)); [discriminate|]. cbn [andb].
    destruct (s_read f b1 _ _ _) as [[b2 b]| |]; cbn [bind]; try discriminate. intros E. injection E as <- <-. right. apply dec_vec_length.
  - intros E. injection E as <- <-. left. reflexivity.
Qed.
Lemma step_full mem f s c s' a : Forall full (r_groups s) -> d_step false mem f s c = Ok (s', a) -> Forall full (r_groups s').
Proof.
  intros F. destruct c as [g i light|g i|g|g i|d|d size off buf]; cbn [d_step].
  - destruct (nth_error (r_groups s) g) as [gr|]; [|intros E; injection E as <- _; auto].
    destruct (d_child f (r_bad s) gr i) as [[b1 [v|]]| |]; cbn [bind]; try discriminate; [|intros E; injection E as <- _; auto].
    destruct (Z.land v EMPTY_DATA =? 0); [|intros E; injection E as <- _; auto].
    destruct (d_open_group false mem f b1 light v) as [[b2 [h|]]| |] eqn:O; cbn [bind]; try discriminate; intros E; injection E as <- _; auto.
    cbn [r_groups]. apply snoc_all; [auto|]. eapply open_full; eauto.
  - destruct (nth_error (r_groups s) g) as [gr|]; [|intros E; injection E as <- _; auto].
    destruct (d_child f (r_bad s) gr i) as [[b1 [v|]]| |]; cbn [bind]; try discriminate; [|intros E; injection E as <- _; auto].
    destruct (negb (Z.land v EMPTY_DATA =? 0)); [|intros E; injection E as <- _; auto].
    destruct (d_open_data f b1 v) as [[b2 h]| |]; cbn [bind]; try discriminate. intros E; injection E as <- _; auto.
  - destruct (nth_error (r_groups s) g); intros E; injection E as <- _; auto.
  - destruct (nth_error (r_groups s) g); intros E; injection E as <- _; auto.
  - destruct (nth_error (r_datas s) d); intros E; injection E as <- _; auto.
  - destruct (nth_error (r_datas s) d) as [x|]; [|intros E; injection E as <- _; auto].
    destruct (d_read f (r_bad s) x size off buf) as [[b1 b]| |]; cbn [bind]; try discriminate. intros E; injection E as <- _; auto.
Qed.
Lemma run_full mem f calls : forall s s' al, Forall full (r_groups s) -> d_run false mem f s calls = Ok (s', al) -> Forall full (r_groups s').
Proof.
  induction calls as [|c calls IH]; intros s s' al F; cbn [d_run]; [intros E; injection E as <- _; auto|].
  destruct (d_step false mem f s c) as [[s1 a]| |] eqn:E; cbn [bind]; try discriminate.
  destruct (d_run false mem f s1 calls) as [[s2 al2]| |] eqn:R; cbn [bind]; try discriminate. intros X; injection X as <- _.
  eapply IH; [|exact R]. eapply step_full; eauto.
Qed.
Lemma reached_full mem f s : reached false mem f s -> Forall full (r_groups s).
Proof.
  intros (s0 & calls & al & O & _ & R). eapply run_full; [|exact R]. unfold d_open in O.
  destruct (negb (is_valid (stream_init f))); [discriminate|]. destruct (negb (is_version (stream_init f) =? 1)); [discriminate|].
  destruct (s_read f false 0 16 (repeat 0 16)) as [[b0 x]| |]; cbn [bind] in *; try discriminate.
  destruct (s_read64 f b0 8) as [[b1 p]| |]; cbn [bind] in *; try discriminate.
  destruct (d_open_group false mem f b1 false p) as [[b2 [h|]]| |] eqn:G; cbn [bind] in *; try discriminate. injection O as <-.
  constructor; [|constructor]. eapply open_full; eauto.
Qed.
Theorem C73_kinds : forall mem f s g gr i light, bytes f -> not_other_version f -> reached false mem f s ->
  nth_error (r_groups s) g = Some gr -> 0 <= i < 2 ^ 64 ->
  exists group data no_group no_data s1 a1 s2 a2,
    d_step false mem f s (CIs g i) = Ok (s, AIs group data no_group no_data) /\
    d_step false mem f s (CGroup g i light) = Ok (s1, a1) /\ d_step false mem f s (CData g i) = Ok (s2, a2) /\
    (group = true -> a1 = AGroup \/ a1 = AThrow) /\ (data = true -> a2 = AData) /\
    (no_group = true -> group = true /\ a1 = AGroup /\ exists h, r_groups s1 = r_groups s ++ [h] /\ ig_num h = 0) /\
    (no_data = true -> data = true /\ exists p, r_datas s2 = r_datas s ++ [IData p 0]) /\
    (i_is_light gr = false -> group = (i <? ig_num gr) && negb data /\ data = (i <? ig_num gr) && negb group /\
      (group = false -> a1 = ANull) /\ (data = false -> a2 = ANull)).
Proof.
  intros mem f s g gr i light B N R Ng Ri. pose proof (reached_inv mem f s B N R) as I. pose proof (reached_full mem f s R) as F.
  destruct (step_ok mem f s (CGroup g i light) B I ltac:(cbn [call_ok]; lia)) as (s1 & a1 & E1 & _).
  destruct (step_ok mem f s (CData g i) B I ltac:(cbn [call_ok]; lia)) as (s2 & a2 & E2 & _).
  pose proof (at_nth _ _ _ _ (in_groups _ _ I) Ng) as (_ & Sn & _). pose proof (at_nth _ _ _ _ F Ng) as Fg.
  exists (d_is_group gr i), (d_is_data gr i), (d_is_empty_group gr i), (d_is_empty_data gr i), s1, a1, s2, a2.
  split; [cbn [d_step]; rewrite Ng; reflexivity|]. split; [exact E1|]. split; [exact E2|].
  cbn [d_step] in E1, E2. rewrite Ng in E1, E2. unfold d_child in E1, E2.
  assert (Ln : i_is_light gr = false -> (i <? ig_num gr)%Z = match d_entry gr i with Some _ => true | None => false end).
  { unfold i_is_light, d_entry. intros Hl. assert (Lv : length (ig_vec gr) = Z.to_nat (ig_num gr)).
    { destruct Fg as [V|V]; [|exact V]. rewrite V in Hl. destruct (ig_num gr =? 0) eqn:Z0; [|discriminate]. apply Z.eqb_eq in Z0. rewrite V, Z0. reflexivity. }
    rewrite Lv, Z2Nat.id by lia. destruct (i <? ig_num gr) eqn:Lt; [|reflexivity]. apply Z.ltb_lt in Lt.
    destruct (nth_error (ig_vec gr) (Z.to_nat i)) eqn:Q; [reflexivity|]. apply nth_error_None in Q. lia. }
  assert (Li : d_entry gr i <> None -> i_is_light gr = false).
  { unfold d_entry, i_is_light. destruct (ig_vec gr); [|intros _; apply andb_false_r]. cbn [length].
    intros Q. exfalso. apply Q. destruct (i <? Z.of_nat 0); [destruct (Z.to_nat i)|]; reflexivity. }
  unfold d_is_group, d_is_data, d_is_empty_group, d_is_empty_data.
  destruct (d_entry gr i) as [v|] eqn:Ent.
  2:{ split; [discriminate|]. split; [discriminate|]. split; [discriminate|]. split; [discriminate|]. intros Hl. rewrite Hl in E1, E2. cbn [bind] in E1, E2.
      rewrite (Ln Hl). split; [reflexivity|]. split; [reflexivity|]. injection E1 as _ <-. injection E2 as _ <-. auto. }
  rewrite (Li ltac:(discriminate)) in E1, E2. rewrite (Ln (Li ltac:(discriminate))). cbn [bind] in E1, E2. cbn [andb].
  destruct (Z.land v EMPTY_DATA =? 0) eqn:K; cbn [negb] in *.
  - injection E2 as <- <-. split; [|split; [discriminate|split]].
    + intros _. destruct (d_open_group false mem f (r_bad s) light v) as [[b2 [h|]]| |]; cbn [bind] in E1; try discriminate; injection E1 as _ <-; auto.
    + intros Ev. split; [reflexivity|]. unfold d_open_group in E1. rewrite Ev in E1. cbn [bind] in E1. injection E1 as <- <-. split; [reflexivity|].
      exists empty_igroup. split; reflexivity.
    + split; [|split; [reflexivity|split; [reflexivity|split; [discriminate|reflexivity]]]].
      intros Ev. apply Z.eqb_eq in Ev. subst v. vm_compute in K. discriminate.
  - injection E1 as <- <-. split; [discriminate|]. split; [|split; [|split]].
    + intros _. destruct (d_open_data f (r_bad s) v) as [[b2 h]| |]; cbn [bind] in E2; try discriminate. injection E2 as _ <-. reflexivity.
    + intros Ev. apply Z.eqb_eq in Ev. subst v. vm_compute in K. discriminate.
    + intros Ev. apply Z.eqb_eq in Ev. subst v. split; [reflexivity|]. vm_compute (d_open_data f (r_bad s) EMPTY_DATA) in E2. cbn [bind] in E2.
      injection E2 as <- _. exists 0. reflexivity.
    + intros _. split; [reflexivity|]. split; [reflexivity|]. split; [reflexivity|discriminate].
Qed.
Print Assumptions C73_kinds.
(** A light group of nine children denies all of them, and gives them. *)
Definition nine : list Z := head_of 24 ++ enc64 0 ++ enc64 1 ++ enc64 40 ++ enc64 9 ++ concat (repeat (enc64 (2 ^ 63)) 9).
Theorem C73_light_kinds_refuted : ~ (forall mem f s0 calls s al, bytes f -> not_other_version f -> Forall call_ok calls ->
  d_open false mem f = Ok (Some (Some s0)) -> d_run false mem f s0 calls = Ok (s, al) ->
  forall k g i group data e1 e2, nth_error calls k = Some (CIs g i) -> nth_error al k = Some (AIs group data e1 e2) ->
  nth_error calls (S k) = Some (CData g i) -> nth_error al (S k) = Some AData -> data = true).
Proof.
  intros H. destruct (d_open false 1000 nine) as [[[s0|]|]| |] eqn:O; try (vm_compute in O; discriminate).
  assert (E : s0 = RState false [IGroup 24 1 [40]] []) by (vm_compute in O; injection O as <-; reflexivity). subst s0.
  assert (X : false = true); [|discriminate].
  destruct (d_run false 1000 nine (RState false [IGroup 24 1 [40]] []) [CGroup 0 0 true; CIs 1 0; CData 1 0]) as [[s al]| |] eqn:R;
    [|vm_compute in R; discriminate..].
  assert (Ea : al = [AGroup; AIs false false false false; AData]) by (vm_compute in R; injection R as _ <-; reflexivity). subst al.
  eapply (H 1000 nine _ [CGroup 0 0 true; CIs 1 0; CData 1 0] _ _ ltac:(apply check_bytes; vm_compute; reflexivity) ltac:(intros _; reflexivity)
    ltac:(repeat constructor; cbn [call_ok]; lia) O R 1%nat 1%nat 0); reflexivity.
Qed.
Print Assumptions C73_light_kinds_refuted.

(** A complete archive is read as in C16: each of its data is found by its path, whole. *)
Lemma down_ok mem f light : bytes f -> Z.of_nat (length f) < 2 ^ 63 -> Z.of_nat (length f) <= mem -> forall path i b t dep s h gr,
  inv f s -> r_bad s = false -> nth_error (r_groups s) h = Some gr -> walk dep light f gr = Some t ->
  (Forall (fun j => Z.of_nat j < 2 ^ 64) (path ++ [i])) -> tree_get t (path ++ [i]) = Some (Data b) ->
  exists s' al, d_run false mem f s (get_at light h (length (r_groups s)) path i (length (r_datas s)) (repeat 0 (length b))) = Ok (s', al) /\
    Z.of_nat (length b) <= Z.of_nat (length f) /\ forall x, last al x = ABuf b.
Proof.
  intros B L M path. induction path as [|j path IH]; intros i b t dep s h gr I Bad N W Rg T.
  - cbn [app tree_get] in T. destruct (C16_reader_interface _ _ _ _ _ W) as (ts & -> & _ & Sh).
    destruct (nth_error ts i) as [c|] eqn:Nc; [|discriminate]. injection T as ->. destruct (Sh _ _ Nc) as [_ G].
    inversion Rg as [|? ? Ri _]; subst. cbn [get_at d_run].
    pose proof (intact_data mem f s h gr (Z.of_nat i) _ B L I Bad N ltac:(lia) G) as (s' & d & E & Bd & Eg & Ed & Sz & Rd).
    assert (E2 : d_step false mem f s' (CSize (length (r_datas s))) = Ok (s', ANum (id_size d))).
    { cbn [d_step]. rewrite Ed, nth_error_app2, Nat.sub_diag by auto. reflexivity. }
    specialize (Rd (repeat 0 (length b)) (repeat_length _ _)). rewrite Sz in Rd.
    rewrite E. cbn [bind]. rewrite E2. cbn [bind]. rewrite repeat_length, Rd. cbn [bind].
    eexists _, _. split; [reflexivity|]. split; [eapply got_length; eauto|reflexivity].
  - cbn [app tree_get] in T. destruct (C16_reader_interface _ _ _ _ _ W) as (ts & -> & _ & Sh).
    destruct (nth_error ts j) as [c|] eqn:Nc; [|discriminate]. destruct c as [l|b']; [|destruct path; discriminate].
    destruct (Sh _ _ Nc) as (g' & dep' & G & W'). inversion Rg as [|? ? Ri Rr]; subst. cbn [get_at d_run].
    pose proof (intact_group mem f s h gr (Z.of_nat j) light _ B L M I Bad N ltac:(lia) G) as E. rewrite E. cbn [bind].
    destruct (step_ok mem f s (CGroup h (Z.of_nat j) light) B I ltac:(cbn; lia)) as (s1 & a1 & E1 & I1 & _). rewrite E in E1. injection E1 as <- <-.
    specialize (IH i b (Group l) dep' (RState false (r_groups s ++ [g']) (r_datas s)) (length (r_groups s)) g' I1 eq_refl).
    cbn [r_groups r_datas] in IH. rewrite nth_error_app2, Nat.sub_diag in IH by auto. specialize (IH eq_refl W' Rr T).
    destruct IH as (s' & al & R & Bd & La). rewrite app_length in R. cbn [length] in R. rewrite Nat.add_1_r in R. rewrite R. cbn [bind].
    eexists _, _. split; [reflexivity|]. split; [auto|]. intros x. specialize (La x). destruct al; [|exact La].
    exfalso. revert R. clear. generalize (RState false (r_groups s ++ [g']) (r_datas s)) as s0. intros s0.
    destruct path; cbn [get_at d_run]; intros R; match type of R with bind ?e _ = _ => destruct e as [[? ?]| |]; cbn [bind] in R; try discriminate end;
    match type of R with bind ?e _ = _ => destruct e as [[? ?]| |]; cbn [bind] in R; discriminate end.
Qed.
Lemma archive_version f g fz : bytes f -> i_open f = Ok (Opened fz g) -> not_other_version f.
Proof.
  intros B O.
  intros _. unfold i_open in O. destruct (is_valid (stream_init f)) eqn:V; [|discriminate]. destruct (is_version (stream_init f) =? 1) eqn:Ve; [|discriminate].
    apply Z.eqb_eq in Ve. revert V Ve. unfold stream_init, first16. rewrite firstn_firstn. cbn [Nat.min].
    set (h := f ++ repeat 0 16). assert (Lh : (16 <= length h)%nat) by (unfold h; rewrite app_length, repeat_length; lia).
    assert (Bh : bytes h) by (apply bytes_app; [exact B|apply bytes_zeros]).
    destruct (list_eq_dec _ _ _) as [Eh|]; [|discriminate]. intros _. unfold nthz. clearbody h. clear - Lh Bh.
    do 8 (destruct h as [|? h]; [cbn in Lh; lia|]). cbn [is_version nth skipn firstn]. intros V.
    do 6 (inversion Bh as [|? ? _ Bh']; subst; clear Bh; rename Bh' into Bh). inversion Bh as [|? ? B6 Bh']; subst. inversion Bh' as [|? ? B7 _]; subst.
    assert (X : Z.lor (z5 * 256) z6 = z5 * 256 + z6).
    { assert (Ln : Z.land (z5 * 256) z6 = 0); [|rewrite <- Z.lxor_lor, Z.add_nocarry_lxor by auto; reflexivity]. apply Z.bits_inj'. intros k K. rewrite Z.land_spec, Z.bits_0.
      change 256 with (2 ^ 8). destruct (Z.lt_ge_cases k 8) as [Lt|Ge].
      - rewrite Z.mul_pow2_bits_low by lia. reflexivity.
      - rewrite (Z.bits_above_log2 z6); [apply andb_false_r|lia|]. destruct (Z.eq_dec z6 0) as [->|Nz]; [cbn; lia|].
        apply Z.log2_lt_pow2; [lia|]. apply Z.lt_le_trans with (2 ^ 8); [lia|]. apply Z.pow_le_mono_r; lia. }
    rewrite X in V. assert (z5 = 0 /\ z6 = 1) as [-> ->] by lia. reflexivity.
Qed.
Lemma archive_fine ops mem : data_ok ops -> all_closed ops ->
  let f := o_file (o_close (o_run ops o_open)) in
  bytes f -> Z.of_nat (length f) < 2 ^ 63 -> Z.of_nat (length f) <= mem ->
  16 <= Z.of_nat (length f) /\ exists s cs rp g, f = hdr 255 rp ++ render (o_groups s) cs /\ OgawaP2.Inv s (t_run ops) cs /\
    i_open f = Ok (Opened true g) /\ fine_group s cs 255 rp g.
Proof.
  intros D C f B L M. destruct (OgawaP3.run_inv ops o_open _ [] OgawaP2.init_inv D) as (cs & Iv). fold (t_run ops) in Iv.
  assert (E : f = hdr 255 (root_pos (o_groups (o_run ops o_open))) ++ render (o_groups (o_run ops o_open)) cs).
  { unfold f, o_close, emit. cbn [o_file]. rewrite (v_file _ _ _ Iv), hdr_close. reflexivity. }
  split; [rewrite E, app_length, hdr_length; lia|]. exists (o_run ops o_open), cs, (root_pos (o_groups (o_run ops o_open))).
  rewrite E in L. destruct (fine_root (o_run ops o_open) (t_run ops) cs 255 _ Iv C L eq_refl ltac:(auto)) as (g & O & G).
  rewrite <- E in O. exists g. auto.
Qed.
(** No call on it fails or throws, and no vector without elements is asked for its [front()]. *)
Theorem C73_complete_archive_calls : forall strict ops mem calls, data_ok ops -> all_closed ops ->
  let f := o_file (o_close (o_run ops o_open)) in
  bytes f -> Z.of_nat (length f) < 2 ^ 63 -> Z.of_nat (length f) <= mem ->
  Forall call_ok calls -> (forall d size off buf, In (CRead d size off buf) calls -> off + size < 2 ^ 64) ->
  exists s0 s al, d_open strict mem f = Ok (Some (Some s0)) /\ d_run strict mem f s0 calls = Ok (s, al) /\
    r_bad s = false /\ ~ In AThrow al.
Proof.
  intros strict ops mem calls D C f B L M Ok' W. destruct (archive_fine ops mem D C B L M) as (L16 & s' & cs & rp & g & Ef & Iv & O & Fg).
  fold f in Ef, O, L16. pose proof (archive_version f g true B O) as N.
  pose proof (intact_open mem f g true B ltac:(lia) M O) as E. destruct (open_ok mem f B N) as (r & E' & In'). rewrite E in E'. injection E' as <-.
  destruct (In' _ eq_refl) as (I0 & _).
  assert (Fi : fine s' cs 255 rp (RState false [g] [])).
  { split; [rewrite <- Ef; exact I0|reflexivity|constructor; [exact Fg|constructor]|constructor]. }
  assert (Nr : Forall near calls).
  { apply Forall_forall. intros c Ic. destruct c; cbn; auto. eapply W; eauto. }
  pose proof (fine_run s' (t_run ops) cs 255 rp mem Iv C) as FR. rewrite <- Ef in FR.
  destruct (FR B L M calls _ Fi Ok' Nr) as (s & al & R & F' & A).
  exists (RState false [g] []), s, al. assert (Z : forall x, In x (r_groups s) -> ig_num x = 0 -> ig_pos x = 0).
  { intros x X. pose proof (fi_groups _ _ _ _ _ F') as Q. rewrite Forall_forall in Q. apply (Q x X). }
  destruct strict.
  - destruct (C73_any_bytes_strict mem f _ calls s al B N Ok' E R Z) as [E1 R1].
    split; [exact E1|]. split; [exact R1|]. split; [apply (fi_good _ _ _ _ _ F')|exact A].
  - split; [exact E|]. split; [exact R|]. split; [apply (fi_good _ _ _ _ _ F')|exact A].
Qed.
Print Assumptions C73_complete_archive_calls.
Lemma get_at_ok light i d buf : Z.of_nat (length buf) < 2 ^ 63 -> forall path h n, Forall (fun j => Z.of_nat j < 2 ^ 64) (path ++ [i]) ->
  Forall call_ok (get_at light h n path i d buf) /\
  forall e size off buf', In (CRead e size off buf') (get_at light h n path i d buf) -> off + size < 2 ^ 64.
Proof.
  intros Lb. induction path as [|j path IH]; intros h n Rg; cbn [get_at app] in *.
  - inversion Rg as [|? ? Ri _]; subst. split.
    + constructor; [cbn [call_ok]; lia|]. constructor; [exact Logic.I|]. constructor; [|constructor]. cbn [call_ok]. lia.
    + intros e size off buf' [X|[X|[X|[]]]]; try discriminate. injection X as _ <- <- _. lia.
  - inversion Rg as [|? ? Ri Rr]; subst. destruct (IH n (S n) Rr) as [C1 C2]. split.
    + constructor; [cbn [call_ok]; lia|exact C1].
    + intros e size off buf' [X|X]; [discriminate|eauto].
Qed.
Theorem C73_complete_archive : forall strict ops light mem path i b, data_ok ops -> all_closed ops ->
  let f := o_file (o_close (o_run ops o_open)) in
  bytes f -> Z.of_nat (length f) < 2 ^ 63 -> Z.of_nat (length f) <= mem ->
  Forall (fun j => Z.of_nat j < 2 ^ 64) (path ++ [i]) -> tree_get (built ops) (path ++ [i]) = Some (Data b) ->
  exists s0 s al, d_open strict mem f = Ok (Some (Some s0)) /\
    d_run strict mem f s0 (get_at light 0 1 path i 0 (repeat 0 (length b))) = Ok (s, al) /\ forall x, last al x = ABuf b.
Proof.
  intros strict ops light mem path i b D C f B L M Rg T. destruct (archive_fine ops mem D C B L M) as (L16 & _ & _ & _ & g & _ & _ & O & _). fold f in O, L16.
  assert (Le : Z.of_nat (length (o_file (o_run ops o_open))) <= Z.of_nat (length f)).
  { unfold f, o_close, emit, write_at. cbn [o_file]. rewrite !app_length, firstn_length, skipn_length. cbn [length]. lia. }
  destruct (C16_round_trip ops light D C ltac:(lia)) as (g' & O' & dep & W). fold f in O', W. rewrite O in O'. injection O' as <-.
  pose proof (intact_open mem f g true B ltac:(lia) M O) as E. pose proof (archive_version f g true B O) as N.
  destruct (open_ok mem f B N) as (r & E' & I). rewrite E in E'. injection E' as <-. destruct (I _ eq_refl) as (I0 & _).
  destruct (down_ok mem f light B L M path i b (built ops) dep (RState false [g] []) 0%nat g I0 eq_refl eq_refl W Rg T) as (s & al & R & Lb & La).
  cbn [r_groups r_datas length] in R.
  pose proof (get_at_ok light i 0 (repeat 0 (length b)) ltac:(rewrite repeat_length; lia) path 0%nat 1%nat Rg) as Calls.
  destruct (C73_complete_archive_calls strict ops mem _ D C B L M (proj1 Calls) (proj2 Calls)) as (s0 & s1 & al1 & O1 & R1 & _). fold f in O1, R1.
  exists s0, s1, al1. split; [exact O1|]. split; [exact R1|].
  destruct strict; [apply lenient_open in O1; apply lenient_run in R1|]; rewrite E in O1; injection O1 as <-; rewrite R in R1; injection R1 as _ <-; exact La.
Qed.
Print Assumptions C73_complete_archive.

(** Strings: unless the size of the data is 2^64 - 1, [readString] gives the bytes of the data up to the first 0, or
    some of them if the stream fails, or throws. *)
Theorem C73_string : forall mem f s g gr i, bytes f -> not_other_version f -> reached false mem f s ->
  nth_error (r_groups s) g = Some gr -> 0 <= i < 2 ^ 64 ->
  match d_string mem f (r_bad s) gr i with
  | Ok (bad, Some str) => exists p n k, 0 <= k <= n /\ str = c_string (piece f p k) /\ (0 < k -> exists q, p = q + 8 /\ says f q n) /\
      (bad = false -> k = n)
  | Ok (bad, None) => True
  | Exn => True
  | UB => exists bad d, d_get_data f (r_bad s) gr i = Ok (bad, Some d) /\ id_size d = 2 ^ 64 - 1
  end.
Proof.
  intros mem f s g gr i B N R Ng Ri. pose proof (string_ok mem f s g gr i B (reached_inv mem f s B N R) Ng Ri) as H.
  destruct (d_string mem f (r_bad s) gr i) as [[bad [str|]]| |]; auto.
Qed.
Print Assumptions C73_string.

(** Values: [readData] gives the bytes of the data if it says so and the stream has not failed; it is undefined if,
    and only if, there is no such data. *)
Theorem C73_value : forall mem f s g gr i buf, bytes f -> not_other_version f -> reached false mem f s ->
  nth_error (r_groups s) g = Some gr -> 0 <= i < 2 ^ 64 -> 0 < Z.of_nat (length buf) < 2 ^ 62 ->
  match d_value f (r_bad s) gr i buf with
  | Ok (bad, Some b) => length b = length buf /\ (bad = false -> exists p, says f p (Z.of_nat (length buf)) /\ b = piece f (p + 8) (Z.of_nat (length buf)))
  | Ok (bad, None) => True
  | Exn => False
  | UB => exists bad, d_get_data f (r_bad s) gr i = Ok (bad, None)
  end.
Proof.
  intros mem f s g gr i buf B N R Ng Ri Lb. pose proof (value_ok f s g gr i buf B (reached_inv mem f s B N R) Ng Ri ltac:(lia)) as H.
  destruct (d_value f (r_bad s) gr i buf) as [[bad [b|]]| |]; auto. destruct H as [H1 H2]. split; [auto|]. intros T. apply H2; auto.
  intros ->. cbn in Lb. lia.
Qed.
Print Assumptions C73_value.

(** * Where the claims end *)

(** A file that was cut off (its header survived): opening it takes [front()] of an empty vector.  Likewise a group
    stored with the number of its children, 0. *)
Theorem C73_cut_off_refuted : ~ (forall mem f, bytes f -> not_other_version f -> 0 <= mem -> exists r, d_open true mem f = Ok r).
Proof.
  intros H. destruct (H 1000 (head_of 16)) as (r & E).
  - apply check_bytes. vm_compute. reflexivity.
  - intros _. reflexivity.
  - lia.
  - vm_compute in E. discriminate.
Qed.
Print Assumptions C73_cut_off_refuted.

(** [IData::read] compares [offset + size] with the size after the sum has wrapped around: it gives two bytes of a
    data of one byte, the first of them from before the data. *)
Definition one_byte : list Z := head_of 25 ++ enc64 1 ++ [7] ++ enc64 1 ++ enc64 (2 ^ 63 + 16).
Theorem C73_wrap_refuted : ~ (forall mem f s d x size off buf, bytes f -> not_other_version f -> reached false mem f s ->
  nth_error (r_datas s) d = Some x -> 0 <= size <= Z.of_nat (length buf) -> 0 <= off < 2 ^ 64 -> id_size x < size ->
  exists s', d_step false mem f s (CRead d size off buf) = Ok (s', ABuf buf)).
Proof.
  intros H. destruct (d_open false 1000 one_byte) as [[[s0|]|]| |] eqn:O; try (vm_compute in O; discriminate).
  destruct (d_run false 1000 one_byte s0 [CData 0 0]) as [[s al]| |] eqn:R; [|vm_compute in O; injection O as <-; vm_compute in R; discriminate..].
  assert (E : s = RState false (r_groups s) [IData 16 1]).
  { vm_compute in O. injection O as <-. vm_compute in R. injection R as <- _. reflexivity. }
  destruct (H 1000 one_byte s 0%nat (IData 16 1) 2 (2 ^ 64 - 1) [9; 9]) as (s' & X).
  - apply check_bytes. vm_compute. reflexivity.
  - intros _. reflexivity.
  - exists s0, [CData 0 0], al. split; [auto|]. split; [|auto]. constructor; [cbn; lia|constructor].
  - rewrite E. reflexivity.
  - cbn; lia.
  - lia.
  - cbn; lia.
  - rewrite E in X. cbn [d_step r_datas r_bad] in X. vm_compute in X. discriminate.
Qed.
Print Assumptions C73_wrap_refuted.

(** Memory is taken for as many children as the file says, whatever its length: 24 bytes are enough to ask for any
    amount. *)
Theorem C73_memory_refuted : forall n, 0 < n < 2 ^ 60 -> exists f s, bytes f /\ not_other_version f /\ length f = 24%nat /\
  d_open false (8 * n) f = Ok (Some (Some s)) /\ memory s = 8 * n.
Proof.
  intros n N. set (f := head_of 16 ++ enc64 n).
  assert (Bn : bytes (enc64 n)).
  { unfold enc64. cbn [enc_le]. repeat (constructor; [apply Z.mod_pos_bound; lia|]). constructor. }
  assert (B : bytes f).
  { apply bytes_app; [|exact Bn]. apply check_bytes. vm_compute. reflexivity. }
  assert (L : length f = 24%nat) by reflexivity.
  assert (V : not_other_version f) by (intros _; reflexivity).
  assert (S : is_valid (stream_init f) = true /\ is_version (stream_init f) = 1) by (split; reflexivity).
  exists f. unfold d_open. destruct S as [-> ->]. cbn [negb Z.eqb Pos.eqb].
  destruct (read_ok f false 0 16 (repeat 0 16) ltac:(lia) ltac:(lia) ltac:(cbn; lia)) as (b0 & k & E0 & _ & _ & _ & _ & H0). rewrite E0. cbn [bind].
  destruct (H0 eq_refl ltac:(rewrite L; lia) ltac:(lia) ltac:(lia)) as [-> _]. clear E0 H0.
  destruct (read64_ok f false 8 B ltac:(lia)) as (b1 & pos & E & _ & _ & _ & H). rewrite E. cbn [bind].
  destruct (H 16 eq_refl ltac:(rewrite L; lia) eq_refl) as [-> ->]. clear E H.
  unfold d_open_group. cbn [Z.eqb EMPTY_GROUP].
  destruct (read64_ok f false 16 B ltac:(lia)) as (b1 & m & E & _ & _ & _ & H). rewrite E. cbn [bind].
  assert (R : read64 f 16 = Some n).
  { pose proof (OgawaP.read64_mid (head_of 16) n [] ltac:(lia)) as Q. rewrite app_nil_r in Q. exact Q. }
  destruct (H n eq_refl ltac:(rewrite L; lia) R) as [-> ->]. clear E H.
  cbn [negb orb]. replace (2 ^ 60 <=? n) with false by (symmetry; apply Z.leb_gt; lia). rewrite Z.ltb_irrefl. cbn [orb andb].
  rewrite (u64_small (n * 8)) by lia. rewrite (u64_small (16 + 8)) by lia.
  destruct (read_ok f false (16 + 8) (n * 8) (repeat 0 (Z.to_nat (8 * n))) ltac:(lia) ltac:(lia) ltac:(rewrite repeat_length; lia)) as (b2 & k2 & E2 & _).
  rewrite E2. cbn [bind]. eexists. split; [exact B|]. split; [exact V|]. split; [exact L|]. split; [reflexivity|].
  unfold memory. cbn [r_groups fold_right ig_vec]. rewrite dec_vec_length. lia.
Qed.
Print Assumptions C73_memory_refuted.

(** One damaged child is enough to lose the others: after a group whose position is beyond the end of the file was
    asked for, the data beside it, which was there before, is empty. *)
Definition bad_sibling : list Z := head_of 25 ++ enc64 1 ++ [7] ++ enc64 2 ++ enc64 1000 ++ enc64 (2 ^ 63 + 16).
Theorem C73_sibling_refuted : ~ (forall mem f s0 g j light i s1 a1 s2 a2, bytes f -> not_other_version f -> 1000 <= mem ->
  d_open false mem f = Ok (Some (Some s0)) -> 0 <= i < 2 ^ 64 -> 0 <= j < 2 ^ 64 ->
  d_run false mem f s0 [CData g i; CSize 0] = Ok (s1, [AData; a1]) ->
  d_run false mem f s0 [CGroup g j light; CData g i; CSize 0] = Ok (s2, [AGroup; AData; a2]) -> a2 = a1).
Proof.
  intros H. destruct (d_open false 1000 bad_sibling) as [[[s0|]|]| |] eqn:O; try (vm_compute in O; discriminate).
  assert (E : s0 = RState false [IGroup 25 2 [1000; 2 ^ 63 + 16]] []) by (vm_compute in O; injection O as <-; reflexivity).
  assert (X : ANum 0 = ANum 1); [|discriminate].
  eapply (H 1000 bad_sibling s0 0%nat 0 false 1); try exact O; try lia.
  - apply check_bytes. vm_compute. reflexivity.
  - intros _. reflexivity.
  - rewrite E. vm_compute. reflexivity.
  - rewrite E. vm_compute. reflexivity.
Qed.
Print Assumptions C73_sibling_refuted.

(** A group can be its own child, so that a walk through all of a file need not end: this one of 32 bytes has groups
    in groups to any depth. *)
Definition own_child : list Z := head_of 16 ++ enc64 1 ++ enc64 16.
Fixpoint deeper (h n : nat) : list call := match n with O => [] | S m => CGroup h 0 false :: deeper (S h) m end.
Theorem C73_cycle_refuted : bytes own_child /\ not_other_version own_child /\ length own_child = 32%nat /\
  forall n, exists s0 s al, d_open false 1000 own_child = Ok (Some (Some s0)) /\
  d_run false 1000 own_child s0 (deeper 0 n) = Ok (s, al) /\ al = repeat AGroup n /\ length (r_groups s) = S n.
Proof.
  split; [apply check_bytes; vm_compute; reflexivity|]. split; [intros _; reflexivity|]. split; [reflexivity|]. intros n.
  set (g := IGroup 16 1 [16]). exists (RState false [g] []).
  assert (St : forall gs, nth_error gs (Nat.pred (length gs)) = Some g -> d_step false 1000 own_child (RState false gs []) (CGroup (Nat.pred (length gs)) 0 false) = Ok (RState false (gs ++ [g]) [], AGroup)).
  { intros gs N. cbn [d_step r_groups]. rewrite N. vm_compute (d_child _ _ _ _). cbn [bind].
    change (Z.land 16 EMPTY_DATA =? 0) with true. cbn iota.
    assert (O : d_open_group false 1000 own_child false false 16 = Ok (false, Some g)) by (vm_compute; reflexivity).
    cbn [r_bad r_datas]. rewrite O. reflexivity. }
  assert (Run : forall n h gs, h = Nat.pred (length gs) -> nth_error gs h = Some g -> exists s, d_run false 1000 own_child (RState false gs []) (deeper h n) = Ok (s, repeat AGroup n) /\
    length (r_groups s) = (length gs + n)%nat).
  { clear n. induction n as [|n IH]; intros h gs Eh N.
    - eexists. split; [reflexivity|cbn; lia].
    - cbn [deeper d_run]. subst h. rewrite (St gs N). cbn [bind].
      assert (Lg : (0 < length gs)%nat) by (destruct gs; [destruct (Nat.pred _); discriminate|cbn; lia]).
      destruct (IH (S (Nat.pred (length gs))) (gs ++ [g])) as (s & R & L).
      + rewrite app_length. cbn. lia.
      + rewrite nth_error_app2 by lia. replace (S (Nat.pred (length gs)) - length gs)%nat with 0%nat by lia. reflexivity.
      + rewrite R. cbn [bind repeat]. eexists. split; [reflexivity|]. rewrite L, app_length. cbn. lia. }
  destruct (Run n 0%nat [g] eq_refl eq_refl) as (s & R & L). exists s, (repeat AGroup n).
  split; [vm_compute; reflexivity|]. split; [exact R|]. split; [reflexivity|exact L].
Qed.
Print Assumptions C73_cycle_refuted.

(** [readString] of data that says it has 2^64 - 1 bytes makes a buffer of none and stores a 0 outside it. *)
Definition long_name : list Z := head_of 25 ++ enc64 (2 ^ 64 - 1) ++ [7] ++ enc64 1 ++ enc64 (2 ^ 63 + 16).
Theorem C73_string_refuted : ~ (forall mem f s g gr i, bytes f -> not_other_version f -> reached false mem f s ->
  nth_error (r_groups s) g = Some gr -> 0 <= i < 2 ^ 64 -> d_string mem f (r_bad s) gr i <> UB).
Proof.
  intros H. destruct (d_open false 1000 long_name) as [[[s0|]|]| |] eqn:O; try (vm_compute in O; discriminate).
  assert (E : s0 = RState false [IGroup 25 1 [2 ^ 63 + 16]] []) by (vm_compute in O; injection O as <-; reflexivity).
  apply (H 1000 long_name s0 0%nat (IGroup 25 1 [2 ^ 63 + 16]) 0); try lia.
  - apply check_bytes. vm_compute. reflexivity.
  - intros _. reflexivity.
  - exists s0, [], []. auto.
  - rewrite E. reflexivity.
  - rewrite E. vm_compute. reflexivity.
Qed.
Print Assumptions C73_string_refuted.

(** [readData] can say that it has read a value when it has read only the first bytes of it. *)
Definition cut_value : list Z := head_of 16 ++ enc64 1 ++ enc64 (2 ^ 63 + 32) ++ enc64 4 ++ [1; 2].
Theorem C73_value_refuted : ~ (forall mem f s g gr i buf bad b, bytes f -> not_other_version f -> reached false mem f s ->
  nth_error (r_groups s) g = Some gr -> 0 <= i < 2 ^ 64 -> 0 < Z.of_nat (length buf) < 2 ^ 62 ->
  d_value f (r_bad s) gr i buf = Ok (bad, Some b) -> exists p, b = piece f p (Z.of_nat (length buf))).
Proof.
  intros H. destruct (d_open false 1000 cut_value) as [[[s0|]|]| |] eqn:O; try (vm_compute in O; discriminate).
  assert (E : s0 = RState false [IGroup 16 1 [2 ^ 63 + 32]] []) by (vm_compute in O; injection O as <-; reflexivity).
  destruct (H 1000 cut_value s0 0%nat (IGroup 16 1 [2 ^ 63 + 32]) 0 [9; 9; 9; 9] true [1; 2; 9; 9]) as (p & X); try lia.
  - apply check_bytes. vm_compute. reflexivity.
  - intros _. reflexivity.
  - exists s0, [], []. auto.
  - rewrite E. reflexivity.
  - cbn; lia.
  - rewrite E. vm_compute. reflexivity.
  - assert (In9 : In 9 cut_value).
    { unfold piece in X. assert (I : In 9 (firstn (Z.to_nat (Z.of_nat (length [9; 9; 9; 9]))) (skipn (Z.to_nat p) cut_value))) by (rewrite <- X; cbn; auto).
      apply OgawaP.In_firstn in I. rewrite <- (firstn_skipn (Z.to_nat p) cut_value). apply in_or_app. auto. }
    vm_compute in In9. repeat (destruct In9 as [Q|In9]; [discriminate|]). destruct In9.
Qed.
Print Assumptions C73_value_refuted.

(** * Examples *)
Example C73_ex : exists s0 s al, bytes bad_sibling /\ not_other_version bad_sibling /\
  d_open false 1000 bad_sibling = Ok (Some (Some s0)) /\
  d_run false 1000 bad_sibling s0 [CNum 0; CIs 0 0; CIs 0 1; CIs 0 2; CData 0 1; CSize 0; CRead 0 1 0 [0; 5]; CRead 0 2 0 [0; 5];
    CData 0 0; CGroup 0 0 true; CNum 1; CRead 0 1 0 [0; 5]; CGroup 7 0 false] = Ok (s, al) /\
  al = [ANum 2; AIs true false false false; AIs false true false false; AIs false false false false; AData; ANum 1; ABuf [7; 5]; ABuf [0; 5];
    ANull; AGroup; ANum 0; ABuf [0; 5]; ANo] /\ r_bad s = true.
Proof.
  eexists _, _, _. split; [apply check_bytes; vm_compute; reflexivity|]. split; [intros _; reflexivity|].
  split; [vm_compute; reflexivity|]. split; [vm_compute; reflexivity|]. split; reflexivity.
Qed.
Example C73_complete_archive_ex : bytes (o_file (o_close (o_run ex_ops o_open))) /\
  tree_get (built ex_ops) ([0; 2] ++ [0])%nat = Some (Data [5]).
Proof. split; [|vm_compute; reflexivity]. apply check_bytes. vm_compute. reflexivity. Qed.
Example C73_throws_ex : d_open false 1000 (head_of 16 ++ enc64 (2 ^ 61)) = Ok (Some None) /\
  d_open true 1000 [1; 2; 3] = Ok None.
Proof. split; vm_compute; reflexivity. Qed.
Example C73_strict_ex : d_open true 1000 own_child = d_open false 1000 own_child /\ d_open true 1000 (head_of 16 ++ enc64 0) = UB.
Proof. split; vm_compute; reflexivity. Qed.
Example C73_string_ex : d_string 1000 one_byte false (IGroup 25 1 [2 ^ 63 + 16]) 0 = Ok (false, Some [7]) /\
  d_value one_byte false (IGroup 25 1 [2 ^ 63 + 16]) 0 [3] = Ok (false, Some [7]) /\
  d_value one_byte false (IGroup 25 1 [2 ^ 63 + 16]) 1 [3] = UB.
Proof. repeat split; vm_compute; reflexivity. Qed.
