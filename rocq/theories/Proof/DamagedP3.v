(** Reading a complete archive: no call fails. *)
From Coq Require Import ZArith List Bool Arith Lia.
From Verif Require Import Model.Base Model.OgawaM Spec.OgawaSpec Model.DamagedM Spec.DamagedSpec Proof.OgawaP Proof.OgawaP2 Proof.OgawaP3 Proof.OgawaP4 Proof.OgawaP5.
From Verif Require Proof.DamagedP Proof.DamagedP2.
Import ListNotations.
Open Scope Z_scope.

Section C.
Context (s : ostate) (l : list tgroup) (cs : list chunk) (fz rp mem : Z).
Context (I : Inv s l cs) (CL : forall t, In t l -> t_closed t = true).
Notation gs := (o_groups s).
Notation F := (hdr fz rp ++ render gs cs).
Context (B : bytes F) (SZ : Z.of_nat (length F) < 2 ^ 63) (M : Z.of_nat (length F) <= mem).

Definition fine_group (ig : igroup) : Prop :=
  DamagedP2.no_bare ig /\ (ig = empty_igroup \/ exists g, good s cs fz rp g ig).
Definition fine_data (d : idata) : Prop := id_size d = 0 \/ id_pos d + 8 + id_size d <= Z.of_nat (length F).

(** What a slot of a group refers to. *)
Lemma slot g i v : nth_error (kids gs g) i = Some v ->
  (exists h gh ph, nth_error gs h = Some gh /\ og_pos gh = Some ph /\ v = ph) \/ v = 0 \/ v = EMPTY_DATA \/
  (exists k b, nth_error cs k = Some (KData b) /\ v = Z.lor (Z.of_nat (off gs cs k)) EMPTY_DATA).
Proof.
  intros N. unfold kids in N. destruct (nth_error gs g) as [gr|] eqn:E; [|destruct i; discriminate].
  destruct (nth_error l g) as [t|] eqn:T.
  2:{ apply nth_error_None in T. rewrite <- (v_len _ _ _ I) in T. apply nth_error_None in T. congruence. }
  pose proof (v_kids _ _ _ I g gr t E T) as K.
  destruct (nth_error (t_items t) i) as [it|] eqn:Ti.
  2:{ apply nth_error_None in Ti. rewrite <- (Forall2_length' _ _ _ K) in Ti. apply nth_error_None in Ti. congruence. }
  pose proof (Forall2_nth _ _ _ _ _ _ K N Ti) as OK. destruct it as [h|b|]; cbn [OgawaP2.child_ok] in OK.
  - destruct OK as (gh & Hh & ->). left. destruct (nth_error l h) as [th|] eqn:TH.
    2:{ apply nth_error_None in TH. rewrite <- (v_len _ _ _ I) in TH. apply nth_error_None in TH. congruence. }
    assert (C : t_closed th = true) by (apply CL; eapply nth_error_In; eauto).
    apply (v_closed _ _ _ I h gh th Hh TH) in C. destruct (og_pos gh) as [ph|] eqn:PH; [|congruence].
    exists h, gh, ph. split; [auto|]. split; [exact PH|reflexivity].
  - right. right. destruct OK as [(_ & ->)|(_ & k & Hk & ->)]; [auto|]. right. eauto.
  - subst. auto.
Qed.

Lemma bare h gh p light ig : nth_error gs h = Some gh -> og_pos gh = Some p -> i_open_group F light p = Some ig -> good s cs fz rp h ig -> DamagedP2.no_bare ig.
Proof.
  intros N P O (Num & _) Z0. destruct (v_frozen _ _ _ I h gh p N P) as [(K & ->)|(k & Hk & _)].
  - unfold i_open_group in O. cbn in O. injection O as <-. reflexivity.
  - destruct (v_chunk _ _ _ I k h Hk) as (gr & N' & Ne & _). assert (gr = gh) by congruence. subst gr.
    unfold kids in Num. rewrite N in Num. destruct (og_children gh); [congruence|cbn [length] in Num; lia].
Qed.

Lemma empty_child i : i_child F empty_igroup (Z.of_nat i) = Some None.
Proof. unfold i_child. cbn. destruct (Z.to_nat (Z.of_nat i)); reflexivity. Qed.

Lemma fine_child ig i : fine_group ig -> 0 <= i ->
  i_child F ig i = Some None \/ exists g j v, nth_error (kids gs g) j = Some v /\ i_child F ig i = Some (Some v).
Proof.
  intros (_ & G) I0. rewrite <- (Z2Nat.id i) by auto. destruct G as [->|(g & _ & G)].
  - left. apply empty_child.
  - rewrite G. destruct (nth_error (kids gs g) (Z.to_nat i)) as [v|] eqn:N; [|auto]. right. eauto.
Qed.
Lemma fine_get_group ig i light : fine_group ig -> 0 <= i ->
  exists r, i_get_group F light ig i = Some r /\ forall h, r = Some h -> fine_group h.
Proof.
  intros G I0. unfold i_get_group. destruct (fine_child ig i G I0) as [->|(g & j & v & N & ->)].
  { exists None. split; [reflexivity|discriminate]. }
  destruct (slot _ _ _ N) as [(h & gh & ph & Nh & Ph & ->)|[->|[->|(k & b & Hk & ->)]]].
  - pose proof (pos_range s l cs fz rp I SZ h gh Nh) as Rg. rewrite Ph in Rg. cbn [pos0] in Rg. rewrite is_data_low by auto.
    destruct (open_good s l cs fz rp I SZ light h gh ph Nh Ph) as (ih & O & Gh). rewrite O. eexists. split; [reflexivity|].
    intros x X. injection X as <-. split; [eapply bare; eauto|right; eauto].
  - change (is_data_pos 0) with false. cbn iota. unfold i_open_group. cbn [Z.eqb EMPTY_GROUP]. eexists. split; [reflexivity|]. intros x X. injection X as <-.
    split; [intros _; reflexivity|auto].
  - change (is_data_pos EMPTY_DATA) with true. cbn iota. eexists. split; [reflexivity|discriminate].
  - destruct (off_bound s cs fz rp k _ Hk). rewrite is_data_high by lia. eexists. split; [reflexivity|discriminate].
Qed.
Lemma fine_get_data ig i : fine_group ig -> 0 <= i -> exists r, i_get_data F ig i = Some r.
Proof.
  intros G I0. unfold i_get_data. destruct (fine_child ig i G I0) as [->|(g & j & v & N & ->)]; [eauto|].
  destruct (slot _ _ _ N) as [(h & gh & ph & Nh & Ph & ->)|[->|[->|(k & b & Hk & ->)]]].
  - pose proof (pos_range s l cs fz rp I SZ h gh Nh) as Rg. rewrite Ph in Rg. cbn [pos0] in Rg. rewrite is_data_low by auto. eauto.
  - change (is_data_pos 0) with false. eauto.
  - change (is_data_pos EMPTY_DATA) with true. cbn iota. change (i_read_data F EMPTY_DATA) with (Some (@nil Z)). eauto.
  - destruct (off_bound s cs fz rp k _ Hk). rewrite is_data_high by lia. rewrite (read_data_good s cs fz rp SZ k b Hk). eauto.
Qed.

Record fine (r : rstate) : Prop := Fine {
  fi_inv : DamagedP2.inv F r; fi_good : r_bad r = false; fi_groups : Forall fine_group (r_groups r); fi_datas : Forall fine_data (r_datas r) }.
(** Reads that do not wrap around. *)
Definition near (c : call) : Prop := match c with CRead _ size off _ => off + size < 2 ^ 64 | _ => True end.

Lemma fine_step r c : fine r -> DamagedSpec.call_ok c -> near c -> exists r' a, d_step false mem F r c = Ok (r', a) /\ fine r' /\ a <> AThrow.
Proof.
  intros [Iv Gd Fg Fd] C Nr. destruct (DamagedP2.step_ok mem F r c B Iv C) as (r' & a & E & I' & _ & _). exists r', a. split; [exact E|].
  destruct c as [g i light|g i|g|g i|d|d size off buf].
  - pose proof E as E'. cbn [d_step] in E'. destruct (nth_error (r_groups r) g) as [gr|] eqn:N.
    2:{ injection E' as <- <-. split; [split; auto|discriminate]. }
    cbn in C. destruct (fine_get_group gr i light (DamagedP2.at_nth _ _ _ _ Fg N) ltac:(lia)) as (x & G & Fx).
    rewrite (DamagedP2.intact_group mem F r g gr i light x B SZ M Iv Gd N C G) in E. destruct x as [h|]; injection E as <- <-.
    + split; [|discriminate]. split; cbn [r_groups r_datas r_bad]; auto. apply DamagedP2.snoc_all; auto.
    + split; [split; auto|discriminate].
  - pose proof E as E'. cbn [d_step] in E'. destruct (nth_error (r_groups r) g) as [gr|] eqn:N.
    2:{ injection E' as <- <-. split; [split; auto|discriminate]. }
    cbn in C. destruct (fine_get_data gr i (DamagedP2.at_nth _ _ _ _ Fg N) ltac:(lia)) as (x & G).
    pose proof (DamagedP2.intact_data mem F r g gr i x B SZ Iv Gd N C G) as X. destruct x as [b|].
    + destruct X as (r1 & d & E1 & Bd & Eg & Ed & Sz & Rd). rewrite E1 in E. injection E as <- <-. split; [|discriminate].
      split; auto; [rewrite Eg; auto|]. rewrite Ed. apply DamagedP2.snoc_all; [auto|].
      (* the data is in the file *)
      clear E'. cbn [d_step] in E1. rewrite N in E1. rewrite Gd in E1.
      destruct (DamagedP.child_ok F false gr i B (DamagedP2.at_nth _ _ _ _ (DamagedP2.in_groups _ _ Iv) N) C) as (b1 & v & Ec & Rv & _ & H). rewrite Ec in E1. cbn [bind] in E1.
      unfold i_get_data in G. destruct (i_child F gr i) as [o|]; [|discriminate]. destruct (H o eq_refl SZ eq_refl) as [-> ->].
      destruct o as [v|]; [|discriminate]. unfold is_data_pos in G. destruct (negb (Z.land v EMPTY_DATA =? 0)); [|discriminate].
      destruct (i_read_data F v) as [b'|] eqn:Rb; [|discriminate]. injection G as ->.
      destruct (DamagedP.open_data_ok F false v B (Rv _ eq_refl)) as (b2 & d' & Eo & _ & _ & _ & _ & Q). rewrite Eo in E1. cbn [bind] in E1. injection E1 as <-.
      cbn [r_datas] in Ed. apply app_inv_head in Ed. injection Ed as ->.
      destruct (Q b eq_refl SZ Rb) as (_ & Sz' & P). destruct b as [|z b]; [left; rewrite Sz'; reflexivity|right]. apply P. discriminate.
    + rewrite X in E. injection E as <- <-. split; [split; auto|discriminate].
  - cbn [d_step] in E. destruct (nth_error (r_groups r) g); injection E as <- <-; (split; [split; auto|discriminate]).
  - cbn [d_step] in E. destruct (nth_error (r_groups r) g); injection E as <- <-; (split; [split; auto|discriminate]).
  - cbn [d_step] in E. destruct (nth_error (r_datas r) d); injection E as <- <-; (split; [split; auto|discriminate]).
  - cbn [d_step] in E. destruct (nth_error (r_datas r) d) as [x|] eqn:N; [|injection E as <- <-; split; [split; auto|discriminate]].
    cbn in C, Nr. destruct C as [C1 C2]. pose proof (DamagedP2.at_nth _ _ _ _ Fd N) as Fx. pose proof (DamagedP2.at_nth _ _ _ _ (DamagedP2.in_datas _ _ Iv) N) as Sx.
    rewrite Gd in E. unfold d_read in E.
    destruct ((size =? 0) || (id_size x =? 0) || (id_size x <? u64 (off + size))) eqn:Q.
    { cbn [bind] in E. injection E as <- <-. split; [split; auto|discriminate]. }
    apply orb_false_iff in Q. destruct Q as [Q Q3]. apply orb_false_iff in Q. destruct Q as [Q1 Q2]. apply Z.eqb_neq in Q1, Q2. apply Z.ltb_ge in Q3.
    rewrite DamagedP.u64_small in Q3 by lia. destruct Fx as [Fx|Fx]; [lia|]. destruct Sx as [Sp Ss].
    rewrite DamagedP.u64_small in E by lia.
    destruct (DamagedP.read_ok F false (id_pos x + off + 8) size buf ltac:(lia) ltac:(lia) ltac:(lia)) as (b1 & k & E1 & _ & _ & _ & _ & H).
    destruct (H eq_refl ltac:(lia) ltac:(lia) ltac:(lia)) as [-> ->]. rewrite E1 in E. cbn [bind] in E. injection E as <- <-.
    split; [split; auto|discriminate].
Qed.
Lemma fine_run calls : forall r, fine r -> Forall DamagedSpec.call_ok calls -> Forall near calls ->
  exists r' al, d_run false mem F r calls = Ok (r', al) /\ fine r' /\ ~ In AThrow al.
Proof.
  induction calls as [|c calls IH]; intros r Fi C N; cbn [d_run]; [exists r, []; split; [reflexivity|]; split; [auto|intros []]|].
  inversion C as [|? ? C1 C2]; inversion N as [|? ? N1 N2]; subst. destruct (fine_step r c Fi C1 N1) as (r1 & a & E & F1 & A). rewrite E. cbn [bind].
  destruct (IH r1 F1 C2 N2) as (r2 & al & E2 & F2 & Al). rewrite E2. cbn [bind]. eexists _, _. split; [reflexivity|]. split; [auto|].
  intros [X|X]; [congruence|auto].
Qed.
Lemma fine_root : rp = root_pos gs -> fz = 0 \/ fz = 255 -> exists g, i_open F = Ok (Opened (fz =? 255) g) /\ fine_group g.
Proof.
  intros RP FZ. pose proof (v_pos _ _ _ I) as LP.
  destruct (nth_error gs 0) as [gr|] eqn:E.
  2:{ apply nth_error_None in E. rewrite (v_len _ _ _ I) in E. lia. }
  destruct (nth_error l 0) as [t|] eqn:T; [|apply nth_error_None in T; lia].
  assert (C : t_closed t = true) by (apply CL; eapply nth_error_In; eauto).
  apply (v_closed _ _ _ I 0%nat gr t E T) in C. destruct (og_pos gr) as [p|] eqn:P; [|congruence].
  destruct (open_good s l cs fz rp I SZ false 0%nat gr p E P) as (ig & O & G). exists ig. split.
  - destruct (read_root s l cs fz rp I CL SZ false FZ RP) as (g & O' & _). rewrite O'.
    f_equal. f_equal.
    assert (R8 : read64 F 8 = Some p).
    { assert (rp = p) as HH. { rewrite RP. unfold root_pos. rewrite E, P. auto. }
      unfold hdr. rewrite HH. rewrite <- !app_assoc. change 8 with (Z.of_nat (length [79; 103; 97; 119; 97; fz; 0; 1])).
      apply read64_mid. pose proof (pos_range s l cs fz rp I SZ 0%nat gr E) as Hr. rewrite P in Hr. cbn in Hr. lia. }
    unfold i_open in O'. assert (SI : stream_init F = IStream true (fz =? 255) 1) by reflexivity.
    rewrite SI in O'. cbn [is_valid is_version is_frozen] in O'. rewrite R8, O in O'. cbn in O'. congruence.
  - split; [eapply bare; eauto|right; eauto].
Qed.
End C.
