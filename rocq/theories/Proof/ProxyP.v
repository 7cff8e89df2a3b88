From Coq Require Import ZArith List Bool String Lia Arith Permutation Sorted.
From Verif Require Import Model.Base Model.FieldM Model.DenseM Model.SparseM Model.OgawaM Spec.OgawaSpec Model.OgM Spec.OgSpec Proof.OgP
  Model.FieldIOM Spec.FieldIOSpec Proof.FieldIOP Model.FileM Spec.FileSpec Proof.FileP Proof.FileP2 Model.MetaM Spec.MetaSpec Proof.MetaP Props.MetaProps
  Model.MipIOM Proof.MipIOP Model.ProxyM Spec.ProxySpec.
Import ListNotations.
Open Scope Z_scope.

Lemma bind_ok {A B} (r : res A) (k : A -> res B) y : bind r k = Ok y -> exists x, r = Ok x /\ k x = Ok y.
Proof. destruct r; try discriminate. eauto. Qed.

(** * The group of a written layer *)
Lemma node_kids la l : good_name la -> skipn 2 (t_kids (node_group la l)) = l.
Proof. intros G. unfold node_group. rewrite (wdata_ne la), wdata_enc32 by apply G. reflexivity. Qed.

Definition levels_attr (lg : tree) : res bytes :=
  let* mg := find_valid lg (str "mip_levels") in
  match mg with
  | None => Ok (enc32 0)
  | Some mg =>
      let* a := get_attr mg (str "levels") TUint32 (zeros (type_size TUint32)) in
      Ok (match a with Some v => v | None => enc32 0 end)
  end.

Lemma stored_sizes layer e dw n : stores layer e dw n -> forall la md cls, good_name la ->
  let t := node_group la (layer_body md cls layer) in
  need_attr t (str "extents_min") TVecI32 = Ok (enc_v3 (bmin e)) /\
  need_attr t (str "extents_max") TVecI32 = Ok (enc_v3 (bmax e)) /\
  need_attr t (str "data_window_min") TVecI32 = Ok (enc_v3 (bmin dw)) /\
  need_attr t (str "data_window_max") TVecI32 = Ok (enc_v3 (bmax dw)) /\
  levels_attr t = Ok (enc32 (Z.of_nat n)).
Proof.
  intros S la md cls G t.
  assert (A : forall nm ty, ~ In 47 (str nm) ->
    need_attr t (str nm) ty = need_attr (Group (Data [1] :: Data [1] :: layer_body md cls layer)) (str nm) ty).
  { intros nm ty N. unfold need_attr, get_attr, find_typed, find_group. rewrite split_plain by auto. cbn [app find_comps].
    unfold t. rewrite node_kids by auto. reflexivity. }
  assert (C : levels_attr t = levels_attr (Group (Data [1] :: Data [1] :: layer_body md cls layer))).
  { unfold levels_attr, find_valid, find_group. rewrite split_plain by (apply has_slash_iff; reflexivity). cbn [app find_comps].
    unfold t. rewrite node_kids by auto. reflexivity. }
  rewrite !A by (apply has_slash_iff; reflexivity). rewrite C. clear A C t.
  destruct S as [V ty enc dims bits f layer H|V ty enc dims bits cp f out layer H|F kind wr ty dims bits m layer H].
  - unfold dense_layer in H. destruct (i32 _) as [xy| |]; try discriminate. cbn [bind] in H. destruct (i32 _) as [k| |]; try discriminate. cbn [bind] in H.
    destruct (_ <? _); try discriminate. injection H as <-. repeat split.
  - unfold sparse_layer in H. destruct (mmap _ _) as [el| |]; try discriminate. cbn [bind] in H. injection H as <-. repeat split.
  - unfold mip_layer in H. destruct (level_groups _ _ _ _) as [gs| |]; try discriminate. cbn [bind] in H. injection H as <-. repeat split.
Qed.

Section P.
Context {V : Type}.
Notation proxy_of := (@proxy_of V).

Lemma proxy_of_unfold lg name attr map : proxy_of lg name attr map =
  let* emin := need_attr lg (str "extents_min") TVecI32 in
  let* emax := need_attr lg (str "extents_max") TVecI32 in
  let* dmin := need_attr lg (str "data_window_min") TVecI32 in
  let* dmax := need_attr lg (str "data_window_max") TVecI32 in
  let* m := read_layer_meta lg in
  let* n := levels_attr lg in
  Ok (Proxy name attr (EmptyField (Box (dec_v3 emin) (dec_v3 emax)) (Box (dec_v3 dmin) (dec_v3 dmax)) None None None)
        (meta_set m KInt (str "mip_levels") n) map).
Proof.
  unfold ProxyM.proxy_of, levels_attr.
  repeat (match goal with |- bind ?x _ = bind ?x _ => destruct x; cbn [bind]; auto end).
  destruct (find_valid lg (str "mip_levels")) as [[mg|]| |]; cbn [bind]; auto.
Qed.
Lemma proxy_of_inv lg name attr map p : proxy_of lg name attr map = Ok p ->
  px_name p = name /\ px_attr p = attr /\ px_map p = map /\
  exists emin emax dmin dmax m n,
    need_attr lg (str "extents_min") TVecI32 = Ok emin /\ need_attr lg (str "extents_max") TVecI32 = Ok emax /\
    need_attr lg (str "data_window_min") TVecI32 = Ok dmin /\ need_attr lg (str "data_window_max") TVecI32 = Ok dmax /\
    read_layer_meta lg = Ok m /\ levels_attr lg = Ok n /\
    ef_ext (px_field p) = Box (dec_v3 emin) (dec_v3 emax) /\ ef_dw (px_field p) = Box (dec_v3 dmin) (dec_v3 dmax) /\
    px_meta p = meta_set m KInt (str "mip_levels") n.
Proof.
  rewrite proxy_of_unfold.
  destruct (need_attr lg (str "extents_min") TVecI32) as [a| |]; try discriminate. cbn [bind].
  destruct (need_attr lg (str "extents_max") TVecI32) as [b| |]; try discriminate. cbn [bind].
  destruct (need_attr lg (str "data_window_min") TVecI32) as [c| |]; try discriminate. cbn [bind].
  destruct (need_attr lg (str "data_window_max") TVecI32) as [d| |]; try discriminate. cbn [bind].
  destruct (read_layer_meta lg) as [m| |]; try discriminate. cbn [bind].
  destruct (levels_attr lg) as [n| |]; try discriminate. cbn [bind]. intros [= <-]. cbn.
  do 3 (split; auto). exists a, b, c, d, m, n. repeat split.
Qed.
Lemma meta_get_set m n v k x dflt :
  meta_get (meta_set m KInt n v) k x dflt = if kind_eqb KInt k && bytes_eqb n x then v else meta_get m k x dflt.
Proof. unfold meta_get. rewrite find_meta_set. destruct (_ && _); reflexivity. Qed.
Lemma meta_get_other m n v k x dflt : (k, x) <> (KInt, n) -> meta_get (meta_set m KInt n v) k x dflt = meta_get m k x dflt.
Proof.
  intros D. rewrite meta_get_set. destruct (kind_eqb_spec KInt k) as [<-|]; auto. destruct (bytes_eqb_spec n x) as [->|]; auto. congruence.
Qed.
Lemma meta_get_same m n v dflt : meta_get (meta_set m KInt n v) KInt n dflt = v.
Proof. rewrite meta_get_set. cbn [andb]. destruct (kind_eqb_spec KInt KInt); [|congruence]. rewrite beq_refl. reflexivity. Qed.

Lemma dense_read_sizes {U} ty enc dec (zero : U) t f : dense_read ty enc dec zero t = Ok (Some f) ->
  exists emin emax dmin dmax,
    need_attr t (str "extents_min") TVecI32 = Ok emin /\ need_attr t (str "extents_max") TVecI32 = Ok emax /\
    need_attr t (str "data_window_min") TVecI32 = Ok dmin /\ need_attr t (str "data_window_max") TVecI32 = Ok dmax /\
    d_ext f = Box (dec_v3 emin) (dec_v3 emax) /\ d_dw f = Box (dec_v3 dmin) (dec_v3 dmax).
Proof.
  unfold dense_read. intros H. apply bind_ok in H as (v & _ & H). destruct (negb _); try discriminate.
  apply bind_ok in H as (a & A & H). apply bind_ok in H as (b & B & H). apply bind_ok in H as (c & C & H). apply bind_ok in H as (d & D & H).
  apply bind_ok in H as (w & _ & H). apply bind_ok in H as (o & _ & H). destruct (negb _); try discriminate.
  apply bind_ok in H as ((g, threw) & S & H). destruct threw; try discriminate.
  apply bind_ok in H as ([x|] & _ & H); [|discriminate]. apply bind_ok in H as ([l|] & _ & H); [|discriminate].
  injection H as <-. cbn [d_ext d_dw]. exists a, b, c, d. do 4 (split; auto).
  unfold dense_set_size in S. do 4 (apply bind_ok in S as (? & _ & S)).
  destruct ((_ <? _) || (_ <? _) || (_ <? _)); [discriminate|]. apply bind_ok in S as (? & _ & S). injection S as <-. auto.
Qed.
Lemma sparse_read_sizes {U} ty enc dec (zero : U) uncompress bound t sched f : sparse_read ty enc dec zero uncompress bound t sched = Ok (Some f) ->
  exists emin emax dmin dmax,
    need_attr t (str "extents_min") TVecI32 = Ok emin /\ need_attr t (str "extents_max") TVecI32 = Ok emax /\
    need_attr t (str "data_window_min") TVecI32 = Ok dmin /\ need_attr t (str "data_window_max") TVecI32 = Ok dmax /\
    s_ext f = Box (dec_v3 emin) (dec_v3 emax) /\ s_dw f = Box (dec_v3 dmin) (dec_v3 dmax).
Proof.
  unfold sparse_read. intros H. apply bind_ok in H as ([h|] & SH & H); [|discriminate].
  assert (E : s_ext f = s_ext (h_field h) /\ s_dw f = s_dw (h_field h)).
  { destruct (h_occupied h =? 0); [apply bind_ok in H as (? & _ & H); injection H as <-; auto|].
    apply bind_ok in H as (? & _ & H). destruct (existsb _ _); [discriminate|]. apply bind_ok in H as (? & _ & H). injection H as <-; auto. }
  destruct E as [-> ->]. clear H. rename SH into H. unfold sparse_header in H.
  apply bind_ok in H as (v & _ & H). destruct (negb _); try discriminate.
  apply bind_ok in H as (a & A & H). apply bind_ok in H as (b & B & H). apply bind_ok in H as (c & C & H). apply bind_ok in H as (d & D & H).
  do 6 (apply bind_ok in H as (? & _ & H)). destruct (negb _); try discriminate.
  do 3 (apply bind_ok in H as (? & _ & H)). destruct (negb _); try discriminate.
  apply bind_ok in H as (? & _ & H). destruct (10 <? _); try discriminate.
  apply bind_ok in H as (gg & S & H). destruct (_ <? 0); try discriminate.
  apply bind_ok in H as ([dsa|] & _ & H); [|discriminate]. apply bind_ok in H as (fl & _ & H).
  apply bind_ok in H as ([dse|] & _ & H); [|discriminate]. apply bind_ok in H as (ev & _ & H). apply bind_ok in H as (bl & _ & H).
  injection H as <-. cbn [h_field s_ext s_dw]. exists a, b, c, d. do 4 (split; auto).
  unfold setup_blocks in S. do 2 (apply bind_ok in S as (? & _ & S)). injection S as <-. auto.
Qed.

Lemma proxy_of_agrees x p : proxy_of (il_group x) (il_name x) (il_attr x) (il_map x) = Ok p -> proxy_agrees p x.
Proof.
  intros H. apply proxy_of_inv in H as (N & A & M & a & b & c & d & m & n & Ea & Eb & Ec & Ed & Em & El & X & Y & Z).
  do 3 (split; auto). split; [|split].
  - intros m' E k nm dflt D. rewrite Z, meta_get_other by auto. congruence.
  - intros U ty enc dec zero f R. apply dense_read_sizes in R as (a' & b' & c' & d' & Ha & Hb & Hc & Hd & -> & ->). split; congruence.
  - intros U ty enc dec zero un bd sc f R. apply sparse_read_sizes in R as (a' & b' & c' & d' & Ha & Hb & Hc & Hd & -> & ->). split; congruence.
Qed.

(** * Proxies and layers of any file *)
Definition made_of (p : proxy V) (x : ilayer) : Prop := proxy_of (il_group x) (il_name x) (il_attr x) (il_map x) = Ok p.
Lemma proxy_layers_any t l part layer names : forall r ls,
  proxy_layers t l part (remove_id part) layer names = Ok r ->
  read_named t l part (fun n => bytes_eqb n layer) names = Ok ls ->
  match r with None => True | Some ps => Forall2 made_of ps ls end.
Proof.
  induction names as [|n names IH]; intros r ls; cbn [proxy_layers read_named]; [intros [= <-] [= <-]; constructor|].
  destruct (bytes_eqb_spec n layer) as [->|]; [|apply IH].
  intros P R. apply bind_ok in R as (x & RL & R). apply bind_ok in R as (rest & RR & R). unfold read_layer in RL.
  destruct (find_ipart part l) as [ip|]; [|injection P as <-; exact Logic.I].
  destruct (negb (existsb _ _)); [injection P as <-; exact Logic.I|].
  apply bind_ok in P as (pg & FP & P). rewrite FP in RL. cbn [bind] in RL. destruct pg as [g|]; [|injection P as <-; exact Logic.I].
  apply bind_ok in P as (lg & FL & P). rewrite FL in RL. cbn [bind] in RL. destruct lg as [lg|]; [|injection P as <-; exact Logic.I].
  injection RL as <-. apply bind_ok in P as (p & PO & P). apply bind_ok in P as (pr & PR & P). injection P as <-. injection R as <-.
  specialize (IH _ _ PR RR). destruct pr; cbn [option_map]; auto.
Qed.
Lemma proxy_parts_any v t l user layer parts : forall r ls,
  proxy_parts v t l user layer parts = Ok r ->
  read_parts t l parts (fun n => bytes_eqb (remove_id n) user) (fun n => bytes_eqb n layer) = Ok ls ->
  match r with None => True | Some ps => Forall2 made_of ps ls end.
Proof.
  induction parts as [|n parts IH]; intros r ls; cbn [proxy_parts read_parts]; [intros [= <-] [= <-]; constructor|].
  destruct (bytes_eqb_spec (remove_id n) user) as [E|].
  - intros P R. apply bind_ok in R as (a & RN & R). apply bind_ok in R as (rest & RR & R). injection R as <-.
    apply bind_ok in P as (pa & PL & P). subst user. pose proof (proxy_layers_any _ _ _ _ _ _ _ PL RN) as F.
    destruct pa as [pa|]; [|injection P as <-; exact Logic.I]. apply bind_ok in P as (pr & PR & P). injection P as <-.
    specialize (IH _ _ PR RR). destruct pr; cbn [option_map]; auto. apply Forall2_app; auto.
  - intros P R. cbn [bind] in R. apply bind_ok in R as (rest & RR & R). injection R as <-. apply (IH _ _ P RR).
Qed.

(** * Proxies of what was written *)
Lemma made_stored x w e dw levels h p : good_name (w_layer w) -> il_group x = node_group (w_layer w) (w_body w) ->
  writes w e dw levels h -> made_of p x ->
  ef_ext (px_field p) = e /\ ef_dw (px_field p) = dw /\
  meta_get (px_meta p) KInt (str "mip_levels") (enc32 0) = enc32 (Z.of_nat levels) /\
  forall k n dflt, (k, n) <> (KInt, str "mip_levels") -> meta_get (px_meta p) k n dflt = meta_get (meta_run h) k n dflt.
Proof.
  intros G EG (IE & ID & SS & UN & cls & layer & ST & BO) H.
  apply proxy_of_inv in H as (_ & _ & _ & a & b & c & d & m & n & Ea & Eb & Ec & Ed & Em & El & X & Y & Z).
  rewrite EG, BO in *. destruct (stored_sizes _ _ _ _ ST (w_layer w) (write_meta (meta_run h)) cls G) as (Sa & Sb & Sc & Sd & Sl).
  rewrite Sa in Ea; rewrite Sb in Eb; rewrite Sc in Ec; rewrite Sd in Ed; rewrite Sl in El.
  injection Ea as <-; injection Eb as <-; injection Ec as <-; injection Ed as <-; injection El as <-.
  destruct (C24_round_trip h (w_layer w) cls layer SS G UN) as (m' & RM & MG). rewrite RM in Em. injection Em as <-.
  rewrite X, Y, Z. split; [|split; [|split]].
  - rewrite !dec_v3_enc by apply IE. destruct e; reflexivity.
  - rewrite !dec_v3_enc by apply ID. destruct dw; reflexivity.
  - apply meta_get_same.
  - intros k nm dflt D. rewrite meta_get_other by auto. apply MG.
Qed.
Lemma made_exists x w e dw levels h : good_name (w_layer w) -> il_group x = node_group (w_layer w) (w_body w) ->
  writes w e dw levels h -> exists p, made_of p x.
Proof.
  intros G EG (IE & ID & SS & UN & cls & layer & ST & BO).
  destruct (stored_sizes _ _ _ _ ST (w_layer w) (write_meta (meta_run h)) cls G) as (Sa & Sb & Sc & Sd & Sl).
  destruct (C24_round_trip h (w_layer w) cls layer SS G UN) as (m' & RM & MG).
  unfold made_of. rewrite proxy_of_unfold, EG, BO, Sa, Sb, Sc, Sd. cbn [bind]. rewrite RM. cbn [bind]. rewrite Sl. cbn [bind]. eauto.
Qed.
End P.
