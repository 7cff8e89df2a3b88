(** MIP layers of archives of any contents, and the sizes of extents. *)
From Coq Require Import ZArith List Bool String DecimalString Lia.
From Verif Require Import Model.Base Proof.BaseP Model.FieldM Model.DenseM Model.SparseM Model.OgawaM Spec.OgawaSpec Model.OgM Model.FieldIOM
  Model.FileM Model.MetaM Model.MipIOM Model.ForeignM Spec.SparseSpec Spec.FieldIOSpec Spec.ForeignSpec Proof.ForeignP Proof.ForeignP2.
Import ListNotations.
Open Scope Z_scope.

Lemma need_string_rec t s : tidy t -> ~ In 47 (str s) ->
  need_attr t (str s) TString = match rec_string t s with Some v => Ok v | None => Exn end.
Proof.
  intros T N. unfold need_attr, get_attr, find_typed, rec_string. rewrite find_group_found by auto. cbn [bind]. change G_ATTR with 1.
  destruct (found 1 (str s) t) as [a|] eqn:Ea; [|reflexivity].
  destruct (attr_shape a (found_ok _ _ _ _ T Ea)) as (a1 & a2 & d & v & l & ->).
  cbn [read_dtype get_data t_kids nth_error bind]. rewrite dtype_eqb. destruct (_ && _); reflexivity.
Qed.
Lemma sub_group_valid t n : sub_group t n = find_valid t n.
Proof. reflexivity. Qed.
Lemma digits_no_slash u : ~ In 47 (str (NilEmpty.string_of_uint u)).
Proof.
  induction u; cbn; auto; intros [E|E]; try (now apply IHu); vm_compute in E; discriminate E.
Qed.
Lemma level_no_slash i : ~ In 47 (level_name i).
Proof.
  unfold level_name. rewrite in_app_iff. intros [H|H]; [revert H; ns|]. now apply digits_no_slash in H.
Qed.
Lemma sparse_read_early {V} ty enc dec (zero : V) unc bound t sched : tidy t ->
  match sparse_sized ty t with
  | Ok (Some _) => True
  | Ok None => sparse_read ty enc dec zero unc bound t sched = Ok None
  | Exn => sparse_read ty enc dec zero unc bound t sched = Exn
  | UB => sparse_read ty enc dec zero unc bound t sched = UB
  end.
Proof.
  intros T. unfold sparse_sized, sparse_read, sparse_header.
  rewrite !need_attr_rec by (auto; try ns; discriminate).
  destruct (rec_attr t "version" TInt32) as [ver|]; cbn [bind]; [|auto].
  destruct (dec_i32 ver =? 1); cbn [negb]; [|auto].
  destruct (rec_attr t "extents_min" TVecI32) as [emin|]; cbn [bind]; [|auto].
  destruct (rec_attr t "extents_max" TVecI32) as [emax|]; cbn [bind]; [|auto].
  destruct (rec_attr t "data_window_min" TVecI32) as [dmin|] eqn:Edmin; cbn [bind]; [|auto].
  destruct (rec_attr t "data_window_max" TVecI32) as [dmax|] eqn:Edmax; cbn [bind]; [|auto].
  destruct (rec_attr t "components" TUint8) as [comps|]; cbn [bind]; [|auto].
  destruct (rec_attr t "block_order" TUint8) as [o|] eqn:Eo; cbn [bind]; [|auto].
  destruct (rec_attr t "num_blocks" TUint32) as [nb|] eqn:En; cbn [bind]; [|auto].
  destruct (rec_attr t "block_res" TVecI32) as [bres|] eqn:Er; cbn [bind]; [|auto].
  destruct (i32 (vx (dec_v3 bres) * vy (dec_v3 bres))); cbn [bind]; auto.
  destruct (i32 _); cbn [bind]; auto.
  destruct (_ =? dec_i32 nb); cbn [negb]; [|auto].
  destruct (rec_attr t "num_occupied_blocks" TUint32) as [occ|]; cbn [bind]; [|auto].
  destruct (rec_attr t "data_is_compressed" TUint8) as [comp|]; cbn [bind]; [|auto].
  destruct (dataset_type _ _ _) as [z| |]; cbn [bind]; auto. destruct (type_code ty =? z); cbn [negb bind]; auto.
Qed.
Lemma sparse_sized_some ty t e : tidy t -> sparse_sized ty t = Ok (Some e) -> rec_extents t = Some e.
Proof.
  intros T. unfold sparse_sized, rec_extents, rec_box.
  rewrite !need_attr_rec by (auto; try ns; discriminate).
  destruct (rec_attr t "version" TInt32) as [ver|]; cbn [bind]; [|easy].
  destruct (dec_i32 ver =? 1); cbn [negb]; [|easy].
  destruct (rec_attr t "extents_min" TVecI32) as [emin|]; cbn [bind]; [|easy].
  destruct (rec_attr t "extents_max" TVecI32) as [emax|]; cbn [bind]; [|easy].
  intros H.
  repeat match type of H with
  | context [match ?x with Some _ => _ | None => _ end] => destruct x; cbn [bind] in H; [|easy]
  | context [i32 ?x] => destruct (i32 x); cbn [bind] in H; [|easy|easy]
  | context [dataset_type ?a ?b ?c] => destruct (dataset_type a b c); cbn [bind] in H; [|easy|easy]
  | context [if negb ?x then _ else _] => destruct x eqn:?; cbn [negb] in H
  end; congruence.
Qed.
Lemma f_sparse_defined {V} ty enc dec (zero : V) (S : storable ty enc dec) unc bound t sched : tidy t -> keeps_room unc -> sparse_sound t ty bound ->
  f_sparse_read ty enc dec zero unc bound t sched <> UB.
Proof.
  intros T U So. unfold f_sparse_read. pose proof (sparse_read_early ty enc dec zero unc bound t sched T) as E.
  pose proof (sparse_read_defined ty enc dec zero S unc bound t sched T U So) as D.
  destruct (sparse_sized ty t) as [[e|]| |] eqn:Es; cbn [bind]; try easy.
  pose proof (so_extents _ _ _ So e (sparse_sized_some _ _ _ T Es)) as Z.
  destruct (map_extents_dec e) as [[_ ->]|[N _]]; [exact D|easy].
Qed.
(** When the extents have a size, the readers are those of Model/FieldIOM.v. *)
Lemma f_sparse_same {V} ty enc dec (zero : V) unc bound t sched : tidy t -> (forall e, rec_extents t = Some e -> sized e) ->
  f_sparse_read ty enc dec zero unc bound t sched = sparse_read ty enc dec zero unc bound t sched.
Proof.
  intros T So. unfold f_sparse_read. pose proof (sparse_read_early ty enc dec zero unc bound t sched T) as E.
  destruct (sparse_sized ty t) as [[e|]| |] eqn:Es; cbn [bind]; auto.
  destruct (map_extents_dec e) as [[_ ->]|[N _]]; [reflexivity|]. elim N. apply So, (sparse_sized_some _ _ _ T Es).
Qed.

(** Dense. *)
Lemma dense_sized_rec ty t : tidy t ->
  match dense_sized ty t with
  | Ok (Some e) => rec_extents t = Some e /\ exists w, dense_header t ty w
  | Ok None => (forall V enc dec (zero : V), dense_read ty enc dec zero t = Ok None) /\ forall w, ~ dense_header t ty w
  | Exn => (forall V enc dec (zero : V), dense_read ty enc dec zero t = Exn) /\ forall w, ~ dense_header t ty w
  | UB => False
  end.
Proof.
  intros T. unfold dense_sized, dense_read, dense_header, rec_extents, rec_box.
  rewrite !need_attr_rec by (auto; try ns; discriminate).
  destruct (rec_attr t "version" TInt32) as [ver|]; cbn [bind]; [|split; auto; intros w ((v & A & _) & _); easy].
  destruct (Z.eqb_spec (dec_i32 ver) 1) as [EV|EV]; cbn [negb];
    [|split; auto; intros w ((v & A & B) & _); injection A as <-; easy].
  destruct (rec_attr t "extents_min" TVecI32) as [emin|]; cbn [bind]; [|split; auto; intros w (_ & A & _); easy].
  destruct (rec_attr t "extents_max" TVecI32) as [emax|]; cbn [bind]; [|split; auto; intros w (_ & A & _); easy].
  destruct (rec_attr t "data_window_min" TVecI32) as [dmin|]; cbn [bind]; [|split; auto; intros w (_ & _ & A & _); easy].
  destruct (rec_attr t "data_window_max" TVecI32) as [dmax|]; cbn [bind]; [|split; auto; intros w (_ & _ & A & _); easy].
  destruct (rec_attr t "components" TInt32) as [comp|]; cbn [bind]; [|split; auto; intros w (_ & _ & _ & A & _); easy].
  destruct (data_rec t "data" 2 ty T ltac:(ns) ltac:(auto)) as [(z & Ez & Bz) _].
  change G_DATASET with 2. rewrite Ez. cbn [bind]. rewrite Bz.
  destruct (rec_data t 2 "data" ty) as [l|]; cbn [negb]; [|split; auto; intros w (_ & _ & _ & _ & A); easy].
  split; auto. eexists. repeat split; try discriminate. eauto.
Qed.
Lemma f_dense_ub {V} ty enc dec (zero : V) (S : storable ty enc dec) t : tidy t ->
  (f_dense_read ty enc dec zero t = UB <-> dense_unsound t ty).
Proof.
  intros T. unfold f_dense_read, dense_unsound. pose proof (dense_sized_rec ty t T) as D.
  pose proof (dense_read_ub ty enc dec zero S t T) as R.
  destruct (dense_sized ty t) as [[e|]| |]; cbn [bind]; try easy.
  - destruct D as [E (w & W)]. destruct (map_extents_dec e) as [[Z ->]|[Z ->]]; cbn [bind].
    + rewrite R. split.
      * intros (w' & H & Q). exists w'. split; auto.
      * intros (w' & H & [(e' & E' & Z')|Q]); [|now exists w']. rewrite E in E'. injection E' as <-. easy.
    + split; auto. intros _. exists w. split; auto. left. now exists e.
  - destruct D as [_ D]. split; [easy|]. intros (w & W & _). elim (D w W).
  - destruct D as [_ D]. split; [easy|]. intros (w & W & _). elim (D w W).
Qed.
Lemma f_dense_same {V} ty enc dec (zero : V) t : tidy t -> (forall e, rec_extents t = Some e -> sized e) ->
  f_dense_read ty enc dec zero t = dense_read ty enc dec zero t.
Proof.
  intros T So. unfold f_dense_read. pose proof (dense_sized_rec ty t T) as D.
  destruct (dense_sized ty t) as [[e|]| |]; cbn [bind]; try easy.
  destruct D as [E _]. destruct (map_extents_dec e) as [[_ ->]|[N _]]; [reflexivity|]. elim N. auto.
Qed.

(** * MIP *)
Section Levels.
Variable m : tree.
Hypothesis Tm : tidy m.
Definition lev (i : nat) : option (box * box) :=
  match found 0 (level_name i) m with
  | Some g => match rec_extents g, rec_box g "data_window_min" "data_window_max" with Some e, Some d => Some (e, d) | _, _ => None end
  | None => None
  end.
Lemma f_read_proxies_step i n : f_read_proxies m i (S n) =
  match lev i with
  | None => Exn
  | Some (e, d) => let* _ := map_extents e in let* r := f_read_proxies m (S i) n in Ok ((e, d) :: r)
  end.
Proof.
  cbn [f_read_proxies]. rewrite sub_group_valid, find_valid_found by (auto; apply level_no_slash). cbn [bind]. unfold lev.
  destruct (found 0 (level_name i) m) as [g|] eqn:Eg; [|reflexivity].
  assert (Tg : tidy g) by (destruct (found_ok _ _ _ _ Tm Eg) as (_ & _ & K); auto).
  rewrite !need_attr_rec by (auto; try ns; discriminate). unfold rec_extents, rec_box.
  destruct (rec_attr g "extents_min" TVecI32); cbn [bind]; [|reflexivity].
  destruct (rec_attr g "extents_max" TVecI32); cbn [bind]; [|reflexivity].
  destruct (rec_attr g "data_window_min" TVecI32); cbn [bind]; [|reflexivity].
  destruct (rec_attr g "data_window_max" TVecI32); cbn [bind]; reflexivity.
Qed.
Lemma f_read_proxies_ok n : forall i l, f_read_proxies m i n = Ok l <->
  List.length l = n /\ forall j x, nth_error l j = Some x -> lev (i + j) = Some x /\ sized (fst x).
Proof.
  induction n as [|n IH]; intros i l.
  - cbn [f_read_proxies]. split.
    + intros [= <-]. split; auto. intros [|j] x H; discriminate H.
    + intros [L _]. destruct l; [reflexivity|discriminate L].
  - rewrite f_read_proxies_step. split.
    + destruct (lev i) as [[e d]|] eqn:E; [|easy]. destruct (map_extents_dec e) as [[Z ->]|[Z ->]]; cbn [bind]; [|easy].
      destruct (f_read_proxies m (S i) n) as [r| |] eqn:Er; cbn [bind]; try easy. intros [= <-].
      destruct (proj1 (IH (S i) r) Er) as [L H]. split; [cbn; now rewrite L|].
      intros [|j] x X; cbn in X; [injection X as <-; rewrite Nat.add_0_r; auto|]. rewrite <- plus_n_Sm. exact (H j x X).
    + intros [L H]. destruct l as [|[e d] l]; [discriminate L|]. injection L as L.
      destruct (H 0%nat _ eq_refl) as [E Z]. rewrite Nat.add_0_r in E. rewrite E. cbn [fst] in Z.
      destruct (map_extents_dec e) as [[_ ->]|[N _]]; [|easy]. cbn [bind].
      rewrite (proj2 (IH (S i) l)); [reflexivity|]. split; auto. intros j x X. rewrite Nat.add_succ_comm. now apply (H (S j)).
Qed.
Lemma f_read_proxies_ub n : forall i, f_read_proxies m i n = UB <->
  exists k e d, (k < n)%nat /\ (forall j, (j < k)%nat -> lev (i + j) <> None) /\ lev (i + k) = Some (e, d) /\ ~ sized e.
Proof.
  induction n as [|n IH]; intros i.
  - cbn. split; [easy|]. intros (k & e & d & K & _). lia.
  - rewrite f_read_proxies_step. destruct (lev i) as [[e d]|] eqn:E.
    + destruct (map_extents_dec e) as [[Z ->]|[Z ->]]; cbn [bind].
      * assert (U : (let* r := f_read_proxies m (S i) n in Ok ((e, d) :: r)) = UB <-> f_read_proxies m (S i) n = UB)
          by (destruct (f_read_proxies m (S i) n); easy).
        rewrite U, IH. split.
        -- intros (k & e' & d' & K & A & B & C). exists (S k), e', d'. split; [lia|]. split; [|split; [now rewrite <- plus_n_Sm|exact C]].
           intros [|j] J; [rewrite Nat.add_0_r, E; discriminate|]. rewrite <- plus_n_Sm. apply (A j). lia.
        -- intros ([|k] & e' & d' & K & A & B & C).
           ++ rewrite Nat.add_0_r, E in B. injection B as <- <-. easy.
           ++ exists k, e', d'. split; [lia|]. split; [|split; [now rewrite Nat.add_succ_comm|exact C]].
              intros j J. rewrite Nat.add_succ_comm. apply A. lia.
      * split; auto. intros _. exists 0%nat, e, d. split; [lia|]. split; [lia|]. rewrite Nat.add_0_r. auto.
    + split; [easy|]. intros ([|k] & e' & d' & K & A & B & _).
      * rewrite Nat.add_0_r, E in B. discriminate.
      * elim (A 0%nat ltac:(lia)). now rewrite Nat.add_0_r.
Qed.
End Levels.

(** Sizes that decrease. *)
Lemma extent_size f b : In f [vx; vy; vz] -> extent f b = f (box_size b).
Proof.
  unfold extent, box_size, box_empty. intros I. destruct (_ || _); destruct I as [<-|[<-|[<-|[]]]]; reflexivity.
Qed.
Lemma smaller_sizes b a : smaller b a <->
  let s := box_size b in let p := box_size a in
  (vx s <= vx p /\ vy s <= vy p /\ vz s <= vz p) /\ (vx s < vx p \/ vy s < vy p \/ vz s < vz p).
Proof.
  unfold smaller. cbv zeta. split.
  - intros [A (f & I & B)]. pose proof (A vx ltac:(cbn; auto)) as A1. pose proof (A vy ltac:(cbn; auto)) as A2. pose proof (A vz ltac:(cbn; auto)) as A3.
    rewrite !extent_size in * by (cbn; auto). split; auto. destruct I as [<-|[<-|[<-|[]]]]; auto.
  - intros [(A1 & A2 & A3) B]. split.
    + intros f I. rewrite !extent_size by auto. destruct I as [<-|[<-|[<-|[]]]]; auto.
    + destruct B as [B|[B|B]]; [exists vx|exists vy|exists vz]; (split; [cbn; auto|]); rewrite !extent_size by (cbn; auto); exact B.
Qed.
Lemma sane_smaller l : sane l = true <-> l <> [] /\
  forall i a b, nth_error l i = Some a -> nth_error l (S i) = Some b -> smaller b a.
Proof.
  destruct l as [|a0 l]; [split; easy|]. cbn [sane]. split.
  - intros H. split; [discriminate|]. revert a0 H. induction l as [|b0 l IH]; intros a0 H i a b A B.
    + destruct i; discriminate B.
    + cbn [shrinking] in H. destruct (_ || _) eqn:E1; [easy|]. destruct (_ && _) eqn:E2; [easy|]. destruct i as [|i].
      * injection A as <-. injection B as <-. apply smaller_sizes. cbv zeta. lia.
      * exact (IH b0 H i a b A B).
  - intros [_ H]. revert a0 H. induction l as [|b0 l IH]; intros a0 H; [reflexivity|]. cbn [shrinking].
    pose proof (H 0%nat a0 b0 eq_refl eq_refl) as Q. apply smaller_sizes in Q. cbv zeta in Q.
    replace (_ || _) with false by lia. replace (_ && _) with false by lia.
    apply IH. intros i a b A B. exact (H (S i) a b A B).
Qed.

Definition base_name (k : base_kind) : list Z := match k with BDense => str "DenseField" | BSparse => str "SparseField" end.
Section Mip.
Variable ty : ogtype.
Variable t : tree.
Hypothesis T : tidy t.
(** Reading, in terms of what is recorded. *)
Lemma f_mip_eq : f_mip_read ty t =
  match rec_attr t "version" TInt32 with
  | None => Exn
  | Some v =>
      if negb (dec_i32 v =? 1) then Exn else
      match rec_attr t "components" TUint8, rec_string t "base_type" with
      | Some _, Some b =>
          if negb (match rec_data t 2 "dummy_data" ty with Some _ => true | None => false end) || negb (mip_type ty) then Ok None else
          match (if bytes_eqb b (str "SparseField") then Some BSparse else if bytes_eqb b (str "DenseField") then Some BDense else None) with
          | None => Ok None
          | Some k =>
              match found 0 (str "mip_levels") t with
              | None => Exn
              | Some m =>
                  match rec_levels t with
                  | None => Exn
                  | Some n =>
                      let* l := f_read_proxies m 0 n in
                      if negb (sane (map fst l)) then Exn else
                      match l with [] => Exn | (e, d) :: _ => Ok (Some (MipProxy k e d l)) end
                  end
              end
          end
      | _, _ => Exn
      end
  end.
Proof.
  unfold f_mip_read. rewrite need_string_rec by (auto; ns). rewrite !need_attr_rec by (auto; try ns; discriminate).
  destruct (rec_attr t "version" TInt32) as [v|]; cbn [bind]; [|reflexivity].
  destruct (negb (dec_i32 v =? 1)); [reflexivity|].
  destruct (rec_attr t "components" TUint8); cbn [bind]; [|reflexivity].
  destruct (rec_string t "base_type") as [b|]; cbn [bind]; [|reflexivity].
  destruct (data_rec t "dummy_data" 2 ty T ltac:(ns) ltac:(auto)) as [(z & Ez & Bz) _].
  change G_DATASET with 2. rewrite Ez. cbn [bind]. rewrite Bz.
  destruct (_ || _); [reflexivity|]. cbn [class_of].
  destruct (if bytes_eqb b (str "SparseField") then _ else _) as [k|]; [|reflexivity].
  rewrite sub_group_valid, find_valid_found by (auto; ns). cbn [bind]. unfold rec_levels.
  destruct (found 0 (str "mip_levels") t) as [m|] eqn:Em; [|reflexivity].
  assert (Tm : tidy m) by (destruct (found_ok _ _ _ _ T Em) as (_ & _ & K); auto).
  rewrite need_attr_rec by (auto; try ns; discriminate).
  destruct (rec_attr m "levels" TUint32); reflexivity.
Qed.
Lemma mip_type_in : mip_type ty = true <-> In ty [TFloat16; TFloat32; TFloat64; TVec16; TVec32; TVec64].
Proof. destruct ty; cbn; intuition discriminate. Qed.
Lemma rec_level_lev m i : found 0 (str "mip_levels") t = Some m -> rec_level t i = lev m i.
Proof. intros E. unfold rec_level. now rewrite E. Qed.
Lemma header_dec : mip_header t ty /\ rec_string t "base_type" <> None \/
  ~ (mip_header t ty /\ rec_string t "base_type" <> None) /\ (f_mip_read ty t = Exn \/ f_mip_read ty t = Ok None).
Proof.
  rewrite f_mip_eq. unfold mip_header.
  destruct (rec_attr t "version" TInt32) as [v|]; [|right; split; auto; intros (((v & A & _) & _) & _); easy].
  destruct (Z.eqb_spec (dec_i32 v) 1) as [E|E]; cbn [negb]; [|right; split; auto; intros (((v' & A & B) & _) & _); injection A as <-; easy].
  destruct (rec_attr t "components" TUint8); [|right; split; auto; intros ((_ & A & _) & _); easy].
  destruct (rec_string t "base_type") as [b|]; [|right; split; auto; intros (_ & A); easy].
  destruct (rec_data t 2 "dummy_data" ty); cbn [negb orb]; [|right; split; auto; intros ((_ & _ & A & _) & _); easy].
  pose proof mip_type_in as M. destruct (mip_type ty); cbn [negb]; [left|right].
  - repeat split; try discriminate; eauto. now apply M.
  - split; auto. intros ((_ & _ & _ & A) & _). apply M in A. discriminate.
Qed.
Lemma f_mip_head k : mip_header t ty -> rec_string t "base_type" = Some (base_name k) -> f_mip_read ty t =
  match found 0 (str "mip_levels") t with
  | None => Exn
  | Some m =>
      match rec_levels t with
      | None => Exn
      | Some n =>
          let* l := f_read_proxies m 0 n in
          if negb (sane (map fst l)) then Exn else
          match l with [] => Exn | (e, d) :: _ => Ok (Some (MipProxy k e d l)) end
      end
  end.
Proof.
  intros ((v & Ev & V1) & C & D & M) B. rewrite f_mip_eq, Ev, V1, B. cbn [Z.eqb Pos.eqb negb].
  destruct (rec_attr t "components" TUint8); [|easy]. destruct (rec_data t 2 "dummy_data" ty); [|easy].
  rewrite (proj2 mip_type_in M). cbn [negb orb].
  replace (if bytes_eqb (base_name k) (str "SparseField") then _ else _) with (Some k) by (destruct k; reflexivity). reflexivity.
Qed.
Lemma not_base b : rec_string t "base_type" = Some b -> (forall k, b <> base_name k) -> f_mip_read ty t = Exn \/ f_mip_read ty t = Ok None.
Proof.
  intros B N. rewrite f_mip_eq, B. destruct (rec_attr t "version" TInt32); [|auto]. destruct (negb _); [auto|].
  destruct (rec_attr t "components" TUint8); [|auto]. destruct (_ || _); [auto|].
  destruct (bytes_eqb_spec b (str "SparseField")) as [->|_]; [elim (N BSparse); reflexivity|].
  destruct (bytes_eqb_spec b (str "DenseField")) as [->|_]; [elim (N BDense); reflexivity|auto].
Qed.
Lemma base_dec : (exists k, rec_string t "base_type" = Some (base_name k)) \/ ~ (exists k, rec_string t "base_type" = Some (base_name k)).
Proof.
  destruct (rec_string t "base_type") as [b|]; [|right; intros (k & E); discriminate].
  destruct (bytes_eqb_spec b (base_name BDense)) as [->|A]; [left; now exists BDense|].
  destruct (bytes_eqb_spec b (base_name BSparse)) as [->|B]; [left; now exists BSparse|].
  right. intros (k & [= E]). destruct k; easy.
Qed.
Lemma f_mip_cases : (exists k, mip_header t ty /\ rec_string t "base_type" = Some (base_name k)) \/
  ~ (exists k, mip_header t ty /\ rec_string t "base_type" = Some (base_name k)) /\ (f_mip_read ty t = Exn \/ f_mip_read ty t = Ok None).
Proof.
  destruct header_dec as [[H B]|[N R]].
  - destruct base_dec as [(k & K)|K]; [left; eauto|]. right. split; [intros (k & _ & E); apply K; eauto|].
    destruct (rec_string t "base_type") as [b|] eqn:E; [|easy]. apply (not_base b E). intros k ->. apply K. eauto.
  - right. split; auto. intros (k & H & E). apply N. split; auto. rewrite E. discriminate.
Qed.
Lemma f_mip_ub : f_mip_read ty t = UB <-> mip_unsound t ty.
Proof.
  unfold mip_unsound, is_base. destruct f_mip_cases as [(k & H & B)|[N R]].
  - rewrite (f_mip_head k H B). split.
    + destruct (found 0 (str "mip_levels") t) as [m|] eqn:Em; [|easy].
      assert (Tm : tidy m) by (destruct (found_ok _ _ _ _ T Em) as (_ & _ & K); auto).
      destruct (rec_levels t) as [n|]; [|easy]. destruct (f_read_proxies m 0 n) as [l| |] eqn:El; cbn [bind]; try easy.
      * destruct (negb _); [easy|]. destruct l as [|[e d] l]; easy.
      * intros _. apply (f_read_proxies_ub m Tm) in El. destruct El as (i & e & d & I & A & L & S).
        split; auto. split; [destruct k; auto|]. exists n, i, e, d. split; auto. split; auto.
        split; [intros j J; rewrite (rec_level_lev m j Em); now apply A|]. split; auto. now rewrite (rec_level_lev m i Em).
    + intros (_ & _ & n & i & e & d & En & I & A & L & S). pose proof En as En'. unfold rec_levels in En'.
      destruct (found 0 (str "mip_levels") t) as [m|] eqn:Em; [|easy]. rewrite En.
      assert (Tm : tidy m) by (destruct (found_ok _ _ _ _ T Em) as (_ & _ & K); auto).
      rewrite (proj2 (f_read_proxies_ub m Tm n 0)); [reflexivity|]. exists i, e, d. split; auto.
      split; [intros j J; cbn [Nat.add]; rewrite <- (rec_level_lev m j Em); auto|]. split; auto. cbn [Nat.add]. now rewrite <- (rec_level_lev m i Em).
  - split; [destruct R as [->| ->]; easy|]. intros (H & [B|B] & _); elim N; [exists BDense|exists BSparse]; auto.
Qed.
Lemma f_mip_ok p : f_mip_read ty t = Ok (Some p) <->
  mip_header t ty /\ rec_string t "base_type" = Some (base_name (mp_kind p)) /\ rec_levels t = Some (List.length (mp_levels p)) /\
  (forall i x, nth_error (mp_levels p) i = Some x -> rec_level t i = Some x /\ sized (fst x)) /\
  nth_error (mp_levels p) 0 = Some (mp_ext p, mp_dw p) /\
  (forall i a b, nth_error (mp_levels p) i = Some a -> nth_error (mp_levels p) (S i) = Some b -> smaller (fst b) (fst a)).
Proof.
  destruct f_mip_cases as [(k & H & B)|[N R]].
  - rewrite (f_mip_head k H B). split.
    + destruct (found 0 (str "mip_levels") t) as [m|] eqn:Em; [|easy].
      assert (Tm : tidy m) by (destruct (found_ok _ _ _ _ T Em) as (_ & _ & K); auto).
      destruct (rec_levels t) as [n|] eqn:En; [|easy]. destruct (f_read_proxies m 0 n) as [l| |] eqn:El; cbn [bind]; try easy.
      apply (f_read_proxies_ok m Tm) in El. destruct El as [L A].
      destruct (sane (map fst l)) eqn:S; cbn [negb]; [|easy]. destruct l as [|[e d] l]; [easy|]. intros [= <-].
      cbn [mp_kind mp_ext mp_dw mp_levels]. split; auto. split; auto. split; [now rewrite L|].
      split; [intros i x X; rewrite (rec_level_lev m i Em); exact (A i x X)|]. split; [reflexivity|].
      apply sane_smaller in S. destruct S as [_ S]. intros i a b Ea Eb. apply (S i); rewrite nth_error_map; [now rewrite Ea|now rewrite Eb].
    + destruct p as [k' e d l]. cbn [mp_kind mp_ext mp_dw mp_levels]. intros (_ & B' & En & A & Hd & S).
      rewrite B in B'. assert (k' = k) as -> by (destruct k, k'; auto; discriminate B').
      pose proof En as En'. unfold rec_levels in En'. destruct (found 0 (str "mip_levels") t) as [m|] eqn:Em; [|easy]. rewrite En.
      assert (Tm : tidy m) by (destruct (found_ok _ _ _ _ T Em) as (_ & _ & K); auto).
      rewrite (proj2 (f_read_proxies_ok m Tm (List.length l) 0 l)).
      2:{ split; auto. intros j x X. cbn [Nat.add]. rewrite <- (rec_level_lev m j Em). auto. }
      cbn [bind]. assert (Q : sane (map fst l) = true).
      { apply sane_smaller. split; [destruct l; [discriminate Hd|discriminate]|]. intros i a b Ea Eb. rewrite nth_error_map in Ea, Eb.
        destruct (nth_error l i) as [a'|] eqn:Ea'; [|discriminate]. destruct (nth_error l (Datatypes.S i)) as [b'|] eqn:Eb'; [|discriminate].
        injection Ea as <-. injection Eb as <-. exact (S i a' b' Ea' Eb'). }
      rewrite Q. cbn [negb]. destruct l as [|[e' d'] l]; [discriminate Hd|]. injection Hd as -> ->. reflexivity.
  - split; [destruct R as [->| ->]; easy|]. intros (H & B & _). elim N. eauto.
Qed.
End Mip.

(** Unless a size is too large, this is [mip_read]. *)
Lemma f_read_proxies_same m n : forall i, f_read_proxies m i n <> UB -> f_read_proxies m i n = read_proxies m i n.
Proof.
  induction n as [|n IH]; intros i; [reflexivity|]. cbn [f_read_proxies read_proxies].
  destruct (sub_group m (level_name i)) as [[g|]| |]; cbn [bind]; [|reflexivity|reflexivity|reflexivity].
  do 4 (destruct (need_attr g _ TVecI32); cbn [bind]; [|reflexivity|reflexivity]).
  match goal with |- context [map_extents ?e] => destruct (map_extents_dec e) as [[_ ->]|[_ ->]] end; cbn [bind]; [|easy].
  intros H. rewrite IH; [reflexivity|]. intros E. now rewrite E in H.
Qed.
Lemma f_mip_same ty t : f_mip_read ty t <> UB -> f_mip_read ty t = mip_read ty t.
Proof.
  unfold f_mip_read, mip_read.
  destruct (need_attr t (str "version") TInt32) as [v| |]; cbn [bind]; [|reflexivity|reflexivity].
  destruct (negb (dec_i32 v =? 1)); [reflexivity|].
  destruct (need_attr t (str "components") TUint8) as [c| |]; cbn [bind]; [|reflexivity|reflexivity].
  destruct (need_attr t (str "base_type") TString) as [b| |]; cbn [bind]; [|reflexivity|reflexivity].
  destruct (dataset_type t (str "dummy_data") G_DATASET) as [z| |]; cbn [bind]; [|reflexivity|reflexivity].
  destruct (negb (type_code ty =? z) || negb (mip_type ty)); [reflexivity|].
  match goal with |- context [match ?x with Some k => _ | None => Ok None end] => destruct x as [k|] end; [|reflexivity].
  destruct (sub_group t (str "mip_levels")) as [[m|]| |]; cbn [bind]; [|reflexivity|reflexivity|reflexivity].
  destruct (need_attr m (str "levels") TUint32) as [n| |]; cbn [bind]; [|reflexivity|reflexivity].
  pose proof (f_read_proxies_same m (Z.to_nat (dec_i32 n)) 0) as P.
  destruct (f_read_proxies m 0 (Z.to_nat (dec_i32 n))) as [l| |]; [| |intros H; elim H; reflexivity]; intros _;
    (rewrite <- P; [reflexivity|discriminate]).
Qed.

Lemma find_valid_path t a b : tidy t -> plain a ->
  find_valid t (a ++ 47 :: b) = match found 0 a t with None => Ok None | Some g => find_valid g b end.
Proof.
  intros T P. unfold find_valid, find_group.
  assert (S : forall cur, split_path cur (a ++ 47 :: b) = (cur ++ a) :: split_path [] b).
  { clear -P. induction a as [|c a IH]; intros cur; cbn; [now rewrite app_nil_r|].
    destruct (Z.eqb_spec c 47) as [->|_]; [elim P; now left|]. rewrite IH; [now rewrite <- app_assoc|]. intros I; apply P; now right. }
  rewrite S. cbn [app]. destruct (split_path [] b) as [|n rest] eqn:E.
  { exfalso. revert E. generalize (@nil Z). clear. induction b as [|c b IH]; intros cur; [easy|]. cbn. destruct (c =? 47); [easy|apply IH]. }
  change (find_comps t (a :: n :: rest) G_GROUP) with
    (let* g := find_loop a G_GROUP (skipn 2 (t_kids t)) in
     match g with None => Ok None | Some g => if validate g then find_comps g (n :: rest) G_GROUP else UB end).
  rewrite t_kids_kids, find_loop_spec by now apply entry_ok_kids. cbn [bind]. change (find _ _) with (found 0 a t).
  destruct (found 0 a t) as [g|] eqn:Eg; [|reflexivity]. rewrite (result_valid _ _ (found_ok _ _ _ _ T Eg)). reflexivity.
Qed.
Lemma level_found t part layer i g lg m : tidy t -> plain part -> plain layer ->
  found 0 part t = Some g -> found 0 layer g = Some lg -> found 0 (str "mip_levels") lg = Some m ->
  find_valid t (level_path (part ++ 47 :: layer) i) = Ok (found 0 (level_name i) m).
Proof.
  intros T P1 P2 Eg El Em.
  assert (Tg : tidy g) by (destruct (found_ok _ _ _ _ T Eg) as (_ & _ & K); auto).
  assert (Tl : tidy lg) by (destruct (found_ok _ _ _ _ Tg El) as (_ & _ & K); auto).
  assert (Tm : tidy m) by (destruct (found_ok _ _ _ _ Tl Em) as (_ & _ & K); auto).
  unfold level_path. rewrite <- app_assoc. cbn [app]. rewrite find_valid_path, Eg, find_valid_path, El by auto.
  replace (str "mip_levels" ++ 47 :: level_name i) with (str "mip_levels" ++ (47 :: level_name i)) by reflexivity.
  rewrite find_valid_path, Em by (auto; ns). apply find_valid_found; auto. apply level_no_slash.
Qed.
