(** C54: MIP fields in files. *)
From Coq Require Import ZArith List Bool String Lia.
From Verif Require Import Model.Base Model.FieldM Model.DenseM Model.SparseM Spec.VoxelSpec Spec.DenseSpec Spec.SparseSpec
  Proof.BaseP Proof.FieldP Proof.DenseP Proof.SparseP Proof.SparseP4
  Model.OgawaM Spec.OgawaSpec Model.OgM Spec.OgSpec Proof.OgP Model.BlockIOM Spec.BlockIOSpec
  Props.BlockIOProps Model.FieldIOM Spec.FieldIOSpec Proof.FieldIOP Proof.FieldIOP2 Props.FieldIOProps
  Model.FileM Model.MipIOM Spec.MipIOSpec Proof.MipIOP.
Import ListNotations.
Open Scope Z_scope.

(** What [setup] accepts: at least one level, each smaller than the previous one.  The MIP
    field then has the extents and the data window of the first level. *)
Theorem C54_setup : forall F (ext dw : F -> box) l m0,
  (forall m, mip_setup ext dw l m0 = Ok m ->
     levels_ok (map ext l) /\ mi_levels m = l /\ mi_num m = List.length l /\
     exists f, nth_error l 0 = Some f /\ mi_ext m = ext f /\ mi_dw m = dw f) /\
  (levels_ok (map ext l) -> exists m, mip_setup ext dw l m0 = Ok m) /\
  (~ levels_ok (map ext l) -> mip_setup ext dw l m0 = Exn).
Proof.
  intros F ext dw l m0. unfold mip_setup. pose proof (sane_ok (map ext l)) as S. destruct (sane (map ext l)).
  - destruct l as [|f l]; [exfalso; now apply S|]. split; [|split].
    + intros m E. injection E as <-. split; [now apply S|]. repeat split. exists f. repeat split.
    + eauto.
    + intros H. exfalso. apply H. now apply S.
  - split; [discriminate|]. split; auto. intros H. apply S in H. discriminate.
Qed.
Print Assumptions C54_setup.

(** The value types the reader of MIP fields knows. *)
Definition mip_types : list ogtype := [TFloat16; TFloat32; TFloat64; TVec16; TVec32; TVec64].
Lemma mip_types_ok ty : In ty mip_types -> mip_type ty = true.
Proof. unfold mip_types. cbn. intros H. decompose [or] H; subst; auto; contradiction. Qed.

Lemma nth_forall {A} (P : A -> Prop) l i x : Forall P l -> nth_error l i = Some x -> P x.
Proof. intros F E. apply nth_error_In in E. now apply (proj1 (Forall_forall _ _) F). Qed.

(** Any MIP field of dense levels that [setup] accepts, written as a layer among anything
    else: the file gives back the kind of the field, its extents, its data window, the
    number of levels and the extents and window of each; and loading any level through
    the path kept for it gives exactly that level, with all its values. *)
Theorem C54_dense_round_trip : forall V ty enc dec (zero : V) dims bits l m0 m g pre post rn part rpre ppre ppost rpost,
  storable ty enc dec -> In ty mip_types ->
  Forall (fun f => dense_reached zero f /\ box_nonempty (d_dw f) /\ int_corners (d_ext f)) l ->
  Z.of_nat (List.length l) < 2 ^ 31 ->
  mip_setup d_ext d_dw l m0 = Ok m ->
  entries_ok pre -> unrelated_mip pre -> entries_ok post ->
  plain_name part -> plain_name g -> fresh_group part rpre -> fresh_group g ppre ->
  exists layer, mip_layer BDense (fun _ => dense_layer ty enc dims bits) ty dims bits m = Ok layer /\
    let t := layer_group g pre layer post in
    mip_read ty t = Ok (Some (MipProxy BDense (mi_ext m) (mi_dw m) (map (fun f => (d_ext f, d_dw f)) l))) /\
    (forall ty', ty' <> ty -> mip_read ty' t = Ok None) /\
    (forall i f, nth_error l i = Some f ->
       load_level (dense_read ty enc dec zero) (file_with rn part rpre ppre t ppost rpost) (part ++ [47] ++ g) i = Ok f).
Proof.
  intros V ty enc dec zero dims bits l m0 m g pre post rn part rpre ppre ppost rpost st T FL SM MS P U Q NP NG FR FP.
  assert (SH : forall i f, nth_error l i = Some f -> shape f /\ box_nonempty (d_dw f) /\ int_corners (d_ext f)).
  { intros i f E. destruct (nth_forall _ _ _ _ FL E) as ((ops & L & R) & N & IE). split; auto.
    destruct (refines_run zero ops _ _ (refines_init zero) L) as (f' & R' & [S _ _ _]). rewrite R in R'. now injection R' as <-. }
  set (core := fun (_ : nat) f => dense_core ty enc dims bits f).
  assert (ST : forall i f, nth_error l i = Some f -> level_stored d_ext d_dw (fun _ => dense_layer ty enc dims bits) core i f).
  { intros i f E. destruct (SH i f E) as (S & N & IE). constructor; try reflexivity; auto.
    - eapply dense_layer_eq; eauto.
    - apply entries_all; reflexivity.
    - eapply window_corners; eauto. }
  destruct (C54_setup _ d_ext d_dw l m0) as (MS1 & _). destruct (MS1 m MS) as (LO & ML & MN & f0 & E0 & ME & MD).
  assert (M : m = MipField (mi_ext m) (mi_dw m) (List.length l) l) by (destruct m; cbn in *; congruence).
  exists (map written (mip_core BDense ty dims bits core (mi_ext m) (mi_dw m) l)). split.
  { rewrite M at 1. apply (mip_layer_eq d_ext d_dw); auto. }
  intros t. split; [|split].
  - unfold t. erewrite (mip_head d_ext d_dw BDense) by eauto. rewrite Z.eqb_refl, (mip_types_ok ty T). cbn [negb orb].
    apply sane_ok in LO. rewrite LO. cbn [negb]. destruct l as [|f1 l]; [discriminate|]. injection E0 as ->. rewrite ME, MD. reflexivity.
  - intros ty' NT. unfold t. erewrite (mip_head d_ext d_dw BDense) by eauto.
    replace (type_code ty' =? type_code ty) with false; auto. symmetry. apply Z.eqb_neq. intros E. apply NT. now apply type_code_inj.
  - intros i f E. unfold load_level, t. rewrite (load_group BDense ty dims bits core l g pre post _ _ P U) with (f := f) by auto.
    cbn [bind]. destruct (SH i f E) as (S & N & IE).
    pose proof (dense_read_eq ty enc dec zero dims bits st f (level_name i) [] [] S N IE) as R. cbn [map app] in R. rewrite app_nil_r in R.
    unfold core. rewrite R; [reflexivity|split; [constructor|intros ? ? ? []]|constructor|split; [constructor|intros ? ? ? []]].
Qed.
Print Assumptions C54_dense_round_trip.

(** The writing threads of a level: one, or no unallocated block between allocated ones
    (see [C21_gap_refuted]), and they all finish. *)
Definition writers_done {V} (f : sparse V) (reload : bool) (T : nat) (sched : list nat) : Prop :=
  let n := List.length (s_blocks f) in
  (no_gap n (alloc_of f) \/ T = 1%nat) /\ (0 < T)%nat /\ sched_of T sched /\
  forall t, (t < T)%nat -> w_pc (wrun n (alloc_of f) reload (w_init n (alloc_of f)) sched) t = WDone.

(** The same for sparse levels, for every schedule of the threads that write each level and
    of the threads that read it. *)
Theorem C54_sparse_round_trip : forall V ty enc dec (zero : V) eqb dims bits compress uncompress bound l reload T sched m0 m
    g pre post rn part rpre ppre ppost rpost,
  storable ty enc dec -> lossless compress uncompress bound -> decides_eq eqb -> In ty mip_types ->
  (forall i f, nth_error l i = Some f ->
     sparse_reached zero eqb f /\ window_ok (s_dw f) 4 /\ int_corners (s_ext f) /\ writers_done f (reload i) (T i) (sched i)) ->
  Z.of_nat (List.length l) < 2 ^ 31 ->
  mip_setup s_ext s_dw l m0 = Ok m ->
  entries_ok pre -> unrelated_mip pre -> entries_ok post ->
  plain_name part -> plain_name g -> fresh_group part rpre -> fresh_group g ppre ->
  exists layer, mip_layer BSparse (fun i f => sparse_write_layer ty enc dims bits compress f (reload i) (sched i)) ty dims bits m = Ok layer /\
    let t := layer_group g pre layer post in
    mip_read ty t = Ok (Some (MipProxy BSparse (mi_ext m) (mi_dw m) (map (fun f => (s_ext f, s_dw f)) l))) /\
    (forall ty', ty' <> ty -> mip_read ty' t = Ok None) /\
    (forall i f, nth_error l i = Some f ->
       exists layer_i, sparse_write_layer ty enc dims bits compress f (reload i) (sched i) = Ok layer_i /\
         forall T' sched', (0 < T')%nat -> sched_of T' sched' ->
         exists pc, read_threads ty enc dec zero (node_group (level_name i) layer_i) sched' = Ok pc /\
           ((forall k, (k < T')%nat -> pc k = RDone) ->
              load_level (fun t => sparse_read ty enc dec zero uncompress bound t sched')
                (file_with rn part rpre ppre t ppost rpost) (part ++ [47] ++ g) i = Ok f)).
Proof.
  intros V ty enc dec zero eqb dims bits compress uncompress bound l reload T sched m0 m g pre post rn part rpre ppre ppost rpost
    st zl De TY FL SM MS P U Q NP NG FR FP.
  set (core := fun (_ : nat) f => sparse_core ty enc dims bits compress f).
  set (wr := fun i f => sparse_write_layer ty enc dims bits compress f (reload i) (sched i)).
  assert (NIL : entries_ok []) by (split; [constructor|intros ? ? ? []]).
  assert (SH : forall i f, nth_error l i = Some f -> sshape f).
  { intros i f E. destruct (FL i f E) as (R & _). eapply reached_shape; eauto. }
  assert (WR : forall i f, nth_error l i = Some f -> wr i f = Ok (map written (core i f))).
  { intros i f E. destruct (FL i f E) as (R & W4 & IE & G & T0 & Sc & D). pose proof (SH i f E) as S.
    unfold wr, sparse_write_layer.
    replace (w_out (wrun (List.length (s_blocks f)) (alloc_of f) (reload i) (w_init (List.length (s_blocks f)) (alloc_of f)) (sched i)))
      with (allocated (List.length (s_blocks f)) (alloc_of f)); [eapply sparse_layer_eq; eauto|].
    symmetry. destruct G as [G|G].
    - destruct (C19_no_gap_order _ (alloc_of f) (reload i) (T i) (sched i) G T0 Sc) as [_ H]. now apply H.
    - rewrite G in Sc, D. assert (sched i = repeat 0%nat (List.length (sched i))) as ES.
      { clear - Sc. induction Sc; cbn; auto. rewrite <- IHSc. f_equal. lia. }
      destruct (C19_one_thread (List.length (s_blocks f)) (alloc_of f) (reload i) (List.length (sched i))) as (_ & _ & H & _).
      rewrite <- ES in H. apply H. apply (D 0%nat). lia. }
  assert (ST : forall i f, nth_error l i = Some f -> level_stored s_ext s_dw wr core i f).
  { intros i f E. destruct (FL i f E) as (R & W4 & IE & _). pose proof (SH i f E) as S. constructor; try reflexivity; auto.
    - apply entries_all; reflexivity.
    - destruct (ss_win _ S) as (C & _).
      assert (forall c, - 2 ^ 30 < c < 2 ^ 30 - 1 -> in_int c = true) as HI by (intros; apply in_int_iff; lia).
      split; split; try split; apply HI, C; cbn; tauto. }
  destruct (C54_setup _ s_ext s_dw l m0) as (MS1 & _). destruct (MS1 m MS) as (LO & ML & MN & f0 & E0 & ME & MD).
  assert (M : m = MipField (mi_ext m) (mi_dw m) (List.length l) l) by (destruct m; cbn in *; congruence).
  exists (map written (mip_core BSparse ty dims bits core (mi_ext m) (mi_dw m) l)). split.
  { rewrite M at 1. apply (mip_layer_eq s_ext s_dw); auto. }
  intros t. split; [|split].
  - unfold t. erewrite (mip_head s_ext s_dw BSparse) by eauto. rewrite Z.eqb_refl, (mip_types_ok ty TY). cbn [negb orb].
    apply sane_ok in LO. rewrite LO. cbn [negb]. destruct l as [|f1 l]; [discriminate|]. injection E0 as ->. rewrite ME, MD. reflexivity.
  - intros ty' NT. unfold t. erewrite (mip_head s_ext s_dw BSparse) by eauto.
    replace (type_code ty' =? type_code ty) with false; auto. symmetry. apply Z.eqb_neq. intros E. apply NT. now apply type_code_inj.
  - intros i f E. exists (map written (core i f)). split; [apply (WR i f E)|]. intros T' sched' T0' Sc'.
    destruct (FL i f E) as (R & W4 & IE & _). pose proof (SH i f E) as S.
    pose proof (read_eq ty enc dec zero dims bits st compress uncompress bound zl f (level_name i) [] [] S IE NIL ltac:(constructor) NIL W4 T' sched' T0' Sc') as RE.
    cbn [map app] in RE. rewrite app_nil_r in RE. destruct RE as (pc & R1 & R2). exists pc. split; [exact R1|]. intros D.
    unfold load_level, t. rewrite (load_group BSparse ty dims bits core l g pre post _ _ P U) with (f := f) by auto.
    cbn [bind]. unfold core. rewrite (R2 D). reflexivity.
Qed.
Print Assumptions C54_sparse_round_trip.

(** Whatever group the reader is given, as long as names are usable (any entries, of any
    types and sizes, in any order, missing or duplicated): it throws, returns null or returns
    a field with levels of decreasing size, and never reads past what is there. *)
Theorem C54_any_group : forall ty g entries,
  names_ok entries -> mip_read ty (written (EGroup g entries)) <> UB.
Proof. intros ty g entries N. apply mip_read_safe; auto. Qed.
Print Assumptions C54_any_group.
(** Nor does loading a level later, from any file with usable names, if the level's reader
    does not. *)
Theorem C54_load_any : forall F (rd : tree -> res (option F)) g entries layer i,
  names_ok entries -> (forall t, rd t <> UB) -> load_level rd (written (EGroup g entries)) layer i <> UB.
Proof. intros F rd g entries layer i N R. now apply load_level_safe. Qed.
Print Assumptions C54_load_any.
Theorem C54_read_sizes : forall ty t p, mip_read ty t = Ok (Some p) ->
  levels_ok (map fst (mp_levels p)) /\ nth_error (mp_levels p) 0 = Some (mp_ext p, mp_dw p).
Proof. intros ty t p H. apply mip_read_sizes in H. exact H. Qed.
Print Assumptions C54_read_sizes.

(** A MIP field that was only constructed says it has one level but has none: writing it is
    undefined behaviour. *)
Theorem C54_new_refuted : forall F kind (wr : nat -> F -> res (list tree)) ty dims bits,
  mip_layer kind wr ty dims bits mip_new = UB.
Proof. reflexivity. Qed.
Print Assumptions C54_new_refuted.

(** A MIP field that was cleared is written without complaint, and the file cannot be read
    back: the reader throws. *)
Theorem C54_cleared_refuted : forall F kind (wr : nat -> F -> res (list tree)) ty dims bits m g,
  In ty mip_types ->
  exists layer, mip_layer kind wr ty dims bits (mip_clear m) = Ok layer /\ mip_read ty (layer_group g [] layer []) = Exn.
Proof.
  intros F kind wr ty dims bits m g T. eexists. split; [reflexivity|].
  assert (NIL : entries_ok []) by (split; [constructor|intros ? ? ? []]).
  pose proof (mip_head (fun _ => mi_ext m) (fun _ => mi_dw m) kind wr ty dims bits (fun _ _ => []) (@nil F)) as H.
  specialize (H ltac:(intros [|i] f E; discriminate) ltac:(cbn; lia) g [] [] (mi_ext m) (mi_dw m) NIL NIL ltac:(constructor) ty).
  rewrite Z.eqb_refl, (mip_types_ok ty T) in H. exact H.
Qed.
Print Assumptions C54_cleared_refuted.

(** Two levels, in a partition after another layer of the same name in another partition. *)
Definition half_enc (v : Z) : bytes := [v; 0].
Lemma half_storable : storable TFloat16 half_enc byte_dec.
Proof. split; [discriminate|]. intros v; split; reflexivity. Qed.
Definition ex_l0 : list (dop Z) := [DSize (Box (V3 0 0 0) (V3 3 1 0)) (Box (V3 0 0 0) (V3 3 1 0)); DClear 7; DWrite (V3 2 1 0) 9].
Definition ex_l1 : list (dop Z) := [DSize (Box (V3 0 0 0) (V3 1 0 0)) (Box (V3 0 0 0) (V3 1 0 0)); DClear 8; DWrite (V3 1 0 0) 5].
Definition get_dense (l : list (dop Z)) : dense Z := match dense_run 0 dense_init l with Ok f => f | _ => dense_init end.
Definition ex_rpre : list entry := [EGroup (str "other.0") [EGroup (str "density") []]].
Example C54_example : let l := [get_dense ex_l0; get_dense ex_l1] in
  storable TFloat16 half_enc byte_dec /\ In TFloat16 mip_types /\
  Forall (fun f => dense_reached 0 f /\ box_nonempty (d_dw f) /\ int_corners (d_ext f)) l /\
  (exists m, mip_setup d_ext d_dw l mip_new = Ok m) /\
  entries_ok ex_pre /\ unrelated_mip ex_pre /\ entries_ok ex_post /\
  plain_name (str "default.0") /\ plain_name (str "density") /\ fresh_group (str "default.0") ex_rpre /\ fresh_group (str "density") [] /\
  dense_value (get_dense ex_l1) (V3 1 0 0) = Ok 5.
Proof.
  split; [apply half_storable|]. split; [cbn; auto|]. split.
  { constructor; [|constructor; [|constructor]].
    - split; [exists ex_l0; split; [|reflexivity]|split; [vm_compute; split; [|split]; discriminate|repeat split]].
      cbn. split; [|split; [auto|split; [|auto]]]; [split; cbn; [|lia]; intros c H; decompose [or] H; subst; lia || contradiction|unfold in_box; cbn; lia].
    - split; [exists ex_l1; split; [|reflexivity]|split; [vm_compute; split; [|split]; discriminate|repeat split]].
      cbn. split; [|split; [auto|split; [|auto]]]; [split; cbn; [|lia]; intros c H; decompose [or] H; subst; lia || contradiction|unfold in_box; cbn; lia]. }
  split; [eexists; reflexivity|].
  split. { split; [repeat constructor; cbn; try discriminate; lia|]. intros n ty v [E|[]]. injection E as <- <- <-. cbn. lia. }
  split. { repeat constructor. cbn. intros H. decompose [or] H; try discriminate. contradiction. }
  split. { split; [repeat constructor; cbn; try discriminate; lia|]. intros n ty v [E|[E|[]]]; [discriminate|]. injection E as <- <- <-. cbn. lia. }
  split; [apply plainb_ok; reflexivity|]. split; [apply plainb_ok; reflexivity|].
  split; [split; [repeat constructor; cbn; try discriminate; lia|intros k [E|[]]; discriminate]|].
  split; [split; [constructor|intros k []]|reflexivity].
Qed.
