(** Properties C01, C02, C03, C09 (dense part) and C10. *)
From Coq Require Import ZArith List Bool Lia ZifyBool Sorting.Sorted.
From Verif Require Import Model.Base Model.FieldM Model.DenseM Spec.VoxelSpec Spec.DenseSpec
  Proof.BaseP Proof.FieldP Proof.DenseP.
Import ListNotations.
Open Scope Z_scope.

(** ** C01 *)

(** After any legal history the field answers every in-window read exactly as the
    plain map does; no operation of the history is undefined behaviour. *)
Theorem C01_dense_refines_map :
  forall (V : Type) (dflt : V) (l : list (dop V)),
  legal dflt (spec_init dflt) l ->
  exists f, dense_run dflt dense_init l = Ok f /\
    d_ext f = a_ext (spec_run dflt (spec_init dflt) l) /\
    d_dw f = a_dw (spec_run dflt (spec_init dflt) l) /\
    forall p, in_box p (d_dw f) ->
      dense_value f p = Ok (a_val (spec_run dflt (spec_init dflt) l) p).
Proof.
  intros V dflt l L.
  destruct (refines_run dflt l _ _ (refines_init dflt) L) as (f & E & [S X W D]).
  exists f. repeat split; auto. intros p B. apply D. congruence.
Qed.
Print Assumptions C01_dense_refines_map.

(** A resize to an empty window throws, and only then. *)
Theorem C01_dense_resize_throws_iff_empty :
  forall (V : Type) (dflt : V) (f : dense V) e dw, int_box dw ->
  exists f' t, dense_set_size dflt e dw f = Ok (f', t) /\ (t = true <-> forall p, ~ in_box p dw).
Proof.
  intros V dflt f e dw I.
  destruct (dense_set_size_ok dflt e dw f I) as (f' & t & E & _ & _ & _ & T & _).
  exists f', t. split; auto. rewrite T. split.
  - intros N p B. apply N. eapply in_box_nonempty; eauto.
  - intros N B. apply (N (bmin dw)). apply in_box_min; auto.
Qed.
Print Assumptions C01_dense_resize_throws_iff_empty.

(** Without the size limit the claim is false: the buffer size of a 2048^3 field is
    computed in [int] and overflows. *)
Theorem C01_dense_large_window_refuted :
  exists e, (forall c, In c [vx (bmin e); vy (bmin e); vz (bmin e); vx (bmax e); vy (bmax e); vz (bmax e)]
                       -> 0 <= c < 2048) /\
    forall V (dflt : V) f, dense_set_size dflt e e f = UB.
Proof.
  exists (Box (V3 0 0 0) (V3 2047 2047 2047)). split.
  - simpl. intros c H. decompose [or] H; subst; lia || contradiction.
  - intros. reflexivity.
Qed.
Print Assumptions C01_dense_large_window_refuted.

Example C01_example :
  let w := Box (V3 (-2) 3 (-1)) (V3 1 4 0) in
  let l := [DSize w w; DClear 7; DWrite (V3 0 4 (-1)) 8; DWrite (V3 (-2) 3 0) 9] in
  legal 0 (spec_init 0) l /\
  exists f, dense_run 0 dense_init l = Ok f /\ dense_value f (V3 0 4 (-1)) = Ok 8 /\
            dense_value f (V3 1 4 0) = Ok 7 /\ dense_value f (V3 (-2) 3 0) = Ok 9.
Proof.
  cbv zeta. split.
  - split; [solve_int_box|]. simpl. unfold in_box; simpl. lia.
  - eexists. split; [reflexivity|]. repeat split; reflexivity.
Qed.

(** ** C02 *)

(** Looping over any box, empty or not, visits each of its voxels exactly once, in
    x-fastest order, and ends. *)
Theorem C02_iterate_subset :
  forall b, exists l, visits_box l b /\
  forall fuel, box_count b < Z.of_nat fuel -> iterate_sub fuel b = Some l.
Proof. exact iterate_sub_visits. Qed.
Print Assumptions C02_iterate_subset.

(** Same for the whole data window, if it is non-empty or has resolution zero on
    every axis (the state of a default-constructed field). *)
Theorem C02_iterate_field :
  forall dw, (exists p, in_box p dw) \/ data_resolution dw = V3 0 0 0 ->
  exists l, visits_box l dw /\
  forall fuel, box_count dw < Z.of_nat fuel -> iterate fuel dw = Some l.
Proof.
  intros dw [[p B]|H]; apply iterate_visits; auto.
  left. eapply in_box_nonempty; eauto.
Qed.
Print Assumptions C02_iterate_field.

(** A window that is empty on one axis only is not recognised as empty: the loop
    starts at a position outside the window and never ends. *)
Theorem C02_iterate_thin_empty_window_refuted :
  exists dw, (forall p, ~ in_box p dw) /\ ~ in_box (it_begin dw) dw /\
             it_begin dw <> it_end dw /\ forall fuel, iterate fuel dw = None.
Proof.
  exists (Box (V3 0 0 0) (V3 (-1) 0 0)).
  destruct iterate_one_axis_empty_diverges as (A & B & C).
  split; [exact A|]. split; [apply A|]. split; [|exact C].
  rewrite B. discriminate.
Qed.
Print Assumptions C02_iterate_thin_empty_window_refuted.

(** [advance(it, n)] reaches the n-th voxel; with an end argument it stops there. *)
Theorem C02_advance :
  forall b n, box_nonempty b ->
  exists l, visits_box l b /\
    (forall p, nth_error l n = Some p -> it_advance b n (it_begin_sub b) = p) /\
    it_advance_end b n (it_end b) (it_begin_sub b) =
      match nth_error l n with Some p => p | None => it_end b end.
Proof.
  intros b n N. exists (enum b). split; [apply enum_visits|].
  unfold it_begin_sub. rewrite (proj2 (box_empty_false b) N). split.
  - intros p H. assert (n < length (enum b))%nat by (apply nth_error_Some; congruence).
    pose proof (chain_advance b (enum b) (bmin b) (it_end b) n (enum_chain b N) H0). congruence.
  - apply chain_advance_end; [apply enum_chain; auto|].
    intros p I ->. apply enum_In in I. unfold in_box, it_end in I; simpl in I. lia.
Qed.
Print Assumptions C02_advance.

Example C02_example :
  iterate 20 (Box (V3 (-1) 2 5) (V3 0 3 5)) =
  Some [V3 (-1) 2 5; V3 0 2 5; V3 (-1) 3 5; V3 0 3 5].
Proof. reflexivity. Qed.

(** ** C03 *)

(** Every dense-field iterator over a sub-box of the window visits the sub-box, and
    at each step points at the cell of the voxel it names: reading it gives
    [value] of that voxel, writing it is writing that voxel. *)
Theorem C03_dense_iterator :
  forall (V : Type) (dflt : V) (l : list (dop V)) f w fuel,
  legal dflt (spec_init dflt) l -> dense_run dflt dense_init l = Ok f ->
  (exists p, in_box p w) -> (forall p, in_box p w -> in_box p (d_dw f)) ->
  box_count w < Z.of_nat fuel ->
  exists its, dense_iterate_sub fuel f w = Some (Ok its) /\
    visits_box (map di_pos its) w /\
    forall it, In it its -> exists ix, di_p it = Some ix /\
      dense_value f (di_pos it) = arr_get (d_data f) ix /\
      forall v, dense_write f (di_pos it) v =
        (let* d := arr_set (d_data f) ix v in
         Ok (Dense (d_ext f) (d_dw f) (d_mem f) (d_memXY f) d)).
Proof.
  intros V dflt l f w fuel L E [p B] W F.
  destruct (refines_run dflt l _ _ (refines_init dflt) L) as (f' & E' & [S _ _ _]).
  rewrite E in E'. injection E' as <-.
  destruct (dense_iterate_sub_ok f w fuel S (in_box_nonempty _ _ B) W F) as (its & E1 & E2 & G).
  exists its. split; auto. split; [rewrite E2; apply enum_visits|].
  intros it I. rewrite Forall_forall in G. destruct (G it I) as [Bi Pi].
  eexists. split; [exact Pi|]. split.
  - apply dense_value_lin; auto.
  - intros v. unfold dense_write. destruct (dense_index_ok f (di_pos it) S (W _ Bi)) as [-> _].
    reflexivity.
Qed.
Print Assumptions C03_dense_iterator.

(** The same over the whole window. *)
Theorem C03_dense_iterator_whole :
  forall (V : Type) (dflt : V) (l : list (dop V)) f fuel,
  legal dflt (spec_init dflt) l -> dense_run dflt dense_init l = Ok f ->
  (exists p, in_box p (d_dw f)) -> box_count (d_dw f) < Z.of_nat fuel ->
  exists its, dense_iterate fuel f = Some (Ok its) /\
    visits_box (map di_pos its) (d_dw f) /\
    forall it, In it its -> exists ix, di_p it = Some ix /\
      dense_value f (di_pos it) = arr_get (d_data f) ix.
Proof.
  intros V dflt l f fuel L E [p B] F.
  destruct (refines_run dflt l _ _ (refines_init dflt) L) as (f' & E' & [S _ _ _]).
  rewrite E in E'. injection E' as <-.
  destruct (dense_iterate_ok f fuel S (in_box_nonempty _ _ B) F) as (its & E1 & E2 & G).
  exists its. split; auto. split; [rewrite E2; apply enum_visits|].
  intros it I. rewrite Forall_forall in G. destruct (G it I) as [Bi Pi].
  eexists. split; [exact Pi|]. apply dense_value_lin; auto.
Qed.
Print Assumptions C03_dense_iterator_whole.

Example C03_example :
  let w := Box (V3 (-1) 0 0) (V3 2 1 1) in
  exists f its, dense_run 0 dense_init [DSize w w; DWrite (V3 1 1 1) 5] = Ok f /\
    dense_iterate_sub 9 f (Box (V3 0 0 1) (V3 1 1 1)) = Some (Ok its) /\
    map di_p its = [Some 9; Some 10; Some 13; Some 14].
Proof. simpl. do 2 eexists. split; [reflexivity|]. split; reflexivity. Qed.

(** ** C09, dense fields *)

(** Every in-window voxel lies in exactly one grain. *)
Theorem C09_dense_grains_partition :
  forall dw p, int_box dw -> in_box p dw ->
  exists n, dense_num_grains dw = Ok n /\
  exists! g, 0 <= g < n /\ exists b, dense_grain_bounds dw g = Ok b /\ in_box p b.
Proof. intros dw p I B. apply dense_grain_unique; auto. eapply in_box_nonempty; eauto. Qed.
Print Assumptions C09_dense_grains_partition.

(** Grain boxes never leave the data window. *)
Theorem C09_dense_grains_inside :
  forall dw g b p, dense_grain_bounds dw g = Ok b -> in_box p b -> in_box p dw.
Proof.
  intros dw g b p E B. unfold dense_grain_bounds in E.
  destruct (_ =? 0); inversion E; subst. apply clip_bounds_spec in B. tauto.
Qed.
Print Assumptions C09_dense_grains_inside.

Example C09_dense_example :
  int_box (Box (V3 (-2) 1 0) (V3 3 4 2)) /\
  dense_num_grains (Box (V3 (-2) 1 0) (V3 3 4 2)) = Ok 12 /\
  dense_grain_bounds (Box (V3 (-2) 1 0) (V3 3 4 2)) 5 = Ok (Box (V3 (-2) 2 1) (V3 3 2 1)).
Proof.
  split; [solve_int_box|split; reflexivity].
Qed.

(** ** C10 *)

(** [indexToCoord] is the inverse of x-fastest linear indexing. *)
Theorem C10_index_to_coord_inverse :
  forall rx ry rz i j k, 0 <= i < rx -> 0 <= j < ry -> 0 <= k < rz ->
  0 <= i + j * rx + k * (rx * ry) < rx * ry * rz /\
  index_to_coord (i + j * rx + k * (rx * ry)) (V3 rx ry rz) = Ok (V3 i j k).
Proof.
  intros. split; [apply linear_index_bound; auto|apply index_to_coord_spec; auto].
Qed.
Print Assumptions C10_index_to_coord_inverse.

Theorem C10_index_to_coord_onto :
  forall rx ry rz idx, 0 < rx -> 0 < ry -> 0 < rz -> 0 <= idx < rx * ry * rz ->
  exists i j k, index_to_coord idx (V3 rx ry rz) = Ok (V3 i j k) /\
    0 <= i < rx /\ 0 <= j < ry /\ 0 <= k < rz /\ idx = i + j * rx + k * (rx * ry).
Proof. exact index_to_coord_back. Qed.
Print Assumptions C10_index_to_coord_onto.

Theorem C10_clip_bounds :
  forall b c p, in_box p (clip_bounds b c) <-> in_box p b /\ in_box p c.
Proof. exact clip_bounds_spec. Qed.
Print Assumptions C10_clip_bounds.

Theorem C10_set_size_padding :
  forall s pad p,
  (in_box p (fst (size_pad s pad)) <->
     0 <= vx p < vx s /\ 0 <= vy p < vy s /\ 0 <= vz p < vz s) /\
  (in_box p (snd (size_pad s pad)) <->
     - pad <= vx p < vx s + pad /\ - pad <= vy p < vy s + pad /\ - pad <= vz p < vz s + pad).
Proof. intros. split; [|apply size_pad_spec]. unfold in_box, size_pad; simpl. lia. Qed.
Print Assumptions C10_set_size_padding.

Theorem C10_is_in_bounds :
  forall dw i j k, is_in_bounds dw i j k = true <-> in_box (V3 i j k) dw.
Proof. exact is_in_bounds_spec. Qed.
Print Assumptions C10_is_in_bounds.

(** [voxelCount] counts the voxels of a non-empty window with fewer than 2^31
    voxels... *)
Theorem C10_voxel_count :
  forall dw, int_box dw -> (exists p, in_box p dw) -> voxel_count dw = Ok (box_count dw).
Proof.
  intros dw I [p B]. apply in_box_nonempty in B. unfold voxel_count, box_size.
  rewrite (proj2 (box_empty_false dw) B). unfold box_count, extent, box_nonempty in *.
  int_box_facts I. simpl.
  rewrite !Z.max_r by lia.
  rewrite i32_ok by (unfold int_min, int_max; lia). simpl.
  apply i32_ok. unfold int_min, int_max. lia.
Qed.
Print Assumptions C10_voxel_count.

(** ... but reports one voxel for an empty window. *)
Theorem C10_voxel_count_empty_refuted :
  exists dw, (forall p, ~ in_box p dw) /\ voxel_count dw = Ok 1.
Proof.
  exists (Box (V3 0 0 0) (V3 (-1) (-1) (-1))). split; [|reflexivity].
  unfold in_box; simpl; lia.
Qed.
Print Assumptions C10_voxel_count_empty_refuted.

Example C10_example : index_to_coord 17 (V3 3 4 2) = Ok (V3 2 1 1) /\
  size_pad (V3 4 5 6) 2 = (Box (V3 0 0 0) (V3 3 4 5), Box (V3 (-2) (-2) (-2)) (V3 5 6 7)).
Proof. split; reflexivity. Qed.
