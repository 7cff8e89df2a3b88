From Coq Require Import ZArith List Bool String Lia Arith Permutation.
From Verif Require Import Model.Base Model.FieldM Model.DenseM Model.SparseM Spec.DenseSpec Spec.SparseSpec Proof.BaseP Proof.DenseP Proof.SparseP
  Model.OgawaM Spec.OgawaSpec Proof.OgawaP Model.OgM Spec.OgSpec Proof.OgP Model.FieldIOM Spec.FieldIOSpec
  Proof.FieldIOP Model.FileM Proof.FileP Model.MipIOM Spec.MipIOSpec Proof.MipIOP
  Model.Hdf5M Spec.Hdf5Spec Proof.Hdf5P Proof.Hdf5P2 Model.Hdf5FileM Spec.Hdf5FileSpec Proof.Hdf5FileP Proof.Hdf5FileP2 Props.Hdf5FileProps Model.MipH5M Spec.MipH5Spec Proof.MipH5P.
Import ListNotations.
Open Scope Z_scope.

(** * Where the layers of a session are *)
Lemma session_layer A M ident mp mg (hp : nat -> M) v h0 (calls : list (hcall (A := A))) outcomes global root ord c :
  session ident mp mg hp v h0 calls outcomes global root -> any_order ord ->
  In c (h_accepted calls outcomes) -> c_user c <> [] ->
  exists f layers x part, i_open ord mg root i_new = Ok (f, true) /\ i_layers f (c_vec c) (c_user c) (c_layer c) = Ok layers /\
    In x layers /\ h_reads_as ident mp mg hp x c /\ remove_id part = c_user c /\ leads_to root (part ++ [47] ++ c_layer c) (y_group x).
Proof.
  intros S O I NU. destruct (session_open _ _ _ _ _ _ _ _ _ _ _ _ _ false S O) as (h & G & o & L & va & V & _ & -> & P & SN & OP); [discriminate|].
  apply (Permutation_in _ (Permutation_sym (l_perm _ _ _ _ _ _ _ _ _ _ V L P SN))) in I as Ix. apply in_flat_map in Ix as (x & Ix & Ic).
  pose proof (proj1 (Forall_forall _ _) SN x Ix) as ((Ig & MG & PW) & _).
  assert (Ic' : In c (d_ws (rp_d x))) by (apply (Permutation_in _ PW); auto).
  pose proof (proj1 (Forall_forall _ _) (v_ok _ _ _ _ _ _ _ _ _ V) _ Ig) as (_ & _ & _ & _ & _ & F).
  apply (proj1 (Forall_forall _ _) F) in Ic' as HC. destruct HC as (CU & CS & CM & FO & CI).
  pose proof (gsimple _ _ _ _ _ _ _ _ _ V _ Ig) as NS. fold (rp_name x) in NS.
  assert (NL : c_layer c <> []) by apply CS.
  eexists; eexists; exists (mk_layer x c), (rp_name x). split; [exact OP|]. split.
  { unfold i_layers. destruct (c_layer c) eqn:EL; [congruence|]. destruct (c_user c) eqn:EU; [congruence|]. cbn [is_nil orb].
    cbn [fin i_parts]. rewrite map_map. change (fun x => r_name (fullh x)) with (@rp_name A M).
    rewrite (each_eq _ _ _ _ _ _ _ _ _ _ V _ _ _ P SN) by (intros y Iy; auto). rewrite <- EU, <- EL. reflexivity. }
  split.
  { apply in_flat_map. exists x. split; auto. apply in_map. unfold picks. rewrite (user_of _ _ _ _ _ _ _ _ _ _ V L SN x c Ix Ic), beq_refl.
    apply filter_In. split; [|apply beq_refl]. apply filter_In. split; auto. apply Bool.eqb_reflx. }
  split; [apply (reads_mk _ _ _ _ _ _ _ _ _ _ V L SN x c Ix Ic)|]. split; [apply (user_of _ _ _ _ _ _ _ _ _ _ V L SN x c Ix Ic)|].
  split.
  { rewrite !in_app_iff. destruct NS as (_ & _ & S0 & _), CS as (_ & _ & T0 & _). cbn. intuition lia. }
  assert (NA : node_at (rootF va G o) [rp_name x; c_layer c] = Some (lgroup (c_field c))).
  { unfold rp_name. rewrite (node_dpart _ _ _ _ _ _ _ _ _ V) by auto. cbn [node_at]. unfold sub_group.
    rewrite (find_lnode _ _ _ _ _ _ _ _ _ V _ _ Ig Ic'). reflexivity. }
  exists [rp_name x; c_layer c]. split; [|exact NA].
  unfold g_open. cbn [app]. rewrite start_root, comps_cons, comps_simple by auto. cbn [app]. rewrite NA.
  rewrite cstr_app by apply NS. destruct NS as (S0 & _). destruct (rp_name x); [congruence|reflexivity].
Qed.

(** * Levels *)
Lemma dense_ints {A V} ty comps (split : V -> list A) join (f : dense V) : made_of ty comps split join -> int_corners (d_ext f) -> int_corners (d_dw f) ->
  all_ints (dense_attrs ty comps f).
Proof.
  intros (_ & CC & _) ((?&?&?)&(?&?&?)) ((?&?&?)&(?&?&?)) n k Ik. unfold dense_attrs in Ik.
  destruct CC as [->| ->]; cbn [In] in Ik; decompose [or] Ik; try contradiction;
    match goal with X : _ = (n, AInts k) |- _ => injection X as <- <- end; unfold of_box; repeat (constructor; auto); destruct ty; reflexivity.
Qed.
Lemma along_int o r : 0 <= o <= 10 -> - 2 ^ 31 <= r <= 2 ^ 24 -> in_int (blocks_along o r) = true.
Proof.
  intros Ho R. apply in_int_iff. unfold blocks_along.
  assert (1 <= 2 ^ o <= 1024).
  { split; [pose proof (Z.pow_pos_nonneg 2 o); lia|]. change 1024 with (2 ^ 10). apply Z.pow_le_mono_r; lia. }
  generalize dependent (2 ^ o). intros q Q. split; [apply Z.div_le_lower_bound; lia|].
  assert ((r + q - 1) / q < 2 ^ 31) by (apply Z.div_lt_upper_bound; lia). lia.
Qed.
Lemma grid_int dw o o' : 0 <= o <= 10 -> window_ok dw o' -> Forall (fun z => in_int z = true) [vx (blocks_of dw o); vy (blocks_of dw o); vz (blocks_of dw o)].
Proof.
  intros Ho (CC & RX & RY & RZ & _).
  assert (L : - 2 ^ 31 <= vx (res_of dw) /\ - 2 ^ 31 <= vy (res_of dw) /\ - 2 ^ 31 <= vz (res_of dw)).
  { unfold res_of. destruct (box_empty dw); [cbn; lia|].
    pose proof (CC (vx (bmin dw)) ltac:(cbn; auto)). pose proof (CC (vy (bmin dw)) ltac:(cbn; auto)). pose proof (CC (vz (bmin dw)) ltac:(cbn; auto)).
    pose proof (CC (vx (bmax dw)) ltac:(cbn; auto)). pose proof (CC (vy (bmax dw)) ltac:(cbn; auto 10)). pose proof (CC (vz (bmax dw)) ltac:(cbn; auto 10)).
    cbn [vx vy vz]. clear -H H0 H1 H2 H3 H4. lia. }
  unfold blocks_of. cbn [vx vy vz]. clear CC. repeat (constructor; [apply along_int; lia|]). constructor.
Qed.
Lemma sparse_ints {A V} ty comps (split : V -> list A) join (f : sparse V) : made_of ty comps split join -> sshape f -> int_corners (s_ext f) -> int_corners (s_dw f) ->
  all_ints (sparse_attrs ty comps f).
Proof.
  intros (_ & CC & _) S ((?&?&?)&(?&?&?)) ((?&?&?)&(?&?&?)) n k Ik.
  pose proof (order_nn f S) as ON. pose proof (ss_len _ S) as LN. destruct (ss_win _ S) as (_ & RX & RY & RZ & BL). rewrite <- (ss_bres _ S) in BL.
  assert (NB : Z.of_nat (nblk f) < 2 ^ 31) by (unfold nblk; rewrite LN; exact BL).
  assert (OC : (Hdf5P2.occ (s_blocks f) <= nblk f)%nat).
  { unfold Hdf5P2.occ, nblk. clear. induction (s_blocks f) as [|b l IH]; cbn; auto. destruct (b_alloc b); cbn; lia. }
  assert (BR : Forall (fun z => in_int z = true) [vx (s_bres f); vy (s_bres f); vz (s_bres f)]) by (rewrite (ss_bres _ S); apply (grid_int _ _ (s_order f)); [apply ON|apply S]).
  clear LN BL S RX RY RZ. assert (NBI : in_int (Z.of_nat (nblk f)) = true) by (clear -NB; apply in_int_iff; lia).
  assert (OCI : in_int (Z.of_nat (Hdf5P2.occ (s_blocks f))) = true) by (clear -NB OC; apply in_int_iff; lia).
  assert (ONI : in_int (s_order f) = true) by (clear -ON; apply in_int_iff; lia).
  assert (BTI : in_int (h5bits ty) = true) by (destruct ty; reflexivity).
  assert (CCI : in_int (Z.of_nat comps) = true) by (destruct CC as [->| ->]; reflexivity).
  unfold sparse_attrs in Ik. cbn [In] in Ik.
  repeat (destruct Ik as [Ik|Ik]; [injection Ik as <- <-; try exact BR; unfold of_box; repeat (apply Forall_cons; [assumption || reflexivity|]); apply Forall_nil|]).
  contradiction.
Qed.

(** * Any group *)
Lemma find_by_some {B} n (l : list (bytes * B)) x : find_by n l = Some x -> In (n, x) l.
Proof.
  induction l as [|(m, y) l IH]; [discriminate|]. cbn [find_by]. destruct (bytes_eqb_spec m n) as [->|N]; [intros [= ->]; left; auto|right; auto].
Qed.
Lemma get_int1_def l n : fitting l -> get_int1 l n <> UB.
Proof.
  intros F. unfold get_int1, get_num. destruct (find_by (cstr n) l) as [[| fl size dm d|]|] eqn:E; cbn [bind]; try discriminate.
  destruct (list_eq_dec Nat.eq_dec dm [1%nat]) as [->|]; cbn [negb bind]; [|discriminate]. destruct (Bool.eqb fl false); cbn [negb bind]; [|discriminate].
  apply find_by_some in E. destruct (F _ _ _ _ _ E) as (-> & _); auto. discriminate.
Qed.
Lemma get_six_def l n cur : fitting l -> List.length cur = 24%nat -> get_six l n cur <> UB /\ forall d, get_six l n cur = Ok d -> List.length d = 24%nat.
Proof.
  intros F L. unfold get_six, get_num. destruct (find_by (cstr n) l) as [[| fl size dm d|]|] eqn:E; try (split; [discriminate|intros; discriminate]).
  destruct (list_eq_dec Nat.eq_dec dm [6%nat]) as [->|]; cbn [negb]; [|split; [discriminate|intros; discriminate]].
  destruct (Bool.eqb fl false); cbn [negb]; [|split; [discriminate|intros; discriminate]].
  apply find_by_some in E. destruct (F _ _ _ _ _ E) as (_ & K). destruct (K eq_refl) as (S4 & LD).
  destruct (Nat.eqb_spec size 4) as [->|]; [split; [discriminate|]; intros x [= <-]; lia|].
  replace (Nat.leb (List.length d) (List.length cur)) with true by (symmetry; apply Nat.leb_le; lia).
  split; [discriminate|]. intros x [= <-]. rewrite app_length, skipn_length. lia.
Qed.
Section A.
Context {A : Type}.
Notation hnode := (hnode (A := A)).
Lemma fitting_here (g : hnode) : fitting_tree g -> fitting (n_attrs g).
Proof. intros H. apply (H [] g). reflexivity. Qed.
Lemma fitting_sub (g : hnode) n s : fitting_tree g -> sub_group g n = Some s -> fitting_tree s.
Proof. intros H E p x P. apply (H (n :: p) x). cbn [node_at]. rewrite E. auto. Qed.
Lemma h5_sizes_def mips : fitting_tree mips -> forall n i e d, List.length e = 24%nat -> List.length d = 24%nat -> h5_sizes (A := A) mips i n e d <> UB.
Proof.
  intros F. induction n as [|n IH]; intros i e d Le Ld; [discriminate|]. cbn [h5_sizes].
  destruct (sub_group mips (level_name i)) as [g|] eqn:G; [|discriminate]. pose proof (fitting_here g (fitting_sub _ _ _ F G)) as FG.
  destruct (get_six_def _ (str "extents") e FG Le) as (U1 & L1). destruct (get_six _ (str "extents") e) as [e'| |]; try discriminate; [|congruence]. cbn [bind].
  destruct (get_six_def _ (str "data_window") d FG Ld) as (U2 & L2). destruct (get_six _ (str "data_window") d) as [d'| |]; try discriminate; [|congruence]. cbn [bind].
  pose proof (IH (S i) e' d' (L1 _ eq_refl) (L2 _ eq_refl)) as H. destruct (h5_sizes mips (S i) n e' d'); try discriminate. congruence.
Qed.
Lemma mip_read_def ty dims (g : hnode) : fitting_tree g -> mip_h5_read ty dims g <> UB.
Proof.
  intros F. pose proof (fitting_here g F) as FG. unfold mip_h5_read.
  pose proof (get_int1_def _ (str "version") FG) as U1. destruct (get_int1 _ (str "version")) as [v| |]; try discriminate; [|congruence]. cbn [bind].
  destruct (negb (v =? 1)); [discriminate|].
  pose proof (get_int1_def _ (str "components") FG) as U2. destruct (get_int1 _ (str "components")) as [c| |]; try discriminate; [|congruence]. cbn [bind].
  pose proof (get_int1_def _ (str "bits_per_component") FG) as U3. destruct (get_int1 _ (str "bits_per_component")) as [b| |]; try discriminate; [|congruence]. cbn [bind].
  assert (U4 : get_str (n_attrs g) (str "base_type") <> UB) by (unfold get_str; destruct (find_by _ _) as [[| |]|]; discriminate).
  destruct (get_str _ _) as [base| |]; try discriminate; [|congruence]. cbn [bind].
  destruct (negb _); [discriminate|]. destruct (if bytes_eqb base (class_of BSparse) then _ else _) as [k|]; [|discriminate].
  destruct (get_six_def _ (str "extents") new_box FG eq_refl) as (U5 & L5). destruct (get_six _ (str "extents") _) as [e| |]; try discriminate; [|congruence]. cbn [bind].
  destruct (get_six_def _ (str "data_window") new_box FG eq_refl) as (U6 & L6). destruct (get_six _ (str "data_window") _) as [d| |]; try discriminate; [|congruence]. cbn [bind].
  destruct (sub_group g (str "mip_levels")) as [mips|] eqn:SG; [|discriminate]. pose proof (fitting_sub _ _ _ F SG) as FM.
  pose proof (get_int1_def _ (str "levels") (fitting_here _ FM)) as U7. destruct (get_int1 _ (str "levels")) as [n| |]; try discriminate; [|congruence]. cbn [bind].
  pose proof (h5_sizes_def mips FM (Z.to_nat n) 0 e d (L5 _ eq_refl) (L6 _ eq_refl)) as U8. destruct (h5_sizes _ _ _ _ _) as [s| |]; try discriminate; [|congruence]. cbn [bind].
  destruct (negb _); [discriminate|]. destruct s as [|[? ?] ?]; discriminate.
Qed.
Lemma mip_read_levels ty dims (g : hnode) p : mip_h5_read ty dims g = Ok (Some p) ->
  sane (map fst (mp_levels p)) = true /\ nth_error (mp_levels p) 0 = Some (mp_ext p, mp_dw p).
Proof.
  unfold mip_h5_read. intros H.
  destruct (get_int1 _ (str "version")) as [v| |]; try discriminate. cbn [bind] in H. destruct (negb (v =? 1)); [discriminate|].
  destruct (get_int1 _ (str "components")) as [c| |]; try discriminate. cbn [bind] in H.
  destruct (get_int1 _ (str "bits_per_component")) as [b| |]; try discriminate. cbn [bind] in H.
  destruct (get_str _ _) as [base| |]; try discriminate. cbn [bind] in H.
  destruct (negb _); [discriminate|]. destruct (if bytes_eqb base (class_of BSparse) then _ else _) as [k|]; [|discriminate].
  destruct (get_six _ (str "extents") _) as [e| |]; try discriminate. cbn [bind] in H.
  destruct (get_six _ (str "data_window") _) as [d| |]; try discriminate. cbn [bind] in H.
  destruct (sub_group g (str "mip_levels")) as [mips|]; [|discriminate].
  destruct (get_int1 _ (str "levels")) as [n| |]; try discriminate. cbn [bind] in H.
  destruct (h5_sizes _ _ _ _ _) as [s| |]; try discriminate. cbn [bind] in H.
  destruct (sane (map fst s)) eqn:SN; [|discriminate]. cbn [negb] in H. destruct s as [|[e1 d1] s]; [discriminate|]. injection H as <-. cbn. auto.
Qed.
End A.
