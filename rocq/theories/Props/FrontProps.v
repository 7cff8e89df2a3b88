(** C65: one interface to files of two kinds. *)
From Coq Require Import ZArith List Bool String Lia Arith Permutation Sorted.
From Verif Require Import Model.Base Model.OgawaM Spec.OgawaSpec Model.OgM Spec.OgSpec Proof.OgP Model.FieldIOM Spec.FieldIOSpec Model.FileM Spec.FileSpec Proof.FileP Proof.FileP2 Props.FileProps
  Model.MetaM Spec.MetaSpec Proof.MetaP Props.MetaProps Model.Hdf5M Model.Hdf5FileM Spec.Hdf5MetaSpec Proof.Hdf5MetaP Props.Hdf5MetaProps Spec.Hdf5FileSpec Proof.Hdf5FileP Proof.Hdf5FileP2 Props.Hdf5FileProps
  Model.MembersM Model.ProxyM Model.ProxyH5M Model.FrontM Spec.FrontSpec Proof.FrontP.
Import ListNotations.
Open Scope Z_scope.

Lemma lift_calls {B C D E} (R : B -> C -> Prop) (R' : D -> E -> Prop) (f : B -> D) (g : E -> C) l m :
  (forall x c, R x (g c) -> R' (f x) c) -> Forall2 R l (map g m) -> Forall2 R' (map f l) m.
Proof. intros H. revert m. induction l as [|x l IH]; intros [|c m] F; inversion F; subst; constructor; auto. Qed.

(** Whatever an input object was used for before, an HDF5 file that it opens it answers for as the
    HDF5 reader does; and an Ogawa file as the Ogawa reader does, if it met no other kind before. *)
Theorem C65_open : forall A M ord map_get hist (o1 o2 : fin (A := A) (M := M)) d,
  irun ord map_get fi_new hist = Ok o1 -> f_open ord map_get d o1 = Ok (o2, true) ->
  (exists r h, d = Hdf5File r /\ i_open ord map_get r i_new = Ok (h, true) /\ answers_hdf5 o2 h /\ f_metadata o2 = i_meta h) \/
  (exists t, d = OgawaFile t /\ (only_ogawa hist -> validate t = true -> answers_ogawa o2 t)).
Proof.
  intros A M ord mg hist o1 o2 d H E. destruct d as [|t|r| |].
  - cbn in E. injection E as _ X. discriminate.
  - right. exists t. split; auto. intros OO VT. pose proof (only_ogawa_none ord mg hist OO fi_new o1 eq_refl H) as N.
    destruct (open_ogawa_eq ord mg t o1 o2 true N VT E eq_refl) as (l & m & RI & ->). apply own_answers; auto.
  - left. destruct (open_hdf5_inv ord mg r o1 o2 E) as (h & I). destruct (open_hdf5 ord mg r o1 h I) as (o' & E' & AN & MD).
    rewrite E in E'. injection E' as <-. eauto 8.
  - cbn in E. injection E as _ X. discriminate.
  - discriminate.
Qed.
Print Assumptions C65_open.

(** Any layers, metadata and group memberships, in any order, written to a new file of either kind,
    with or without writing the metadata: no call fails (if no layer of a partition is
    both scalar and vector, and mappings are compared sanely), no other file changes,
    the file opens, and holds what was written: the listings and layers of [holds], and this metadata. *)
Theorem C65_round_trip : forall A M ord map_get ident map_kids map_ok map_put (hp : nat -> M) v k0 (ogawa : bool) name keep (body : list (oop (A := A))) globals hist o1,
  any_order ord -> int_v3 v -> 0 <= vx v -> 0 <= vy v ->
  Forall body_op body -> Forall (fcall_ok map_ok map_put map_get hp) (layer_calls body) -> settings_ok (settings body) ->
  keep = false \/ k0 name = NoFile ->
  irun ord map_get fi_new hist = Ok o1 -> (ogawa = true -> only_ogawa hist) ->
  exists k o outcomes o2,
    orun ident map_kids map_ok map_put (enc_v3 v) hp k0 fo_new (script ogawa name keep body globals) =
      Ok (k, o, Accepted :: outcomes ++ (if globals then [Accepted] else []) ++ [Accepted]) /\
    List.length outcomes = List.length body /\
    ((forall a, ident a a = true) -> (forall a b, ident a b = ident b a) -> one_kind (map as_h5 (layer_calls body)) -> Forall (eq Accepted) outcomes) /\
    (forall n, n <> name -> k n = k0 n) /\
    f_open ord map_get (k name) o1 = Ok (o2, true) /\
    holds ident map_kids map_put map_get hp ogawa (layer_calls body) (taken body outcomes) o2 /\
    forall kind n dflt, meta_get (f_metadata o2) kind n dflt =
      match last_set (if globals then settings body else []) kind n with
      | Some x => x
      | None => if ogawa then meta_get (f_metadata o1) kind n dflt else dflt
      end.
Proof.
  intros A M ord mg ident mk mo mp hp v k0 ogawa name keep body globals hist o1 O IV VX VY B FC (SS & OT) K H OO. destruct ogawa.
  - set (calls := map as_og (layer_calls body)).
    assert (U : Forall usable calls).
    { eapply forall_calls; [|exact FC]. intros c (C1 & C2 & C3 & C4 & (C5 & C6 & C7) & _). repeat split; auto. }
    assert (MO : Forall (fun w => mo (hp (w_ref w)) = true) calls).
    { eapply forall_calls; [|exact FC]. intros c C. apply C. }
    destruct (write_all_inv ident mk mo hp True calls U MO o_new [] [] (inv_fresh _ _ _)) as (f & ocs & G & W & V & LW & AC).
    destruct (og_script ident mk mo mp (enc_v3 v) hp k0 name keep body globals f ocs B K W) as (k & o & outs & R & LO & TK & AA & KN & KO). fold calls in TK.
    pose proof (only_ogawa_none ord mg hist (OO eq_refl) fi_new o1 eq_refl H) as N.
    set (gm := if globals then Some (meta_run (settings body)) else None).
    assert (GE : (if globals then Some (write_meta (meta_run (settings body))) else None) = option_map write_meta gm) by (destruct globals; reflexivity).
    rewrite GE in KN.
    assert (GO : forall m, gm = Some m -> meta_ok m).
    { intros m E. unfold gm in E. destruct globals; [|discriminate]. injection E as <-. apply run_ok; auto. intros kk n x I. destruct kk; destruct I. }
    destruct (open_tree ord mg ident mk hp v f G _ True gm o1 V IV VX VY N GO) as (l & y & RI & OP & MD).
    set (t := file_tree (enc_v3 v) f (option_map write_meta gm)) in *.
    exists k, o, outs, (FIn None (Some t) l y). rewrite KN. split; [exact R|]. split; [exact LO|]. split; [|split; [exact KO|split; [exact OP|split]]].
    + intros Re Sy _. apply AA. specialize (AC Re Sy). clear -AC FC. unfold calls in AC.
      assert (X : Forall2 (fun c oc => oc = Accepted <-> ~ In 47 (w_user (as_og c)) /\ ~ In 47 (w_layer (as_og c))) (layer_calls body) ocs).
      { rewrite <- (map_id ocs) in AC. apply (Forall2_maps _ as_og (fun x => x)) in AC. exact AC. }
      clear AC. revert ocs X. induction FC as [|c r C F IH]; intros ocs X; inversion X; subst; constructor; auto.
      symmetry. apply H1. destruct C as (_ & C2 & _ & C4 & _). split; auto.
    + destruct (own_answers (A := A) (M := M) t l y RI) as (EN & PN & LN & LY & LA & _).
      destruct (C23_listing M ident mk mo hp calls f ocs (enc_v3 v) (option_map write_meta gm) U MO W) as ((ps & P1 & P2 & P3 & P4) & NM). fold t in P1, NM.
      rewrite PN in P1. injection P1 as <-. unfold holds. split; [exact EN|]. split; [exact P2|]. rewrite TK in P3. split; [|split; [|split; [|split]]].
      * intros c I. apply (P3 (as_og c)). apply in_map; auto.
      * intros P I. destruct (P4 P I) as (w & Iw & E). apply in_map_iff in Iw as (c & <- & Ic). exists c. auto.
      * intros vec P. destruct (NM P) as (ls & E & I1 & I2). rewrite (LN vec P) in E. injection E as <-. split; [exact I1|]. intros L. rewrite I2, TK. split.
        -- intros (w & Iw & E1 & E2). apply in_map_iff in Iw as (c & <- & Ic). exists c. auto.
        -- intros (c & Ic & _ & E1 & E2). exists (as_og c). split; [apply in_map; auto|]. auto.
      * intros vec P L NP NL. rewrite LY. destruct (C23_layers_read M ident mk mo hp o_new calls f ocs (enc_v3 v) (option_map write_meta gm) P L eq_refl U MO W NP NL) as (ls & src & RL & PS & FR).
        fold t in RL. rewrite RL. rewrite TK in PS. eapply perm_map_filter in PS as (s & -> & PS); [|intros x; instantiate (1 := fun c => kind_is true vec c && bytes_eqb (fc_user c) P && bytes_eqb (fc_layer c) L); reflexivity].
        exists (map OgLayer ls), s. split; [reflexivity|]. split; [exact PS|]. eapply lift_calls; [|exact FR]; auto.
      * intros vec L. rewrite LA. destruct (C23_all_layers_read M ident mk mo hp o_new calls f ocs (enc_v3 v) (option_map write_meta gm) L eq_refl U MO W) as (ls & src & RL & PS & FR).
        fold t in RL. rewrite RL. rewrite TK in PS. eapply perm_map_filter in PS as (s & -> & PS); [|intros x; instantiate (1 := fun c => kind_is true vec c && (is_nil L || bytes_eqb (fc_layer c) L)); reflexivity].
        exists (map OgLayer ls), s. split; [reflexivity|]. split; [exact PS|]. eapply lift_calls; [|exact FR]; auto.
    + intros kd n d. unfold meta_get. unfold f_metadata. rewrite N. cbn [fi_h5 fi_meta]. rewrite MD. unfold gm. destruct globals; [|reflexivity].
      rewrite look_run by auto. destruct (last_set (settings body) kd n); reflexivity.
  - set (calls := map as_h5 (layer_calls body)).
    assert (GC : good_calls mp mg hp calls).
    { eapply forall_calls; [|exact FC]. intros c (C1 & C2 & C3 & C4 & _ & C5 & C6 & _). repeat split; auto; apply C5. }
    destruct (C58_write_outcomes A M ident mp mg hp (enc_v3 v) h_new calls eq_refl GC) as (f & ocs & W & LW & _ & AC).
    destruct (good_split _ _ _ _ _ _ GC) as (U & FF & MO).
    set (va := [(str "version_number", VNum false 4 [3%nat] (enc_v3 v))]).
    destruct (h_writes_inv ident mp mg hp va False calls U FF MO (h_create (enc_v3 v) h_new) [] [] ltac:(apply dinv_new; auto)) as (f1 & ocs1 & G & W1 & V & _).
    rewrite W in W1. injection W1 as <- <-.
    set (global := if globals then meta_run (settings body) else meta_empty).
    assert (SM : storable_meta (meta_run (settings body))).
    { exists (settings body). split; auto. split; auto. eapply Forall_impl; [|exact SS]. intros s ((P1 & P2) & P3). split; auto. }
    assert (FI : exists f', (if globals then h_globals f (meta_run (settings body)) = (f', true) else f' = f) /\ h_finished f f' global /\ exists root, h_root f' = Some root).
    { pose proof (v_root _ _ _ _ _ _ _ _ _ V) as RT. destruct globals.
      - assert (HG : exists f', h_globals f (meta_run (settings body)) = (f', true) /\ exists root, h_root f' = Some root).
        { unfold h_globals. rewrite RT.
          rewrite (g_create_at (HNode va (map (@pnode A) G)) [] k_global _ simple_global eq_refl (global_fresh G)).
          destruct (storable_round _ SM) as (PM & _). rewrite PM. eexists. split; [reflexivity|]. eexists. reflexivity. }
        destruct HG as (f' & HG & RR). exists f'. split; [exact HG|]. split; [|exact RR]. exists f, f', [], []. split; [reflexivity|]. split; [|reflexivity].
        right. split; [exact SM|exact HG].
      - exists f. split; auto. split; [|eauto]. exists f, f, [], []. split; [reflexivity|]. split; [left; auto|reflexivity]. }
    destruct FI as (f' & GF & FI & root & RT).
    destruct (h5_script ident mk mo mp (enc_v3 v) hp k0 name keep body globals f f' ocs B K W GF root RT) as (k & o & outs & R & LO & TK & AA & KN & KO). fold calls in TK.
    assert (SE : session ident mp mg hp v h_new calls ocs global root).
    { split; [reflexivity|]. do 3 (split; [assumption|]). split; [exact GC|]. exists f, f'. auto. }
    destruct (C58_layers_read _ _ _ _ _ _ _ _ _ _ _ _ ord SE O) as (h & OP & MD & LR).
    destruct (C58_all_layers_read _ _ _ _ _ _ _ _ _ _ _ _ ord SE O) as (h' & OP' & AR). rewrite OP in OP'. injection OP' as <-.
    destruct (C58_listing _ _ _ _ _ _ _ _ _ _ _ _ ord SE O) as (h' & OP' & P2 & P3 & P4 & NM). rewrite OP in OP'. injection OP' as <-.
    destruct (open_hdf5 ord mg root o1 h OP) as (o2 & OF & (EN & PN & LN & LY & LA & _) & ME).
    exists k, o, outs, o2. rewrite KN. split; [exact R|]. split; [exact LO|]. split; [|split; [exact KO|split; [exact OF|split]]].
    + intros Re Sy OK. apply AA. specialize (AC Re Sy OK). clear -AC FC. unfold calls in AC.
      assert (X : Forall2 (fun c oc => oc = Accepted <-> layer_name_ok (c_layer (as_h5 c))) (layer_calls body) ocs).
      { rewrite <- (map_id ocs) in AC. apply (Forall2_maps _ as_h5 (fun x => x)) in AC. exact AC. }
      clear AC. revert ocs X. induction FC as [|c r C F IH]; intros ocs X; inversion X; subst; constructor; auto.
      symmetry. apply H1. apply C.
    + unfold holds. rewrite PN. split; [exact EN|]. split; [exact P2|]. rewrite TK in P3. split; [|split; [|split; [|split]]].
      * intros c I. apply (P3 (as_h5 c)). apply in_map; auto.
      * intros P I. destruct (P4 P I) as (w & Iw & E). apply in_map_iff in Iw as (c & <- & Ic). exists c. auto.
      * intros vec P. rewrite LN. destruct (NM eq_refl vec P) as (I1 & I2). split; [exact I1|]. intros L. rewrite I2, TK. split.
        -- intros (w & Iw & E0 & E1 & E2). apply in_map_iff in Iw as (c & <- & Ic). exists c. split; auto. split; auto. unfold kind_is. cbn in E0. rewrite E0. apply Bool.eqb_reflx.
        -- intros (c & Ic & E0 & E1 & E2). exists (as_h5 c). split; [apply in_map; auto|]. split; auto. apply Bool.eqb_prop. exact E0.
      * intros vec P L NP NL. rewrite LY. destruct (LR vec P L NP NL) as (ls & src & RL & PS & FR).
        rewrite RL. rewrite TK in PS. eapply perm_map_filter in PS as (s & -> & PS); [|intros x; instantiate (1 := fun c => kind_is false vec c && bytes_eqb (fc_user c) P && bytes_eqb (fc_layer c) L); reflexivity].
        exists (map H5Layer ls), s. split; [reflexivity|]. split; [exact PS|]. eapply lift_calls; [|exact FR]; auto.
      * intros vec L. rewrite LA. destruct (AR vec L) as (ls & src & RL & PS & FR).
        rewrite RL. rewrite TK in PS. eapply perm_map_filter in PS as (s & -> & PS); [|intros x; instantiate (1 := fun c => kind_is false vec c && (is_nil L || bytes_eqb (fc_layer c) L)); reflexivity].
        exists (map H5Layer ls), s. split; [reflexivity|]. split; [exact PS|]. eapply lift_calls; [|exact FR]; auto.
    + intros kd n d. rewrite ME, MD. unfold global. destruct globals; [apply C24_last_write_wins|]. destruct kd; reflexivity.
Qed.
Print Assumptions C65_round_trip.

(** The same calls into a file of each kind: the same partitions are listed, and what the Ogawa file lists as
    layers of a partition is what the HDF5 file lists as its scalar and its vector layers. *)
Lemma increasing_same a : forall b, increasing a -> increasing b -> (forall x, In x a <-> In x b) -> a = b.
Proof.
  assert (IR : forall x, bytes_ltb x x = true -> False) by (intros x H; pose proof (ltb_irrefl x); congruence).
  induction a as [|x a IH]; intros b SA SB E.
  - destruct b as [|y b]; auto. destruct (proj2 (E y)). left; auto.
  - destruct b as [|y b]; [destruct (proj1 (E x)); left; auto|].
    inversion SA as [|? ? SA' FA]; subst. inversion SB as [|? ? SB' FB]; subst. rewrite Forall_forall in FA, FB.
    assert (x = y) as ->.
    { destruct (proj1 (E x) (or_introl eq_refl)) as [|I]; auto. destruct (proj2 (E y) (or_introl eq_refl)) as [|J]; auto.
      exfalso. apply (IR x). eapply ltb_trans; [apply FA; exact J|apply FB; exact I]. }
    f_equal. apply IH; auto. intros z. split; intros I.
    + destruct (proj1 (E z) (or_intror I)) as [<-|]; auto. exfalso. apply (IR y). apply FA; auto.
    + destruct (proj2 (E z) (or_intror I)) as [<-|]; auto. exfalso. apply (IR y). apply FB; auto.
Qed.
Theorem C65_same_listings : forall A M ord map_get ident map_kids map_ok map_put (hp : nat -> M) v k0 name keep (body : list (oop (A := A))) g1 g2 k1 x1 y1 k2 x2 y2 (a b : fin (A := A) (M := M)),
  any_order ord -> int_v3 v -> 0 <= vx v -> 0 <= vy v ->
  Forall body_op body -> Forall (fcall_ok map_ok map_put map_get hp) (layer_calls body) -> settings_ok (settings body) ->
  keep = false \/ k0 name = NoFile ->
  (forall a, ident a a = true) -> (forall a b, ident a b = ident b a) -> one_kind (map as_h5 (layer_calls body)) ->
  orun ident map_kids map_ok map_put (enc_v3 v) hp k0 fo_new (script true name keep body g1) = Ok (k1, x1, y1) ->
  orun ident map_kids map_ok map_put (enc_v3 v) hp k0 fo_new (script false name keep body g2) = Ok (k2, x2, y2) ->
  f_open ord map_get (k1 name) fi_new = Ok (a, true) -> f_open ord map_get (k2 name) fi_new = Ok (b, true) ->
  f_partition_names a = f_partition_names b /\
  (forall P, In P (f_partition_names a) <-> exists c, In c (layer_calls body) /\ fc_user c = P) /\
  (forall vec P L, In L (f_layer_names a vec P) <-> In L (f_layer_names b false P) \/ In L (f_layer_names b true P)).
Proof.
  intros A M ord mg ident mk mo mp hp v k0 name keep body g1 g2 k1 x1 y1 k2 x2 y2 a b O IV VX VY B FC SS K Re Sy OK R1 R2 OA OB.
  destruct (C65_round_trip A M ord mg ident mk mo mp hp v k0 true name keep body g1 [] fi_new O IV VX VY B FC SS K eq_refl) as (k & o & outs & o2 & R & LO & AC & _ & OP & HO & _); [intros _ d []|].
  rewrite R1 in R. injection R as <- <- _. rewrite OA in OP. injection OP as <-. rewrite (taken_all body outs LO (AC Re Sy OK)) in HO. clear AC LO outs.
  destruct (C65_round_trip A M ord mg ident mk mo mp hp v k0 false name keep body g2 [] fi_new O IV VX VY B FC SS K eq_refl) as (k & o & outs & o2 & R & LO & AC & _ & OP & HB & _); [discriminate|].
  rewrite R2 in R. injection R as <- <- _. rewrite OB in OP. injection OP as <-. rewrite (taken_all body outs LO (AC Re Sy OK)) in HB. clear AC LO outs.
  destruct HO as (_ & IA & A1 & A2 & A3 & _), HB as (_ & IB & B1 & B2 & B3 & _).
  assert (EA : forall P, In P (f_partition_names a) <-> exists c, In c (layer_calls body) /\ fc_user c = P) by (intros P; split; [auto|intros (c & Ic & <-); auto]).
  assert (EB : forall P, In P (f_partition_names b) <-> exists c, In c (layer_calls body) /\ fc_user c = P) by (intros P; split; [auto|intros (c & Ic & <-); auto]).
  split; [apply increasing_same; auto; intros P; rewrite EA, EB; tauto|]. split; [exact EA|].
  intros vec P L. rewrite (proj2 (A3 vec P)), (proj2 (B3 false P)), (proj2 (B3 true P)). split.
  - intros (c & Ic & _ & E). destruct (fc_vec c) eqn:EV; [right|left]; exists c; unfold kind_is; rewrite EV; auto.
  - intros [(c & Ic & _ & E)|(c & Ic & _ & E)]; exists c; auto.
Qed.
Print Assumptions C65_same_listings.

(** * A concrete file *)
Definition ex_fcall (vec : bool) (user layer : string) (r : nat) : fcall (A := Z) :=
  FCall vec (str user) (str layer) (Hdf5FileProps.ex_field vec r (meta_run Hdf5FileProps.ex_history)) [node_attr (str "b") TInt32 (enc32 (Z.of_nat r))].
Definition ex_body : list (oop (A := Z)) :=
  [OMeta KInt (str "frame") (enc32 12); OWrite (ex_fcall false "fire" "density" 1); OWrite (ex_fcall true "fire" "vel" 1);
   OAddMembers [(str "burning", str "fire.0:density ")]; OWrite (ex_fcall false "fire" "density" 2); OMeta KStr (str "artist") (str "me");
   OWrite (ex_fcall true "smoke" "vel" 3); OMeta KInt (str "frame") (enc32 13)].
Definition ex_disk : disk (A := Z) := fun _ => NoFile.
Definition ex_name := str "a.f3d".
Definition ex_kids2 (m : Z) : list tree := [node_attr (str "m") TInt32 (enc32 m)].
Definition ex_write (k : disk (A := Z)) (o : fout (A := Z)) (l : list (oop (A := Z))) :=
  orun Z.eqb ex_kids2 (fun m => negb (m =? 9)) ex_put (enc_v3 ex_v) ex_hp k o l.
Definition ex_on_disk (l : list (oop (A := Z))) (n : bytes) : dfile (A := Z) :=
  match ex_write ex_disk fo_new l with Ok (k, _, _) => k n | _ => Unfinished end.
Definition ex_fopen (d : dfile (A := Z)) (o : fin (A := Z) (M := Z)) := f_open (@rev bytes) ex_get d o.
Definition ex_fin (d : dfile (A := Z)) (o : fin (A := Z) (M := Z)) : fin (A := Z) (M := Z) :=
  match ex_fopen d o with Ok (o, _) => o | _ => fi_new end.
Definition ex_file (ogawa : bool) : dfile (A := Z) := ex_on_disk (script ogawa ex_name true ex_body true) ex_name.

Example C65_example_hypotheses :
  any_order (@rev bytes) /\ int_v3 ex_v /\ Forall body_op ex_body /\
  Forall (fcall_ok (fun m => negb (m =? 9)) ex_put ex_get ex_hp) (layer_calls ex_body) /\ settings_ok (settings ex_body) /\
  one_kind (map as_h5 (layer_calls ex_body)).
Proof.
  split; [intros l; apply Permutation_sym, Permutation_rev|]. split; [repeat split|]. split; [repeat constructor|]. split; [|split; [split|]].
  - assert (G : forall vec user layer r, Hdf5FileProps.ex_usable (Hdf5FileProps.ex_call vec user layer r) = true -> (r < 9)%nat -> layer_name_ok (str layer) ->
        fcall_ok (fun m => negb (m =? 9)) ex_put ex_get ex_hp (ex_fcall vec user layer r)).
    { intros vec user layer r U R LN. destruct (ex_good vec user layer r U R) as ((U1 & U2 & U3 & U4) & F & MP).
      unfold fcall_ok. cbn [ex_fcall fc_vec fc_user fc_layer fc_field]. do 5 (split; auto). split; auto. split; auto.
      cbn [hf_ref Hdf5FileProps.ex_field]. unfold ex_hp. destruct (Z.eqb_spec (Z.of_nat r) 9); auto. lia. }
    repeat (constructor; [apply G; [reflexivity|lia|repeat split; vm_compute; discriminate]|]). constructor.
  - assert (P : forall s, negb (existsb (Z.eqb 47) (str s)) = true -> good_name (str s) -> plain_name (str s)).
    { intros s X Y. split; auto. apply not_in_b; auto. }
    repeat (constructor; [split; [apply P; [reflexivity|apply good_str; reflexivity]|cbn [ms_kind ms_value mtype value_ok]; try reflexivity; apply not_in_b; reflexivity]|]). constructor.
  - intros a b Ia Ib. cbn [ex_body settings flat_map app In] in Ia, Ib. decompose [or] Ia; decompose [or] Ib; subst; auto; try contradiction; vm_compute; discriminate.
  - intros c d Ic Id. cbn [ex_body layer_calls flat_map app map In] in Ic, Id. decompose [or] Ic; decompose [or] Id; subst; auto; try contradiction; vm_compute; discriminate.
Qed.
Example C65_example_read : forall ogawa, exists o, ex_fopen (ex_file ogawa) fi_new = Ok (o, true) /\
  f_encoding o = (if ogawa then "Ogawa" else "HDF5")%string /\ f_partition_names o = [str "fire"; str "smoke"] /\
  f_layer_names o true (str "fire") = (if ogawa then [str "density"; str "vel"] else [str "vel"]) /\
  meta_get (f_metadata o) KInt (str "frame") [] = enc32 13 /\ meta_get (f_metadata o) KStr (str "artist") [] = str "me".
Proof.
  intros [|]; (eexists; split; [vm_compute; reflexivity|]); vm_compute; repeat split.
Qed.

(** * What does not hold *)

(** An input object that opened an HDF5 file and then opens an Ogawa file says that it did, calls it an HDF5 file
    and finds nothing in it. *)
Theorem C65_reopen_refuted : ~ (forall A M ord map_get d t (o1 o2 : fin (A := A) (M := M)) l, any_order ord ->
  f_open ord map_get d fi_new = Ok (o1, true) -> validate t = true -> f_open ord map_get (OgawaFile t) o1 = Ok (o2, true) ->
  partition_names t = Ok l -> f_encoding o2 = "Ogawa"%string \/ f_partition_names o2 = l).
Proof.
  intros H.
  assert (X : exists t, ex_file true = OgawaFile t /\ validate t = true /\ partition_names t = Ok [str "fire"; str "smoke"]).
  { eexists. split; [vm_compute; reflexivity|]. split; vm_compute; reflexivity. }
  destruct X as (t & E & VT & PN).
  assert (O1 : exists o1, ex_fopen (ex_file false) fi_new = Ok (o1, true) /\ exists o2, ex_fopen (ex_file true) o1 = Ok (o2, true) /\ f_encoding o2 = "HDF5"%string /\ f_partition_names o2 = []).
  { eexists. split; [vm_compute; reflexivity|]. eexists. split; [vm_compute; reflexivity|]. split; vm_compute; reflexivity. }
  destruct O1 as (o1 & O1 & o2 & O2 & EN & PO). rewrite E in O2.
  destruct (H Z Z (@rev bytes) ex_get _ t o1 o2 _ ltac:(intros l; apply Permutation_sym, Permutation_rev) O1 VT O2 PN) as [C|C].
  - rewrite EN in C. discriminate.
  - rewrite PO in C. discriminate.
Qed.
Print Assumptions C65_reopen_refuted.
(** So does one that failed to open a file of neither kind. *)
Theorem C65_failed_open_refuted : ~ (forall A M ord map_get t (o1 o2 : fin (A := A) (M := M)) l, any_order ord ->
  f_open ord map_get OtherFile fi_new = Ok (o1, false) -> validate t = true -> f_open ord map_get (OgawaFile t) o1 = Ok (o2, true) ->
  partition_names t = Ok l -> f_partition_names o2 = l).
Proof.
  intros H.
  assert (X : exists t, ex_file true = OgawaFile t /\ validate t = true /\ partition_names t = Ok [str "fire"; str "smoke"]).
  { eexists. split; [vm_compute; reflexivity|]. split; vm_compute; reflexivity. }
  destruct X as (t & E & VT & PN).
  assert (O1 : exists o1, ex_fopen OtherFile fi_new = Ok (o1, false) /\ exists o2, ex_fopen (ex_file true) o1 = Ok (o2, true) /\ f_partition_names o2 = []).
  { eexists. split; [vm_compute; reflexivity|]. eexists. split; vm_compute; reflexivity. }
  destruct O1 as (o1 & O1 & o2 & O2 & PO). rewrite E in O2.
  pose proof (H Z Z (@rev bytes) ex_get t o1 o2 _ ltac:(intros l; apply Permutation_sym, Permutation_rev) O1 VT O2 PN) as C. rewrite PO in C. discriminate.
Qed.
Print Assumptions C65_failed_open_refuted.
(** Metadata of one Ogawa file shows up in the next. *)
Theorem C65_metadata_leaks_refuted : ~ (forall A M ord map_get d1 t (o1 o2 o2' : fin (A := A) (M := M)), any_order ord ->
  f_open ord map_get d1 fi_new = Ok (o1, true) -> f_open ord map_get (OgawaFile t) o1 = Ok (o2, true) ->
  f_open ord map_get (OgawaFile t) fi_new = Ok (o2', true) -> same_meta (f_metadata o2) (f_metadata o2')).
Proof.
  intros H. set (e := ex_on_disk (script true ex_name true [] false) ex_name).
  assert (X : exists t, e = OgawaFile t) by (eexists; vm_compute; reflexivity). destruct X as (t & E).
  assert (O1 : exists o1, ex_fopen (ex_file true) fi_new = Ok (o1, true) /\ exists o2 o2', ex_fopen e o1 = Ok (o2, true) /\ ex_fopen e fi_new = Ok (o2', true) /\
    meta_get (f_metadata o2) KStr (str "artist") [] = str "me" /\ meta_get (f_metadata o2') KStr (str "artist") [] = []).
  { eexists. split; [vm_compute; reflexivity|]. eexists _, _. split; [vm_compute; reflexivity|]. split; [vm_compute; reflexivity|]. split; vm_compute; reflexivity. }
  destruct O1 as (o1 & O1 & o2 & o2' & O2 & O3 & M1 & M2). rewrite E in O2, O3.
  pose proof (H Z Z (@rev bytes) ex_get _ t o1 o2 o2' ltac:(intros l; apply Permutation_sym, Permutation_rev) O1 O2 O3 KStr (str "artist") []) as C.
  rewrite M1, M2 in C. discriminate.
Qed.
Print Assumptions C65_metadata_leaks_refuted.
(** An output object that made an HDF5 file makes Ogawa files that nothing can be written to. *)
Theorem C65_switch_refuted : ~ (forall k o outcomes name1 name2 c,
  ex_write ex_disk fo_new [OCreate false name1 false; OClose; OCreate true name2 false; OWrite c] = Ok (k, o, outcomes) ->
  fcall_ok (fun m => negb (m =? 9)) ex_put ex_get ex_hp c ->
  nth_error outcomes 2 = Some Accepted -> nth_error outcomes 3 = Some Accepted).
Proof.
  intros H. 
  assert (X : exists k o, ex_write ex_disk fo_new [OCreate false ex_name false; OClose; OCreate true (str "b") false; OWrite (ex_fcall false "fire" "density" 1)] =
    Ok (k, o, [Accepted; Accepted; Accepted; Rejected])) by (eexists _, _; vm_compute; reflexivity).
  destruct X as (k & o & X). specialize (H k o _ ex_name (str "b") _ X). cbn [nth_error] in H.
  assert (C : Some Rejected = Some Accepted); [|discriminate]. apply H; auto.
  destruct C65_example_hypotheses as (_ & _ & _ & F & _). inversion F; auto.
Qed.
Print Assumptions C65_switch_refuted.
(** Metadata that is set before the file is made goes into an Ogawa file and not into an HDF5 file. *)
Theorem C65_early_metadata_refuted : ~ (forall ogawa o,
  ex_fopen (ex_on_disk [OMeta KStr (str "artist") (str "me"); OCreate ogawa ex_name false; OGlobals; OClose] ex_name) fi_new = Ok (o, true) ->
  meta_get (f_metadata o) KStr (str "artist") [] = str "me").
Proof.
  intros H.
  assert (X : exists o, ex_fopen (ex_on_disk [OMeta KStr (str "artist") (str "me"); OCreate false ex_name false; OGlobals; OClose] ex_name) fi_new = Ok (o, true) /\
    meta_get (f_metadata o) KStr (str "artist") [] = []) by (eexists; split; vm_compute; reflexivity).
  destruct X as (o & X & Y). apply H in X. rewrite Y in X. discriminate.
Qed.
Print Assumptions C65_early_metadata_refuted.
Example C65_early_metadata_ogawa : exists o,
  ex_fopen (ex_on_disk [OMeta KStr (str "artist") (str "me"); OCreate true ex_name false; OGlobals; OClose] ex_name) fi_new = Ok (o, true) /\
  meta_get (f_metadata o) KStr (str "artist") [] = str "me".
Proof. eexists; split; vm_compute; reflexivity. Qed.
(** Writing the metadata of an object that has no file dereferences a null pointer (of one that had an HDF5 file it returns false). *)
Theorem C65_no_file_refuted : ~ (forall l, ex_write ex_disk fo_new l <> UB).
Proof. intros H. apply (H [OGlobals]). reflexivity. Qed.
Print Assumptions C65_no_file_refuted.
(** The names of scalar layers are those of all layers in an Ogawa file. *)
Theorem C65_scalar_names_refuted : ~ (forall a b, ex_fopen (ex_file true) fi_new = Ok (a, true) -> ex_fopen (ex_file false) fi_new = Ok (b, true) ->
  forall P, f_layer_names a false P = f_layer_names b false P).
Proof.
  intros H.
  assert (OA : ex_fopen (ex_file true) fi_new = Ok (ex_fin (ex_file true) fi_new, true)) by (vm_compute; reflexivity).
  assert (OB : ex_fopen (ex_file false) fi_new = Ok (ex_fin (ex_file false) fi_new, true)) by (vm_compute; reflexivity).
  specialize (H _ _ OA OB (str "fire")). clear OA OB. vm_compute in H. discriminate.
Qed.
Print Assumptions C65_scalar_names_refuted.
(** An HDF5 file that was closed still lists its partitions. *)
Theorem C65_closed_refuted : ~ (forall ogawa o, ex_fopen (ex_file ogawa) fi_new = Ok (o, true) -> f_partition_names (f_close o) = []).
Proof.
  intros H.
  assert (X : exists o, ex_fopen (ex_file false) fi_new = Ok (o, true) /\ f_partition_names (f_close o) = [str "fire"; str "smoke"]) by (eexists; split; vm_compute; reflexivity).
  destruct X as (o & X & Y). apply H in X. rewrite Y in X. discriminate.
Qed.
Print Assumptions C65_closed_refuted.
(** Reading layers without saying whether they are scalar or vector finds those of Ogawa files only. *)
Theorem C65_read_layers_refuted : ~ (forall ogawa o, ex_fopen (ex_file ogawa) fi_new = Ok (o, true) ->
  exists l, f_own_layers o (str "fire") (str "density") = Ok l /\ l <> []).
Proof.
  intros H.
  assert (X : exists o, ex_fopen (ex_file false) fi_new = Ok (o, true) /\ f_own_layers o (str "fire") (str "density") = Ok []) by (eexists; split; vm_compute; reflexivity).
  destruct X as (o & X & Y). apply H in X as (l & X & N). rewrite Y in X. injection X as <-. auto.
Qed.
Print Assumptions C65_read_layers_refuted.

(** ** One object, several files *)
(** Making the next file ends the one before as closing it does, and so does destroying the object. *)
Theorem C65_next_file : forall A M ident map_kids map_ok map_put version (hp : nat -> M) k (o : fout (A := A)) ogawa name keep k2 o2 oc kc o',
  ostep ident map_kids map_ok map_put version hp k o (OCreate ogawa name keep) = Ok (k2, o2, oc) ->
  ostep ident map_kids map_ok map_put version hp k o OClose = Ok (kc, o', Accepted) ->
  ogawa = true \/ fo_h5 o <> None \/ fo_og o = None ->
  (forall n, n <> name -> k2 n = kc n) /\ (oc = Rejected -> forall n, k2 n = kc n) /\
  (fo_h5 o = None \/ fo_og o = None -> forall n, f_destroy version k o n = kc n).
Proof.
  intros A M ident mk mo mp v hp k o ogawa name keep k2 o2 oc kc o' C L G. cbn [ostep] in C, L.
  assert (DS : forall k d n, n <> name -> disk_set (A := A) k name d n = k n).
  { intros k' d n N. unfold disk_set. destruct (bytes_eqb_spec n name); [contradiction|reflexivity]. }
  assert (X : (forall n, n <> name -> k2 n = kc n) /\ (oc = Rejected -> forall n, k2 n = kc n)).
  { destruct (f_out_close v k o) as [kc0 oc0] eqn:FC. injection L as <- <-.
    unfold f_create in C. destruct ogawa; cbn [negb] in C.
    - rewrite FC in C. destruct (keep && exists_file (kc0 name)); injection C as <- <- <-; split; auto; discriminate.
    - unfold f_out_close, og_close in FC. destruct (fo_h5 o) as [h|].
      + destruct (h5_close k h) as [kh hh]. injection FC as <- <-. cbn [fst] in C.
        destruct (keep && exists_file (kh name)); injection C as <- <- <-; split; auto; discriminate.
      + destruct G as [G|[G|G]]; [discriminate|contradiction|]. rewrite G in FC. injection FC as <- <-.
        destruct (keep && exists_file (k name)); injection C as <- <- <-; split; auto; discriminate. }
  split; [apply X|]. split; [apply X|]. intros One n.
  unfold f_destroy, f_out_close, og_close in *. destruct (fo_h5 o) as [h|] eqn:H5.
  - destruct One as [One|One]; [discriminate|]. rewrite One. cbn [fo_h5]. destruct (h5_close k h) as [kh hh]. injection L as <- _. reflexivity.
  - cbn [fo_h5]. injection L as <- _. reflexivity.
Qed.
Print Assumptions C65_next_file.
(** An Ogawa archive that is open when the object makes an HDF5 file stays unfinished until the object is destroyed. *)
Theorem C65_next_kind_refuted : exists k o l, 
  ex_write ex_disk fo_new [OCreate true (str "a") false; OCreate false (str "b") false; OClose] = Ok (k, o, l) /\
  Forall (eq Accepted) l /\ k (str "a") = Unfinished /\ exists t, f_destroy (enc_v3 ex_v) k o (str "a") = OgawaFile t.
Proof. eexists _, _, _. split; [vm_compute; reflexivity|]. split; [repeat constructor|]. split; [vm_compute; reflexivity|]. eexists. vm_compute. reflexivity. Qed.
Print Assumptions C65_next_kind_refuted.
Example C65_next_file_example : exists k o l, 
  ex_write ex_disk fo_new [OCreate false (str "a") false; OWrite (ex_fcall false "fire" "density" 1); OCreate false (str "b") false] = Ok (k, o, l) /\
  Forall (eq Accepted) l /\ (exists r, k (str "a") = Hdf5File r) /\ k (str "b") = Unfinished.
Proof. eexists _, _, _. split; [vm_compute; reflexivity|]. split; [repeat constructor|]. split; [eexists|]; vm_compute; reflexivity. Qed.
