From Coq Require Import ZArith List Bool String Lia Arith Permutation Sorted.
From Verif Require Import Model.Base Model.OgawaM Spec.OgawaSpec Model.OgM Spec.OgSpec Proof.OgP Model.FieldIOM Spec.FieldIOSpec Proof.FieldIOP
  Model.FileM Proof.FileP Model.CurveM Spec.CurveSpec Proof.CurveP Model.MappingIOM Spec.MappingIOSpec Proof.MappingIOP
  Model.Hdf5M Model.Hdf5FileM Proof.Hdf5MetaP Model.Hdf5MapM Spec.Hdf5MapSpec.
Import ListNotations.
Open Scope Z_scope.

Notation attrs := (list (bytes * aval)) (only parsing).

(** * Names *)
Definition pfx : list string := ["time_"; "matrix_"; "screen_to_world_"; "camera_to_world_"]%string.
Lemma pfx_inj p q i j : In p pfx -> In q pfx -> nth_name p i = nth_name q j -> p = q /\ i = j.
Proof.
  intros P Q H. assert (p = q).
  { apply (f_equal (hd 0)) in H. cbn [pfx In] in P, Q.
    destruct P as [<-|[<-|[<-|[<-|[]]]]], Q as [<-|[<-|[<-|[<-|[]]]]]; auto; vm_compute in H; discriminate. }
  split; auto. eapply nth_name_inj; eauto.
Qed.
Lemma pfx_good p i : In p pfx -> good_name (nth_name p i).
Proof. intros P. cbn [pfx In] in P. destruct P as [<-|[<-|[<-|[<-|[]]]]]; nn. Qed.

Definition fresh (l : attrs) (i : nat) : Prop := forall p j, In p pfx -> (i <= j)%nat -> ~ In (nth_name p j) (map fst l).
Lemma put_fresh (l : attrs) p i v : In p pfx -> ~ In (nth_name p i) (map fst l) -> put_av l (nth_name p i) v = Some (l ++ [(nth_name p i, v)]).
Proof. intros P N. apply put_av_ok; auto. apply pfx_good; auto. Qed.
Lemma not_next (l : attrs) p q i v : In p pfx -> In q pfx -> p <> q -> ~ In (nth_name p i) (map fst l) -> ~ In (nth_name p i) (map fst (l ++ [(nth_name q i, v)])).
Proof. intros P Q N H I. rewrite map_app, in_app_iff in I. destruct I as [I|[I|[]]]; auto. cbn in I. apply pfx_inj in I as (E & _); auto. Qed.

Section Rows.
Context {S : Type}.
Variable row : nat -> S -> attrs.
Fixpoint rows (i : nat) (l : list S) : attrs := match l with [] => [] | s :: r => row i s ++ rows (Datatypes.S i) r end.
Lemma rows_in l : forall i k s, nth_error l k = Some s -> incl (row (i + k) s) (rows i l).
Proof.
  induction l as [|a l IH]; intros i [|k] s E; try discriminate; cbn [nth_error] in E.
  - injection E as ->. rewrite Nat.add_0_r. cbn [rows]. apply incl_appl, incl_refl.
  - cbn [rows]. rewrite Nat.add_succ_r. apply incl_appr. apply (IH (Datatypes.S i)); auto.
Qed.
(** The names of a row are different ones of its index. *)
Variable ps : list string.
Hypothesis PS : incl ps pfx.
Hypothesis PD : NoDup ps.
Hypothesis RN : forall i s, map fst (row i s) = map (fun p => nth_name p i) ps.
Lemma row_nodup i s : NoDup (map fst (row i s)).
Proof.
  rewrite RN. clear RN. induction PD as [|p l NI ND IH]; cbn; constructor.
  - intros I. apply in_map_iff in I as (q & E & I). apply pfx_inj in E as (-> & _); auto. apply PS; right; auto. apply PS; left; auto.
  - apply IH; auto. intros x I. apply PS; right; auto.
Qed.
Lemma rows_names l : forall i n, In n (map fst (rows i l)) -> exists p j, In p ps /\ (i <= j)%nat /\ n = nth_name p j.
Proof.
  induction l as [|s l IH]; intros i n I; [destruct I|]. cbn [rows] in I. rewrite map_app, in_app_iff, RN in I. destruct I as [I|I].
  - apply in_map_iff in I as (p & <- & I). exists p, i. auto.
  - apply IH in I as (p & j & A & B & C). exists p, j. repeat split; auto. lia.
Qed.
Lemma rows_nodup l : forall i, NoDup (map fst (rows i l)).
Proof.
  induction l as [|s l IH]; intros i; cbn [rows map]; [constructor|]. rewrite map_app. apply nodup_app; [apply row_nodup|apply IH|].
  intros n I J. rewrite RN in I. apply in_map_iff in I as (p & <- & I). apply rows_names in J as (q & j & A & B & C).
  apply pfx_inj in C as (_ & <-); auto. lia.
Qed.
Lemma rows_apart l i n : (forall p j, In p ps -> n <> nth_name p j) -> ~ In n (map fst (rows i l)).
Proof. intros H I. apply rows_names in I as (p & j & A & _ & ->). eapply H; eauto. Qed.
End Rows.

Lemma fixed_apart n : In n [str "mapping_type"; str "num_time_samples"; str "z_distribution"; str "class_type"; str "MatrixFieldMapping data"; str "NullFieldMapping data"] ->
  forall p j, In p pfx -> n <> nth_name p j.
Proof.
  intros N p j P E. cbn [pfx In] in P, N.
  repeat match goal with H : _ \/ _ |- _ => destruct H as [H|H] end; try contradiction; subst p n;
    first [apply (f_equal (hd 0)) in E; vm_compute in E; discriminate
          |apply (f_equal (fun l => nth 1 l 0)) in E; vm_compute in E; discriminate
          |apply (f_equal (fun l => nth 2 l 0)) in E; vm_compute in E; discriminate].
Qed.

Section P.
Context {T X : Type}.
Variables ltb eqb : T -> T -> bool.
Variable t_enc : T -> bytes.
Variable t_dec : bytes -> T.
Variable x_enc : X -> bytes.
Variable x_dec : bytes -> X.
Variable t0 : T.
Variables ss0 cs0 x_id : X.
Hypothesis O : ordered ltb eqb.
Hypothesis ST : storable TFloat32 t_enc t_dec.
Hypothesis SX : storable TMtx64 x_enc x_dec.
Lemma t_back t : t_dec (t_enc t) = t. Proof. apply ST. Qed.
Lemma x_back x : x_dec (x_enc x) = x. Proof. apply SX. Qed.

(** * Writing *)
Definition mrow (i : nat) (s : T * X) : attrs :=
  [(nth_name "time_" i, VNum true 4 [1%nat] (t_enc (fst s))); (nth_name "matrix_" i, VNum true 8 [4%nat; 4%nat] (x_enc (snd s)))].
Definition frow (i : nat) (s : (T * X) * (T * X)) : attrs :=
  [(nth_name "time_" i, VNum true 4 [1%nat] (t_enc (fst (fst s))));
   (nth_name "screen_to_world_" i, VNum true 8 [4%nat; 4%nat] (x_enc (snd (fst s))));
   (nth_name "camera_to_world_" i, VNum true 8 [4%nat; 4%nat] (x_enc (snd (snd s))))].
Definition mps : list string := ["time_"; "matrix_"]%string.
Definition fps : list string := ["time_"; "screen_to_world_"; "camera_to_world_"]%string.
Lemma mps_ok : incl mps pfx /\ NoDup mps.
Proof. split; [intros p; cbn; tauto|repeat constructor; cbn; intuition discriminate]. Qed.
Lemma fps_ok : incl fps pfx /\ NoDup fps.
Proof. split; [intros p; cbn; tauto|repeat constructor; cbn; intuition discriminate]. Qed.

Lemma fresh_mrow l i s : fresh l i -> fresh (l ++ mrow i s) (S i).
Proof.
  intros F p j P L I. rewrite map_app, in_app_iff in I. destruct I as [I|I]; [apply (F p j); auto; lia|].
  cbn [mrow map fst In] in I. destruct I as [I|[I|[]]]; apply pfx_inj in I; auto; try lia; cbn; tauto.
Qed.
Lemma fresh_frow l i s : fresh l i -> fresh (l ++ frow i s) (S i).
Proof.
  intros F p j P L I. rewrite map_app, in_app_iff in I. destruct I as [I|I]; [apply (F p j); auto; lia|].
  cbn [frow map fst In] in I. destruct I as [I|[I|[I|[]]]]; apply pfx_inj in I; auto; try lia; cbn; tauto.
Qed.
Ltac pf := cbn; tauto.
Lemma mput_eq c : forall i l, fresh l i -> matrix_put_from t_enc x_enc i c l = (l ++ rows mrow i c, true).
Proof.
  induction c as [|(t, m) r IH]; intros i l F; cbn [matrix_put_from rows]; [rewrite app_nil_r; auto|].
  unfold put_one, put_mtx, put_num. rewrite put_fresh by (try pf; apply F; auto; pf). cbn [and_then].
  rewrite put_fresh; [|pf|]. 2:{ apply not_next; try pf; [discriminate|]. apply F; auto; pf. }
  cbn [and_then]. rewrite <- app_assoc. cbn [app]. rewrite IH.
  - rewrite <- !app_assoc. reflexivity.
  - apply (fresh_mrow l i (t, m)); auto.
Qed.
Lemma fput_eq ss : forall cs i l, fresh l i -> frustum_put_from t_enc x_enc i ss cs l =
  if Nat.leb (List.length ss) (List.length cs) then Ok (l ++ rows frow i (combine ss cs), true) else UB.
Proof.
  induction ss as [|(t, m) r IH]; intros cs i l F; cbn [frustum_put_from rows List.length Nat.leb combine]; [rewrite app_nil_r; auto|].
  unfold put_one, put_mtx, put_num. rewrite put_fresh by (try pf; apply F; auto; pf).
  rewrite put_fresh; [|pf|]. 2:{ apply not_next; try pf; [discriminate|]. apply F; auto; pf. }
  destruct cs as [|(u, k) cs]; cbn [List.length Nat.leb]; auto.
  rewrite put_fresh; [|pf|]. 2:{ repeat (apply not_next; try pf; [discriminate|]). apply F; auto; pf. }
  rewrite <- !app_assoc. cbn [app rows]. rewrite IH.
  - rewrite <- !app_assoc. reflexivity.
  - apply (fresh_frow l i ((t, m), (u, k))); auto.
Qed.

Definition head (c : bytes) (n : nat) : attrs :=
  [(str "mapping_type", VStr c); (str "num_time_samples", VNum false 4 [1%nat] (enc32 (Z.of_nat n)))].
Lemma head_fresh c n : fresh (head c n) 0.
Proof. intros p j P _ I. cbn [head map fst In] in I. destruct I as [I|[I|[]]]; revert I; apply fixed_apart; auto; cbn; tauto. Qed.
Definition mattrs (c : list (T * X)) : attrs := head (str "MatrixFieldMapping") (List.length c) ++ rows mrow 0 c.
Lemma mattrs_eq c : mapping_put t_enc x_enc (MapMatrix c) = Ok (mattrs c, true).
Proof.
  unfold mapping_put. cbn [class_of]. change (put_str [] (str "mapping_type") (str "MatrixFieldMapping")) with (Some [(str "mapping_type", VStr (str "MatrixFieldMapping"))]).
  cbn iota. unfold matrix_put, put_one, put_num.
  rewrite put_av_ok; [|split; vm_compute; [discriminate|intuition discriminate]|vm_compute; intuition discriminate].
  cbn [and_then app]. change [(str "mapping_type", VStr (str "MatrixFieldMapping")); (str "num_time_samples", VNum false 4 [1%nat] (enc32 (Z.of_nat (List.length c))))]
    with (head (str "MatrixFieldMapping") (List.length c)).
  rewrite mput_eq by apply head_fresh. reflexivity.
Qed.
Definition fattrs (f : frustum) : attrs :=
  head (str "FrustumFieldMapping") (List.length (fr_ss f)) ++ rows frow 0 (combine (fr_ss f) (fr_cs f)) ++ [(str "z_distribution", VNum false 4 [1%nat] (enc32 (fr_z f)))].
Lemma frows_apart n i l : In n [str "mapping_type"; str "num_time_samples"; str "z_distribution"; str "class_type"; str "MatrixFieldMapping data"; str "NullFieldMapping data"] ->
  ~ In n (map fst (rows frow i l)).
Proof.
  intros N. apply rows_apart with (ps := fps); [reflexivity|]. intros p j P. apply fixed_apart; auto. apply fps_ok; auto.
Qed.
Lemma mrows_apart n i l : In n [str "mapping_type"; str "num_time_samples"; str "z_distribution"; str "class_type"; str "MatrixFieldMapping data"; str "NullFieldMapping data"] ->
  ~ In n (map fst (rows mrow i l)).
Proof.
  intros N. apply rows_apart with (ps := mps); [reflexivity|]. intros p j P. apply fixed_apart; auto. apply mps_ok; auto.
Qed.
Lemma fattrs_eq f : mapping_put t_enc x_enc (MapFrustum f) =
  if Nat.leb (List.length (fr_ss f)) (List.length (fr_cs f)) then Ok (fattrs f, true) else UB.
Proof.
  unfold mapping_put. cbn [class_of]. change (put_str [] (str "mapping_type") (str "FrustumFieldMapping")) with (Some [(str "mapping_type", VStr (str "FrustumFieldMapping"))]).
  cbn iota. unfold frustum_put. unfold put_one at 1, put_num at 1.
  rewrite put_av_ok; [|split; vm_compute; [discriminate|intuition discriminate]|vm_compute; intuition discriminate].
  cbn [app]. change [(str "mapping_type", VStr (str "FrustumFieldMapping")); (str "num_time_samples", VNum false 4 [1%nat] (enc32 (Z.of_nat (List.length (fr_ss f)))))]
    with (head (str "FrustumFieldMapping") (List.length (fr_ss f))).
  rewrite fput_eq by apply head_fresh. destruct (Nat.leb _ _); cbn [bind negb]; auto. unfold put_one, put_num.
  rewrite put_av_ok.
  - cbn [and_then]. unfold fattrs. rewrite <- app_assoc. reflexivity.
  - split; vm_compute; [discriminate|intuition discriminate].
  - rewrite map_app, in_app_iff. intros [I|I]; [vm_compute in I; intuition discriminate|]. revert I. apply frows_apart. cbn; tauto.
Qed.
Lemma mattrs_nodup c : NoDup (map fst (mattrs c)).
Proof.
  unfold mattrs. rewrite map_app. apply nodup_app.
  - repeat constructor; vm_compute; intuition discriminate.
  - apply rows_nodup with (ps := mps); [apply mps_ok|apply mps_ok|reflexivity].
  - intros n I. apply mrows_apart. cbn [head map fst In] in I |- *. tauto.
Qed.
Lemma fattrs_nodup f : NoDup (map fst (fattrs f)).
Proof.
  unfold fattrs. rewrite !map_app. apply nodup_app; [|apply nodup_app|].
  - repeat constructor; vm_compute; intuition discriminate.
  - apply rows_nodup with (ps := fps); [apply fps_ok|apply fps_ok|reflexivity].
  - repeat constructor; vm_compute; intuition discriminate.
  - intros n I [J|[]]. cbn in J. subst n. revert I. apply frows_apart. cbn; tauto.
  - intros n I J. rewrite in_app_iff in J. destruct J as [J|J].
    + revert J. apply frows_apart. cbn [head map fst In] in I |- *. tauto.
    + cbn [head map fst In] in I, J. destruct J as [<-|[]]. destruct I as [I|[I|[]]]; vm_compute in I; discriminate.
Qed.

(** * Reading *)
Lemma get_num_ok l n fl size dims d cur : ~ In 0 n -> find_by n l = Some (VNum fl size dims d) -> get_num l n fl size dims cur = Ok d.
Proof.
  intros Z F. unfold get_num. rewrite cstr_id, F by auto. destruct (list_eq_dec Nat.eq_dec dims dims); [|congruence]. cbn [negb].
  rewrite eqb_reflx, Nat.eqb_refl. reflexivity.
Qed.
Lemma perm_find (l l' : attrs) n (v : aval) : NoDup (map fst l) -> Permutation l' l -> In (n, v) l -> find_by n l' = Some v.
Proof.
  intros ND P I. apply find_by_in.
  - eapply Permutation_NoDup; [apply Permutation_map, Permutation_sym; exact P|auto].
  - eapply Permutation_in; [apply Permutation_sym; exact P|auto].
Qed.
Lemma perm_none (l l' : attrs) n : Permutation l' l -> ~ In n (map fst l) -> find_by n l' = None.
Proof. intros P N. apply find_by_none. intros I. apply N. eapply Permutation_in; [apply Permutation_map; exact P|auto]. Qed.

Lemma mget_eq l' (c2 : list (T * X)) : forall i mtx c1,
  (forall k s, nth_error c2 k = Some s -> find_by (nth_name "time_" (i + k)) l' = Some (VNum true 4 [1%nat] (t_enc (fst s))) /\
     find_by (nth_name "matrix_" (i + k)) l' = Some (VNum true 8 [4%nat; 4%nat] (x_enc (snd s)))) ->
  matrix_get_from ltb eqb t_dec x_dec t0 l' i (List.length c2) mtx c1 =
  Ok (fold_left (fun l s => add_sample ltb eqb (fst s) (snd s) l) c2 c1).
Proof.
  induction c2 as [|s c2 IH]; intros i mtx c1 H; cbn [List.length matrix_get_from fold_left]; auto.
  destruct (H 0%nat s eq_refl) as (A & B). rewrite Nat.add_0_r in A, B.
  rewrite (get_num_ok _ _ _ _ _ _ _ (proj2 (pfx_good "time_" i ltac:(pf))) A). cbn [bind].
  rewrite (get_num_ok _ _ _ _ _ _ _ (proj2 (pfx_good "matrix_" i ltac:(pf))) B). cbn [bind matrix_op].
  rewrite t_back, x_back. apply IH. intros k s' E. rewrite Nat.add_succ_comm. apply H. auto.
Qed.
Lemma fget_eq l' (c2 : list ((T * X) * (T * X))) : forall i time a b f,
  (forall k s, nth_error c2 k = Some s -> find_by (nth_name "time_" (i + k)) l' = Some (VNum true 4 [1%nat] (t_enc (fst (fst s)))) /\
     find_by (nth_name "screen_to_world_" (i + k)) l' = Some (VNum true 8 [4%nat; 4%nat] (x_enc (snd (fst s)))) /\
     find_by (nth_name "camera_to_world_" (i + k)) l' = Some (VNum true 8 [4%nat; 4%nat] (x_enc (snd (snd s))))) ->
  frustum_get_from ltb eqb t_dec x_dec l' i (List.length c2) time a b f =
  Ok (fold_left (fun f s => set_transforms ltb eqb f (fst (fst s)) (snd (fst s)) (snd (snd s))) c2 f).
Proof.
  induction c2 as [|s c2 IH]; intros i time a b f H; cbn [List.length frustum_get_from fold_left]; auto.
  destruct (H 0%nat s eq_refl) as (A & B & C). rewrite Nat.add_0_r in A, B, C.
  rewrite (get_num_ok _ _ _ _ _ _ _ (proj2 (pfx_good "time_" i ltac:(pf))) A). cbn [bind].
  rewrite (get_num_ok _ _ _ _ _ _ _ (proj2 (pfx_good "screen_to_world_" i ltac:(pf))) B). cbn [bind].
  rewrite (get_num_ok _ _ _ _ _ _ _ (proj2 (pfx_good "camera_to_world_" i ltac:(pf))) C). cbn [bind].
  rewrite t_back, !x_back. apply IH. intros k s' E. rewrite Nat.add_succ_comm. apply H. auto.
Qed.
Lemma num_ok l' n : Z.of_nat n < 2 ^ 31 -> find_by (str "num_time_samples") l' = Some (VNum false 4 [1%nat] (enc32 (Z.of_nat n))) -> num_samples l' = Ok n.
Proof.
  intros N F. unfold num_samples. rewrite (get_num_ok _ _ _ _ _ (enc32 (Z.of_nat n))); [|vm_compute; intuition discriminate|auto].
  cbn [bind or_else]. rewrite dec_i32_enc by (apply in_int_iff; lia). rewrite Nat2Z.id. reflexivity.
Qed.
Lemma type_ok l' (c : bytes) : ~ In 0 c -> find_by (str "mapping_type") l' = Some (VStr c) -> get_str l' (str "mapping_type") = Ok c.
Proof. intros Z F. unfold get_str. change (cstr (str "mapping_type")) with (str "mapping_type"). rewrite F, cstr_id by auto. reflexivity. Qed.

Lemma matrix_back c l' : rising ltb c -> Z.of_nat (List.length c) < 2 ^ 31 -> Permutation l' (mattrs c) ->
  mapping_get ltb eqb t_dec x_enc x_dec t0 ss0 cs0 x_id l' = Ok (Some (MapMatrix c)).
Proof.
  intros R N P. pose proof (mattrs_nodup c) as ND. unfold mapping_get.
  rewrite (type_ok l' (str "MatrixFieldMapping")); [|vm_compute; intuition discriminate|eapply perm_find; eauto; left; auto].
  cbn [bind]. assert (bytes_eqb (str "MatrixFieldMapping") (str "NullFieldMapping") = false) as -> by reflexivity. rewrite beq_refl.
  unfold matrix_get. unfold get_num at 1. change (cstr (str "MatrixFieldMapping data")) with (str "MatrixFieldMapping data").
  rewrite (perm_none _ _ _ P). 2:{ unfold mattrs. rewrite map_app, in_app_iff. intros [I|I]; [vm_compute in I; intuition discriminate|]. revert I. apply mrows_apart. cbn; tauto. }
  cbn [bind or_else]. rewrite (num_ok l' (List.length c) N) by (eapply perm_find; eauto; right; left; auto). cbn [bind].
  rewrite mget_eq.
  - cbn [bind]. rewrite curve_rebuild; auto.
  - intros k s E. pose proof (rows_in mrow c 0 k s E) as I. cbn [Nat.add] in *.
    split; (eapply perm_find; eauto; apply in_app_iff; right; apply I; cbn; tauto).
Qed.
Lemma frustum_back f l' : (List.length (fr_ss f) <= List.length (fr_cs f))%nat -> Z.of_nat (List.length (fr_ss f)) < 2 ^ 31 -> in_int (fr_z f) = true ->
  Permutation l' (fattrs f) ->
  mapping_get ltb eqb t_dec x_enc x_dec t0 ss0 cs0 x_id l' = Ok (Some (MapFrustum (frustum_op ltb eqb t0 ss0 cs0
    (fold_left (fun f s => set_transforms ltb eqb f (fst (fst s)) (snd (fst s)) (snd (snd s))) (combine (fr_ss f) (fr_cs f)) (fr_new ltb eqb t0 ss0 cs0))
    (FDist (fr_z f))))).
Proof.
  intros LE N IZ P. pose proof (fattrs_nodup f) as ND. unfold mapping_get.
  rewrite (type_ok l' (str "FrustumFieldMapping")); [|vm_compute; intuition discriminate|eapply perm_find; eauto; left; auto].
  cbn [bind]. assert (bytes_eqb (str "FrustumFieldMapping") (str "NullFieldMapping") = false) as -> by reflexivity.
  assert (bytes_eqb (str "FrustumFieldMapping") (str "MatrixFieldMapping") = false) as -> by reflexivity. rewrite beq_refl.
  unfold frustum_get. rewrite (num_ok l' (List.length (fr_ss f)) N) by (eapply perm_find; eauto; right; left; auto). cbn [bind].
  assert (EL : List.length (fr_ss f) = List.length (combine (fr_ss f) (fr_cs f))) by (rewrite combine_length; lia).
  rewrite EL at 1. rewrite fget_eq.
  - cbn [bind]. rewrite (get_num_ok l' (str "z_distribution") false 4 [1%nat] (enc32 (fr_z f)) None).
    + cbn [bind or_else]. rewrite dec_i32_enc by auto. reflexivity.
    + vm_compute; intuition discriminate.
    + eapply perm_find; eauto. unfold fattrs. rewrite !in_app_iff. right. right. left. auto.
  - intros k s E. pose proof (rows_in frow _ 0 k s E) as I. cbn [Nat.add] in *.
    repeat split; (eapply perm_find; eauto; apply in_app_iff; right; apply in_app_iff; left; apply I; cbn; tauto).
Qed.
Lemma class_none_m c : find_by (str "class_type") (mattrs c) = None.
Proof. apply find_by_none. unfold mattrs. rewrite map_app, in_app_iff. intros [I|I]; [vm_compute in I; intuition discriminate|]. revert I. apply mrows_apart. cbn; tauto. Qed.
Lemma class_none_f f : find_by (str "class_type") (fattrs f) = None.
Proof.
  apply find_by_none. unfold fattrs. rewrite !map_app, !in_app_iff. intros [I|[I|I]]; try (vm_compute in I; intuition discriminate). revert I. apply frows_apart. cbn; tauto.
Qed.

(** * Frustum histories *)
Notation add_all := (fold_left (fun l s => add_sample ltb eqb (fst s) (snd s) l)).
Notation sets ops := (flat_map (fun o => match o with FSetAt t _ cs => [(t, cs)] | _ => [] end) ops).
Lemma frustum_run_eq (ops : list (@fop T X)) :
  let f := fold_left (frustum_op ltb eqb t0 ss0 cs0) ops (fr_new ltb eqb t0 ss0 cs0) in
  fr_ss f = curve_run ltb eqb (screen_history t0 ss0 ops) /\ fr_cs f = curve_run ltb eqb (camera_history t0 cs0 ops) /\
  (fr_default f = true <-> sets (since_reset ops) = []).
Proof.
  induction ops as [|o ops (A & B & C)] using rev_ind; [repeat split; auto|].
  rewrite fold_left_app. cbn [fold_left]. set (f := fold_left _ ops _) in *. cbv zeta.
  assert (SH : screen_history t0 ss0 (ops ++ [o]) = screen_history t0 ss0 ops ++ match o with FSetAt t ss _ => [(t, ss)] | FReset => [(t0, ss0)] | FDist _ => [] end).
  { unfold screen_history. rewrite flat_map_app. cbn [flat_map app]. rewrite app_nil_r. reflexivity. }
  assert (SR : since_reset (ops ++ [o]) = match o with FReset => [] | _ => since_reset ops ++ [o] end).
  { unfold since_reset. rewrite fold_left_app. cbn [fold_left]. destruct o; auto. }
  unfold camera_history in *. rewrite SH, SR. unfold curve_run in *. rewrite fold_left_app, <- A.
  destruct o as [t ss cs| |z].
  - cbn [frustum_op fold_left]. rewrite flat_map_app. cbn [flat_map app]. unfold set_transforms.
    destruct (fr_default f) eqn:D; cbn [fr_ss fr_cs fr_default fr_z clear_curves].
    + rewrite (proj1 C eq_refl). cbn [app fold_left]. split; [reflexivity|]. split; [reflexivity|]. split; discriminate.
    + split; [reflexivity|]. destruct (sets (since_reset ops)) as [|s l] eqn:E; [destruct C as (_ & C); discriminate (C eq_refl)|].
      cbn [app]. change (s :: l ++ [(t, cs)]) with ((s :: l) ++ [(t, cs)]). rewrite fold_left_app, <- B. cbn [fold_left].
      split; [reflexivity|]. split; [congruence|discriminate].
  - cbn [frustum_op fold_left flat_map]. unfold fr_reset, set_transforms. cbn [clear_curves fr_ss fr_cs fr_default fr_z].
    destruct (fr_default f); cbn [fr_ss fr_cs fr_default fr_z]; repeat split; auto.
  - cbn [frustum_op fold_left fr_ss fr_cs fr_default]. rewrite flat_map_app. cbn [flat_map]. rewrite app_nil_r. auto.
Qed.

Lemma run_times (h : list (T * X)) : forall t, In t (map fst (curve_run ltb eqb h)) <-> In t (map fst h).
Proof.
  induction h as [|s h IH] using rev_ind; intros t; [reflexivity|]. unfold curve_run in *. rewrite fold_left_app. cbn [fold_left].
  rewrite map_app, in_app_iff, <- IH. cbn [map In]. unfold add_sample. destruct (existsb _ _) eqn:E.
  - rewrite replace_times. split; [tauto|]. intros [H|[<-|[]]]; auto. apply existsb_exists in E as (x & Ix & E).
    apply (eqb_iff _ _ O) in E. rewrite <- E. apply in_map; auto.
  - rewrite !in_map_iff. split.
    + intros (x & <- & Ix). apply insert_in' in Ix as [->|Ix]; eauto.
    + intros [(x & <- & Ix)|[<-|[]]]; [exists x|exists s]; (split; auto); apply insert_in'; auto. left. destruct s; auto.
Qed.
Lemma run_rising h : rising ltb (curve_run (X := X) ltb eqb h). Proof. apply (curve_rising ltb eqb O). constructor. Qed.
Lemma rising_times_nodup (l : list (T * X)) : rising ltb l -> NoDup (map fst l).
Proof.
  induction 1 as [|a l S IH F]; cbn; constructor; auto. intros I. apply in_map_iff in I as (x & E & I).
  apply (proj1 (Forall_forall _ _) F) in I. rewrite E, (ltb_irr _ _ O) in I. discriminate.
Qed.
(** Two rising lists of times with the same members are equal. *)
Lemma sorted_same : forall (a b : list (T * X)), rising ltb a -> rising ltb b -> (forall t, In t (map fst a) <-> In t (map fst b)) -> map fst a = map fst b.
Proof.
  induction a as [|x a IH]; intros b A B H.
  - destruct b as [|y b]; auto. destruct (proj2 (H (fst y))); cbn; auto.
  - destruct b as [|y b]; [destruct (proj1 (H (fst x))); cbn; auto|].
    inversion A as [|? ? A1 A2]; subst. inversion B as [|? ? B1 B2]; subst.
    assert (LT : forall (l : list (T * X)) u, Forall (fun b : T * X => ltb u (fst b) = true) l -> forall t, In t (map fst l) -> ltb u t = true).
    { intros l u F t I. apply in_map_iff in I as (z & <- & I). apply (proj1 (Forall_forall _ _) F z I). }
    assert (E : fst x = fst y).
    { destruct (proj1 (H (fst x)) (or_introl eq_refl)) as [E|I]; [cbn in E; congruence|].
      destruct (proj2 (H (fst y)) (or_introl eq_refl)) as [E|J]; [cbn in E; congruence|].
      pose proof (LT _ _ B2 _ I) as P. pose proof (LT _ _ A2 _ J) as Q. rewrite (ltb_anti ltb eqb O _ _ P) in Q. discriminate. }
    cbn [map]. f_equal; auto. apply IH; auto. intros t. split; intros I.
    + destruct (proj1 (H t) (or_intror I)) as [K|K]; auto. cbn in K. pose proof (LT _ _ A2 _ I) as P. rewrite E, K, (ltb_irr _ _ O) in P. discriminate.
    + destruct (proj2 (H t) (or_intror I)) as [K|K]; auto. cbn in K. pose proof (LT _ _ B2 _ I) as P. rewrite <- E, K, (ltb_irr _ _ O) in P. discriminate.
Qed.
Lemma rising_same (a b : list (T * X)) : rising ltb a -> rising ltb b -> (forall t, value_at eqb a t = value_at eqb b t) -> a = b.
Proof.
  intros A B H. assert (M : forall x, In x a <-> In x b).
  { intros (t, v). rewrite <- !(value_in ltb eqb O) by auto. rewrite H. reflexivity. }
  assert (E : map fst a = map fst b).
  { apply sorted_same; auto. intros t. rewrite !in_map_iff. split; intros (x & <- & Ix); exists x; split; auto; apply M; auto. }
  clear H. assert (ND := rising_times_nodup _ A). revert b E M B. induction a as [|(t, v) a IH]; intros [|(u, w) b] E M B; try discriminate; auto.
  cbn in E. injection E as <- E. cbn in ND. inversion ND; subst. 
  assert (v = w).
  { destruct (proj1 (M (t, v)) (or_introl eq_refl)) as [K|K]; [congruence|]. exfalso. apply (in_map fst) in K. rewrite <- E in K. auto. }
  subst w. f_equal. inversion A; subst. inversion B; subst. apply IH; auto. intros x. split; intros Ix.
  - destruct (proj1 (M x) (or_intror Ix)) as [<-|K]; auto. apply (in_map fst) in Ix. cbn in Ix. contradiction.
  - destruct (proj2 (M x) (or_intror Ix)) as [<-|K]; auto. apply (in_map fst) in Ix. cbn in Ix. rewrite <- E in Ix. contradiction.
Qed.

Lemma back_fold (c : list ((T * X) * (T * X))) : forall f, fr_default f = false ->
  fold_left (fun f s => set_transforms ltb eqb f (fst (fst s)) (snd (fst s)) (snd (snd s))) c f =
  Fr (add_all (map fst c) (fr_ss f)) (add_all (map (fun s => (fst (fst s), snd (snd s))) c) (fr_cs f)) false (fr_z f).
Proof.
  induction c as [|s c IH]; intros f D; cbn [fold_left map]; [destruct f; cbn in D; subst; reflexivity|].
  unfold set_transforms at 2. rewrite D. cbn iota. rewrite IH by (cbn; auto). reflexivity.
Qed.
Lemma back_eq (c : list ((T * X) * (T * X))) : c <> [] ->
  fold_left (fun f s => set_transforms ltb eqb f (fst (fst s)) (snd (fst s)) (snd (snd s))) c (fr_new ltb eqb t0 ss0 cs0) =
  Fr (add_all (map fst c) [(t0, ss0)]) (add_all (map (fun s => (fst (fst s), snd (snd s))) c) []) false 0.
Proof.
  destruct c as [|s c]; [congruence|]. intros _. cbn [fold_left map]. rewrite back_fold by reflexivity. reflexivity.
Qed.

Lemma screen_t0 ops : In t0 (map fst (screen_history t0 ss0 ops)). Proof. left; auto. Qed.
Lemma since_in (ops : list (@fop T X)) o : In o (since_reset ops) -> In o ops.
Proof.
  induction ops as [|p ops IH] using rev_ind; [intros []|]. unfold since_reset in *. rewrite fold_left_app. cbn [fold_left]. rewrite in_app_iff.
  destruct p; try (rewrite in_app_iff; tauto). intros [].
Qed.
Lemma camera_in_screen ops : incl (map fst (camera_history t0 cs0 ops)) (map fst (screen_history t0 ss0 ops)).
Proof.
  intros t I. assert (K : In t (map fst (sets (since_reset ops))) \/ t = t0).
  { unfold camera_history in I. destruct (sets (since_reset ops)); [cbn in I; intuition|auto]. }
  destruct K as [K| ->]; [|apply screen_t0]. apply in_map_iff in K as (x & <- & K). apply in_flat_map in K as (o & Io & K). apply since_in in Io.
  right. apply in_map_iff. destruct o as [t ss cs| |]; cbn [In] in K; try contradiction. destruct K as [<-|[]]. exists (t, ss). split; auto. apply in_flat_map. eexists. split; [exact Io|]. left; auto.
Qed.
Lemma value_times (l : list (T * X)) t : In t (map fst l) <-> value_at eqb l t <> None.
Proof.
  induction l as [|(u, w) l IH]; cbn; [tauto|]. destruct (eqb u t) eqn:E.
  - apply (eqb_iff _ _ O) in E. split; [discriminate|auto].
  - rewrite <- IH. split; [|auto]. intros [->|]; auto. rewrite (eqb_refl' ltb eqb O) in E. discriminate.
Qed.
(** Screen samples at the camera's times, put back on the default. *)
Lemma screen_back (ss : list (T * X)) : rising ltb ss -> In t0 (map fst ss) -> add_all ss [(t0, ss0)] = ss.
Proof.
  intros R I. apply rising_same; auto.
  - apply (curve_rising ltb eqb O). repeat constructor.
  - intros t. rewrite (curve_value ltb eqb O). pose proof (curve_value ltb eqb O ss [] t) as C. rewrite (curve_rebuild ltb eqb O) in C by auto. cbn [app] in C. cbn [value_at] in *.
    destruct (eqb t0 t) eqn:E; [|auto]. apply (eqb_iff _ _ O) in E. subst t. apply value_times in I. rewrite C in I |- *. clear C R.
    revert I. generalize (Some ss0). induction ss as [|s ss IH] using rev_ind; intros o I; [cbn in I; congruence|].
    rewrite !fold_left_app in *. cbn [fold_left] in *. destruct (eqb (fst s) t0); auto.
Qed.
Lemma camera_back (ss cs : list (T * X)) : map fst ss = map fst cs -> map (fun s => (fst (fst s), snd (snd s))) (combine ss cs) = cs.
Proof.
  revert cs. induction ss as [|(t, m) ss IH]; intros [|(u, k) cs] E; try discriminate; auto. cbn in *. injection E as -> E. f_equal. auto.
Qed.
Lemma combine_fst (ss cs : list (T * X)) : (List.length ss <= List.length cs)%nat -> map fst (combine ss cs) = ss.
Proof. revert cs. induction ss as [|s ss IH]; intros [|c cs] L; cbn in *; auto; try lia. f_equal. apply IH. lia. Qed.

Section History.
Variable ops : list (@fop T X).
Notation f := (fold_left (frustum_op ltb eqb t0 ss0 cs0) ops (fr_new ltb eqb t0 ss0 cs0)).
Lemma hist_times : (List.length (fr_ss f) <= List.length (fr_cs f))%nat <-> same_times (screen_history t0 ss0 ops) (camera_history t0 cs0 ops).
Proof.
  destruct (frustum_run_eq ops) as (A & B & _). rewrite A, B. unfold same_times.
  set (sh := screen_history t0 ss0 ops). set (ch := camera_history t0 cs0 ops).
  assert (IN : incl (map fst (curve_run ltb eqb ch)) (map fst (curve_run ltb eqb sh))).
  { intros t I. apply (proj1 (run_times _ _)) in I. apply (proj2 (run_times _ _)). apply camera_in_screen. exact I. }
  pose proof (rising_times_nodup _ (run_rising sh)) as N1. pose proof (rising_times_nodup _ (run_rising ch)) as N2.
  rewrite <- (map_length fst (curve_run ltb eqb sh)), <- (map_length fst (curve_run ltb eqb ch)). split.
  - intros L t I. apply run_times. apply (NoDup_length_incl N2 L IN). apply (proj2 (run_times _ _)). exact I.
  - intros S. apply NoDup_incl_length; auto. intros t I. apply (proj2 (run_times _ _)). apply (proj1 (run_times _ _)) in I. apply S; auto.
Qed.
Lemma hist_same : (List.length (fr_ss f) <= List.length (fr_cs f))%nat -> map fst (fr_ss f) = map fst (fr_cs f).
Proof.
  intros L. apply hist_times in L. destruct (frustum_run_eq ops) as (A & B & _). rewrite A, B. apply sorted_same; try apply run_rising.
  intros t. rewrite !run_times. split; [apply L|apply camera_in_screen].
Qed.
Lemma hist_back l' : (List.length (fr_ss f) <= List.length (fr_cs f))%nat -> Z.of_nat (List.length (fr_ss f)) < 2 ^ 31 -> in_int (fr_z f) = true ->
  Permutation l' (fattrs f) ->
  mapping_get ltb eqb t_dec x_enc x_dec t0 ss0 cs0 x_id l' = Ok (Some (MapFrustum (Fr (fr_ss f) (fr_cs f) false (fr_z f)))).
Proof.
  intros L N Z P. rewrite (frustum_back f l' L N Z P). pose proof (hist_same L) as E. destruct (frustum_run_eq ops) as (A & B & _).
  assert (I : In t0 (map fst (fr_ss f))) by (rewrite A; apply (proj2 (run_times _ _)); apply screen_t0).
  rewrite back_eq.
  - rewrite combine_fst by auto. rewrite camera_back by auto. rewrite screen_back; auto.
    + rewrite (curve_rebuild ltb eqb O (fr_cs f) []) by (cbn [app]; rewrite B; apply run_rising). reflexivity.
    + rewrite A. apply run_rising.
  - intros C. assert (Q : fr_ss f = []) by (rewrite <- (combine_fst _ _ L), C; reflexivity). rewrite Q in I. destruct I.
Qed.
End History.

(** * Any attributes *)
Lemma get_num_len l n fl size dims cur d : narrow l -> get_num l n fl size dims cur = Ok d ->
  (forall c, cur = Some c -> List.length c = (size * fold_right Nat.mul 1 dims)%nat) ->
  List.length d = (size * fold_right Nat.mul 1 dims)%nat.
Proof.
  intros N G C. unfold get_num in G. destruct (find_by (cstr n) l) as [[|fl' size' dims' data|]|] eqn:F; try discriminate.
  apply find_by_some in F. destruct (N _ _ _ _ _ F) as (LEN & _). destruct (list_eq_dec Nat.eq_dec dims' dims) as [->|]; [|discriminate].
  cbn [negb] in G. destruct (Bool.eqb fl' fl); [|discriminate]. cbn [negb] in G. destruct (Nat.eqb_spec size' size) as [->|NE]; [congruence|].
  destruct cur as [c|]; [|discriminate]. destruct (Nat.leb_spec (List.length data) (List.length c)); [|discriminate].
  injection G as <-. rewrite app_length, skipn_length. specialize (C c eq_refl). lia.
Qed.
Lemma get_num_def l n fl cur : narrow l -> get_num l n fl 4 [1%nat] cur <> UB.
Proof.
  intros N G. unfold get_num in G. destruct (find_by (cstr n) l) as [[|fl' size' dims' data|]|] eqn:F; try discriminate.
  apply find_by_some in F. destruct (N _ _ _ _ _ F) as (LEN & S4 & _). destruct (list_eq_dec Nat.eq_dec dims' [1%nat]) as [->|]; [|discriminate].
  cbn [negb] in G. destruct (Bool.eqb fl' fl); [|discriminate]. rewrite S4 in G by auto. discriminate.
Qed.
Lemma get_mtx_def l n dims c : narrow l -> dims = [16%nat] \/ dims = [4%nat; 4%nat] -> List.length c = 128%nat ->
  get_num l n true 8 dims (Some c) <> UB.
Proof.
  intros N D C G. unfold get_num in G. destruct (find_by (cstr n) l) as [[|fl' size' dims' data|]|] eqn:F; try discriminate.
  apply find_by_some in F. destruct (N _ _ _ _ _ F) as (LEN & _ & S8). destruct (list_eq_dec Nat.eq_dec dims' dims) as [->|]; [|discriminate].
  cbn [negb] in G. destruct (Bool.eqb fl' true); [|discriminate]. cbn [negb] in G. destruct (Nat.eqb size' 8); [discriminate|].
  specialize (S8 D). destruct (Nat.leb_spec (List.length data) (List.length c)); [discriminate|].
  assert (fold_right Nat.mul 1%nat dims = 16%nat) as E by (destruct D as [-> | ->]; reflexivity). rewrite E in LEN. lia.
Qed.
Lemma x_len x : List.length (x_enc x) = 128%nat. Proof. apply SX. Qed.
Lemma bind_def {A B} (r : res A) (k : A -> res B) : r <> UB -> (forall a, r = Ok a -> k a <> UB) -> bind r k <> UB.
Proof. intros H K. destruct r; cbn; auto; discriminate. Qed.
Lemma mtx_len l n dims c d : narrow l -> dims = [16%nat] \/ dims = [4%nat; 4%nat] -> List.length c = 128%nat ->
  get_num l n true 8 dims (Some c) = Ok d -> List.length d = 128%nat.
Proof.
  intros N D C G. assert (fold_right Nat.mul 1%nat dims = 16%nat) as E by (destruct D as [-> | ->]; reflexivity).
  rewrite (get_num_len _ _ _ _ _ _ _ N G); rewrite E; auto. intros ? [= <-]. lia.
Qed.
Lemma matrix_from_def l : narrow l -> forall n i mtx c, List.length mtx = 128%nat -> matrix_get_from ltb eqb t_dec x_dec t0 l i n mtx c <> UB.
Proof.
  intros N. induction n as [|n IH]; intros i mtx c L; cbn [matrix_get_from]; [discriminate|].
  apply bind_def; [apply get_num_def; auto|]. intros time _. apply bind_def; [apply get_mtx_def; auto|]. intros m G. apply IH. eapply mtx_len; eauto.
Qed.
Lemma frustum_from_def l : narrow l -> forall n i time a b f, List.length a = 128%nat -> List.length b = 128%nat ->
  frustum_get_from ltb eqb t_dec x_dec l i n time a b f <> UB.
Proof.
  intros N. induction n as [|n IH]; intros i time a b f L M; cbn [frustum_get_from]; [discriminate|].
  apply bind_def; [apply get_num_def; auto|]. intros t _. apply bind_def; [apply get_mtx_def; auto|]. intros m G.
  apply bind_def; [apply get_mtx_def; auto|]. intros k K. apply IH; [exact (mtx_len _ _ _ _ _ N (or_intror eq_refl) L G)|exact (mtx_len _ _ _ _ _ N (or_intror eq_refl) M K)].
Qed.
Lemma or_else_def {B} (a b : res B) : a <> UB -> b <> UB -> or_else a b <> UB.
Proof. destruct a; cbn; auto. Qed.
Lemma num_def l : narrow l -> num_samples l <> UB.
Proof. intros N. apply or_else_def; [|discriminate]. apply bind_def; [apply get_num_def; auto|discriminate]. Qed.
Lemma mapping_def l : narrow l -> mapping_get ltb eqb t_dec x_enc x_dec t0 ss0 cs0 x_id l <> UB.
Proof.
  intros N. unfold mapping_get. apply bind_def; [unfold get_str; destruct (find_by _ l) as [[]|]; discriminate|]. intros c _.
  destruct (bytes_eqb c _); [apply bind_def; [unfold get_str; destruct (find_by _ l) as [[]|]; discriminate|discriminate]|].
  destruct (bytes_eqb c _).
  - apply bind_def; [|discriminate]. apply or_else_def.
    + apply bind_def; [apply get_mtx_def; auto; apply x_len|discriminate].
    + apply bind_def; [apply num_def; auto|]. intros n _. apply matrix_from_def; auto. apply x_len.
  - destruct (bytes_eqb c _); [|discriminate]. apply bind_def; [|discriminate]. unfold frustum_get.
    apply bind_def; [apply num_def; auto|]. intros n _. apply bind_def; [apply frustum_from_def; auto; apply x_len|]. intros f _.
    apply bind_def; [|discriminate]. apply or_else_def; [|discriminate]. apply bind_def; [apply get_num_def; auto|discriminate].
Qed.
End P.
