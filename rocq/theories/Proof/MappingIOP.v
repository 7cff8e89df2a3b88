From Coq Require Import ZArith List Bool String Lia Arith.
From Verif Require Import Model.Base Model.OgawaM Spec.OgawaSpec Model.OgM Spec.OgSpec Proof.OgP Props.OgProps
  Model.FieldIOM Spec.FieldIOSpec Proof.FieldIOP Model.FileM Proof.FileP Model.CurveM Spec.CurveSpec Proof.CurveP Model.MappingIOM Spec.MappingIOSpec.
Import ListNotations.
Open Scope Z_scope.

Lemma nth_name_inj p q i j : nth_name p i = nth_name q j -> p = q -> i = j.
Proof. unfold nth_name. intros H ->. apply app_inv_head in H. apply int_name_inj; auto. Qed.
Lemma str_no c s : (forall a, In a (list_ascii_of_string s) -> Z.of_nat (Ascii.nat_of_ascii a) <> c) -> ~ In c (str s).
Proof. unfold str. intros H I. apply in_map_iff in I as (a & E & I). apply (H a I); auto. Qed.
Lemma nth_name_in p i c : In c (nth_name p i) -> In c (str p) \/ 48 <= c < 58.
Proof. unfold nth_name. rewrite in_app_iff. intros [H|H]; auto. apply int_name_digits in H. auto. Qed.
Lemma nth_name_ok p i : str p <> [] -> ~ In 0 (str p) -> ~ In 47 (str p) -> good_name (nth_name p i) /\ ~ In 47 (nth_name p i).
Proof.
  intros A B C. split; [split|].
  - unfold nth_name. destruct (str p); [congruence|discriminate].
  - intros H. apply nth_name_in in H as [H|H]; [auto|lia].
  - intros H. apply nth_name_in in H as [H|H]; [auto|lia].
Qed.
Ltac nn := apply nth_name_ok; vm_compute; [discriminate|intuition discriminate|intuition discriminate].

(** Two names with different first characters differ. *)
Lemma beq_hd a b : hd 0 a <> hd 0 b -> bytes_eqb a b = false.
Proof. intros N. apply beq_neq. congruence. Qed.

Section P.
Context {T X : Type}.
Variables ltb eqb : T -> T -> bool.
Variable t_enc : T -> bytes.
Variable t_dec : bytes -> T.
Variable x_enc : X -> bytes.
Variable x_dec : bytes -> X.
Variable t0 : T.
Variables ss0 cs0 : X.
Hypothesis O : ordered ltb eqb.
Hypothesis ST : storable TFloat32 t_enc t_dec.
Hypothesis SX : storable TMtx64 x_enc x_dec.

(** * Matrix mappings *)
Fixpoint msamples (i : nat) (c : list (T * X)) : list entry :=
  match c with
  | [] => []
  | (t, m) :: r => EAttr (nth_name "time_" i) TFloat32 (t_enc t) :: EAttr (nth_name "matrix_" i) TMtx64 (x_enc m) :: msamples (S i) r
  end.
Lemma msamples_eq c : forall i, matrix_samples t_enc x_enc i c = map written (msamples i c).
Proof. induction c as [|(t, m) r IH]; intros i; cbn [matrix_samples msamples map]; auto. rewrite IH. reflexivity. Qed.
Definition mentries (c : list (T * X)) : list entry :=
  [EAttr (str "mapping_type") TString (str "MatrixFieldMapping");
   EAttr (str "num_time_samples") TInt32 (enc32 (Z.of_nat (List.length c)))] ++ msamples 0 c.
Lemma mentries_eq c : mapping_kids t_enc x_enc (MapMatrix c) = Ok (map written (mentries c)).
Proof. unfold mapping_kids, matrix_write. cbn [bind class_of mentries app map written]. rewrite msamples_eq. reflexivity. Qed.
Lemma msamples_in c : forall i e, In e (msamples i c) -> exists j s, nth_error c j = Some s /\
  (e = EAttr (nth_name "time_" (i + j)) TFloat32 (t_enc (fst s)) \/ e = EAttr (nth_name "matrix_" (i + j)) TMtx64 (x_enc (snd s))).
Proof.
  induction c as [|(t, m) r IH]; intros i e; cbn [msamples]; [intros []|]. intros [<-|[<-|I]].
  - exists 0%nat, (t, m). rewrite Nat.add_0_r. auto.
  - exists 0%nat, (t, m). rewrite Nat.add_0_r. auto.
  - destruct (IH _ _ I) as (j & s & A & B). exists (S j), s. rewrite Nat.add_succ_r. auto.
Qed.
Lemma mentries_ok c : Forall (fun e => good_name (e_name e)) (mentries c) /\ forall n ty v, In (EAttr n ty v) (mentries c) -> value_ok ty v.
Proof.
  split.
  - apply Forall_app. split.
    + repeat constructor; vm_compute; try discriminate; intuition discriminate.
    + apply Forall_forall. intros e I. apply msamples_in in I as (j & s & _ & [-> | ->]); cbn [e_name]; nn.
  - intros n ty v I. apply in_app_iff in I as [I|I].
    + cbn in I. destruct I as [H|[H|[]]]; injection H as <- <- <-; [vm_compute; intuition discriminate|].
      unfold enc32. cbn. auto.
    + apply msamples_in in I as (j & s & _ & [H|H]); injection H as -> -> ->; cbn [value_ok]; [apply ST|apply SX].
Qed.
Lemma lookup_time c : forall i k, lookup is_attr (nth_name "time_" (i + k)) (msamples i c) =
  option_map (fun s => EAttr (nth_name "time_" (i + k)) TFloat32 (t_enc (fst s))) (nth_error c k).
Proof.
  induction c as [|(t, m) r IH]; intros i k; cbn [msamples]; [destruct k; reflexivity|].
  unfold lookup. cbn [find is_attr e_name andb]. destruct k as [|k].
  - rewrite Nat.add_0_r, beq_refl. reflexivity.
  - rewrite beq_neq by (intros H; apply nth_name_inj in H; auto; lia).
    rewrite beq_hd by (vm_compute; discriminate).
    rewrite <- Nat.add_succ_comm. apply IH.
Qed.
Lemma lookup_matrix c : forall i k, lookup is_attr (nth_name "matrix_" (i + k)) (msamples i c) =
  option_map (fun s => EAttr (nth_name "matrix_" (i + k)) TMtx64 (x_enc (snd s))) (nth_error c k).
Proof.
  induction c as [|(t, m) r IH]; intros i k; cbn [msamples]; [destruct k; reflexivity|].
  unfold lookup. cbn [find is_attr e_name andb].
  rewrite beq_hd by (vm_compute; discriminate). destruct k as [|k].
  - rewrite Nat.add_0_r, beq_refl. reflexivity.
  - rewrite beq_neq by (intros H; apply nth_name_inj in H; auto; lia).
    rewrite <- Nat.add_succ_comm. apply IH.
Qed.

Variables (g : bytes).
Lemma get_eq l n ty d : Forall (fun e => good_name (e_name e)) l -> (forall n ty v, In (EAttr n ty v) l -> value_ok ty v) -> ~ In 47 n ->
  get_attr (node_group g (map written l)) n ty d =
  Ok (match lookup is_attr n l with Some (EAttr _ ty' v) => if type_code ty' =? type_code ty then Some v else None | _ => None end).
Proof. intros A B C. change (node_group g (map written l)) with (written (EGroup g l)). apply C18_find_attribute; auto. Qed.

Lemma mread_from c : forall c2 c1 i, (forall k, nth_error c2 k = nth_error c (i + k)) ->
  matrix_read_from ltb eqb t_dec x_dec t0 (node_group g (map written (mentries c))) i (List.length c2) c1 =
  Ok (Some (fold_left (fun l s => add_sample ltb eqb (fst s) (snd s) l) c2 c1)).
Proof.
  destruct (mentries_ok c) as (G & V).
  induction c2 as [|s c2 IH]; intros c1 i H; cbn [List.length matrix_read_from fold_left]; auto.
  pose proof (H 0%nat) as H0. rewrite Nat.add_0_r in H0. cbn [nth_error] in H0.
  rewrite !get_eq; auto; try nn. unfold mentries. rewrite !lookup_app.
  assert (L1 : forall n x r, n = x :: r -> x <> 109 -> x <> 110 -> lookup is_attr n
    [EAttr (str "mapping_type") TString (str "MatrixFieldMapping"); EAttr (str "num_time_samples") TInt32 (enc32 (Z.of_nat (List.length c)))] = None).
  { intros n x r -> A B. unfold lookup. cbn [find is_attr e_name andb].
    rewrite beq_hd by (cbn; auto). rewrite beq_hd by (cbn; auto). reflexivity. }
  rewrite (L1 (nth_name "time_" i) 116 _ eq_refl) by lia.
  assert (L2 : lookup is_attr (nth_name "matrix_" i)
    [EAttr (str "mapping_type") TString (str "MatrixFieldMapping"); EAttr (str "num_time_samples") TInt32 (enc32 (Z.of_nat (List.length c)))] = None).
  { unfold lookup. cbn [find is_attr e_name andb].
    rewrite beq_neq; [rewrite beq_hd by (vm_compute; discriminate); reflexivity|].
    intros E. apply (f_equal (fun l => nth 2 l 0)) in E. vm_compute in E. discriminate. }
  rewrite L2. pose proof (lookup_time c 0 i) as LT. pose proof (lookup_matrix c 0 i) as LM. cbn [Nat.add] in LT, LM. rewrite LT, LM, <- H0.
  cbn [option_map bind Z.eqb Pos.eqb type_code].
  unfold matrix_op. destruct ST as (_ & ST'), SX as (_ & SX').
  destruct (ST' (fst s)) as (_ & ->). destruct (SX' (snd s)) as (_ & ->).
  apply IH. intros k. rewrite Nat.add_succ_comm. apply (H (S k)).
Qed.
Lemma matrix_round c : rising ltb c -> Z.of_nat (List.length c) < 2 ^ 31 ->
  mapping_read ltb eqb t_dec x_dec t0 ss0 cs0 (node_group g (map written (mentries c))) = Ok (Some (MapMatrix c)).
Proof.
  intros R N. destruct (mentries_ok c) as (G & V). unfold mapping_read.
  rewrite get_eq; auto. 2:{ vm_compute. intuition discriminate. }
  change (lookup is_attr (str "mapping_type") (mentries c)) with (Some (EAttr (str "mapping_type") TString (str "MatrixFieldMapping"))).
  cbn [bind type_code Z.eqb Pos.eqb].
  assert (bytes_eqb (str "MatrixFieldMapping") (str "NullFieldMapping") = false) as -> by reflexivity. rewrite beq_refl.
  unfold matrix_read. rewrite get_eq; auto. 2:{ vm_compute. intuition discriminate. }
  change (lookup is_attr (str "num_time_samples") (mentries c)) with (Some (EAttr (str "num_time_samples") TInt32 (enc32 (Z.of_nat (List.length c))))).
  cbn [bind type_code Z.eqb Pos.eqb]. rewrite dec_i32_enc by (apply in_int_iff; lia). rewrite Nat2Z.id.
  rewrite mread_from by auto. cbn [bind option_map]. rewrite curve_rebuild; auto.
Qed.

(** * Histories *)
Lemma matrix_run (ops : list (@mop T X)) : forall h c, c = fold_left (fun l s => add_sample ltb eqb (fst s) (snd s) l) h [] ->
  fold_left (matrix_op ltb eqb t0) ops c =
  fold_left (fun l s => add_sample ltb eqb (fst s) (snd s) l)
    (fold_left (fun h o => match o with MSetAt t m => h ++ [(t, m)] | MSetOnly m => [(t0, m)] | MIdentity => [] end) ops h) [].
Proof.
  induction ops as [|o ops IH]; intros h c E; cbn [fold_left]; auto. apply IH. destruct o; cbn [matrix_op].
  - rewrite fold_left_app, <- E. reflexivity.
  - destruct c; reflexivity.
  - reflexivity.
Qed.
Lemma matrix_run_eq (ops : list (@mop T X)) : fold_left (matrix_op ltb eqb t0) ops [] = curve_run ltb eqb (matrix_history t0 ops).
Proof. apply matrix_run with (h := []). reflexivity. Qed.

(** * Frustum mappings *)
Lemma fr_z_op (f : @frustum T X) o : fr_z (frustum_op ltb eqb t0 ss0 cs0 f o) = match o with FDist z => z | _ => fr_z f end.
Proof. destruct o; auto; cbn; unfold set_transforms; destruct (fr_default f); reflexivity. Qed.
Lemma fr_z_run (ops : list (@fop T X)) : forall f, fr_z (fold_left (frustum_op ltb eqb t0 ss0 cs0) ops f) =
  fold_left (fun z o => match o with FDist z' => z' | _ => z end) ops (fr_z f).
Proof. induction ops as [|o ops IH]; intros f; auto. cbn [fold_left]. rewrite IH, fr_z_op. destruct o; reflexivity. Qed.
(** Both curves hold one sample, at [t0]. *)
Definition single (f : @frustum T X) : Prop := exists a b, fr_ss f = [(t0, a)] /\ fr_cs f = [(t0, b)].
Lemma add_single (v w : X) : add_sample ltb eqb t0 v [(t0, w)] = [(t0, v)].
Proof. unfold add_sample. cbn. rewrite (eqb_refl' ltb eqb O). reflexivity. Qed.
Lemma set_single f a b : single f -> single (set_transforms ltb eqb f t0 a b).
Proof.
  intros (x & y & E1 & E2). exists a, b. unfold set_transforms. destruct (fr_default f); cbn [clear_curves fr_ss fr_cs fr_default fr_z];
  rewrite ?E1, ?E2, ?add_single; auto.
Qed.
Lemma new_single : single (fr_new ltb eqb t0 ss0 cs0).
Proof.
  exists ss0, cs0. unfold fr_new, fr_reset, set_transforms. cbn [clear_curves fr_ss fr_cs fr_default fr_z].
  rewrite ?add_single. auto.
Qed.
Lemma op_single f o : single f -> (match o with FSetAt t _ _ => t = t0 | _ => True end) -> single (frustum_op ltb eqb t0 ss0 cs0 f o).
Proof.
  intros H E. destruct o; cbn [frustum_op].
  - subst t. apply set_single; auto.
  - destruct H as (x & y & E1 & E2). exists ss0, cs0. destruct f as [ss cs d z]. cbn [fr_ss fr_cs] in E1, E2. subst.
    unfold fr_reset, set_transforms, clear_curves. destruct d; cbn [fr_ss fr_cs fr_default fr_z]; rewrite add_single; auto.
  - auto.
Qed.
Lemma run_single (ops : list (@fop T X)) : only_at t0 ops -> forall f, single f -> single (fold_left (frustum_op ltb eqb t0 ss0 cs0) ops f).
Proof. induction 1; intros; auto. cbn [fold_left]. apply IHForall. apply op_single; auto. Qed.

Fixpoint fsamples (i : nat) (ss cs : list (T * X)) : list entry :=
  match ss, cs with
  | (t, m) :: r, (_, k) :: cr =>
      EAttr (nth_name "time_" i) TFloat32 (t_enc t) :: EAttr (nth_name "screen_to_world_" i) TMtx64 (x_enc m) ::
      EAttr (nth_name "camera_to_world_" i) TMtx64 (x_enc k) :: fsamples (S i) r cr
  | _, _ => []
  end.
Lemma fsamples_eq ss : forall i cs, frustum_samples t_enc x_enc i ss cs =
  if Nat.leb (List.length ss) (List.length cs) then Ok (map written (fsamples i ss cs)) else UB.
Proof.
  induction ss as [|(t, m) r IH]; intros i [|(u, k) cs]; cbn [frustum_samples List.length Nat.leb fsamples map]; auto.
  rewrite IH. destruct (Nat.leb _ _); reflexivity.
Qed.
Definition fentries (f : frustum) : list entry :=
  [EAttr (str "mapping_type") TString (str "FrustumFieldMapping");
   EAttr (str "num_time_samples") TInt32 (enc32 (Z.of_nat (List.length (fr_ss f))))] ++ fsamples 0 (fr_ss f) (fr_cs f) ++
  [EAttr (str "z_distribution") TInt32 (enc32 (fr_z f))].
Lemma fentries_eq f : mapping_kids t_enc x_enc (MapFrustum f) =
  if Nat.leb (List.length (fr_ss f)) (List.length (fr_cs f)) then Ok (map written (fentries f)) else UB.
Proof.
  unfold mapping_kids, frustum_write. rewrite fsamples_eq. destruct (Nat.leb _ _); cbn [bind]; auto.
  unfold fentries. cbn [app map]. rewrite map_app. reflexivity.
Qed.
Lemma fsamples_in ss : forall i cs e, In e (fsamples i ss cs) -> exists j, 
  (exists v, e = EAttr (nth_name "time_" j) TFloat32 (t_enc v)) \/ (exists v, e = EAttr (nth_name "screen_to_world_" j) TMtx64 (x_enc v)) \/
  (exists v, e = EAttr (nth_name "camera_to_world_" j) TMtx64 (x_enc v)).
Proof.
  induction ss as [|(t, m) r IH]; intros i [|(u, k) cs] e; cbn [fsamples]; try (intros []; fail).
  intros [<-|[<-|[<-|I]]]; [exists i; eauto|exists i; eauto|exists i; eauto|eauto].
Qed.
Lemma fentries_ok f : Forall (fun e => good_name (e_name e)) (fentries f) /\ forall n ty v, In (EAttr n ty v) (fentries f) -> value_ok ty v.
Proof.
  split.
  - apply Forall_app. split; [|apply Forall_app; split].
    + repeat constructor; vm_compute; try discriminate; intuition discriminate.
    + apply Forall_forall. intros e I. apply fsamples_in in I as (j & [(v & ->)|[(v & ->)|(v & ->)]]); cbn [e_name]; nn.
    + repeat constructor; vm_compute; try discriminate; intuition discriminate.
  - intros n ty v I. unfold fentries in I. rewrite !in_app_iff in I. destruct I as [I|[I|I]].
    + cbn in I. destruct I as [H|[H|[]]]; injection H as <- <- <-; [vm_compute; intuition discriminate|].
      unfold enc32. cbn. auto.
    + apply fsamples_in in I as (j & [(w & H)|[(w & H)|(w & H)]]); injection H as -> -> ->; cbn [value_ok]; (apply ST || apply SX).
    + cbn in I. destruct I as [H|[]]; injection H as <- <- <-. unfold enc32. cbn. auto.
Qed.
Lemma frustum_round f : in_int (fr_z f) = true ->
  mapping_read ltb eqb t_dec x_dec t0 ss0 cs0 (node_group g (map written (fentries f))) =
  Ok (Some (MapFrustum (Fr [(t0, ss0)] [(t0, cs0)] true (fr_z f)))).
Proof.
  intros N. destruct (fentries_ok f) as (G & V). unfold mapping_read.
  rewrite get_eq; auto. 2:{ vm_compute. intuition discriminate. }
  change (lookup is_attr (str "mapping_type") (fentries f)) with (Some (EAttr (str "mapping_type") TString (str "FrustumFieldMapping"))).
  cbn [bind type_code Z.eqb Pos.eqb].
  assert (bytes_eqb (str "FrustumFieldMapping") (str "NullFieldMapping") = false) as -> by reflexivity.
  assert (bytes_eqb (str "FrustumFieldMapping") (str "MatrixFieldMapping") = false) as -> by reflexivity. rewrite beq_refl.
  unfold frustum_read. rewrite get_eq; auto. 2:{ vm_compute. intuition discriminate. }
  change (lookup is_attr (str "num_time_samples") (fentries f)) with (Some (EAttr (str "num_time_samples") TInt32 (enc32 (Z.of_nat (List.length (fr_ss f)))))).
  cbn [bind type_code Z.eqb Pos.eqb frustum_read_from]. rewrite get_eq; auto. 2:{ vm_compute. intuition discriminate. }
  unfold fentries. rewrite !lookup_app.
  change (lookup is_attr (str "z_distribution") [EAttr (str "mapping_type") TString (str "FrustumFieldMapping");
   EAttr (str "num_time_samples") TInt32 (enc32 (Z.of_nat (List.length (fr_ss f))))]) with (@None entry).
  rewrite lookup_none.
  2:{ intros e I. apply fsamples_in in I as (j & [(v & ->)|[(v & ->)|(v & ->)]]); cbn [e_name]; intros H; apply (f_equal (hd 0)) in H; vm_compute in H; discriminate. }
  change (lookup is_attr (str "z_distribution") [EAttr (str "z_distribution") TInt32 (enc32 (fr_z f))]) with (Some (EAttr (str "z_distribution") TInt32 (enc32 (fr_z f)))).
  cbn [bind type_code Z.eqb Pos.eqb option_map]. rewrite dec_i32_enc by auto. do 4 f_equal.
Qed.
End P.
