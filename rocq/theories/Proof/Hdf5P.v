From Coq Require Import ZArith List Bool String Lia.
From Verif Require Import Model.Base Model.FieldM Model.DenseM Model.SparseM Spec.VoxelSpec Spec.DenseSpec Spec.SparseSpec
  Proof.BaseP Proof.FieldP Proof.DenseP Proof.SparseP Proof.FieldIOP Spec.FieldIOSpec Proof.FieldIOP2 Model.Hdf5M Spec.Hdf5Spec.
Import ListNotations.
Open Scope Z_scope.

Lemma named_app {B} n (l r : list (string * B)) :
  named n (l ++ r) = match named n l with Some x => Some x | None => named n r end.
Proof. induction l as [|[m x] l IH]; auto. cbn [app named]. destruct (String.eqb n m); auto. Qed.
Lemma named_notin {B} n (l : list (string * B)) : ~ In n (map fst l) -> named n l = None.
Proof.
  induction l as [|[m x] l IH]; auto. cbn [map fst In named]. intros H.
  destruct (String.eqb_spec n m) as [->|]; [tauto|]. apply IH. tauto.
Qed.
Lemma named_in {B} n (l : list (string * B)) x : named n l = Some x -> In n (map fst l).
Proof.
  induction l as [|[m y] l IH]; [discriminate|]. cbn [map fst In named]. destruct (String.eqb_spec n m) as [->|]; auto.
Qed.
Lemma htype_eqb_refl t : htype_eqb t t = true.
Proof. apply Z.eqb_refl. Qed.
Lemma htype_eqb_iff a b : htype_eqb a b = true <-> a = b.
Proof. destruct a, b; cbn; intuition (congruence || discriminate). Qed.
Lemma bits_type t : t <> HChar ->
  (if h5bits t =? 16 then HShort else if h5bits t =? 64 then HDouble else HFloat) = t.
Proof. destruct t; auto. congruence. Qed.
Lemma box_of_box b : box_of (of_box b) = b.
Proof. destruct b as [[] []]; reflexivity. Qed.

Section G.
Context {A : Type}.
Lemma put_attr_ok (a c : list (string * hattr)) (s : list (string * hset A)) n l :
  named n a = None -> named n c = None ->
  put_attr (HGroup (a ++ c) s) n l = Some (HGroup (a ++ (c ++ [(n, AInts l)])) s).
Proof. intros H1 H2. unfold put_attr. cbn [hg_attrs hg_sets]. rewrite named_app, H1, H2, app_assoc. reflexivity. Qed.
Lemma put_set_ok (a : list (string * hattr)) (s c : list (string * hset A)) n x :
  named n s = None -> named n c = None ->
  put_set (HGroup a (s ++ c)) n x = Some (HGroup a (s ++ (c ++ [(n, x)]))).
Proof. intros H1 H2. unfold put_set. cbn [hg_attrs hg_sets]. rewrite named_app, H1, H2, app_assoc. reflexivity. Qed.

(** What a writer leaves behind. *)
Definition added (g : hgroup A) (a : list (string * hattr)) (s : list (string * hset A)) : hgroup A :=
  HGroup (hg_attrs g ++ a) (hg_sets g ++ s).
Lemma added_nil g : g = added g [] [].
Proof. destruct g. unfold added. cbn. now rewrite !app_nil_r. Qed.
Lemma put_attr_added g a s n l : room_in g -> In n layer_attrs -> named n a = None ->
  put_attr (added g a s) n l = Some (added g (a ++ [(n, AInts l)]) s).
Proof. intros [R _] I N. apply put_attr_ok; auto. Qed.
Lemma put_set_added g a s n x : room_in g -> In n layer_sets -> named n s = None ->
  put_set (added g a s) n x = Some (added g a (s ++ [(n, x)])).
Proof. intros [_ R] I N. apply put_set_ok; auto. Qed.
Lemma attr_added g a s n : room_in g -> In n layer_attrs -> named n (hg_attrs (added g a s)) = named n a.
Proof. intros [R _] I. unfold added. cbn. now rewrite named_app, R. Qed.
Lemma set_added g a s n : room_in g -> In n layer_sets -> named n (hg_sets (added g a s)) = named n s.
Proof. intros [_ R] I. unfold added. cbn. now rewrite named_app, R. Qed.
Lemma added_rest g a s : (forall n, In n (map fst a) -> In n layer_attrs) -> (forall n, In n (map fst s) -> In n layer_sets) ->
  rest_kept g (added g a s).
Proof.
  intros H1 H2. split; intros n N; unfold added; cbn; rewrite named_app.
  - destruct (named n (hg_attrs g)); auto. apply named_notin. auto.
  - destruct (named n (hg_sets g)); auto. apply named_notin. auto.
Qed.
End G.

Ltac in_layer := unfold layer_attrs, layer_sets; cbn [In]; tauto.

Section V.
Context {A V : Type}.
Variables (convert : htype -> htype -> A -> A) (of_flag : bool -> A) (to_flag : A -> bool).
Hypothesis fa : faithful convert of_flag to_flag.
Variables (ty : htype) (comps : nat) (split : V -> list A) (join : list A -> V) (zero : V).
Hypothesis mo : made_of ty comps split join.

Lemma comps_pos : (0 < comps)%nat.
Proof. destruct mo as (_ & [-> | ->] & _); lia. Qed.
Lemma split_len l : List.length (split_all split l) = (List.length l * comps)%nat.
Proof.
  unfold split_all. induction l as [|v l IH]; auto. cbn [flat_map List.length]. rewrite app_length, IH.
  destruct mo as (_ & _ & M). rewrite (proj1 (M v)). lia.
Qed.
Lemma join_split l : forall r, join_all comps join (List.length l) (split_all split l ++ r) = l.
Proof.
  unfold split_all. induction l as [|v l IH]; intros r; auto. cbn [flat_map List.length join_all]. rewrite <- app_assoc.
  destruct mo as (_ & _ & M). destruct (M v) as [L J].
  rewrite firstn_app, L, Nat.sub_diag, firstn_O, app_nil_r, firstn_all2, J by lia. f_equal.
  rewrite skipn_app, L, Nat.sub_diag, skipn_all2 by lia. apply IH.
Qed.
Lemma join_split0 l n : n = List.length l -> join_all comps join n (split_all split l) = l.
Proof. intros ->. rewrite <- (app_nil_r (split_all split l)). apply join_split. Qed.
Lemma convert_same l : map (convert ty ty) l = l.
Proof. rewrite <- (map_id l) at 2. apply map_ext. intros. apply fa. Qed.
Lemma read_all_same d l cur : List.length l = List.length cur -> read_all convert ty (HSet ty d l) cur = Ok l.
Proof.
  intros L. unfold read_all. cbn [hs_type hs_data]. rewrite convert_same, L, Nat.leb_refl. f_equal.
  rewrite skipn_all, app_nil_r. auto.
Qed.

(** * Dense *)
Definition dense_attrs (f : dense V) : list (string * hattr) :=
  [("version", AInts [1]); ("extents", AInts (of_box (d_ext f))); ("data_window", AInts (of_box (d_dw f)));
   ("components", AInts [Z.of_nat comps]); ("bits_per_component", AInts [h5bits ty])]%string.
Definition dense_sets (f : dense V) : list (string * hset A) :=
  [("data", HSet ty [Z.of_nat (List.length (d_data f) * comps)] (split_all split (d_data f)))]%string.

Definition dense_total (f : dense V) : Z := Z.of_nat (List.length (d_data f) * comps).
Lemma dense_prefix gzip (f : dense V) (g : hgroup A) : room_in g -> shape f -> box_nonempty (d_dw f) ->
  dense_h5_write ty comps split gzip f g =
  let* total := i32 (dense_total f) in
  if chunk_ok gzip ty [Z.min 65536 (total / 2)] then Ok (added g (dense_attrs f) (dense_sets f), true)
  else Ok (added g (dense_attrs f) [], false).
Proof.
  intros R Sh N. destruct (shape_res f Sh N) as (X & Y & Z0 & I1 & I2 & _). pose proof (sh_len _ Sh N) as L.
  unfold dense_h5_write. rewrite (added_nil g) at 1.
  rewrite put_attr_added by (auto; in_layer). cbn [or_throw bind app].
  unfold i32 at 1. rewrite I1. cbn [bind]. unfold i32 at 1. rewrite I2. cbn [bind].
  rewrite <- L, <- Nat2Z.inj_mul. fold (dense_total f).
  destruct (i32 (dense_total f)) as [total| |] eqn:T; cbn [bind]; auto.
  assert (total = dense_total f) as -> by (unfold i32 in T; destruct (in_int (dense_total f)); [now injection T|discriminate]).
  do 3 (rewrite put_attr_added by (auto; (reflexivity || in_layer)); cbn [or_throw bind app]).
  rewrite put_attr_added by (auto; (reflexivity || in_layer)). cbn [app].
  destruct (chunk_ok gzip ty _); cbn [negb]; auto.
  rewrite Z.ltb_irrefl, Nat2Z.id, firstn_all.
  rewrite put_set_added by (auto; (reflexivity || in_layer)). reflexivity.
Qed.

Lemma get_attr_same (g g' : hgroup A) n k : same_layer g g' -> In n layer_attrs -> get_attr g' n k = get_attr g n k.
Proof. intros [S _] I. unfold get_attr. now rewrite S. Qed.
Lemma get_set_same (g g' : hgroup A) n : same_layer g g' -> In n layer_sets -> named n (hg_sets g') = named n (hg_sets g).
Proof. intros [_ S] I. auto. Qed.
Lemma get_attr_added (g g' : hgroup A) a s n l k : room_in g -> same_layer (added g a s) g' -> In n layer_attrs ->
  named n a = Some (AInts l) -> List.length l = k -> get_attr g' n k = Ok l.
Proof.
  intros R Sa I N <-. rewrite (get_attr_same _ _ _ _ Sa I). unfold get_attr. rewrite attr_added, N by auto.
  now rewrite Nat.eqb_refl.
Qed.
Lemma get_int_added (g g' : hgroup A) a s n z : room_in g -> same_layer (added g a s) g' -> In n layer_attrs ->
  named n a = Some (AInts [z]) -> get_int g' n = Ok z.
Proof. intros R Sa I N. unfold get_int. now rewrite (get_attr_added _ _ _ _ _ _ 1 R Sa I N). Qed.
Lemma get_box_added (g g' : hgroup A) a s n b : room_in g -> same_layer (added g a s) g' -> In n layer_attrs ->
  named n a = Some (AInts (of_box b)) -> get_box g' n = Ok b.
Proof.
  intros R Sa I N. unfold get_box. rewrite (get_attr_added _ _ _ _ _ _ 6 R Sa I N) by reflexivity. cbn [bind].
  now rewrite box_of_box.
Qed.
Lemma get_set_added (g g' : hgroup A) a s n x : room_in g -> same_layer (added g a s) g' -> In n layer_sets ->
  named n s = Some x -> named n (hg_sets g') = Some x.
Proof. intros R Sa I N. rewrite (get_set_same _ _ _ Sa I), set_added, N by auto. reflexivity. Qed.
End V.

Ltac att Rm Sa :=
  match goal with
  | |- context [bind (get_int _ ?n)] => rewrite (get_int_added _ _ _ _ n _ Rm Sa ltac:(in_layer) eq_refl)
  | |- context [bind (get_box _ ?n)] => rewrite (get_box_added _ _ _ _ n _ Rm Sa ltac:(in_layer) eq_refl)
  | |- context [bind (get_attr _ ?n ?k)] => rewrite (get_attr_added _ _ _ _ n _ k Rm Sa ltac:(in_layer) eq_refl eq_refl)
  end; cbn [bind].
Ltac dset Rm Sa :=
  match goal with |- context [named ?n (hg_sets _)] => rewrite (get_set_added _ _ _ _ n _ Rm Sa ltac:(in_layer) eq_refl) end;
  cbn [or_throw bind].

Section V2.
Context {A V V' : Type}.
Variables (convert : htype -> htype -> A -> A) (of_flag : bool -> A) (to_flag : A -> bool).
Hypothesis fa : faithful convert of_flag to_flag.
Variables (ty ty' : htype) (comps comps' : nat) (split : V -> list A) (join : list A -> V) (zero : V).
Variables (split' : V' -> list A) (join' : list A -> V') (zero' : V').
Hypothesis mo : made_of ty comps split join.

(** The reader's view of what [dense_h5_write] wrote, as any type. *)
Lemma dense_read_prefix (f : dense V) (g g' : hgroup A) : room_in g -> shape f -> box_nonempty (d_dw f) ->
  in_int (dense_total comps f) = true ->
  same_layer (added g (dense_attrs ty comps f) (dense_sets ty comps split f)) g' ->
  dense_h5_read convert ty' comps' split' join' zero' g' =
  if negb (htype_eqb ty ty' && (Z.of_nat comps =? Z.of_nat comps')) then Ok None else
  let* (f', threw) := dense_set_size zero' (d_ext f) (d_dw f) dense_init in
  if (threw : bool) then Exn else
  let* l := read_all convert ty' (HSet ty [dense_total comps f] (split_all split (d_data f))) (split_all split' (d_data f')) in
  Ok (Some (Dense (d_ext f') (d_dw f') (d_mem f') (d_memXY f') (join_all comps' join' (List.length (d_data f')) l))).
Proof.
  intros Rm Sh N T Sa. destruct (shape_res f Sh N) as (X & Y & Z0 & I1 & I2 & _). pose proof (sh_len _ Sh N) as L.
  unfold dense_h5_read. att Rm Sa. cbn [Z.eqb Pos.eqb negb]. att Rm Sa. att Rm Sa. att Rm Sa.
  dset Rm Sa. unfold get_dims. cbn [hs_dims List.length Nat.eqb bind hd].
  pose proof (sh_mem _ Sh) as M. unfold data_resolution, v3_add, v3_sub in M.
  assert (BX : box_size (d_dw f) = V3 (vx (d_mem f) - 1) (vy (d_mem f) - 1) (vz (d_mem f) - 1)).
  { unfold box_size, box_empty. unfold box_nonempty in N.
    replace (_ || _ || _) with false by lia. rewrite M. unfold v3_sub. cbn [vx vy vz]. f_equal; lia. }
  rewrite BX. cbn [vx vy vz]. rewrite !Z.sub_add.
  apply in_int_iff in I1, I2.
  assert (0 < vx (d_mem f) * vy (d_mem f)) by (apply Z.mul_pos_pos; lia).
  assert (vx (d_mem f) <= vx (d_mem f) * vy (d_mem f)) by nia.
  assert (vy (d_mem f) <= vx (d_mem f) * vy (d_mem f)) by nia.
  assert (vz (d_mem f) <= vx (d_mem f) * vy (d_mem f) * vz (d_mem f)) by nia.
  assert (C : (0 < comps)%nat) by (eapply comps_pos; eauto).
  unfold i32. do 3 (match goal with |- context [in_int ?x] => replace (in_int x) with true by (symmetry; apply in_int_iff; lia) end; cbn [bind]).
  do 2 (match goal with |- context [in_int ?x] => replace (in_int x) with true by (symmetry; apply in_int_iff; lia) end; cbn [bind]).
  replace (Z.of_nat comps =? 0) with false by lia.
  apply in_int_iff in T. unfold dense_total in *. rewrite Nat2Z.inj_mul in *.
  assert (C2 : Z.of_nat comps < 2 ^ 64) by nia.
  rewrite (Z.mod_small (Z.of_nat comps)) by lia. rewrite Z.div_mul by lia. rewrite L, Z.mod_small by lia.
  rewrite Z.eqb_refl. cbn [negb]. reflexivity.
Qed.
End V2.

Section V3.
Context {A V : Type}.
Variables (convert : htype -> htype -> A -> A) (of_flag : bool -> A) (to_flag : A -> bool).
Hypothesis fa : faithful convert of_flag to_flag.
Variables (ty : htype) (comps : nat) (split : V -> list A) (join : list A -> V) (zero : V).
Hypothesis mo : made_of ty comps split join.
Lemma dense_read_same (f : dense V) (g g' : hgroup A) : room_in g -> shape f -> box_nonempty (d_dw f) ->
  in_int (dense_total comps f) = true ->
  same_layer (added g (dense_attrs ty comps f) (dense_sets ty comps split f)) g' ->
  dense_h5_read convert ty comps split join zero g' = Ok (Some f).
Proof.
  intros Rm Sh N T Sa. erewrite dense_read_prefix; eauto. rewrite htype_eqb_refl, Z.eqb_refl. cbn [andb negb].
  destruct (dense_set_size_ok zero (d_ext f) (d_dw f) dense_init (sh_int _ Sh)) as (f' & th & E & S' & X1 & X2 & T' & _).
  rewrite E. cbn [bind]. destruct th; [exfalso; apply T'; auto|].
  assert (M : d_mem f' = d_mem f) by (rewrite (sh_mem _ S'), (sh_mem _ Sh), X2; auto).
  assert (MXY : d_memXY f' = d_memXY f) by (rewrite (sh_xy _ S'), (sh_xy _ Sh), M; auto).
  assert (L : List.length (d_data f') = List.length (d_data f)).
  { apply Nat2Z.inj. rewrite (sh_len _ S'), (sh_len _ Sh), M; auto. rewrite X2; auto. }
  erewrite read_all_same; eauto; [|rewrite !(split_len ty comps split join mo); congruence]. cbn [bind].
  erewrite join_split0; eauto. rewrite X1, X2, M, MXY. destruct f; auto.
Qed.
End V3.
