From Coq Require Import ZArith List Bool String Lia Arith.
From Verif Require Import Model.Base Model.OgawaM Spec.OgawaSpec Model.OgM Spec.OgSpec Proof.OgP Props.OgProps Model.FieldIOM Proof.FieldIOP Model.FileM Proof.FileP Model.MetaM Spec.MetaSpec.
Import ListNotations.
Open Scope Z_scope.

Lemma smap_find_set m n v n' : smap_find (smap_set m n v) n' = if bytes_eqb n n' then Some v else smap_find m n'.
Proof.
  induction m as [|(k, x) r IH]; cbn [smap_set smap_find]; auto.
  destruct (bytes_ltb n k); cbn [smap_find]; auto.
  destruct (bytes_eqb_spec n k) as [->|N]; cbn [smap_find]; [destruct (bytes_eqb k n'); auto|].
  destruct (bytes_eqb_spec k n') as [->|]; auto. rewrite (beq_neq n n') by auto. reflexivity.
Qed.
Lemma kind_eqb_spec a b : Bool.reflect (a = b) (kind_eqb a b).
Proof. destruct a, b; constructor; congruence. Qed.
Lemma find_meta_set m k n v k' n' :
  smap_find (meta_map (meta_set m k n v) k') n' =
  if kind_eqb k k' && bytes_eqb n n' then Some v else smap_find (meta_map m k') n'.
Proof.
  destruct (kind_eqb_spec k k') as [->|N]; cbn [andb].
  - destruct k'; cbn [meta_set meta_map m_str m_int m_float m_vecint m_vecfloat]; apply smap_find_set.
  - destruct k, k'; try congruence; reflexivity.
Qed.
Lemma run_find l : forall m, forall k n,
  smap_find (meta_map (fold_left (fun m s => meta_set m (ms_kind s) (ms_name s) (ms_value s)) l m) k) n =
  fold_left (fun acc s => if kind_eqb (ms_kind s) k && bytes_eqb (ms_name s) n then Some (ms_value s) else acc) l (smap_find (meta_map m k) n).
Proof. induction l as [|s l IH]; intros; auto. cbn [fold_left]. rewrite IH, find_meta_set. reflexivity. Qed.

(** * The file *)
Definition attrs_of (k : mkind) (m : meta) : list entry := map (fun e => EAttr (fst e) (mtype k) (snd e)) (meta_map m k).
Definition meta_entries (m : meta) : list entry := flat_map (fun k => attrs_of k m) kinds.
Lemma write_meta_eq m : write_meta m = map written (meta_entries m).
Proof.
  unfold write_meta, meta_entries, attrs_of. cbn [kinds flat_map meta_map mtype]. rewrite !map_app, !map_map, app_nil_r. reflexivity.
Qed.
Lemma lookup_attrs k m n : lookup is_attr n (attrs_of k m) = option_map (EAttr n (mtype k)) (smap_find (meta_map m k) n).
Proof.
  unfold attrs_of, lookup. induction (meta_map m k) as [|(a, v) r IH]; cbn [map find fst snd smap_find is_attr e_name andb]; auto.
  destruct (bytes_eqb_spec a n) as [->|]; auto.
Qed.
(** What a name is found as. *)
Definition look (m : meta) (k : mkind) (n : bytes) : option bytes :=
  if existsb (fun k' => match smap_find (meta_map m k') n with Some _ => true | None => false end) (before k)
  then None else smap_find (meta_map m k) n.
Definition meta_ok (m : meta) : Prop :=
  forall k n v, In (n, v) (meta_map m k) -> plain_name n /\ value_ok (mtype k) v.

Lemma look_entries m k n :
  match lookup is_attr n (meta_entries m) with
  | Some (EAttr _ ty v) => if type_code ty =? type_code (mtype k) then Some v else None
  | _ => None
  end = look m k n.
Proof.
  unfold meta_entries, look. cbn [kinds flat_map]. rewrite !lookup_app, !lookup_attrs.
  destruct (smap_find (meta_map m KStr) n) eqn:E1, (smap_find (meta_map m KInt) n) eqn:E2, (smap_find (meta_map m KFloat) n) eqn:E3,
    (smap_find (meta_map m KVecInt) n) eqn:E4, (smap_find (meta_map m KVecFloat) n) eqn:E5; cbn [option_map];
  destruct k; cbn [before existsb mtype]; rewrite ?E1, ?E2, ?E3, ?E4, ?E5; reflexivity.
Qed.
Lemma entries_in m e : In e (meta_entries m) -> exists k n v, e = EAttr n (mtype k) v /\ In (n, v) (meta_map m k).
Proof.
  unfold meta_entries. intros I. apply in_flat_map in I as (k & _ & I). unfold attrs_of in I. apply in_map_iff in I as ((n, v) & <- & I).
  exists k, n, v. auto.
Qed.
Lemma entries_good m : meta_ok m -> Forall (fun e => good_name (e_name e)) (meta_entries m) /\
  forall n ty v, In (EAttr n ty v) (meta_entries m) -> value_ok ty v.
Proof.
  intros H. split.
  - apply Forall_forall. intros e I. apply entries_in in I as (k & n & v & -> & I). cbn. apply (H k n v I).
  - intros n ty v I. apply entries_in in I as (k & n' & v' & E & I). injection E as -> -> ->. apply (H k n' v' I).
Qed.

Section R.
Variables (m : meta) (g : bytes).
Hypothesis OK : meta_ok m.
Let t := node_group g (map written (meta_entries m)).
Lemma read_kind_eq k n x : ~ In 47 n -> read_kind t n k x = Ok (match look m k n with Some v => meta_set x k n v | None => x end).
Proof.
  intros N. unfold read_kind, t. change (node_group g (map written (meta_entries m))) with (written (EGroup g (meta_entries m))).
  rewrite C18_find_attribute; [|apply entries_good; auto|auto|apply entries_good; auto].
  rewrite look_entries. cbn [bind]. reflexivity.
Qed.
Definition step_name (n : bytes) (x : meta) : meta :=
  fold_left (fun x k => match look m k n with Some v => meta_set x k n v | None => x end) kinds x.
Lemma read_name_eq n x : ~ In 47 n -> read_name t n x = Ok (step_name n x).
Proof. intros N. unfold read_name, step_name. cbn [kinds fold_left]. rewrite read_kind_eq by auto. cbn [bind].
  rewrite read_kind_eq by auto. cbn [bind]. rewrite read_kind_eq by auto. cbn [bind]. rewrite read_kind_eq by auto. cbn [bind].
  rewrite read_kind_eq by auto. reflexivity. Qed.
Lemma step_find n x k' n' : smap_find (meta_map (step_name n x) k') n' =
  match (if bytes_eqb n n' then look m k' n else None) with Some v => Some v | None => smap_find (meta_map x k') n' end.
Proof.
  unfold step_name.
  assert (A : forall k x, smap_find (meta_map (match look m k n with Some v => meta_set x k n v | None => x end) k') n' =
     match (if kind_eqb k k' && bytes_eqb n n' then look m k n else None) with Some v => Some v | None => smap_find (meta_map x k') n' end).
  { intros k y. destruct (look m k n); [rewrite find_meta_set; destruct (_ && _); auto|destruct (_ && _); auto]. }
  cbn [kinds fold_left]. rewrite !A.
  destruct (bytes_eqb n n'); destruct k'; cbn [kind_eqb mtype type_code Z.eqb Pos.eqb andb]; reflexivity.
Qed.
Lemma read_names_eq ns : Forall (fun n => ~ In 47 n) ns -> forall x, exists y, read_names t ns x = Ok y /\
  forall k n, smap_find (meta_map y k) n =
    match (if existsb (bytes_eqb n) ns then look m k n else None) with Some v => Some v | None => smap_find (meta_map x k) n end.
Proof.
  induction 1 as [|n ns N NS IH]; intros x; cbn [read_names existsb].
  - exists x. split; auto.
  - rewrite read_name_eq by auto. cbn [bind]. destruct (IH (step_name n x)) as (y & E & F). exists y. split; auto.
    intros k n'. rewrite F, step_find. destruct (bytes_eqb_spec n' n) as [->|D]; cbn [orb].
    + rewrite beq_refl. destruct (existsb _ ns); destruct (look m k n); auto.
    + rewrite (beq_neq n n') by auto. reflexivity.
Qed.
Lemma read_meta_eq : good_name g -> exists y, read_meta t meta_empty = Ok y /\ forall k n, smap_find (meta_map y k) n = look m k n.
Proof.
  intros G. unfold read_meta, t. 
  change (node_group g (map written (meta_entries m))) with (written (EGroup g (meta_entries m))).
  pose proof (C18_names g (meta_entries m) (proj1 (entries_good m OK))) as (_ & NA & _). cbv zeta in NA. rewrite NA. cbn [bind].
  assert (FA : filter is_attr (meta_entries m) = meta_entries m).
  { assert (H : forall l, (forall e, In e l -> is_attr e = true) -> filter is_attr l = l).
    { induction l as [|e l IH]; intros H; cbn; auto. rewrite H by (left; auto). f_equal. apply IH. intros; apply H; right; auto. }
    apply H. intros e I. apply entries_in in I as (k & n & v & -> & _). reflexivity. }
  rewrite FA. destruct (read_names_eq (map e_name (meta_entries m))) with (x := meta_empty) as (y & E & F).
  { apply Forall_forall. intros n I. apply in_map_iff in I as (e & <- & I). apply entries_in in I as (k & n & v & -> & I). cbn. apply (OK k n v I). }
  exists y. split; [exact E|]. intros k n. rewrite F.
  assert (Z : smap_find (meta_map meta_empty k) n = None) by (destruct k; reflexivity). rewrite Z.
  destruct (existsb (bytes_eqb n) (map e_name (meta_entries m))) eqn:X; [destruct (look m k n); auto|].
  rewrite <- look_entries. destruct (lookup is_attr n (meta_entries m)) as [e|] eqn:L; auto.
  exfalso. apply lookup_some in L as (I & _ & N). apply Bool.not_true_iff_false in X. apply X. apply existsb_exists.
  exists (e_name e). split; [apply in_map; auto|]. rewrite N. apply beq_refl.
Qed.
End R.

Lemma smap_set_in m n v a b : In (a, b) (smap_set m n v) -> (a, b) = (n, v) \/ In (a, b) m.
Proof.
  induction m as [|(k, x) r IH]; cbn [smap_set].
  - intros [H|[]]; left; congruence.
  - destruct (bytes_ltb n k); [intros [H|H]; [left; congruence|right; auto]|].
    destruct (bytes_eqb n k); [intros [H|H]; [left; congruence|right; right; auto]|].
    intros [H|H]; [right; left; auto|]. apply IH in H as [H|H]; auto. right; right; auto.
Qed.
Lemma run_ok l : Forall storable_set l -> forall m, meta_ok m ->
  meta_ok (fold_left (fun m s => meta_set m (ms_kind s) (ms_name s) (ms_value s)) l m).
Proof.
  induction 1 as [|s l (P & Q) H IH]; intros m OK; auto. cbn [fold_left]. apply IH.
  intros k n v I. destruct (kind_eqb_spec (ms_kind s) k) as [<-|N].
  - assert (In (n, v) (smap_set (meta_map m (ms_kind s)) (ms_name s) (ms_value s))).
    { destruct (ms_kind s); exact I. }
    apply smap_set_in in H0 as [E|H0]; [injection E as -> ->; auto|]. apply OK; auto.
  - apply OK. destruct (ms_kind s), k; try congruence; exact I.
Qed.
