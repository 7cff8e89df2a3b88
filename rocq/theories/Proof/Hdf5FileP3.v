(** Opening any plain HDF5 file is defined. *)
From Coq Require Import ZArith List Bool String Lia Arith.
From Verif Require Import Model.Base Model.OgawaM Spec.OgawaSpec Model.OgM Proof.OgP Model.FieldIOM Model.FileM Proof.FileP Model.MetaM Spec.MetaSpec
  Model.Hdf5M Model.Hdf5FileM Spec.Hdf5MetaSpec Proof.Hdf5MetaP Spec.Hdf5FileSpec Proof.Hdf5FileP.
Import ListNotations.
Open Scope Z_scope.

Lemma get_num_def l n fl k : four_bytes l -> k = 1%nat \/ k = 3%nat -> get_num l n fl 4 [k] None <> UB.
Proof.
  intros F K. unfold get_num. destruct (find_by (cstr n) l) as [[]|] eqn:E; try discriminate.
  apply find_by_some in E. destruct (list_eq_dec Nat.eq_dec dims [k]) as [->|]; cbn [negb]; [|discriminate].
  destruct (negb _); [discriminate|]. rewrite (F _ _ _ _ _ E K). discriminate.
Qed.
Lemma get_str_def l n : get_str l n <> UB.
Proof. unfold get_str. destruct (find_by (cstr n) l) as [[]|]; discriminate. Qed.
Lemma get_one_def l n v m : four_bytes l -> get_one l n v m <> UB.
Proof.
  intros F. unfold get_one. destruct v as [s|fl sz [|k []] d|]; try discriminate.
  - destruct (get_str l n) eqn:E; try discriminate. destruct (get_str_def _ _ E).
  - destruct (Nat.eqb_spec k 1) as [->|_]; [|destruct (Nat.eqb_spec k 3) as [->|_]]; try discriminate;
      match goal with |- context [get_num ?a ?b ?c ?d ?e ?f] => destruct (get_num a b c d e f) eqn:E end; try discriminate; exfalso; eapply get_num_def in E; eauto.
Qed.
Lemma get_each_def l todo : four_bytes l -> forall m, get_each l todo m <> UB.
Proof.
  intros F. induction todo as [|(n, v) r IH]; intros m; cbn [get_each]; [discriminate|].
  pose proof (get_one_def l n v m F) as N. destruct (get_one l n v m); cbn [bind]; auto; congruence.
Qed.

Section P.
Context {A M : Type} (ord : list bytes -> list bytes) (map_get : list (bytes * aval) -> res (option M)).
Context (root : hnode (A := A)) (PF : plain_file map_get root).
Lemma attrs_at_def p : node_at root p <> None -> four_bytes (attrs_at root p) /\ map_get (attrs_at root p) <> UB.
Proof. intros N. unfold attrs_at. destruct (node_at root p) eqn:E; [|congruence]. destruct (PF _ _ E) as (F & _ & G). auto. Qed.
Lemma g_open_node l n p : g_open root l n = Some p -> node_at root p <> None.
Proof.
  unfold g_open. destruct l; [|discriminate]. destruct (is_nil (cstr n)); [discriminate|].
  destruct (node_at root (start l n ++ comps n)) eqn:E; [|discriminate]. intros [= <-]. congruence.
Qed.
Lemma version_def : version_ok root <> UB.
Proof.
  unfold version_ok. destruct (PF [] root eq_refl) as (F & _).
  pose proof (get_num_def (n_attrs root) (str "version_number") false 3 F ltac:(auto)). destruct (get_num _ _ _ _ _ _); congruence.
Qed.
Lemma mappings_def names : list_mappings map_get root names <> UB.
Proof.
  induction names as [|n r IH]; cbn [list_mappings]; [discriminate|]. destruct (g_open _ _ _) eqn:E; [|discriminate].
  destruct (attrs_at_def l (g_open_node _ _ _ E)) as (_ & N). destruct (map_get _) as [[|]| |]; try discriminate; [|congruence].
  destruct (list_mappings map_get root r); cbn [bind]; congruence.
Qed.
Lemma layers_def p g l : node_at root p = Some g -> list_layers g l <> UB.
Proof.
  intros E. induction l as [|n r IH]; cbn [list_layers]; [discriminate|]. destruct (find_by n (n_links g)) as [x|] eqn:F; [|auto].
  assert (layer_comps x <> UB).
  { unfold layer_comps. destruct x as [g'|s|].
    - assert (N : node_at root (p ++ [n]) = Some g') by (rewrite node_at_app, E; cbn [node_at]; unfold sub_group; rewrite F; reflexivity).
      destruct (PF _ _ N) as (F4 & _ & _). destruct (get_str _ _); try discriminate. destruct (bytes_eqb _ _); [|discriminate].
      pose proof (get_num_def (n_attrs g') (str "components") false 1 F4 ltac:(auto)). destruct (get_num _ _ _ _ _ _); congruence.
    - discriminate.
    - destruct (PF _ _ E) as (_ & L & _). exfalso. eapply L; [apply find_by_some; eauto|reflexivity]. }
  destruct (layer_comps x); cbn [bind]; [destruct (list_layers g r); cbn [bind]| |]; congruence.
Qed.
Lemma add_layers_def names : forall l, add_layers ord root names l <> UB (A := list (ihpart (M := M))).
Proof.
  induction names as [|n r IH]; intros l; cbn [add_layers]; [discriminate|].
  destruct (g_open root (Some []) n) as [p|] eqn:E; cbn [bind]; auto.
  destruct (node_at root p) as [g|] eqn:E'; cbn [bind]; auto.
  pose proof (layers_def p g (ord (map fst (n_links g))) E'). destruct (list_layers _ _); cbn [bind]; auto; congruence.
Qed.
Lemma open_def f : i_open ord map_get root f <> UB.
Proof.
  unfold i_open. pose proof version_def. destruct (version_ok root) as [[]| |]; cbn [bind negb]; try congruence.
  assert (X : match find_by k_global (n_links root) with Some (LGroup g) => get_meta (n_attrs g) (i_meta f) | _ => Ok (i_meta f) end <> UB).
  { destruct (find_by k_global (n_links root)) as [[g| |]|] eqn:F; try discriminate. apply get_each_def.
    apply (PF [k_global] g). cbn [node_at]. unfold sub_group. rewrite F. reflexivity. }
  destruct (match find_by k_global (n_links root) with Some (LGroup g) => get_meta (n_attrs g) (i_meta f) | _ => Ok (i_meta f) end) as [m| |];
    cbn [bind]; try congruence.
  match goal with |- context [list_mappings _ _ ?n] => pose proof (mappings_def n); destruct (list_mappings map_get root n) as [[l|]| |]; cbn [bind]; try congruence;
    pose proof (add_layers_def n l); destruct (add_layers ord root n l); cbn [bind]; congruence end.
Qed.
Lemma open_root f f' : i_open ord map_get root f = Ok (f', true) -> i_root f' = Some root.
Proof.
  unfold i_open. destruct (version_ok root) as [[]| |]; cbn [bind negb]; try discriminate.
  destruct (match find_by k_global (n_links root) with Some (LGroup g) => get_meta (n_attrs g) (i_meta f) | _ => Ok (i_meta f) end) as [m| |];
    cbn [bind]; try discriminate.
  match goal with |- context [list_mappings _ _ ?n] => destruct (list_mappings map_get root n) as [[l|]| |]; cbn [bind]; try discriminate;
    destruct (add_layers ord root n l); cbn [bind]; try discriminate end.
  intros [= <-]. reflexivity.
Qed.
Lemma layer_def f vec part layer : i_root f = Some root -> i_layer (M := M) f vec part layer <> UB.
Proof.
  intros R. unfold i_layer. rewrite R. destruct (find_r part (i_parts f)); [|discriminate]. destruct (negb _); [discriminate|].
  destruct (g_open root (Some []) (part ++ [47] ++ layer)) as [p|] eqn:E; [|discriminate].
  destruct (node_at root p) as [g|]; [|discriminate]. pose proof (get_str_def (n_attrs g) (str "class_name")).
  destruct (get_str _ _); cbn [bind]; try congruence.
  destruct (g_open root (Some []) ((part ++ [47] ++ layer) ++ [47] ++ str "metadata")) as [mp|] eqn:E2; cbn [bind]; [|discriminate].
  destruct (attrs_at_def mp (g_open_node _ _ _ E2)) as (F & _). unfold get_meta.
  pose proof (get_each_def _ (attrs_at root mp) F meta_empty). destruct (get_each _ _ _); cbn [bind]; congruence.
Qed.
Lemma named_def f vec part keep layers : i_root f = Some root -> i_named (M := M) f vec part keep layers <> UB.
Proof.
  intros R. induction layers as [|n r IH]; cbn [i_named]; [discriminate|]. destruct (keep n); auto.
  pose proof (layer_def f vec part n R). destruct (i_layer f vec part n); cbn [bind]; try congruence.
  destruct (i_named f vec part keep r); cbn [bind]; congruence.
Qed.
Lemma each_def f vec parts want keep : i_root f = Some root -> i_each (M := M) f vec parts want keep <> UB.
Proof.
  intros R. induction parts as [|n r IH]; cbn [i_each]; [discriminate|].
  assert (X : (if want n then i_named f vec n keep (match find_r n (i_parts f) with Some p => r_layers vec p | None => [] end) else Ok []) <> UB)
    by (destruct (want n); [apply named_def; auto|discriminate]).
  destruct (if want n then _ else _); cbn [bind]; try congruence. destruct (i_each f vec r want keep); cbn [bind]; congruence.
Qed.
End P.
