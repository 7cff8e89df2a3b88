(** C62: group memberships survive an HDF5 file. *)
From Coq Require Import ZArith List Bool String Lia Arith.
From Verif Require Import Model.Base Model.OgM Spec.OgSpec Proof.OgP Model.FieldIOM Proof.FieldIOP Model.FileM Spec.FileSpec Proof.FileP
  Model.MetaM Proof.MetaP Model.Hdf5M Model.Hdf5FileM Proof.Hdf5MetaP Proof.Hdf5FileP Model.MembersM Spec.MembersSpec Proof.MembersP.
Import ListNotations.
Open Scope Z_scope.

(** After any additions, writing succeeds, changes nothing else in the file, and reading reports
    for each group its members in the order they were added, without the numbers, and nothing
    for other names. *)
Theorem C62_round_trip : forall A (root : hnode (A := A)) counts parts (h : list (bytes * list member)) out,
  ~ In (str "field3d_group_membership") (map fst (n_links root)) ->
  Forall (fun x => group_ok (fst x) /\ Forall member_ok (snd x)) h ->
  let texts := map (fun x => (fst x, List.concat (map member_text (snd x)))) h in
  exists root' out' found,
    h_members (HFile (Some root) counts parts) (add_members [] texts) = (HFile (Some root') counts parts, true) /\
    n_attrs root' = n_attrs root /\
    (forall n, n <> str "field3d_group_membership" -> find_by n (n_links root') = find_by n (n_links root)) /\
    i_members root' out = Ok (out', found) /\ (found = false <-> h = []) /\
    forall n,
      (In n (map fst h) -> smap_find out' n = Some (List.concat (map member_shown (members_of n h)))) /\
      (~ In n (map fst h) -> smap_find out' n = smap_find out n).
Proof.
  intros A [a links] counts parts h out N F texts. cbn [n_links n_attrs] in *. change texts with (given h). set (m := add_members [] (given h)).
  assert (NM : forall n, In n (map fst m) <-> In n (map fst h)).
  { intros n. unfold m. rewrite add_names. unfold given. rewrite map_map. cbn. tauto. }
  assert (INC : increasing (map fst m)) by (apply add_members_inc; constructor).
  assert (ND : NoDup (map fst m)) by (apply increasing_nodup; auto).
  assert (G : forall n, In n (map fst m) -> group_ok n).
  { intros n I. apply NM, in_map_iff in I as (x & <- & I). apply (proj1 (Forall_forall _ _) F) in I. apply I. }
  assert (OKm : forall n, Forall member_ok (members_of n h)).
  { intros n. apply Forall_forall. intros e I. apply in_flat_map in I as (x & Ix & I).
    destruct (list_eq_dec Z.eq_dec (fst x) n); [|destruct I]. apply (proj1 (Forall_forall _ _) F) in Ix as [_ X]. apply (proj1 (Forall_forall _ _) X), I. }
  destruct m as [|e m0] eqn:Em.
  - assert (E : h = []). { destruct h as [|x h]; auto. exfalso. apply (NM (fst x)). left; auto. }
    exists (HNode a links), out, false. split; [reflexivity|]. split; auto. split; auto. split.
    + unfold i_members. cbn [n_links]. rewrite find_by_none by exact N. reflexivity.
    + rewrite E. split; [tauto|]. intros n. split; [intros []|auto].
  - rewrite <- Em in *. assert (M0 : m <> []) by (rewrite Em; discriminate).
    rewrite (members_written a links counts parts m N M0 ND G). eexists. 
    set (l := m_attrs m).
    assert (NDl : NoDup (map fst l)).
    { unfold l, m_attrs. cbn [map fst]. rewrite map_map. cbn [fst]. constructor; [|exact ND]. intros I. destruct (G _ I) as (_ & _ & Q). apply Q. reflexivity. }
    assert (FB : forall n v, In (n, v) l -> find_by (cstr n) l = Some v).
    { intros n v I. rewrite cstr_id; [apply find_by_in; auto|]. destruct I as [[= <- _]|I]; [vm_compute; intuition discriminate|].
      apply in_map_iff in I as (x & [= <- _] & I). apply (G (fst x)). apply in_map; auto. }
    assert (VAL : forall n s, In (n, VStr s) l -> n <> k_is_members -> In n (map fst h) /\ cstr s = List.concat (map member_text (members_of n h))).
    { intros n s [I|I] Q; [congruence|]. apply in_map_iff in I as ((n', v) & E & I). cbn [fst snd] in E.
      assert (n' = n) by congruence. subst n'. assert (Es : stored_text v = VStr s) by congruence. clear E.
      assert (In n (map fst h)) as Ih by (apply NM, in_map_iff; exists (n, v); auto). split; auto.
      pose proof (added h [] n) as AD. fold m in AD.
      assert (X : existsb (fun x => bytes_eqb (fst x) n) h = true).
      { apply existsb_exists. apply in_map_iff in Ih as (x & <- & Ix). exists x. split; auto. apply beq_refl. }
      rewrite X in AD. cbn [smap_find app] in AD. rewrite (smap_find_in m n v ND I) in AD. injection AD as ->.
      apply (stored_cstr (List.concat (map member_text (members_of n h)))); auto. apply members_nul, OKm. }
    assert (TK : forall n s, In (n, VStr s) l -> n <> k_is_members ->
              tokens [] (cstr s) = flat_map (fun e => [full_part e; mb_layer e]) (members_of n h)).
    { intros n s I Q. destruct (VAL n s I Q) as [_ ->]. apply tokens_members, OKm. }
    destruct (get_members_ok l l out (incl_refl _) NDl FB) as (out' & GE & H1 & H2).
    { intros n s I Q. rewrite (TK n s I Q). clear. induction (members_of n h); auto. }
    exists out', true. split; [reflexivity|]. split; [reflexivity|]. split; [|split; [|split]].
    + intros n Q. cbn [n_links]. rewrite find_by_app. destruct (find_by n links); auto. cbn [find_by]. rewrite beq_neq; auto.
    + unfold i_members. cbn [n_links]. rewrite find_by_app, find_by_none by exact N. cbn [find_by]. rewrite beq_refl. cbn [n_attrs].
      fold l. rewrite GE. reflexivity.
    + split; [discriminate|]. intros ->. exfalso. apply M0. reflexivity.
    + intros n. split.
      * intros I. pose proof (proj2 (NM n) I) as I'. apply in_map_iff in I' as ((n', v) & E & I'). cbn in E. subst n'.
        destruct (G n (proj2 (NM n) I)) as (_ & _ & Q).
        assert (Il : exists s, In (n, VStr s) l).
        { eexists. right. apply in_map_iff. exists (n, v). split; [reflexivity|exact I']. }
        destruct Il as (s & Il). apply (H1 n s); auto. rewrite (TK n s Il Q).
        destruct (regroup_cases _ (flat_map (fun e => [full_part e; mb_layer e]) (members_of n h)) (le_n _)) as [R _].
        destruct R as (t & R). { clear. induction (members_of n h); auto. }
        pose proof (reported_regroup _ _ R) as R'. rewrite (regroup_members _ (OKm n)) in R'. injection R' as <-. exact R.
      * intros I. apply H2. intros s [Il|Il]; [congruence|]. apply in_map_iff in Il as (x & [= <- _] & Il). exfalso. apply I, NM. apply in_map; auto.
Qed.

(** Reading a file that any program wrote: it is undefined exactly when some text has an odd
    number of words; otherwise it reports the words of each text in pairs. *)
Theorem C62_read_any : forall A (root g : hnode (A := A)) out,
  find_by (str "field3d_group_membership") (n_links root) = Some (LGroup g) ->
  NoDup (map fst (n_attrs g)) -> (forall n, In n (map fst (n_attrs g)) -> ~ In 0 n) ->
  let text n s := In (n, VStr s) (n_attrs g) /\ n <> str "is_field3d_group_membership" in
  (i_members root out = UB <->
     exists n s ws, text n s /\ splits (cstr s) ws /\ Nat.odd (List.length ws) = true) /\
  (i_members root out <> UB ->
     exists out', i_members root out = Ok (out', true) /\
       (forall n s ws, text n s -> splits (cstr s) ws -> exists t, reported ws t /\ smap_find out' n = Some t) /\
       (forall n, (forall s, ~ text n s) -> smap_find out' n = smap_find out n)).
Proof.
  intros A root g out F ND NZ text. unfold i_members. change k_members with (str "field3d_group_membership"). rewrite F.
  set (l := n_attrs g) in *.
  assert (FB : forall n v, In (n, v) l -> find_by (cstr n) l = Some v).
  { intros n v I. rewrite cstr_id; [apply find_by_in; auto|]. apply NZ, in_map_iff. exists (n, v). auto. }
  assert (D : (exists n s, text n s /\ Nat.even (List.length (tokens [] (cstr s))) = false) \/
              (forall n s, text n s -> Nat.even (List.length (tokens [] (cstr s))) = true)).
  { unfold text. clear. induction l as [|(n, v) l [(n' & s & (I & Q) & E)|H]].
    - right. intros n s [[] _].
    - left. exists n', s. split; auto. split; auto. right; auto.
    - destruct v as [s|fl sz d x|].
      2,3: right; intros n' s' [[[=]|I] Q]; apply (H n' s'); auto.
      destruct (list_eq_dec Z.eq_dec n (str "is_field3d_group_membership")) as [E|N].
      + right. intros n' s' [[[= <- <-]|I] Q]; [congruence|apply (H n' s'); auto].
      + destruct (Nat.even (List.length (tokens [] (cstr s)))) eqn:E.
        * right. intros n' s' [[[= <- <-]|I] Q]; [auto|apply (H n' s'); auto].
        * left. exists n, s. split; auto. split; auto. left; auto. }
  destruct D as [(n & s & (I & Q) & E)|H].
  - rewrite (get_members_ub l l out (incl_refl _) FB n s I Q E). cbn [bind]. split; [|congruence]. split; [|auto]. intros _.
    exists n, s, (tokens [] (cstr s)). split; [split; auto|]. split; [apply tokens_splits|]. rewrite <- Nat.negb_even, E. reflexivity.
  - destruct (get_members_ok l l out (incl_refl _) ND FB) as (out' & GE & H1 & H2); [intros n s I Q; apply (H n s); split; auto|].
    rewrite GE. cbn [bind]. split.
    + split; [discriminate|]. intros (n & s & ws & T & S & O). apply splits_tokens in S. subst ws. rewrite <- Nat.negb_even, (H n s T) in O. discriminate.
    + intros _. exists out'. split; [reflexivity|]. split.
      * intros n s ws T S. apply splits_tokens in S. subst ws. destruct (regroup_cases _ (tokens [] (cstr s)) (le_n _)) as [R _].
        destruct (R (H n s T)) as (t & Rt). exists t. split; auto. apply (H1 n s); auto; apply T.
      * intros n K. apply H2. intros s I. destruct (list_eq_dec Z.eq_dec n k_is_members) as [E|E]; auto. exfalso. apply (K s). split; auto.
Qed.

(** * Examples *)
Definition ex_h : list (bytes * list member) :=
  [(str "fire", [Member (str "flame") (Some (str "0")) (str "density"); Member (str "flame") (Some (str "12")) (str "heat")]);
   (str "all", [Member (str "flame") (Some (str "0")) (str "density")]);
   (str "fire", [Member (str "a.b") (Some (str "1")) (str "x.y"); Member (str "plain") None (str "d")])].
Definition wordb (w : bytes) : bool :=
  negb (is_nil w) && forallb (fun c => negb ((c =? 0) || (c =? 32) || (c =? 58))) w.
Lemma wordb_ok w : wordb w = true -> word w.
Proof.
  unfold wordb. rewrite andb_true_iff, forallb_forall. intros [N F]. split; [intros ->; discriminate|].
  repeat split; intros I; specialize (F _ I); discriminate.
Qed.
Example C62_example :
  Forall (fun x => group_ok (fst x) /\ Forall member_ok (snd x)) ex_h /\
  (let (h, ok) := h_members (HFile (Some (HNode (A := Z) [] [])) [] []) (add_members [] (map (fun x => (fst x, List.concat (map member_text (snd x)))) ex_h)) in
   match h_root h with
   | Some root => (ok, i_members root [])
   | None => (ok, UB)
   end) = (true, Ok ([(str "all", str "flame:density "); (str "fire", str "flame:density flame:heat a.b:x.y plain:d ")], true)).
Proof.
  split; [|vm_compute; reflexivity].
  assert (GO : forall n, wordb n = true -> bytes_eqb n (str "is_field3d_group_membership") = false -> group_ok n).
  { intros n W E. apply wordb_ok in W. destruct W as (W1 & W2 & _). split; auto. split; auto. intros ->. rewrite beq_refl in E. discriminate. }
  assert (ND : forall s, forallb (fun c => negb (c =? 46)) s = true -> ~ In 46 s).
  { intros s E I. rewrite forallb_forall in E. apply E in I. discriminate. }
  repeat (constructor; [split; [apply GO; reflexivity|repeat (constructor; [split; [apply wordb_ok; reflexivity|split; [apply wordb_ok; reflexivity|apply ND; reflexivity]]|]); constructor]|]).
  constructor.
Qed.

(** * What does not hold *)

(** Two texts that can each be read, added one after the other without a blank between them,
    cannot. *)
Definition ex_read (texts : list (bytes * bytes)) : res (list (bytes * bytes) * bool) :=
  match h_root (fst (h_members (HFile (Some (HNode (A := Z) [] [])) [] []) (add_members [] texts))) with
  | Some root => i_members root []
  | None => Exn
  end.
Theorem C62_no_blank_refuted : ~ (forall t1 t2 g, ex_read [(g, t1)] <> UB -> ex_read [(g, t2)] <> UB -> ex_read [(g, t1); (g, t2)] <> UB).
Proof.
  intros H. apply (H (str "flame.0:density") (str "flame.0:heat") (str "fire")); vm_compute; try discriminate. reflexivity.
Qed.
(** A partition whose name has a dot but no number loses what follows the dot. *)
Theorem C62_dot_refuted : ~ (forall p l out, word p -> word l -> ex_read [(str "g", p ++ [58] ++ l ++ [32])] = Ok (out, true) ->
  smap_find out (str "g") = Some (p ++ [58] ++ l ++ [32])).
Proof.
  intros H. specialize (H (str "left.wing") (str "d") [(str "g", str "left:d ")] ltac:(apply wordb_ok; reflexivity) ltac:(apply wordb_ok; reflexivity)).
  assert (X : smap_find [(str "g", str "left:d ")] (str "g") = Some (str "left.wing:d ")) by (apply H; vm_compute; reflexivity). vm_compute in X. discriminate.
Qed.
(** Memberships can be written once; and a group cannot have the name of the library's mark. *)
Theorem C62_twice_refuted : ~ (forall (h : hfile (A := Z)) m h1 m', h_members h m = (h1, true) -> snd (h_members h1 m') = true).
Proof.
  intros H. specialize (H (HFile (Some (HNode [] [])) [] []) [(str "g", [])] _ [(str "g", [])] eq_refl). vm_compute in H. discriminate.
Qed.
Theorem C62_mark_refuted : ~ (forall n t, word n -> snd (h_members (HFile (Some (HNode (A := Z) [] [])) [] []) [(n, t)]) = true).
Proof.
  intros H. specialize (H (str "is_field3d_group_membership") [] ltac:(apply wordb_ok; reflexivity)). vm_compute in H. discriminate.
Qed.

Print Assumptions C62_round_trip.
Print Assumptions C62_read_any.
Print Assumptions C62_no_blank_refuted.
Print Assumptions C62_dot_refuted.
Print Assumptions C62_twice_refuted.
Print Assumptions C62_mark_refuted.
