From Coq Require Import ZArith List Bool String Ascii DecimalString DecimalNat Lia Arith Permutation.
From Verif Require Import Model.Base Model.OgawaM Spec.OgawaSpec Model.OgM Spec.OgSpec Proof.OgP Model.FieldIOM Model.FileM Spec.FileSpec.
Import ListNotations.
Open Scope Z_scope.

(** * Names *)
Lemma str_inj a b : str a = str b -> a = b.
Proof.
  unfold str. intros H. rewrite <- (string_of_list_ascii_of_string a), <- (string_of_list_ascii_of_string b). f_equal.
  revert H. generalize (list_ascii_of_string b). induction (list_ascii_of_string a) as [|x l IH]; intros [|y m] H; auto; try discriminate.
  cbn in H. injection H as H1 H2. apply Nat2Z.inj in H1. f_equal; auto.
  rewrite <- (ascii_nat_embedding x), <- (ascii_nat_embedding y). f_equal; auto.
Qed.
Lemma int_name_inj i j : int_name i = int_name j -> i = j.
Proof.
  unfold int_name. intros H. apply str_inj in H. apply Unsigned.to_uint_inj.
  pose proof (NilEmpty.usu (Nat.to_uint i)) as A. rewrite H, NilEmpty.usu in A. congruence.
Qed.
Lemma int_name_digits i c : In c (int_name i) -> 48 <= c < 58.
Proof.
  unfold int_name. induction (Nat.to_uint i); cbn; intros [H|H] || intros []; auto; subst; lia.
Qed.
Lemma before_app n d : (forall c, In c d -> c <> 46) -> before_last_dot (n ++ 46 :: d) = Some n.
Proof.
  intros H. induction n as [|c n IH]; cbn.
  - assert (B : before_last_dot d = None).
    { induction d as [|c d IH]; cbn; auto. rewrite IH; [|firstorder]. destruct (Z.eqb_spec c 46); auto. exfalso. apply (H c); firstorder. }
    rewrite B. reflexivity.
  - rewrite IH. reflexivity.
Qed.
Lemma before_int n i : before_last_dot (int_partition n i) = Some n.
Proof. apply before_app. intros c H. apply int_name_digits in H. lia. Qed.
Lemma remove_int n i : remove_id (int_partition n i) = n.
Proof. unfold remove_id. rewrite before_int. reflexivity. Qed.
Lemma int_partition_inj n i m j : int_partition n i = int_partition m j -> n = m /\ i = j.
Proof.
  intros H. assert (n = m) as ->.
  { pose proof (before_int n i) as A. rewrite H, before_int in A. congruence. }
  split; auto. unfold int_partition in H. apply app_inv_head in H. injection H as H. apply int_name_inj; auto.
Qed.
Lemma has_slash_iff n : has_slash n = false <-> ~ In 47 n.
Proof.
  unfold has_slash. rewrite <- Bool.not_true_iff_false, existsb_exists. split; intros H I; apply H.
  - exists 47; split; auto.
  - destruct I as (x & I & E). apply Z.eqb_eq in E as <-. auto.
Qed.
Lemma in_int_partition c n i : In c (int_partition n i) -> In c n \/ c = 46 \/ 48 <= c < 58.
Proof.
  unfold int_partition. rewrite !in_app_iff. cbn. intros [H|[[H|[]]|H]]; auto. right; right. eapply int_name_digits; eauto.
Qed.
Lemma slash_int n i : has_slash (int_partition n i) = has_slash n.
Proof.
  destruct (has_slash n) eqn:E.
  - unfold has_slash, int_partition in *. rewrite existsb_app, E. reflexivity.
  - apply has_slash_iff. intros H. apply in_int_partition in H as [H|[H|H]]; try lia. apply has_slash_iff in H; auto.
Qed.
Lemma int_partition_ne n i : int_partition n i <> [].
Proof. unfold int_partition. destruct n; discriminate. Qed.
Lemma int_partition_good n i : ~ In 0 n -> good_name (int_partition n i).
Proof. intros H. split; [apply int_partition_ne|]. intros I. apply in_int_partition in I as [I|[I|I]]; try lia. auto. Qed.
Lemma global_no_dot n i : int_partition n i <> k_global.
Proof.
  intros H. assert (B : before_last_dot k_global = None) by reflexivity. rewrite <- H, before_int in B. discriminate.
Qed.
Lemma beq_refl a : bytes_eqb a a = true. Proof. destruct (bytes_eqb_spec a a); congruence. Qed.
Lemma beq_neq a b : a <> b -> bytes_eqb a b = false. Proof. destruct (bytes_eqb_spec a b); congruence. Qed.

(** * Groups of named nodes *)
Definition node_ok (t : tree) : Prop :=
  exists n k rest, t = Group (Data n :: Data (enc32 k) :: rest) /\ good_name n /\ 0 <= k < 4.
Definition gname (t : tree) : option bytes :=
  match t with Group (Data n :: Data k :: _) => if dec_le k =? 0 then Some n else None | _ => None end.
Definition is_named (name : bytes) (t : tree) : bool :=
  match gname t with Some n => bytes_eqb n name | None => false end.
Lemma node_group_ok n kids : good_name n -> node_ok (node_group n kids) /\ gname (node_group n kids) = Some n.
Proof.
  intros G. split.
  - exists n, 0, kids. split; [|split; [auto|lia]]. unfold node_group. rewrite wdata_ne by apply G. rewrite wdata_enc32. reflexivity.
  - unfold node_group. rewrite wdata_ne by apply G. rewrite wdata_enc32. reflexivity.
Qed.
Lemma node_attr_ok n ty v : good_name n -> node_ok (node_attr n ty v) /\ gname (node_attr n ty v) = None.
Proof.
  intros G. split.
  - exists n, 1. eexists. split; [|split; [auto|lia]]. unfold node_attr. rewrite wdata_ne by apply G. rewrite wdata_enc32. reflexivity.
  - unfold node_attr. rewrite wdata_ne by apply G. rewrite wdata_enc32. reflexivity.
Qed.
Lemma find_loop_nodes name l : Forall node_ok l -> find_loop name G_GROUP l = Ok (find (is_named name) l).
Proof.
  induction 1 as [|t l (n & k & rest & -> & G & K) H IH]; auto. cbn [find_loop find].
  unfold read_string, get_data. cbn [t_kids nth_error]. unfold read_data, get_data. cbn [t_kids nth_error].
  rewrite enc32_length. cbn [Nat.eqb bind]. rewrite dec_enc32 by lia. unfold is_named, gname. rewrite dec_enc32 by lia.
  rewrite cstr_id by apply G. unfold G_GROUP. destruct (Z.eqb_spec k 0); cbn [negb].
  - destruct (bytes_eqb n name); auto.
  - auto.
Qed.
Lemma names_loop_nodes l : Forall node_ok l ->
  names_loop G_GROUP l = Ok (flat_map (fun t => match gname t with Some n => [n] | None => [] end) l).
Proof.
  induction 1 as [|t l (n & k & rest & -> & G & K) H IH]; auto. cbn [names_loop flat_map].
  unfold read_string, get_data. cbn [t_kids nth_error]. unfold read_data, get_data. cbn [t_kids nth_error].
  rewrite enc32_length. cbn [Nat.eqb bind]. rewrite dec_enc32 by lia. unfold gname at 1. rewrite dec_enc32 by lia.
  rewrite cstr_id by apply G. unfold G_GROUP. destruct (Z.eqb_spec k 0); cbn [negb]; unfold G_GROUP in IH; rewrite IH; reflexivity.
Qed.
Lemma find_valid_nodes g kids name : good_name g -> Forall node_ok kids -> ~ In 47 name ->
  find_valid (node_group g kids) name = Ok (find (is_named name) kids).
Proof.
  intros G F N. unfold find_valid, find_group. rewrite split_plain by auto. cbn [app find_comps].
  unfold node_group. rewrite wdata_ne by apply G. rewrite wdata_enc32. cbn [t_kids app skipn].
  rewrite find_loop_nodes by auto. cbn [bind]. destruct (find (is_named name) kids) as [t|] eqn:E; auto.
  apply find_some in E as (I & _). apply (proj1 (Forall_forall _ _) F) in I as (n & k & rest & -> & _). reflexivity.
Qed.
Lemma group_names_nodes g kids : good_name g -> Forall node_ok kids ->
  group_names (node_group g kids) G_GROUP = Ok (flat_map (fun t => match gname t with Some n => [n] | None => [] end) kids).
Proof.
  intros G F. unfold group_names, node_group. rewrite wdata_ne by apply G. rewrite wdata_enc32. cbn [t_kids app skipn].
  apply names_loop_nodes; auto.
Qed.

Lemma good_str s : forallb (fun c => negb (c =? 0)) (str s) && negb (is_nil (str s)) = true -> good_name (str s).
Proof.
  intros H. apply andb_true_iff in H as (H & K). split.
  - intros E. rewrite E in K. discriminate.
  - intros I. rewrite forallb_forall in H. apply H in I. discriminate.
Qed.

(** * The writer *)
Lemma find_part_split n l1 p l2 : (forall q, In q l1 -> p_name q <> n) -> p_name p = n ->
  find_part n (l1 ++ p :: l2) = Some p.
Proof.
  intros H E. unfold find_part. induction l1 as [|q l1 IH]; cbn.
  - rewrite E, beq_refl. reflexivity.
  - rewrite beq_neq by (apply H; left; auto). apply IH. intros r I. apply H. right; auto.
Qed.
Lemma find_part_none n l : (forall q, In q l -> p_name q <> n) -> find_part n l = None.
Proof.
  intros H. unfold find_part. induction l as [|q l1 IH]; cbn; auto.
  rewrite beq_neq by (apply H; left; auto). apply IH. intros r I. apply H. right; auto.
Qed.
Lemma upd_part_split n g l1 p l2 : (forall q, In q l1 -> p_name q <> n) -> p_name p = n ->
  upd_part n g (l1 ++ p :: l2) = l1 ++ g p :: l2.
Proof.
  intros H E. induction l1 as [|q l1 IH]; cbn.
  - rewrite E, beq_refl. reflexivity.
  - rewrite beq_neq by (apply H; left; auto). f_equal. apply IH. intros r I. apply H. right; auto.
Qed.

Section W.
Context {M : Type}.
Variable ident : M -> M -> bool.
Variable map_kids : M -> list tree.
Variable map_ok : M -> bool.
Variable hp : nat -> M.

Record gpart : Type := GP { g_user : bytes; g_idx : nat; g_ref : nat; g_ws : list wr }.
Definition key (g : gpart) : bytes * nat := (g_user g, g_idx g).
Definition g_name (g : gpart) : bytes := int_partition (g_user g) (g_idx g).
Definition wnode (w : wr) : tree := node_group (w_layer w) (w_body w).
Definition tag : tree := node_attr (str "is_field3d_partition") TString (str "1").
Definition part_of (g : gpart) : part :=
  Part (g_name g) (Some (g_ref g)) (map w_layer (g_ws g))
       (node_group k_mapping (map_kids (hp (g_ref g))) :: tag :: map wnode (g_ws g)).

Definition g_ok (g : gpart) : Prop :=
  ~ In 0 (g_user g) /\ ~ In 47 (g_user g) /\ NoDup (map w_layer (g_ws g)) /\
  Forall (fun w => w_user w = g_user g /\ usable w /\ ~ In 47 (w_layer w) /\ ident (hp (w_ref w)) (hp (g_ref g)) = true) (g_ws g).

Definition of_user (u : bytes) (G : list gpart) : list gpart := filter (fun g => bytes_eqb (g_user g) u) G.
(** On an object used for its first file the indices of a user's partitions have no gap. *)
Definition contig (f : ofile) (G : list gpart) : Prop :=
  forall u, ~ In 47 u ->
    map g_idx (of_user u G) = seq 0 (List.length (of_user u G)) /\
    count_of (o_count f) u = match List.length (of_user u G) with O => None | S n => Some n end.

Record inv (fresh : Prop) (f : ofile) (G : list gpart) (acc : list wr) : Prop := {
  i_parts : o_parts f = map part_of G;
  i_nodup : NoDup (map key G);
  i_ok : Forall g_ok G;
  i_perm : Permutation (flat_map g_ws G) acc;
  i_count : forall g, In g G -> exists n, count_of (o_count f) (g_user g) = Some n /\ (g_idx g <= n)%nat;
  i_contig : fresh -> contig f G }.

Lemma key_name g h : g_name g = g_name h -> key g = key h.
Proof. intros H. apply int_partition_inj in H as (A & B). unfold key. congruence. Qed.

Lemma matching_spec u r : forall G, match matching ident hp r u (map part_of G) with
  | Ok (Some n) => exists g, In g G /\ g_user g = u /\ n = g_name g /\ ident (hp (g_ref g)) (hp r) = true
  | Ok None => forall g, In g G -> g_user g = u -> ident (hp (g_ref g)) (hp r) = false
  | _ => False
  end.
Proof.
  induction G as [|g G IH]; cbn [map matching]; [intros ? []|].
  unfold part_of at 1 2. cbn [p_name p_map]. unfold g_name at 1. rewrite remove_int.
  destruct (bytes_eqb_spec (g_user g) u) as [E|E].
  - destruct (ident (hp (g_ref g)) (hp r)) eqn:I.
    + exists g. split; [left; auto|]. auto.
    + destruct (matching ident hp r u (map part_of G)) as [[n|]| |]; auto.
      * destruct IH as (h & A & B). exists h. split; [right|]; auto.
      * intros h [<-|H] U; auto.
  - destruct (matching ident hp r u (map part_of G)) as [[n|]| |]; auto.
    + destruct IH as (h & A & B). exists h. split; [right|]; auto.
    + intros h [<-|H] U; auto. congruence.
Qed.

Lemma count_set_same c u i : count_of (count_set c u i) u = Some i.
Proof. cbn. rewrite beq_refl. reflexivity. Qed.
Lemma count_set_other c u i v : u <> v -> count_of (count_set c u i) v = count_of c v.
Proof. intros H. cbn. rewrite beq_neq; auto. Qed.

(** Taking the next number. *)
Lemma next_fresh fresh f G acc u i : inv fresh f G acc ->
  i = match count_of (o_count f) u with Some n => S n | None => O end ->
  (forall g, In g G -> g_name g <> int_partition u i).
Proof.
  intros V E g I N. apply int_partition_inj in N as (A & B).
  destruct (i_count _ _ _ _ V g I) as (n & C & L). rewrite A in C. rewrite C in E. lia.
Qed.

(** Adding a layer to an existing partition. *)
Lemma add_existing fresh f G1 g G2 acc w :
  inv fresh f (G1 ++ g :: G2) acc -> usable w -> w_user w = g_user g -> ~ In (w_layer w) (map w_layer (g_ws g)) ->
  exists f' oc G', add_layer ident hp f (g_name g) (w_layer w) (w_ref w) (w_body w) = Ok (f', oc) /\
    inv fresh f' G' (acc ++ match oc with Accepted => [w] | _ => [] end) /\
    (oc = Accepted <-> ~ In 47 (w_layer w) /\ ident (hp (w_ref w)) (hp (g_ref g)) = true).
Proof.
  intros V U E N.
  assert (D : forall q, In q (map part_of G1) -> p_name q <> g_name g).
  { intros q I H. apply in_map_iff in I as (h & <- & I). cbn in H. apply key_name in H.
    pose proof (i_nodup _ _ _ _ V) as ND. rewrite map_app in ND. cbn in ND. apply NoDup_remove_2 in ND.
    apply ND. rewrite in_app_iff. left. rewrite <- H. apply in_map; auto. }
  unfold add_layer. rewrite (i_parts _ _ _ _ V), map_app. cbn [map].
  rewrite find_part_split by (auto; reflexivity). unfold part_of at 1. cbn [p_map].
  destruct (ident (hp (w_ref w)) (hp (g_ref g))) eqn:I; cbn [negb].
  2:{ exists f, Rejected, (G1 ++ g :: G2). rewrite app_nil_r. split; [auto|]. split; [auto|]. split; [discriminate|]. intros (_ & H); discriminate. }
  destruct (has_slash (w_layer w)) eqn:S.
  { exists f, Threw, (G1 ++ g :: G2). rewrite app_nil_r. split; [auto|]. split; [auto|]. split; [discriminate|].
    intros (H & _). apply has_slash_iff in H. congruence. }
  apply has_slash_iff in S.
  set (g' := GP (g_user g) (g_idx g) (g_ref g) (g_ws g ++ [w])).
  eexists; exists Accepted, (G1 ++ g' :: G2). split; [reflexivity|]. split; [|tauto].
  destruct V as [A B C P Q R]. apply Forall_app in C as (C1 & C2). inversion C2 as [|? ? Cg C3]; subst.
  split.
  - cbn [o_parts]. rewrite upd_part_split by (auto; reflexivity). rewrite map_app. cbn [map]. do 2 f_equal.
    unfold part_of, g', g_name. cbn. rewrite !map_app. reflexivity.
  - rewrite map_app in *. cbn in *. auto.
  - apply Forall_app. split; auto. constructor; auto.
    destruct Cg as (Z & Sl & ND & F). split; [auto|]. split; [auto|]. cbn. split.
    + rewrite map_app. cbn. apply NoDup_app_comm_1 || idtac.
      apply NoDup_rev in ND. rewrite <- (rev_involutive (_ ++ _)). apply NoDup_rev. rewrite rev_app_distr. cbn. constructor; auto. rewrite <- in_rev. auto.
    + apply Forall_app. split; auto.
  - rewrite flat_map_app in *. cbn [flat_map] in *. cbn [g' g_ws]. 
    rewrite <- P. rewrite <- !app_assoc. apply Permutation_app_head. apply Permutation_app_head. cbn. apply Permutation_cons_append.
  - intros h Ih. cbn [o_count]. apply in_app_iff in Ih as [Ih|[<-|Ih]].
    + apply Q. apply in_app_iff; auto.
    + cbn. apply (Q g). apply in_app_iff. right; left; auto.
    + apply Q. apply in_app_iff. right; right; auto.
  - intros fr u NU. destruct (R fr u NU) as (R1 & R2). cbn [o_count].
    unfold of_user in *. rewrite filter_app in *. cbn [filter] in *. cbn [g' g_user].
    destruct (bytes_eqb (g_user g) u); rewrite map_app in *; cbn in *; rewrite !app_length in *; cbn in *; auto.
Qed.

(** A new partition with its first layer. *)
Lemma add_new fresh f G acc w :
  inv fresh f G acc -> usable w -> map_ok (hp (w_ref w)) = true ->
  let (f1, name) := next_name f (w_user w) in
  exists f' oc G',
    (let (f2, oc) := create_partition map_kids map_ok hp f1 name (w_ref w) in
     match oc with Accepted => add_layer ident hp f2 name (w_layer w) (w_ref w) (w_body w) | _ => Ok (f2, oc) end) = Ok (f', oc) /\
    inv fresh f' G' (acc ++ match oc with Accepted => [w] | _ => [] end) /\
    (oc = Accepted <-> ~ In 47 (w_user w) /\ ~ In 47 (w_layer w) /\ ident (hp (w_ref w)) (hp (w_ref w)) = true).
Proof.
  intros V U MO. unfold next_name. set (i := match count_of (o_count f) (w_user w) with Some n => S n | None => O end).
  pose proof (next_fresh _ _ _ _ (w_user w) i V eq_refl) as FR.
  unfold create_partition. rewrite slash_int. destruct (has_slash (w_user w)) eqn:S.
  - eexists; exists Threw, G. split; [reflexivity|]. rewrite app_nil_r. split.
    2:{ split; [discriminate|]. intros (H & _). apply has_slash_iff in H. congruence. }
    destruct V as [A B C P Q R]. split; auto; cbn [o_count].
    + intros g I. assert (w_user w <> g_user g).
      { intros E. apply (proj1 (Forall_forall _ _) C) in I as (_ & H & _). apply has_slash_iff in H. congruence. }
      rewrite count_set_other by auto. auto.
    + intros fr u NU. cbn [o_count]. rewrite count_set_other; [apply R; auto|]. intros EU. rewrite <- EU in NU. apply has_slash_iff in NU. congruence.
  - apply has_slash_iff in S. rewrite MO. cbn [negb o_parts o_count].
    set (g := GP (w_user w) i (w_ref w) []).
    assert (UP : forall h, upd_part (int_partition (w_user w) i) h (o_parts f ++ [Part (int_partition (w_user w) i) None [] [node_group k_mapping (map_kids (hp (w_ref w)))]])
              = map part_of G ++ [h (Part (int_partition (w_user w) i) None [] [node_group k_mapping (map_kids (hp (w_ref w)))])]).
    { intros h. rewrite (i_parts _ _ _ _ V). apply upd_part_split; auto. intros q I. apply in_map_iff in I as (g0 & <- & I). apply FR; auto. }
    rewrite UP. cbn [p_name p_layers p_kids app].
    set (f2 := OFile _ _).
    assert (V2 : inv fresh f2 (G ++ [g]) acc).
    { destruct V as [A B C P Q R]. split.
      - cbn. rewrite map_app. reflexivity.
      - rewrite map_app. cbn. apply NoDup_rev in B. rewrite <- (rev_involutive (_ ++ _)). apply NoDup_rev. rewrite rev_app_distr. cbn.
        constructor; auto. rewrite <- in_rev. intros I. apply in_map_iff in I as (h & E & I). apply (FR h I). unfold key in E. cbn in E.
        unfold g_name. congruence.
      - apply Forall_app. split; auto. constructor; auto. split; [apply U|]. split; [auto|]. split; [constructor|constructor].
      - rewrite flat_map_app. cbn. rewrite app_nil_r. auto.
      - intros h I. apply in_app_iff in I as [I|[<-|[]]].
        + destruct (Q h I) as (n & E1 & E2). cbn [f2 o_count]. destruct (bytes_eqb_spec (w_user w) (g_user h)) as [E|E].
          * rewrite <- E, count_set_same. exists i. split; auto. unfold i. rewrite E, E1. lia.
          * rewrite count_set_other by auto. eauto.
        + cbn [f2 o_count g g_user g_idx]. rewrite count_set_same. eauto.
      - intros fr u NU. destruct (R fr u NU) as (R1 & R2). cbn [f2 o_count]. unfold of_user in *. rewrite filter_app. cbn [filter g g_user].
        destruct (bytes_eqb_spec (w_user w) u) as [E|E].
        + rewrite E, count_set_same. rewrite map_app, app_length. cbn. rewrite R1.
          assert (Ei : i = List.length (filter (fun g => bytes_eqb (g_user g) u) G)).
          { unfold i. rewrite E, R2. destruct (List.length _); auto. }
          rewrite Nat.add_1_r. rewrite seq_S, <- Ei. cbn. auto.
        + rewrite app_nil_r. rewrite count_set_other by auto. auto. }
    destruct (add_existing fresh f2 G g [] acc w V2 U eq_refl) as (f' & oc & G' & E & V' & OC); [intros []|].
    exists f', oc, G'. split; [exact E|]. split; auto. cbn in OC. rewrite OC. tauto.
Qed.

Lemma write_step fresh f G acc w :
  inv fresh f G acc -> usable w -> map_ok (hp (w_ref w)) = true ->
  exists f' oc G', write_layer ident map_kids map_ok hp f (w_user w) (w_layer w) (w_ref w) (w_body w) = Ok (f', oc) /\
    inv fresh f' G' (acc ++ match oc with Accepted => [w] | _ => [] end) /\
    ((forall a, ident a a = true) -> (forall a b, ident a b = ident b a) ->
       (oc = Accepted <-> ~ In 47 (w_user w) /\ ~ In 47 (w_layer w))).
Proof.
  intros V U MO. unfold write_layer, int_partition_name.
  pose proof (matching_spec (w_user w) (w_ref w) G) as MS. rewrite <- (i_parts _ _ _ _ V) in MS.
  destruct (matching ident hp (w_ref w) (w_user w) (o_parts f)) as [[n|]| |] eqn:E; try contradiction; cbn [bind].
  - destruct MS as (g & I & GU & -> & ID).
    apply in_split in I as (G1 & G2 & ->).
    assert (D : forall q, In q (map part_of G1) -> p_name q <> g_name g).
    { intros q I H. apply in_map_iff in I as (h & <- & I). cbn in H. apply key_name in H.
      pose proof (i_nodup _ _ _ _ V) as ND. rewrite map_app in ND. cbn in ND. apply NoDup_remove_2 in ND.
      apply ND. rewrite in_app_iff. left. rewrite <- H. apply in_map; auto. }
    rewrite (i_parts _ _ _ _ V), map_app. cbn [map]. rewrite find_part_split by (auto; reflexivity).
    cbn [part_of p_layers].
    assert (SL : ~ In 47 (w_user w)).
    { pose proof (i_ok _ _ _ _ V) as C. apply Forall_app in C as (_ & C). inversion C as [|? ? (_ & S & _)]; subst. rewrite <- GU. auto. }
    destruct (existsb (bytes_eqb (w_layer w)) (map w_layer (g_ws g))) eqn:X.
    + unfold g_name at 1. rewrite remove_int, GU.
      pose proof (add_new fresh f _ acc w V U MO) as AN. unfold next_name in *.
      destruct AN as (f' & oc & G' & A1 & A2 & A3). exists f', oc, G'. split; [exact A1|]. split; auto.
      intros Re Sy. rewrite A3, Re. tauto.
    + destruct (add_existing fresh f G1 g G2 acc w V U (eq_sym GU)) as (f' & oc & G' & A1 & A2 & A3).
      { intros I. apply in_map_iff in I as (w' & EL & I). apply Bool.not_true_iff_false in X. apply X.
        apply existsb_exists. exists (w_layer w'). split; [apply in_map; auto|]. rewrite EL. apply beq_refl. }
      exists f', oc, G'. split; [exact A1|]. split; auto. intros Re Sy. rewrite A3, Sy, ID. tauto.
  - unfold next_name.
    assert (FN : find_part (int_partition (w_user w) (match count_of (o_count f) (w_user w) with Some n => S n | None => O end)) (o_parts f) = None).
    { apply find_part_none. intros q I. rewrite (i_parts _ _ _ _ V) in I. apply in_map_iff in I as (h & <- & I). cbn.
      eapply next_fresh; eauto. }
    cbn [o_parts]. rewrite FN.
    pose proof (add_new fresh f _ acc w V U MO) as AN. unfold next_name in *.
    destruct AN as (f' & oc & G' & A1 & A2 & A3). exists f', oc, G'. split; [exact A1|]. split; auto.
    intros Re Sy. rewrite A3, Re. tauto.
Qed.

Lemma accepted_cons w ws oc ocs :
  accepted (w :: ws) (oc :: ocs) = match oc with Accepted => [w] | _ => [] end ++ accepted ws ocs.
Proof. unfold accepted. cbn. destruct oc; reflexivity. Qed.

Lemma write_all_inv fresh ws : Forall usable ws -> Forall (fun w => map_ok (hp (w_ref w)) = true) ws ->
  forall f G acc, inv fresh f G acc ->
  exists f' ocs G', write_all ident map_kids map_ok hp f ws = Ok (f', ocs) /\
    inv fresh f' G' (acc ++ accepted ws ocs) /\ List.length ocs = List.length ws /\
    ((forall a, ident a a = true) -> (forall a b, ident a b = ident b a) ->
      Forall2 (fun w oc => oc = Accepted <-> ~ In 47 (w_user w) /\ ~ In 47 (w_layer w)) ws ocs).
Proof.
  induction 1 as [|w ws U US IH]; intros MS f G acc V; cbn [write_all].
  - exists f, [], G. unfold accepted. cbn. rewrite app_nil_r. auto.
  - inversion MS; subst. destruct (write_step fresh f G acc w V U) as (f1 & oc & G1 & E1 & V1 & A1); auto.
    rewrite E1. cbn [bind]. destruct (IH H2 f1 G1 _ V1) as (f2 & ocs & G2 & E2 & V2 & L & A2). rewrite E2. cbn [bind].
    exists f2, (oc :: ocs), G2. split; auto. rewrite accepted_cons. rewrite <- app_assoc in V2. split; auto. split; [cbn; auto|].
    intros Re Sy. constructor; auto.
Qed.
Lemma inv_new c : inv False (OFile c []) [] [].
Proof. split; [reflexivity|constructor|constructor|apply Permutation_refl|intros ? []|contradiction]. Qed.
Lemma inv_fresh : inv True o_new [] [].
Proof. split; [reflexivity|constructor|constructor|apply Permutation_refl|intros ? []|]. intros _ u N. cbn. auto. Qed.

(** * The reader *)
Definition imap (g : gpart) : tree := node_group k_mapping (map_kids (hp (g_ref g))).
Definition bare (g : gpart) : ipart := IPart (g_name g) (Some (imap g)) [].
Definition full (g : gpart) : ipart := IPart (g_name g) (Some (imap g)) (map w_layer (g_ws g)).

Section R.
Variables (fresh : Prop) (f : ofile) (G : list gpart) (acc : list wr) (version : bytes) (globals : option (list tree)).
Hypothesis V : inv fresh f G acc.
Let t : tree := file_tree version f globals.
Definition root_kids : list tree :=
  node_attr (str "version_number") TVecI32 version ::
  map (fun g => node_group (g_name g) (p_kids (part_of g))) G ++
  match globals with Some k => [node_group k_global k] | None => [] end.

Lemma t_eq : t = node_group (str "f3droot") root_kids.
Proof. unfold t, file_tree, root_kids. rewrite (i_parts _ _ _ _ V), map_map. reflexivity. Qed.

Lemma g_good g : In g G -> good_name (g_name g) /\ ~ In 47 (g_name g).
Proof.
  intros I. pose proof (proj1 (Forall_forall _ _) (i_ok _ _ _ _ V) g I) as (A & B & _).
  split; [apply int_partition_good; auto|]. apply has_slash_iff. unfold g_name. rewrite slash_int. apply has_slash_iff; auto.
Qed.
Lemma global_good : good_name k_global. Proof. apply good_str. reflexivity. Qed.
Lemma mapping_good : good_name k_mapping. Proof. apply good_str. reflexivity. Qed.
Lemma tag_ok : node_ok tag /\ gname tag = None. Proof. apply node_attr_ok. apply good_str. reflexivity. Qed.
Lemma version_ok : node_ok (node_attr (str "version_number") TVecI32 version) /\ gname (node_attr (str "version_number") TVecI32 version) = None.
Proof. apply node_attr_ok. apply good_str. reflexivity. Qed.

Lemma root_ok : Forall node_ok root_kids.
Proof.
  constructor; [apply version_ok|]. apply Forall_app. split.
  - apply Forall_forall. intros x I. apply in_map_iff in I as (g & <- & I). apply node_group_ok. apply g_good; auto.
  - destruct globals; constructor; auto. apply node_group_ok. apply global_good.
Qed.
Lemma root_names : flat_map (fun t => match gname t with Some n => [n] | None => [] end) root_kids =
  map g_name G ++ match globals with Some _ => [k_global] | None => [] end.
Proof.
  unfold root_kids. cbn [flat_map]. rewrite (proj2 version_ok). cbn [app]. rewrite flat_map_app. f_equal.
  - assert (H : forall g, In g G -> good_name (g_name g)) by (intros; apply g_good; auto).
    revert H. generalize G. induction G0 as [|g l IH]; intros H; cbn [map flat_map]; auto.
    rewrite (proj2 (node_group_ok (g_name g) _ (H g (or_introl eq_refl)))). cbn [app]. f_equal. apply IH. intros; apply H; right; auto.
  - destruct globals; reflexivity.
Qed.
Lemma part_names : filter (fun x => negb (bytes_eqb x k_global)) (map g_name G ++ match globals with Some _ => [k_global] | None => [] end) = map g_name G.
Proof.
  rewrite filter_app. replace (filter _ (match globals with Some _ => [k_global] | None => [] end)) with (@nil bytes).
  2:{ destruct globals; reflexivity. }
  rewrite app_nil_r. clear. induction G as [|g l IH]; cbn [map filter]; auto.
  unfold g_name at 1. rewrite (beq_neq (int_partition _ _)) by apply global_no_dot. cbn [negb]. f_equal. auto.
Qed.

Lemma find_first {A} (p : A -> bool) l1 x l2 : (forall y, In y l1 -> p y = false) -> p x = true -> find p (l1 ++ x :: l2) = Some x.
Proof. intros H E. induction l1 as [|y l1 IH]; cbn; [rewrite E; auto|]. rewrite H by (left; auto). apply IH. intros; apply H; right; auto. Qed.

Lemma named_group n m kids : good_name n -> is_named m (node_group n kids) = bytes_eqb n m.
Proof. intros H. unfold is_named. rewrite (proj2 (node_group_ok n kids H)). reflexivity. Qed.

Lemma find_gpart g : In g G -> find_valid t (g_name g) = Ok (Some (node_group (g_name g) (p_kids (part_of g)))).
Proof.
  intros I. rewrite t_eq. rewrite find_valid_nodes; [|apply good_str; reflexivity|apply root_ok|apply g_good; auto].
  f_equal. destruct (in_split g G I) as (G1 & G2 & EG). unfold root_kids. cbn [find].
  unfold is_named at 1. rewrite (proj2 version_ok). rewrite EG, map_app. cbn [map]. rewrite <- app_assoc. cbn [app].
  apply find_first.
  - intros y Iy. apply in_map_iff in Iy as (h & <- & Ih).
    assert (In h G) by (rewrite EG; apply in_app_iff; auto).
    rewrite named_group by (apply g_good; auto). apply beq_neq. intros N. apply key_name in N.
    pose proof (i_nodup _ _ _ _ V) as ND. rewrite EG, map_app in ND. cbn in ND. apply NoDup_remove_2 in ND. apply ND.
    rewrite in_app_iff. left. rewrite <- N. apply in_map; auto.
  - rewrite named_group by (apply g_good; auto). apply beq_refl.
Qed.

Lemma kids_ok g : In g G -> Forall node_ok (p_kids (part_of g)).
Proof.
  intros I. pose proof (proj1 (Forall_forall _ _) (i_ok _ _ _ _ V) g I) as (A & B & C & D).
  cbn [part_of p_kids]. constructor; [apply node_group_ok, mapping_good|]. constructor; [apply tag_ok|].
  apply Forall_forall. intros x Ix. apply in_map_iff in Ix as (w & <- & Iw). apply node_group_ok.
  apply (proj1 (Forall_forall _ _) D) in Iw as (_ & (_ & Gd & _) & _). auto.
Qed.
Lemma find_mapping g : In g G -> find_valid (node_group (g_name g) (p_kids (part_of g))) k_mapping = Ok (Some (imap g)).
Proof.
  intros I. rewrite find_valid_nodes; [|apply g_good; auto|apply kids_ok; auto|apply has_slash_iff; reflexivity].
  cbn [part_of p_kids find]. rewrite named_group by apply mapping_good. rewrite beq_refl. reflexivity.
Qed.
Lemma find_layer g w : In g G -> In w (g_ws g) ->
  find_valid (node_group (g_name g) (p_kids (part_of g))) (w_layer w) = Ok (Some (wnode w)).
Proof.
  intros I Iw. pose proof (proj1 (Forall_forall _ _) (i_ok _ _ _ _ V) g I) as (A & B & C & D).
  pose proof (proj1 (Forall_forall _ _) D w Iw) as (Du & (U1 & U2 & U3) & Ds & Di).
  rewrite find_valid_nodes; [|apply g_good; auto|apply kids_ok; auto|auto].
  f_equal. cbn [part_of p_kids find]. rewrite named_group by apply mapping_good. rewrite beq_neq by (intros H; apply U3; auto).
  unfold is_named at 1. rewrite (proj2 tag_ok).
  destruct (in_split w _ Iw) as (l1 & l2 & El). rewrite El, map_app. cbn [map].
  assert (GW : forall x, In x (g_ws g) -> good_name (w_layer x)).
  { intros x Ix. apply (proj1 (Forall_forall _ _) D) in Ix as (_ & (_ & Gd & _) & _). auto. }
  apply find_first.
  - intros y Iy. apply in_map_iff in Iy as (x & <- & Ix). unfold wnode.
    rewrite named_group by (apply GW; rewrite El; apply in_app_iff; auto).
    apply beq_neq. intros N. rewrite El, map_app in C. cbn in C. apply NoDup_remove_2 in C. apply C.
    rewrite in_app_iff. left. rewrite <- N. apply in_map; auto.
  - unfold wnode. rewrite named_group by auto. apply beq_refl.
Qed.
Lemma layer_list g : In g G ->
  exists ls, group_names (node_group (g_name g) (p_kids (part_of g))) G_GROUP = Ok ls /\
    filter (fun x => negb (bytes_eqb x k_mapping)) ls = map w_layer (g_ws g).
Proof.
  intros I. rewrite group_names_nodes; [|apply g_good; auto|apply kids_ok; auto]. eexists. split; [reflexivity|].
  pose proof (proj1 (Forall_forall _ _) (i_ok _ _ _ _ V) g I) as (A & B & C & D).
  cbn [part_of p_kids flat_map]. rewrite (proj2 (node_group_ok k_mapping _ mapping_good)), (proj2 tag_ok). cbn [app filter].
  rewrite beq_refl. cbn [negb]. clear -D. induction D as [|w l (Du & (U1 & U2 & U3) & Ds & Di) D IH]; auto.
  cbn [map flat_map]. unfold wnode at 1. rewrite (proj2 (node_group_ok _ _ U2)). cbn [app filter].
  rewrite beq_neq by auto. cbn [negb]. f_equal. auto.
Qed.

Lemma info_maps_eq l : incl l G -> info_maps t (map g_name l) = Ok (map bare l).
Proof.
  induction l as [|g l IH]; intros H; auto. cbn [map info_maps].
  assert (I : In g G) by (apply H; left; auto).
  rewrite find_gpart by auto. cbn [bind]. rewrite find_mapping by auto. cbn [bind].
  rewrite IH by (intros x Ix; apply H; right; auto). reflexivity.
Qed.
Lemma upd_ipart_split n h l1 p l2 : (forall q, In q l1 -> ip_name q <> n) -> ip_name p = n ->
  upd_ipart n h (l1 ++ p :: l2) = l1 ++ h p :: l2.
Proof.
  intros H E. induction l1 as [|q l1 IH]; cbn.
  - rewrite E, beq_refl. reflexivity.
  - rewrite beq_neq by (apply H; left; auto). f_equal. apply IH. intros r I. apply H. right; auto.
Qed.
Lemma info_layers_eq l2 : forall l1, G = l1 ++ l2 ->
  info_layers t (map g_name l2) (map full l1 ++ map bare l2) = Ok (map full G).
Proof.
  induction l2 as [|g l IH]; intros l1 EG; cbn [map info_layers].
  - rewrite app_nil_r in *. congruence.
  - assert (I : In g G) by (rewrite EG; apply in_app_iff; right; left; auto).
    rewrite find_gpart by auto. cbn [bind]. destruct (layer_list g I) as (ls & -> & EL). cbn [bind]. rewrite EL.
    rewrite upd_ipart_split; [|intros q Iq N|reflexivity].
    + cbn [bare ip_name ip_map ip_layers app]. replace (map full l1 ++ IPart (g_name g) (Some (imap g)) (map w_layer (g_ws g)) :: map bare l)
        with (map full (l1 ++ [g]) ++ map bare l) by (rewrite map_app, <- app_assoc; reflexivity).
      apply IH. rewrite EG, <- app_assoc. reflexivity.
    + apply in_map_iff in Iq as (h & <- & Ih). cbn in N. apply key_name in N.
      pose proof (i_nodup _ _ _ _ V) as ND. rewrite EG, map_app in ND. cbn in ND. apply NoDup_remove_2 in ND. apply ND.
      rewrite in_app_iff. left. rewrite <- N. apply in_map; auto.
Qed.
Lemma read_info_eq : read_info t = Ok (map full G).
Proof.
  unfold read_info. rewrite t_eq at 1. rewrite group_names_nodes; [|apply good_str; reflexivity|apply root_ok]. cbn [bind].
  rewrite root_names, part_names. rewrite info_maps_eq by (intros ? ?; auto). cbn [bind]. apply (info_layers_eq G []). reflexivity.
Qed.

Lemma find_full g : In g G -> find_ipart (g_name g) (map full G) = Some (full g).
Proof.
  intros I. destruct (in_split g G I) as (G1 & G2 & EG). unfold find_ipart. rewrite EG, map_app. cbn [map]. apply find_first.
  - intros y Iy. apply in_map_iff in Iy as (h & <- & Ih). cbn. apply beq_neq. intros N. apply key_name in N.
    pose proof (i_nodup _ _ _ _ V) as ND. rewrite EG, map_app in ND. cbn in ND. apply NoDup_remove_2 in ND. apply ND.
    rewrite in_app_iff. left. rewrite <- N. apply in_map; auto.
  - cbn. apply beq_refl.
Qed.

Definition opened (g : gpart) (w : wr) : ilayer := ILayer (g_user g) (w_layer w) (wnode w) (Some (imap g)).
Lemma read_layer_eq g w : In g G -> In w (g_ws g) -> read_layer t (map full G) (g_name g) (w_layer w) = Ok (Some (opened g w)).
Proof.
  intros I Iw. unfold read_layer. rewrite find_full by auto. cbn [full ip_layers ip_map].
  replace (existsb (bytes_eqb (w_layer w)) (map w_layer (g_ws g))) with true.
  2:{ symmetry. apply existsb_exists. exists (w_layer w). split; [apply in_map; auto|apply beq_refl]. }
  cbn [negb]. rewrite find_gpart by auto. cbn [bind]. rewrite find_layer by auto. cbn [bind].
  unfold opened. unfold g_name. rewrite remove_int. reflexivity.
Qed.
Lemma read_named_eq g keep l : In g G -> incl l (g_ws g) ->
  read_named t (map full G) (g_name g) keep (map w_layer l) = Ok (map (opened g) (filter (fun w => keep (w_layer w)) l)).
Proof.
  intros I. induction l as [|w l IH]; intros H; auto. cbn [map read_named filter].
  destruct (keep (w_layer w)); [|apply IH; intros x Ix; apply H; right; auto].
  rewrite read_layer_eq by (auto; apply H; left; auto). cbn [bind].
  rewrite IH by (intros x Ix; apply H; right; auto). reflexivity.
Qed.
Lemma read_parts_eq want keep l : incl l G ->
  read_parts t (map full G) (map g_name l) want keep =
  Ok (flat_map (fun g => if want (g_name g) then map (opened g) (filter (fun w => keep (w_layer w)) (g_ws g)) else []) l).
Proof.
  induction l as [|g l IH]; intros H; auto. cbn [map read_parts flat_map].
  assert (I : In g G) by (apply H; left; auto). rewrite find_full by auto. cbn [full ip_layers].
  destruct (want (g_name g)).
  - rewrite read_named_eq by (auto; intros ? ?; auto). cbn [bind]. rewrite IH by (intros x Ix; apply H; right; auto). reflexivity.
  - cbn [bind]. rewrite IH by (intros x Ix; apply H; right; auto). reflexivity.
Qed.

Lemma filter_flat {A B} (p : B -> bool) (h : A -> list B) l : filter p (flat_map h l) = flat_map (fun a => filter p (h a)) l.
Proof. induction l; cbn; auto. rewrite filter_app. congruence. Qed.
Lemma perm_filter {A} (p : A -> bool) l m : Permutation l m -> Permutation (filter p l) (filter p m).
Proof. induction 1; cbn; auto; repeat (destruct (p _); auto using perm_swap, Permutation_refl). eauto using Permutation_trans. Qed.

Lemma opened_reads g w : In g G -> In w (g_ws g) -> reads_as ident map_kids hp (opened g w) w.
Proof.
  intros I Iw. pose proof (proj1 (Forall_forall _ _) (i_ok _ _ _ _ V) g I) as (A & B & C & D).
  pose proof (proj1 (Forall_forall _ _) D w Iw) as (Du & _ & _ & Di).
  split; [symmetry; auto|]. split; [reflexivity|]. split; [reflexivity|]. exists (g_ref g). split; auto.
Qed.
Lemma opened_forall (want : bytes -> bool) (keep : wr -> bool) (l : list gpart) : incl l G ->
  Forall2 (reads_as ident map_kids hp)
    (flat_map (fun g => if want (g_name g) then map (opened g) (filter keep (g_ws g)) else []) l)
    (flat_map (fun g => if want (g_name g) then filter keep (g_ws g) else []) l).
Proof.
  induction l as [|g l IH]; intros H; cbn [flat_map]; [constructor|].
  apply Forall2_app; [|apply IH; intros x Ix; apply H; right; auto].
  assert (I : In g G) by (apply H; left; auto). destruct (want (g_name g)); [|constructor].
  assert (incl (filter keep (g_ws g)) (g_ws g)) as K by (intros x Ix; apply filter_In in Ix; tauto).
  induction (filter keep (g_ws g)); cbn; constructor.
  - apply opened_reads; auto. apply K; left; auto.
  - apply IHl0. intros x Ix; apply K; right; auto.
Qed.
Lemma read_layers_eq u la : u <> [] -> la <> [] ->
  exists rs ws', read_layers t u la = Ok rs /\
    Permutation ws' (filter (fun w => bytes_eqb (w_user w) u && bytes_eqb (w_layer w) la) acc) /\
    Forall2 (reads_as ident map_kids hp) rs ws'.
Proof.
  intros Nu Nl. unfold read_layers. rewrite read_info_eq. cbn [bind].
  assert (is_nil la || is_nil u = false) as -> by (destruct u, la; try congruence; reflexivity).
  rewrite map_map. cbn [full ip_name]. rewrite (map_ext (fun x => g_name x) g_name) by auto.
  rewrite read_parts_eq by (intros ? ?; auto).
  eexists; eexists. split; [reflexivity|]. split; [|apply (opened_forall (fun n => bytes_eqb (remove_id n) u) (fun w => bytes_eqb (w_layer w) la)); intros ? ?; auto].
  rewrite <- (perm_filter _ _ _ (i_perm _ _ _ _ V)). rewrite filter_flat. apply Permutation_refl' .
  pose proof (i_ok _ _ _ _ V) as OK. clear -OK. induction OK as [|g l (A & B & C & D) OK IH]; cbn [flat_map]; auto. f_equal; auto.
  unfold g_name. rewrite remove_int. clear -D. destruct (bytes_eqb (g_user g) u) eqn:E.
  - induction D as [|w l (Du & _) D IH]; cbn; auto. rewrite Du, E. cbn. destruct (bytes_eqb (w_layer w) la); congruence.
  - induction D as [|w l (Du & _) D IH]; cbn; auto. rewrite Du, E. cbn. auto.
Qed.
Lemma read_all_eq la :
  exists rs ws', read_layers_all t la = Ok rs /\
    Permutation ws' (filter (fun w => is_nil la || bytes_eqb (w_layer w) la) acc) /\
    Forall2 (reads_as ident map_kids hp) rs ws'.
Proof.
  unfold read_layers_all. rewrite read_info_eq. cbn [bind].
  rewrite map_map. cbn [full ip_name]. rewrite (map_ext (fun x => g_name x) g_name) by auto.
  rewrite read_parts_eq by (intros ? ?; auto).
  eexists; eexists. split; [reflexivity|]. split; [|apply (opened_forall (fun n => true) (fun w => is_nil la || bytes_eqb (w_layer w) la)); intros ? ?; auto].
  rewrite <- (perm_filter _ _ _ (i_perm _ _ _ _ V)). rewrite filter_flat. apply Permutation_refl.
Qed.
End R.
End W.
