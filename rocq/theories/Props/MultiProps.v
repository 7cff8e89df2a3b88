(** C80: sampling many points at once is sampling each of them. *)
From Coq Require Import ZArith List Bool Lia.
From Verif Require Import Model.Base Model.LoopM Model.MultiM Spec.MultiSpec Proof.MultiP.
Import ListNotations.
Open Scope nat_scope.

(** One point: the values of the fields it is within are added, in order, and counted. *)
Theorem C80_single : forall (F P D S : Type) (plus : F -> D -> F) (p : P) spot (l : list (mfield F P D S)) a h,
  ms_sample plus p spot l (a, h) =
  (fold_left (fun a x => map (fun c => plus (fst c) (snd c)) (combine a x)) (shares p spot l) a, (h + Z.of_nat (length (shares p spot l)))%Z).
Proof. intros. apply sample_shares. Qed.

(** Many points: no access is outside an array that is large enough, the entry of a point becomes what sampling that point
    alone makes of it, and nothing else changes. *)
Theorem C80_multiple : forall (F P D S : Type) (conv : F * F * F -> P) (plus : F -> D -> F) d n pts spot (l : list (mfield F P D S)) data hits,
  sized d l -> 3 * n <= length pts -> d * n <= length data -> n <= length hits ->
  exists data' hits', ms_multiple conv plus d n pts spot l (data, hits) = Ok (data', hits') /\
    length data' = length data /\ length hits' = length hits /\
    (forall i x y z h, i < n -> entry_of 3 pts i = [x; y; z] -> nth_error hits i = Some h ->
       exists h', nth_error hits' i = Some h' /\ ms_sample plus (conv (x, y, z)) spot l (entry_of d data i, h) = (entry_of d data' i, h')) /\
    (forall j, d * n <= j -> nth_error data' j = nth_error data j) /\ (forall j, n <= j -> nth_error hits' j = nth_error hits j).
Proof.
  intros F P D S conv plus d n pts spot l data hits Sz Pt Da Hi. destruct (multiple_ok conv plus d n pts spot l (data, hits) Sz Pt (conj Da Hi)) as ((data' & hits') & E & L1 & L2 & I & K1 & K2).
  exists data', hits'. cbn [fst snd] in *. do 3 (split; [auto|]). split; [|auto]. intros i x y z h J Q N. destruct (I i h J N) as (A & B).
  assert (W : point pts i spot = (x, y, z)) by (unfold point; rewrite Q; auto). rewrite W in *. eexists. split; [exact B|]. rewrite A. apply surjective_pairing.
Qed.

(** Many points of MIP fields, each with its own spot size.  The flag of a field that has a remap operator must have been
    set; if it is true, the bounds that go with it must be faithful. *)
Theorem C80_mip_multiple : forall (F P D S : Type) (conv : F * F * F -> P) (plus : F -> D -> F) d n pts spots (l : list (mfield F P D S)) data hits,
  sized d l ->
  (forall f, In f l -> mf_remap f = None \/ mf_opt f = Some false \/ mf_opt f = Some true /\ ws_faithful conv f) ->
  3 * n <= length pts -> n <= length spots -> d * n <= length data -> n <= length hits ->
  exists data' hits', ms_mip_multiple conv plus d n pts spots l (data, hits) = Ok (data', hits') /\
    length data' = length data /\ length hits' = length hits /\
    (forall i x y z s h, i < n -> entry_of 3 pts i = [x; y; z] -> nth_error spots i = Some s -> nth_error hits i = Some h ->
       exists h', nth_error hits' i = Some h' /\ ms_sample plus (conv (x, y, z)) s l (entry_of d data i, h) = (entry_of d data' i, h')) /\
    (forall j, d * n <= j -> nth_error data' j = nth_error data j) /\ (forall j, n <= j -> nth_error hits' j = nth_error hits j).
Proof.
  intros F P D S conv plus d n pts spots l data hits Sz Fl Pt Sp Da Hi. destruct spots as [|s0 spots].
  { destruct n; [|cbn in Sp; lia]. (* no points *)
    exists data, hits. split; [|split; [auto|split; [auto|split; [intros; lia|auto]]]]. apply each_id. intros f I.
    specialize (Fl f I). cbn [seq each]. destruct (mf_os f), (mf_remap f); cbn [bind]; auto; destruct Fl as [Q|[Q|(Q & _)]]; try discriminate Q; rewrite Q; reflexivity. }
  destruct (mip_multiple_ok conv plus d n pts (s0 :: spots) s0 l (data, hits) Sz Fl Pt Sp (conj Da Hi)) as ((data' & hits') & E & L1 & L2 & I & K1 & K2).
  exists data', hits'. cbn [fst snd] in *. do 3 (split; [auto|]). split; [|auto]. intros i x y z s h J Q Ns N. destruct (I i h J N) as (A & B).
  assert (W : point pts i s0 = (x, y, z)) by (unfold point; rewrite Q; auto). rewrite W, (nth_error_nth _ _ s0 Ns) in *. eexists. split; [exact B|]. rewrite A. apply surjective_pairing.
Qed.

(** An array that is too small is overrun: the sizes are the caller's obligation. *)
Theorem C80_short_refuted : exists (l : list (mfield Z Z Z Z)) pts data hits,
  sized 1 l /\ length pts = 6 /\ length data = 1 /\ length hits = 2 /\
  ms_multiple (fun w => fst (fst w)) Z.add 1 2 pts 0%Z l (data, hits) = UB.
Proof.
  exists [MField None (fun p => p) (fun _ => true) (fun _ p => [p]) (fun s => s) None (Some false) (fun _ => true) (fun p => p)], [0; 0; 0; 0; 0; 0]%Z, [0%Z], [0; 0]%Z.
  split; [|repeat split]. intros f [<-|[]] s v. cbn. split; auto. discriminate.
Qed.

(** ** The flag *)
(** Of an ordinary field the flag is always set: it is true if the optimisation was asked for and the mapping is a matrix. *)
Theorem C80_flag : forall matrix moved want remap, e_grab false matrix moved want remap = Ok (Entry moved (Some (want && matrix)) remap).
Proof. intros [] [] [] []; reflexivity. Qed.

(** Of a MIP field it is not: adding one to a group with a transform reads the flag before it is set, whatever else holds;
    without a transform it stays indeterminate unless the optimisation was asked for and the mapping is a matrix. *)
Theorem C80_mip_flag_refuted : forall matrix moved want remap,
  e_grab true matrix moved want remap = if moved then UB else Ok (Entry false (if want && matrix then Some true else None) remap).
Proof. intros [] [] [] []; reflexivity. Qed.

(** What reading it costs: sampling a MIP field with a remap operator at many points has no defined outcome. *)
Theorem C80_mip_remap_refuted : forall (F P D S : Type) (conv : F * F * F -> P) (plus : F -> D -> F) d n pts spots f (l : list (mfield F P D S)) st g,
  mf_remap f = Some g -> mf_opt f = None -> ms_mip_multiple conv plus d n pts spots (f :: l) st = UB.
Proof. intros. unfold ms_mip_multiple. cbn [each]. rewrite H, H0. destruct (mf_os f); reflexivity. Qed.

(** And bounds that are not faithful make a difference: here the point is in the field, but not in the bounds. *)
Theorem C80_bounds_refuted : exists (f : mfield Z Z Z Z) pts,
  sized 1 [f] /\ mf_opt f = Some true /\ (forall p, mf_ws_map f p = voxel_of f p) /\
  ms_mip_multiple (fun w => fst (fst w)) Z.add 1 1 pts [1%Z] [f] ([0%Z], [0%Z]) = Ok ([0%Z], [0%Z]) /\
  entry_of 3 pts 0 = [5; 0; 0]%Z /\ ms_sample Z.add 5%Z 1%Z [f] ([0%Z], 0%Z) = ([5%Z], 1%Z).
Proof.
  exists (MField None (fun p => p) (fun p => (p <=? 5)%Z) (fun _ p => [p]) (fun s => s) (Some (fun x => x)) (Some true) (fun w => (fst (fst w) <=? 4)%Z) (fun p => p)), [5; 0; 0]%Z.
  split; [|repeat split]. intros f [<-|[]] s v. cbn. split; auto. intros g E. injection E as <-. auto.
Qed.

(** ** Examples *)
(** Two fields, one of them moved and remapped, three components, three points of which the first is within both, the
    second within one, and the third within none; the arrays have more entries than points. *)
Definition ex_conv (w : Z * Z * Z) : Z := let '(x, y, z) := w in (x + 10 * y + 100 * z)%Z.
Definition ex_a : mfield Z Z Z Z := MField None (fun p => (2 * p)%Z) (fun v => (v <=? 20)%Z) (fun s v => [v; s; 1]%Z) (fun s => (s * 2)%Z) None None (fun _ => false) (fun p => p).
Definition ex_b : mfield Z Z Z Z :=
  MField (Some (fun p => (p + 1)%Z)) (fun p => (3 * p)%Z) (fun v => (v <=? 60)%Z) (fun s v => [v; s; 2]%Z) (fun s => (s * 3)%Z) (Some (map Z.opp)) (Some true)
    (fun w => (ex_conv w <=? 30)%Z) (fun p => (3 * p + 3)%Z).
Example C80_ex_sized : sized 3 [ex_a; ex_b].
Proof. intros f [<-|[<-|[]]] s v; cbn; split; auto; intros g E; [discriminate|]. injection E as <-. reflexivity. Qed.
Example C80_ex_flags : forall f, In f [ex_a; ex_b] -> mf_remap f = None \/ mf_opt f = Some false \/ mf_opt f = Some true /\ ws_faithful ex_conv f.
Proof.
  intros f [<-|[<-|[]]]; [left; reflexivity|right; right; split; auto]. intros w. unfold voxel_of. cbn [mf_ws_map mf_os mf_map mf_in mf_ws_in ex_b]. split; [lia|]. rewrite !Z.leb_le. lia.
Qed.
Definition ex_pts : list Z := [1; 0; 0; 5; 1; 0; 0; 0; 1]%Z.
Example C80_ex_multiple : ms_multiple ex_conv Z.add 3 3 ex_pts 7%Z [ex_a; ex_b] ([0; 0; 0; 100; 100; 100; 9; 9; 9; 8; 8; 8]%Z, [0; 5; 6; 7]%Z) =
  Ok ([-4; -7; -1; 52; 79; 98; 9; 9; 9; 8; 8; 8]%Z, [2; 6; 6; 7]%Z).
Proof. vm_compute. reflexivity. Qed.
Example C80_ex_mip : ms_mip_multiple ex_conv Z.add 3 3 ex_pts [1; 2; 3]%Z [ex_a; ex_b] ([0; 0; 0; 100; 100; 100; 9; 9; 9; 8; 8; 8]%Z, [0; 5; 6; 7]%Z) =
  Ok ([-4; -1; -1; 52; 94; 98; 9; 9; 9; 8; 8; 8]%Z, [2; 6; 6; 7]%Z).
Proof. vm_compute. reflexivity. Qed.
Example C80_ex_alone : ms_sample Z.add (ex_conv (5, 1, 0)%Z) 2%Z [ex_a; ex_b] ([100; 100; 100]%Z, 5%Z) = ([52; 94; 98]%Z, 6%Z).
Proof. reflexivity. Qed.

Print Assumptions C80_single.
Print Assumptions C80_multiple.
Print Assumptions C80_mip_multiple.
Print Assumptions C80_short_refuted.
Print Assumptions C80_flag.
Print Assumptions C80_mip_flag_refuted.
Print Assumptions C80_mip_remap_refuted.
Print Assumptions C80_bounds_refuted.
