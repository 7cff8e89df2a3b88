(** What the command line tools must put into their output file. *)
From Coq Require Import ZArith List Bool String Permutation.
From Verif Require Import Model.Base Model.OgawaM Spec.OgawaSpec Model.OgM Spec.OgSpec Model.FieldIOM Model.FileM Spec.FileSpec Model.ToolM.
Import ListNotations.

(** A field that was written to an input file: names, mapping, contents. *)
Record source (M : Type) : Type := Source { sr_name : bytes; sr_attr : bytes; sr_map : M; sr_body : list tree }.
Arguments Source {M}. Arguments sr_name {M}. Arguments sr_attr {M}. Arguments sr_map {M}. Arguments sr_body {M}.

Section Tool.
Context {M : Type} (ident : M -> M -> bool) (map_kids : M -> list tree) (map_ok : M -> bool).

(** [t] is a file made by the library, and [l] are the fields accepted into it. *)
Definition holds (t : tree) (l : list (source M)) : Prop :=
  exists hp calls f outcomes version globals,
    Forall usable calls /\ Forall (fun w => map_ok (hp (w_ref w)) = true) calls /\
    write_all ident map_kids map_ok hp o_new calls = Ok (f, outcomes) /\
    t = file_tree version f globals /\
    l = map (fun w => Source (w_user w) (w_layer w) (hp (w_ref w)) (w_body w)) (accepted calls outcomes).

(** The layer [x] of the output is the field [e]: the same names and contents, and a mapping found identical to one
    found identical to its mapping. *)
Definition shows (x : ilayer) (e : source M) : Prop :=
  il_name x = sr_name e /\ il_attr x = sr_attr e /\ il_group x = node_group (sr_attr e) (sr_body e) /\
  exists m1 m2, ident (sr_map e) m1 = true /\ ident m1 m2 = true /\ il_map x = Some (node_group (str "mapping") (map_kids m2)).

(** What a tool makes of the fields [l], of those whose names match and whose value type is one of the six. *)
Definition expected (kind : tree -> option nat) (want_part want_layer : bytes -> bool) (outs : bytes -> tree -> list (bytes * list tree))
  (l : list (source M)) : list (source M) :=
  flat_map (fun e => map (fun o => Source (sr_name e) (fst o) (sr_map e) (snd o)) (outs (sr_attr e) (node_group (sr_attr e) (sr_body e))))
    (filter (fun e => want_part (sr_name e) && want_layer (sr_attr e) &&
                      match kind (node_group (sr_attr e) (sr_body e)) with Some i => Nat.ltb i 6 | None => false end) l).

(** File [n] is a finished file with the fields [l], each of which has a name and none of which makes the tool crash. *)
Definition input (crashes : tree -> bool) (fs : files) (n : bytes) (l : list (source M)) : Prop :=
  exists t, fs n = Some (Whole t) /\ holds t l /\ Forall (fun e => crashes (node_group (sr_attr e) (sr_body e)) = false) l /\
    forall e, In e l -> sr_name e <> [].
End Tool.

(** Made of a field with a usable attribute, fields have usable attributes. *)
Definition usable_outs (outs : bytes -> tree -> list (bytes * list tree)) : Prop :=
  forall attr g o, good_name attr -> attr <> str "mapping" -> ~ In 47%Z attr -> In o (outs attr g) ->
    good_name (fst o) /\ fst o <> str "mapping" /\ ~ In 47%Z (fst o).

(** The same fields, in any order: the layers [x] show the fields [l]. *)
Definition show_all {M} (ident : M -> M -> bool) (map_kids : M -> list tree) (x : list ilayer) (l : list (source M)) : Prop :=
  exists s, Permutation s l /\ Forall2 (shows ident map_kids) x s.

(** A tool can rely on mappings: comparing them is reflexive and symmetric, and they are stored without loss. *)
Definition sound_maps {M} (ident : M -> M -> bool) (map_kids : M -> list tree) (map_ok : M -> bool) (read_map : option tree -> M) : Prop :=
  (forall a, ident a a = true) /\ (forall a b, ident a b = ident b a) /\ (forall m, map_ok m = true) /\
  (forall m, read_map (Some (node_group (str "mapping") (map_kids m))) = m).
