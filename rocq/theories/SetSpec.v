(** What settings are and which values they take; independent of the model of settings.cpp. *)
From Coq Require Import Ascii String List Arith Bool ZArith.
From Verif Require Import Base Str CastSpec CastModel PnSpec.
Import ListNotations.

(** ids are written without reference to positions *)
Definition by_name (k : str) : Prop := match k with c :: _ => c <> "#"%char | [] => True end.
(** the id [id] names the setting at [ks] *)
Definition names (id : str) (ks : list str) : Prop := query_parts "."%char id ks /\ Forall by_name ks.

(** the child [k] of a node *)
Definition has_child (s : pn) (k : string) (c : pn) : Prop := at_keys s [lit k] c.
(** a setting is a node of the schema that has a default *)
Definition setting (schema : pn) (ks : list str) (s : pn) : Prop := at_keys schema ks s /\ exists d, has_child s "default" d.
(** no setting inside another one *)
Definition separate (schema : pn) : Prop :=
  forall ks r s s', setting schema ks s -> setting schema (ks ++ r) s' -> r = [].

Section Values.
  (** double: strtod with its success flag, printing, comparisons (a NaN is not equal to itself); conversion to color and vec3 *)
  Context {D : Type} (to_d : str -> D * bool) (d_str : D -> str) (dle : D -> D -> bool) (is_color is_vec3 : pn -> bool).
  Definition is_nan (d : D) : Prop := dle d d = false.

  (** values that the type of the setting admits *)
  Definition of_type (ty : str) (v : pn) : Prop :=
    (ty = lit "float" -> exists d, to_d (pn_value v) = (d, true) /\ ~ is_nan d) /\
    (ty = lit "int" -> exists z, from_str_int KInt (pn_value v) = (z, true) /\ z <> kind_min KInt) /\
    (ty = lit "bool" -> In (pn_value v) (map lit ["1"; "true"; "yes"; "0"; "false"; "no"]%string)) /\
    (ty = lit "color" -> is_color v = true) /\
    (ty = lit "vec3" -> is_vec3 v = true).
  Definition type_ok (s v : pn) : Prop := forall t, has_child s "type" t -> of_type (pn_value t) v.
  Definition allowed_ok (s v : pn) : Prop := forall l, has_child s "allowed" l -> exists k a, In (k, a) (pn_children l) /\ same_tree a v.
  (** the number closest to [d] in the range; a NaN is left alone *)
  Definition restricted (lo hi d d' : D) : Prop :=
    (is_nan d /\ d' = d) \/ (dle d lo = true /\ d' = lo) \/ (dle hi d = true /\ d' = hi) \/ (dle lo d = true /\ dle d hi = true /\ d' = d).
  (** settings that come back when what is stored is read again: without a range; or, with a range from [lo] to [hi], any value in the range being allowed and of the declared type *)
  Definition reloadable (range : option (D * D)) (s dflt : pn) : Prop :=
    match range with
    | None => True
    | Some (lo, hi) => dle lo hi = true /\ (exists d, to_d (pn_value dflt) = (d, true)) /\ (forall l, ~ has_child s "allowed" l) /\
        (forall t, has_child s "type" t -> In (pn_value t) (map lit ["float"; "int"]%string)) /\
        (forall d, dle lo d = true -> dle d hi = true -> type_ok s (PN (d_str d) [] false))
    end.
End Values.

(** keys in files: by name, without dots *)
Definition plain_key (k : str) : Prop := by_name k /\ ~ In "."%char k.
(** [ks] is not inside a setting *)
Definition outside (schema : pn) (ks : list str) : Prop := forall a b s, ks = a ++ b -> ~ setting schema a s.
(** the groups of settings in a file: keys are plain and occur once *)
Definition tidy (schema f : pn) : Prop := forall p u, at_keys f p u -> outside schema p -> NoDup (pn_keys u) /\ Forall plain_key (pn_keys u).
(** ids in the file refer to settings by name *)
Inductive named_file : pn -> Prop :=
| named_node v cs a : Forall (fun kc => (exists ks, names (fst kc) ks) /\ named_file (snd kc)) cs -> named_file (PN v cs a).

(** a value that is neither empty nor the default *)
Definition ordinary_value (v dflt : pn) : Prop := ~ same_tree v dflt /\ ~ (pn_value v = [] /\ pn_children v = []).
(** calls: set, and load with the contents of the file, if there is one *)
Inductive set_op := SetOp (id : str) (v : pn) | LoadOp (file : option pn).
Definition named_op (op : set_op) : Prop := match op with SetOp id _ => exists ks, names id ks | LoadOp (Some f) => named_file f | LoadOp None => True end.
