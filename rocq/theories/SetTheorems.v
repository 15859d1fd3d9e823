(** C37, C75: settings and their schema. *)
From Coq Require Import Ascii String List Arith Bool ZArith Lia.
From Verif Require Import Base Str StrSpec StrModel CastSpec CastModel CastProofs StrBase PnSpec PnModel PnProofs PnProofs2 SetSpec SetModel SetProofs.
Import ListNotations.

(** set: refused values change nothing; accepted ones are what get finds, restricted to the range if there is one; other settings stay as they are *)
Theorem C37_set : forall (D : Type) (to_d : str -> D * bool) (d_str : D -> str) (dle dlt : D -> D -> bool) (is_color is_vec3 : pn -> bool),
  (forall a b, dlt a b = dle a b && negb (dle b a)) ->
  (forall a b, dle a a = true -> dle b b = true -> dle a b = true \/ dle b a = true) ->
  (forall a b, dle a b = true -> dle a a = true /\ dle b b = true) ->
  forall schema ops data id ks v s dflt r, separate schema -> Forall named_op ops ->
  set_run to_d d_str dle dlt is_color is_vec3 schema pn_empty ops = Ok data ->
  names id ks -> setting schema ks s -> has_child s "default" dflt ->
  range_of to_d s = Ok r -> (r = None \/ exists d, get_d to_d dflt = Ok d) ->
  exists data' b, try_set to_d d_str dle dlt is_color is_vec3 schema data id v = Ok (data', b) /\
    (b = true <-> (same_tree v dflt \/ pn_value v = [] /\ pn_children v = []) \/ type_ok to_d dle is_color is_vec3 s v /\ allowed_ok s v) /\
    (b = false -> data' = data) /\
    (same_tree v dflt \/ pn_value v = [] /\ pn_children v = [] -> get_node schema data' id = Ok dflt) /\
    (ordinary_value v dflt -> b = true -> match r with
      | None => get_node schema data' id = Ok v
      | Some (lo, hi) => dle lo lo = true -> dle hi hi = true ->
          exists d', get_node schema data' id = Ok (PN (d_str d') [] false) /\ restricted dle lo hi (fst (to_d (pn_value v))) d'
      end) /\
    (forall id' ks' s', names id' ks' -> setting schema ks' s' -> ks' <> ks -> get_node schema data' id' = get_node schema data id').
Proof. exact (@set_assembled). Qed.
Print Assumptions C37_set.

(** the range of a setting, as it is written in the schema *)
Theorem C37_range : forall (D : Type) (to_d : str -> D * bool) s,
  ((forall n, ~ has_child s "range" n) -> range_of to_d s = Ok None) /\
  (forall n lo hi a b, has_child s "range" n -> pn_value n = a ++ lit ".." ++ b -> first_occurrence (pn_value n) (lit "..") 0 (List.length a) ->
     to_d (pn_value n) = (lo, true) -> to_d b = (hi, true) -> range_of to_d s = Ok (Some (lo, hi))) /\
  (forall n lo hi x y k1 k2, has_child s "range" n -> pn_value n = [] -> pn_children n = [(lit k1, x); (lit k2, y)] -> In (k1, k2) [("min", "max"); ("lower", "upper"); ("", "")]%string ->
     to_d (pn_value x) = (lo, true) -> to_d (pn_value y) = (hi, true) -> range_of to_d s = Ok (Some (lo, hi))).
Proof. exact (@range_assembled). Qed.
Print Assumptions C37_range.

Theorem C37_undefined : forall (D : Type) (to_d : str -> D * bool) d_str dle dlt is_color is_vec3 schema data id ks v,
  names id ks -> (forall s, ~ setting schema ks s) -> try_set to_d d_str dle dlt is_color is_vec3 schema data id v = Ok (data, false).
Proof. exact (@undefined_assembled). Qed.
Print Assumptions C37_undefined.

(** a schema in which the default of a setting with a range, or a bound of the range, is no number: setting a value of the right type throws and is not undefined *)
Theorem C37_not_a_number : forall (D : Type) (to_d : str -> D * bool) d_str dle dlt is_color is_vec3 schema data id ks v s dflt,
  names id ks -> setting schema ks s -> has_child s "default" dflt -> ordinary_value v dflt -> type_ok to_d dle is_color is_vec3 s v -> allowed_ok s v ->
  (exists b, range_of to_d s = Ok (Some b)) /\ snd (to_d (pn_value dflt)) = false \/
  (exists n k1 k2 x y, has_child s "range" n /\ pn_value n = [] /\ pn_children n = [(lit k1, x); (lit k2, y)] /\ In (k1, k2) [("min", "max"); ("lower", "upper"); ("", "")]%string /\ (snd (to_d (pn_value x)) = false \/ snd (to_d (pn_value y)) = false)) ->
  try_set to_d d_str dle dlt is_color is_vec3 schema data id v = Throw.
Proof.
  intros D to_d d_str dle dlt is_color is_vec3 schema data id ks v s dflt N H Hd O T A C. apply has_child_iff in Hd. rewrite (try_set_verdict to_d d_str dle dlt is_color is_vec3 schema data id ks v s dflt N H Hd). unfold verdict.
  rewrite (proj2 (ordinary_iff is_color is_vec3 v dflt) O). rewrite (proj2 (type_iff to_d dle is_color is_vec3 s v) T). rewrite (proj2 (allowed_iff s v) A). destruct C as [[[b ->] B]|(n & k1 & k2 & x & y & Hn & V & K & I & B)].
  - cbn [obind]. unfold get_d. destruct (to_d (pn_value dflt)) as [d ok]. cbn [snd] in B. subst ok. reflexivity.
  - apply has_child_iff in Hn. assert (R : range_of to_d s = Throw).
    { unfold range_of. rewrite Hn. destruct n as [vn cs fn]. cbn [pn_value pn_children] in V, K. subst vn cs. unfold bounds_from_pn, has_value, pn_size. cbn [pn_value pn_children List.length Nat.leb].
      unfold get_d_at, get_d_any, get_d, get_child_at, try_get_any_child, try_get_child, vec_get, pn_size. cbn [pn_children List.length Nat.ltb Nat.leb obind nth_error snd].
      destruct (to_d (pn_value x)) as [dx okx] eqn:Ex. destruct (to_d (pn_value y)) as [dy oky] eqn:Ey. cbn [snd] in B. destruct okx; [|reflexivity]. destruct B as [B|B]; [discriminate|]. subst oky.
      destruct I as [[= <- <-]|[[= <- <-]|[[= <- <-]|[]]]]; cbn; rewrite ?Ex, ?Ey; cbn; rewrite ?Ex, ?Ey; reflexivity. }
    rewrite R. reflexivity.
Qed.
Print Assumptions C37_not_a_number.

(** whatever was set and loaded: what is stored is on the way to or inside a setting, and the values of the settings are legal *)
Theorem C37_valid : forall (D : Type) (to_d : str -> D * bool) (d_str : D -> str) (dle dlt : D -> D -> bool) (is_color is_vec3 : pn -> bool),
  (forall a b, dlt a b = dle a b && negb (dle b a)) ->
  (forall a b, dle a a = true -> dle b b = true -> dle a b = true \/ dle b a = true) ->
  (forall a b, dle a b = true -> dle a a = true /\ dle b b = true) ->
  forall schema ops data, separate schema -> Forall named_op ops ->
  set_run to_d d_str dle dlt is_color is_vec3 schema pn_empty ops = Ok data ->
  (forall ks s dflt r u, ks <> [] -> setting schema ks s -> has_child s "default" dflt -> range_of to_d s = Ok r -> at_keys data ks u -> match r with
     | None => ordinary_value u dflt /\ type_ok to_d dle is_color is_vec3 s u /\ allowed_ok s u
     | Some (lo, hi) => dle lo hi = true -> exists d, u = PN (d_str d) [] false /\ (is_nan dle d \/ dle lo d = true /\ dle d hi = true)
     end) /\
  (forall p u, at_keys data p u -> outside schema p -> pn_value u = []) /\
  (forall p u, p <> [] -> at_keys data p u -> exists ks s, setting schema ks s /\ (is_prefix p ks \/ is_prefix ks p)).
Proof. exact (@valid_assembled). Qed.
Print Assumptions C37_valid.

Theorem C37_get : forall schema data id ks s dflt, names id ks -> setting schema ks s -> has_child s "default" dflt ->
  (forall u, at_keys data ks u -> get_node schema data id = Ok u) /\ ((forall u, ~ at_keys data ks u) -> get_node schema data id = Ok dflt).
Proof. exact get_assembled. Qed.
Print Assumptions C37_get.

(** load: each setting in the file ends as set would leave it, the others stay as they are *)
Theorem C37_load : forall (D : Type) (to_d : str -> D * bool) (d_str : D -> str) (dle dlt : D -> D -> bool) (is_color is_vec3 : pn -> bool) schema ops data f,
  separate schema ->
  (forall ks s dflt, setting schema ks s -> has_child s "default" dflt -> exists r, range_of to_d s = Ok r /\ (r = None \/ exists d, get_d to_d dflt = Ok d)) ->
  (forall s, ~ setting schema [] s) -> Forall named_op ops -> set_run to_d d_str dle dlt is_color is_vec3 schema pn_empty ops = Ok data ->
  tidy schema f -> ~ In (lit "version") (pn_keys f) ->
  exists data', load to_d d_str dle dlt is_color is_vec3 schema data (Some f) = Ok data' /\ forall id ks s, names id ks -> setting schema ks s ->
    (forall v, at_keys f ks v -> exists data1 b, try_set to_d d_str dle dlt is_color is_vec3 schema data id v = Ok (data1, b) /\ get_node schema data' id = get_node schema data1 id) /\
    ((forall v, ~ at_keys f ks v) -> get_node schema data' id = get_node schema data id).
Proof. exact (@load_assembled). Qed.
Print Assumptions C37_load.

(** an example: numbers are integers or not-a-number (None) *)
Definition ex_to_d (s : str) : option Z * bool := if str_eqb s (lit "nan") then (None, true) else let '(z, ok) := from_str_int KLLong s in (Some z, ok).
Definition ex_str (d : option Z) : str := match d with Some z => to_string z | None => lit "nan" end.
Definition ex_le (a b : option Z) : bool := match a, b with Some x, Some y => (x <=? y)%Z | _, _ => false end.
Definition ex_lt (a b : option Z) : bool := match a, b with Some x, Some y => (x <? y)%Z | _, _ => false end.
Definition ex_set := try_set ex_to_d ex_str ex_le ex_lt (fun _ => true) (fun _ => true).
Definition ex_run := set_run ex_to_d ex_str ex_le ex_lt (fun _ => true) (fun _ => true).
Definition leaf (s : string) : pn := pn_of_value (lit s).
Definition node (cs : list (string * pn)) : pn := PN [] (map (fun kc => (lit (fst kc), snd kc)) cs) false.
Definition ex_schema : pn := node [
  ("view", node [
    ("zoom", node [("type", leaf "float"); ("default", leaf "10"); ("range", leaf "1..100")]);
    ("mode", node [("default", leaf "fit"); ("allowed", node [("", leaf "fit"); ("", leaf "fill")])])]);
  ("count", node [("type", leaf "int"); ("default", leaf "3")]);
  ("depth", node [("default", leaf "1"); ("allowed", node [("", leaf "1"); ("", leaf "50")]); ("range", node [("min", leaf "0"); ("max", leaf "9")])])]%string.
Definition ex_ops : list set_op := [
  SetOp (lit "view.zoom") (leaf "500"); SetOp (lit "count") (leaf "many"); SetOp (lit "view.mode") (leaf "fill");
  LoadOp (Some (node [("view", node [("mode", leaf "odd"); ("size", leaf "3")]); ("count", leaf "7"); ("other", leaf "x")]))]%string.

Example C37_order_example :
  (forall a b, ex_lt a b = ex_le a b && negb (ex_le b a)) /\
  (forall a b, ex_le a a = true -> ex_le b b = true -> ex_le a b = true \/ ex_le b a = true) /\
  (forall a b, ex_le a b = true -> ex_le a a = true /\ ex_le b b = true).
Proof. split; [|split]; intros [x|] [y|]; cbn; try (intros; discriminate); try reflexivity; try lia. Qed.
Example C37_example :
  separate ex_schema /\ (forall s, ~ setting ex_schema [] s) /\ Forall named_op ex_ops /\
  exists data, ex_run ex_schema pn_empty ex_ops = Ok data /\
    data = (node [("view", node [("zoom", leaf "100"); ("mode", leaf "fill")]); ("count", leaf "7")])%string /\
    get_node ex_schema data (lit "view.zoom") = Ok (leaf "100") /\ get_node ex_schema data (lit "depth") = Ok (leaf "1") /\
    (exists s, setting ex_schema [lit "view"; lit "zoom"] s /\ names (lit "view.zoom") [lit "view"; lit "zoom"] /\ range_of ex_to_d s = Ok (Some (Some 1%Z, Some 100%Z))) /\
    ex_set ex_schema data (lit "view.zoom") (leaf "x") = Ok (data, false).
Proof.
  assert (V : forall ks, ks <> [] -> Forall (fun k => match k with c :: _ => Ascii.eqb c "#"%char = false | [] => True end /\ in_set k "."%char = false) ks -> names (join (lit ".") ks) ks).
  { intros ks N F. split; [split; [exact N|split; [reflexivity|]]|]; (eapply Forall_impl; [|exact F]); intros k [K1 K2].
    - intros I. assert (in_set k "."%char = true) by (apply in_set_In; exact I). congruence.
    - destruct k as [|c k]; [exact I|]. cbn. intros ->. discriminate. }
  assert (V1 : forall k, match k with c :: _ => Ascii.eqb c "#"%char = false | [] => True end /\ in_set k "."%char = false -> names k [k]) by (intros k K; apply (V [k]); [discriminate|auto]).
  split; [apply separate_check; vm_compute; reflexivity|]. split; [intros s H; apply setting_found in H; destruct H as [[= <-] H]; discriminate|]. split.
  { repeat constructor; cbn [fst snd]; try (eexists; apply V1; split; reflexivity); try (exists [lit "view"; lit "zoom"]; apply (V [lit "view"; lit "zoom"])); try (exists [lit "view"; lit "mode"]; apply (V [lit "view"; lit "mode"])); try discriminate; repeat constructor. }
  eexists. split; [vm_compute; reflexivity|]. split; [vm_compute; reflexivity|]. split; [vm_compute; reflexivity|]. split; [vm_compute; reflexivity|]. split; [|vm_compute; reflexivity].
  eexists. split; [apply setting_check; [vm_compute; reflexivity|vm_compute; reflexivity]|]. split; [apply (V [lit "view"; lit "zoom"]); [discriminate|repeat constructor]|]. vm_compute. reflexivity.
Qed.
Example C37_tidy_example : exists f, pn_children f <> [] /\ tidy ex_schema f.
Proof.
  exists (node [("count", leaf "7")])%string. split; [discriminate|]. intros p u H _. apply find_iff in H. destruct p as [|k p].
  - injection H as <-. split; [repeat constructor; intros []|]. repeat constructor; intros I; cbn in I; intuition discriminate.
  - cbn [node map find pn_children assoc fst snd] in H. destruct (str_eqb (lit "count") k); [|discriminate]. destruct p; [|discriminate]. injection H as <-. split; constructor.
Qed.

(** C75: settings come back after save and load; what is assumed of the text of numbers is proved of double, strtod and %g in SdbTheorems.
    A stored number that its own text does not give again, as happens below the smallest normal number, is left out. *)
Theorem C75_reload_partial : forall (D : Type) (to_d : str -> D * bool) (d_str : D -> str) (dle dlt : D -> D -> bool) (is_color is_vec3 : pn -> bool),
  (forall a b, dlt a b = dle a b && negb (dle b a)) ->
  (forall a b, dle a a = true -> dle b b = true -> dle a b = true \/ dle b a = true) ->
  (forall a b, dle a b = true -> dle a a = true /\ dle b b = true) ->
  (forall d, exists d2, to_d (d_str d) = (d2, true) /\ dle d2 d2 = dle d d) ->
  (forall a b c, dle a b = true -> dle b c = true -> dlt a b = true \/ dlt b c = true -> d_str a = d_str c -> d_str b = d_str a) ->
  (forall d, d_str d <> []) -> (forall t z, from_str_int KInt t = (z, true) -> dle (fst (to_d t)) (fst (to_d t)) = true) ->
  forall schema ops data cur, separate schema -> (forall s, ~ setting schema [] s) ->
  (forall ks s dflt, setting schema ks s -> has_child s "default" dflt -> exists r, range_of to_d s = Ok r /\ reloadable to_d d_str dle is_color is_vec3 r s dflt) ->
  (forall ks s, ~ setting schema (lit "version" :: ks) s) ->
  Forall named_op ops -> set_run to_d d_str dle dlt is_color is_vec3 schema pn_empty ops = Ok data ->
  (exists w, from_str_version (to_str_version cur) (Ver 0 0 0 0 []) = Ok (w, true)) ->
  (forall ks s r u, setting schema ks s -> range_of to_d s = Ok (Some r) -> at_keys data ks u -> d_str (fst (to_d (pn_value u))) = pn_value u) ->
  exists data', load to_d d_str dle dlt is_color is_vec3 schema pn_empty (Some (saved data cur)) = Ok data' /\
    forall id ks s, names id ks -> setting schema ks s -> exists u u', get_node schema data id = Ok u /\ get_node schema data' id = Ok u' /\ same_tree u' u.
Proof. exact (@reload_assembled). Qed.
Print Assumptions C75_reload_partial.
Definition ex_load := load ex_to_d ex_str ex_le ex_lt (fun _ => true) (fun _ => true).
Definition ex_schema2 : pn := node [("view", node [("zoom", node [("type", leaf "float"); ("default", leaf "10"); ("range", leaf "1..100")]); ("mode", node [("default", leaf "fit"); ("allowed", node [("", leaf "fit"); ("", leaf "fill")])])]);
  ("count", node [("type", leaf "int"); ("default", leaf "3")])]%string.
(** the assumptions on numbers hold of a type with three numbers, two of which have the same text, and a NaN *)
Inductive num := One | OneAndABit | Two | NotANumber.
Definition num_of (s : str) : num * bool := if str_eqb s (lit "2") then (Two, true) else if str_eqb s (lit "nan") then (NotANumber, true) else if str_eqb s (lit "1") then (One, true) else (OneAndABit, false).
Definition num_str (d : num) : str := match d with One | OneAndABit => lit "1" | Two => lit "2" | NotANumber => lit "nan" end.
Definition num_le (a b : num) : bool := match a, b with NotANumber, _ | _, NotANumber => false | One, _ | _, Two => true | OneAndABit, OneAndABit => true | _, _ => false end.
Example C75_reload_example :
  ((forall d, exists d2, num_of (num_str d) = (d2, true) /\ num_le d2 d2 = num_le d d) /\
   (forall a b c, num_le a b = true -> num_le b c = true -> num_str a = num_str c -> num_str b = num_str a) /\ (forall d, num_str d <> []) /\
   (forall t z, from_str_int KInt t = (z, true) -> num_le (fst (num_of t)) (fst (num_of t)) = true)) /\
  separate ex_schema2 /\
  (exists s r, setting ex_schema2 [lit "view"; lit "zoom"] s /\ range_of ex_to_d s = Ok (Some r) /\ reloadable ex_to_d ex_str ex_le (fun _ => true) (fun _ => true) (Some (Some 1%Z, Some 100%Z)) s (leaf "10")) /\
  exists data data', ex_run ex_schema2 pn_empty [SetOp (lit "view.mode") (leaf "fill"); SetOp (lit "count") (leaf "8"); SetOp (lit "view.zoom") (leaf "1000")] = Ok data /\
    ex_load ex_schema2 pn_empty (Some (saved data (Ver 1 2 3 0 []))) = Ok data' /\ get_node ex_schema2 data' (lit "count") = Ok (leaf "8") /\
    saved data (Ver 1 2 3 0 []) = node [("view", node [("mode", leaf "fill"); ("zoom", leaf "100")]); ("count", leaf "8"); ("version", leaf "1.2.3")]%string.
Proof.
  split; [|split; [apply separate_check; vm_compute; reflexivity|split]].
  - split; [intros []; eexists; repeat split|]. split; [intros [] [] []; cbn; intros; congruence|]. split; [intros []; discriminate|].
    intros t z H. unfold num_of. destruct (str_eqb t (lit "2")); [reflexivity|]. destruct (str_eqb t (lit "nan")) eqn:E; [apply str_eqb_eq in E; subst t; vm_compute in H; discriminate|]. destruct (str_eqb t (lit "1")); reflexivity.
  - eexists. eexists. split; [apply setting_check; vm_compute; reflexivity|]. split; [vm_compute; reflexivity|]. split; [reflexivity|]. split; [eexists; vm_compute; reflexivity|]. split; [intros l H; apply has_child_iff in H; vm_compute in H; discriminate|].
    split; [intros t H; apply has_child_iff in H; vm_compute in H; injection H as <-; left; reflexivity|].
    intros [d|] L1 L2 t H; [|discriminate]. apply has_child_iff in H. vm_compute in H. injection H as <-. split; [|repeat split; discriminate]. intros _. cbn [pn_value].
    cbn in L1, L2. exists (Some d). split; [|intros X; unfold is_nan in X; cbn in X; lia]. unfold ex_to_d. cbn [ex_str]. assert (str_eqb (to_string d) (lit "nan") = false) as ->.
    { destruct (str_eqb (to_string d) (lit "nan")) eqn:E; [|reflexivity]. apply str_eqb_eq in E. exfalso.
      pose proof (roundtrip_int KInt d ltac:(cbn; lia)) as X. unfold to_str_int in X. rewrite E in X. vm_compute in X. discriminate. }
    pose proof (roundtrip_int KLLong d ltac:(cbn; lia)) as X. unfold to_str_int in X. rewrite X. reflexivity.
  - eexists. eexists. split; [vm_compute; reflexivity|]. split; [vm_compute; reflexivity|]. split; vm_compute; reflexivity.
Qed.
(** a range and a list of allowed values: the value that was restricted to the range is refused when it is read again *)
Theorem C75_allowed_range_refuted : exists data data', ex_run ex_schema pn_empty [SetOp (lit "depth") (leaf "50")] = Ok data /\ get_node ex_schema data (lit "depth") = Ok (leaf "9") /\
  ex_load ex_schema pn_empty (Some (saved data (Ver 0 0 0 0 []))) = Ok data' /\ get_node ex_schema data' (lit "depth") = Ok (leaf "1").
Proof. eexists. eexists. split; [vm_compute; reflexivity|]. split; [vm_compute; reflexivity|]. split; vm_compute; reflexivity. Qed.
Print Assumptions C75_allowed_range_refuted.
(** a setting called version does not come back *)
Theorem C75_version_refuted : exists schema data data', separate schema /\
  ex_run schema pn_empty [SetOp (lit "version") (leaf "2.0.0")] = Ok data /\ get_node schema data (lit "version") = Ok (leaf "2.0.0") /\
  ex_load schema pn_empty (Some (saved data (Ver 0 0 0 0 []))) = Ok data' /\ get_node schema data' (lit "version") = Ok (leaf "1.0.0").
Proof.
  exists (node [("version", node [("default", leaf "1.0.0")])])%string. eexists. eexists. split; [apply separate_check; vm_compute; reflexivity|].
  split; [vm_compute; reflexivity|]. split; [vm_compute; reflexivity|]. split; vm_compute; reflexivity.
Qed.
Print Assumptions C75_version_refuted.
(** after saving, the version is part of the data although the schema has no such setting *)
Theorem C37_saved_refuted : exists schema data cur, separate schema /\ ex_run schema pn_empty [] = Ok data /\
  (forall ks s, setting schema ks s -> ks = [lit "count"]) /\ at_keys (saved data cur) [lit "version"] (leaf "1.0.0") /\ get_node schema (saved data cur) (lit "version") = Ok (leaf "1.0.0").
Proof.
  exists (node [("count", node [("type", leaf "int"); ("default", leaf "3")])])%string, pn_empty, (Ver 1 0 0 0 []). split; [apply separate_check; vm_compute; reflexivity|]. split; [reflexivity|]. split.
  - intros ks s H. apply setting_found in H. destruct H as [H D]. destruct ks as [|k ks]; [inversion H; subst s; discriminate|]. cbn [node map find pn_children assoc fst snd] in H.
    destruct (str_eqb (lit "count") k) eqn:E; [|discriminate]. apply str_eqb_eq in E. subst k. destruct ks as [|k ks]; [reflexivity|]. exfalso. cbn [node map find pn_children assoc fst snd] in H.
    destruct (str_eqb (lit "type") k); [destruct ks; [inversion H; subst s; discriminate|discriminate]|]. destruct (str_eqb (lit "default") k); [destruct ks; [inversion H; subst s; discriminate|discriminate]|discriminate].
  - split; [apply find_iff; vm_compute; reflexivity|vm_compute; reflexivity].
Qed.
Print Assumptions C37_saved_refuted.

(** ids that count: #1 is the first setting of the schema, but the first one that is stored in the data; another setting is overwritten with a value its type does not admit *)
Theorem C37_position_refuted : exists schema data data', separate schema /\
  ex_run schema pn_empty [SetOp (lit "count") (leaf "7")] = Ok data /\ ex_set schema data (lit "#1") (leaf "dark") = Ok (data', true) /\
  get_node schema data' (lit "count") = Ok (leaf "dark") /\ get_node schema data' (lit "theme") = Ok (leaf "light").
Proof.
  exists (node [("theme", node [("default", leaf "light")]); ("count", node [("type", leaf "int"); ("default", leaf "3")])])%string. eexists. eexists.
  split; [apply separate_check; vm_compute; reflexivity|]. split; [vm_compute; reflexivity|]. split; [vm_compute; reflexivity|]. split; vm_compute; reflexivity.
Qed.
Print Assumptions C37_position_refuted.
(** a setting inside another one: setting the outer one forgets the inner one *)
Theorem C37_nested_refuted : exists schema data data', ex_run schema pn_empty [SetOp (lit "a.b") (leaf "7")] = Ok data /\ get_node schema data (lit "a.b") = Ok (leaf "7") /\
  ex_set schema data (lit "a") (leaf "9") = Ok (data', true) /\ get_node schema data' (lit "a.b") = Ok (leaf "2").
Proof.
  exists (node [("a", node [("default", leaf "1"); ("b", node [("default", leaf "2")])])])%string. eexists. eexists.
  split; [vm_compute; reflexivity|]. split; [vm_compute; reflexivity|]. split; vm_compute; reflexivity.
Qed.
Print Assumptions C37_nested_refuted.
(** get of something that is not a setting: refused, unless something is stored in that group *)
Theorem C37_get_group_refuted : exists data, ex_run ex_schema pn_empty [SetOp (lit "view.zoom") (leaf "7")] = Ok data /\
  get_node ex_schema pn_empty (lit "view") = Throw /\ get_node ex_schema data (lit "view") = Ok (node [("zoom", leaf "7")])%string.
Proof. eexists. split; [vm_compute; reflexivity|]. split; vm_compute; reflexivity. Qed.
Print Assumptions C37_get_group_refuted.
(** an allowed value that is not in the range is replaced by one that is not allowed *)
Theorem C37_allowed_range_refuted : exists data s, ex_set ex_schema pn_empty (lit "depth") (leaf "50") = Ok (data, true) /\
  get_node ex_schema data (lit "depth") = Ok (leaf "9") /\ setting ex_schema [lit "depth"] s /\ ~ allowed_ok s (leaf "9").
Proof.
  eexists. eexists. split; [vm_compute; reflexivity|]. split; [vm_compute; reflexivity|]. split; [apply setting_check; vm_compute; reflexivity|].
  intros H. specialize (H (node [("", leaf "1"); ("", leaf "50")])%string). destruct H as (k & a & I & S); [apply has_child_iff; vm_compute; reflexivity|].
  apply pn_eqb_iff in S. cbn in I. destruct I as [[= <- <-]|[[= <- <-]|[]]]; discriminate.
Qed.
Print Assumptions C37_allowed_range_refuted.
(** a default that is no number, and a range whose first bound is none *)
Definition odd_schema : pn := node [("speed", node [("default", leaf "fast"); ("range", leaf "1..100")]); ("size", node [("default", leaf "3"); ("range", node [("min", leaf "low"); ("max", leaf "9")])])]%string.
Example C37_not_a_number_case :
  (exists s, setting odd_schema [lit "speed"] s /\ has_child s "default" (leaf "fast") /\ range_of ex_to_d s = Ok (Some (Some 1%Z, Some 100%Z)) /\ snd (ex_to_d (lit "fast")) = false /\ ordinary_value (leaf "5") (leaf "fast") /\ type_ok ex_to_d ex_le (fun _ => true) (fun _ => true) s (leaf "5") /\ allowed_ok s (leaf "5")) /\
  (exists s, setting odd_schema [lit "size"] s /\ has_child s "range" (node [("min", leaf "low"); ("max", leaf "9")])%string /\ snd (ex_to_d (lit "low")) = false) /\
  ex_set odd_schema pn_empty (lit "speed") (leaf "5") = Throw /\ ex_set odd_schema pn_empty (lit "size") (leaf "5") = Throw.
Proof.
  split; [|split; [|split; vm_compute; reflexivity]].
  - eexists. split; [apply setting_check; vm_compute; reflexivity|]. split; [apply has_child_iff; vm_compute; reflexivity|]. split; [vm_compute; reflexivity|]. split; [vm_compute; reflexivity|].
    split; [apply (ordinary_iff (fun _ => true) (fun _ => true)); vm_compute; reflexivity|]. split; [apply type_iff; vm_compute; reflexivity|apply allowed_iff; vm_compute; reflexivity].
  - eexists. split; [apply setting_check; vm_compute; reflexivity|]. split; [apply has_child_iff; vm_compute; reflexivity|vm_compute; reflexivity].
Qed.
(** without a type, not-a-number gets past the range *)
Theorem C37_nan_refuted : exists schema data, separate schema /\ (exists s, setting schema [lit "x"] s /\ range_of ex_to_d s = Ok (Some (Some 0%Z, Some 9%Z))) /\
  ex_set schema pn_empty (lit "x") (leaf "nan") = Ok (data, true) /\ get_node schema data (lit "x") = Ok (leaf "nan").
Proof.
  exists (node [("x", node [("default", leaf "1"); ("range", leaf "0..9")])])%string. eexists. split; [apply separate_check; vm_compute; reflexivity|].
  split; [eexists; split; [apply setting_check; vm_compute; reflexivity|vm_compute; reflexivity]|]. split; vm_compute; reflexivity.
Qed.
Print Assumptions C37_nan_refuted.
(** the lowest int is not accepted as an int *)
Theorem C37_lowest_int_refuted : ex_set ex_schema pn_empty (lit "count") (leaf "-2147483648") = Ok (pn_empty, false) /\ from_str_int KInt (lit "-2147483648") = (kind_min KInt, true) /\
  exists data, ex_set ex_schema pn_empty (lit "count") (leaf "-2147483647") = Ok (data, true).
Proof. split; [vm_compute; reflexivity|]. split; [vm_compute; reflexivity|]. eexists. vm_compute. reflexivity. Qed.
Print Assumptions C37_lowest_int_refuted.
(** an int with a range is stored the way a double is printed: a million becomes 1e+06, which is 1 when it is read as an int *)
Theorem C37_range_int_refuted : exists schema, forall (D : Type) (to_d : str -> D * bool) (d_str : D -> str) (dle dlt : D -> D -> bool) (is_color is_vec3 : pn -> bool) million zero high,
  to_d (lit "1000000") = (million, true) -> to_d (lit "0") = (zero, true) -> to_d (lit "0..5000000") = (zero, true) -> to_d (lit "5000000") = (high, true) ->
  dle zero million = true -> dle million high = true -> d_str million = lit "1e+06" ->
  exists data u, try_set to_d d_str dle dlt is_color is_vec3 schema pn_empty (lit "size") (leaf "1000000") = Ok (data, true) /\
    get_node schema data (lit "size") = Ok u /\ from_str_int KInt (pn_value u) = (1%Z, true).
Proof.
  exists (node [("size", node [("type", leaf "int"); ("default", leaf "0"); ("range", leaf "0..5000000")])])%string.
  intros D to_d d_str dle dlt is_color is_vec3 million zero high E1 E2 E3 E4 L1 L2 E5.
  set (schema := node _). assert (X : try_set to_d d_str dle dlt is_color is_vec3 schema pn_empty (lit "size") (leaf "1000000") = Ok (node [("size", leaf "1e+06")]%string, true)).
  { unfold try_set. assert (try_find_setting schema (lit "size") = Ok (Some (node [("type", leaf "int"); ("default", leaf "0"); ("range", leaf "0..5000000")]%string))) as -> by (vm_compute; reflexivity).
    cbn [obind]. set (s := node _). assert (child_node s "default" = Some (leaf "0")) as -> by (vm_compute; reflexivity). assert (child_node s "type" = Some (leaf "int")) as -> by (vm_compute; reflexivity).
    assert (child_node s "allowed" = None) as -> by (vm_compute; reflexivity). assert (pn_eqb (leaf "1000000") (leaf "0") || pn_is_empty (leaf "1000000") = false) as -> by (vm_compute; reflexivity).
    assert (type_fails to_d dle is_color is_vec3 (pn_value (leaf "int")) (leaf "1000000") = false) as ->.
    { unfold type_fails. assert (str_eqb (pn_value (leaf "int")) (lit "float") = false) as -> by reflexivity. assert (str_eqb (pn_value (leaf "int")) (lit "bool") = false) as -> by reflexivity.
      assert (str_eqb (pn_value (leaf "int")) (lit "color") = false) as -> by reflexivity. assert (str_eqb (pn_value (leaf "int")) (lit "vec3") = false) as -> by reflexivity. vm_compute. reflexivity. }
    assert (range_of to_d s = Ok (Some (zero, high))) as ->.
    { unfold range_of. assert (child_node s "range" = Some (leaf "0..5000000")) as -> by (vm_compute; reflexivity). unfold bounds_from_pn. assert (has_value (leaf "0..5000000") = true) as -> by reflexivity.
      unfold bounds_from_str. change (pn_value (leaf "0..5000000")) with (lit "0..5000000"). rewrite E3. assert (Str.find (lit "0..5000000") (lit "..") 0 = Some 1) as -> by (vm_compute; reflexivity).
      assert (substr (lit "0..5000000") (1 + 2) None = Ok (lit "5000000")) as -> by (vm_compute; reflexivity). cbn [obind]. rewrite E4. reflexivity. }
    cbn [obind]. unfold get_d. change (pn_value (leaf "0")) with (lit "0"). rewrite E2. cbn [obind]. change (pn_value (leaf "1000000")) with (lit "1000000"). rewrite E1. cbn [fst]. unfold is_within. cbn [fst snd]. rewrite L1, L2. cbn [andb]. rewrite E5. vm_compute. reflexivity. }
  eexists. eexists. split; [exact X|]. split; [vm_compute; reflexivity|]. vm_compute. reflexivity.
Qed.
Print Assumptions C37_range_int_refuted.

(** get refuses an id that names neither a stored value nor a setting *)
Theorem C37_get_unknown : forall schema data id ks, names id ks -> (forall u, ~ at_keys data ks u) -> (forall s, ~ setting schema ks s) -> get_node schema data id = Throw.
Proof.
  intros schema data id ks N H1 H2. unfold get_node. rewrite (query_node_find data id ks N). cbn [obind].
  destruct (find data ks) as [u|] eqn:E; [exfalso; apply (H1 u); apply find_iff; exact E|].
  destruct (find_setting_ok schema id ks N) as (r & Er & Hr). rewrite Er. cbn [obind]. destruct r as [s|]; [|reflexivity]. exfalso. apply (H2 s). apply Hr. reflexivity.
Qed.
Print Assumptions C37_get_unknown.
(** save adds the current version, unless it is the empty one, and changes no other value *)
Theorem C37_saved : forall (data : pn) (cur : ver),
  (cur = Ver 0 0 0 0 [] -> saved data cur = data) /\
  (cur <> Ver 0 0 0 0 [] -> exists u, at_keys (saved data cur) [lit "version"] u /\ pn_value u = to_str_version cur) /\
  (forall k ks u, k <> lit "version" -> (at_keys (saved data cur) (k :: ks) u <-> at_keys data (k :: ks) u)).
Proof.
  intros data cur.
  assert (A : forall t k v k', assoc (pn_children (set_child t k v)) k' = if str_eqb k k' then Some v else assoc (pn_children t) k').
  { intros t k v k'. unfold set_child, get_or_add_child, try_get_child. destruct (child_index (pn_children t) k) as [i|] eqn:E.
    - pose proof E as E'. apply child_index_some in E. destruct E as [E _]. rewrite nth_error_map in E. destruct (nth_error (pn_children t) i) as [kc|] eqn:En; [|discriminate]. injection E as E.
      cbn [update_at pn_children]. rewrite (assoc_upd _ k' k i _ E'). destruct (str_eqb k k') eqn:Ek; [|reflexivity]. apply str_eqb_eq in Ek. subst k'. rewrite assoc_index, E', En. reflexivity.
    - cbn [update_at]. unfold add_child, pn_size. cbn [pn_children]. unfold upd_child. rewrite nth_error_app2, Nat.sub_diag by reflexivity. cbn [nth_error fst snd].
      replace (list_set (pn_children t ++ [(k, pn_empty)]) (length (pn_children t)) (k, v)) with (pn_children t ++ [(k, v)]).
      + rewrite assoc_app. destruct (str_eqb k k') eqn:Ek; [|destruct (assoc (pn_children t) k'); reflexivity].
        apply str_eqb_eq in Ek. subst k'. rewrite assoc_index, E. reflexivity.
      + induction (pn_children t) as [|x l IH]; [reflexivity|]. cbn [app length list_set]. f_equal. apply IH. cbn [child_index] in E. destruct (str_eqb (fst x) k); [discriminate|]. destruct (child_index l k); [discriminate|reflexivity]. }
  assert (Z : (((v_major cur =? 0) && (v_minor cur =? 0) && (v_patch cur =? 0) && (v_build cur =? 0))%Z && match v_postfix cur with [] => true | _ => false end) = true <-> cur = Ver 0 0 0 0 []).
  { destruct cur as [a b c d e]. cbn [v_major v_minor v_patch v_build v_postfix]. rewrite !andb_true_iff, !Z.eqb_eq. split.
    - intros [[[[-> ->] ->] ->] H]. destruct e; [reflexivity|discriminate].
    - intros [= -> -> -> -> ->]. repeat split. }
  unfold saved. destruct (_ && match v_postfix cur with [] => true | _ => false end) eqn:E.
  - split; [reflexivity|]. split; [intros H; exfalso; apply H, Z; reflexivity|]. intros k ks u _. reflexivity.
  - split; [intros H; apply Z in H; discriminate|]. split.
    + intros _. exists (pn_of_value (to_str_version cur)). split; [|reflexivity]. apply find_iff. cbn [find]. rewrite A, str_eqb_refl. reflexivity.
    + intros k ks u Hk. rewrite <- !find_iff. cbn [find]. rewrite A. destruct (str_eqb (lit "version") k) eqn:Ek; [apply str_eqb_eq in Ek; congruence|]. reflexivity.
Qed.
Print Assumptions C37_saved.
Example C37_saved_ex :
  saved (PN [] [(lit "a", pn_of_value (lit "1"))] false) (Ver 1 0 0 0 []) = PN [] [(lit "a", pn_of_value (lit "1")); (lit "version", pn_of_value (lit "1.0.0"))] false /\
  get_node (PN [] [] false) (PN [] [] false) (lit "a") = Throw.
Proof. split; reflexivity. Qed.
