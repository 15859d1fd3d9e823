(** Properties of lookup tables, stacked strings, pattern matchers and tidied names. *)
From Coq Require Import Ascii String List Arith Lia.
From Verif Require Import Base Str StrSpec StrModel DicSpec DicModel DicProofs.
Import ListNotations.

(** C127: a dictionary gives the name of an element and the element of a name, from the first entry that has it; if there is none it throws, or
    gives the default. *)
Theorem C127_dictionary : forall (T : Type) (eqb : T -> T -> bool), (forall x y, eqb x y = true <-> x = y) -> forall d : list (T * str),
  (forall e, (exists p, first_with (fun p => fst p = e) d p /\ dict_name eqb d e = Ok (snd p)) \/ ((forall p, In p d -> fst p <> e) /\ dict_name eqb d e = Throw)) /\
  (forall s, (exists p, first_with (fun p => snd p = s) d p /\ dict_element d s = Ok (fst p) /\ forall x, dict_element_or d s x = fst p) \/
     ((forall p, In p d -> snd p <> s) /\ dict_element d s = Throw /\ forall x, dict_element_or d s x = x)).
Proof. exact @dict_assembled. Qed.
Print Assumptions C127_dictionary.
Definition colours : list (nat * str) := [(1, lit "red"); (2, lit "green"); (3, lit "red")].
Example C127_dictionary_ex : dict_name Nat.eqb colours 2 = Ok (lit "green") /\ dict_element colours (lit "red") = Ok 1 /\
  dict_element colours (lit "blue") = Throw /\ dict_element_or colours (lit "blue") 7 = 7.
Proof. repeat split. Qed.

(** if neither elements nor names repeat, the two lookups are each other's inverse *)
Theorem C127_inverse : forall (T : Type) (eqb : T -> T -> bool), (forall x y, eqb x y = true <-> x = y) -> forall d : list (T * str),
  NoDup (map fst d) -> NoDup (map snd d) -> forall e s, dict_name eqb d e = Ok s <-> dict_element d s = Ok e.
Proof. exact @dict_round_trip. Qed.
Print Assumptions C127_inverse.
Example C127_inverse_ex : let d := [(1, lit "red"); (2, lit "green")] in NoDup (map fst d) /\ NoDup (map snd d) /\ dict_element d (lit "green") = Ok 2.
Proof. cbn zeta. split; [|split; [|reflexivity]]; repeat (constructor; [cbn; intuition discriminate|]); constructor. Qed.

Theorem C127_inverse_without_uniqueness_refuted : exists (d : list (nat * str)) e s, dict_name Nat.eqb d e = Ok s /\ dict_element d s <> Ok e.
Proof. exact dict_ambiguous. Qed.
Print Assumptions C127_inverse_without_uniqueness_refuted.

Theorem C127_lookup : forall (T : Type) (table : list (str * T)) value,
  (exists p, first_with (fun p => c_str (fst p) = value) table p /\ lookup value table = Ok (snd p)) \/
  ((forall p, In p table -> c_str (fst p) <> value) /\ lookup value table = Throw).
Proof. exact @lookup_assembled. Qed.
Print Assumptions C127_lookup.
Example C127_lookup_ex : lookup (lit "b") [(lit "a", 1); (lit "b", 2); (lit "b", 3)] = Ok 2 /\ lookup (lit "c") [(lit "a", 1)] = Throw.
Proof. split; reflexivity. Qed.

(** C128: a stack_string is at all times the concatenation of the parts pushed and not popped again; set leaves a single part. *)
Theorem C128_stack : forall ops, match parts ops with Some l => exists s, ss_run ops = Ok s /\ ss_str s = concat l | None => ss_run ops = UB end.
Proof. exact stack_assembled. Qed.
Print Assumptions C128_stack.
Example C128_stack_ex : let ops := [Append (lit "ab"); Append (lit "c"); RemoveLast; SetTo (lit "x"); Append []; Append (lit "yz"); RemoveLast; RemoveLast] in
  parts ops = Some [lit "x"] /\ parts (ops ++ [RemoveLast; RemoveLast]) = None.
Proof. split; reflexivity. Qed.

(** C129: a pattern_matcher matches a string when one of the pieces between delimiters does; it is empty when there are no pieces, and is read
    back from its text. *)
Theorem C129_matcher : forall (fnmatch : str -> str -> bool) pattern delims, ~ In nul delims -> exists ps, pm_make pattern delims = Ok ps /\ pieces (one_of delims) pattern ps /\
  (forall s, pm_match fnmatch ps s = true <-> exists p, In p ps /\ fnmatch (c_str p) (c_str s) = true) /\
  (pm_empty ps = true <-> Forall (one_of delims) pattern) /\
  ((forall p, In p ps -> ~ In ";"%char p) -> pm_make (pm_str ps) (lit ";") = Ok ps).
Proof. exact matcher_assembled. Qed.
Print Assumptions C129_matcher.
Example C129_matcher_ex : pm_make (lit ";a*;;b") (lit ";") = Ok [lit "a*"; lit "b"] /\ pm_str [lit "a*"; lit "b"] = lit "a*;b" /\
  pm_match str_eqb [lit "a*"; lit "b"] (lit "b") = true /\ pm_match str_eqb pm_default (lit "b") = false.
Proof. repeat split. Qed.

(** with other delimiters a piece can contain the semicolon that separates pieces in the text *)
Theorem C129_text_refuted : exists pattern delims ps, pm_make pattern delims = Ok ps /\ pm_make (pm_str ps) (lit ";") <> Ok ps.
Proof. exact matcher_text. Qed.
Print Assumptions C129_text_refuted.

Theorem C129_is_pattern : forall s, is_pattern s = true <-> In "*"%char s \/ In "?"%char s.
Proof. exact is_pattern_iff. Qed.
Print Assumptions C129_is_pattern.
Example C129_is_pattern_ex : is_pattern (lit "a?c") = true /\ is_pattern (lit "abc") = false.
Proof. split; reflexivity. Qed.

(** C130: tidy_identifier gives what follows the last dot or colon, without leading and trailing underscores; tidy_type_name gives what
    precedes the template arguments and follows the last colon or space before them. *)
Theorem C130_identifier : forall id, exists pre rest u t, id = pre ++ rest /\ Forall (fun c => ~ one_of (lit ".:") c) rest /\
  (forall c q, pre = q ++ [c] -> one_of (lit ".:") c) /\
  tidy_identifier id = Ok t /\ trimmed_left (one_of (lit "_")) rest u /\ trimmed_right (one_of (lit "_")) u t.
Proof. exact tidy_id_assembled. Qed.
Print Assumptions C130_identifier.
Example C130_identifier_ex : tidy_identifier (lit "a::b_._my_var__") = Ok (lit "my_var") /\ tidy_identifier (lit "x.__") = Ok [].
Proof. split; reflexivity. Qed.

Theorem C130_type_name : forall demangle name0 name head tail, demangle (c_str name0) = Some name -> name = head ++ tail ->
  Forall (fun c => ~ one_of (lit "<") c) head -> (forall c r, tail = c :: r -> one_of (lit "<") c) ->
  (forall scope last, head = scope ++ last -> Forall (fun c => ~ one_of (lit ": ") c) last -> (exists c q, scope = q ++ [c] /\ one_of (lit ": ") c) ->
     tidy_type_name demangle name0 = Ok last) /\
  (Forall (fun c => ~ one_of (lit ": ") c) head -> tidy_type_name demangle name0 = Ok name).
Proof. exact type_assembled. Qed.
Print Assumptions C130_type_name.
Example C130_type_name_ex : tidy_type_name (fun _ => Some (lit "xo::vec3_<std::pair<int, x> >")) (lit "?") = Ok (lit "vec3_").
Proof. reflexivity. Qed.

(** without a scope in front, the template arguments stay *)
Theorem C130_no_arguments_refuted : exists demangle name0 t, tidy_type_name demangle name0 = Ok t /\ In "<"%char t.
Proof. exact type_args_case. Qed.
Print Assumptions C130_no_arguments_refuted.

(** a name that cannot be demangled *)
Theorem C130_every_name_refuted : exists demangle name0, tidy_type_name demangle name0 = UB.
Proof. exists (fun _ => None), (lit "not a mangled name"). reflexivity. Qed.
Print Assumptions C130_every_name_refuted.
