(** Theorems about ZML documents: C21 (write and read back), C22 (layout and comments). *)
From Coq Require Import Ascii String List Arith Bool.
From Verif Require Import Base Str StrSpec PnSpec PnModel TokSpec TokModel ZmlSpec ZmlModel ZmlProofs.
Import ListNotations.

(** every tree whose names and values ZML can represent is written, and what is written reads back as that tree *)
Theorem C21_round_trip (include : str -> outcome pn) (t : pn) : tree_ok true t = true ->
  exists text t', write_zml t = Ok text /\ parse_zml include text = Ok t' /\ same_tree t' t.
Proof. exact (round_trip include t). Qed.
Print Assumptions C21_round_trip.

Example C21_round_trip_example :
  let t := PN [] [(lit "model file", PN (lit "a { b }") [(lit "x", PN (lit "") [] false);
                                                         (lit "list", PN [] [([], PN (lit "1") [] false); ([], PN [] [(lit "y", PN (lit "/") [] false)] true)] false)] true);
                  (lit "z", PN [dquote; bslash; lf] [] false)] false in
  tree_ok true t = true.
Proof. reflexivity. Qed.

(** the same for the concise form, when no value is empty *)
Theorem C21_round_trip_concise (include : str -> outcome pn) (t : pn) : tree_ok false t = true -> pn_children t <> [] ->
  exists text t', write_zml_concise t = Ok text /\ parse_zml include text = Ok t' /\ same_tree t' t.
Proof. exact (round_trip_concise include t). Qed.
Print Assumptions C21_round_trip_concise.

Example C21_round_trip_concise_example :
  let t := PN [] [(lit "a", PN (lit "b") [(lit "c", PN [] [([], PN (lit "1") [] false); ([], PN (lit "2 3") [] false)] false)] false)] false in
  tree_ok false t = true /\ write_zml_concise t = Ok (lit "a=b{c[1 " ++ dquote :: lit "2 3" ++ dquote :: lit "]}").
Proof. split; reflexivity. Qed.

(** trees that are written without an error but do not read back: values with an equals sign, a single quote, a final
    colon, a leading at sign or dollar sign, a value that is a comment sign, an empty array element, an array as
    root, a byte above 127 *)
Theorem C21_round_trip_refuted : Forall (fun t => exists text, write_zml t = Ok text /\
    forall t', parse_zml (fun _ => Throw) text = Ok t' -> ~ same_tree t' t)
  [PN [] [(lit "k", PN (lit "a=b") [] false)] false;
   PN [] [(lit "k", PN (lit "it's") [] false)] false;
   PN [] [(lit "k", PN [] [(lit "a", PN (lit "b:") [] false)] false)] false;
   PN [] [(lit "k", PN (lit "@home") [] false)] false;
   PN [] [(lit "k", PN (lit "$5") [] false)] false;
   PN [] [(lit "k", PN (lit "#") [] false)] false;
   PN [] [(lit "k", PN [] [([], PN (lit "1") [] false); ([], PN [] [] false); ([], PN (lit "2") [] false)] false)] false;
   PN [] [([], PN (lit "1") [] false); ([], PN (lit "2") [] false)] false;
   PN [] [(lit "k", PN [ascii_of_nat 200] [] false)] false].
Proof. exact lost_all. Qed.
Print Assumptions C21_round_trip_refuted.

(** the concise form fails on an empty tree, and loses empty values before a bracket *)
Theorem C21_concise_empty_refuted : write_zml_concise (PN [] [] false) = Throw.
Proof. exact concise_empty_throws. Qed.
Print Assumptions C21_concise_empty_refuted.
Theorem C21_concise_empty_value_refuted : exists t text, tree_ok true t = true /\ write_zml_concise t = Ok text /\
  forall t', parse_zml (fun _ => Throw) text = Ok t' -> ~ same_tree t' t.
Proof. exact concise_lost. Qed.
Print Assumptions C21_concise_empty_value_refuted.

(** a tree whose root holds a value is refused by both writers *)
Theorem C21_refused (v : str) (cs : list (str * pn)) (a : bool) : v <> [] ->
  write_zml (PN v cs a) = Throw /\ write_zml_concise (PN v cs a) = Throw.
Proof. destruct v as [|x v]; [congruence|]. intros _. split; destruct cs; reflexivity. Qed.
Print Assumptions C21_refused.

(** two documents with the same tokens give the same result, whatever the blanks and comments around the tokens *)
Theorem C22_same_tokens (include : str -> outcome pn) (text1 text2 rest1 rest2 : str) (l : list str) :
  lexes text1 rest1 l -> lexes text2 rest2 l -> final_layout rest1 -> final_layout rest2 ->
  parse_zml include text1 = parse_zml include text2.
Proof. exact (parse_same_tokens include text1 text2 rest1 rest2 l). Qed.
Print Assumptions C22_same_tokens.

Example C22_same_tokens_example :
  lexes (lit "k=[1]") [] [lit "k"; lit "="; lit "["; lit "1"; lit "]"] /\
  lexes (lit "k = [" ++ lf :: lit "1 ] # one") (lit " # one") [lit "k"; lit "="; lit "["; lit "1"; lit "]"] /\
  parse_zml (fun _ => Throw) (lit "k = [" ++ lf :: lit "1 ] # one") =
    Ok (PN [] [(lit "k", PN [] [([], PN (lit "1") [] false)] false)] false).
Proof. split; [exact sample_lexes1|]. split; [exact sample_lexes2|]. reflexivity. Qed.

(** inserting blanks and comments, beginning with a blank, between two tokens; not a space after a colon *)
Theorem C22_insert (include : str -> outcome pn) (before after : str) (l : list str) (b : ascii) (g : str) :
  lexes (before ++ after) after l -> after <> [] -> blank b -> layout (b :: g) -> ~ splits_colon before (b :: g) ->
  parse_zml include (before ++ (b :: g) ++ after) = parse_zml include (before ++ after).
Proof. exact (insert_layout include before after l b g). Qed.
Print Assumptions C22_insert.

Example C22_insert_example :
  lexes (lit "k=[1]" ++ lit "b=2") (lit "b=2") [lit "k"; lit "="; lit "["; lit "1"; lit "]"] /\
  layout (" "%char :: lit "/* } */" ++ lit "# x" ++ [lf]) /\
  ~ splits_colon (lit "k=[1]") (" "%char :: lit "/* } */" ++ lit "# x" ++ [lf]) /\
  parse_zml (fun _ => Throw) (lit "k=[1] /* } */# x" ++ lf :: lit "b=2") =
    Ok (PN [] [(lit "k", PN [] [([], PN (lit "1") [] false)] false); (lit "b", PN (lit "2") [] false)] false).
Proof.
  split; [exact sample_lexes|]. split; [exact sample_layout|]. split; [intros [H _]; discriminate H|]. reflexivity.
Qed.

(** a space inserted after a word that ends in a colon changes the result *)
Theorem C22_space_after_colon_refuted : exists before after l, lexes (before ++ after) after l /\ after <> [] /\
  parse_zml (fun _ => Throw) (before ++ lit " " ++ after) <> parse_zml (fun _ => Throw) (before ++ after).
Proof. exact colon_space. Qed.
Print Assumptions C22_space_after_colon_refuted.
