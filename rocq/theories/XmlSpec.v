(** Vocabulary for XML documents and the property trees they stand for. *)
From Coq Require Import Ascii String List Arith Bool NArith.
From Verif Require Import Str PnSpec.
Import ListNotations.

(** elements with a name, text, attributes and contents; pieces of text; pieces of literal text *)
Inductive xml := Elem (name value : str) (attrs : list (str * str)) (kids : list xml) | Data (value : str) | CData (value : str).

(** characters with a meaning of their own *)
Definition xml_space (c : ascii) : Prop := In c [" "%char; lf; cr; tab].
Definition name_character (c : ascii) : Prop := ~ xml_space c /\ ~ In c [nul; "/"%char; ">"%char; "?"%char].
Definition attribute_character (c : ascii) : Prop := name_character c /\ ~ In c ["<"%char; "="%char; "!"%char].
(** names of elements and attributes *)
Definition element_name (k : str) : Prop := (exists c r, k = c :: r /\ c <> "!"%char) /\ Forall name_character k.
Definition attribute_name (k : str) : Prop := k <> [] /\ Forall attribute_character k.
(** text that is more than white space, or none *)
Definition element_text (v : str) : Prop := ~ In nul v /\ (v = [] \/ exists c, In c v /\ ~ xml_space c).

(** elements as people write them: text or elements inside, not both *)
Inductive plain : xml -> Prop :=
| plain_text n v attrs : element_name n -> element_text v -> Forall (fun a => attribute_name (fst a) /\ ~ In nul (snd a)) attrs -> plain (Elem n v attrs [])
| plain_elements n attrs kids : element_name n -> Forall (fun a => attribute_name (fst a) /\ ~ In nul (snd a)) attrs -> kids <> [] -> Forall plain kids -> plain (Elem n [] attrs kids).
(** the property tree of an element: its text, and a child for each attribute and each element inside *)
Fixpoint element_tree (e : xml) : str * pn :=
  match e with
  | Elem n v attrs kids => (n, PN v (map (fun a => (fst a, PN (snd a) [] false)) attrs ++ map element_tree kids) false)
  | Data v | CData v => ([], PN v [] false)
  end.

(** property trees that have the form of XML: values at the leaves only *)
Inductive xml_like : pn -> Prop :=
| like_leaf v a : element_text v -> xml_like (PN v [] a)
| like_node cs a : cs <> [] -> Forall (fun kc => element_name (fst kc) /\ xml_like (snd kc)) cs -> xml_like (PN [] cs a).

(** the UTF-8 bytes of a code point *)
Definition utf8 (c : N) : list N :=
  (if c <? 128 then [c]
   else if c <? 2048 then [192 + c / 64; 128 + c mod 64]
   else if c <? 65536 then [224 + c / 4096; 128 + c / 64 mod 64; 128 + c mod 64]
   else [240 + c / 262144; 128 + c / 4096 mod 64; 128 + c / 64 mod 64; 128 + c mod 64])%N.
(** digits of numbers *)
Inductive digit : N -> ascii -> N -> Prop :=
| digit_decimal base d : (d < 10)%N -> digit base (ascii_of_N (48 + d)) d
| digit_upper d : (10 <= d < 16)%N -> digit 16 (ascii_of_N (55 + d)) d
| digit_lower d : (10 <= d < 16)%N -> digit 16 (ascii_of_N (87 + d)) d.
Definition number (base : N) (ds : list N) : N := fold_left (fun a d => a * base + d)%N ds 0%N.

(** text in which every [ has its ] *)
Inductive balanced : str -> Prop :=
| bal_nil : balanced []
| bal_char c r : ~ In c ["["%char; "]"%char] -> balanced r -> balanced (c :: r)
| bal_group u r : balanced u -> balanced r -> balanced ("["%char :: u ++ "]"%char :: r).
(** the same, with no > outside the brackets *)
Inductive declared : str -> Prop :=
| decl_nil : declared []
| decl_char c r : ~ In c ["["%char; "]"%char; ">"%char] -> declared r -> declared (c :: r)
| decl_group u r : balanced u -> declared r -> declared ("["%char :: u ++ "]"%char :: r).
(** what may precede the document without being part of its contents: white space, instructions, comments and document types *)
Inductive preamble : str -> Prop :=
| pre_space c : xml_space c -> preamble [c]
| pre_instruction b : (forall u v, b <> u ++ lit "?>" ++ v) -> preamble (lit "<?" ++ b ++ lit "?>")
| pre_comment b : (forall u v, b <> u ++ lit "-->" ++ v) -> preamble (lit "<!--" ++ b ++ lit "-->")
| pre_doctype c b : xml_space c -> declared b -> preamble (lit "<!DOCTYPE" ++ c :: b ++ lit ">").
