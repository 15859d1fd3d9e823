(** Reading and writing XML. *)
From Coq Require Import Ascii String List Arith Bool Lia NArith.
From Verif Require Import Base Str StrBase StrModel PnSpec PnModel XmlSpec XmlModel XmlProofs.
Import ListNotations.

(** C134: whatever the text, reading ends with a result or a parse error; the parser never looks past the end of the text. *)
Theorem C134_total (t : pn) (text : str) : (exists t', xml_read t text = Ok t') \/ xml_read t text = Throw.
Proof. exact (read_total_assembled t text). Qed.
Print Assumptions C134_total.
Example C134_total_case : xml_read pn_empty (lit "<a><!-- b") = Throw /\ xml_read pn_empty (lit "<a b='&#x") = Throw /\ xml_read pn_empty (lit "<?xml ?><!DOCTYPE a [[]]><a/> ") = Ok (PN [] [(lit "a", pn_empty)] false).
Proof. repeat split; reflexivity. Qed.

(** C135: an XML document is read as the tree of its first element: its text, and a child for each attribute and each element inside; special
    characters in text and attributes are restored. *)
Theorem C135_document (t : pn) (e : xml) (es : list xml) : Forall plain (e :: es) ->
  xml_read t (print_document (e :: es)) = Ok (add_child t (fst (element_tree e)) (snd (element_tree e))).
Proof. exact (document_assembled t e es). Qed.
Print Assumptions C135_document.
Definition ex_xml : xml := Elem (lit "a") [] [(lit "k", lit "1 <'> 2 & ""3""")] [Elem (lit "b") (lit " x&y ") [] []; Elem (lit "b") [] [(lit "z", [])] []].
Example C135_document_case : plain ex_xml /\ element_tree ex_xml = (lit "a", PN [] [(lit "k", pn_of_value (lit "1 <'> 2 & ""3""")); (lit "b", pn_of_value (lit " x&y ")); (lit "b", PN [] [(lit "z", pn_of_value [])] false)] false) /\
  print_document [ex_xml] = lit "<a k='1 &lt;&apos;&gt; 2 &amp; ""3""'>" ++ [lf; tab] ++ lit "<b> x&amp;y </b>" ++ [lf; tab] ++ lit "<b z=""""/>" ++ [lf] ++ lit "</a>" ++ [lf; lf].
Proof.
  split; [|split; reflexivity]. unfold ex_xml.
  assert (NC : forall c, In c (lit "abkz") -> name_character c /\ attribute_character c /\ c <> "!"%char).
  { intros c I. vm_compute in I. destruct I as [<-|[<-|[<-|[<-|[]]]]]; (split; [|split; [|discriminate]]; repeat split; intros J; vm_compute in J; intuition discriminate). }
  assert (EN : forall c, In c (lit "abkz") -> element_name [c]) by (intros c I; split; [exists c, []; split; [reflexivity|apply NC; exact I]|constructor; [apply NC; exact I|constructor]]).
  assert (AN : forall c, In c (lit "abkz") -> attribute_name [c]) by (intros c I; split; [discriminate|constructor; [apply NC; exact I|constructor]]).
  apply plain_elements; [apply EN; cbn; tauto| |discriminate|].
  - constructor; [|constructor]. split; [apply AN; cbn; tauto|]. intros J. vm_compute in J. intuition discriminate.
  - constructor; [|constructor; [|constructor]]; apply plain_text; try (apply EN; cbn; tauto).
    + split; [intros J; vm_compute in J; intuition discriminate|]. right. exists "x"%char. split; [cbn; tauto|]. intros J. vm_compute in J. intuition discriminate.
    + constructor.
    + split; [intros []|auto].
    + constructor; [|constructor]. split; [apply AN; cbn; tauto|]. intros [].
Qed.

(** C135: white space, instructions, comments and document types (with any balanced brackets inside) before the document make no difference *)
Theorem C135_preamble (t : pn) (p text : str) : preamble p -> ~ In nul p -> (forall r, text <> ascii_of_nat 239 :: r) -> xml_read t (p ++ text) = xml_read t text.
Proof. exact (preamble_assembled t p text). Qed.
Print Assumptions C135_preamble.
Example C135_preamble_case : preamble (lit "<!DOCTYPE a [<!x[>]y>[]]>") /\ preamble (lit "<!-- <a> --->") /\ preamble (lit "<??>").
Proof.
  repeat split.
  - apply (pre_doctype " "%char (lit "a [<!x[>]y>[]]")); [left; reflexivity|]. apply decl_char; [cbn; intuition discriminate|]. apply decl_char; [cbn; intuition discriminate|].
    apply (decl_group (lit "<!x[>]y>[]") []); [|constructor]. do 3 (apply bal_char; [cbn; intuition discriminate|]). apply (bal_group (lit ">") (lit "y>[]")); [apply bal_char; [cbn; intuition discriminate|constructor]|].
    do 2 (apply bal_char; [cbn; intuition discriminate|]). apply (bal_group [] []); constructor.
  - apply (pre_comment (lit " <a> -")). intros u v E. assert (L := f_equal (@length _) E). rewrite !app_length in L. cbn in L. do 4 (destruct u as [|? u]; [discriminate E|injection E as _ E]). cbn in L. lia.
  - apply (pre_instruction []). intros [|? ?] v E; discriminate.
Qed.

(** C136: a property tree with values at the leaves only is read back as it was written; of several children of the root the first one is read. *)
Theorem C136_roundtrip_partial (t : pn) (v k : str) (c : pn) (rest : list (str * pn)) (a : bool) :
  Forall (fun kc => element_name (fst kc) /\ xml_like (snd kc)) ((k, c) :: rest) ->
  exists c', xml_read t (xml_write (PN v ((k, c) :: rest) a)) = Ok (add_child t k c') /\ same_tree c c'.
Proof. exact (roundtrip_assembled t v k c rest a). Qed.
Print Assumptions C136_roundtrip_partial.
Example C136_roundtrip_case : let t := PN [] [(lit "a", PN [] [(lit "b", pn_of_value (lit "1")); (lit "b", pn_of_value (lit "x<y"))] false)] false in
  xml_like (snd (hd ([], t) (pn_children t))) /\ xml_read pn_empty (xml_write t) = Ok t.
Proof.
  cbv zeta. split; [|reflexivity]. cbn [pn_children hd snd].
  assert (NC : name_character "b"%char) by (split; intros J; vm_compute in J; intuition discriminate).
  apply like_node; [discriminate|]. constructor; [|constructor; [|constructor]]; cbn [fst snd]; (split; [split; [exists "b"%char, []; split; [reflexivity|discriminate]|constructor; [exact NC|constructor]]|]); apply like_leaf;
  (split; [intros J; vm_compute in J; intuition discriminate|right]); [exists "1"%char|exists "x"%char]; (split; [cbn; tauto|intros J; vm_compute in J; intuition discriminate]).
Qed.

(** in general this fails: the value of a node with children is lost, so are other roots, values of white space, and nodes without a name *)
Theorem C136_every_tree_refuted :
  (exists k c c', xml_read pn_empty (xml_write (PN [] [(k, c)] false)) = Ok (PN [] [(k, c')] false) /\ pn_value c <> pn_value c' /\ pn_children c = pn_children c') /\
  (exists t t', length (pn_children t) = 2 /\ xml_read pn_empty (xml_write t) = Ok t' /\ length (pn_children t') = 1) /\
  (exists k v, xml_read pn_empty (xml_write (PN [] [(k, pn_of_value v)] false)) = Ok (PN [] [(k, pn_empty)] false) /\ v <> []) /\
  (exists k c t', k = [] /\ xml_read pn_empty (xml_write (PN [] [(k, c)] false)) = Ok t' /\ pn_keys t' <> [k]) /\
  (exists t, pn_children t <> [] /\ xml_read pn_empty (xml_write t) = Throw).
Proof.
  repeat split.
  - exists (lit "a"), (PN (lit "1") [(lit "b", pn_of_value (lit "2"))] false). eexists. split; [vm_compute; reflexivity|]. split; [discriminate|reflexivity].
  - exists (PN [] [(lit "a", pn_of_value (lit "1")); (lit "b", pn_of_value (lit "2"))] false). eexists. split; [reflexivity|]. split; [vm_compute; reflexivity|reflexivity].
  - exists (lit "a"), (lit " "). split; [vm_compute; reflexivity|discriminate].
  - exists [], (pn_of_value (lit "1")). eexists. split; [reflexivity|]. split; [vm_compute; reflexivity|discriminate].
  - exists (PN [] [(lit "a b", pn_of_value (lit "1"))] false). split; [discriminate|vm_compute; reflexivity].
Qed.
Print Assumptions C136_every_tree_refuted.

(** C137: a reference to a character by number stands for the UTF-8 bytes of that character. *)
Theorem C137_reference (ok : ascii -> bool) (s : str) (ds : list N) (rest : str) (hex : bool) : ok "&"%char = true ->
  Forall2 (digit (if hex then 16 else 10)%N) s ds -> s <> [] -> (number (if hex then 16 else 10)%N ds < 1114112)%N ->
  text_to ok (lit (if hex then "&#x" else "&#") ++ s ++ ";"%char :: rest) =
  do x <- text_to ok rest; Ok (map ascii_of_N (utf8 (number (if hex then 16 else 10)%N ds)) ++ fst x, snd x).
Proof. exact (reference_assembled ok s ds rest hex). Qed.
Print Assumptions C137_reference.
Example C137_reference_case : Forall2 (digit 16) (lit "20aC") [2; 0; 10; 12]%N /\ number 16 [2; 0; 10; 12]%N = 8364%N /\ utf8 8364 = [226; 130; 172]%N /\
  text_to text_test (lit "&#x20aC;!") = Ok ([ascii_of_nat 226; ascii_of_nat 130; ascii_of_nat 172; "!"%char], []) /\ text_to text_test (lit "&#233;") = Ok ([ascii_of_nat 195; ascii_of_nat 169], []).
Proof.
  split; [|repeat split; reflexivity].
  apply Forall2_cons; [exact (digit_decimal 16 2 eq_refl)|]. apply Forall2_cons; [exact (digit_decimal 16 0 eq_refl)|].
  apply Forall2_cons; [exact (digit_lower 10 ltac:(split; [discriminate|reflexivity]))|]. apply Forall2_cons; [exact (digit_upper 12 ltac:(split; [discriminate|reflexivity]))|constructor].
Qed.

(** not everything that is wrong is reported: letters are taken for decimal digits, and the names of closing tags are not compared *)
Theorem C137_malformed_refuted : text_to text_test (lit "&#1F;") = Ok ([ascii_of_nat 25], []) /\
  xml_read pn_empty (lit "<a><b>1</a></c>") = Ok (PN [] [(lit "a", PN [] [(lit "b", pn_of_value (lit "1"))] false)] false).
Proof. split; reflexivity. Qed.
Print Assumptions C137_malformed_refuted.
