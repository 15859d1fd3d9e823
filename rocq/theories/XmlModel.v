(** Model of /repo/xo/serialization/prop_node_serializer_xml.cpp with the parts of /repo/contrib/rapidxml-1.13 it uses: printing with no flags,
    parsing with no flags. Pointers into the text are the rest of the text, up to the terminating zero; reading [[]] is reading that zero. The zeros
    the parser writes behind names and values only ever overwrite characters it has passed (the character behind a piece of text is kept,
    rapidxml.hpp 1986-1989). *)
From Coq Require Import Ascii String List Arith Bool NArith.
From Verif Require Import Base Str StrModel PnSpec PnModel XmlSpec.
Import ListNotations.

Definition is (c : ascii) (l : str) : bool := in_set l c.
(** the tables, rapidxml.hpp 2308-2538 *)
Definition ws_chars : str := [" "%char; lf; cr; tab].
Definition ws_test (c : ascii) : bool := is c ws_chars.
Definition name_test (c : ascii) : bool := negb (is c (nul :: lit "/>?" ++ ws_chars)).
Definition attr_test (c : ascii) : bool := negb (is c (nul :: lit "/>?<=!" ++ ws_chars)).
Definition text_test (c : ascii) : bool := negb (is c [nul; "<"%char]).
Definition quoted_test (q c : ascii) : bool := negb (is c [nul; q]).
(** 2540-2561 *)
Definition digit_value (c : ascii) : option N :=
  let n := N_of_ascii c in
  if (48 <=? n)%N && (n <=? 57)%N then Some (n - 48)%N
  else if (65 <=? n)%N && (n <=? 70)%N then Some (n - 55)%N
  else if (97 <=? n)%N && (n <=? 102)%N then Some (n - 87)%N else None.

(** 1556-1564 *)
Fixpoint span (p : ascii -> bool) (s : str) : str * str :=
  match s with c :: r => if p c then let x := span p r in (c :: fst x, snd x) else ([], s) | [] => ([], []) end.
Definition skip_space (s : str) : str := snd (span ws_test s).
(** characters follow *)
Fixpoint begins (p s : str) : bool := match p, s with [], _ => true | x :: p, y :: s => Ascii.eqb x y && begins p s | _, [] => false end.
(** text += n; beyond the terminating zero is undefined *)
Definition adv (n : nat) (s : str) : outcome str := if n <=? length s then Ok (skipn n s) else UB.

(** 1508-1553, flags 0; codes are unsigned long of 64 bits *)
Definition coded (code : N) : outcome str :=
  let b n := ascii_of_N (N.land n 255) in
  let low n := b (N.land (N.lor n 128) 191) in
  if (code <? 128)%N then Ok [b code]
  else if (code <? 2048)%N then Ok [b (N.lor (N.shiftr code 6) 192); low code]
  else if (code <? 65536)%N then Ok [b (N.lor (N.shiftr code 12) 224); low (N.shiftr code 6); low code]
  else if (code <? 1114112)%N then Ok [b (N.lor (N.shiftr code 18) 240); low (N.shiftr code 12); low (N.shiftr code 6); low code]
  else Throw.
(** 1640-1666 *)
Fixpoint code_digits (base : N) (s : str) (code : N) : N * str :=
  match s with
  | c :: r => match digit_value c with Some d => code_digits base r (N.modulo (code * base + d) (2 ^ 64)) | None => (code, s) end
  | [] => (code, [])
  end.
(** 1566-1719: the text up to the first character that fails the test, with references replaced. [UB] when out of fuel *)
Fixpoint refs (fuel : nat) (ok : ascii -> bool) (s : str) : outcome (str * str) :=
  match fuel with
  | O => UB
  | S f =>
      let copy (c : ascii) (r : str) := do x <- refs f ok r; Ok (c :: fst x, snd x) in
      match s with
      | [] => Ok ([], [])
      | c :: r =>
          if negb (ok c) then Ok ([], s)
          else if Ascii.eqb c "&"%char then
            if begins (lit "amp;") r then do t <- adv 4 r; copy "&"%char t
            else if begins (lit "apos;") r then do t <- adv 5 r; copy squote t
            else if begins (lit "quot;") r then do t <- adv 5 r; copy dquote t
            else if begins (lit "gt;") r then do t <- adv 3 r; copy ">"%char t
            else if begins (lit "lt;") r then do t <- adv 3 r; copy "<"%char t
            else if begins (lit "#") r then
              do t <- (if begins (lit "#x") r then adv 2 r else adv 1 r);
              let d := code_digits (if begins (lit "#x") r then 16 else 10)%N t 0%N in
              do bytes <- coded (fst d);
              match snd d with
              | e :: t' => if Ascii.eqb e ";"%char then do x <- refs f ok t'; Ok (bytes ++ fst x, snd x) else Throw
              | [] => Throw
              end
            else copy c r
          else copy c r
      end
  end.
Definition text_to (ok : ascii -> bool) (s : str) : outcome (str * str) := refs (S (length s)) ok s.

(** skipping to the end of comments (1777-1783), declarations (1744-1750), processing instructions (1925-1930) and literal text (2014-2020) *)
Fixpoint skip_to (stop s : str) : outcome (str * str) :=
  if begins stop s then do t <- adv (length stop) s; Ok ([], t)
  else match s with [] => Throw | c :: r => do x <- skip_to stop r; Ok (c :: fst x, snd x) end.
(** 1814-1874; the depth is an int, its overflow is not modelled *)
Fixpoint skip_doctype (depth : nat) (s : str) : outcome str :=
  match s with
  | [] => Throw
  | c :: r =>
      match depth with
      | O => if Ascii.eqb c ">"%char then Ok r else if Ascii.eqb c "["%char then skip_doctype 1 r else skip_doctype 0 r
      | S d => if Ascii.eqb c "["%char then skip_doctype (S depth) r else if Ascii.eqb c "]"%char then skip_doctype d r else skip_doctype depth r
      end
  end.

(** 2236-2298 *)
Fixpoint attributes (fuel : nat) (s : str) : outcome (list (str * str) * str) :=
  match fuel with
  | O => UB
  | S f =>
      match s with
      | [] => Ok ([], [])
      | c :: r0 =>
          if attr_test c then
            let n := span attr_test r0 in
            match skip_space (snd n) with
            | e :: r1 =>
                if Ascii.eqb e "="%char then
                  match skip_space r1 with
                  | q :: r2 =>
                      if Ascii.eqb q squote || Ascii.eqb q dquote then
                        do v <- text_to (quoted_test q) r2;
                        match snd v with
                        | q' :: r3 => if Ascii.eqb q' q then do x <- attributes f (skip_space r3); Ok ((c :: fst n, fst v) :: fst x, snd x) else Throw
                        | [] => Throw
                        end
                      else Throw
                  | [] => Throw
                  end
                else Throw
            | [] => Throw
            end
          else Ok ([], s)
      end
  end.

Definition add_node (kids : list xml) (o : option xml) : list xml := match o with Some x => kids ++ [x] | None => kids end.
(** 2080-2163 with 2036-2077 and 1997-2034; [s] begins behind the <. [UB] when out of fuel *)
Fixpoint parse_node (fuel : nat) (s : str) : outcome (option xml * str) :=
  match fuel with
  | O => UB
  | S f =>
      if begins (lit "?") s then
        (* 2092-2109: declarations and processing instructions are both skipped *)
        do t <- adv 1 s; do x <- skip_to (lit "?>") t; Ok (None, snd x)
      else if begins (lit "!") s then
        if begins (lit "!--") s then do t <- adv 3 s; do x <- skip_to (lit "-->") t; Ok (None, snd x)
        else if begins (lit "![CDATA[") s then do t <- adv 8 s; do x <- skip_to (lit "]]>") t; Ok (Some (CData (fst x)), snd x)
        else if begins (lit "!DOCTYPE") s && (match skipn 8 s with c :: _ => ws_test c | [] => false end) then do t <- adv 9 s; do r <- skip_doctype 0 t; Ok (None, r)
        else do t <- adv 1 s; do x <- skip_to (lit ">") t; Ok (None, snd x)
      else
        let n := span name_test s in
        match fst n with
        | [] => Throw
        | _ =>
            do a <- attributes (S (length s)) (skip_space (snd n));
            match snd a with
            | c :: r =>
                if Ascii.eqb c ">"%char then do x <- parse_contents f r [] []; Ok (Some (Elem (fst n) (fst (fst x)) (fst a) (snd (fst x))), snd x)
                else if Ascii.eqb c "/"%char then match r with c2 :: r2 => if Ascii.eqb c2 ">"%char then Ok (Some (Elem (fst n) [] (fst a) []), r2) else Throw | [] => Throw end
                else Throw
            | [] => Throw
            end
        end
  end
(** 2165-2232 with 1936-1993: the value and the nodes found so far *)
with parse_contents (fuel : nat) (s : str) (value : str) (kids : list xml) : outcome ((str * list xml) * str) :=
  match fuel with
  | O => UB
  | S f =>
      match skip_space s with
      | [] => Throw
      | c :: r =>
          if Ascii.eqb c nul then Throw
          else if Ascii.eqb c "<"%char then
            if begins (lit "/") r then
              do t <- adv 1 r;
              match skip_space (snd (span name_test t)) with
              | e :: t' => if Ascii.eqb e ">"%char then Ok ((value, kids), t') else Throw
              | [] => Throw
              end
            else do x <- parse_node f r; parse_contents f (snd x) value (add_node kids (fst x))
          else
            do d <- text_to text_test s;
            (* 1981-1982: the first character of the value so far is the terminating zero *)
            parse_contents f (snd d) (match c_str value with [] => fst d | _ => value end) (kids ++ [Data (fst d)])
      end
  end.
(** 1391-1410 *)
Fixpoint parse_nodes (fuel : nat) (s : str) (kids : list xml) : outcome (list xml) :=
  match fuel with
  | O => UB
  | S f =>
      match skip_space s with
      | [] => Ok kids
      | c :: r => if Ascii.eqb c "<"%char then do x <- parse_node (S (length r)) r; parse_nodes f (snd x) (add_node kids (fst x)) else Throw
      end
  end.
(** 1380-1391, 1722-1733 *)
Definition bom : str := [ascii_of_nat 239; ascii_of_nat 187; ascii_of_nat 191].
Definition parse_document (text : str) : outcome (list xml) :=
  let s := c_str text in
  do t <- (if begins bom s then adv 3 s else Ok s);
  parse_nodes (S (length t)) t [].

(** ** rapidxml_print.hpp, flags 0 *)
(** 45-79 *)
Definition expand_char (noexpand : option ascii) (c : ascii) : str :=
  if match noexpand with Some n => Ascii.eqb c n | None => false end then [c]
  else if Ascii.eqb c "<"%char then lit "&lt;" else if Ascii.eqb c ">"%char then lit "&gt;"
  else if Ascii.eqb c squote then lit "&apos;" else if Ascii.eqb c dquote then lit "&quot;"
  else if Ascii.eqb c "&"%char then lit "&amp;" else [c].
Definition expand (noexpand : option ascii) (v : str) : str := flat_map (expand_char noexpand) v.
Definition tabs (n : nat) : str := repeat tab n.
(** 168-197 *)
Definition print_attribute (a : str * str) : str :=
  " "%char :: fst a ++ "="%char ::
  (if is dquote (snd a) then squote :: expand (Some dquote) (snd a) ++ [squote] else dquote :: expand (Some squote) (snd a) ++ [dquote]).
(** 100-165, 199-293 *)
Fixpoint print_node (indent : nat) (x : xml) : str :=
  match x with
  | Elem n v attrs kids =>
      tabs indent ++ "<"%char :: n ++ flat_map print_attribute attrs ++
      (match kids with
       | [] => match v with [] => lit "/>" | _ => ">"%char :: expand None v ++ lit "</" ++ n ++ lit ">" end
       | [Data d] => ">"%char :: expand None d ++ lit "</" ++ n ++ lit ">"
       | _ => ">"%char :: lf :: flat_map (print_node (S indent)) kids ++ tabs indent ++ lit "</" ++ n ++ lit ">"
       end)
  | Data v => tabs indent ++ expand None v
  | CData v => tabs indent ++ lit "<![CDATA[" ++ v ++ lit "]]>"
  end ++ [lf].
Definition print_document (kids : list xml) : str := flat_map (print_node 0) kids ++ [lf].

(** ** prop_node_serializer_xml.cpp *)
(** 27-44; names and values are passed on as zero-terminated strings *)
Fixpoint get_xml_node (x : xml) : pn :=
  match x with
  | Elem _ v attrs kids =>
      PN (c_str v)
         (map (fun a => (c_str (fst a), pn_of_value (c_str (snd a)))) attrs ++
          flat_map (fun k => match k with Elem (c :: n) _ _ _ => [(c_str (c :: n), get_xml_node k)] | _ => [] end) kids) false
  | Data v | CData v => pn_of_value (c_str v)
  end.
(** 46-56 for a node with the given name *)
Fixpoint xml_node (name : str) (t : pn) : xml :=
  match t with PN v cs _ => Elem (c_str name) (c_str v) [] (map (fun kc => xml_node (match fst kc with [] => lit "_" | k => k end) (snd kc)) cs) end.
(** 58-67 *)
Definition xml_read (t : pn) (text : str) : outcome pn :=
  do doc <- parse_document text;
  match doc with
  | Elem n v a k :: _ => Ok (add_child t (c_str n) (get_xml_node (Elem n v a k)))
  | x :: _ => Ok (add_child t [] (get_xml_node x))
  | [] => Ok t
  end.
(** 69-74; the value of the document node is not printed *)
Definition xml_write (t : pn) : str := print_document (map (fun kc => xml_node (match fst kc with [] => lit "_" | k => k end) (snd kc)) (pn_children t)).
