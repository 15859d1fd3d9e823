(** C20: char_stream. *)
From Coq Require Import Ascii String List Arith.
From Verif Require Import Base Str StrSpec StrModel TokSpec TokModel TokProofs.
Import ListNotations.

(** get_token returns [t] exactly when, after blanks, [t] is the token at the front of the text: an operator
    (the longest that fits), a maximal run, or decoded quoted sections, and what remains is the text after it *)
Theorem C20_token : forall (ops : list str) (delims quotes text t : str) (s' : cs),
  plain_cfg (LexCfg ops delims quotes) ->
  (get_token (make_cfg ops delims quotes) (cs_of_string text) = Ok (t, s') <->
   exists blanks x, text = blanks ++ x /\ Forall (delimiter (LexCfg ops delims quotes)) blanks /\
     (forall y r, x = y :: r -> ~ delimiter (LexCfg ops delims quotes) y) /\
     token_in (LexCfg ops delims quotes) true x t (cs_rest s') /\
     cs_fail s' = false /\ (cs_eof s' = true <-> cs_rest s' = [])).
Proof. exact token_assembled. Qed.
Print Assumptions C20_token.

Example C20_token_ex :
  get_token (make_cfg [lit "="; lit "=="] (lit " ") [dquote]) (cs_of_string (lit "  ab==1")) = Ok (lit "ab", CS (lit "==1") false false) /\
  get_token (make_cfg [lit "="; lit "=="] (lit " ") [dquote]) (cs_of_string (lit "==1")) = Ok (lit "==", CS (lit "1") false false) /\
  get_token (make_cfg [lit "="; lit "=="] (lit " ") [dquote]) (cs_of_string (dquote :: lit "a = b" ++ dquote :: lit " c")) =
    Ok (lit "a = b", CS (lit " c") false false).
Proof. vm_compute. repeat split. Qed.

(** any sequence of operations on a text that does not end in a backslash succeeds, stays inside the text, only
    ever moves forward, and counts lines correctly *)
Theorem C20_history : forall (ops : list str) (delims quotes text : str) (h : list lex_op),
  plain_cfg (LexCfg ops delims quotes) -> Forall plain_op h -> last text nul <> bslash ->
  exists s' used, run_lex (make_cfg ops delims quotes) (cs_of_string text) h = Ok s' /\
    text = used ++ cs_rest s' /\ line_number text s' = 1 + count_occ ascii_dec used lf.
Proof. exact lex_history_assembled. Qed.
Print Assumptions C20_history.

Example C20_history_ex :
  run_lex (make_cfg [lit "="] (lit " ") [dquote]) (cs_of_string (lit "a # b" ++ [lf] ++ lit "x=1"))
    [LToken; LToken; LLine; LSeekPast [lf]; LToken] = Ok (CS (lit "=1") false false).
Proof. reflexivity. Qed.

(** reading tokens reaches the end of the text *)
Theorem C20_reaches_end : forall (ops : list str) (delims quotes text : str),
  plain_cfg (LexCfg ops delims quotes) -> last text nul <> bslash ->
  exists n s', n <= 1 + length text /\
    run_lex (make_cfg ops delims quotes) (cs_of_string text) (repeat LToken n) = Ok s' /\
    cs_rest s' = [] /\ cs_eof s' = true.
Proof. exact lex_end_assembled. Qed.
Print Assumptions C20_reaches_end.

Example C20_reaches_end_ex :
  run_lex (make_cfg [lit "="] (lit " ") [dquote]) (cs_of_string (lit "a = b ")) (repeat LToken 4) = Ok (CS [] false true).
Proof. reflexivity. Qed.

(** get_line returns the rest of the line and stops at its terminator *)
Theorem C20_line : forall (s : cs) (l : str) (s' : cs), get_line s = (l, s') ->
  cs_rest s = l ++ cs_rest s' /\ Forall (fun x => ~ line_end x) l /\
  (forall x r, cs_rest s' = x :: r -> line_end x) /\ cs_fail s' = cs_fail s.
Proof. exact get_line_spec. Qed.
Print Assumptions C20_line.

Example C20_line_ex : get_line (cs_of_string (lit "ab c" ++ [lf] ++ lit "d")) = (lit "ab c", CS (lf :: lit "d") false false).
Proof. reflexivity. Qed.

(** seek finds the first occurrence *)
Theorem C20_seek : forall (text sub : str), ~ In nul text -> ~ In nul sub ->
  (forall i, first_occurrence text sub 0 i ->
     seek sub (cs_of_string text) = (true, CS (skipn i text) false false) /\
     exists rest, skipn i text = sub ++ rest /\
       seek_past sub (cs_of_string text) = Ok (true, CS rest false (match rest with [] => true | _ => false end))) /\
  ((forall i, ~ occurs_at text sub i) ->
     seek sub (cs_of_string text) = (false, CS text true false) /\
     seek_past sub (cs_of_string text) = Ok (false, CS text true false)).
Proof. exact seek_spec. Qed.
Print Assumptions C20_seek.

Example C20_seek_ex : seek_past (lit "*/") (cs_of_string (lit "a */ b")) = Ok (true, CS (lit " b") false false).
Proof. reflexivity. Qed.

(** a quotation that is still open when the text ends in a backslash is never left: the loop does not terminate *)
Theorem C20_lone_backslash_refuted : exists text, last text nul = bslash /\
  get_token std_cfg (cs_of_string text) = UB /\ forall fuel s, quote_loop fuel dquote (tl text) s = UB.
Proof. exact lone_backslash_refuted. Qed.
Print Assumptions C20_lone_backslash_refuted.

(** characters directly before a quotation are lost *)
Theorem C20_prefix_dropped_refuted : exists text t s', text = (lit "ab" ++ [dquote] ++ lit "cd" ++ [dquote])%list /\
  get_token std_cfg (cs_of_string text) = Ok (t, s') /\ cs_rest s' = [] /\ t = lit "cd".
Proof. exact prefix_dropped_refuted. Qed.
Print Assumptions C20_prefix_dropped_refuted.

(** an unterminated quotation yields a token with an extra NUL and no failure *)
Theorem C20_open_quote_refuted : exists text t s', text = (dquote :: lit "ab")%list /\
  get_token std_cfg (cs_of_string text) = Ok (t, s') /\ t = (lit "ab" ++ [nul])%list /\ cs_fail s' = false.
Proof. exact open_quote_refuted. Qed.
Print Assumptions C20_open_quote_refuted.

(** an empty quotation directly before an operator is lost *)
Theorem C20_empty_quote_refuted : exists text t s', text = ([dquote; dquote] ++ lit "= 1")%list /\
  get_token std_cfg (cs_of_string text) = Ok (t, s') /\ t = lit "=" /\ cs_rest s' = lit " 1".
Proof. exact empty_quote_refuted. Qed.
Print Assumptions C20_empty_quote_refuted.

(** try_get of a NUL at the end of the text moves past the end *)
Theorem C20_try_get_refuted : exists s, cs_rest s = [] /\ try_get_char nul s = UB /\ try_get [nul; "a"%char] s = UB.
Proof. exact try_get_end_refuted. Qed.
Print Assumptions C20_try_get_refuted.

(** the operations on single characters, and what they answer at the end of the text *)
Theorem C20_characters : forall (text : str) (fail eof : bool) (x : ascii) (sub : str),
  good (cs_of_string text) = true /\ cs_rest (cs_of_string text) = text /\
  (~ In nul text -> cs_of_cstr text = cs_of_string text) /\ (forall rest, ~ In nul text -> cs_of_cstr (text ++ nul :: rest) = cs_of_string text) /\
  (forall s, good s = true <-> cs_fail s = false /\ cs_eof s = false) /\
  getc (CS (x :: text) fail eof) = (x, CS text fail eof) /\ getc (CS [] fail eof) = (nul, CS [] fail true) /\
  peekc (CS (x :: text) fail eof) = (x, CS (x :: text) fail eof) /\ peekc (CS [] fail eof) = (nul, CS [] fail true) /\
  test_eof (CS (x :: text) fail eof) = (CS (x :: text) fail eof, false) /\ test_eof (CS [] fail eof) = (CS [] fail true, true) /\
  get_line (CS [] fail eof) = ([], CS [] fail true) /\ (forall l s', get_line (CS (x :: text) fail eof) = (l, s') -> cs_eof s' = eof) /\
  try_get_char x (CS (x :: text) fail eof) = Ok (true, CS text fail eof) /\
  (forall y, y <> x -> try_get_char y (CS (x :: text) fail eof) = Ok (false, CS (x :: text) fail eof)) /\
  (x <> nul -> try_get_char x (CS [] fail eof) = Ok (false, CS [] fail eof)) /\
  (~ In nul sub -> try_get sub (CS (sub ++ text) fail eof) = Ok (true, CS text fail eof) /\
    ((forall r, text <> sub ++ r) -> try_get sub (CS text fail eof) = Ok (false, CS text fail eof))).
Proof.
  intros text fail eof x sub. split; [reflexivity|]. split; [reflexivity|].
  split; [intros H; unfold cs_of_cstr; rewrite StrBase.c_str_id by exact H; reflexivity|].
  split.
  { intros rest H. unfold cs_of_cstr, cs_of_string. f_equal. induction text as [|c text IH]; [reflexivity|]. cbn [app c_str].
    destruct (Ascii.eqb_spec c nul) as [->|Hc]; [exfalso; apply H; left; reflexivity|]. f_equal. apply IH. intros Q. apply H. right. exact Q. }
  split; [intros [r f e]; unfold good; cbn; destruct f, e; cbn; intuition discriminate|].
  do 7 (split; [reflexivity|]).
  split; [unfold get_line; cbn [cs_rest cs_fail cs_eof]; intros l s' [= <- <-]; reflexivity|].
  split; [unfold try_get_char; cbn; rewrite Ascii.eqb_refl; reflexivity|].
  split; [intros y Hy; unfold try_get_char; cbn [cs_rest hd]; rewrite (proj2 (Ascii.eqb_neq x y)) by congruence; reflexivity|].
  split; [intros Hx; unfold try_get_char; cbn [cs_rest hd]; rewrite (proj2 (Ascii.eqb_neq nul x)) by congruence; reflexivity|].
  intros Hn. unfold try_get; cbn [cs_rest cs_fail cs_eof]. split.
  - rewrite (proj2 (strncmp_prefix_r sub Hn (sub ++ text))) by (exists text; reflexivity).
    unfold advance. rewrite app_length. replace (length sub <=? length sub + length text) with true by (symmetry; apply Nat.leb_le; apply Nat.le_add_r).
    cbn [obind]. rewrite skipn_app, skipn_all, Nat.sub_diag. reflexivity.
  - intros H. destruct (strncmp_eq text sub (length sub)) eqn:E; [|reflexivity]. apply (strncmp_prefix_r sub Hn) in E. destruct E as [r E]. destruct (H r E).
Qed.
Print Assumptions C20_characters.
Example C20_characters_ex :
  getc (cs_of_string (lit "ab")) = ("a"%char, CS (lit "b") false false) /\ try_get (lit "/*") (cs_of_string (lit "/* x")) = Ok (true, CS (lit " x") false false) /\
  try_get (lit "/*") (cs_of_string (lit "// x")) = Ok (false, CS (lit "// x") false false).
Proof. repeat split. Qed.
