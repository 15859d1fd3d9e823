(** What a token is (char_stream), independently of the code, and the operations of a char_stream history. *)
From Coq Require Import Ascii String List Arith Bool.
From Verif Require Import Base Str StrModel.
Import ListNotations.

(** the settings of a char_stream: operators, delimiter characters, quotation characters *)
Record lexcfg := LexCfg { lex_ops : list str; lex_delims : str; lex_quotes : str }.

(** settings without NUL characters or empty operators *)
Definition plain_cfg (c : lexcfg) : Prop :=
  Forall (fun op => op <> [] /\ ~ In nul op) (lex_ops c) /\ ~ In nul (lex_delims c) /\ ~ In nul (lex_quotes c).

Definition delimiter (c : lexcfg) (x : ascii) : Prop := In x (lex_delims c) \/ x = nul.
Definition quotation (c : lexcfg) (x : ascii) : Prop := In x (lex_quotes c) /\ ~ delimiter c x.

(** [op] is the longest operator at the beginning of [text] *)
Definition operator_at (c : lexcfg) (text op : str) : Prop :=
  In op (lex_ops c) /\ (exists r, text = op ++ r) /\
  (forall op' r, In op' (lex_ops c) -> text = op' ++ r -> length op' <= length op).
Definition no_operator_at (c : lexcfg) (text : str) : Prop :=
  forall op r, In op (lex_ops c) -> text <> op ++ r.

(** [run] is followed by [y], and contains no delimiter, no quotation character and no start of an operator *)
Inductive plain_run (c : lexcfg) : str -> str -> Prop :=
| pr_nil y : plain_run c [] y
| pr_cons x run y : ~ delimiter c x -> ~ quotation c x -> no_operator_at c (x :: run ++ y) ->
    plain_run c run y -> plain_run c (x :: run) y.

(** the text after an opening [q], the characters it stands for, and the text after the closing [q].
    Escape sequences are those of decode_char; a section that is never closed ends with a NUL. *)
Inductive quoted_section (q : ascii) : str -> str -> str -> Prop :=
| qs_close t : quoted_section q (q :: t) [] t
| qs_plain x t d r : x <> q -> x <> bslash -> quoted_section q t d r -> quoted_section q (x :: t) (x :: d) r
| qs_escape t x n d r : q <> bslash -> decode_char (bslash :: t) = Ok (x, S n) ->
    quoted_section q (skipn n t) d r -> quoted_section q (bslash :: t) (x :: d) r
| qs_open : quoted_section q [] [nul] [].

(** [token_in c first x t y]: [t] is the token at the beginning of [x], [y] what remains; [first] when nothing
    has been collected for this token yet *)
Inductive token_in (c : lexcfg) : bool -> str -> str -> str -> Prop :=
| tok_word first run y : plain_run c run y -> (y = [] \/ exists x r, y = x :: r /\ delimiter c x) ->
    token_in c first (run ++ y) run y
| tok_word_operator first run x r op : plain_run c run (x :: r) -> ~ delimiter c x -> ~ quotation c x ->
    operator_at c (x :: r) op -> (first = false \/ run <> []) ->
    token_in c first (run ++ x :: r) run (x :: r)
| tok_operator x r op y : ~ delimiter c x -> ~ quotation c x -> operator_at c (x :: r) op -> x :: r = op ++ y ->
    token_in c true (x :: r) op y
| tok_quoted first run q text d rest t y : plain_run c run (q :: text) -> quotation c q ->
    quoted_section q text d rest ->
    token_in c (first && match d with [] => true | _ => false end) rest t y ->
    token_in c first (run ++ q :: text) (d ++ t) y.

(** operations of a char_stream *)
Inductive lex_op :=
| LToken | LLine | LGetc | LPeekc | LSeek (s : str) | LSeekPast (s : str) | LTryGet (s : str) | LTryGetChar (x : ascii).

(** operations whose argument contains no NUL *)
Definition plain_op (o : lex_op) : Prop :=
  match o with
  | LSeek s | LSeekPast s | LTryGet s => ~ In nul s
  | LTryGetChar x => x <> nul
  | _ => True
  end.

(** [y] is what remains of [x] after removing characters from its front *)
Definition suffix_of (y x : str) : Prop := exists p, x = p ++ y.

(** what ends a line *)
Definition line_end (x : ascii) : Prop := x = cr \/ x = lf \/ x = nul.
