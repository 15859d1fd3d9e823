(** Which trees ZML text can represent, and what may be inserted between tokens. *)
From Coq Require Import Ascii String List Arith Bool.
From Verif Require Import Base Str StrSpec PnSpec TokSpec.
Import ListNotations.

(** * strings *)
Definition code (x : ascii) : nat := nat_of_ascii x.
Definition char7 (x : ascii) : bool := (1 <=? code x) && (code x <=? 127).
Definition graphic (x : ascii) : bool := (33 <=? code x) && (code x <=? 126).

(** a string that the writer does not put between quotes *)
Definition bare_char (x : ascii) : bool :=
  (33 <=? code x) && (code x <=? 127) && negb (in_set (lit "{}[]#<>/" ++ [bslash; dquote]) x).
Definition bare (s : str) : bool := match s with [] => false | _ => forallb bare_char s end.

Definition one_of_strs (l : list str) (s : str) : bool := existsb (str_eqb s) l.

(** 7-bit; if written without quotes then without equals sign or single quote, and not ending in a colon *)
Definition token_ok (s : str) : bool :=
  forallb char7 s &&
  (negb (bare s) || (negb (in_set s "="%char) && negb (in_set s squote) && negb (Ascii.eqb (last s nul) ":"%char))) &&
  negb (one_of_strs [lit "#"; lit "//"; lit "/*"] s).

Definition label_ok (s : str) : bool :=
  token_ok s && negb (one_of_strs [lit "<<"; lit "{"; lit "["; lit "}"] s) &&
  match s with [] => false | x :: _ => graphic x && negb (Ascii.eqb x "$"%char) end.

(** no reference, no macro *)
Fixpoint has_inline_macro (s : str) : bool :=
  match s with
  | x :: t => (Ascii.eqb x "$"%char && match t with y :: _ => Ascii.eqb y "{"%char | [] => false end) || has_inline_macro t
  | [] => false
  end.
Definition value_ok (s : str) : bool :=
  token_ok s && negb (one_of_strs [lit "{"; lit "["] s) && negb (has_inline_macro s) &&
  match s with
  | [] => true
  | x :: t => negb (Ascii.eqb x "@"%char) && negb (Ascii.eqb x "$"%char && negb (match t with [] => true | _ => false end))
  end.
Definition element_ok (s : str) : bool :=
  value_ok s && negb (one_of_strs [lit "]"; lit "<<"] s) && match s with [] => false | _ => true end.

(** * trees *)
Definition no_keys (cs : list (str * pn)) : bool := forallb (fun kc => match fst kc with [] => true | _ => false end) cs.

(** [empties]: whether empty values are allowed *)
Fixpoint node_ok (empties in_array : bool) (t : pn) : bool :=
  match t with
  | PN v [] _ => (if in_array then element_ok v else value_ok v) && (empties || match v with [] => false | _ => true end)
  | PN v cs _ =>
    match v with [] => true | _ => negb in_array && value_ok v end &&
    if no_keys cs then forallb (fun kc => node_ok empties true (snd kc)) cs
    else forallb (fun kc => label_ok (fst kc) && node_ok empties false (snd kc)) cs
  end.
Definition tree_ok (empties : bool) (t : pn) : bool :=
  match t with
  | PN v cs _ =>
    match v with [] => true | _ => false end &&
    forallb (fun kc => label_ok (fst kc) && node_ok empties false (snd kc)) cs
  end.

(** * layout *)
Definition blank (x : ascii) : Prop := In x [" "%char; lf; cr; tab; vt].
Definition ends_line (x : ascii) : Prop := x = lf \/ x = cr.
(** comments: from # or // to the end of the line, or between /* and the next */ *)
Inductive comment : str -> Prop :=
| cm_line start body e : (start = lit "#" \/ start = lit "//") ->
    Forall (fun x => ~ ends_line x /\ x <> nul) body -> ends_line e -> comment (start ++ body ++ [e])
| cm_block body : ~ In nul body -> (forall i, ~ occurs_at (body ++ lit "*") (lit "*/") i) ->
    comment (lit "/*" ++ body ++ lit "*/").
(** blanks and comments *)
Inductive layout : str -> Prop :=
| ly_nil : layout []
| ly_blank x g : blank x -> layout g -> layout (x :: g)
| ly_comment k g : comment k -> layout g -> layout (k ++ g).
(** layout at the end of a document: the last line comment may lack its line end *)
Inductive final_layout : str -> Prop :=
| fl_layout g : layout g -> final_layout g
| fl_open g start body : layout g -> (start = lit "#" \/ start = lit "//") ->
    Forall (fun x => ~ ends_line x /\ x <> nul) body -> final_layout (g ++ start ++ body).

(** * tokens of a ZML document, in terms of TokSpec *)
Definition zml_lex : lexcfg :=
  LexCfg [lit "="; lit ": "; lit "{"; lit "}"; lit "["; lit "]"; lit "#"; lit "<<"; lit ">>"; lit "//"; lit "/*"; lit "*/"]
    [" "%char; lf; cr; tab; vt] [dquote; squote].
(** [lexes text rest l]: [text] is a sequence of layout and the tokens [l], followed by [rest] *)
Inductive lexes : str -> str -> list str -> Prop :=
| lx_nil text : lexes text text []
| lx_token g x t y rest l : layout g -> x <> [] -> (forall z r, x = z :: r -> ~ delimiter zml_lex z) ->
    token_in zml_lex true x t y -> t <> lit "#" -> t <> lit "//" -> t <> lit "/*" ->
    lexes y rest l -> lexes (g ++ x) rest (t :: l).
(** a space after a colon *)
Definition splits_colon (p g : str) : Prop := last p nul = ":"%char /\ exists r, g = " "%char :: r.
