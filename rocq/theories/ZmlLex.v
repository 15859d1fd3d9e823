(** How the tokens the ZML writer emits are read back. *)
From Coq Require Import Ascii String List Arith Bool NArith ZArith Lia.
From Verif Require Import Base BaseProofs Str StrSpec StrModel StrBase StrProofs PnSpec PnModel
  TokSpec TokModel TokProofs ZmlSpec ZmlModel.
Import ListNotations.

Definition zml_ops : list str :=
  [lit "="; lit ": "; lit "{"; lit "}"; lit "["; lit "]"; lit "#"; lit "<<"; lit ">>"; lit "//"; lit "/*"; lit "*/"].
Definition zk : lexcfg := LexCfg zml_ops [" "%char; lf; cr; tab; vt] [dquote; squote].
Lemma zml_cfg_eq : zml_cfg = make_cfg zml_ops [" "%char; lf; cr; tab; vt] [dquote; squote].
Proof. reflexivity. Qed.

Lemma zk_plain : plain_cfg zk.
Proof.
  assert (H : forall s, forallb (fun x => negb (Ascii.eqb x nul)) s = true -> ~ In nul s).
  { intros s Hs Hin. rewrite forallb_forall in Hs. specialize (Hs _ Hin). rewrite Ascii.eqb_refl in Hs. discriminate. }
  split; [|split].
  - cbn [lex_ops zk zml_ops]. repeat (constructor; [split; [discriminate|apply H; reflexivity]|]). constructor.
  - apply H. reflexivity.
  - apply H. reflexivity.
Qed.

(** the state between two tokens *)
Definition mk (text : str) : cs := CS text false (is_nil text).

Lemma get_token_mk text : get_token zml_cfg (CS text false false) = get_token zml_cfg (mk text).
Proof. destruct text as [|x t]; reflexivity. Qed.
Lemma get_zml_token_mk text : get_zml_token (CS text false false) = get_zml_token (mk text).
Proof. unfold get_zml_token. cbn [cs_rest mk zml_token_loop]. rewrite get_token_mk. reflexivity. Qed.

Lemma token_iff text t r : get_token zml_cfg (mk text) = Ok (t, mk r) <->
  exists x, starts_token zml_ops [" "%char; lf; cr; tab; vt] [dquote; squote] text x /\ token_in zk true x t r.
Proof.
  rewrite <- get_token_mk, zml_cfg_eq. rewrite (get_token_iff _ _ _ zk_plain). cbn [mk cs_rest cs_fail cs_eof].
  split.
  - intros [x [H1 [H2 _]]]. exists x. auto.
  - intros [x [H1 H2]]. exists x. split; [exact H1|]. split; [exact H2|]. split; reflexivity.
Qed.

Definition is_comment_token (t : str) : bool := one_of_strs [lit "#"; lit "//"; lit "/*"] t.

Lemma zml_token text t r : get_token zml_cfg (mk text) = Ok (t, mk r) -> is_comment_token t = false ->
  get_zml_token (mk text) = Ok (t, mk r).
Proof.
  intros H Hc. unfold get_zml_token. cbn [mk cs_rest zml_token_loop]. fold (mk text). rewrite H. cbn [obind].
  unfold is_comment_token, one_of_strs in Hc. cbn [existsb] in Hc. apply orb_false_iff in Hc. destruct Hc as [H1 Hc].
  apply orb_false_iff in Hc. destruct Hc as [H2 Hc]. apply orb_false_iff in Hc. destruct Hc as [H3 _].
  rewrite H1, H2, H3. reflexivity.
Qed.

(** * operators *)
Lemma op_first x r op u : In op zml_ops -> x :: r = op ++ u -> In x (lit "=:{}[]#<>/*").
Proof.
  intros H E. apply in_set_In.
  assert (Hall : forallb (fun o => match o with y :: _ => in_set (lit "=:{}[]#<>/*") y | [] => false end) zml_ops = true)
    by reflexivity.
  rewrite forallb_forall in Hall. specialize (Hall _ H). destruct op as [|y op]; [discriminate|].
  injection E as -> _. exact Hall.
Qed.
Lemma no_op_plain x r : ~ In x (lit "=:{}[]#<>/*") -> no_operator_at zk (x :: r).
Proof.
  intros Hx op u Hop E. apply Hx. exact (op_first x r op u Hop E).
Qed.
Lemma no_op_colon r : (forall u, r <> " "%char :: u) -> no_operator_at zk (":"%char :: r).
Proof.
  intros Hr op u Hop E. cbn [lex_ops zk zml_ops In] in Hop.
  repeat (destruct Hop as [<-|Hop]; [first [discriminate E|injection E as E; exact (Hr _ E)]|]). destruct Hop.
Qed.
Lemma no_op_star r : (forall u, r <> "/"%char :: u) -> no_operator_at zk ("*"%char :: r).
Proof.
  intros Hr op u Hop E. cbn [lex_ops zk zml_ops In] in Hop.
  repeat (destruct Hop as [<-|Hop]; [first [discriminate E|injection E as E; exact (Hr _ E)]|]). destruct Hop.
Qed.
Definition op_chars : str := lit "={}[]".
Lemma op_single x r : In x op_chars -> operator_at zk (x :: r) [x].
Proof.
  intros Hx. cbn [op_chars In lit list_ascii_of_string] in Hx. split; [|split].
  - cbn [lex_ops zk zml_ops In].
    repeat (destruct Hx as [<-|Hx]; [tauto|]). destruct Hx.
  - exists r. reflexivity.
  - intros op u Hop E. cbn [lex_ops zk zml_ops In] in Hop.
    repeat (destruct Hop as [<-|Hop]; [first [cbn; lia|
      injection E as E1 _; subst x; repeat (destruct Hx as [Hx|Hx]; [discriminate Hx|]); destruct Hx]|]).
    destruct Hop.
Qed.

(** * characters *)
Definition is_blank (x : ascii) : bool := in_set [" "%char; lf; cr; tab; vt] x.
Lemma delimiter_iff x : delimiter zk x <-> is_blank x = true \/ x = nul.
Proof. unfold delimiter, is_blank. rewrite in_set_In. reflexivity. Qed.
Lemma is_blank_iff x : is_blank x = true <-> blank x.
Proof. apply in_set_In. Qed.
Lemma op_char_not_delim x : In x op_chars -> ~ delimiter zk x.
Proof.
  intros Hx. cbn [op_chars In lit list_ascii_of_string] in Hx. rewrite delimiter_iff.
  repeat (destruct Hx as [<-|Hx]; [intros [H|H]; discriminate H|]). destruct Hx.
Qed.
Lemma op_char_not_quote x : In x op_chars -> ~ quotation zk x.
Proof.
  intros Hx [H _]. cbn [op_chars In lit list_ascii_of_string] in Hx. cbn [lex_quotes zk In] in H.
  repeat (destruct Hx as [<-|Hx]; [destruct H as [H|[H|H]]; [discriminate H|discriminate H|exact H]|]). destruct Hx.
Qed.
Lemma dquote_quotation : quotation zk dquote.
Proof. split; [left; reflexivity|]. rewrite delimiter_iff. intros [H|H]; discriminate H. Qed.

(** bare characters, by enumeration *)
Lemma bare_char_facts x : bare_char x = true ->
  is_blank x = false /\ x <> nul /\ x <> dquote /\ ~ In x (lit "{}[]#<>/").
Proof.
  intros H.
  pose proof (forall_bytes (fun x => negb (bare_char x) ||
    (negb (is_blank x) && negb (Ascii.eqb x nul) && negb (Ascii.eqb x dquote) && negb (in_set (lit "{}[]#<>/") x)))
    ltac:(vm_compute; reflexivity) x) as E. cbv beta in E. rewrite H in E. cbn [negb orb] in E.
  rewrite !andb_true_iff, !negb_true_iff in E. destruct E as [[[E1 E2] E3] E4].
  split; [exact E1|]. split; [apply eqb_false; exact E2|]. split; [apply eqb_false; exact E3|].
  apply in_set_not_In. exact E4.
Qed.

Lemma needs_quotes_bare s : Forall (fun x => char7 x = true) s -> needs_quotes s zml_special = negb (bare s).
Proof.
  intros H. unfold needs_quotes. destruct s as [|x t]; [reflexivity|]. rewrite orb_false_r.
  cbn [bare]. set (l := x :: t) in *. clearbody l. induction H as [|y l Hy Hl IH]; [reflexivity|].
  cbn [existsb forallb]. rewrite negb_andb, <- IH. f_equal.
  pose proof (forall_bytes (fun y => negb (char7 y) || Bool.eqb
    ((char_z y <? 33)%Z || Ascii.eqb y dquote || strchr zml_special y) (negb (bare_char y)))
    ltac:(vm_compute; reflexivity) y) as E. cbv beta in E. rewrite Hy in E. cbn [negb orb] in E.
  apply Bool.eqb_prop in E. exact E.
Qed.

(** what may follow a token *)
Definition follow_blank (f : str) : Prop := f = [] \/ exists x r, f = x :: r /\ is_blank x = true.
Definition follow (f : str) : Prop := follow_blank f \/ exists x r, f = x :: r /\ In x op_chars.

Lemma follow_not_slash f : follow f -> forall u, f <> "/"%char :: u.
Proof.
  intros [[->|[x [r [-> Hx]]]]|[x [r [-> Hx]]]] u E; try discriminate E; injection E as -> _.
  - discriminate Hx.
  - cbn [op_chars In lit list_ascii_of_string] in Hx. repeat (destruct Hx as [Hx|Hx]; [discriminate Hx|]). destruct Hx.
Qed.

Lemma bare_run s f : Forall (fun x => bare_char x = true) s -> ~ In "="%char s -> ~ In squote s ->
  last s nul <> ":"%char -> (forall u, f <> "/"%char :: u) -> plain_run zk s f.
Proof.
  induction s as [|x s IH]; intros Hb He Hq Hl Hf; [constructor|].
  pose proof (Forall_inv Hb) as Hx. apply Forall_inv_tail in Hb.
  apply bare_char_facts in Hx. destruct Hx as [Hx1 [Hx2 [Hx3 Hx4]]].
  constructor.
  - rewrite delimiter_iff. intros [H|H]; congruence.
  - intros [H _]. cbn [lex_quotes zk In] in H. destruct H as [H|[H|[]]]; [congruence|].
    apply Hq. left. congruence.
  - destruct (ascii_dec x ":"%char) as [->|Hc]; [|destruct (ascii_dec x "*"%char) as [->|Hs]].
    + apply no_op_colon. intros u E. destruct s as [|y s]; [cbn in Hl; congruence|].
      injection E as -> _. pose proof (Forall_inv Hb) as Hy. apply bare_char_facts in Hy.
      destruct Hy as [Hy _]. discriminate Hy.
    + apply no_op_star. intros u E. destruct s as [|y s]; [exact (Hf _ E)|].
      injection E as -> _. pose proof (Forall_inv Hb) as Hy. apply bare_char_facts in Hy.
      destruct Hy as [_ [_ [_ Hy]]]. apply Hy. cbn. tauto.
    + apply no_op_plain. intros Hin. cbn [lit list_ascii_of_string In] in Hin.
      destruct Hin as [<-|Hin]; [apply He; left; reflexivity|].
      destruct Hin as [<-|Hin]; [congruence|].
      apply Hx4. cbn [lit list_ascii_of_string In].
      repeat (destruct Hin as [Hin|Hin]; [first [subst x; congruence|tauto]|]). destruct Hin.
  - apply IH; [exact Hb|intros H; apply He; right; exact H|intros H; apply Hq; right; exact H| |exact Hf].
    destruct s as [|y s]; [cbn; discriminate|exact Hl].
Qed.

Lemma Forall_blank_delim b : Forall (fun x => is_blank x = true) b -> Forall (delimiter zk) b.
Proof. intros H. eapply Forall_impl; [|exact H]. intros x Hx. apply delimiter_iff. left. exact Hx. Qed.

Lemma starts_token_blank b x : Forall (fun x => is_blank x = true) b -> (forall y r, x = y :: r -> ~ delimiter zk y) ->
  starts_token zml_ops [" "%char; lf; cr; tab; vt] [dquote; squote] (b ++ x) x.
Proof. intros Hb Hx. exists b. split; [reflexivity|]. split; [apply Forall_blank_delim; exact Hb|exact Hx]. Qed.

Lemma token_end first f : follow f -> (first = true -> follow_blank f) -> token_in zk first f [] f.
Proof.
  intros [H|[x [r [-> Hx]]]] Hfirst.
  - apply (tok_word zk first [] f); [constructor|]. destruct H as [->|[x [r [-> Hx]]]]; [left; reflexivity|].
    right. exists x, r. split; [reflexivity|]. apply delimiter_iff. left. exact Hx.
  - destruct first.
    + destruct (Hfirst eq_refl) as [H|[y [u [E H]]]]; [discriminate|]. injection E as <- <-.
      exfalso. apply (op_char_not_delim x Hx). apply delimiter_iff. left. exact H.
    + apply (tok_word_operator zk false [] x r [x]); [constructor|apply op_char_not_delim; exact Hx|
        apply op_char_not_quote; exact Hx|apply op_single; exact Hx|left; reflexivity].
Qed.

(** * tokens *)
Lemma read_bare b s f : Forall (fun x => is_blank x = true) b -> bare s = true -> ~ In "="%char s -> ~ In squote s ->
  last s nul <> ":"%char -> follow f -> is_comment_token s = false ->
  get_zml_token (mk (b ++ s ++ f)) = Ok (s, mk f).
Proof.
  intros Hb Hs He Hq Hl Hf Hc. apply zml_token; [|exact Hc]. apply token_iff. exists (s ++ f).
  destruct s as [|x s]; [discriminate|]. cbn [bare] in Hs. rewrite forallb_forall in Hs. rewrite <- Forall_forall in Hs.
  split.
  - apply starts_token_blank; [exact Hb|]. intros y r [= <- _]. pose proof (Forall_inv Hs) as Hx.
    apply bare_char_facts in Hx. rewrite delimiter_iff. intros [H|H]; destruct Hx as [H1 [H2 _]]; congruence.
  - assert (Hrun : plain_run zk (x :: s) f).
    { apply bare_run; try assumption. apply follow_not_slash. exact Hf. }
    destruct Hf as [[->|[y [r [-> Hy]]]]|[y [r [-> Hy]]]].
    + apply tok_word; [exact Hrun|left; reflexivity].
    + apply tok_word; [exact Hrun|right]. exists y, r. split; [reflexivity|]. apply delimiter_iff. left. exact Hy.
    + eapply tok_word_operator; [exact Hrun|apply op_char_not_delim; exact Hy|apply op_char_not_quote; exact Hy|
        apply op_single; exact Hy|right; discriminate].
Qed.

Lemma read_op b x f : Forall (fun x => is_blank x = true) b -> In x op_chars ->
  get_zml_token (mk (b ++ x :: f)) = Ok ([x], mk f).
Proof.
  intros Hb Hx. apply zml_token.
  - apply token_iff. exists (x :: f). split.
    + apply starts_token_blank; [exact Hb|]. intros y r [= <- _]. apply op_char_not_delim. exact Hx.
    + apply (tok_operator zk x f [x] f); [apply op_char_not_delim; exact Hx|apply op_char_not_quote; exact Hx|
        apply op_single; exact Hx|reflexivity].
  - cbn [op_chars In lit list_ascii_of_string] in Hx.
    repeat (destruct Hx as [<-|Hx]; [reflexivity|]). destruct Hx.
Qed.

Lemma quote_char_section x t d r : char7 x = true -> quoted_section dquote t d r ->
  quoted_section dquote (quote_char x ++ t) (x :: d) r.
Proof.
  intros Hx H.
  assert (Hp : forall x, x <> dquote -> x <> bslash -> quoted_section dquote ([x] ++ t) (x :: d) r).
  { intros y H1 H2. apply qs_plain; assumption. }
  assert (He : forall y z, decode_char (bslash :: z :: t) = Ok (y, 2) -> quoted_section dquote ([bslash; z] ++ t) (y :: d) r).
  { intros y z E. eapply (qs_escape dquote (z :: t) y 1); [discriminate|exact E|exact H]. }
  assert (Ho : forall y a b c, decode_char (bslash :: a :: b :: c :: t) = Ok (y, 4) ->
    quoted_section dquote ([bslash; a; b; c] ++ t) (y :: d) r).
  { intros y a b c E. eapply (qs_escape dquote (a :: b :: c :: t) y 3); [discriminate|exact E|exact H]. }
  revert Hx. apply (ascii_cases (fun x => char7 x = true -> quoted_section dquote (quote_char x ++ t) (x :: d) r)).
  intros n Hn. do 256 (destruct n as [|n]; [intros Hx; first [discriminate Hx|
    match goal with |- context [quote_char ?c] =>
      let q := eval vm_compute in (quote_char c) in change (quote_char c) with q;
      let d := eval vm_compute in c in change c with d end;
    first [ apply Hp; discriminate | apply He; reflexivity
          | apply Ho; rewrite decode_octal by reflexivity; vm_compute; reflexivity ] ]|]).
  lia.
Qed.

Lemma quoted_body_section s f : forallb char7 s = true ->
  quoted_section dquote (flat_map quote_char s ++ dquote :: f) s f.
Proof.
  intros H. induction s as [|x s IH]; cbn [flat_map].
  - apply qs_close.
  - cbn [forallb] in H. apply andb_true_iff in H. destruct H as [Hx Hs]. rewrite <- app_assoc.
    apply quote_char_section; [exact Hx|]. apply IH. exact Hs.
Qed.

Lemma read_quoted b s f : Forall (fun x => is_blank x = true) b -> forallb char7 s = true -> follow f ->
  (s = [] -> follow_blank f) -> is_comment_token s = false ->
  get_zml_token (mk (b ++ quoted s ++ f)) = Ok (s, mk f).
Proof.
  intros Hb Hs Hf He Hc. apply zml_token; [|exact Hc]. apply token_iff. exists (quoted s ++ f).
  change (quoted s) with (dquote :: flat_map quote_char s ++ [dquote]). split.
  - apply starts_token_blank; [exact Hb|]. intros y r [= <- _]. apply (proj2 dquote_quotation).
  - cbn [app]. rewrite <- app_assoc. cbn [app].
    pose proof (tok_quoted zk true [] dquote (flat_map quote_char s ++ dquote :: f) s f [] f) as H.
    rewrite app_nil_r in H. cbn [app] in H. apply H.
    + constructor.
    + apply dquote_quotation.
    + apply quoted_body_section. exact Hs.
    + apply token_end; [exact Hf|]. intros E. apply He. destruct s; [reflexivity|discriminate].
Qed.

Lemma read_end b : Forall (fun x => is_blank x = true) b -> get_zml_token (mk b) = Ok ([], mk []).
Proof.
  intros Hb. apply zml_token; [|reflexivity]. apply token_iff. exists []. split.
  - rewrite <- (app_nil_r b). apply starts_token_blank; [exact Hb|discriminate].
  - apply token_in_nil.
Qed.

Lemma token_ok_iff s : token_ok s = true <-> forallb char7 s = true /\
  (bare s = true -> ~ In "="%char s /\ ~ In squote s /\ last s nul <> ":"%char) /\ is_comment_token s = false.
Proof.
  unfold token_ok. rewrite !andb_true_iff, orb_true_iff, !andb_true_iff, !negb_true_iff.
  rewrite !in_set_not_In, eqb_false. fold (is_comment_token s).
  destruct (bare s); intuition congruence.
Qed.

(** a string written by the writer is read as itself *)
Lemma read_written b s f : Forall (fun x => is_blank x = true) b -> token_ok s = true -> follow f ->
  (s = [] -> follow_blank f) -> get_zml_token (mk (b ++ try_quoted s zml_special ++ f)) = Ok (s, mk f).
Proof.
  intros Hb Hs Hf He. apply token_ok_iff in Hs. destruct Hs as [H1 [H2 H3]].
  unfold try_quoted. rewrite needs_quotes_bare by (apply Forall_forall; rewrite forallb_forall in H1; exact H1).
  destruct (bare s) eqn:E; cbn [negb].
  - destruct (H2 eq_refl) as [H4 [H5 H6]]. apply read_bare; assumption.
  - apply read_quoted; assumption.
Qed.
