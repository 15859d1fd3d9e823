(** Reading with an error code always returns; included files; whole files. *)
From Coq Require Import Ascii String List Arith NArith Bool Lia ZArith.
From Verif Require Import Base BaseProofs Str StrSpec StrModel StrBase StrProofs PnSpec PnModel PnProofs TokSpec TokModel TokProofs
  ZmlSpec ZmlModel ZmlReader ZmlLex ZmlRound ZmlWrite ZmlProofs IniSpec IniModel IniProofs XmlSpec XmlModel XmlProofs PathSpec PathModel PathProofs SerModel SerProofs ZmlSafe.
Import ListNotations.

(** * a text without macros or included files is read to its end *)
Definition simple (text : str) : Prop := last text nul <> bslash /\ ~ In "$"%char text /\ ~ In "<"%char text.
Lemma simple_suffix x y : suffix_of y x -> simple x -> simple y.
Proof.
  intros [p ->] [H1 [H2 H3]]. split; [apply (complete_suffix p); exact H1|].
  split; intros Hi; [apply H2|apply H3]; apply in_or_app; right; exact Hi.
Qed.

Section Total.
  Context (buffer folder : str) (load : str -> outcome (pn * option str)).

  Lemma token_loop_total f : forall s, csize s < f -> simple (cs_rest s) ->
    exists t s' m, token_loop_ec buffer f s = Ok (t, s', m) /\ simple (cs_rest s') /\ ~ In "$"%char t /\ ~ In "<"%char t.
  Proof.
    induction f as [|f IH]; intros s Hf Hs; [lia|]. cbn [token_loop_ec]. rewrite zml_cfg_eq.
    destruct (get_token_total zml_ops [" "%char; lf; cr; tab; vt] [dquote; squote] zk_plain s (proj1 Hs)) as [t [s1 [E Hsuf]]].
    rewrite E. cbn [obind]. rewrite <- zml_cfg_eq in E.
    assert (Hd : ~ In "$"%char t) by (intros Hi; apply (proj1 (proj2 Hs)); eapply get_token_kept; [exact dollar_kept|exact E|exact Hi]).
    assert (Hl : ~ In "<"%char t) by (intros Hi; apply (proj2 (proj2 Hs)); eapply get_token_kept; [exact less_kept|exact E|exact Hi]).
    pose proof (simple_suffix _ _ Hsuf Hs) as Hs1. apply token_progress in E.
    destruct (str_eqb t (lit "#") || str_eqb t (lit "//")) eqn:E1.
    { specialize (proj2 E (comment_nonempty _ (or_introl E1))) as Hlt. pose proof (line_size s1). apply IH; [lia|].
      destruct (lex_step_ok zml_ops [" "%char; lf; cr; tab; vt] [dquote; squote] zk_plain s1 LLine I (proj1 Hs1)) as [s2 [E2 H2]].
      cbn [lex_step] in E2. injection E2 as <-. exact (simple_suffix _ _ H2 Hs1). }
    destruct (str_eqb t (lit "/*")) eqn:E2; [|exists t, s1, None; auto].
    specialize (proj2 E (comment_nonempty _ (or_intror E2))) as Hlt.
    destruct (lex_step_ok zml_ops [" "%char; lf; cr; tab; vt] [dquote; squote] zk_plain s1 (LSeekPast (lit "*/"))) as [s2 [E3 H2]].
    { cbn. intuition discriminate. } { exact (proj1 Hs1). }
    cbn [lex_step] in E3. destruct (seek_past (lit "*/") s1) as [[b s3]| |] eqn:E4; cbn [omap snd] in E3; try discriminate. injection E3 as ->.
    cbn [obind fst snd]. apply seek_past_size in E4. destruct b; [apply IH; [lia|exact (simple_suffix _ _ H2 Hs1)]|].
    do 3 eexists. split; [reflexivity|]. split; [exact (simple_suffix _ _ H2 Hs1)|split; intros []].
  Qed.
  Definition fine (s : est) : Prop := simple (cs_rest (z_src (e_z s))).
  Lemma tok_total s : fine s -> exists t s', tok_ec buffer s = Ok (t, s') /\ fine s' /\ ~ In "$"%char t /\ ~ In "<"%char t.
  Proof.
    intros Hs. unfold tok_ec, get_zml_token_ec.
    destruct (token_loop_total (S (length (cs_rest (z_src (e_z s))))) (z_src (e_z s)) (Nat.lt_succ_diag_r _) Hs) as [t [c [m [E [H1 H2]]]]].
    rewrite E. cbn [obind]. do 2 eexists. split; [reflexivity|]. unfold fine. rewrite note_z. cbn [with_z e_z z_src]. split; assumption.
  Qed.
  Lemma item_value_total np s : fine s -> in_macros np = false ->
    exists o s', item_value_ec buffer np s = Ok (o, s') /\ fine s' /\ (forall np' u, o = Some (np', u) -> in_macros np' = false /\ ~ In "$"%char u).
  Proof.
    intros Hs Hn. unfold item_value_ec. destruct (tok_total s Hs) as [t [s1 [E [H1 [H2 H3]]]]]. rewrite E. cbn [obind].
    destruct (_ || _).
    - destruct (tok_total s1 H1) as [u [s2 [E2 [H4 [H5 H6]]]]]. rewrite E2. cbn [obind]. do 2 eexists. split; [reflexivity|]. split; [exact H4|].
      intros np' u' [= <- <-]. auto.
    - destruct (_ || _); do 2 eexists; (split; [reflexivity|]); (split; [exact H1|]); intros np' u' G; [injection G as <- <-; auto|discriminate].
  Qed.
  Lemma fine_src z s : fine s -> z_src z = z_src (e_z s) -> fine (with_z z s).
  Proof. unfold fine. cbn [with_z e_z]. intros H E. rewrite E. exact H. Qed.
  Lemma item_head_total close parent t s : fine s -> in_macros parent = false -> t <> [] -> ~ In "$"%char t ->
    exists o s', item_head_ec buffer close parent t s = Ok (o, s') /\ fine s' /\ (forall np' u, o = Some (np', u) -> in_macros np' = false /\ ~ In "$"%char u).
  Proof.
    intros Hs Hp Ht Hd. unfold item_head_ec. destruct (str_eqb close (lit "]")).
    { unfold new_child. do 2 eexists. split; [reflexivity|]. split; [apply fine_src; [exact Hs|apply modify_src]|]. intros np' u [= <- <-]. auto. }
    destruct (_ || _).
    { destruct (length _); do 2 eexists; (split; [reflexivity|]); (split; [exact Hs|]); intros np' u G; [discriminate|injection G as <- <-]; auto. }
    destruct t as [|x t]; [congruence|]. rewrite (not_dollar _ _ Hd). destruct (negb (isgraph x)).
    { do 2 eexists. split; [reflexivity|]. split; [exact Hs|]. discriminate. }
    unfold new_child. apply item_value_total; [apply fine_src; [exact Hs|apply modify_src]|exact Hp].
  Qed.
  Lemma assign_value_total np u s : fine s -> ~ In "$"%char u -> exists go s', assign_value_ec buffer np u s = Ok (go, s') /\ fine s'.
  Proof.
    intros Hs Hu. unfold assign_value_ec.
    assert (H : assign_value np u (e_z s) <> UB).
    { unfold assign_value. destruct (str_begins_with_char u "@"%char) eqn:Ea.
      - destruct u as [|x u]; [discriminate|]. replace (substr (x :: u) 1 None) with (@Ok str u) by (symmetry; exact (substr_end [x] u)). cbn [obind].
        destruct (query_parts_exist "."%char u) as [ks Hq]. destruct (try_get_query_spec (z_root (e_z s)) u "."%char ks Hq) as [r [E _]]. rewrite E. cbn [obind].
        destruct r; discriminate.
      - destruct (_ && _); [destruct (last_index _ _ _ _); discriminate|].
        cbn [inline_loop]. rewrite (find_none_char "$"%char u (lit "${") Hu (or_introl eq_refl)). discriminate. }
    destruct (assign_value np u (e_z s)) as [z| |] eqn:E; [| |congruence]; do 2 eexists; (split; [reflexivity|]).
    - apply fine_src; [exact Hs|]. eapply assign_value_src. exact E.
    - exact Hs.
  Qed.

  Lemma layer_total f : forall close parent mc s, esize s < f -> fine s -> in_macros parent = false ->
    exists s', read_ec buffer folder load f close parent mc s = Some (Ok s') /\ fine s' /\ esize s' <= esize s.
  Proof.
    induction f as [|f IH]; intros close parent mc s Hf Hs Hp; [lia|]. cbn [read_ec].
    destruct (tok_total s Hs) as [t [s1 [E [H1 [H2 H3]]]]]. rewrite E. cbn [zbind]. apply tok_ec_step in E. destruct E as [A [B _]].
    destruct (str_eqb t close); [eexists; split; [reflexivity|]; split; [exact H1|exact A]|].
    destruct t as [|x t]; [eexists; split; [reflexivity|]; split; [exact H1|exact A]|]. specialize (B ltac:(discriminate)).
    destruct (str_eqb (x :: t) (lit "<<")) eqn:E1.
    { exfalso. apply str_eqb_eq in E1. apply H3. rewrite E1. left. reflexivity. }
    destruct (item_head_total close parent (x :: t) s1 H1 Hp ltac:(discriminate) H2) as [o [s2 [E2 [H4 H5]]]].
    rewrite E2. cbn [zbind]. apply item_head_step in E2. destruct o as [[np u]|]; [|eexists; split; [reflexivity|]; split; [exact H4|lia]].
    destruct (H5 _ _ eq_refl) as [H6 H7].
    assert (Hnest : forall c, exists s', zbind' (read_ec buffer folder load f c np (pn_size (z_macros (e_z s2))) s2) (read_ec buffer folder load f close parent mc) = Some (Ok s') /\ fine s' /\ esize s' <= esize s).
    { intros c. destruct (IH c np (pn_size (z_macros (e_z s2))) s2) as [s3 [E3 [F3 S3]]]; [lia|exact H4|exact H6|]. rewrite E3. cbn [zbind' zbind].
      destruct (IH close parent mc s3) as [s4 [E4 [F4 S4]]]; [lia|exact F3|exact Hp|]. exists s4. split; [exact E4|]. split; [exact F4|lia]. }
    destruct (str_eqb u (lit "{")); [apply Hnest|]. destruct (str_eqb u (lit "[")); [apply Hnest|].
    destruct (assign_value_total np u s2 H4 H7) as [go [s3 [E3 F3]]]. rewrite E3. cbn [zbind fst snd]. apply assign_value_step in E3.
    destruct go; [|eexists; split; [reflexivity|]; split; [exact F3|lia]].
    destruct (IH close parent mc s3) as [s4 [E4 [F4 S4]]]; [lia|exact F3|exact Hp|]. exists s4. split; [exact E4|]. split; [exact F4|lia].
    Unshelve. all: exact load.
  Qed.
End Total.

Lemma parse_total folder load text : simple text -> exists r, parse_zml_ec folder load text = Ok r.
Proof.
  intros H. unfold parse_zml_ec.
  destruct (layer_total text folder load (S (length text)) [] (Loc false []) 0 (EST (ZSt (cs_of_string text) pn_empty pn_empty) None [])) as [s [E _]].
  { unfold esize, csize. cbn. lia. } { exact H. } { reflexivity. }
  rewrite E. eexists. reflexivity.
Qed.

(** * included files: when the nesting fits the stack, its depth does not matter *)
Section Deeper.
  Context (include1 include2 : str -> outcome pn).
  Hypothesis H : forall n, include1 n = UB \/ include2 n = include1 n.
  Lemma layer_deeper f : forall close parent mc s,
    read_zml_layer get_zml_token include1 f close parent mc s = Some UB \/
    read_zml_layer get_zml_token include2 f close parent mc s = read_zml_layer get_zml_token include1 f close parent mc s.
  Proof.
    induction f as [|f IH]; intros close parent mc s; [right; reflexivity|]. cbn [read_zml_layer].
    destruct (tok get_zml_token s) as [[t s1]| |]; cbn [zbind]; [|right; reflexivity|right; reflexivity].
    destruct (str_eqb t close); [right; reflexivity|]. destruct t as [|x t]; [right; reflexivity|].
    destruct (str_eqb (x :: t) (lit "<<")).
    - destruct (tok get_zml_token s1) as [[name s2]| |]; cbn [zbind]; [|right; reflexivity|right; reflexivity].
      destruct (tok get_zml_token s2) as [[e s3]| |]; cbn [zbind]; [|right; reflexivity|right; reflexivity].
      destruct (str_eqb e (lit ">>")); [|right; reflexivity].
      destruct (H name) as [-> | ->]; [left; reflexivity|]. destruct (include1 name); cbn [zbind]; [apply IH|right; reflexivity|right; reflexivity].
    - destruct (item_head get_zml_token close parent (x :: t) s1) as [[[np u] s2]| |]; cbn [zbind]; [|right; reflexivity|right; reflexivity].
      assert (Hn : forall c, zbind' (read_zml_layer get_zml_token include1 f c np (pn_size (z_macros s2)) s2) (read_zml_layer get_zml_token include1 f close parent mc) = Some UB \/
        zbind' (read_zml_layer get_zml_token include2 f c np (pn_size (z_macros s2)) s2) (read_zml_layer get_zml_token include2 f close parent mc) =
        zbind' (read_zml_layer get_zml_token include1 f c np (pn_size (z_macros s2)) s2) (read_zml_layer get_zml_token include1 f close parent mc)).
      { intros c. destruct (IH c np (pn_size (z_macros s2)) s2) as [-> | ->]; [left; reflexivity|].
        destruct (read_zml_layer get_zml_token include1 f c np (pn_size (z_macros s2)) s2) as [[s3| |]|]; cbn [zbind' zbind]; [apply IH| | |]; right; reflexivity. }
      destruct (str_eqb u (lit "{")); [apply Hn|]. destruct (str_eqb u (lit "[")); [apply Hn|].
      destruct (assign_value np u s2); cbn [zbind]; [apply IH|right; reflexivity|right; reflexivity].
  Qed.
  Lemma parse_deeper text : parse_zml include1 text = UB \/ parse_zml include2 text = parse_zml include1 text.
  Proof.
    unfold parse_zml, parse_zml_stream.
    destruct (layer_deeper (S (length (cs_rest (cs_of_string text)))) [] (Loc false []) 0 (ZSt (cs_of_string text) pn_empty pn_empty)) as [-> | ->];
      [left|right]; reflexivity.
  Qed.
End Deeper.
Lemma load_deeper d k : forall name, load_zml d k name = UB \/ forall j, k <= j -> load_zml d j name = load_zml d k name.
Proof.
  induction k as [|k IH]; intros name; [left; reflexivity|]. cbn [load_zml].
  destruct (load_string d name None) as [[text ec]| |] eqn:E; cbn [obind fst]; [| |left; reflexivity].
  2:{ right. intros [|j] Hj; [lia|]. cbn [load_zml]. rewrite E. reflexivity. }
  destruct (parent_path name) as [folder| |] eqn:Ef; cbn [obind]; [| |left; reflexivity].
  2:{ right. intros [|j] Hj; [lia|]. cbn [load_zml]. rewrite E. cbn [obind]. rewrite Ef. reflexivity. }
  set (inc := fun k n => do p <- include_path folder n; load_zml d k p).
  change (parse_zml (inc k) text = UB \/ forall j, S k <= j -> load_zml d j name = parse_zml (inc k) text).
  assert (Hi : forall j n, k <= j -> inc k n = UB \/ inc j n = inc k n).
  { intros j n Hj. unfold inc. destruct (include_path folder n) as [p| |]; cbn [obind]; [|right; reflexivity|right; reflexivity].
    destruct (IH p) as [-> |Hp]; [left; reflexivity|]. right. apply Hp. exact Hj. }
  destruct (parse_zml (inc k) text) as [t| |] eqn:Ep; [| |left; reflexivity].
  1,2: right; intros [|j] Hj; [lia|]; cbn [load_zml]; rewrite E; cbn [obind fst]; rewrite Ef; cbn [obind]; match goal with |- _ = ?r => change (parse_zml (inc j) text = r) end;
    destruct (parse_deeper (inc k) (inc j) (fun n => Hi j n ltac:(lia)) text) as [Hu|Hu]; [congruence|]; rewrite Hu, Ep; reflexivity.
Qed.

(** a document that consists of an included file *)
Definition includes (name : str) : str := lit "<< " ++ try_quoted name zml_special ++ lit " >>".
Lemma read_less r : get_zml_token (mk (lit "<< " ++ r)) = Ok (lit "<<", mk (" "%char :: r)).
Proof. reflexivity. Qed.
Lemma read_greater : get_zml_token (mk (lit " >>")) = Ok (lit ">>", mk []).
Proof. reflexivity. Qed.
Lemma parse_includes include name : token_ok name = true ->
  parse_zml include (includes name) = omap (fun t => PN [] (pn_children t) false) (include name).
Proof.
  intros Hn. unfold parse_zml, cs_of_string.
  assert (Hy : yields (includes name) [lit "<<"; name; lit ">>"]).
  { unfold includes. cbn [yields]. eexists. split; [apply read_less|]. eexists. split.
    - apply (read_written [" "%char] name (lit " >>")); [repeat constructor|exact Hn|left; right; do 2 eexists; split; reflexivity|].
      intros _. right. do 2 eexists. split; reflexivity.
    - eexists. split; [apply read_greater|]. constructor. }
  etransitivity; [apply (parse_agree next_list include (fun s l => exists text, at_text s text /\ yields text l) _ [lit "<<"; name; lit ">>"] 2
    (omap (fun t => ZSt [] (PN [] (pn_children t) false) pn_empty) (include name)))|].
  - intros x l [u [Hx Hu]]. rewrite (at_token _ _ Hx). destruct l as [|t l]; cbn [yields] in Hu.
    + rewrite (read_end _ Hu). cbn [next_list orel fst snd]. split; [reflexivity|]. exists []. split; [left; reflexivity|constructor].
    + destruct Hu as [rest [-> Hu]]. cbn [next_list orel fst snd]. split; [reflexivity|]. exists rest. split; [left; reflexivity|exact Hu].
  - exists (includes name). split; [right; reflexivity|exact Hy].
  - cbn. destruct (include name) as [t| |]; reflexivity.
  - destruct (include name) as [t| |]; reflexivity.
Qed.
