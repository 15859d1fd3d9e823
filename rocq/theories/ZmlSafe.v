(** Reading ZML texts without macros has no undefined behaviour. *)
From Coq Require Import Ascii String List Arith NArith Bool Lia.
From Verif Require Import Base BaseProofs Str StrSpec StrModel StrBase StrProofs PnSpec PnModel PnProofs PnProofs2
  TokSpec TokModel TokProofs ZmlSpec ZmlModel ZmlReader ZmlLex ZmlRound ZmlWrite ZmlProofs.
Import ListNotations.

(** * characters that no escape sequence makes *)
Definition kept (c : ascii) : Prop := 33 <= nat_of_ascii c /\ c <> bslash /\ c <> dquote /\ c <> "?"%char.
Lemma decode_not_kept t x n c : kept c -> decode_char (bslash :: t) = Ok (x, S n) -> x <> c.
Proof.
  intros [K1 [K2 [K3 K4]]]. cbn [decode_char]. change (Ascii.eqb bslash bslash) with true. cbn [negb].
  destruct t as [|e t]; [discriminate|].
  destruct (Ascii.eqb e nul); [intros [= <- _] E; congruence|].
  destruct (Ascii.eqb e bslash); [intros [= <- _] E; congruence|].
  destruct (Ascii.eqb e dquote); [intros [= <- _] E; congruence|].
  destruct (Ascii.eqb e "r"%char); [intros [= <- _] E; rewrite <- E in K1; vm_compute in K1; lia|].
  destruct (Ascii.eqb e "n"%char); [intros [= <- _] E; rewrite <- E in K1; vm_compute in K1; lia|].
  destruct (Ascii.eqb e "t"%char); [intros [= <- _] E; rewrite <- E in K1; vm_compute in K1; lia|].
  destruct (read_octal _ _ _ _) as [v r]. destruct ((0 <? r) && (0 <? v)%N && (v <? 32)%N) eqn:E.
  - intros [= <- _] E2. rewrite <- E2 in K1. apply andb_true_iff in E. destruct E as [_ E]. apply N.ltb_lt in E.
    unfold nat_of_ascii in K1. rewrite N_ascii_embedding in K1 by lia. lia.
  - intros [= <- _] E2. congruence.
Qed.
Lemma section_kept c q text d r : kept c -> quoted_section q text d r -> In c d -> In c text.
Proof.
  intros K H. induction H as [t|x t d r H1 H2 H IH|t x n d r Hq Hd H IH|]; intros Hi.
  - destruct Hi.
  - destruct Hi as [->|Hi]; [left; reflexivity|right; auto].
  - destruct Hi as [->|Hi]; [exfalso; exact (decode_not_kept _ _ _ _ K Hd eq_refl)|]. right. apply IH in Hi.
    rewrite <- (firstn_skipn n t). apply in_or_app. right. exact Hi.
  - destruct Hi as [<-|[]]. destruct K as [K _]. vm_compute in K. lia.
Qed.
Lemma token_kept c k first x t y : kept c -> token_in k first x t y -> In c t -> In c x.
Proof.
  intros K H. induction H as [first run y H Hy|first run z r op H Hd Hq Ho Hf|z r op y Hd Hq Ho He|first run q text d rest t y H Hq Hs Ht IH]; intros Hi.
  - apply in_or_app. left. exact Hi.
  - apply in_or_app. left. exact Hi.
  - rewrite He. apply in_or_app. left. exact Hi.
  - apply in_or_app. right. right. apply in_app_or in Hi. destruct Hi as [Hi|Hi].
    + eapply section_kept; eassumption.
    + apply IH in Hi. apply quoted_section_suffix in Hs. destruct Hs as [p ->]. apply in_or_app. right. exact Hi.
Qed.
Lemma get_token_kept c s t s' : kept c -> get_token zml_cfg s = Ok (t, s') -> In c t -> In c (cs_rest s).
Proof.
  intros K. destruct s as [text fa eo]. cbn [cs_rest]. destruct (fa || eo) eqn:Eg.
  - unfold get_token, skip_delimiters. cbn [cs_rest cs_fail cs_eof]. replace (good _) with false.
    + intros [= <- <-] [].
    + symmetry. unfold good. apply negb_false_iff. destruct (skip_delims zml_cfg text); cbn [test_eof cs_rest fst cs_fail cs_eof];
        [apply orb_true_r|exact Eg].
  - apply orb_false_iff in Eg. destruct Eg as [-> ->]. rewrite zml_cfg_eq.
    rewrite (get_token_iff _ _ _ zk_plain). intros [x [[b [-> [_ Hx]]] [Ht _]]] Hi. apply in_or_app. right. eapply token_kept; eassumption.
Qed.

Lemma dollar_kept : kept "$"%char.
Proof. split; [cbn; lia|]. repeat split; discriminate. Qed.
Lemma less_kept : kept "<"%char.
Proof. split; [cbn; lia|]. repeat split; discriminate. Qed.

Lemma not_dollar x t : ~ In "$"%char (x :: t) -> Ascii.eqb x "$"%char = false.
Proof. intros H. apply eqb_false. intros ->. apply H. left. reflexivity. Qed.
Lemma find_none_char c rest pat : ~ In c rest -> In c pat -> Str.find rest pat 0 = None.
Proof.
  intros H Hp. destruct (Str.find rest pat 0) as [i|] eqn:E; [|reflexivity]. apply find_some in E. destruct E as [_ [[a [b [E _]]] _]].
  exfalso. apply H. rewrite E. apply in_or_app. right. apply in_or_app. left. exact Hp.
Qed.

(** * texts without macros: no undefined behaviour *)
Definition macro_free (text : str) : Prop := last text nul <> bslash /\ ~ In "$"%char text.
Lemma macro_free_suffix x y : suffix_of y x -> macro_free x -> macro_free y.
Proof.
  intros [p ->] [H1 H2]. split; [apply (complete_suffix p); exact H1|].
  intros Hi; apply H2; apply in_or_app; right; exact Hi.
Qed.
Lemma token_loop_defined f : forall s, csize s < f -> macro_free (cs_rest s) ->
  zml_token_loop f s = Throw \/ exists t s', zml_token_loop f s = Ok (t, s') /\ macro_free (cs_rest s') /\ ~ In "$"%char t.
Proof.
  induction f as [|f IH]; intros s Hf Hs; [lia|]. cbn [zml_token_loop]. rewrite zml_cfg_eq.
  destruct (get_token_total zml_ops [" "%char; lf; cr; tab; vt] [dquote; squote] zk_plain s (proj1 Hs)) as [t [s1 [E Hsuf]]].
  rewrite E. cbn [obind]. rewrite <- zml_cfg_eq in E.
  assert (Hd : ~ In "$"%char t) by (intros Hi; apply (proj2 Hs); eapply get_token_kept; [exact dollar_kept|exact E|exact Hi]).
  pose proof (macro_free_suffix _ _ Hsuf Hs) as Hs1. apply token_progress in E.
  destruct (str_eqb t (lit "#") || str_eqb t (lit "//")) eqn:E1.
  { specialize (proj2 E (comment_nonempty _ (or_introl E1))) as Hlt. pose proof (line_size s1). apply IH; [lia|].
    destruct (lex_step_ok zml_ops [" "%char; lf; cr; tab; vt] [dquote; squote] zk_plain s1 LLine I (proj1 Hs1)) as [s2 [E2 H2]].
    cbn [lex_step] in E2. injection E2 as <-. exact (macro_free_suffix _ _ H2 Hs1). }
  destruct (str_eqb t (lit "/*")) eqn:E2; [|right; exists t, s1; auto].
  specialize (proj2 E (comment_nonempty _ (or_intror E2))) as Hlt.
  destruct (lex_step_ok zml_ops [" "%char; lf; cr; tab; vt] [dquote; squote] zk_plain s1 (LSeekPast (lit "*/"))) as [s2 [E3 H2]].
  { cbn. intuition discriminate. } { exact (proj1 Hs1). }
  cbn [lex_step] in E3. destruct (seek_past (lit "*/") s1) as [[b s3]| |] eqn:E4; cbn [omap snd] in E3; try discriminate. injection E3 as ->.
  cbn [obind fst snd]. apply seek_past_size in E4. destruct b; [apply IH; [lia|exact (macro_free_suffix _ _ H2 Hs1)]|].
  left. reflexivity.
Qed.
Section Defined.
  Context (include : str -> outcome pn).
  Hypothesis Hinc : forall name, include name <> UB.
  Definition sound (s : zst cs) : Prop := macro_free (cs_rest (z_src s)).
  Lemma tok_defined s : sound s -> tok get_zml_token s = Throw \/
    exists t s', tok get_zml_token s = Ok (t, s') /\ sound s' /\ ~ In "$"%char t /\ csize (z_src s') <= csize (z_src s) /\ (t <> [] -> csize (z_src s') < csize (z_src s)).
  Proof.
    intros Hs. unfold tok. destruct (token_loop_defined (S (length (cs_rest (z_src s)))) (z_src s) (Nat.lt_succ_diag_r _) Hs) as [E|[t [c [E [H1 H2]]]]];
      fold (get_zml_token (z_src s)) in E; rewrite E; [left; reflexivity|right]. cbn [obind fst snd]. apply zml_progress in E.
    do 2 eexists. split; [reflexivity|]. repeat split; try tauto; exact (proj1 H1) || exact (proj2 H1).
  Qed.
  Lemma sound_modify l f s : sound s -> sound (modify l f s).
  Proof. unfold sound. rewrite modify_src. auto. Qed.
  Lemma item_head_defined close parent t s : sound s -> in_macros parent = false -> t <> [] -> ~ In "$"%char t ->
    item_head get_zml_token close parent t s = Throw \/
    exists np u s', item_head get_zml_token close parent t s = Ok (np, u, s') /\ sound s' /\ in_macros np = false /\ ~ In "$"%char u /\ csize (z_src s') <= csize (z_src s).
  Proof.
    intros Hs Hp Ht Hd. unfold item_head. destruct (str_eqb close (lit "]")).
    { unfold new_child. right. do 3 eexists. split; [reflexivity|]. rewrite modify_src. split; [apply sound_modify; exact Hs|]. repeat split; auto. }
    destruct (_ || _).
    { destruct (length _); [left; reflexivity|right]. do 3 eexists. split; [reflexivity|]. auto. }
    destruct t as [|x t]; [congruence|]. rewrite (not_dollar _ _ Hd). destruct (negb (isgraph x)); [left; reflexivity|].
    unfold new_child. cbn [obind].
    match goal with |- context [tok get_zml_token ?z] => set (z1 := z) end.
    assert (H1 : sound z1) by (apply sound_modify; exact Hs). assert (C1 : csize (z_src z1) = csize (z_src s)) by (unfold z1; rewrite modify_src; reflexivity).
    destruct (tok_defined z1 H1) as [->|[t2 [s2 [-> [H2 [H3 [H4 _]]]]]]]; [left; reflexivity|]. cbn [obind].
    destruct (_ || _).
    - destruct (tok_defined s2 H2) as [->|[t3 [s3 [-> [H5 [H6 [H7 _]]]]]]]; [left; reflexivity|right]. cbn [obind].
      do 3 eexists. split; [reflexivity|]. repeat split; auto; try exact (proj1 H5) || exact (proj2 H5); lia.
    - destruct (_ || _); [right|left; reflexivity]. do 3 eexists. split; [reflexivity|]. repeat split; auto; try exact (proj1 H2) || exact (proj2 H2); lia.
  Qed.
  Lemma assign_value_defined np u (s : zst cs) : ~ In "$"%char u -> assign_value np u s <> UB.
  Proof.
    intros Hu. unfold assign_value. destruct (str_begins_with_char u "@"%char) eqn:Ea.
    - destruct u as [|x u]; [discriminate|]. replace (substr (x :: u) 1 None) with (@Ok str u) by (symmetry; exact (substr_end [x] u)). cbn [obind].
      destruct (query_parts_exist "."%char u) as [ks Hq]. destruct (try_get_query_spec (z_root s) u "."%char ks Hq) as [r [E _]]. rewrite E. cbn [obind].
      destruct r; discriminate.
    - destruct (_ && _); [destruct (last_index _ _ _ _); discriminate|].
      cbn [inline_loop]. rewrite (find_none_char "$"%char u (lit "${") Hu (or_introl eq_refl)). discriminate.
  Qed.
  Lemma layer_defined f : forall close parent mc s, csize (z_src s) < f -> sound s -> in_macros parent = false ->
    read_zml_layer get_zml_token include f close parent mc s = Some Throw \/
    exists s', read_zml_layer get_zml_token include f close parent mc s = Some (Ok s') /\ sound s' /\ csize (z_src s') <= csize (z_src s).
  Proof.
    induction f as [|f IH]; intros close parent mc s Hf Hs Hp; [lia|]. cbn [read_zml_layer].
    destruct (tok_defined s Hs) as [->|[t [s1 [-> [H1 [H2 [A B]]]]]]]; [left; reflexivity|]. cbn [zbind].
    destruct (str_eqb t close); [right; eexists; split; [reflexivity|]; split; [exact H1|exact A]|].
    destruct t as [|x t]; [left; reflexivity|]. specialize (B ltac:(discriminate)).
    destruct (str_eqb (x :: t) (lit "<<")) eqn:E1.
    { destruct (tok_defined s1 H1) as [->|[t2 [s2 [-> [H3 [H4 [A2 _]]]]]]]; [left; reflexivity|]. cbn [zbind].
      destruct (tok_defined s2 H3) as [->|[t3 [s3 [-> [H5 [H6 [A3 _]]]]]]]; [left; reflexivity|]. cbn [zbind].
      destruct (str_eqb t3 (lit ">>")); [|left; reflexivity].
      destruct (include t2) as [inc| |] eqn:E; [|left; reflexivity|destruct (Hinc _ E)]. cbn [zbind].
      match goal with |- context [read_zml_layer _ _ f close parent mc ?z] => destruct (IH close parent mc z) as [->|[s4 [-> [F4 S4]]]] end;
        [rewrite modify_src; lia|apply sound_modify; exact H5|exact Hp|left; reflexivity|].
      right. exists s4. rewrite modify_src in S4. split; [reflexivity|]. split; [exact F4|lia]. }
    destruct (item_head_defined close parent (x :: t) s1 H1 Hp ltac:(discriminate) H2) as [->|[np [u [s2 [-> [H4 [H6 [H7 S2]]]]]]]]; [left; reflexivity|].
    cbn [zbind].
    assert (Hnest : forall c, zbind' (read_zml_layer get_zml_token include f c np (pn_size (z_macros s2)) s2) (read_zml_layer get_zml_token include f close parent mc) = Some Throw \/
      exists s', zbind' (read_zml_layer get_zml_token include f c np (pn_size (z_macros s2)) s2) (read_zml_layer get_zml_token include f close parent mc) = Some (Ok s') /\ sound s' /\ csize (z_src s') <= csize (z_src s)).
    { intros c. destruct (IH c np (pn_size (z_macros s2)) s2) as [->|[s3 [-> [F3 S3]]]]; [lia|exact H4|exact H6|left; reflexivity|]. cbn [zbind' zbind].
      destruct (IH close parent mc s3) as [->|[s4 [-> [F4 S4]]]]; [lia|exact F3|exact Hp|left; reflexivity|]. right. exists s4. split; [reflexivity|]. split; [exact F4|lia]. }
    destruct (str_eqb u (lit "{")); [apply Hnest|]. destruct (str_eqb u (lit "[")); [apply Hnest|].
    pose proof (assign_value_defined np u s2 H7) as E3. destruct (assign_value np u s2) as [s3| |] eqn:E; [|left; reflexivity|congruence]. cbn [zbind].
    apply assign_value_src in E.
    destruct (IH close parent mc s3) as [->|[s4 [-> [F4 S4]]]]; [rewrite E; lia|unfold sound; rewrite E; exact H4|exact Hp|left; reflexivity|].
    right. exists s4. rewrite E in S4. split; [reflexivity|]. split; [exact F4|lia].
  Qed.
  Lemma parse_defined text : macro_free text -> parse_zml include text <> UB.
  Proof.
    intros H. unfold parse_zml, parse_zml_stream.
    match goal with |- context [read_zml_layer _ _ ?f ?c ?p ?m ?z] => destruct (layer_defined f c p m z) as [->|[s [-> _]]] end; try discriminate.
    - unfold csize. cbn. lia.
    - exact H.
    - reflexivity.
  Qed.
End Defined.
