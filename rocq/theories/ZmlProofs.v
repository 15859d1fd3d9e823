(** Round trip and layout. *)
From Coq Require Import Ascii String List Arith NArith Bool Lia.
From Verif Require Import Base BaseProofs Str StrSpec StrModel StrBase StrProofs PnSpec PnModel PnProofs PnProofs2
  TokSpec TokModel TokProofs ZmlSpec ZmlModel ZmlReader ZmlLex ZmlRound ZmlWrite.
Import ListNotations.

(** * progress *)
Definition csize (s : cs) : nat := length (cs_rest s).

Lemma token_progress s t s' : get_token zml_cfg s = Ok (t, s') -> csize s' <= csize s /\ (t <> [] -> csize s' < csize s).
Proof.
  destruct s as [text fa eo]. unfold csize. cbn [cs_rest]. destruct (fa || eo) eqn:Eg.
  - unfold get_token, skip_delimiters. cbn [cs_rest cs_fail cs_eof].
    assert (Hl : length (skip_delims zml_cfg text) <= length text).
    { destruct (skip_delims_spec zml_ops [" "%char; lf; cr; tab; vt] [dquote; squote] zk_plain text) as [b [E _]].
      rewrite <- zml_cfg_eq in E. rewrite E at 2. rewrite app_length. lia. }
    replace (good _) with false.
    + intros [= <- <-]. split; [|congruence]. destruct (skip_delims zml_cfg text); cbn [test_eof cs_rest fst length] in *; lia.
    + symmetry. unfold good. apply negb_false_iff. destruct (skip_delims zml_cfg text); cbn [test_eof cs_rest fst cs_fail cs_eof];
        [apply orb_true_r|exact Eg].
  - apply orb_false_iff in Eg. destruct Eg as [-> ->]. rewrite zml_cfg_eq.
    rewrite (get_token_iff _ _ _ zk_plain). intros [x [[b [-> [_ Hx]]] [Ht _]]].
    rewrite app_length. destruct x as [|x0 x].
    + destruct (token_in_nil_inv _ _ _ _ _ _ _ Ht eq_refl) as [-> E2]. rewrite E2. cbn [length]. split; [lia|congruence].
    + apply (token_in_progress _ _ _ zk_plain) in Ht; [|discriminate|exact Hx]. split; [lia|intros _; lia].
Qed.

Lemma line_size s : csize (snd (get_line s)) <= csize s.
Proof.
  destruct (get_line s) as [l s'] eqn:E. apply get_line_spec in E. destruct E as [E _]. unfold csize. cbn [snd].
  rewrite E, app_length. lia.
Qed.
Lemma seek_past_size sub s b s' : seek_past sub s = Ok (b, s') -> csize s' <= csize s.
Proof.
  unfold seek_past, seek. destruct (if good s then _ else None) as [i|].
  - cbn [cs_rest]. unfold advance. destruct (_ <=? _); cbn [obind]; [|discriminate].
    intros [= <- <-]. unfold csize. destruct s as [text fa eo]. cbn [cs_rest cs_fail cs_eof].
    rewrite skipn_skipn'.
    assert (H : length (skipn (i + length sub) text) <= length text) by (rewrite skipn_length; lia).
    destruct (skipn (i + length sub) text); cbn [test_eof cs_rest fst length] in *; lia.
  - intros [= <- <-]. unfold csize. cbn [cs_rest]. lia.
Qed.

Lemma comment_nonempty t : str_eqb t (lit "#") || str_eqb t (lit "//") = true \/ str_eqb t (lit "/*") = true -> t <> [].
Proof. intros [H|H] ->; discriminate H. Qed.

Lemma loop_progress f : forall s t s', zml_token_loop f s = Ok (t, s') -> csize s' <= csize s /\ (t <> [] -> csize s' < csize s).
Proof.
  induction f as [|f IH]; intros s t s' H; [discriminate|]. cbn [zml_token_loop] in H.
  destruct (get_token zml_cfg s) as [[u s1]| |] eqn:E; cbn [obind] in H; try discriminate.
  apply token_progress in E. destruct (str_eqb u (lit "#") || str_eqb u (lit "//")) eqn:E1.
  { apply IH in H. pose proof (line_size s1). destruct H as [H1 H2], E as [H3 H4]. split; [lia|]. intros Ht. specialize (H2 Ht). lia. }
  destruct (str_eqb u (lit "/*")) eqn:E2.
  - destruct (seek_past (lit "*/") s1) as [[b s2]| |] eqn:E3; cbn [obind fst snd] in H; try discriminate.
    destruct b; [|discriminate]. apply seek_past_size in E3. apply IH in H.
    destruct H as [H1 H2], E as [H3 H4]. split; [lia|]. intros Ht. specialize (H2 Ht). lia.
  - injection H as <- <-. exact E.
Qed.
Lemma zml_progress s t s' : get_zml_token s = Ok (t, s') -> csize s' <= csize s /\ (t <> [] -> csize s' < csize s).
Proof. apply loop_progress. Qed.

(** the number of comments skipped before a token is not bounded *)
Lemma loop_fuel n : forall f1 f2 s, csize s <= n -> csize s < f1 -> csize s < f2 -> zml_token_loop f1 s = zml_token_loop f2 s.
Proof.
  induction n as [|n IH]; intros [|f1] [|f2] s Hn H1 H2; try lia; cbn [zml_token_loop].
  - destruct (get_token zml_cfg s) as [[u s1]| |] eqn:E; cbn [obind]; try reflexivity. apply token_progress in E.
    assert (u = []) by (destruct u; [reflexivity|]; destruct E as [_ E]; specialize (E ltac:(discriminate)); lia). subst u. reflexivity.
  - destruct (get_token zml_cfg s) as [[u s1]| |] eqn:E; cbn [obind]; try reflexivity. apply token_progress in E.
    destruct (str_eqb u (lit "#") || str_eqb u (lit "//")) eqn:E1.
    { specialize (proj2 E (comment_nonempty _ (or_introl E1))) as Hlt. pose proof (line_size s1). apply IH; lia. }
    destruct (str_eqb u (lit "/*")) eqn:E2; [|reflexivity].
    specialize (proj2 E (comment_nonempty _ (or_intror E2))) as Hlt.
    destruct (seek_past (lit "*/") s1) as [[b s2]| |] eqn:E3; cbn [obind fst snd]; try reflexivity.
    destruct b; [|reflexivity]. apply seek_past_size in E3. apply IH; lia.
Qed.

(** the fuel of parse_zml is sufficient *)
Lemma parse_fuel include s f r : read_zml_layer get_zml_token include f [] (Loc false []) 0 (ZSt s pn_empty pn_empty) = Some r ->
  parse_zml_stream include s = omap (@z_root cs) r.
Proof.
  intros H. unfold parse_zml_stream.
  destruct (layer_enough get_zml_token include csize zml_progress (S (length (cs_rest s))) [] (Loc false []) 0 (ZSt s pn_empty pn_empty)) as [r' [E _]].
  - cbn [z_src]. unfold csize. lia.
  - rewrite E. rewrite (layer_agree _ _ _ _ _ _ _ _ _ _ E H). reflexivity.
Qed.

(** parsing, by tokens *)
Definition at_text (s : cs) (text : str) : Prop := s = mk text \/ s = CS text false false.
Lemma at_token s text : at_text s text -> get_zml_token s = get_zml_token (mk text).
Proof. intros [->| ->]; [reflexivity|apply get_zml_token_mk]. Qed.

Lemma parse_agree {src2} (next2 : src2 -> outcome (str * src2)) include (R : cs -> src2 -> Prop) s a f r :
  (forall x y, R x y -> orel (fun u v => fst u = fst v /\ R (snd u) (snd v)) (get_zml_token x) (next2 y)) ->
  R s a -> read_zml_layer next2 include f [] (Loc false []) 0 (ZSt a pn_empty pn_empty) = Some r ->
  parse_zml_stream include s = omap (@z_root src2) r.
Proof.
  intros Hn HR H.
  pose proof (layer_sim get_zml_token next2 include R Hn f [] (Loc false []) 0 (ZSt s pn_empty pn_empty) (ZSt a pn_empty pn_empty)) as S.
  rewrite H in S. unfold RS in S at 1. cbn [z_src z_root z_macros] in S. specialize (S (conj HR (conj eq_refl eq_refl))).
  destruct (read_zml_layer get_zml_token include f [] (Loc false []) 0 (ZSt s pn_empty pn_empty)) as [r1|] eqn:E; cbn [zrel] in S; [|contradiction].
  rewrite (parse_fuel _ _ _ _ E). destruct r1, r; cbn [orel] in S; try contradiction; cbn [omap]; try reflexivity.
  destruct S as [_ [S _]]. rewrite S. reflexivity.
Qed.

(** * round trip *)
Lemma parse_yields include text e v cs a : tree_ok e (PN v cs a) = true -> yields text (list_toks cs) ->
  parse_zml include text = Ok (fresh (PN v cs a)).
Proof.
  intros Hok Hy. destruct (tree_kids _ _ _ _ Hok) as [-> _].
  destruct (tree_reads include e cs a Hok) as [f Hf].
  unfold parse_zml, cs_of_string.
  etransitivity; [apply (parse_agree next_list include (fun s l => exists text, at_text s text /\ yields text l) _ (list_toks cs) f
    (Ok (ZSt [] (fresh (PN [] cs a)) pn_empty)))|reflexivity].
  - intros x l [u [Hx Hu]]. rewrite (at_token _ _ Hx). destruct l as [|t l]; cbn [yields] in Hu.
    + rewrite (read_end _ Hu). cbn [next_list orel fst snd]. split; [reflexivity|]. exists []. split; [left; reflexivity|constructor].
    + destruct Hu as [rest [-> Hu]]. cbn [next_list orel fst snd]. split; [reflexivity|]. exists rest. split; [left; reflexivity|exact Hu].
  - exists text. split; [right; reflexivity|exact Hy].
  - exact Hf.
Qed.

Lemma round_trip include t : tree_ok true t = true ->
  exists text t', write_zml t = Ok text /\ parse_zml include text = Ok t' /\ same_tree t' t.
Proof.
  intros H. destruct (write_zml_yields t H) as [x [E Hy]]. exists x, (fresh t). split; [exact E|].
  split; [|apply fresh_same]. destruct t as [v cs a]. eapply parse_yields; [exact H|exact Hy].
Qed.
Lemma round_trip_concise include t : tree_ok false t = true -> pn_children t <> [] ->
  exists text t', write_zml_concise t = Ok text /\ parse_zml include text = Ok t' /\ same_tree t' t.
Proof.
  intros H Hc. destruct (write_concise_yields t H Hc) as [x [E Hy]]. exists x, (fresh t). split; [exact E|].
  split; [|apply fresh_same]. destruct t as [v cs a]. eapply parse_yields; [exact H|exact Hy].
Qed.

(** * layout *)
Lemma zml_lex_eq : zml_lex = zk.
Proof. reflexivity. Qed.

Lemma nondelim_blank x : blank x -> delimiter zk x.
Proof. intros H. left. exact H. Qed.

Lemma skip_cons x r : blank x -> get_token zml_cfg (CS (x :: r) false false) = get_token zml_cfg (CS r false false).
Proof.
  intros H. rewrite zml_cfg_eq, !(get_token_good _ _ _). cbn [skip_delims].
  rewrite (proj2 (is_delim_iff _ _ _ zk_plain x) (nondelim_blank _ H)). reflexivity.
Qed.

(** the token read from a text, whatever the fuel *)
Lemma loop_start f s : csize s < f -> zml_token_loop f s = get_zml_token s.
Proof. intros H. unfold get_zml_token. apply (loop_fuel (csize s)); unfold csize in *; lia. Qed.
Lemma loop_at f s text : at_text s text -> length text < f -> zml_token_loop f s = get_zml_token (mk text).
Proof.
  intros H Hf. rewrite loop_start; [apply at_token; exact H|]. destruct H as [->| ->]; exact Hf.
Qed.

Lemma zml_blank x r : blank x -> get_zml_token (mk (x :: r)) = get_zml_token (mk r).
Proof.
  intros H. rewrite <- !get_zml_token_mk. unfold get_zml_token at 1. cbn [cs_rest length].
  cbn [zml_token_loop]. rewrite (skip_cons _ _ H).
  rewrite <- (loop_start (S (S (length r))) (CS r false false)) by (unfold csize; cbn [cs_rest]; lia). reflexivity.
Qed.

Lemma comment_op s r : s = lit "#" \/ s = lit "//" \/ s = lit "/*" ->
  get_token zml_cfg (CS (s ++ r) false false) = Ok (s, mk r).
Proof.
  intros Hs. rewrite get_token_mk. apply token_iff. exists (s ++ r).
  assert (Hall : forallb (fun o => match o with x :: t => (length o <=? 2) && negb (is_blank x) && negb (Ascii.eqb x nul) && negb (in_set [dquote; squote] x) | [] => false end) zml_ops = true) by reflexivity.
  rewrite forallb_forall in Hall.
  assert (Hin : In s zml_ops) by (destruct Hs as [->|[->| ->]]; cbn [zml_ops In]; repeat (first [left; reflexivity|right])).
  assert (E : exists x t, s = x :: t) by (destruct Hs as [->|[->| ->]]; eexists _, _; reflexivity).
  destruct E as [x [t ->]]. pose proof (Hall _ Hin) as H. cbv beta in H. rewrite !andb_true_iff, !negb_true_iff in H.
  destruct H as [[[_ H1] H2] H3]. apply eqb_false in H2. rewrite in_set_not_In in H3.
  assert (Hd : ~ delimiter zk x) by (rewrite delimiter_iff; intros [H|H]; congruence).
  split.
  - exists []. split; [reflexivity|]. split; [constructor|]. intros y u [= <- _]. exact Hd.
  - cbn [app]. eapply tok_operator; [exact Hd|intros [H _]; exact (H3 H)| |reflexivity].
    split; [exact Hin|]. split; [exists r; reflexivity|]. intros op u Hop Eop.
    pose proof (Hall _ Hop) as H. destruct op as [|o1 op]; [discriminate|]. rewrite !andb_true_iff in H. destruct H as [[[H _] _] _].
    apply Nat.leb_le in H. destruct t as [|t1 t]; [|cbn [length] in *; lia].
    (* the operator # is not the beginning of another one *)
    destruct Hs as [Hs|[Hs|Hs]]; try discriminate Hs. injection Hs as ->. injection Eop as <- _.
    assert (Hh : forallb (fun o => match o with x :: _ => negb (Ascii.eqb x "#"%char) || (length o <=? 1) | [] => true end) zml_ops = true) by reflexivity.
    rewrite forallb_forall in Hh. specialize (Hh _ Hop). cbv beta iota in Hh. rewrite Ascii.eqb_refl in Hh. cbn [negb orb] in Hh.
    apply Nat.leb_le in Hh. exact Hh.
Qed.

Lemma cspn_app body e r : Forall (fun x => ~ ends_line x /\ x <> nul) body -> ends_line e ->
  cspn [cr; lf] (body ++ e :: r) = length body.
Proof.
  intros Hb He. induction Hb as [|x b [Hx Hn] Hb IH]; cbn [app cspn].
  - destruct He as [->| ->]; reflexivity.
  - replace (strchr [cr; lf] x) with false; [cbn [length]; f_equal; exact IH|]. symmetry.
    unfold strchr, in_set. cbn [existsb]. unfold ends_line in Hx.
    rewrite !orb_false_iff. repeat split; apply eqb_false; tauto.
Qed.
Lemma cspn_all body : Forall (fun x => ~ ends_line x /\ x <> nul) body -> cspn [cr; lf] body = length body.
Proof.
  intros Hb. induction Hb as [|x b [Hx Hn] Hb IH]; [reflexivity|]. cbn [cspn].
  replace (strchr [cr; lf] x) with false; [cbn [length]; f_equal; exact IH|]. symmetry.
  unfold strchr, in_set. cbn [existsb]. unfold ends_line in Hx.
  rewrite !orb_false_iff. repeat split; apply eqb_false; tauto.
Qed.

Lemma get_line_body body e r : Forall (fun x => ~ ends_line x /\ x <> nul) body -> ends_line e ->
  at_text (snd (get_line (mk (body ++ e :: r)))) (e :: r).
Proof.
  intros Hb He. right. unfold get_line, mk. cbn [cs_rest cs_fail cs_eof].
  assert (E : exists x t, body ++ e :: r = x :: t) by (destruct body; eexists _, _; reflexivity).
  pose proof (cspn_app body e r Hb He) as Hc. destruct E as [x [t E]]. rewrite E in *. cbn [is_nil snd]. rewrite Hc, <- E.
  rewrite skipn_length_app. reflexivity.
Qed.
Lemma get_line_all body : Forall (fun x => ~ ends_line x /\ x <> nul) body -> at_text (snd (get_line (mk body))) [].
Proof.
  intros Hb. unfold get_line, mk. cbn [cs_rest cs_fail cs_eof].
  pose proof (cspn_all body Hb) as Hc. destruct body as [|x t]; [left; reflexivity|]. right. cbn [is_nil snd].
  rewrite Hc, skipn_all. reflexivity.
Qed.

Lemma zml_line_comment s body e r : s = lit "#" \/ s = lit "//" ->
  Forall (fun x => ~ ends_line x /\ x <> nul) body -> ends_line e ->
  get_zml_token (mk (s ++ body ++ e :: r)) = get_zml_token (mk r).
Proof.
  intros Hs Hb He. rewrite <- (zml_blank e r) by (destruct He as [->| ->]; cbn; tauto).
  rewrite <- get_zml_token_mk. unfold get_zml_token at 1. cbn [cs_rest zml_token_loop].
  rewrite comment_op by tauto. cbn [obind].
  replace (str_eqb s (lit "#") || str_eqb s (lit "//")) with true by (destruct Hs as [->| ->]; reflexivity).
  apply loop_at; [apply get_line_body; assumption|]. rewrite !app_length.
  destruct Hs as [->| ->]; cbn [length lit list_ascii_of_string]; lia.
Qed.
Lemma zml_open_comment s body : s = lit "#" \/ s = lit "//" -> Forall (fun x => ~ ends_line x /\ x <> nul) body ->
  get_zml_token (mk (s ++ body)) = Ok ([], mk []).
Proof.
  intros Hs Hb. rewrite <- (read_end []) by constructor.
  rewrite <- get_zml_token_mk. unfold get_zml_token at 1. cbn [cs_rest zml_token_loop].
  rewrite comment_op by tauto. cbn [obind].
  replace (str_eqb s (lit "#") || str_eqb s (lit "//")) with true by (destruct Hs as [->| ->]; reflexivity).
  apply loop_at; [apply get_line_all; assumption|]. rewrite !app_length.
  destruct Hs as [->| ->]; cbn [length lit list_ascii_of_string]; lia.
Qed.

Lemma c_str_app a b : ~ In nul a -> c_str (a ++ b) = a ++ c_str b.
Proof.
  induction a as [|x a IH]; intros H; [reflexivity|]. cbn [app c_str].
  replace (Ascii.eqb x nul) with false by (symmetry; apply eqb_false; intros ->; apply H; left; reflexivity).
  rewrite IH; [reflexivity|]. intros Hin. apply H. right. exact Hin.
Qed.

Lemma app_split {A} (a b c d : list A) : a ++ b = c ++ d -> length a <= length c -> exists u, c = a ++ u /\ b = u ++ d.
Proof.
  revert c. induction a as [|x a IH]; intros c H Hl; [exists c; split; [reflexivity|exact H]|].
  destruct c as [|y c]; [cbn in Hl; lia|]. cbn [app] in H. injection H as -> H. cbn [length] in Hl.
  destruct (IH c H ltac:(lia)) as [u [-> ->]]. exists u. split; reflexivity.
Qed.

Lemma seek_past_block body r : ~ In nul body -> (forall i, ~ occurs_at (body ++ lit "*") (lit "*/") i) ->
  seek_past (lit "*/") (mk (body ++ lit "*/" ++ r)) = Ok (true, mk r).
Proof.
  intros Hn Ho. unfold seek_past, seek, mk.
  assert (Eg : is_nil (body ++ lit "*/" ++ r) = false) by (destruct body; reflexivity). rewrite Eg.
  cbn [good cs_rest cs_fail cs_eof orb negb].
  rewrite (c_str_app body) by exact Hn. rewrite (c_str_app (lit "*/")) by (intros [H|[H|[]]]; discriminate H).
  change (c_str (lit "*/")) with (lit "*/").
  assert (F : Str.find (body ++ lit "*/" ++ c_str r) (lit "*/") 0 = Some (length body)).
  { apply find_some. split; [lia|]. split; [exists body, (c_str r); split; reflexivity|].
    intros j Hj [a [b [E Ej]]]. subst j.
    assert (E2 : (a ++ lit "*/") ++ b = (body ++ lit "*") ++ (lit "/" ++ c_str r)) by (rewrite <- !app_assoc; cbn [app lit list_ascii_of_string]; symmetry; exact E).
    destruct (app_split _ _ _ _ E2) as [u [Eu _]].
    { rewrite !app_length. cbn [length lit list_ascii_of_string]. lia. }
    apply (Ho (length a)). exists a, u. rewrite Eu, <- app_assoc. split; reflexivity. }
  rewrite F. cbn [cs_rest cs_fail cs_eof]. rewrite skipn_length_app. unfold advance.
  replace (length (lit "*/") <=? length (lit "*/" ++ r)) with true by (symmetry; apply Nat.leb_le; rewrite app_length; lia).
  cbn [obind]. rewrite skipn_length_app. destruct r; reflexivity.
Qed.
Lemma zml_block_comment body r : ~ In nul body -> (forall i, ~ occurs_at (body ++ lit "*") (lit "*/") i) ->
  get_zml_token (mk (lit "/*" ++ body ++ lit "*/" ++ r)) = get_zml_token (mk r).
Proof.
  intros Hn Ho. rewrite <- (get_zml_token_mk (lit "/*" ++ _)). unfold get_zml_token at 1. cbn [cs_rest zml_token_loop].
  rewrite comment_op by tauto. cbn [obind].
  change (str_eqb (lit "/*") (lit "#") || str_eqb (lit "/*") (lit "//")) with false. rewrite str_eqb_refl. cbv iota.
  rewrite seek_past_block by assumption. cbn [obind fst snd]. apply loop_at; [left; reflexivity|].
  rewrite !app_length. cbn [length lit list_ascii_of_string]. lia.
Qed.

Lemma zml_layout g r : layout g -> get_zml_token (mk (g ++ r)) = get_zml_token (mk r).
Proof.
  intros H. induction H as [|x g Hx Hg IH|k g Hk Hg IH]; [reflexivity| |].
  - cbn [app]. rewrite zml_blank by exact Hx. exact IH.
  - rewrite <- app_assoc. rewrite <- IH. destruct Hk as [s body e Hs Hb He|body Hn Ho].
    + rewrite <- !app_assoc. cbn [app]. apply zml_line_comment; assumption.
    + rewrite <- !app_assoc. apply zml_block_comment; assumption.
Qed.
Lemma zml_final_layout g : final_layout g -> get_zml_token (mk g) = Ok ([], mk []).
Proof.
  intros [g' H|g' s body H Hs Hb].
  - rewrite <- (app_nil_r g'), zml_layout by exact H. apply (read_end []). constructor.
  - rewrite zml_layout by exact H. apply zml_open_comment; assumption.
Qed.

Lemma comment_token_iff t : is_comment_token t = false <-> t <> lit "#" /\ t <> lit "//" /\ t <> lit "/*".
Proof.
  unfold is_comment_token, one_of_strs. cbn [existsb]. rewrite !orb_false_iff, !str_eqb_neq. tauto.
Qed.

Lemma lexes_next text rest t l : lexes text rest (t :: l) -> exists y, get_zml_token (mk text) = Ok (t, mk y) /\ lexes y rest l.
Proof.
  intros H. inversion H as [|g x t' y rest' l' Hg Hx Hd Ht H1 H2 H3 Hl E1 E2]; subst. exists y. split; [|exact Hl].
  rewrite zml_layout by exact Hg. apply zml_token; [|apply comment_token_iff; tauto].
  apply token_iff. exists x. split; [|exact Ht]. exists []. split; [reflexivity|]. split; [constructor|exact Hd].
Qed.
Lemma lexes_nil text rest : lexes text rest [] -> text = rest.
Proof. intros H. inversion H. reflexivity. Qed.

(** two texts with the same tokens *)
Definition same_tokens (s1 s2 : cs) : Prop :=
  exists t1 t2 r1 r2 l, at_text s1 t1 /\ at_text s2 t2 /\ lexes t1 r1 l /\ lexes t2 r2 l /\
    get_zml_token (mk r1) = get_zml_token (mk r2).

Lemma orel_refl {A} (Q : A -> A -> Prop) o : (forall x, Q x x) -> orel Q o o.
Proof. intros H. destruct o; cbn [orel]; auto. Qed.

(** either the same tokens up to a point where the streams give the same result, or the same stream *)
Definition alike (s1 s2 : cs) : Prop := s1 = s2 \/ same_tokens s1 s2.
Lemma alike_next s1 s2 : alike s1 s2 ->
  orel (fun u v => fst u = fst v /\ alike (snd u) (snd v)) (get_zml_token s1) (get_zml_token s2).
Proof.
  intros [->|[t1 [t2 [r1 [r2 [l [A1 [A2 [L1 [L2 E]]]]]]]]]].
  - apply orel_refl. intros x. split; [reflexivity|left; reflexivity].
  - rewrite (at_token _ _ A1), (at_token _ _ A2). destruct l as [|t l].
    + apply lexes_nil in L1, L2. subst. rewrite E. apply orel_refl. intros x. split; [reflexivity|left; reflexivity].
    + destruct (lexes_next _ _ _ _ L1) as [y1 [E1 M1]]. destruct (lexes_next _ _ _ _ L2) as [y2 [E2 M2]].
      rewrite E1, E2. cbn [orel fst snd]. split; [reflexivity|]. right. exists y1, y2, r1, r2, l.
      split; [left; reflexivity|]. split; [left; reflexivity|]. auto.
Qed.
Lemma alike_parse include s1 s2 : alike s1 s2 -> parse_zml_stream include s1 = parse_zml_stream include s2.
Proof.
  intros H.
  destruct (layer_enough get_zml_token include csize zml_progress (S (length (cs_rest s2))) [] (Loc false []) 0 (ZSt s2 pn_empty pn_empty)) as [r [E _]].
  { cbn [z_src]. unfold csize. lia. }
  rewrite (parse_agree get_zml_token include alike s1 s2 _ r alike_next H E). symmetry. exact (parse_fuel _ _ _ _ E).
Qed.

Lemma parse_same_tokens include text1 text2 rest1 rest2 l :
  lexes text1 rest1 l -> lexes text2 rest2 l -> final_layout rest1 -> final_layout rest2 ->
  parse_zml include text1 = parse_zml include text2.
Proof.
  intros H1 H2 F1 F2. apply alike_parse. right. exists text1, text2, rest1, rest2, l.
  split; [right; reflexivity|]. split; [right; reflexivity|]. split; [exact H1|]. split; [exact H2|].
  rewrite (zml_final_layout _ F1), (zml_final_layout _ F2). reflexivity.
Qed.

(** ** inserting layout *)
(** operators contain no blank, except the colon-space *)
Lemma op_blank op : In op zml_ops -> op = lit ": " \/ Forall (fun x => is_blank x = false) op.
Proof.
  assert (H : forallb (fun o => str_eqb o (lit ": ") || forallb (fun x => negb (is_blank x)) o) zml_ops = true) by reflexivity.
  rewrite forallb_forall in H. intros Hop. specialize (H _ Hop). cbv beta in H. apply orb_true_iff in H.
  destruct H as [H|H]; [left; apply str_eqb_eq; exact H|right].
  apply Forall_forall. rewrite forallb_forall in H. intros x Hx. specialize (H _ Hx). apply negb_true_iff in H. exact H.
Qed.

Definition begins_blank (g : str) : Prop := exists x r, g = x :: r /\ blank x.

(** an operator at the start of [s ++ g ++ y] ends inside [s] *)
Lemma op_inside op s b r u : In op zml_ops -> s ++ b :: r = op ++ u -> blank b ->
  (op = lit ": " -> s <> lit ":") -> exists v, s = op ++ v /\ u = v ++ b :: r.
Proof.
  intros Hop E Hb Hc. destruct (le_lt_dec (length op) (length s)) as [Hl|Hl].
  - symmetry in E. destruct (app_split _ _ _ _ E Hl) as [v [-> ->]]. exists v. split; reflexivity.
  - exfalso. destruct (app_split _ _ _ _ E ltac:(lia)) as [v [Ev E2]].
    destruct v as [|v0 v]; [rewrite app_nil_r in Ev; subst op; lia|]. cbn [app] in E2. injection E2 as <- _.
    destruct (op_blank _ Hop) as [H|H].
    + apply (Hc H). rewrite H in Ev. destruct s as [|s0 [|s1 s]]; cbn in Ev.
      * injection Ev as <- _. unfold blank in Hb. cbn [In] in Hb.
        repeat (destruct Hb as [Hb|Hb]; [discriminate Hb|]). destruct Hb.
      * injection Ev as <- _. reflexivity.
      * exfalso. injection Ev as _ _ Ev. destruct s; discriminate Ev.
    + rewrite Ev in H. apply Forall_app in H. destruct H as [_ H]. apply Forall_inv in H.
      apply is_blank_iff in Hb. congruence.
Qed.

Lemma no_op_insert s b g y : s <> [] -> blank b -> ~ splits_colon s (b :: g) ->
  no_operator_at zk (s ++ y) -> no_operator_at zk (s ++ (b :: g) ++ y).
Proof.
  intros Hs Hb Hc H op u Hop E. cbn [app] in E. destruct (op_inside op s b (g ++ y) u Hop E Hb) as [v [-> _]].
  - intros -> ->. apply Hc. split; [reflexivity|]. cbn in E. injection E as <- _. exists g. reflexivity.
  - apply (H op (v ++ y) Hop). rewrite <- app_assoc. reflexivity.
Qed.
Lemma splits_cons x s g : s <> [] -> splits_colon (x :: s) g -> splits_colon s g.
Proof. intros Hs [H1 H2]. split; [|exact H2]. destruct s; [congruence|exact H1]. Qed.

Lemma run_insert run b g y : blank b -> ~ splits_colon run (b :: g) -> plain_run zk run y -> plain_run zk run ((b :: g) ++ y).
Proof.
  intros Hb Hc H. remember y as y0 eqn:Ey. revert Hc. induction H as [y'|x run y' Hd Hq Ho Hr IH]; intros Hc; [constructor|].
  subst y'. constructor; [exact Hd|exact Hq| |].
  - apply (no_op_insert (x :: run)); [discriminate|exact Hb|exact Hc|exact Ho].
  - destruct run as [|x' run]; [constructor|]. apply IH; [reflexivity|]. intros H. apply Hc.
    destruct H as [H1 H2]. split; [exact H1|exact H2].
Qed.

Lemma last_app {A} (a b : list A) d : b <> [] -> last (a ++ b) d = last b d.
Proof.
  intros Hb. induction a as [|x a IH]; [reflexivity|]. cbn [app last]. rewrite IH.
  destruct (a ++ b) eqn:E; [destruct a; [cbn in E; congruence|discriminate]|reflexivity].
Qed.

(** ** tokens depend on little of what follows *)
Lemma octal_local k : forall n1 n2 b1 b2 v r w, read_octal n1 b1 v r = (w, r + k) ->
  firstn (S k) b1 = firstn (S k) b2 -> k < length b1 -> (k < n1 /\ k < n2) \/ (k = n1 /\ k = n2) -> read_octal n2 b2 v r = (w, r + k).
Proof.
  induction k as [|k IH]; intros n1 n2 b1 b2 v r w H E Hl Hn.
  - destruct b1 as [|x b1]; [cbn in Hl; lia|]. destruct b2 as [|y b2]; [discriminate|]. cbn [firstn] in E. injection E as <-.
    destruct n1 as [|n1], n2 as [|n2]; try lia; cbn [read_octal] in *.
    + rewrite Nat.add_0_r in *. exact H.
    + destruct (_ && _); [|exact H]. exfalso.
      assert (G : forall n b v r, r <= snd (read_octal n b v r)).
      { induction n as [|n IHn]; intros b u i; cbn [read_octal]; [cbn; lia|]. destruct b; [cbn; lia|].
        destruct (_ && _); [|cbn; lia]. eapply Nat.le_trans; [|apply IHn]. lia. }
      specialize (G n1 b1 (v * 8 + (N_of_ascii x - 48))%N (S r)). rewrite H in G. cbn in G. lia.
  - destruct b1 as [|x b1]; [cbn in Hl; lia|]. destruct b2 as [|y b2]; [discriminate|].
    cbn [firstn] in E. injection E as <- E.
    destruct n1 as [|n1], n2 as [|n2]; try lia; cbn [read_octal] in *.
    destruct (_ && _).
    + rewrite <- Nat.add_succ_comm in *. apply (IH n1 n2 b1 b2 _ _ _ H E); [cbn in Hl; lia|lia].
    + injection H as _ H. lia.
Qed.

Lemma octal_read m : forall b v r, snd (read_octal m b v r) <= r + m.
Proof.
  induction m as [|m IHm]; intros b v0 r; cbn [read_octal]; [cbn [snd]; lia|]. destruct b; [cbn [snd]; lia|].
  destruct (_ && _); [|cbn [snd]; lia]. eapply Nat.le_trans; [apply IHm|]. lia.
Qed.
Lemma decode_local a c u u' x n : decode_char (bslash :: a ++ c :: u) = Ok (x, S n) -> n <= length a ->
  decode_char (bslash :: a ++ c :: u') = Ok (x, S n).
Proof.
  intros H Hn. unfold decode_char in *. rewrite Ascii.eqb_refl in *. cbn [negb] in *.
  assert (E : exists e v v', a ++ c :: u = e :: v /\ a ++ c :: u' = e :: v') by (destruct a; do 3 eexists; split; reflexivity).
  destruct E as [e [v [v' [E1 E2]]]]. rewrite E1 in H. rewrite E2.
  repeat (match type of H with context [if Ascii.eqb ?p ?q then _ else _] => destruct (Ascii.eqb p q); [exact H|] end).
  rewrite <- E1 in H. rewrite <- E2.
  destruct (read_octal (Nat.min (length (a ++ c :: u)) 3) (a ++ c :: u) 0 0) as [w rd] eqn:Er.
  assert (Erd : rd = n) by (destruct (_ && _); injection H as _ H; exact H). subst rd.
  rewrite (octal_local n _ (Nat.min (length (a ++ c :: u')) 3) _ (a ++ c :: u') _ _ _ Er).
  - exact H.
  - rewrite !firstn_app. destruct (S n - length a) as [|[|m]] eqn:Em; [reflexivity|reflexivity|lia].
  - rewrite app_length. cbn [length]. lia.
  - rewrite !app_length. cbn [length].
    assert (Hb : n <= Nat.min (length (a ++ c :: u)) 3).
    { pose proof (octal_read (Nat.min (length (a ++ c :: u)) 3) (a ++ c :: u) 0%N 0) as G.
      rewrite Er in G. exact G. }
    rewrite app_length in Hb. cbn [length] in Hb. lia.
Qed.

Lemma section_local q text d rest : quoted_section q text d rest -> rest <> [] ->
  exists c, text = c ++ rest /\ c <> [] /\ forall z, quoted_section q (c ++ z) d z.
Proof.
  intros H. induction H as [t|x t d r H1 H2 H IH|t x n d r H1 H2 H IH|]; intros Hr.
  - exists [q]. split; [reflexivity|]. split; [discriminate|]. intros z. apply qs_close.
  - destruct (IH Hr) as [c [-> [Hc Hz]]]. exists (x :: c). split; [reflexivity|]. split; [discriminate|].
    intros z. cbn [app]. apply qs_plain; auto.
  - destruct (IH Hr) as [c [Ec [Hc Hz]]]. destruct c as [|c0 c]; [congruence|].
    assert (Hn : n < length t).
    { assert (L : length (skipn n t) = length ((c0 :: c) ++ r)) by (rewrite Ec; reflexivity).
      rewrite skipn_length, app_length in L. cbn [length] in L. lia. }
    exists (bslash :: firstn n t ++ c0 :: c). split; [|split; [discriminate|]].
    + cbn [app]. rewrite <- app_assoc, <- Ec, firstn_skipn. reflexivity.
    + intros z. cbn [app]. rewrite <- app_assoc. apply (qs_escape q _ x n); [exact H1| |].
      * rewrite <- (firstn_skipn n t) in H2. rewrite Ec in H2. cbn [app] in *.
        apply (decode_local _ _ _ _ _ _ H2). rewrite firstn_length. lia.
      * rewrite skipn_app, firstn_length, Nat.min_l by lia. rewrite Nat.sub_diag. cbn [skipn].
        rewrite skipn_all2 by (rewrite firstn_length; lia). apply Hz.
  - congruence.
Qed.

(** where a word may end *)
Definition ends (y : str) : Prop :=
  y = [] \/ (exists z r, y = z :: r /\ delimiter zk z) \/
  (exists z r op, y = z :: r /\ ~ delimiter zk z /\ ~ quotation zk z /\ operator_at zk y op).
Definition tail_ok (p y y' : str) : Prop :=
  (ends y -> ends y') /\
  (forall s1 s2, p = s1 ++ s2 -> s2 <> [] -> no_operator_at zk (s2 ++ y) -> no_operator_at zk (s2 ++ y')) /\
  (forall s1 s2, p = s1 ++ s2 -> operator_at zk (s2 ++ y) s2 -> operator_at zk (s2 ++ y') s2).
Lemma tail_suffix p1 p2 y y' : tail_ok (p1 ++ p2) y y' -> tail_ok p2 y y'.
Proof.
  intros [H1 [H2 H3]]. split; [exact H1|]. split; intros s1 s2 ->; [apply (H2 (p1 ++ s1))|apply (H3 (p1 ++ s1))]; apply app_assoc.
Qed.

Lemma run_local run y y' : plain_run zk run y -> tail_ok run y y' -> plain_run zk run y'.
Proof.
  intros H. induction H as [y|x run y Hd Hq Ho Hr IH]; intros Ht; [constructor|].
  constructor; [exact Hd|exact Hq| |].
  - apply (proj1 (proj2 Ht) [] (x :: run) eq_refl ltac:(discriminate) Ho).
  - apply IH. exact (tail_suffix [x] run _ _ Ht).
Qed.
Lemma word_ends first run y' : plain_run zk run y' -> ends y' -> (first = false \/ run <> []) \/ (y' = [] \/ exists z r, y' = z :: r /\ delimiter zk z) ->
  token_in zk first (run ++ y') run y'.
Proof.
  intros Hr He Hf. destruct He as [->|[He|[z [r [op [-> [Hd [Hq Ho]]]]]]]].
  - apply tok_word; [exact Hr|left; reflexivity].
  - apply tok_word; [exact Hr|right; exact He].
  - eapply tok_word_operator; [exact Hr|exact Hd|exact Hq|exact Ho|]. destruct Hf as [Hf|[Hf|[z' [r' [[= <- <-] Hz]]]]]; [exact Hf|discriminate|].
    contradiction.
Qed.

(** operators contain no quotation characters *)
Lemma run_quote run q a b : In q [dquote; squote] -> plain_run zk run (q :: a) -> plain_run zk run (q :: b).
Proof.
  intros Hq H. remember (q :: a) as y eqn:Ey. induction H as [y|x run y Hd Hx Ho Hr IH]; [constructor|]. subst y.
  constructor; [exact Hd|exact Hx| |apply IH; reflexivity].
  intros op u Hop E.
  assert (Hnq : forallb (fun o => forallb (fun x => negb (in_set [dquote; squote] x)) o) zml_ops = true) by reflexivity.
  rewrite forallb_forall in Hnq. specialize (Hnq _ Hop). cbv beta in Hnq. rewrite forallb_forall in Hnq.
  change (x :: run ++ q :: b) with ((x :: run) ++ q :: b) in E.
  destruct (le_lt_dec (length op) (length (x :: run))) as [Hl|Hl].
  - symmetry in E. destruct (app_split _ _ _ _ E Hl) as [v [Ev ->]].
    apply (Ho op (v ++ q :: a) Hop). rewrite app_assoc, <- Ev. reflexivity.
  - destruct (app_split _ _ _ _ E ltac:(lia)) as [v [Ev E2]]. destruct v as [|v0 v]; [rewrite app_nil_r in Ev; subst op; lia|].
    injection E2 as <- _. assert (Hin : In q op) by (rewrite Ev; apply in_or_app; right; left; reflexivity).
    specialize (Hnq _ Hin). apply negb_true_iff in Hnq. rewrite in_set_not_In in Hnq. contradiction.
Qed.

Lemma token_local first x t y : token_in zk first x t y -> forall p y', x = p ++ y -> y <> [] ->
  (first = true -> (exists z r, y = z :: r /\ delimiter zk z) -> exists z r, y' = z :: r /\ delimiter zk z) ->
  tail_ok p y y' -> token_in zk first (p ++ y') t y'.
Proof.
  intros H. induction H as [first run y H Hy|first run z r op H Hd Hq Ho Hf|z r op y Hd Hq Ho He|first run q text d rest t y H Hq Hs Ht IH];
    intros p y' E Hne Hdel Htail.
  - apply app_inv_tail in E. subst p. destruct Hy as [->|Hy]; [congruence|].
    apply word_ends; [exact (run_local _ _ _ H Htail)| |].
    + apply (proj1 Htail). right. left. exact Hy.
    + destruct first; [|left; left; reflexivity]. right. right. apply Hdel; [reflexivity|exact Hy].
  - apply app_inv_tail in E. subst p. apply word_ends; [exact (run_local _ _ _ H Htail)| |left; exact Hf].
    apply (proj1 Htail). right. right. exists z, r, op. auto.
  - rewrite He in E. apply app_inv_tail in E. subst p.
    rewrite He in Ho. pose proof (proj2 (proj2 Htail) [] op eq_refl Ho) as Ho'.
    destruct op as [|o op].
    { destruct Ho as [Hin _]. cbn [lex_ops zk zml_ops In] in Hin. repeat (destruct Hin as [Hin|Hin]; [discriminate Hin|]). destruct Hin. }
    injection He as -> _. eapply (tok_operator zk o (op ++ y') (o :: op) y'); [exact Hd|exact Hq|exact Ho'|reflexivity].
  - destruct (token_in_suffix _ _ _ _ _ _ _ Ht) as [p2 E2]. change (LexCfg _ _ _) with zk in *. subst rest.
    assert (Hr : p2 ++ y <> []) by (destruct p2; [exact Hne|discriminate]).
    destruct (section_local _ _ _ _ Hs Hr) as [c [-> [Hc Hz]]].
    assert (Ep : p = run ++ q :: c ++ p2).
    { apply (app_inv_tail y). rewrite <- E, <- !app_assoc. cbn [app]. rewrite <- app_assoc. reflexivity. }
    subst p. rewrite <- app_assoc. cbn [app]. rewrite <- app_assoc.
    apply (tok_quoted zk first run q (c ++ p2 ++ y') d (p2 ++ y') t y').
    + eapply run_quote; [exact (proj1 Hq)|exact H].
    + exact Hq.
    + apply Hz.
    + apply IH; [reflexivity|exact Hne| |].
      * intros Hf. apply andb_true_iff in Hf. apply Hdel. exact (proj1 Hf).
      * apply (tail_suffix (run ++ q :: c)). rewrite <- app_assoc. exact Htail.
Qed.

(** operators have at most two characters *)
Lemma op_two op x x' r : In op zml_ops -> x = op ++ r -> firstn 2 x = firstn 2 x' -> exists r', x' = op ++ r'.
Proof.
  intros Hop E F.
  assert (Hall : forallb (fun o => (length o <=? 2)) zml_ops = true) by reflexivity.
  rewrite forallb_forall in Hall. specialize (Hall _ Hop). apply Nat.leb_le in Hall.
  subst x. rewrite firstn_app in F. rewrite (firstn_all2 op) in F by exact Hall.
  exists (skipn (length op) x'). rewrite <- (firstn_skipn (length op) x') at 1. f_equal.
  apply (f_equal (firstn (length op))) in F. rewrite firstn_app, firstn_all, Nat.sub_diag, firstn_O in F.
  rewrite app_nil_r, firstn_firstn, Nat.min_l in F by exact Hall. symmetry. exact F.
Qed.
Lemma no_op_two x x' : firstn 2 x = firstn 2 x' -> no_operator_at zk x -> no_operator_at zk x'.
Proof. intros F H op r Hop E. destruct (op_two op x' x r Hop E (eq_sym F)) as [r' E']. exact (H op r' Hop E'). Qed.
Lemma op_at_two x x' op : firstn 2 x = firstn 2 x' -> operator_at zk x op -> operator_at zk x' op.
Proof.
  intros F [Hop [[r E] Hm]]. split; [exact Hop|]. split; [exact (op_two op x x' r Hop E F)|].
  intros op' r' Hop' E'. destruct (op_two op' x' x r' Hop' E' (eq_sym F)) as [r2 E2]. exact (Hm op' r2 Hop' E2).
Qed.

(** case 1: layout inserted directly after the token *)
Lemma tail_insert p b g y : blank b -> ~ splits_colon p (b :: g) -> tail_ok p y ((b :: g) ++ y).
Proof.
  intros Hb Hc. assert (Hs : forall s1 s2, p = s1 ++ s2 -> s2 <> [] -> ~ splits_colon s2 (b :: g)).
  { intros s1 s2 -> Hne [H1 H2]. apply Hc. split; [|exact H2]. rewrite last_app; [exact H1|exact Hne]. }
  split; [|split].
  - intros _. right. left. exists b, (g ++ y). split; [reflexivity|]. left. exact Hb.
  - intros s1 s2 E Hne Ho. apply no_op_insert; [exact Hne|exact Hb|exact (Hs _ _ E Hne)|exact Ho].
  - intros s1 s2 E [Hop [_ Hm]]. split; [exact Hop|]. split; [exists ((b :: g) ++ y); reflexivity|].
    intros op' r' Hop' E'. cbn [app] in E'. destruct (op_inside op' s2 b (g ++ y) r' Hop' E' Hb) as [v [-> _]].
    + intros -> ->. cbn [lex_ops zk zml_ops In] in Hop. repeat (destruct Hop as [Hop|Hop]; [discriminate Hop|]). destruct Hop.
    + rewrite app_length. lia.
Qed.

Lemma lexes_suffix text rest l : lexes text rest l -> exists p, text = p ++ rest.
Proof.
  intros H. induction H as [text|g x t y rest l Hg Hx Hd Ht H1 H2 H3 Hl [p IH]]; [exists []; reflexivity|].
  destruct (token_in_suffix _ _ _ _ _ _ _ Ht) as [px Ex]. exists (g ++ px ++ p). rewrite Ex, IH, <- !app_assoc. reflexivity.
Qed.
Lemma comment_length k : comment k -> 1 <= length k.
Proof. intros [s body e Hs _ _|body _ _]; rewrite app_length; [destruct Hs as [->| ->]|]; cbn [length lit list_ascii_of_string]; lia. Qed.

(** an operator of which only the first character belongs to the next lexeme has one character *)
Lemma op_consumed z y l op : lexes (z :: y) y l -> ~ delimiter zk z -> ~ quotation zk z -> operator_at zk (z :: y) op -> length op <= 1.
Proof.
  intros H Hd Hq Ho. remember (z :: y) as text eqn:E. revert E.
  destruct H as [text|g x t y1 rest l Hg Hx Hdx Ht H1 H2 H3 Hl]; intros E.
  { exfalso. apply (f_equal (@length ascii)) in E. cbn [length] in E. lia. }
  destruct (lexes_suffix _ _ _ Hl) as [p Ep].
  pose proof (token_in_progress _ _ _ zk_plain _ _ _ Ht Hx Hdx) as Hlt.
  assert (Hlen : length g = 0).
  { apply (f_equal (@length ascii)) in E. rewrite app_length in E. cbn [length] in E. rewrite Ep, app_length in Hlt. lia. }
  destruct g; [|discriminate]. cbn [app] in E. subst x. clear Hg Hlen Hx Hdx H1 H2 H3 Hl.
  remember true as first eqn:Ef. revert Ef Hlt. remember (z :: rest) as x eqn:Ex. revert Ex Ho.
  destruct Ht as [first run y2 H Hy|first run z2 r op2 H Hdz Hqz Hoz Hf|z2 r op2 y2 Hdz Hqz Hoz He|first run q text d rest2 t y2 H Hqq Hs Ht];
    intros Ex Ho Ef Hlt.
  - destruct run as [|r0 run].
    + cbn [app] in Ex. destruct Hy as [->|[a [r [-> Ha]]]]; [discriminate|]. injection Ex as -> _. contradiction.
    + inversion H as [|? ? ? _ _ Hno _]; subst. destruct Ho as [Hop [[r' E'] _]]. exfalso. exact (Hno op r' Hop E').
  - destruct run as [|r0 run]; [destruct Hf as [Hf|Hf]; congruence|].
    inversion H as [|? ? ? _ _ Hno _]; subst. destruct Ho as [Hop [[r' E'] _]]. exfalso. exact (Hno op r' Hop E').
  - destruct Ho as [Hop [[r' E'] _]]. destruct Hoz as [_ [_ Hm]]. specialize (Hm op r' Hop E').
    rewrite He, app_length in Hlt. apply (f_equal (@length ascii)) in Ex. rewrite He, app_length in Ex. cbn [length] in Ex.
    rewrite Ep, app_length in Ex. lia.
  - destruct run as [|r0 run].
    + injection Ex as -> _. contradiction.
    + inversion H as [|? ? ? _ _ Hno _]; subst. destruct Ho as [Hop [[r' E'] _]]. exfalso. exact (Hno op r' Hop E').
Qed.

(** case 2: layout inserted after later tokens *)
Lemma tail_later p c u b g y l : blank b -> lexes ((c :: u) ++ y) y l -> tail_ok p ((c :: u) ++ y) ((c :: u) ++ (b :: g) ++ y).
Proof.
  intros Hb Hl. split; [|split].
  - intros [H|[[z [r [E Hz]]]|[z [r [op [E [Hd [Hq Ho]]]]]]]]; [discriminate| |].
    + right. left. injection E as -> _. eexists _, _. split; [reflexivity|exact Hz].
    + right. right. injection E as -> E. destruct u as [|u0 u].
      * exists z, ((b :: g) ++ y), op. split; [reflexivity|]. split; [exact Hd|]. split; [exact Hq|].
        cbn [app] in E. subst r. pose proof (op_consumed z y l op Hl Hd Hq Ho) as Hlen.
        destruct Ho as [Hop [[r' E'] Hm]]. destruct op as [|o1 op].
        { cbn [lex_ops zk zml_ops In] in Hop. repeat (destruct Hop as [Hop|Hop]; [discriminate Hop|]). destruct Hop. }
        cbn [length] in Hlen. destruct op; [|cbn in Hlen; lia]. cbn [app] in E'. injection E' as <- _.
        split; [exact Hop|]. split; [exists ((b :: g) ++ y); reflexivity|]. intros op' r2 Hop' E2.
        change (([z] ++ (b :: g) ++ y)) with ([z] ++ b :: (g ++ y)) in E2.
        destruct (op_inside op' [z] b (g ++ y) r2 Hop' E2 Hb) as [v [Ev _]].
        -- intros -> Ez. injection Ez as ->. clear -Hop. cbn [lex_ops zk zml_ops In] in Hop.
           repeat (destruct Hop as [Hop|Hop]; [discriminate Hop|]). destruct Hop.
        -- rewrite Ev, app_length. lia.
      * exists z, ((u0 :: u) ++ (b :: g) ++ y), op. split; [reflexivity|]. split; [exact Hd|]. split; [exact Hq|].
        apply (op_at_two ((z :: u0 :: u) ++ y)); [reflexivity|exact Ho].
  - intros s1 s2 _ Hne. apply no_op_two. destruct s2 as [|s0 [|s' s2]]; [congruence|reflexivity|reflexivity].
  - intros s1 s2 _ Ho. eapply op_at_two; [|exact Ho]. destruct s2 as [|s0 [|s' s2]]; [|reflexivity|reflexivity].
    destruct Ho as [Hop _]. cbn [lex_ops zk zml_ops In] in Hop. repeat (destruct Hop as [Hop|Hop]; [discriminate Hop|]). destruct Hop.
Qed.

Lemma lexes_insert text rest l : lexes text rest l -> forall p b g, text = p ++ rest -> rest <> [] -> blank b ->
  ~ splits_colon p (b :: g) -> lexes (p ++ (b :: g) ++ rest) ((b :: g) ++ rest) l.
Proof.
  intros H. induction H as [text|g0 x t y rest l Hg Hx Hd Ht H1 H2 H3 Hl IH]; intros p b g E Hne Hb Hc.
  - assert (p = []) by (apply (app_inv_tail text); rewrite <- E; reflexivity). subst p. constructor.
  - destruct (token_in_suffix _ _ _ _ _ _ _ Ht) as [px Ex]. destruct (lexes_suffix _ _ _ Hl) as [p2 Ey].
    assert (Ep : p = g0 ++ px ++ p2) by (apply (app_inv_tail rest); rewrite <- E, Ex, Ey, <- !app_assoc; reflexivity).
    subst p. rewrite <- !app_assoc.
    assert (Hpx : px <> []).
    { intros ->. pose proof (token_in_progress _ _ _ zk_plain _ _ _ Ht Hx Hd) as Hlt. rewrite Ex in Hlt. cbn in Hlt. lia. }
    assert (Hyne : y <> []) by (rewrite Ey; destruct p2; [exact Hne|discriminate]).
    apply (lx_token g0 (px ++ p2 ++ (b :: g) ++ rest) t (p2 ++ (b :: g) ++ rest)); try assumption.
    + destruct px; [congruence|discriminate].
    + destruct px as [|z px]; [congruence|]. intros z' r [= <- _]. apply (Hd z (px ++ y)). exact Ex.
    + apply (token_local true x t y Ht px (p2 ++ (b :: g) ++ rest) Ex Hyne).
      * intros _ [z [r [Ez Hz]]]. rewrite Ey in Ez. destruct p2 as [|z2 p2].
        -- exists b, (g ++ rest). split; [reflexivity|]. left. exact Hb.
        -- injection Ez as -> _. eexists _, _. split; [reflexivity|exact Hz].
      * rewrite Ey in *. destruct p2 as [|z2 p2].
        -- apply tail_insert; [exact Hb|]. intros [S1 S2]. apply Hc. split; [|exact S2].
           rewrite app_nil_r, last_app by exact Hpx. exact S1.
        -- eapply tail_later; [exact Hb|exact Hl].
    + apply IH; [exact Ey|exact Hne|exact Hb|]. intros [S1 S2]. apply Hc. split; [|exact S2].
      destruct p2 as [|z2 p2]; [discriminate S1|]. rewrite !last_app by (try discriminate; destruct px; discriminate). exact S1.
Qed.

Lemma insert_layout include p y l b g : lexes (p ++ y) y l -> y <> [] -> blank b -> layout (b :: g) -> ~ splits_colon p (b :: g) ->
  parse_zml include (p ++ (b :: g) ++ y) = parse_zml include (p ++ y).
Proof.
  intros Hl Hne Hb Hg Hc. apply alike_parse. right.
  exists (p ++ (b :: g) ++ y), (p ++ y), ((b :: g) ++ y), y, l.
  split; [right; reflexivity|]. split; [right; reflexivity|].
  split; [eapply lexes_insert; try eassumption; reflexivity|]. split; [exact Hl|]. apply zml_layout. exact Hg.
Qed.

(** ** concrete documents *)
Lemma lexes_compute b z r t y rest l : blanks b -> is_blank z = false -> z <> nul ->
  get_token zml_cfg (mk (z :: r)) = Ok (t, mk y) -> is_comment_token t = false -> lexes y rest l ->
  lexes (b ++ z :: r) rest (t :: l).
Proof.
  intros Hb Hz Hn Ht Hc Hl. apply token_iff in Ht. destruct Ht as [x [[b' [E [Hb' _]]] Ht]].
  assert (Hd : ~ delimiter zk z) by (rewrite delimiter_iff; intros [H|H]; congruence).
  assert (b' = []).
  { destruct b' as [|z' b']; [reflexivity|]. injection E as <- _. apply Forall_inv in Hb'. contradiction. }
  subst b'. cbn [app] in E. subst x. apply comment_token_iff in Hc. destruct Hc as [H1 [H2 H3]].
  apply (lx_token b (z :: r) t y); try assumption; [|discriminate|].
  - clear -Hb. induction Hb as [|x b Hx Hb IH]; [constructor|]. apply ly_blank; [apply is_blank_iff; exact Hx|exact IH].
  - intros z' r' [= <- _]. exact Hd.
Qed.

(** trees that are written but not read back *)
Definition lost (t : pn) : Prop :=
  exists text, write_zml t = Ok text /\ forall t', parse_zml (fun _ => Throw) text = Ok t' -> ~ same_tree t' t.
Definition leaf (k v : str) : str * pn := (k, PN v [] false).

Lemma not_same_refl t u : same_tree t u -> fresh t = fresh u.
Proof.
  revert u. induction t as [v cs a IH] using pn_ind'. intros u H. inversion H as [v' cs1 cs2 a1 a2 Hf E1 E2]; subst.
  cbn [fresh]. f_equal. clear H. revert cs2 Hf. induction IH as [|kc cs Hkc _ IHcs]; intros cs2 Hf; inversion Hf as [|? kc2 ? cs2' [Hk Hs] Hf']; subst; [reflexivity|].
  cbn [map]. rewrite Hk, (Hkc _ Hs), (IHcs _ Hf'). reflexivity.
Qed.
Ltac lost_by := eexists; split; [vm_compute; reflexivity|]; vm_compute;
  intros t' E; first [discriminate E|injection E as <-; intros S; apply not_same_refl in S; vm_compute in S; discriminate S].

Lemma lost_equals : lost (PN [] [leaf (lit "k") (lit "a=b")] false).
Proof. lost_by. Qed.
Lemma lost_quote : lost (PN [] [leaf (lit "k") (lit "it's")] false).
Proof. lost_by. Qed.
Lemma lost_colon : lost (PN [] [(lit "k", PN [] [leaf (lit "a") (lit "b:")] false)] false).
Proof. lost_by. Qed.
Lemma lost_reference : lost (PN [] [leaf (lit "k") (lit "@home")] false).
Proof. lost_by. Qed.
Lemma lost_macro : lost (PN [] [leaf (lit "k") (lit "$5")] false).
Proof. lost_by. Qed.
Lemma lost_comment : lost (PN [] [leaf (lit "k") (lit "#")] false).
Proof. lost_by. Qed.
Lemma lost_empty_element : lost (PN [] [(lit "k", PN [] [leaf [] (lit "1"); leaf [] []; leaf [] (lit "2")] false)] false).
Proof. lost_by. Qed.
Lemma lost_root_array : lost (PN [] [leaf [] (lit "1"); leaf [] (lit "2")] false).
Proof. lost_by. Qed.
Lemma lost_byte : lost (PN [] [leaf (lit "k") [ascii_of_nat 200]] false).
Proof. lost_by. Qed.
Lemma lost_all : Forall (fun t => exists text, write_zml t = Ok text /\
    forall t', parse_zml (fun _ => Throw) text = Ok t' -> ~ same_tree t' t)
  [PN [] [(lit "k", PN (lit "a=b") [] false)] false;
   PN [] [(lit "k", PN (lit "it's") [] false)] false;
   PN [] [(lit "k", PN [] [(lit "a", PN (lit "b:") [] false)] false)] false;
   PN [] [(lit "k", PN (lit "@home") [] false)] false;
   PN [] [(lit "k", PN (lit "$5") [] false)] false;
   PN [] [(lit "k", PN (lit "#") [] false)] false;
   PN [] [(lit "k", PN [] [([], PN (lit "1") [] false); ([], PN [] [] false); ([], PN (lit "2") [] false)] false)] false;
   PN [] [([], PN (lit "1") [] false); ([], PN (lit "2") [] false)] false;
   PN [] [(lit "k", PN [ascii_of_nat 200] [] false)] false].
Proof.
  repeat (apply Forall_cons; [first [exact lost_equals|exact lost_quote|exact lost_colon|exact lost_reference|exact lost_macro
    |exact lost_comment|exact lost_empty_element|exact lost_root_array|exact lost_byte]|]). apply Forall_nil.
Qed.

Lemma concise_empty_throws : write_zml_concise (PN [] [] false) = Throw.
Proof. reflexivity. Qed.
Lemma concise_lost : exists t text, tree_ok true t = true /\ write_zml_concise t = Ok text /\
  forall t', parse_zml (fun _ => Throw) text = Ok t' -> ~ same_tree t' t.
Proof.
  exists (PN [] [(lit "a", PN [] [(lit "b", PN [] [] false)] false)] false). eexists. split; [vm_compute; reflexivity|].
  split; [vm_compute; reflexivity|]. vm_compute.
  intros t' E; first [discriminate E|injection E as <-; intros S; apply not_same_refl in S; vm_compute in S; discriminate S].
Qed.

(** a space inserted after a word ending in a colon *)
Lemma colon_space : exists p y l, lexes (p ++ y) y l /\ y <> [] /\
  parse_zml (fun _ => Throw) (p ++ lit " " ++ y) <> parse_zml (fun _ => Throw) (p ++ y).
Proof.
  exists (lit "k = a:"), (lf :: lit "b = 2"), [lit "k"; lit "="; lit "a:"]. split; [|split; [discriminate|vm_compute; discriminate]].
  apply (lexes_compute [] "k"%char (skipn 1 (lit "k = a:" ++ lf :: lit "b = 2")) (lit "k") (lit " = a:" ++ lf :: lit "b = 2"));
    [constructor|reflexivity|discriminate|vm_compute; reflexivity|reflexivity|].
  apply (lexes_compute (lit " ") "="%char (lit " a:" ++ lf :: lit "b = 2") (lit "=") (lit " a:" ++ lf :: lit "b = 2"));
    [repeat constructor|reflexivity|discriminate|vm_compute; reflexivity|reflexivity|].
  apply (lexes_compute (lit " ") "a"%char (lit ":" ++ lf :: lit "b = 2") (lit "a:") (lf :: lit "b = 2"));
    [repeat constructor|reflexivity|discriminate|vm_compute; reflexivity|reflexivity|].
  constructor.
Qed.
Lemma sample_lexes : lexes (lit "k=[1]" ++ lit "b=2") (lit "b=2") [lit "k"; lit "="; lit "["; lit "1"; lit "]"].
Proof.
  apply (lexes_compute [] "k"%char (lit "=[1]b=2") (lit "k") (lit "=[1]b=2"));
    [constructor|reflexivity|discriminate|vm_compute; reflexivity|reflexivity|].
  apply (lexes_compute [] "="%char (lit "[1]b=2") (lit "=") (lit "[1]b=2"));
    [constructor|reflexivity|discriminate|vm_compute; reflexivity|reflexivity|].
  apply (lexes_compute [] "["%char (lit "1]b=2") (lit "[") (lit "1]b=2"));
    [constructor|reflexivity|discriminate|vm_compute; reflexivity|reflexivity|].
  apply (lexes_compute [] "1"%char (lit "]b=2") (lit "1") (lit "]b=2"));
    [constructor|reflexivity|discriminate|vm_compute; reflexivity|reflexivity|].
  apply (lexes_compute [] "]"%char (lit "b=2") (lit "]") (lit "b=2"));
    [constructor|reflexivity|discriminate|vm_compute; reflexivity|reflexivity|].
  constructor.
Qed.
Lemma sample_lexes2 : lexes (lit "k = [" ++ lf :: lit "1 ] # one") (lit " # one") [lit "k"; lit "="; lit "["; lit "1"; lit "]"].
Proof.
  apply (lexes_compute [] "k"%char (lit " = [" ++ lf :: lit "1 ] # one") (lit "k") (lit " = [" ++ lf :: lit "1 ] # one"));
    [constructor|reflexivity|discriminate|vm_compute; reflexivity|reflexivity|].
  apply (lexes_compute (lit " ") "="%char (lit " [" ++ lf :: lit "1 ] # one") (lit "=") (lit " [" ++ lf :: lit "1 ] # one"));
    [repeat constructor|reflexivity|discriminate|vm_compute; reflexivity|reflexivity|].
  apply (lexes_compute (lit " ") "["%char (lf :: lit "1 ] # one") (lit "[") (lf :: lit "1 ] # one"));
    [repeat constructor|reflexivity|discriminate|vm_compute; reflexivity|reflexivity|].
  apply (lexes_compute [lf] "1"%char (lit " ] # one") (lit "1") (lit " ] # one"));
    [repeat constructor|reflexivity|discriminate|vm_compute; reflexivity|reflexivity|].
  apply (lexes_compute (lit " ") "]"%char (lit " # one") (lit "]") (lit " # one"));
    [repeat constructor|reflexivity|discriminate|vm_compute; reflexivity|reflexivity|].
  constructor.
Qed.
Lemma sample_lexes1 : lexes (lit "k=[1]") [] [lit "k"; lit "="; lit "["; lit "1"; lit "]"].
Proof.
  apply (lexes_compute [] "k"%char (lit "=[1]") (lit "k") (lit "=[1]"));
    [constructor|reflexivity|discriminate|vm_compute; reflexivity|reflexivity|].
  apply (lexes_compute [] "="%char (lit "[1]") (lit "=") (lit "[1]"));
    [constructor|reflexivity|discriminate|vm_compute; reflexivity|reflexivity|].
  apply (lexes_compute [] "["%char (lit "1]") (lit "[") (lit "1]"));
    [constructor|reflexivity|discriminate|vm_compute; reflexivity|reflexivity|].
  apply (lexes_compute [] "1"%char (lit "]") (lit "1") (lit "]"));
    [constructor|reflexivity|discriminate|vm_compute; reflexivity|reflexivity|].
  apply (lexes_compute [] "]"%char [] (lit "]") []);
    [constructor|reflexivity|discriminate|vm_compute; reflexivity|reflexivity|].
  constructor.
Qed.
Lemma sample_layout : layout (" "%char :: lit "/* } */" ++ lit "# x" ++ [lf]).
Proof.
  apply ly_blank; [left; reflexivity|]. apply ly_comment.
  - apply (cm_block (lit " } ")).
    + vm_compute. intros H. repeat (destruct H as [H|H]; [discriminate H|]). destruct H.
    + intros i [a [b [E _]]]. assert (Hin : In "/"%char (lit " } " ++ lit "*")).
      { rewrite E. apply in_or_app. right. apply in_or_app. left. right. left. reflexivity. }
      vm_compute in Hin. repeat (destruct Hin as [Hin|Hin]; [discriminate Hin|]). destruct Hin.
  - rewrite <- (app_nil_r (lit "# x" ++ [lf])). apply ly_comment; [|constructor].
    apply (cm_line (lit "#") (lit " x") lf); [left; reflexivity| |left; reflexivity].
    apply Forall_forall. intros x Hx. vm_compute in Hx.
    repeat (destruct Hx as [<-|Hx]; [split; [intros [H|H]; discriminate H|discriminate]|]). destruct Hx.
Qed.
