(** Proofs about char_stream. *)
From Coq Require Import Ascii String List Arith Bool NArith ZArith Lia.
From Verif Require Import Base BaseProofs Str StrSpec StrModel StrBase StrProofs TokSpec TokModel.
Import ListNotations.

Lemma eqb_true x y : Ascii.eqb x y = true <-> x = y.
Proof. apply Ascii.eqb_eq. Qed.
Lemma eqb_false x y : Ascii.eqb x y = false <-> x <> y.
Proof. apply Ascii.eqb_neq. Qed.

(** * strncmp, operators *)
Lemma strncmp_prefix op : ~ In nul op -> forall text, strncmp_eq op text (length op) = true <-> exists r, text = op ++ r.
Proof.
  induction op as [|x op IH]; intros Hn text; cbn [length strncmp_eq].
  - split; [intros _; exists text; reflexivity|reflexivity].
  - cbn [hd tl]. assert (Hx : x <> nul) by (intros ->; apply Hn; left; reflexivity).
    destruct text as [|y t]; cbn [hd tl].
    + replace (Ascii.eqb x nul) with false by (symmetry; apply eqb_false; exact Hx). cbn [negb].
      split; [discriminate|intros [r H]; discriminate H].
    + destruct (Ascii.eqb x y) eqn:E; cbn [negb].
      * apply eqb_true in E. subst y.
        replace (Ascii.eqb x nul) with false by (symmetry; apply eqb_false; exact Hx).
        rewrite IH by (intros H; apply Hn; right; exact H).
        split; intros [r H]; exists r; [rewrite H; reflexivity|injection H as H; exact H].
      * apply eqb_false in E. split; [discriminate|intros [r H]; injection H as H _; congruence].
Qed.

Lemma strncmp_prefix_r op : ~ In nul op -> forall text, strncmp_eq text op (length op) = true <-> exists r, text = op ++ r.
Proof.
  induction op as [|x op IH]; intros Hn text; cbn [length strncmp_eq].
  - split; [intros _; exists text; reflexivity|reflexivity].
  - cbn [hd tl]. assert (Hx : x <> nul) by (intros ->; apply Hn; left; reflexivity).
    destruct text as [|y t]; cbn [hd tl].
    + replace (Ascii.eqb nul x) with false by (symmetry; apply eqb_false; congruence). cbn [negb].
      split; [discriminate|intros [r H]; discriminate H].
    + destruct (Ascii.eqb y x) eqn:E; cbn [negb].
      * apply eqb_true in E. subst y.
        replace (Ascii.eqb x nul) with false by (symmetry; apply eqb_false; exact Hx).
        rewrite IH by (intros H; apply Hn; right; exact H).
        split; intros [r H]; exists r; [rewrite H; reflexivity|injection H as H; exact H].
      * apply eqb_false in E. split; [discriminate|intros [r H]; injection H as H _; congruence].
Qed.

Inductive by_length : list str -> Prop :=
| bl_nil : by_length []
| bl_cons op l : (forall o, In o l -> length o <= length op) -> by_length l -> by_length (op :: l).

Lemma insert_op_in op l o : In o (insert_op op l) <-> o = op \/ In o l.
Proof.
  induction l as [|a l IH]; cbn [insert_op].
  - cbn. intuition congruence.
  - destruct (_ <? _); cbn [In]; [intuition congruence|]. rewrite IH. intuition congruence.
Qed.
Lemma insert_op_sorted op l : by_length l -> by_length (insert_op op l).
Proof.
  intros H. induction H as [|a l Ha Hl IH]; cbn [insert_op].
  - constructor; [intros o []|constructor].
  - destruct (Nat.ltb_spec (length a) (length op)).
    + constructor; [|constructor; assumption]. intros o [<-|Ho]; [lia|]. specialize (Ha _ Ho). lia.
    + constructor; [|exact IH]. intros o Ho. apply insert_op_in in Ho. destruct Ho as [->|Ho]; [lia|auto].
Qed.
Lemma set_operators_in ops o : In o (set_operators ops) <-> In o ops.
Proof.
  induction ops as [|a l IH]; cbn [set_operators fold_right]; [tauto|].
  unfold set_operators in IH. rewrite insert_op_in, IH. cbn. intuition congruence.
Qed.
Lemma set_operators_sorted ops : by_length (set_operators ops).
Proof. induction ops as [|a l IH]; [constructor|]. apply insert_op_sorted. exact IH. Qed.

Section Tok.
  Context (ops : list str) (delims quotes : str).
  Let c := make_cfg ops delims quotes.
  Let k := LexCfg ops delims quotes.
  Hypothesis Hcfg : plain_cfg k.

  Lemma is_delim_iff x : is_delim c x = true <-> delimiter k x.
  Proof.
    unfold is_delim, delimiter, strchr. cbn [lex_delims c k make_cfg]. destruct Hcfg as [_ [Hd _]].
    rewrite c_str_id by exact Hd. rewrite orb_true_iff, in_set_In, eqb_true. tauto.
  Qed.
  Lemma is_delim_false x : is_delim c x = false <-> ~ delimiter k x.
  Proof. rewrite <- is_delim_iff. destruct (is_delim c x); intuition congruence. Qed.
  Lemma is_quote_iff x : ~ delimiter k x -> (is_quote c x = true <-> quotation k x).
  Proof.
    intros Hx. unfold is_quote, quotation, strchr. cbn [lex_quotes c k make_cfg]. destruct Hcfg as [_ [_ Hq]].
    rewrite c_str_id by exact Hq. rewrite orb_true_iff, in_set_In, eqb_true.
    assert (x <> nul) by (intros ->; apply Hx; right; reflexivity). tauto.
  Qed.
  Lemma is_quote_false x : ~ delimiter k x -> (is_quote c x = false <-> ~ quotation k x).
  Proof. intros Hx. rewrite <- (is_quote_iff x Hx). destruct (is_quote c x); intuition congruence. Qed.

  Lemma ops_plain o : In o ops -> o <> [] /\ ~ In nul o.
  Proof. destruct Hcfg as [H _]. cbn [lex_ops k] in H. rewrite Forall_forall in H. apply H. Qed.

  Lemma find_sorted text l : by_length l -> (forall o, In o l -> ~ In nul o) ->
    match List.find (fun op => strncmp_eq op text (length op)) l with
    | Some op => In op l /\ (exists r, text = op ++ r) /\ forall op' r, In op' l -> text = op' ++ r -> length op' <= length op
    | None => forall op r, In op l -> text <> op ++ r
    end.
  Proof.
    intros H Hn. induction H as [|op l Hop Hl IH]; cbn [List.find]; [intros op r []|].
    pose proof (strncmp_prefix op (Hn op (or_introl eq_refl)) text) as Hs.
    destruct (strncmp_eq op text (length op)).
    - split; [left; reflexivity|]. split; [apply Hs; reflexivity|].
      intros op' r [<-|Ho] _; [lia|auto].
    - specialize (IH (fun o Ho => Hn o (or_intror Ho))).
      destruct (List.find (fun op : str => strncmp_eq op text (length op)) l) as [op2|].
      + destruct IH as [H1 [H2 H3]]. split; [right; exact H1|]. split; [exact H2|].
        intros op' r [<-|Ho] E; [|eauto]. exfalso. assert (false = true); [apply Hs; eauto|discriminate].
      + intros op' r [<-|Ho] E; [|eapply IH; eauto]. assert (false = true); [apply Hs; eauto|discriminate].
  Qed.

  Lemma check_operator_spec text :
    match check_operator c text with Some op => operator_at k text op | None => no_operator_at k text end.
  Proof.
    unfold check_operator. cbn [lex_ops c make_cfg].
    pose proof (find_sorted text (set_operators ops) (set_operators_sorted ops)
      (fun o Ho => proj2 (ops_plain o (proj1 (set_operators_in ops o) Ho)))) as H.
    destruct (List.find (fun op : str => strncmp_eq op text (length op)) (set_operators ops)) as [op|].
    - destruct H as [H1 [H2 H3]]. split; [apply set_operators_in; exact H1|]. split; [exact H2|].
      intros op' r Ho. apply H3. apply set_operators_in. exact Ho.
    - intros op r Ho. apply H. apply set_operators_in. exact Ho.
  Qed.

  Lemma operator_at_fun text a b : operator_at k text a -> operator_at k text b -> a = b.
  Proof.
    intros [Ia [[r Ha] La]] [Ib [[u Hb] Lb]].
    pose proof (La _ _ Ib Hb). pose proof (Lb _ _ Ia Ha).
    apply (app_length_inj a r b u); [lia|congruence].
  Qed.
  Lemma check_operator_some text op : operator_at k text op -> check_operator c text = Some op.
  Proof.
    intros H. pose proof (check_operator_spec text) as S. destruct (check_operator c text) as [o|].
    - f_equal. eapply operator_at_fun; eassumption.
    - destruct H as [H1 [[r H2] _]]. exfalso. exact (S _ _ H1 H2).
  Qed.
  Lemma check_operator_none text : no_operator_at k text -> check_operator c text = None.
  Proof.
    intros H. pose proof (check_operator_spec text) as S. destruct (check_operator c text) as [o|]; [|reflexivity].
    destruct S as [S1 [[r S2] _]]. exfalso. exact (H _ _ S1 S2).
  Qed.

  (** * runs *)
  Lemma plain_run_snoc run x t : plain_run k run (x :: t) -> ~ delimiter k x -> ~ quotation k x ->
    no_operator_at k (x :: t) -> plain_run k (run ++ [x]) t.
  Proof.
    intros H Hd Hq Ho. remember (x :: t) as y eqn:E. induction H as [y|a run y Ha Hb Hc Hr IH]; subst y.
    - constructor; [exact Hd|exact Hq|exact Ho|constructor].
    - cbn [app]. constructor; [exact Ha|exact Hb| |apply IH; [reflexivity|exact Ho]].
      rewrite <- app_assoc. exact Hc.
  Qed.

  Lemma token_loop_run run y : plain_run k run y -> forall f r0 s,
    token_loop (length run + f) c r0 (run ++ y) s = token_loop f c (r0 ++ run) y s.
  Proof.
    intros H. induction H as [y|a run y Ha Hb Hc Hr IH]; intros f r0 s.
    - rewrite app_nil_r. reflexivity.
    - cbn [length plus app token_loop].
      rewrite (proj2 (is_delim_false a) Ha), (proj2 (is_quote_false a Ha) Hb), (check_operator_none _ Hc).
      rewrite IH, <- app_assoc. reflexivity.
  Qed.

  (** * quoted sections *)
  Lemma decode_some t : t <> [] -> exists d n, decode_char (bslash :: t) = Ok (d, S n) /\ n <= length t.
  Proof.
    intros Ht. destruct t as [|e t]; [congruence|]. unfold decode_char. rewrite Ascii.eqb_refl. cbn [negb].
    repeat (match goal with |- context [if Ascii.eqb ?a ?b then _ else _] => destruct (Ascii.eqb a b) end;
            [do 2 eexists; split; [reflexivity|cbn; lia]|]).
    assert (H : forall n buf v r, snd (read_octal n buf v r) <= r + n).
    { induction n as [|n IH]; intros buf v r; cbn [read_octal]; [cbn [snd]; lia|].
      destruct buf as [|x b]; cbn [snd]; [lia|]. destruct (_ && _); [|cbn [snd]; lia].
      specialize (IH b (v * 8 + (N_of_ascii x - 48))%N (S r)). lia. }
    specialize (H (Nat.min (length (e :: t)) 3) (e :: t) 0%N 0).
    destruct (read_octal _ _ _ _) as [v r]. cbn [snd] in H.
    destruct (_ && _); do 2 eexists; (split; [reflexivity|lia]).
  Qed.

  Lemma quote_loop_sound q f : forall text s s' y fl, quote_loop f q text s = Ok (s', y, fl) ->
    exists d, s' = s ++ d /\ quoted_section q text d y /\ (fl = true -> y = []).
  Proof.
    induction f as [|f IH]; intros text s s' y fl H; [discriminate|]. cbn [quote_loop] in H.
    destruct text as [|x t].
    - injection H as <- <- <-. exists [nul]. split; [reflexivity|]. split; [constructor|reflexivity].
    - destruct (Ascii.eqb x q) eqn:E1.
      + apply eqb_true in E1. subst x. injection H as <- <- <-. exists []. rewrite app_nil_r.
        split; [reflexivity|]. split; [constructor|discriminate].
      + apply eqb_false in E1. destruct (Ascii.eqb x bslash) eqn:E2.
        * apply eqb_true in E2. subst x.
          destruct t as [|e t].
          { (* lone backslash: the position does not move *)
            cbn [decode_char] in H. rewrite Ascii.eqb_refl in H. cbn [negb obind advance fst snd length Nat.leb skipn] in H.
            exfalso. clear -H E1. revert s H. induction f as [|f IH]; intros s H; [discriminate|].
            cbn [quote_loop] in H. replace (Ascii.eqb bslash q) with false in H by (symmetry; apply eqb_false; exact E1).
            rewrite Ascii.eqb_refl in H.
            cbn [decode_char] in H. rewrite Ascii.eqb_refl in H. cbn [negb obind advance fst snd length Nat.leb skipn] in H.
            eapply IH. exact H. }
          destruct (decode_some (e :: t)) as [d [n [Hd Hn]]]; [discriminate|].
          rewrite Hd in H. cbn [obind fst snd] in H. unfold advance in H.
          replace (S n <=? length (bslash :: e :: t)) with true in H by (symmetry; apply Nat.leb_le; cbn [length] in *; lia).
          cbn [obind] in H. change (skipn (S n) (bslash :: e :: t)) with (skipn n (e :: t)) in H.
          apply IH in H. destruct H as [d' [-> [Hq Hf]]]. exists (d :: d').
          rewrite <- app_assoc. split; [reflexivity|]. split; [|exact Hf].
          eapply qs_escape; [congruence|exact Hd|exact Hq].
        * apply eqb_false in E2. apply IH in H. destruct H as [d' [-> [Hq Hf]]]. exists (x :: d').
          rewrite <- app_assoc. split; [reflexivity|]. split; [|exact Hf]. constructor; assumption.
  Qed.

  Lemma quoted_section_length q text d r : quoted_section q text d r -> length r <= length text.
  Proof.
    intros H. induction H as [t|x t d r H1 H2 H IH|t x n d r H1 H2 H IH|]; cbn [length] in *; try lia.
    rewrite skipn_length in IH. lia.
  Qed.

  Lemma quote_loop_complete q text d r : quoted_section q text d r -> forall f s, length text < f ->
    exists fl, quote_loop f q text s = Ok (s ++ d, r, fl) /\ (fl = true -> r = []).
  Proof.
    intros H. induction H as [t|x t d r H1 H2 H IH|t x n d r H1 H2 H IH|]; intros f s Hf;
      (destruct f as [|f]; [lia|]); cbn [quote_loop length] in *.
    - rewrite Ascii.eqb_refl, app_nil_r. exists false. split; [reflexivity|discriminate].
    - rewrite (proj2 (eqb_false x q) H1), (proj2 (eqb_false x bslash) H2).
      destruct (IH f (s ++ [x])) as [fl [E Ef]]; [lia|]. exists fl. rewrite E, <- app_assoc. split; [reflexivity|exact Ef].
    - replace (Ascii.eqb bslash q) with false by (symmetry; apply eqb_false; congruence).
      rewrite Ascii.eqb_refl, H2. cbn [obind fst snd]. unfold advance.
      assert (Hn : S n <= length (bslash :: t)).
      { destruct t as [|e t]; [cbn [decode_char] in H2; rewrite Ascii.eqb_refl in H2; cbn in H2; discriminate|].
        destruct (decode_some (e :: t)) as [d' [m [Hd Hm]]]; [discriminate|].
        rewrite Hd in H2. injection H2 as <- <-. cbn [length] in *; lia. }
      replace (S n <=? length (bslash :: t)) with true by (symmetry; apply Nat.leb_le; exact Hn).
      cbn [obind skipn].
      destruct (IH f (s ++ [x])) as [fl [E Ef]]; [rewrite skipn_length; lia|].
      exists fl. rewrite E, <- app_assoc. split; [reflexivity|exact Ef].
    - exists true. split; reflexivity.
  Qed.

  (** * tokens *)
  Definition is_nil (s : str) : bool := match s with [] => true | _ => false end.
  Lemma is_nil_app a b : is_nil (a ++ b) = is_nil a && is_nil b.
  Proof. destruct a; reflexivity. Qed.

  Lemma token_in_nil first : token_in k first [] [] [].
  Proof. apply (tok_word k first [] []); [constructor|left; reflexivity]. Qed.

  Lemma token_in_nil_inv first x t y : token_in k first x t y -> x = [] -> t = [] /\ y = [].
  Proof.
    intros H. destruct H as [first run y H Hy|first run z r op H Hd Hq Ho Hf|z r op y Hd Hq Ho He|first run q text d rest t y H Hq Hs Ht];
      intros E.
    - apply app_eq_nil in E. exact E.
    - apply app_eq_nil in E. destruct E as [_ E]. discriminate E.
    - discriminate E.
    - apply app_eq_nil in E. destruct E as [_ E]. discriminate E.
  Qed.

  Lemma token_loop_sound f : forall run text s t y fl, plain_run k run text ->
    token_loop f c run text s = Ok (t, y, fl) ->
    exists t', t = s ++ t' /\ token_in k (is_nil s) (run ++ text) t' y /\ (fl = true -> y = []).
  Proof.
    induction f as [|f IH]; intros run text s t y fl Hrun H; [discriminate|]. cbn [token_loop] in H.
    destruct text as [|x u].
    { injection H as <- <- <-. exists run. split; [reflexivity|]. split; [|discriminate].
      apply tok_word; [exact Hrun|left; reflexivity]. }
    destruct (is_delim c x) eqn:Ed.
    { injection H as <- <- <-. exists run. split; [reflexivity|]. split; [|discriminate].
      apply tok_word; [exact Hrun|right]. exists x, u. split; [reflexivity|apply is_delim_iff; exact Ed]. }
    apply is_delim_false in Ed.
    destruct (is_quote c x) eqn:Eq.
    { apply (is_quote_iff x Ed) in Eq.
      destruct (quote_loop (S (length u)) x u s) as [[[s' y'] fl']| |] eqn:Ql; cbn [obind] in H; try discriminate.
      apply quote_loop_sound in Ql. destruct Ql as [d [-> [Hs Hf]]].
      destruct fl'.
      - injection H as <- <- <-. specialize (Hf eq_refl). subst y'. exists d. split; [reflexivity|].
        split; [|reflexivity]. rewrite <- (app_nil_r d) at 1. eapply tok_quoted; [exact Hrun|exact Eq|exact Hs|].
        apply token_in_nil.
      - apply IH in H; [|constructor]. destruct H as [t' [-> [Ht Hfl]]]. exists (d ++ t').
        rewrite app_assoc. split; [reflexivity|]. split; [|exact Hfl].
        eapply tok_quoted; [exact Hrun|exact Eq|exact Hs|]. rewrite is_nil_app in Ht. exact Ht. }
    apply (is_quote_false x Ed) in Eq.
    pose proof (check_operator_spec (x :: u)) as Ho. destruct (check_operator c (x :: u)) as [op|].
    - assert (Hgen : (is_nil s = false \/ run <> []) -> Ok (s ++ run, x :: u, false) = Ok (t, y, fl) ->
        exists t' : list ascii, t = s ++ t' /\ token_in k (is_nil s) (run ++ x :: u) t' y /\ (fl = true -> y = [])).
      { intros Hne [= <- <- <-]. exists run. split; [reflexivity|]. split; [|discriminate].
        eapply tok_word_operator; eassumption. }
      destruct run as [|r0 run]; [|apply Hgen; [right; discriminate|exact H]].
      destruct s as [|s0 s]; [|apply Hgen; [left; reflexivity|exact H]].
      clear Hgen. destruct Ho as [Ho1 [[r Ho2] Ho3]]. unfold advance in H.
      replace (length op <=? length (x :: u)) with true in H
        by (symmetry; apply Nat.leb_le; rewrite Ho2, app_length; lia).
      cbn [obind] in H. injection H as <- <- <-. exists op. split; [reflexivity|]. split; [|discriminate].
      cbn [app is_nil].
      assert (Es : x :: u = op ++ skipn (length op) (x :: u)).
      { rewrite Ho2. rewrite skipn_length_app. reflexivity. }
      apply tok_operator; [exact Ed|exact Eq|split; [exact Ho1|split; [exists r; exact Ho2|exact Ho3]]|exact Es].
    - apply IH in H; [|apply plain_run_snoc; assumption].
      destruct H as [t' [-> [Ht Hf]]]. exists t'. split; [reflexivity|]. split; [|exact Hf].
      rewrite <- app_assoc in Ht. exact Ht.
  Qed.

  Lemma token_in_length first x t y : token_in k first x t y -> length y <= length x.
  Proof.
    intros H. induction H as [first run y H Hy|first run z r op H Hd Hq Ho Hf|z r op y Hd Hq Ho He|first run q text d rest t y H Hq Hs Ht IH];
      rewrite ?He, ?app_length; try lia.
    apply quoted_section_length in Hs. cbn [length]. lia.
  Qed.

  Lemma token_loop_complete first x t y : token_in k first x t y -> forall f s, length x < f -> first = is_nil s ->
    exists fl, token_loop f c [] x s = Ok (s ++ t, y, fl) /\ (fl = true -> y = []).
  Proof.
    intros H. induction H as [first run y H Hy|first run z r op H Hd Hq Ho Hf|z r op y Hd Hq Ho He|first run q text d rest t y H Hq Hs Ht IH];
      intros f s Hlen Hfirst.
    - rewrite app_length in Hlen. replace f with (length run + S (f - length run - 1)) by lia.
      rewrite token_loop_run by exact H. exists false. split; [|discriminate]. cbn [app token_loop].
      destruct Hy as [->|[x [r [-> Hx]]]]; [reflexivity|]. rewrite (proj2 (is_delim_iff x) Hx). reflexivity.
    - rewrite app_length in Hlen. replace f with (length run + S (f - length run - 1)) by lia.
      rewrite token_loop_run by exact H. exists false. split; [|discriminate]. cbn [app token_loop].
      rewrite (proj2 (is_delim_false z) Hd), (proj2 (is_quote_false z Hd) Hq), (check_operator_some _ _ Ho).
      destruct run as [|r0 run]; [|reflexivity]. destruct s as [|s0 s]; [|reflexivity].
      destruct Hf as [Hf|Hf]; [rewrite Hf in Hfirst; discriminate Hfirst|congruence].
    - destruct f as [|f]; [lia|]. cbn [token_loop].
      rewrite (proj2 (is_delim_false z) Hd), (proj2 (is_quote_false z Hd) Hq), (check_operator_some _ _ Ho).
      destruct s as [|s0 s]; [|discriminate Hfirst]. unfold advance. rewrite He.
      replace (length op <=? length (op ++ y)) with true by (symmetry; apply Nat.leb_le; rewrite app_length; lia).
      cbn [obind app]. rewrite skipn_length_app. exists false. split; [reflexivity|discriminate].
    - rewrite app_length in Hlen. cbn [length] in Hlen.
      replace f with (length run + S (f - length run - 1)) by lia.
      rewrite token_loop_run by exact H. cbn [app token_loop].
      rewrite (proj2 (is_delim_false q) (proj2 Hq)), (proj2 (is_quote_iff q (proj2 Hq)) Hq).
      destruct (quote_loop_complete q text d rest Hs (S (length text)) s) as [fl [E Ef]]; [lia|].
      rewrite E. cbn [obind]. pose proof (quoted_section_length _ _ _ _ Hs) as Hl. destruct fl.
      + destruct (token_in_nil_inv _ _ _ _ Ht (Ef eq_refl)) as [-> ->]. rewrite (Ef eq_refl).
        exists true. rewrite app_nil_r. split; reflexivity.
      + destruct (IH (f - length run - 1) (s ++ d)) as [fl [E2 Ef2]]; [lia| |].
        * rewrite Hfirst, is_nil_app. reflexivity.
        * exists fl. rewrite E2, app_assoc. split; [reflexivity|exact Ef2].
  Qed.

  (** * get_token *)
  Lemma skip_delims_spec text : exists b, text = b ++ skip_delims c text /\ Forall (delimiter k) b /\
    (forall x r, skip_delims c text = x :: r -> ~ delimiter k x).
  Proof.
    induction text as [|x t IH]; cbn [skip_delims].
    - exists []. split; [reflexivity|]. split; [constructor|discriminate].
    - destruct (is_delim c x) eqn:E.
      + destruct IH as [b [H1 [H2 H3]]]. exists (x :: b). cbn [app]. rewrite <- H1. split; [reflexivity|].
        split; [constructor; [apply is_delim_iff; exact E|exact H2]|exact H3].
      + exists []. split; [reflexivity|]. split; [constructor|]. intros y r [= <- <-]. apply is_delim_false. exact E.
  Qed.
  Lemma skip_delims_app b x : Forall (delimiter k) b -> (forall y r, x = y :: r -> ~ delimiter k y) ->
    skip_delims c (b ++ x) = x.
  Proof.
    intros Hb Hx. induction Hb as [|y b Hy Hb IH]; cbn [app skip_delims].
    - destruct x as [|y r]; [reflexivity|]. cbn [skip_delims].
      rewrite (proj2 (is_delim_false y) (Hx _ _ eq_refl)). reflexivity.
    - rewrite (proj2 (is_delim_iff y) Hy). exact IH.
  Qed.

  Definition starts_token (text x : str) : Prop :=
    exists b, text = b ++ x /\ Forall (delimiter k) b /\ (forall y r, x = y :: r -> ~ delimiter k y).
  Lemma starts_token_iff text x : starts_token text x <-> x = skip_delims c text.
  Proof.
    split.
    - intros [b [-> [Hb Hx]]]. symmetry. apply skip_delims_app; assumption.
    - intros ->. apply skip_delims_spec.
  Qed.

  Lemma get_token_good text : get_token c (CS text false false) =
    match skip_delims c text with
    | [] => Ok ([], CS [] false true)
    | x => do r <- token_loop (S (length x)) c [] x [];
      let '(t, y, fl) := r in Ok (t, fst (test_eof (CS y false fl)))
    end.
  Proof.
    unfold get_token, skip_delimiters. cbn [cs_rest cs_fail cs_eof].
    destruct (skip_delims c text) as [|x u]; cbn [test_eof cs_rest fst]; [reflexivity|].
    cbn [good cs_fail cs_eof orb negb]. reflexivity.
  Qed.

  Lemma get_token_iff text t s' :
    get_token c (CS text false false) = Ok (t, s') <->
    exists x, starts_token text x /\ token_in k true x t (cs_rest s') /\
      cs_fail s' = false /\ cs_eof s' = match cs_rest s' with [] => true | _ => false end.
  Proof.
    rewrite get_token_good. split.
    - intros H. exists (skip_delims c text). split; [apply starts_token_iff; reflexivity|].
      destruct (skip_delims c text) as [|x u].
      + injection H as <- <-. cbn [cs_rest cs_fail cs_eof]. split; [apply token_in_nil|]. split; reflexivity.
      + cbv zeta in H. destruct (token_loop _ _ _ _ _) as [[[t' y] fl]| |] eqn:E; cbn [obind] in H; try discriminate.
        injection H as <- <-. apply token_loop_sound in E; [|constructor].
        destruct E as [t'' [-> [Ht Hf]]]. cbn [app is_nil] in Ht.
        destruct y as [|y0 y]; cbn [test_eof cs_rest cs_fail cs_eof fst]; (split; [exact Ht|]); (split; [reflexivity|]).
        * reflexivity.
        * destruct fl; [specialize (Hf eq_refl); discriminate|reflexivity].
    - intros [x [Hx [Ht [Hfail Heof]]]]. apply starts_token_iff in Hx. rewrite <- Hx.
      destruct s' as [y fa eo]. cbn [cs_rest cs_fail cs_eof] in *. subst fa.
      destruct x as [|x0 x].
      + destruct (token_in_nil_inv _ _ _ _ Ht eq_refl) as [-> ->]. rewrite Heof. reflexivity.
      + destruct (token_loop_complete _ _ _ _ Ht (S (length (x0 :: x))) [] (Nat.lt_succ_diag_r _) eq_refl) as [fl [E Ef]].
        rewrite E. cbn [obind app]. destruct y as [|y0 y]; cbn [test_eof cs_rest fst cs_fail]; rewrite Heof; [reflexivity|].
        destruct fl; [specialize (Ef eq_refl); discriminate|reflexivity].
  Qed.

  (** * totality *)
  Definition complete (text : str) : Prop := last text nul <> bslash.

  Lemma complete_suffix p y : complete (p ++ y) -> complete y.
  Proof.
    unfold complete. induction p as [|x p IH]; [auto|]. cbn [app]. intros H. apply IH. intros E. apply H.
    destruct (p ++ y) as [|a l] eqn:El; [|cbn; exact E].
    cbn in E. discriminate E.
  Qed.
  Lemma complete_skipn n y : complete y -> complete (skipn n y).
  Proof. intros H. rewrite <- (firstn_skipn n y) in H. eapply complete_suffix. exact H. Qed.

  Lemma quoted_section_total q n : forall text, length text <= n -> complete text -> exists d r, quoted_section q text d r.
  Proof.
    induction n as [|n IH]; intros text Hn Hc.
    - destruct text; [|cbn in Hn; lia]. exists [nul], []. constructor.
    - destruct text as [|x t]; [exists [nul], []; constructor|]. cbn [length] in Hn.
      assert (Ht : complete t) by (apply (complete_suffix [x]); exact Hc).
      destruct (ascii_dec x q) as [->|Hq]; [exists [], t; constructor|].
      destruct (ascii_dec x bslash) as [->|Hb].
      + assert (Hne : t <> []) by (intros ->; apply Hc; reflexivity).
        destruct (decode_some t Hne) as [d [m [Hd Hm]]].
        destruct (IH (skipn m t)) as [d' [r Hr]]; [rewrite skipn_length; lia|apply complete_skipn; exact Ht|].
        exists (d :: d'), r. eapply qs_escape; [congruence|exact Hd|exact Hr].
      + destruct (IH t) as [d' [r Hr]]; [lia|exact Ht|]. exists (x :: d'), r. constructor; assumption.
  Qed.

  Lemma quoted_section_suffix q text d r : quoted_section q text d r -> suffix_of r text.
  Proof.
    intros H. induction H as [t|x t d r H1 H2 H IH|t x n d r H1 H2 H IH|].
    - exists [q]. reflexivity.
    - destruct IH as [p ->]. exists (x :: p). reflexivity.
    - destruct IH as [p E]. exists (bslash :: firstn n t ++ p). cbn [app]. f_equal.
      rewrite <- app_assoc, <- E. symmetry. apply firstn_skipn.
    - exists []. reflexivity.
  Qed.

  Lemma run_split text : exists run y, text = run ++ y /\ plain_run k run y /\
    (y = [] \/ exists x r, y = x :: r /\ (delimiter k x \/ quotation k x \/ (~ delimiter k x /\ ~ quotation k x /\ exists op, operator_at k y op))).
  Proof.
    induction text as [|x t IH].
    - exists [], []. split; [reflexivity|]. split; [constructor|left; reflexivity].
    - destruct (is_delim c x) eqn:Ed.
      { exists [], (x :: t). split; [reflexivity|]. split; [constructor|right]. exists x, t. split; [reflexivity|].
        left. apply is_delim_iff. exact Ed. }
      apply is_delim_false in Ed. destruct (is_quote c x) eqn:Eq.
      { exists [], (x :: t). split; [reflexivity|]. split; [constructor|right]. exists x, t. split; [reflexivity|].
        right. left. apply is_quote_iff; assumption. }
      apply (is_quote_false x Ed) in Eq. pose proof (check_operator_spec (x :: t)) as Ho.
      destruct (check_operator c (x :: t)) as [op|].
      + exists [], (x :: t). split; [reflexivity|]. split; [constructor|right]. exists x, t. split; [reflexivity|].
        right. right. split; [exact Ed|]. split; [exact Eq|]. exists op. exact Ho.
      + destruct IH as [run [y [-> [Hr Hy]]]]. exists (x :: run), y. split; [reflexivity|].
        split; [constructor; assumption|exact Hy].
  Qed.

  Lemma token_in_total n : forall text first, length text <= n -> complete text -> exists t y, token_in k first text t y.
  Proof.
    induction n as [|n IH]; intros text first Hn Hc.
    - destruct text; [|cbn in Hn; lia]. exists [], []. apply token_in_nil.
    - destruct (run_split text) as [run [y [-> [Hr Hy]]]].
      destruct Hy as [->|[x [r [-> Hx]]]].
      { exists run, []. apply tok_word; [exact Hr|left; reflexivity]. }
      destruct Hx as [Hx|[Hx|[Hd [Hq [op Ho]]]]].
      + exists run, (x :: r). apply tok_word; [exact Hr|right; eauto].
      + assert (Hc2 : complete r).
        { apply (complete_suffix (run ++ [x])). rewrite <- app_assoc. exact Hc. }
        destruct (quoted_section_total x (length r) r (Nat.le_refl _) Hc2) as [d [z Hz]].
        pose proof (quoted_section_suffix _ _ _ _ Hz) as [p Ep].
        destruct (IH z (first && match d with [] => true | _ => false end)) as [t [y Ht]].
        * rewrite app_length in Hn. cbn [length] in Hn. rewrite Ep, app_length in Hn. lia.
        * rewrite Ep in Hc2. eapply complete_suffix. exact Hc2.
        * exists (d ++ t), y. eapply tok_quoted; eassumption.
      + destruct run as [|r0 run].
        * destruct first.
          { destruct Ho as [H1 [[u H2] H3]]. exists op, u. cbn [app].
            apply tok_operator; [exact Hd|exact Hq|split; [exact H1|split; [exists u; exact H2|exact H3]]|exact H2]. }
          exists [], (x :: r). eapply tok_word_operator; [exact Hr|exact Hd|exact Hq|exact Ho|left; reflexivity].
        * exists (r0 :: run), (x :: r). eapply tok_word_operator; [exact Hr|exact Hd|exact Hq|exact Ho|right; discriminate].
  Qed.

  Lemma token_in_suffix first x t y : token_in k first x t y -> suffix_of y x.
  Proof.
    intros H. induction H as [first run y H Hy|first run z r op H Hd Hq Ho Hf|z r op y Hd Hq Ho He|first run q text d rest t y H Hq Hs Ht IH].
    - exists run. reflexivity.
    - exists run. reflexivity.
    - exists op. exact He.
    - destruct IH as [p ->]. apply quoted_section_suffix in Hs. destruct Hs as [p' ->].
      exists (run ++ q :: p' ++ p). rewrite <- !app_assoc. cbn [app]. rewrite <- app_assoc. reflexivity.
  Qed.

  Lemma token_in_progress x t y : token_in k true x t y -> x <> [] ->
    (forall a r, x = a :: r -> ~ delimiter k a) -> length y < length x.
  Proof.
    intros H Hx Hd. remember true as first eqn:Ef. revert Ef Hx Hd.
    destruct H as [first run y H Hy|first run z r op H Hdz Hq Ho Hf|z r op y Hdz Hq Ho He|first run q text d rest t y H Hq Hs Ht];
      intros Ef Hx Hd.
    - rewrite app_length. destruct run as [|r0 run]; [|cbn; lia]. destruct Hy as [->|[a [r [-> Ha]]]]; [exfalso; apply Hx; reflexivity|].
      exfalso. exact (Hd _ _ eq_refl Ha).
    - rewrite app_length. destruct run as [|r0 run]; [|cbn; lia]. destruct Hf; congruence.
    - destruct Ho as [Ho _]. apply ops_plain in Ho. destruct Ho as [Ho _]. rewrite He, app_length.
      destruct op; [congruence|cbn; lia].
    - apply token_in_length in Ht. apply quoted_section_length in Hs. rewrite app_length. cbn [length]. lia.
  Qed.

  Lemma get_token_total s : complete (cs_rest s) -> exists t s', get_token c s = Ok (t, s') /\
    suffix_of (cs_rest s') (cs_rest s).
  Proof.
    intros Hc. destruct s as [text fa eo]. cbn [cs_rest] in *.
    destruct (skip_delims_spec text) as [b [Eb [Hb Hx]]].
    destruct (negb (fa || eo)) eqn:Eg.
    - apply negb_true_iff, orb_false_iff in Eg. destruct Eg as [-> ->].
      assert (Hcx : complete (skip_delims c text)) by (apply (complete_suffix b); rewrite <- Eb; exact Hc).
      destruct (token_in_total _ _ true (Nat.le_refl _) Hcx) as [t [y Ht]].
      exists t, (CS y false (match y with [] => true | _ => false end)). split.
      + apply get_token_iff. exists (skip_delims c text). split; [apply starts_token_iff; reflexivity|].
        cbn [cs_rest cs_fail cs_eof]. split; [exact Ht|]. split; reflexivity.
      + cbn [cs_rest]. apply token_in_suffix in Ht. destruct Ht as [p Ep]. exists (b ++ p).
        rewrite <- app_assoc, <- Ep. exact Eb.
    - unfold get_token. unfold skip_delimiters. cbn [cs_rest cs_fail cs_eof].
      destruct (skip_delims c text) as [|x u] eqn:Ex; cbn [test_eof cs_rest cs_fail cs_eof fst].
      + destruct fa; cbn [good cs_fail cs_eof orb negb]; do 2 eexists; (split; [reflexivity|]); cbn [test_eof cs_rest fst];
          exists text; symmetry; apply app_nil_r.
      + cbn [good cs_fail cs_eof]. unfold good. cbn [cs_fail cs_eof]. rewrite Eg. do 2 eexists. split; [reflexivity|].
        cbn [test_eof cs_rest fst]. exists b. exact Eb.
  Qed.

  (** * the other operations *)
  Lemma suffix_skipn n (x : str) : suffix_of (skipn n x) x.
  Proof. exists (firstn n x). symmetry. apply firstn_skipn. Qed.
  Lemma suffix_refl (x : str) : suffix_of x x.
  Proof. exists []. reflexivity. Qed.
  Lemma suffix_nil (x : str) : suffix_of [] x.
  Proof. exists x. symmetry. apply app_nil_r. Qed.
  Lemma suffix_trans (x y z : str) : suffix_of x y -> suffix_of y z -> suffix_of x z.
  Proof. intros [p ->] [q ->]. exists (q ++ p). apply app_assoc. Qed.

  Lemma c_str_suffix s : exists r, s = c_str s ++ r.
  Proof.
    induction s as [|x s [r IH]]; cbn [c_str]; [exists []; reflexivity|].
    destruct (Ascii.eqb x nul); [exists (x :: s); reflexivity|]. exists r. cbn [app]. rewrite <- IH. reflexivity.
  Qed.

  Lemma test_eof_suffix s : suffix_of (cs_rest (fst (test_eof s))) (cs_rest s).
  Proof. destruct s as [[|x t] fa eo]; cbn; apply suffix_refl. Qed.

  Lemma lex_step_ok s o : plain_op o -> complete (cs_rest s) ->
    exists s', lex_step c s o = Ok s' /\ suffix_of (cs_rest s') (cs_rest s).
  Proof.
    intros Ho Hc. destruct o as [| | | |x|x|x|x]; cbn [lex_step].
    - destruct (get_token_total s Hc) as [t [s' [E H]]]. exists s'. rewrite E. split; [reflexivity|exact H].
    - eexists. split; [reflexivity|]. unfold get_line. destruct (cs_rest s) as [|a l] eqn:E; cbn [snd cs_rest].
      + apply suffix_refl.
      + apply suffix_skipn.
    - eexists. split; [reflexivity|]. unfold getc. destruct (cs_rest s) as [|a l] eqn:E; cbn [snd cs_rest].
      + apply suffix_refl.
      + exists [a]. reflexivity.
    - eexists. split; [reflexivity|]. unfold peekc. destruct (cs_rest s) as [|a l] eqn:E; cbn [snd cs_rest].
      + apply suffix_refl.
      + rewrite E. apply suffix_refl.
    - eexists. split; [reflexivity|]. unfold seek. destruct (if good s then _ else _); cbn [snd cs_rest];
        [apply suffix_skipn|apply suffix_refl].
    - unfold seek_past, seek. destruct (if good s then _ else _) as [i|] eqn:E; cbn [cs_rest cs_fail cs_eof].
      + destruct (good s); [|discriminate]. cbn [plain_op] in Ho.
        rewrite (c_str_id x Ho) in E. apply find_some in E. destruct E as [_ [Hocc _]].
        destruct Hocc as [a [b [Eab Hi]]]. destruct (c_str_suffix (cs_rest s)) as [r Er].
        unfold advance. replace (length x <=? length (skipn i (cs_rest s))) with true.
        * cbn [obind omap snd]. eexists. split; [reflexivity|]. eapply suffix_trans; [apply test_eof_suffix|].
          cbn [cs_rest]. eapply suffix_trans; apply suffix_skipn.
        * symmetry. apply Nat.leb_le. rewrite skipn_length, Er, Eab, !app_length. lia.
      + cbn [omap snd]. eexists. split; [reflexivity|]. apply suffix_refl.
    - unfold try_get. cbn [plain_op] in Ho. pose proof (strncmp_prefix_r x Ho (cs_rest s)) as Hp.
      destruct (strncmp_eq _ _ _).
      + destruct (proj1 Hp eq_refl) as [r Er]. unfold advance.
        replace (length x <=? length (cs_rest s)) with true by (symmetry; apply Nat.leb_le; rewrite Er, app_length; lia).
        cbn [obind omap snd]. eexists. split; [reflexivity|]. apply suffix_skipn.
      + cbn [omap snd]. eexists. split; [reflexivity|]. apply suffix_refl.
    - unfold try_get_char. cbn [plain_op] in Ho. destruct (Ascii.eqb _ _) eqn:E.
      + apply eqb_true in E. destruct (cs_rest s) as [|a l] eqn:Es; [cbn in E; congruence|].
        unfold advance. cbn [length Nat.leb skipn obind omap snd]. eexists. split; [reflexivity|]. exists [a]. reflexivity.
      + cbn [omap snd]. eexists. split; [reflexivity|]. apply suffix_refl.
  Qed.

  Lemma run_lex_ok h : forall s, Forall plain_op h -> complete (cs_rest s) ->
    exists s', run_lex c s h = Ok s' /\ suffix_of (cs_rest s') (cs_rest s).
  Proof.
    induction h as [|o h IH]; intros s Hh Hc; cbn [run_lex].
    - exists s. split; [reflexivity|apply suffix_refl].
    - pose proof (Forall_inv Hh) as Ho. apply Forall_inv_tail in Hh.
      destruct (lex_step_ok s o Ho Hc) as [s1 [E1 H1]]. rewrite E1. cbn [obind].
      destruct (IH s1 Hh) as [s2 [E2 H2]].
      { destruct H1 as [p Hp]. rewrite Hp in Hc. eapply complete_suffix. exact Hc. }
      exists s2. split; [exact E2|]. eapply suffix_trans; eassumption.
  Qed.

  (** reading tokens reaches the end *)
  Lemma tokens_reach_end n : forall text, length text <= n -> complete text ->
    exists m, m <= S n /\ exists s', run_lex c (CS text false false) (repeat LToken m) = Ok s' /\
      cs_rest s' = [] /\ cs_eof s' = true.
  Proof.
    induction n as [|n IH]; intros text Hn Hc.
    - destruct text; [|cbn in Hn; lia]. exists 1. split; [lia|]. eexists. split; [reflexivity|]. split; reflexivity.
    - destruct (get_token_total (CS text false false) Hc) as [t [s' [E Hsuf]]].
      pose proof E as E'. apply get_token_iff in E'. destruct E' as [x [Hx [Ht [Hfa Heo]]]].
      destruct x as [|a x].
      + destruct (token_in_nil_inv _ _ _ _ Ht eq_refl) as [_ Hr]. exists 1. split; [lia|]. exists s'.
        cbn [repeat run_lex lex_step]. rewrite E. cbn [omap snd obind]. rewrite Hr in Heo. auto.
      + pose proof Hx as [b [Eb [_ Hd]]].
        assert (Hlt : length (cs_rest s') < length (a :: x)).
        { eapply token_in_progress; [exact Ht|discriminate|exact Hd]. }
        destruct s' as [y fa eo]. cbn [cs_rest cs_fail cs_eof] in *. subst fa.
        destruct y as [|y0 y].
        * exists 1. split; [lia|]. exists (CS [] false true). cbn [repeat run_lex lex_step]. rewrite E, Heo.
          cbn [omap snd obind]. split; [reflexivity|]. split; reflexivity.
        * destruct (IH (y0 :: y)) as [m [Hm [s2 [E2 H2]]]].
          { rewrite Eb, app_length in Hn. lia. }
          { destruct Hsuf as [p Ep]. rewrite Ep in Hc. eapply complete_suffix. exact Hc. }
          exists (S m). split; [lia|]. exists s2. cbn [repeat run_lex lex_step]. rewrite E. cbn [omap snd obind].
          rewrite Heo. split; [exact E2|exact H2].
  Qed.
End Tok.

(** * assembled *)
Lemma token_assembled (ops : list str) (delims quotes text t : str) (s' : cs) :
  plain_cfg (LexCfg ops delims quotes) ->
  (get_token (make_cfg ops delims quotes) (cs_of_string text) = Ok (t, s') <->
   exists blanks x, text = blanks ++ x /\ Forall (delimiter (LexCfg ops delims quotes)) blanks /\
     (forall y r, x = y :: r -> ~ delimiter (LexCfg ops delims quotes) y) /\
     token_in (LexCfg ops delims quotes) true x t (cs_rest s') /\
     cs_fail s' = false /\ (cs_eof s' = true <-> cs_rest s' = [])).
Proof.
  intros Hc. unfold cs_of_string. rewrite (get_token_iff _ _ _ Hc).
  assert (He : forall b (r : str), b = match r with [] => true | _ => false end <-> (b = true <-> r = [])).
  { intros [|] [|x r]; split; intros H; try reflexivity; try discriminate.
    - split; auto.
    - destruct H as [H _]. discriminate (H eq_refl).
    - destruct H as [_ H]. discriminate (H eq_refl).
    - split; discriminate. }
  split.
  - intros [x [[b [E [Hb Hx]]] [Ht [Hf Heo]]]]. exists b, x. rewrite He in Heo. auto 8.
  - intros [b [x [E [Hb [Hx [Ht [Hf Heo]]]]]]]. exists x. rewrite He. split; [exists b; auto|auto].
Qed.

Lemma line_number_spec p s : line_number (p ++ cs_rest s) s = 1 + count_occ ascii_dec p lf.
Proof.
  unfold line_number. rewrite app_length. replace (length p + length (cs_rest s) - length (cs_rest s)) with (length p) by lia.
  rewrite firstn_length_app. reflexivity.
Qed.

Lemma lex_history_assembled (ops : list str) (delims quotes text : str) (h : list lex_op) :
  plain_cfg (LexCfg ops delims quotes) -> Forall plain_op h -> last text nul <> bslash ->
  exists s' used, run_lex (make_cfg ops delims quotes) (cs_of_string text) h = Ok s' /\
    text = used ++ cs_rest s' /\ line_number text s' = 1 + count_occ ascii_dec used lf.
Proof.
  intros Hc Hh Ht. destruct (run_lex_ok ops delims quotes Hc h (cs_of_string text) Hh Ht) as [s' [E [p Ep]]].
  exists s', p. split; [exact E|]. cbn [cs_of_string cs_rest] in Ep. split; [exact Ep|].
  rewrite Ep. apply line_number_spec.
Qed.

Lemma lex_end_assembled (ops : list str) (delims quotes text : str) :
  plain_cfg (LexCfg ops delims quotes) -> last text nul <> bslash ->
  exists n s', n <= 1 + length text /\
    run_lex (make_cfg ops delims quotes) (cs_of_string text) (repeat LToken n) = Ok s' /\
    cs_rest s' = [] /\ cs_eof s' = true.
Proof.
  intros Hc Ht. destruct (tokens_reach_end ops delims quotes Hc _ text (Nat.le_refl _) Ht) as [n [Hn [s' [E [H1 H2]]]]].
  exists n, s'. auto.
Qed.

Lemma cspn_spec set text : Forall (fun x => strchr set x = false) (firstn (cspn set text) text) /\
  (forall x r, skipn (cspn set text) text = x :: r -> strchr set x = true).
Proof.
  induction text as [|x t [IH1 IH2]]; cbn [cspn]; [split; [constructor|discriminate]|].
  destruct (strchr set x) eqn:E; cbn [firstn skipn].
  - split; [constructor|]. intros y r [= <- _]. exact E.
  - split; [constructor; assumption|exact IH2].
Qed.

Lemma line_end_iff x : strchr [cr; lf] x = true <-> line_end x.
Proof.
  unfold strchr, line_end. rewrite orb_true_iff, in_set_In, eqb_true. cbn [In]. intuition congruence.
Qed.
Lemma strchr_false set x : strchr set x = false <-> ~ strchr set x = true.
Proof. destruct (strchr set x); intuition congruence. Qed.

Lemma get_line_spec s l s' : get_line s = (l, s') ->
  cs_rest s = l ++ cs_rest s' /\ Forall (fun x => ~ line_end x) l /\
  (forall x r, cs_rest s' = x :: r -> line_end x) /\ cs_fail s' = cs_fail s.
Proof.
  unfold get_line. destruct (cs_rest s) as [|a t] eqn:E.
  - intros [= <- <-]. cbn. split; [reflexivity|]. split; [constructor|]. split; [discriminate|reflexivity].
  - intros [= <- <-]. cbn [cs_rest cs_fail]. split; [symmetry; apply firstn_skipn|].
    destruct (cspn_spec [cr; lf] (a :: t)) as [H1 H2]. split; [|split; [|reflexivity]].
    + eapply Forall_impl; [|exact H1]. cbn beta. intros x Hx. rewrite <- line_end_iff. apply strchr_false. exact Hx.
    + intros x r Hx. apply line_end_iff. eapply H2. exact Hx.
Qed.

Lemma c_str_prefix s : exists r, s = c_str s ++ r /\ ~ In nul (c_str s) /\ (forall x t, r = x :: t -> x = nul).
Proof.
  induction s as [|x s [r [IH [Hn Hr]]]]; cbn [c_str].
  - exists []. split; [reflexivity|]. split; [intros []|discriminate].
  - destruct (Ascii.eqb x nul) eqn:E.
    + apply eqb_true in E. exists (x :: s). split; [reflexivity|]. split; [intros []|]. intros y t [= <- _]. exact E.
    + apply eqb_false in E. exists r. cbn [app]. rewrite <- IH. split; [reflexivity|]. split; [|exact Hr].
      intros [H|H]; [congruence|contradiction].
Qed.

Lemma occurs_c_str text sub i : ~ In nul text -> (occurs_at (c_str text) sub i <-> occurs_at text sub i).
Proof. intros H. rewrite c_str_id by exact H. tauto. Qed.

Lemma seek_spec (text sub : str) : ~ In nul text -> ~ In nul sub ->
  (forall i, first_occurrence text sub 0 i ->
     seek sub (cs_of_string text) = (true, CS (skipn i text) false false) /\
     exists rest, skipn i text = sub ++ rest /\
       seek_past sub (cs_of_string text) = Ok (true, CS rest false (match rest with [] => true | _ => false end))) /\
  ((forall i, ~ occurs_at text sub i) ->
     seek sub (cs_of_string text) = (false, CS text true false) /\
     seek_past sub (cs_of_string text) = Ok (false, CS text true false)).
Proof.
  intros Ht Hs. unfold seek_past, seek, cs_of_string. cbn [good cs_rest cs_fail cs_eof orb negb].
  rewrite (c_str_id text Ht), (c_str_id sub Hs). split.
  - intros i Hi. pose proof Hi as Hi'. apply find_some in Hi. rewrite Hi. cbn [cs_rest cs_fail cs_eof].
    split; [reflexivity|]. destruct Hi' as [_ [[a [b [E Ha]]] _]].
    assert (Esk : skipn i text = sub ++ b).
    { rewrite E, <- Ha. apply skipn_length_app. }
    exists b. split; [exact Esk|]. rewrite Esk. unfold advance.
    replace (length sub <=? length (sub ++ b)) with true by (symmetry; apply Nat.leb_le; rewrite app_length; lia).
    cbn [obind]. rewrite skipn_length_app. destruct b; reflexivity.
  - intros Hn. rewrite (proj2 (find_none text sub 0)); [split; reflexivity|]. intros i _. apply Hn.
Qed.

Lemma lone_backslash_loops q fuel s : q <> bslash -> quote_loop fuel q [bslash] s = UB.
Proof.
  intros Hq. revert s. induction fuel as [|f IH]; intros s; [reflexivity|]. cbn [quote_loop].
  replace (Ascii.eqb bslash q) with false by (symmetry; apply eqb_false; congruence).
  rewrite Ascii.eqb_refl. cbn [decode_char]. rewrite Ascii.eqb_refl.
  cbn [negb obind fst snd advance length Nat.leb skipn]. apply IH.
Qed.

Definition std_cfg : lexcfg := make_cfg [lit "="; lit "=="] (lit " ") [dquote].
Lemma lone_backslash_refuted : exists text, last text nul = bslash /\
  get_token std_cfg (cs_of_string text) = UB /\ forall fuel s, quote_loop fuel dquote (tl text) s = UB.
Proof.
  exists [dquote; bslash]. split; [reflexivity|]. split; [vm_compute; reflexivity|].
  intros fuel s. apply lone_backslash_loops. discriminate.
Qed.

Lemma prefix_dropped_refuted : exists text t s', text = (lit "ab" ++ [dquote] ++ lit "cd" ++ [dquote])%list /\
  get_token std_cfg (cs_of_string text) = Ok (t, s') /\ cs_rest s' = [] /\
  t = lit "cd".
Proof. do 3 eexists. split; [reflexivity|]. split; [vm_compute; reflexivity|]. split; reflexivity. Qed.

Lemma open_quote_refuted : exists text t s', text = (dquote :: lit "ab")%list /\
  get_token std_cfg (cs_of_string text) = Ok (t, s') /\ t = (lit "ab" ++ [nul])%list /\ cs_fail s' = false.
Proof. do 3 eexists. split; [reflexivity|]. split; [vm_compute; reflexivity|]. split; reflexivity. Qed.

Lemma empty_quote_refuted : exists text t s', text = ([dquote; dquote] ++ lit "= 1")%list /\
  get_token std_cfg (cs_of_string text) = Ok (t, s') /\ t = lit "=" /\ cs_rest s' = lit " 1".
Proof. do 3 eexists. split; [reflexivity|]. split; [vm_compute; reflexivity|]. split; reflexivity. Qed.

Lemma try_get_end_refuted : exists s, cs_rest s = [] /\ try_get_char nul s = UB /\ try_get [nul; "a"%char] s = UB.
Proof. exists (CS [] false false). split; [reflexivity|]. split; reflexivity. Qed.
