(** The text make_str_from_prop_node makes of a tree of words is ZML for the tree. *)
From Coq Require Import Ascii String List Arith Bool Lia.
From Verif Require Import Base BaseProofs Str StrSpec StrModel StrBase StrProofs PnSpec PnModel PnProofs PnProofs2
  TokSpec TokModel TokProofs ZmlSpec ZmlModel ZmlReader ZmlLex ZmlRound ZmlWrite ZmlProofs ZmlDocSpec ZmlDocProofs TxtSpec TxtModel.
Import ListNotations.

(** * reading by tokens *)
Lemma document_yields include text doc : Forall (item_ok false) doc -> yields text (flat_map item_tokens doc) -> parse_zml include text = meaning include doc.
Proof.
  intros Hok Hl. unfold parse_zml, cs_of_string.
  assert (F : focus (Loc false []) [] false (fun cs => PN [] cs false) (fun _ => [])).
  { split; [|split; [|split]].
    - intros src cs. reflexivity.
    - intros src cs cs' f Hfe. unfold modify, at_node. cbn [in_macros loc_path z_src z_root z_macros update_at]. rewrite Hfe. reflexivity.
    - intros cs. constructor.
    - reflexivity. }
  pose proof (items_read include (size doc) doc (le_n _) false [] false (Loc false []) [] false (fun cs => PN [] cs false) (fun _ => []) (fun _ => []) 0 [] [] []
    (S (size doc)) Hok (or_intror eq_refl) eq_refl F (fun _ => ex_intro _ [] eq_refl) (fun _ => eq_refl) eq_refl (le_n _)) as H.
  rewrite app_nil_r in H. unfold at_node in H at 1.
  etransitivity; [eapply (parse_agree next_list include (fun s l => exists text, at_text s text /\ yields text l) _ (flat_map item_tokens doc) (S (size doc)))|].
  - intros x l [u [Hx Hu]]. rewrite (at_token _ _ Hx). destruct l as [|t l]; cbn [yields] in Hu.
    + rewrite (read_end _ Hu). cbn [next_list orel fst snd]. split; [reflexivity|]. exists []. split; [left; reflexivity|constructor].
    + destruct Hu as [rest [-> Hu]]. cbn [next_list orel fst snd]. split; [reflexivity|]. exists rest. split; [left; reflexivity|exact Hu].
  - exists text. split; [right; reflexivity|exact Hl].
  - exact H.
  - unfold meaning, result. destruct (items_meaning _ _ _ [] doc); reflexivity.
Qed.

(** * words *)
Lemma word_char_facts x : word_char x = true -> bare_char x = true /\ char7 x = true /\ graphic x = true /\ ~ In x (lit "={}[]<>$@:#/*" ++ [squote]).
Proof.
  intros H. pose proof (forall_bytes (fun x => negb (word_char x) || (bare_char x && char7 x && graphic x && negb (in_set (lit "={}[]<>$@:#/*" ++ [squote]) x))) ltac:(vm_compute; reflexivity) x) as E. cbv beta in E. rewrite H in E. cbn [negb orb] in E.
  rewrite !andb_true_iff, negb_true_iff in E. destruct E as [[[E1 E2] E3] E4]. split; [exact E1|]. split; [exact E2|]. split; [exact E3|]. apply in_set_not_In. exact E4.
Qed.
Lemma word_chars s : word s -> s <> [] /\ Forall (fun x => bare_char x = true /\ char7 x = true /\ graphic x = true /\ ~ In x (lit "={}[]<>$@:#/*" ++ [squote])) s.
Proof. intros [N F]. split; [exact N|]. rewrite forallb_forall in F. apply Forall_forall. intros x I. apply word_char_facts, F, I. Qed.
Lemma word_without s c : word s -> In c (lit "={}[]<>$@:#/*" ++ [squote]) -> ~ In c s.
Proof. intros W I J. destruct (word_chars s W) as [_ F]. rewrite Forall_forall in F. destruct (F c J) as (_ & _ & _ & N). exact (N I). Qed.
Lemma word_bare s : word s -> bare s = true.
Proof. intros W. destruct (word_chars s W) as [N F]. unfold bare. destruct s; [congruence|]. apply forallb_forall. rewrite Forall_forall in F. intros x I. apply F, I. Qed.
Lemma word_char7 s : word s -> Forall (fun x => char7 x = true) s.
Proof. intros W. destruct (word_chars s W) as [_ F]. eapply Forall_impl; [|exact F]. intros x (_ & H & _). exact H. Qed.
Lemma word_not s c t : word s -> In c (lit "={}[]<>$@:#/*" ++ [squote]) -> s <> c :: t.
Proof. intros W I ->. apply (word_without _ _ W I). left. reflexivity. Qed.
Ltac special := cbn; tauto.
Lemma word_token s : word s -> token_ok s = true.
Proof.
  intros W. unfold token_ok. rewrite !andb_true_iff. split; [split|].
  - apply forallb_forall. pose proof (word_char7 s W) as F. rewrite Forall_forall in F. exact F.
  - apply orb_true_iff. right. rewrite !andb_true_iff, !negb_true_iff. split; [split|].
    + apply not_true_iff_false. intros I. apply in_set_In in I. revert I. apply word_without; [exact W|special].
    + apply not_true_iff_false. intros I. apply in_set_In in I. revert I. apply word_without; [exact W|special].
    + apply not_true_iff_false. intros I. apply Ascii.eqb_eq in I. destruct (word_chars s W) as [N _]. apply (word_without s ":"%char W ltac:(special)). rewrite <- I. clear I. induction s as [|x s IH]; [congruence|]. destruct s as [|y s]; [left; reflexivity|].
      right. change (last (x :: y :: s) nul) with (last (y :: s) nul). apply IH; [|discriminate]. destruct W as [_ W]. split; [discriminate|]. cbn [forallb] in *. apply andb_true_iff in W. apply W.
  - apply negb_true_iff, not_true_iff_false. unfold one_of_strs. intros E. apply existsb_exists in E. destruct E as (t & I & E). apply str_eqb_eq in E. subst t. cbn [In lit list_ascii_of_string] in I.
    decompose [or] I; try contradiction; subst; [eapply (word_not _ "#"%char _ W); [special|reflexivity]|eapply (word_not _ "/"%char _ W); [special|reflexivity]|eapply (word_not _ "/"%char _ W); [special|reflexivity]].
Qed.
Lemma word_unquoted s : word s -> try_quoted s zml_special = s.
Proof. intros W. unfold try_quoted. rewrite needs_quotes_bare by (apply word_char7, W). rewrite (word_bare s W). reflexivity. Qed.
Lemma word_emits s : word s -> emits follow_blank s [s].
Proof. intros W. pose proof (emits_token s (word_token s W)) as E. rewrite (word_unquoted s W) in E. eapply emits_weaken; [|exact E]. intros f F. split; [left; exact F|intros ->; destruct W as [N _]; congruence]. Qed.
Lemma word_key s : word s -> key_ok s.
Proof.
  intros W. split.
  - destruct (word_chars s W) as [N F]. destruct s as [|x r]; [congruence|]. inversion F as [|? ? (_ & _ & G & _) _]; subst. exists x, r. auto.
  - split; [apply word_not; [exact W|special]|]. split; [apply word_not; [exact W|special]|]. split; [apply word_not; [exact W|special]|]. apply (word_not s "<"%char (lit "<") W). special.
Qed.
Lemma text_token v : content_token (Text v []) = v.
Proof. cbn [content_token map concat]. apply app_nil_r. Qed.
Lemma word_text v : word v -> content_ok (Text v []).
Proof.
  intros W. unfold content_ok. rewrite text_token. split; [intros (a & b & E); apply (word_without v "$"%char W ltac:(special)); rewrite E; apply in_or_app; right; left; reflexivity|]. split; [constructor|].
  split; [apply (word_not v "{"%char [] W); special|]. split; [apply (word_not v "["%char [] W); special|]. split; [intros r; apply word_not; [exact W|special]|]. intros x r E. exfalso. revert E. apply word_not; [exact W|special].
Qed.
Lemma word_element v : word v -> v <> [] /\ v <> lit "]" /\ v <> lit "<<".
Proof. intros W. split; [apply W|]. split; [apply (word_not v "]"%char [] W); special|apply (word_not v "<"%char (lit "<") W); special]. Qed.
Lemma word_plain k : word k -> is_macro k = false.
Proof. intros W. unfold is_macro. destruct k as [|x r]; [reflexivity|]. apply not_true_iff_false. intros E. apply Ascii.eqb_eq in E. subst x. apply (word_not (dollar :: r) dollar r W); [special|reflexivity]. Qed.

(** * the document *)
Fixpoint doc_items (key : option str) (t : pn) : list item :=
  match t with
  | PN v cs _ =>
    let arr := is_array t in
    let body := flat_map (fun kc => doc_items (if arr then None else Some (fst kc)) (snd kc)) cs in
    match cs with
    | [] => match key with Some k => [Set_ k false (Text v [])] | None => [Elem (Text v [])] end
    | _ =>
      match key with
      | Some k => match v with [] => [Open k (Some false) arr body] | _ => [Set_ k false (Text v []); More arr body] end
      | None => [ElemOpen arr body]
      end
    end
  end.
Definition prefix (key : option str) : str := match key with Some k => k ++ lit " = " | None => [] end.
Definition key_fits (key : option str) (t : pn) : Prop := match key with Some k => word k | None => pn_children t <> [] -> pn_value t = [] end.
Definition child_key (arr : bool) (kc : str * pn) : option str := if arr then None else Some (fst kc).
Lemma word_kids v cs a : word_tree (PN v cs a) -> cs <> [] -> (v = [] \/ word v) /\ Forall (fun kc => word_tree (snd kc) /\ key_fits (child_key (is_array (PN v cs a)) kc) (snd kc)) cs.
Proof.
  intros W N. inversion W as [? ? Wv|? ? ? Wv _ F|? ? ? Wv _ F]; subst; [congruence| |]; split; try exact Wv.
  - assert (A : is_array (PN v cs a) = false). { unfold is_array. cbn [pn_children]. destruct cs as [|kc cs]; [congruence|]. inversion F as [|? ? [[K _] _] _]; subst. destruct kc as [[|x k] c]; [cbn [fst] in K; congruence|reflexivity]. }
    rewrite A. cbn [child_key key_fits]. eapply Forall_impl; [|exact F]. cbv beta. tauto.
  - assert (A : is_array (PN v cs a) = true). { unfold is_array. cbn [pn_children]. apply forallb_forall. rewrite Forall_forall in F. intros kc I. destruct (F kc I) as [-> _]. reflexivity. }
    rewrite A. cbn [child_key key_fits]. eapply Forall_impl; [|exact F]. cbv beta. tauto.
Qed.
Definition child_text (arr : bool) (kc : str * pn) : str := (if arr then lit " " else lit " " ++ fst kc ++ lit " = ") ++ make_str (snd kc).
Lemma child_text_eq arr kc : child_text arr kc = lit " " ++ prefix (child_key arr kc) ++ make_str (snd kc).
Proof. unfold child_text, child_key, prefix. destruct arr; [reflexivity|]. rewrite <- !app_assoc. reflexivity. Qed.
Lemma make_str_eq v cs a : cs <> [] -> make_str (PN v cs a) = (match v with [] => v | _ => v ++ lit " " end) ++ opening (is_array (PN v cs a)) ++ flat_map (child_text (is_array (PN v cs a))) cs ++ lit " " ++ closing (is_array (PN v cs a)).
Proof. intros N. cbn [make_str]. destruct cs as [|kc cs]; [congruence|]. destruct (is_array _); reflexivity. Qed.

Lemma open_op arr : emits anything (opening arr) [opening arr].
Proof. destruct arr; [apply (emits_op "["%char)|apply (emits_op "{"%char)]; cbn; tauto. Qed.
Lemma close_op arr : emits anything (lit " " ++ closing arr) [closing arr].
Proof. apply (emits_app anything anything (lit " ") (closing arr) [] [closing arr]); [apply emits_blanks; repeat constructor|destruct arr; [apply (emits_op "]"%char)|apply (emits_op "}"%char)]; cbn; tauto|intros; exact I]. Qed.
Lemma space_emits F : emits F (lit " ") [].
Proof. apply emits_blanks. repeat constructor. Qed.
Lemma blank_first r : follow_blank (lit " " ++ r).
Proof. right. exists " "%char, r. split; reflexivity. Qed.

Lemma node_emits t : forall key, word_tree t -> key_fits key t -> emits follow_blank (prefix key ++ make_str t) (flat_map item_tokens (doc_items key t)).
Proof.
  induction t as [v cs a IH] using pn_ind'. intros key W K.
  assert (Pre : forall k s l, word k -> emits follow_blank s l -> emits follow_blank ((k ++ lit " = ") ++ s) (k :: lit "=" :: l)).
  { intros k s l Wk E. rewrite <- app_assoc. apply (emits_app follow_blank follow_blank k (lit " = " ++ s) [k] (lit "=" :: l)); [apply word_emits, Wk| |intros f _; right; exists " "%char; eexists; split; reflexivity].
    apply (emits_app anything follow_blank (lit " = ") s [lit "="] l); [apply equals_emits; left; reflexivity|exact E|intros; exact I]. }
  destruct cs as [|c cs'] eqn:Ecs.
  - inversion W as [? ? Wv|? ? ? _ N _|? ? ? _ N _]; subst; try (exfalso; apply N; reflexivity). cbn [make_str doc_items]. destruct key as [k|]; cbn [flat_map item_tokens List.app prefix]; rewrite ?text_token.
    + change [k; assign_token false; v] with (k :: lit "=" :: [v]). apply Pre; [exact K|apply word_emits, Wv].
    + apply word_emits, Wv.
  - assert (N : cs <> []) by (rewrite Ecs; discriminate). rewrite <- Ecs in *. clear Ecs c cs'. destruct (word_kids v cs a W N) as [Wv Kids]. rewrite (make_str_eq v cs a N). set (arr := is_array (PN v cs a)) in *.
    set (body := flat_map (fun kc => doc_items (child_key arr kc) (snd kc)) cs).
    assert (Body : emits follow_blank (flat_map (child_text arr) cs) (flat_map item_tokens body)).
    { unfold body. clear - IH Kids. clearbody arr. induction cs as [|kc cs IHc]; [apply emits_nil|]. inversion IH as [|? ? H1 H2]; subst. inversion Kids as [|? ? [K1 K2] K3]; subst. cbn [flat_map]. rewrite flat_map_app, child_text_eq.
      apply (emits_app follow_blank follow_blank); [|apply IHc; assumption|].
      - apply (emits_app anything follow_blank (lit " ") _ [] (flat_map item_tokens (doc_items (child_key arr kc) (snd kc)))); [apply space_emits|apply H1; assumption|intros; exact I].
      - intros f F. destruct cs as [|kc' cs]; [exact F|]. cbn [flat_map]. rewrite child_text_eq, <- !app_assoc. apply blank_first. }
    assert (Block : emits anything (opening arr ++ flat_map (child_text arr) cs ++ lit " " ++ closing arr) (opening arr :: flat_map item_tokens body ++ [closing arr])).
    { apply (emits_app anything anything (opening arr) _ [opening arr] (flat_map item_tokens body ++ [closing arr])); [apply open_op| |intros; exact I]. apply (emits_app follow_blank anything); [exact Body|apply close_op|]. intros f _. rewrite <- app_assoc. apply blank_first. }
    assert (D : doc_items key (PN v cs a) = match key with Some k => match v with [] => [Open k (Some false) arr body] | _ => [Set_ k false (Text v []); More arr body] end | None => [ElemOpen arr body] end) by (cbn [doc_items]; destruct cs; [congruence|reflexivity]).
    rewrite D. destruct key as [k|].
    + cbn [prefix key_fits] in *. destruct v as [|x v'] eqn:Ev.
      * cbn [List.app flat_map item_tokens]. rewrite app_nil_r. change (k :: assign_token false :: ?l) with (k :: lit "=" :: l). apply Pre; [exact K|]. eapply emits_weaken; [|exact Block]. intros; exact I.
      * rewrite <- Ev in *. assert (Ww : word v) by (destruct Wv as [Wv|Wv]; [subst v; discriminate Wv|exact Wv]). cbn [flat_map item_tokens]. rewrite text_token, app_nil_r. cbn [List.app]. change (k :: assign_token false :: ?l) with (k :: lit "=" :: l). apply Pre; [exact K|]. rewrite <- app_assoc.
        apply (emits_app follow_blank follow_blank v _ [v]); [apply word_emits, Ww| |intros f _; rewrite <- app_assoc; apply blank_first].
        apply (emits_app anything follow_blank (lit " ") _ []); [apply space_emits| |intros; exact I]. eapply emits_weaken; [|exact Block]. intros; exact I.
    + cbn [prefix key_fits pn_children pn_value List.app] in *. rewrite (K N). cbn [List.app flat_map item_tokens]. rewrite app_nil_r. eapply emits_weaken; [|exact Block]. intros; exact I.
Qed.

Lemma node_items_ok t : forall key, word_tree t -> key_fits key t -> Forall (item_ok (match key with Some _ => false | None => true end)) (doc_items key t).
Proof.
  induction t as [v cs a IH] using pn_ind'. intros key W K. destruct cs as [|c cs'] eqn:Ecs.
  - inversion W as [? ? Wv|? ? ? _ N _|? ? ? _ N _]; subst; try (exfalso; apply N; reflexivity). cbn [doc_items]. destruct key as [k|]; (constructor; [|constructor]).
    + apply ok_set; [apply word_key, K|apply word_text, Wv].
    + destruct (word_element v Wv) as (E1 & E2 & E3). apply ok_elem; rewrite ?text_token; auto. apply word_text, Wv.
  - assert (N : cs <> []) by (rewrite Ecs; discriminate). rewrite <- Ecs in *. clear Ecs c cs'. destruct (word_kids v cs a W N) as [Wv Kids]. set (arr := is_array (PN v cs a)) in *.
    set (body := flat_map (fun kc => doc_items (child_key arr kc) (snd kc)) cs).
    assert (Body : Forall (item_ok arr) body).
    { unfold body. clear - IH Kids. clearbody arr. induction cs as [|kc cs IHc]; [constructor|]. inversion IH as [|? ? H1 H2]; subst. inversion Kids as [|? ? [K1 K2] K3]; subst. cbn [flat_map]. apply Forall_app. split; [|apply IHc; assumption]. specialize (H1 _ K1 K2). destruct arr; exact H1. }
    assert (D : doc_items key (PN v cs a) = match key with Some k => match v with [] => [Open k (Some false) arr body] | _ => [Set_ k false (Text v []); More arr body] end | None => [ElemOpen arr body] end) by (cbn [doc_items]; destruct cs; [congruence|reflexivity]).
    rewrite D. destruct key as [k|].
    + destruct v as [|x v'] eqn:Ev.
      * constructor; [|constructor]. apply ok_open; [apply word_key, K|exact Body].
      * rewrite <- Ev in *. assert (Ww : word v) by (destruct Wv as [Wv|Wv]; [subst v; discriminate Wv|exact Wv]). constructor; [apply ok_set; [apply word_key, K|apply word_text, Ww]|]. constructor; [|constructor]. apply ok_more, Body.
    + constructor; [|constructor]. apply ok_elem_open, Body.
Qed.

Section Meaning.
  Context (include : str -> outcome pn).
  Notation run inside := (items_meaning (item_meaning include inside)).
  Definition key_of (key : option str) : str := match key with Some k => k | None => [] end.
  Lemma run_cons inside root env cs it l : run inside root env cs (it :: l) = do x <- item_meaning include inside root env cs it; run inside root (fun c => env c ++ snd x) (fst x) l.
  Proof. reflexivity. Qed.
  Lemma node_meaning t : forall key, word_tree t -> key_fits key t -> forall inside root env cs, exists env', forall rest,
    run inside root env cs (doc_items key t ++ rest) = run inside root env' (cs ++ [(key_of key, fresh t)]) rest.
  Proof.
    induction t as [v cs0 a IH] using pn_ind'. intros key W K inside root env cs. destruct cs0 as [|c cs'] eqn:Ecs.
    - inversion W as [? ? Wv|? ? ? _ N _|? ? ? _ N _]; subst; try (exfalso; apply N; reflexivity). cbn [doc_items]. destruct key as [k|]; eexists; intros rest; cbn [List.app]; rewrite run_cons; cbn [item_meaning].
      + rewrite (word_plain k K). cbn [content_node expand obind fst snd]. rewrite app_nil_r. reflexivity.
      + cbn [content_node expand obind fst snd]. rewrite app_nil_r. reflexivity.
    - assert (N : cs0 <> []) by (rewrite Ecs; discriminate). rewrite <- Ecs in *. clear Ecs c cs'. destruct (word_kids v cs0 a W N) as [Wv Kids]. set (arr := is_array (PN v cs0 a)) in *.
      set (body := flat_map (fun kc => doc_items (child_key arr kc) (snd kc)) cs0).
      assert (Body : forall inside root env b0, exists env', forall rest, run inside root env b0 (body ++ rest) = run inside root env' (b0 ++ map (fun kc => (key_of (child_key arr kc), fresh (snd kc))) cs0) rest).
      { unfold body. clear - IH Kids. clearbody arr. induction cs0 as [|kc cs IHc]; intros inside root env b0; [exists env; intros rest; cbn [flat_map map List.app]; rewrite app_nil_r; reflexivity|]. inversion IH as [|? ? H1 H2]; subst. inversion Kids as [|? ? [K1 K2] K3]; subst.
        destruct (H1 _ K1 K2 inside root env b0) as [env1 E1]. destruct (IHc H2 K3 inside root env1 (b0 ++ [(key_of (child_key arr kc), fresh (snd kc))])) as [env2 E2]. exists env2. intros rest. cbn [flat_map map]. rewrite <- app_assoc, E1, E2, <- app_assoc. reflexivity. }
      assert (Keys : map (fun kc => (key_of (child_key arr kc), fresh (snd kc))) cs0 = map (fun kc => (fst kc, fresh (snd kc))) cs0).
      { apply map_ext_in. intros kc I. f_equal. unfold child_key. destruct arr eqn:E; [|reflexivity]. cbn [key_of]. unfold arr, is_array in E. cbn [pn_children] in E. rewrite forallb_forall in E. specialize (E kc I). destruct kc as [[|x k] c]; [reflexivity|discriminate E]. }
      rewrite Keys in Body. clear Keys. assert (Whole : forall inside root env b0, run inside root env b0 body = Ok (b0 ++ map (fun kc => (fst kc, fresh (snd kc))) cs0)).
      { intros i r e b0. destruct (Body i r e b0) as [e' E]. specialize (E []). rewrite app_nil_r in E. rewrite E. reflexivity. }
      assert (D : doc_items key (PN v cs0 a) = match key with Some k => match v with [] => [Open k (Some false) arr body] | _ => [Set_ k false (Text v []); More arr body] end | None => [ElemOpen arr body] end) by (cbn [doc_items]; destruct cs0; [congruence|reflexivity]).
      rewrite D. clear D. cbn [fresh]. destruct key as [k|].
      + cbn [key_fits key_of] in *. destruct v as [|x v'] eqn:Ev.
        * eexists. intros rest. cbn [List.app]. rewrite run_cons. cbn [item_meaning]. rewrite (word_plain k K), Whole. cbn [obind fst snd List.app]. reflexivity.
        * rewrite <- Ev in *. eexists. intros rest. cbn [List.app]. rewrite run_cons. cbn [item_meaning]. rewrite (word_plain k K). cbn [content_node expand obind fst snd]. rewrite run_cons. cbn [item_meaning]. rewrite rev_app_distr. cbn [rev List.app]. rewrite Whole. cbn [obind fst snd List.app]. rewrite rev_involutive, app_nil_r. reflexivity.
      + cbn [key_fits key_of pn_children pn_value] in *. rewrite (K N). eexists. intros rest. cbn [List.app]. rewrite run_cons. cbn [item_meaning]. rewrite Whole. cbn [obind fst snd List.app]. reflexivity.
  Qed.
End Meaning.

Lemma make_str_read include k t : word k -> word_tree t -> parse_zml include (k ++ lit " = " ++ make_str t) = Ok (PN [] [(k, fresh t)] false).
Proof.
  intros K W. rewrite (document_yields include _ (doc_items (Some k) t)).
  - unfold meaning. destruct (node_meaning include t (Some k) W K false (fun cs => PN [] cs false) (fun _ => []) []) as [env' E]. specialize (E []). rewrite app_nil_r in E. rewrite E. reflexivity.
  - apply (node_items_ok t (Some k) W K).
  - pose proof (node_emits t (Some k) W K [] [] (or_introl eq_refl) yields_nil [] ltac:(constructor)) as Y. rewrite !app_nil_r in Y. cbn [prefix List.app] in Y. rewrite <- app_assoc in Y. exact Y.
Qed.
