(** Theorems about the meaning of ZML documents: macros, references, includes and nested items. *)
From Coq Require Import Ascii String List Arith NArith Bool Lia.
From Verif Require Import Base BaseProofs Str StrSpec StrModel StrBase StrProofs PnSpec PnModel PnProofs PnProofs2
  TokSpec TokModel TokProofs ZmlSpec ZmlModel ZmlReader ZmlLex ZmlRound ZmlWrite ZmlProofs ZmlSafe ZmlDocSpec ZmlDocProofs.
Import ListNotations.

(** ** C153: whatever the blanks and comments between its tokens, a document is read as the tree it means, or refused if it means none *)
Theorem C153_meaning (include : str -> outcome pn) (text rest : str) (doc : list item) :
  Forall (item_ok false) doc -> lexes text rest (flat_map item_tokens doc) -> final_layout rest ->
  parse_zml include text = meaning include doc.
Proof. exact (document_meaning include text rest doc). Qed.
Print Assumptions C153_meaning.

Definition sample : list item :=
  [Set_ (lit "$n") false (Text (lit "7") []); Open (lit "$base") None false [Set_ (lit "x") false (Text (lit "1") []); Set_ (lit "y") false (Use (lit "n"))];
   Set_ (lit "a") false (Use (lit "base")); More false [Set_ (lit "z") false (Text (lit "n=") [(lit "n", lit "!")])];
   Open (lit "list") (Some false) true [Elem (Text (lit "p") []); Elem (Use (lit "n")); ElemOpen true [Elem (Ref (lit "a.y"))]];
   Set_ (lit "b") true (Ref (lit "a"))].
Definition sample_text : str :=
  lit "$n = 7 $base { x = 1 y = $n } a = $base { z = 'n=${n}!' } list = [ p $n [ @a.y ] ] b: @a".
Fixpoint occurs_in_dollar (s : str) : bool :=
  match s with x :: ((y :: _) as r) => (Ascii.eqb x dollar && Ascii.eqb y "{"%char) || occurs_in_dollar r | _ => false end.
Lemma sample_lexes : lexes sample_text [] (flat_map item_tokens sample).
Proof.
  apply (lexes_compute [] "$"%char (lit "n = 7 $base { x = 1 y = $n } a = $base { z = 'n=${n}!' } list = [ p $n [ @a.y ] ] b: @a") (lit "$n") (lit " = 7 $base { x = 1 y = $n } a = $base { z = 'n=${n}!' } list = [ p $n [ @a.y ] ] b: @a")); [repeat constructor|reflexivity|discriminate|vm_compute; reflexivity|reflexivity|].
  apply (lexes_compute (lit " ") "="%char (lit " 7 $base { x = 1 y = $n } a = $base { z = 'n=${n}!' } list = [ p $n [ @a.y ] ] b: @a") (lit "=") (lit " 7 $base { x = 1 y = $n } a = $base { z = 'n=${n}!' } list = [ p $n [ @a.y ] ] b: @a")); [repeat constructor|reflexivity|discriminate|vm_compute; reflexivity|reflexivity|].
  apply (lexes_compute (lit " ") "7"%char (lit " $base { x = 1 y = $n } a = $base { z = 'n=${n}!' } list = [ p $n [ @a.y ] ] b: @a") (lit "7") (lit " $base { x = 1 y = $n } a = $base { z = 'n=${n}!' } list = [ p $n [ @a.y ] ] b: @a")); [repeat constructor|reflexivity|discriminate|vm_compute; reflexivity|reflexivity|].
  apply (lexes_compute (lit " ") "$"%char (lit "base { x = 1 y = $n } a = $base { z = 'n=${n}!' } list = [ p $n [ @a.y ] ] b: @a") (lit "$base") (lit " { x = 1 y = $n } a = $base { z = 'n=${n}!' } list = [ p $n [ @a.y ] ] b: @a")); [repeat constructor|reflexivity|discriminate|vm_compute; reflexivity|reflexivity|].
  apply (lexes_compute (lit " ") "{"%char (lit " x = 1 y = $n } a = $base { z = 'n=${n}!' } list = [ p $n [ @a.y ] ] b: @a") (lit "{") (lit " x = 1 y = $n } a = $base { z = 'n=${n}!' } list = [ p $n [ @a.y ] ] b: @a")); [repeat constructor|reflexivity|discriminate|vm_compute; reflexivity|reflexivity|].
  apply (lexes_compute (lit " ") "x"%char (lit " = 1 y = $n } a = $base { z = 'n=${n}!' } list = [ p $n [ @a.y ] ] b: @a") (lit "x") (lit " = 1 y = $n } a = $base { z = 'n=${n}!' } list = [ p $n [ @a.y ] ] b: @a")); [repeat constructor|reflexivity|discriminate|vm_compute; reflexivity|reflexivity|].
  apply (lexes_compute (lit " ") "="%char (lit " 1 y = $n } a = $base { z = 'n=${n}!' } list = [ p $n [ @a.y ] ] b: @a") (lit "=") (lit " 1 y = $n } a = $base { z = 'n=${n}!' } list = [ p $n [ @a.y ] ] b: @a")); [repeat constructor|reflexivity|discriminate|vm_compute; reflexivity|reflexivity|].
  apply (lexes_compute (lit " ") "1"%char (lit " y = $n } a = $base { z = 'n=${n}!' } list = [ p $n [ @a.y ] ] b: @a") (lit "1") (lit " y = $n } a = $base { z = 'n=${n}!' } list = [ p $n [ @a.y ] ] b: @a")); [repeat constructor|reflexivity|discriminate|vm_compute; reflexivity|reflexivity|].
  apply (lexes_compute (lit " ") "y"%char (lit " = $n } a = $base { z = 'n=${n}!' } list = [ p $n [ @a.y ] ] b: @a") (lit "y") (lit " = $n } a = $base { z = 'n=${n}!' } list = [ p $n [ @a.y ] ] b: @a")); [repeat constructor|reflexivity|discriminate|vm_compute; reflexivity|reflexivity|].
  apply (lexes_compute (lit " ") "="%char (lit " $n } a = $base { z = 'n=${n}!' } list = [ p $n [ @a.y ] ] b: @a") (lit "=") (lit " $n } a = $base { z = 'n=${n}!' } list = [ p $n [ @a.y ] ] b: @a")); [repeat constructor|reflexivity|discriminate|vm_compute; reflexivity|reflexivity|].
  apply (lexes_compute (lit " ") "$"%char (lit "n } a = $base { z = 'n=${n}!' } list = [ p $n [ @a.y ] ] b: @a") (lit "$n") (lit " } a = $base { z = 'n=${n}!' } list = [ p $n [ @a.y ] ] b: @a")); [repeat constructor|reflexivity|discriminate|vm_compute; reflexivity|reflexivity|].
  apply (lexes_compute (lit " ") "}"%char (lit " a = $base { z = 'n=${n}!' } list = [ p $n [ @a.y ] ] b: @a") (lit "}") (lit " a = $base { z = 'n=${n}!' } list = [ p $n [ @a.y ] ] b: @a")); [repeat constructor|reflexivity|discriminate|vm_compute; reflexivity|reflexivity|].
  apply (lexes_compute (lit " ") "a"%char (lit " = $base { z = 'n=${n}!' } list = [ p $n [ @a.y ] ] b: @a") (lit "a") (lit " = $base { z = 'n=${n}!' } list = [ p $n [ @a.y ] ] b: @a")); [repeat constructor|reflexivity|discriminate|vm_compute; reflexivity|reflexivity|].
  apply (lexes_compute (lit " ") "="%char (lit " $base { z = 'n=${n}!' } list = [ p $n [ @a.y ] ] b: @a") (lit "=") (lit " $base { z = 'n=${n}!' } list = [ p $n [ @a.y ] ] b: @a")); [repeat constructor|reflexivity|discriminate|vm_compute; reflexivity|reflexivity|].
  apply (lexes_compute (lit " ") "$"%char (lit "base { z = 'n=${n}!' } list = [ p $n [ @a.y ] ] b: @a") (lit "$base") (lit " { z = 'n=${n}!' } list = [ p $n [ @a.y ] ] b: @a")); [repeat constructor|reflexivity|discriminate|vm_compute; reflexivity|reflexivity|].
  apply (lexes_compute (lit " ") "{"%char (lit " z = 'n=${n}!' } list = [ p $n [ @a.y ] ] b: @a") (lit "{") (lit " z = 'n=${n}!' } list = [ p $n [ @a.y ] ] b: @a")); [repeat constructor|reflexivity|discriminate|vm_compute; reflexivity|reflexivity|].
  apply (lexes_compute (lit " ") "z"%char (lit " = 'n=${n}!' } list = [ p $n [ @a.y ] ] b: @a") (lit "z") (lit " = 'n=${n}!' } list = [ p $n [ @a.y ] ] b: @a")); [repeat constructor|reflexivity|discriminate|vm_compute; reflexivity|reflexivity|].
  apply (lexes_compute (lit " ") "="%char (lit " 'n=${n}!' } list = [ p $n [ @a.y ] ] b: @a") (lit "=") (lit " 'n=${n}!' } list = [ p $n [ @a.y ] ] b: @a")); [repeat constructor|reflexivity|discriminate|vm_compute; reflexivity|reflexivity|].
  apply (lexes_compute (lit " ") "'"%char (lit "n=${n}!' } list = [ p $n [ @a.y ] ] b: @a") (lit "n=${n}!") (lit " } list = [ p $n [ @a.y ] ] b: @a")); [repeat constructor|reflexivity|discriminate|vm_compute; reflexivity|reflexivity|].
  apply (lexes_compute (lit " ") "}"%char (lit " list = [ p $n [ @a.y ] ] b: @a") (lit "}") (lit " list = [ p $n [ @a.y ] ] b: @a")); [repeat constructor|reflexivity|discriminate|vm_compute; reflexivity|reflexivity|].
  apply (lexes_compute (lit " ") "l"%char (lit "ist = [ p $n [ @a.y ] ] b: @a") (lit "list") (lit " = [ p $n [ @a.y ] ] b: @a")); [repeat constructor|reflexivity|discriminate|vm_compute; reflexivity|reflexivity|].
  apply (lexes_compute (lit " ") "="%char (lit " [ p $n [ @a.y ] ] b: @a") (lit "=") (lit " [ p $n [ @a.y ] ] b: @a")); [repeat constructor|reflexivity|discriminate|vm_compute; reflexivity|reflexivity|].
  apply (lexes_compute (lit " ") "["%char (lit " p $n [ @a.y ] ] b: @a") (lit "[") (lit " p $n [ @a.y ] ] b: @a")); [repeat constructor|reflexivity|discriminate|vm_compute; reflexivity|reflexivity|].
  apply (lexes_compute (lit " ") "p"%char (lit " $n [ @a.y ] ] b: @a") (lit "p") (lit " $n [ @a.y ] ] b: @a")); [repeat constructor|reflexivity|discriminate|vm_compute; reflexivity|reflexivity|].
  apply (lexes_compute (lit " ") "$"%char (lit "n [ @a.y ] ] b: @a") (lit "$n") (lit " [ @a.y ] ] b: @a")); [repeat constructor|reflexivity|discriminate|vm_compute; reflexivity|reflexivity|].
  apply (lexes_compute (lit " ") "["%char (lit " @a.y ] ] b: @a") (lit "[") (lit " @a.y ] ] b: @a")); [repeat constructor|reflexivity|discriminate|vm_compute; reflexivity|reflexivity|].
  apply (lexes_compute (lit " ") "@"%char (lit "a.y ] ] b: @a") (lit "@a.y") (lit " ] ] b: @a")); [repeat constructor|reflexivity|discriminate|vm_compute; reflexivity|reflexivity|].
  apply (lexes_compute (lit " ") "]"%char (lit " ] b: @a") (lit "]") (lit " ] b: @a")); [repeat constructor|reflexivity|discriminate|vm_compute; reflexivity|reflexivity|].
  apply (lexes_compute (lit " ") "]"%char (lit " b: @a") (lit "]") (lit " b: @a")); [repeat constructor|reflexivity|discriminate|vm_compute; reflexivity|reflexivity|].
  apply (lexes_compute (lit " ") "b"%char (lit ": @a") (lit "b") (lit ": @a")); [repeat constructor|reflexivity|discriminate|vm_compute; reflexivity|reflexivity|].
  apply (lexes_compute [] ":"%char (lit " @a") (lit ": ") (lit "@a")); [repeat constructor|reflexivity|discriminate|vm_compute; reflexivity|reflexivity|].
  apply (lexes_compute [] "@"%char (lit "a") (lit "@a") []); [repeat constructor|reflexivity|discriminate|vm_compute; reflexivity|reflexivity|].
  constructor.
Qed.
Lemma not_holds s : occurs_in_dollar s = false -> ~ holds s (lit "${").
Proof.
  intros H (a & b & ->). revert H. induction a as [|x a IH]; [discriminate|]. cbn [app]. intros H. apply IH. cbn [occurs_in_dollar] in H.
  destruct (a ++ lit "${" ++ b) as [|y r] eqn:E; [destruct a; discriminate|]. apply orb_false_iff in H. apply H.
Qed.
Lemma sample_ok : Forall (item_ok false) sample.
Proof.
  assert (T : forall s, occurs_in_dollar s = false -> s <> lit "{" -> s <> lit "[" -> (forall r, s <> "@"%char :: r) -> (forall x r, s <> dollar :: x :: r) -> content_ok (Text s [])).
  { intros s H1 H2 H3 H4 H5. cbn [content_ok content_token map concat]. rewrite app_nil_r. repeat split; auto using not_holds. intros x r E. exfalso. exact (H5 x r E). }
  unfold sample. repeat first [apply Forall_nil | apply Forall_cons | constructor]; try discriminate; try (apply T; [reflexivity|discriminate..]).
  all: try (eexists _, _; split; [reflexivity|]; first [reflexivity|discriminate]).
  all: try (apply not_holds; reflexivity).
  all: try (cbn; intros [Q|[]]; discriminate Q).
  all: try (cbn; intros; discriminate).
Qed.
Example C153_case :
  Forall (item_ok false) sample /\ lexes sample_text [] (flat_map item_tokens sample) /\ final_layout [] /\
  let a := PN [] [(lit "x", PN (lit "1") [] false); (lit "y", PN (lit "7") [] false); (lit "z", PN (lit "n=7!") [] false)] false in
  meaning (fun _ => Throw) sample = Ok (PN [] [(lit "a", a);
    (lit "list", PN [] [([], PN (lit "p") [] false); ([], PN (lit "7") [] false); ([], PN [] [([], PN (lit "7") [] false)] false)] false); (lit "b", a)] false) /\
  parse_zml (fun _ => Throw) sample_text = meaning (fun _ => Throw) sample.
Proof. split; [exact sample_ok|]. split; [exact sample_lexes|]. split; [repeat constructor|]. vm_compute. auto. Qed.

(** ** consequences *)
Section After.
  Context (include : str -> outcome pn).
  Definition after (inside : bool) :=
    fix go (root : kids -> pn) (env : kids -> kids) (cs : kids) (l : list item) : outcome (kids * (kids -> kids)) :=
      match l with
      | [] => Ok (cs, env)
      | it :: r => do x <- item_meaning include inside root env cs it; go root (fun c => env c ++ snd x) (fst x) r
      end.
  Lemma meaning_app b root : forall l1 l2 env cs, items_meaning (item_meaning include b) root env cs (l1 ++ l2) =
    do x <- after b root env cs l1; items_meaning (item_meaning include b) root (snd x) (fst x) l2.
  Proof.
    induction l1 as [|it l1 IH]; intros l2 env cs; [reflexivity|]. cbn [app items_meaning after].
    destruct (item_meaning include b root env cs it) as [x| |]; cbn [obind]; try reflexivity. apply IH.
  Qed.
  Lemma after_meaning b root l env cs : items_meaning (item_meaning include b) root env cs l = omap fst (after b root env cs l).
  Proof. rewrite <- (app_nil_r l) at 1. rewrite meaning_app. destruct (after b root env cs l); reflexivity. Qed.
  Lemma after_const b root : forall l env cs cs' env', (forall c c', env c = env c') -> after b root env cs l = Ok (cs', env') -> forall c c', env' c = env' c'.
  Proof.
    induction l as [|it l IH]; intros env cs cs' env' He H; cbn [after] in H; [injection H as _ <-; exact He|].
    destruct (item_meaning include b root env cs it) as [x| |]; cbn [obind] in H; try discriminate.
    eapply IH; [|exact H]. intros c c'. cbn beta. rewrite (He c c'). reflexivity.
  Qed.
  (** the macros an item defines *)
  Lemma item_defines b root env cs it cs' D : item_meaning include b root env cs it = Ok (cs', D) ->
    D = [] \/ exists k m, D = [(k, m)] /\ is_macro k = true /\ ((exists c0 c, it = Set_ k c0 c) \/ exists eq arr body, it = Open k eq arr body).
  Proof.
    destruct it as [k c0 c|k eq arr body|arr body|c|arr body|fl]; cbn [item_meaning]; intros H.
    - destruct (is_macro k) eqn:E.
      + destruct b; [discriminate|]. destruct (content_node _ _ c) as [m| |]; cbn [obind] in H; try discriminate. injection H as <- <-. right. exists k, m. split; [reflexivity|]. split; [exact E|]. left. exists c0, c. reflexivity.
      + destruct (content_node _ _ c) as [m| |]; cbn [obind] in H; try discriminate. injection H as <- <-. left. reflexivity.
    - destruct (is_macro k) eqn:E.
      + destruct b; [discriminate|]. destruct (items_meaning _ _ _ [] body) as [m| |]; cbn [obind] in H; try discriminate. injection H as <- <-. right. eexists k, _. split; [reflexivity|]. split; [exact E|]. right. exists eq, arr, body. reflexivity.
      + destruct (items_meaning _ _ _ [] body) as [m| |]; cbn [obind] in H; try discriminate. injection H as <- <-. left. reflexivity.
    - destruct (rev cs) as [|[k [v b0 a]] r]; [discriminate|]. destruct (items_meaning _ _ _ b0 body) as [m| |]; cbn [obind] in H; try discriminate. injection H as <- <-. left. reflexivity.
    - destruct (content_node _ _ c) as [m| |]; cbn [obind] in H; try discriminate. injection H as <- <-. left. reflexivity.
    - destruct (items_meaning _ _ _ [] body) as [m| |]; cbn [obind] in H; try discriminate. injection H as <- <-. left. reflexivity.
    - destruct (include fl) as [t| |]; cbn [obind] in H; try discriminate. injection H as <- <-. left. reflexivity.
  Qed.
End After.
Lemma latest_none n env : latest n env = None <-> ~ In (dollar :: n) (map fst env).
Proof.
  induction env as [|[k m] env IH]; cbn [latest map fst In]; [tauto|]. destruct (latest n env) as [i|] eqn:E.
  - split; [discriminate|]. intros H. exfalso. destruct (latest_some _ _ _ E) as [m' Hm]. apply H. right. apply nth_error_In in Hm. apply (in_map fst) in Hm. exact Hm.
  - assert (E' : ~ In (dollar :: n) (map fst env)) by (apply IH; reflexivity). destruct (list_eq_dec ascii_dec k (dollar :: n)) as [->|Hk]; split; intros Q; try discriminate; try tauto; try reflexivity.
    all: try (intros [H|H]; [congruence|tauto]).
Qed.
Lemma latest_last n env m : latest n (env ++ [(dollar :: n, m)]) = Some (length env).
Proof.
  induction env as [|[k x] env IH]; cbn [app latest fst length].
  - destruct (list_eq_dec ascii_dec (dollar :: n) (dollar :: n)); [reflexivity|congruence].
  - rewrite IH. reflexivity.
Qed.

(** ** C154: macros *)
(** a macro belongs to the block it is defined in: after the block, and before the definition, its use is refused, whatever the items of the document *)
Theorem C154_scope (include : str -> outcome pn) (doc : list item) (n key : str) (b : bool) (more : list item) (t : pn) : key <> dollar :: n ->
  (forall it, In it doc -> (forall c0 c, it <> Set_ (dollar :: n) c0 c) /\ forall eq arr body, it <> Open (dollar :: n) eq arr body) ->
  meaning include (doc ++ Set_ key b (Use n) :: more) <> Ok t.
Proof.
  intros Hkey H. unfold meaning. rewrite meaning_app.
  assert (A : forall l root env cs cs' env', (forall it, In it l -> (forall c0 c, it <> Set_ (dollar :: n) c0 c) /\ forall eq arr body, it <> Open (dollar :: n) eq arr body) ->
    (forall c, ~ In (dollar :: n) (map fst (env c))) -> after include false root env cs l = Ok (cs', env') -> forall c, ~ In (dollar :: n) (map fst (env' c))).
  { clear. induction l as [|it l IH]; intros root env cs cs' env' Hl He Ha; cbn [after] in Ha; [injection Ha as _ <-; exact He|].
    destruct (item_meaning include false root env cs it) as [[c1 D]| |] eqn:E; cbn [obind fst snd] in Ha; try discriminate.
    eapply IH; [|  |exact Ha].
    - intros it' Hi. apply Hl. right. exact Hi.
    - intros c. cbn beta. rewrite map_app, in_app_iff. intros [Q|Q]; [exact (He c Q)|].
      destruct (item_defines _ _ _ _ _ _ _ _ E) as [->|(k & m & -> & Hk & Hit)]; [exact Q|]. cbn in Q. destruct Q as [->|[]].
      destruct (Hl it (or_introl eq_refl)) as [L1 L2]. destruct Hit as [(c0 & c' & Hit)|(eq & arr & body & Hit)]; [exact (L1 _ _ Hit)|exact (L2 _ _ _ Hit)]. }
  destruct (after include false (fun cs => PN [] cs false) (fun _ => []) [] doc) as [[cs env]| |] eqn:Ea; cbn [obind omap fst snd]; try discriminate.
  assert (L : forall c, ~ In (dollar :: n) (map fst (env c))) by (eapply A; [exact H| |exact Ea]; intros c Q; exact Q).
  cbn [items_meaning item_meaning]. destruct (is_macro key); unfold content_node.
  - replace (latest n (env cs ++ [(key, pn_empty)])) with (@None nat); [discriminate|].
    symmetry. apply latest_none. rewrite map_app, in_app_iff. cbn. intros [Q|[Q|[]]]; [exact (L _ Q)|congruence].
  - rewrite (proj2 (latest_none n _) (L _)). discriminate.
Qed.
Print Assumptions C154_scope.
(** the use of a macro directly after its definition gives what was defined, and not what an earlier definition of the name said *)
Theorem C154_latest (include : str -> outcome pn) (doc : list item) (n s key : str) (b1 b2 : bool) (cs : kids) (v : str) (a : bool) :
  is_macro key = false -> meaning include doc = Ok (PN v cs a) ->
  meaning include (doc ++ [Set_ (dollar :: n) b1 (Text s []); Set_ key b2 (Use n)]) = Ok (PN v (cs ++ [(key, PN s [] false)]) a) /\
  forall s', meaning include (doc ++ [Set_ (dollar :: n) b1 (Text s' []); Set_ (dollar :: n) b1 (Text s []); Set_ key b2 (Use n)]) = Ok (PN v (cs ++ [(key, PN s [] false)]) a).
Proof.
  intros Hk H. unfold meaning in *. rewrite after_meaning in H.
  destruct (after include false (fun cs => PN [] cs false) (fun _ => []) [] doc) as [[cs0 env]| |] eqn:Ea; cbn [omap fst] in H; try discriminate. injection H as <- <- <-.
  assert (Hc : forall c c', env c = env c') by (eapply after_const; [|exact Ea]; reflexivity).
  assert (U : forall (e : kids -> kids), (forall c c', e c = e c') ->
    omap (fun cs => PN [] cs false) (items_meaning (item_meaning include false) (fun cs => PN [] cs false) e cs0 [Set_ (dollar :: n) b1 (Text s []); Set_ key b2 (Use n)]) =
    Ok (PN [] (cs0 ++ [(key, PN s [] false)]) false)).
  { intros e He. cbn [items_meaning item_meaning]. replace (is_macro (dollar :: n)) with true by reflexivity. cbn [content_node expand obind fst snd].
    rewrite app_nil_r. rewrite Hk. cbn [content_node]. rewrite latest_last. cbn [obind fst snd omap].
    assert (X : forall c c', nth_error (e c ++ [(dollar :: n, PN s [] false)]) (length (e c')) = Some (dollar :: n, PN s [] false))
      by (intros c c'; rewrite (He c' c); apply nth_error_last).
    unfold copy. rewrite !X. reflexivity. }
  split; [|intros s']; rewrite meaning_app, Ea; cbn [obind fst snd].
  - apply U. exact Hc.
  - cbn [items_meaning]. cbn [item_meaning]. replace (is_macro (dollar :: n)) with true by reflexivity. cbn [content_node expand obind fst snd].
    apply (U (fun c => env c ++ [(dollar :: n, PN (s' ++ []) [] false)])). intros c c'. rewrite (Hc c c'). reflexivity.
Qed.
Print Assumptions C154_latest.
(** the name of a macro is known in its own definition, where it is empty: a macro cannot be extended by defining it again *)
Theorem C154_extend_refuted :
  meaning (fun _ => Throw) [Set_ (lit "$a") false (Text (lit "1") []); Set_ (lit "$a") false (Text [] [(lit "a", lit "2")]); Set_ (lit "b") false (Use (lit "a"))] =
  Ok (PN [] [(lit "b", PN (lit "2") [] false)] false) /\
  parse_zml (fun _ => Throw) (lit "$a = 1 $a = '${a}2' b = $a") = Ok (PN [] [(lit "b", PN (lit "2") [] false)] false).
Proof. vm_compute. auto. Qed.
Print Assumptions C154_extend_refuted.
Example C154_case :
  parse_zml (fun _ => Throw) (lit "g { $m = 1 x = $m } y = $m") = Throw /\
  parse_zml (fun _ => Throw) (lit "$m = 1 g { $m = 2 x = $m } y = $m") =
    Ok (PN [] [(lit "g", PN [] [(lit "x", PN (lit "2") [] false)] false); (lit "y", PN (lit "1") [] false)] false).
Proof. vm_compute. auto. Qed.

(** ** C155: references *)
Lemma addresses_add v cs a k c ks p : addresses (PN v cs a) ks p -> hd_error k <> Some "#"%char -> addresses (PN v (cs ++ [(k, c)]) a) ks p.
Proof.
  intros H Hk. inversion H as [t|t k0 i kc ks0 p0 Hc Hn Hs]; subst; [constructor|]. cbn [pn_children] in Hn.
  assert (Hi : i < length cs) by (apply nth_error_Some; congruence).
  econstructor; [|cbn [pn_children]; rewrite nth_error_app1 by exact Hi; exact Hn|exact Hs].
  destruct Hc as [[H1 H2]|(H1 & text & -> & H2 & H3)]; [left|right]; unfold first_child, pn_keys in *; cbn [pn_children] in *; rewrite map_app.
  - split; [rewrite nth_error_app1 by (rewrite map_length; exact Hi); exact H1|]. intros j Hj. rewrite nth_error_app1 by (rewrite map_length; lia). exact (H2 j Hj).
  - split.
    + rewrite in_app_iff. intros [Q|[Q|[]]]; [exact (H1 Q)|]. cbn in Q. subst k. apply Hk. reflexivity.
    + exists text. rewrite app_length. repeat split; [exact H2|lia].
Qed.
(** a reference at the end of a document gives a copy of the node the query finds in the tree read so far, with its value and its children *)
Theorem C155_reference (include : str -> outcome pn) (doc : list item) (q key : str) (b : bool) (cs : kids) (v : str) (a : bool) (p : list nat) (u : pn) :
  is_macro key = false -> hd_error key <> Some "#"%char -> meaning include doc = Ok (PN v cs a) ->
  try_get_query (PN v cs a) q "."%char = Ok (Some p) -> node_at (PN v cs a) p = Some u ->
  meaning include (doc ++ [Set_ key b (Ref q)]) = Ok (PN v (cs ++ [(key, u)]) a).
Proof.
  intros Hk Hh H Hq Hu. unfold meaning in *. rewrite after_meaning in H.
  destruct (after include false (fun cs => PN [] cs false) (fun _ => []) [] doc) as [[cs0 env]| |] eqn:Ea; cbn [omap fst] in H; try discriminate. injection H as <- <- <-.
  rewrite meaning_app, Ea. cbn [obind fst snd items_meaning item_meaning]. rewrite Hk. cbn [content_node].
  assert (Q : exists ks, query_parts "."%char q ks /\ forall w p, try_get_query w q "."%char = Ok (Some p) <-> addresses w ks p).
  { destruct (query_get_assembled pn_empty q "."%char) as (ks & r & Hp & _). exists ks. split; [exact Hp|]. intros w p'.
    destruct (try_get_query_spec w q "."%char ks Hp) as (r' & Er & Hr). rewrite Er. split; [intros E; injection E as E; apply Hr; exact E|intros E; apply Hr in E; congruence]. }
  destruct Q as (ks & Hp & Q). apply Q in Hq. pose proof (addresses_add _ _ _ key pn_empty _ _ Hq Hh) as Hq'.
  match goal with |- context [try_get_query ?t q ?d] => replace (try_get_query t q d) with (Ok (Some p)) by (symmetry; exact (proj2 (Q _ _) Hq')) end. cbn [obind].
  assert (N : forall c, node_at (PN [] (cs0 ++ [(key, c)]) false) p = Some u).
  { intros c. destruct p as [|i p]; [exfalso; pose proof (addresses_length _ _ _ Hq) as Hl; cbn in Hl; destruct ks; [exact (proj1 Hp eq_refl)|discriminate]|].
    cbn [node_at pn_children] in *. destruct (nth_error cs0 i) as [kc|] eqn:E; [|discriminate]. rewrite nth_error_app1 by (apply nth_error_Some; congruence). rewrite E. exact Hu. }
  unfold copy. rewrite N, N. destruct u as [uv ucs ua]. reflexivity.
Qed.
Print Assumptions C155_reference.
(** the addressed node is the one found first: later items with the same key do not count, and the new item itself counts *)
Example C155_case :
  parse_zml (fun _ => Throw) (lit "a = 1 { x = 2 } a = 3 b = @a") = Ok (PN [] [(lit "a", PN (lit "1") [(lit "x", PN (lit "2") [] false)] false);
     (lit "a", PN (lit "3") [] false); (lit "b", PN (lit "1") [(lit "x", PN (lit "2") [] false)] false)] false) /\
  parse_zml (fun _ => Throw) (lit "b = @c c = 1") = Throw /\
  parse_zml (fun _ => Throw) (lit "b = @b c = 1") = Ok (PN [] [(lit "b", pn_empty); (lit "c", PN (lit "1") [] false)] false).
Proof. vm_compute. auto. Qed.

(** ** C156: a block after an item adds to the children the item already has *)
Theorem C156_more (include : str -> outcome pn) (doc : list item) (arr : bool) (sets : list (str * str)) (cs cs1 : kids) (v w k : str) (a a1 : bool) :
  Forall (fun kv => is_macro (fst kv) = false) sets -> meaning include doc = Ok (PN v (cs ++ [(k, PN w cs1 a1)]) a) ->
  meaning include (doc ++ [More arr (map (fun kv => Set_ (fst kv) false (Text (snd kv) [])) sets)]) =
  Ok (PN v (cs ++ [(k, PN w (cs1 ++ map (fun kv => (fst kv, PN (snd kv) [] false)) sets) a1)]) a).
Proof.
  intros Hs H. unfold meaning in *. rewrite after_meaning in H.
  destruct (after include false (fun cs => PN [] cs false) (fun _ => []) [] doc) as [[cs0 env]| |] eqn:Ea; cbn [omap fst] in H; try discriminate. injection H as <- -> <-.
  rewrite meaning_app, Ea. cbn [obind fst snd]. cbn [items_meaning item_meaning].
  rewrite rev_app_distr. cbn [rev app]. rewrite rev_involutive.
  match goal with |- context [items_meaning (item_meaning include false) ?r _ cs1 _] =>
    assert (M : forall e c1, items_meaning (item_meaning include false) r e c1 (map (fun kv => Set_ (fst kv) false (Text (snd kv) [])) sets) =
      Ok (c1 ++ map (fun kv => (fst kv, PN (snd kv) [] false)) sets)) end.
  { clear Ea. induction Hs as [|[k1 v1] l Hk _ IH]; intros e c1; cbn [map items_meaning fst snd]; [rewrite app_nil_r; reflexivity|].
    cbn [item_meaning]. cbn [fst] in Hk. rewrite Hk. cbn [content_node expand obind fst snd]. rewrite app_nil_r, IH, <- app_assoc. reflexivity. }
  rewrite M. cbn [obind fst snd omap]. reflexivity.
Qed.
Print Assumptions C156_more.
Example C156_case :
  parse_zml (fun _ => Throw) (lit "a = 1 { x = 2 } { x = 3 } $m = 4 { y = 5 }") =
    Ok (PN [] [(lit "a", PN (lit "1") [(lit "x", PN (lit "2") [] false); (lit "x", PN (lit "3") [] false); (lit "y", PN (lit "5") [] false)] false)] false).
Proof. vm_compute. auto. Qed.

(** ** C157: a text without macros is either read or refused *)
Theorem C157_defined (include : str -> outcome pn) (text : str) : (forall name, include name <> UB) ->
  last text nul <> bslash -> ~ In "$"%char text -> (exists t, parse_zml include text = Ok t) \/ parse_zml include text = Throw.
Proof.
  intros Hi Hl Hd. pose proof (parse_defined include Hi text (conj Hl Hd)) as H.
  destruct (parse_zml include text) as [t| |]; [left; exists t; reflexivity|right; reflexivity|congruence].
Qed.
Print Assumptions C157_defined.
Example C157_case :
  (forall name, (fun n => if str_eqb n (lit "f") then Ok (PN [] [(lit "z", PN (lit "1") [] false)] false) else @Throw pn) name <> UB) /\
  let include := fun n => if str_eqb n (lit "f") then Ok (PN [] [(lit "z", PN (lit "1") [] false)] false) else @Throw pn in
  parse_zml include (lit "a { << f >> }") = Ok (PN [] [(lit "a", PN [] [(lit "z", PN (lit "1") [] false)] false)] false) /\
  parse_zml include (lit "a { << g >> }") = Throw /\ parse_zml include (lit "} } = [ /* ") = Throw.
Proof. split; [intros name; cbn beta; destruct (str_eqb name (lit "f")); discriminate|]. vm_compute. auto. Qed.
(** both conditions are needed: a final backslash is read past the end of the text, and a macro defined inside another may move
    the node that is being read *)
Theorem C157_refuted (include : str -> outcome pn) : parse_zml include (lit "a = '" ++ [bslash]) = UB /\ parse_zml include (lit "$a { $b = 1 }") = UB.
Proof. split; reflexivity. Qed.
Print Assumptions C157_refuted.
