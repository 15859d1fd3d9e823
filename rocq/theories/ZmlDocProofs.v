(** The reader gives every well-formed document its meaning. *)
From Coq Require Import Ascii String List Arith NArith Bool Lia.
From Verif Require Import Base BaseProofs Str StrSpec StrModel StrBase StrProofs PnSpec PnModel PnProofs PnProofs2
  TokSpec TokModel TokProofs ZmlSpec ZmlModel ZmlReader ZmlLex ZmlRound ZmlWrite ZmlProofs ZmlDocSpec.
Import ListNotations.

(** * macros *)
Definition macros_ok (env : kids) : Prop := Forall (fun e => exists n, fst e = dollar :: n) env.
Lemma last_index_latest n p : forall env i acc, macros_ok env -> (forall k, p (dollar :: k) = true <-> k = n) ->
  last_index p env i acc = match latest n env with Some j => Some (i + j) | None => acc end.
Proof.
  induction env as [|[k m] env IH]; intros i acc H Hp; [reflexivity|]. inversion H as [|? ? [k' E] H']; subst. cbn [fst] in E. subst k.
  cbn [last_index latest fst]. rewrite IH by assumption. destruct (latest n env) as [j|]; [f_equal; lia|].
  destruct (list_eq_dec ascii_dec (dollar :: k') (dollar :: n)) as [E|E].
  - injection E as ->. rewrite (proj2 (Hp n) eq_refl). f_equal. lia.
  - destruct (p (dollar :: k')) eqn:Ep; [|reflexivity]. apply Hp in Ep. subst. congruence.
Qed.
Lemma latest_some n : forall env i, latest n env = Some i -> exists m, nth_error env i = Some (dollar :: n, m).
Proof.
  induction env as [|[k m] env IH]; intros i H; [discriminate|]. cbn [latest fst] in H. destruct (latest n env) as [j|] eqn:E.
  - injection H as <-. exact (IH j eq_refl).
  - destruct (list_eq_dec ascii_dec k (dollar :: n)) as [->|]; [|discriminate]. injection H as <-. exists m. reflexivity.
Qed.

(** * text with macros *)
Lemma occurs_dollar_skip s r i : ~ holds s (lit "${") -> occurs_at (s ++ r) (lit "${") i -> (r = [] \/ exists r', r = lit "${" ++ r') -> length s <= i.
Proof.
  intros Hs [a [b [E <-]]] Hr. destruct (Nat.le_gt_cases (length s) (length a)) as [H|H]; [exact H|]. exfalso.
  destruct (app_split a (lit "${" ++ b) s r) as [u [-> E2]]; [symmetry; exact E|lia|].
  destruct u as [|x u]; [rewrite app_nil_r in H; lia|]. cbn [lit list_ascii_of_string app] in E2. injection E2 as <- E2.
  destruct u as [|y u].
  - cbn [app] in E2. destruct Hr as [->|[r' ->]]; discriminate.
  - cbn [app] in E2. injection E2 as <- E2. apply Hs. exists a, u. reflexivity.
Qed.
Lemma inline_expand env : macros_ok env -> forall parts s done f,
  ~ holds s (lit "${") -> Forall (fun p => ~ In "}"%char (fst p) /\ ~ holds (snd p) (lit "${")) parts -> length parts < f ->
  inline_loop f env done (s ++ concat (map part_text parts)) = omap (fun v => done ++ s ++ v) (expand env parts).
Proof.
  intros Hm. induction parts as [|[n s2] parts IH]; intros s done f Hs Hp Hf; (destruct f as [|f]; [lia|]); cbn [inline_loop map concat expand].
  - replace (Str.find (s ++ []) (lit "${") 0) with (@None nat); [reflexivity|]. symmetry. apply find_none. intros i _ Ho.
    rewrite app_nil_r in Ho. destruct Ho as [a [b [E _]]]. apply Hs. exists a, b. exact E.
  - inversion Hp as [|? ? [Hn Hs2] Hp']; subst. cbn [fst snd] in Hn, Hs2. cbn [part_text fst snd].
    set (tl := s2 ++ concat (map part_text parts)).
    assert (Es : s ++ part_text (n, s2) ++ concat (map part_text parts) = s ++ lit "${" ++ n ++ lit "}" ++ tl).
    { unfold part_text, tl. cbn [fst snd]. rewrite <- !app_assoc. reflexivity. }
    rewrite Es.
    replace (Str.find (s ++ lit "${" ++ n ++ lit "}" ++ tl) (lit "${") 0) with (Some (length s)).
    2:{ symmetry. apply find_some. split; [lia|]. split; [exists s, (n ++ lit "}" ++ tl); split; reflexivity|].
        intros j Hj Ho. assert (length s <= j); [|lia]. eapply occurs_dollar_skip; [exact Hs|exact Ho|]. right. eexists. reflexivity. }
    rewrite skipn_length_app.
    change (lit "${" ++ n ++ lit "}" ++ tl) with ((lit "${" ++ n) ++ "}"%char :: tl).
    rewrite index_from_app.
    2:{ apply Forall_app. split; [repeat constructor|]. apply Forall_forall. intros x Hx. apply eqb_false. intros ->. exact (Hn Hx). }
    2:{ reflexivity. }
    replace (length s + length (lit "${" ++ n) - length s - 2) with (length n) by (rewrite app_length; cbn [length lit list_ascii_of_string]; lia).
    replace (skipn (length s + 2) (s ++ (lit "${" ++ n) ++ "}"%char :: tl)) with (n ++ "}"%char :: tl).
    2:{ rewrite <- skipn_skipn'. rewrite skipn_length_app. reflexivity. }
    rewrite firstn_length_app.
    rewrite (last_index_latest n) by (try exact Hm; intros k; cbn [skipn]; rewrite str_eqb_eq; split; congruence).
    destruct (latest n env) as [i|] eqn:El; [|reflexivity]. destruct (latest_some _ _ _ El) as [m E]. cbn [Nat.add]. rewrite E. cbn [snd].
    replace (firstn (length s) (s ++ (lit "${" ++ n) ++ "}"%char :: tl)) with s by (rewrite firstn_length_app; reflexivity).
    replace (skipn (length s + length (lit "${" ++ n) + 1) (s ++ (lit "${" ++ n) ++ "}"%char :: tl)) with tl.
    2:{ rewrite app_assoc. replace (length s + length (lit "${" ++ n) + 1) with (length (s ++ lit "${" ++ n) + 1) by (rewrite (app_length s); lia).
        rewrite <- skipn_skipn', skipn_length_app. reflexivity. }
    unfold tl. rewrite IH by (try assumption; cbn [length] in Hf; lia).
    destruct (expand env parts) as [v| |]; cbn [omap obind]; try reflexivity. f_equal. rewrite <- !app_assoc. reflexivity.
Qed.

(** * where the reader is *)
Lemma update_at_app t p q f : update_at t (p ++ q) f = update_at t p (fun u => update_at u q f).
Proof.
  revert t. induction p as [|i p IH]; intros t; [reflexivity|]. cbn [app update_at]. f_equal. unfold upd_child.
  destruct (nth_error (pn_children t) i) as [[k c]|]; [|reflexivity]. cbn [fst snd]. rewrite IH. reflexivity.
Qed.
Lemma list_set_last {A} (l : list A) x y : list_set (l ++ [x]) (length l) y = l ++ [y].
Proof. induction l as [|z l IH]; [reflexivity|]. cbn. rewrite IH. reflexivity. Qed.
Lemma nth_error_last {A} (l : list A) x : nth_error (l ++ [x]) (length l) = Some x.
Proof. rewrite nth_error_app2 by lia. rewrite Nat.sub_diag. reflexivity. Qed.
Lemma update_last v cs k c a g : update_at (PN v (cs ++ [(k, c)]) a) [length cs] g = PN v (cs ++ [(k, g c)]) a.
Proof. cbn [update_at pn_value pn_children pn_flag]. unfold upd_child. rewrite nth_error_last. cbn [fst snd]. rewrite list_set_last. reflexivity. Qed.

Section Reading.
  Context (include : str -> outcome pn).
  Notation layer := (read_zml_layer next_list include).

  Definition at_node (src : list str) (root : pn) (env : kids) : zst (list str) := ZSt src root (PN [] env false).
  (** the node at [l] has value [v], flag [a]; with children [cs] the tree is [root cs] and the macros are [env cs] *)
  Definition focus (l : loc) (v : str) (a : bool) (root : kids -> pn) (env : kids -> kids) : Prop :=
    (forall src cs, node_at (tree_of l (at_node src (root cs) (env cs))) (loc_path l) = Some (PN v cs a)) /\
    (forall src cs cs' f, f (PN v cs a) = PN v cs' a -> modify l f (at_node src (root cs) (env cs)) = at_node src (root cs') (env cs')) /\
    (forall cs, macros_ok (env cs)) /\ (forall cs cs', length (env cs) = length (env cs')).

  Lemma focus_env l v a root env : focus l v a root env -> in_macros l = false -> forall cs cs', env cs = env cs'.
  Proof.
    intros [_ [H _]] Hl cs cs'. specialize (H [] cs cs' (fun _ => PN v cs' a) eq_refl). unfold modify in H. rewrite Hl in H. injection H. auto.
  Qed.
  Lemma focus_macro l v a root env m : focus l v a root env -> in_macros l = false -> macros_ok m -> focus l v a root (fun cs => env cs ++ m).
  Proof.
    intros F Hl Hm. pose proof (focus_env _ _ _ _ _ F Hl) as He. destruct F as [F1 [F2 [F3 F4]]]. split; [|split; [|split]].
    - intros src cs. specialize (F1 src cs). unfold tree_of in *. rewrite Hl in *. exact F1.
    - intros src cs cs' f Hf. specialize (F2 src cs cs' f Hf). unfold modify in *. rewrite Hl in *. unfold at_node in *. cbn [z_src z_root z_macros] in *.
      injection F2 as E1 E2. rewrite E1, (He cs cs'). reflexivity.
    - intros cs. apply Forall_app. split; [apply F3|exact Hm].
    - intros cs cs'. rewrite !app_length, (F4 cs cs'). reflexivity.
  Qed.
  (** a change of the last child *)
  Lemma focus_last l v a root env : focus l v a root env -> forall src cs k c g,
    modify (Loc (in_macros l) (loc_path l ++ [length cs])) g (at_node src (root (cs ++ [(k, c)])) (env (cs ++ [(k, c)]))) =
    at_node src (root (cs ++ [(k, g c)])) (env (cs ++ [(k, g c)])).
  Proof.
    intros [_ [F2 _]] src cs k c g. rewrite <- (F2 src (cs ++ [(k, c)]) (cs ++ [(k, g c)]) (fun u => update_at u [length cs] g) (update_last v cs k c a g)).
    unfold modify. cbn [in_macros loc_path]. rewrite !update_at_app. reflexivity.
  Qed.
  Lemma focus_last_node l v a root env : focus l v a root env -> forall src cs k c,
    node_at (tree_of l (at_node src (root (cs ++ [(k, c)])) (env (cs ++ [(k, c)])))) (loc_path l ++ [length cs]) = Some c.
  Proof. intros [F1 _] src cs k c. rewrite node_at_app, F1. cbn [node_at pn_children]. rewrite nth_error_last. reflexivity. Qed.
  Lemma focus_child l v a root env : focus l v a root env -> forall cs k v' a',
    focus (Loc (in_macros l) (loc_path l ++ [length cs])) v' a' (fun b => root (cs ++ [(k, PN v' b a')])) (fun b => env (cs ++ [(k, PN v' b a')])).
  Proof.
    intros F cs k v' a'. split; [|split; [|split]].
    - intros src b. cbn [loc_path]. exact (focus_last_node _ _ _ _ _ F src cs k (PN v' b a')).
    - intros src b b' f Hf. rewrite (focus_last _ _ _ _ _ F src cs k (PN v' b a') f). rewrite Hf. reflexivity.
    - intros b. apply F.
    - intros b b'. apply F.
  Qed.
  (** a new macro *)
  Lemma focus_new_macro root env (k : str) : macros_ok env -> (exists n, k = dollar :: n) ->
    focus (Loc true [length env]) [] false (fun _ => root) (fun b => env ++ [(k, PN [] b false)]).
  Proof.
    intros Hm Hk. split; [|split; [|split]].
    - intros src b. unfold tree_of. cbn [in_macros loc_path z_macros at_node node_at pn_children]. rewrite nth_error_last. reflexivity.
    - intros src b b' f Hf. unfold modify, at_node. cbn [in_macros loc_path z_src z_root z_macros]. f_equal. etransitivity; [exact (update_last [] env k (PN [] b false) false f)|]. rewrite Hf. reflexivity.
    - intros b. apply Forall_app. split; [exact Hm|]. constructor; [exact Hk|constructor].
    - intros b b'. rewrite !app_length. reflexivity.
  Qed.
  Lemma modify_macro src root env (k : str) m g : modify (Loc true [length env]) g (at_node src root (env ++ [(k, m)])) = at_node src root (env ++ [(k, g m)]).
  Proof. unfold modify, at_node. cbn [in_macros loc_path z_src z_root z_macros]. f_equal. exact (update_last [] env k m false g). Qed.

  Lemma new_child_focus l v a root env : focus l v a root env -> forall src cs k,
    new_child l k (at_node src (root cs) (env cs)) =
    (Loc (in_macros l) (loc_path l ++ [length cs]), at_node src (root (cs ++ [(k, pn_empty)])) (env (cs ++ [(k, pn_empty)]))).
  Proof.
    intros [F1 [F2 _]] src cs k. unfold new_child, children_at. rewrite F1. cbn [pn_children]. f_equal. apply F2. reflexivity.
  Qed.
  Lemma new_child_macro src root env k :
    new_child (Loc true []) k (at_node src root env) = (Loc true [length env], at_node src root (env ++ [(k, pn_empty)])).
  Proof. reflexivity. Qed.

  (** ** the value of an item.  [np] is where the new node is; with [c] there, the tree is [root c] and the macros are [env c] *)
  Definition slot (np : loc) (root : pn -> pn) (env : pn -> kids) : Prop :=
    (forall src c g, modify np g (at_node src (root c) (env c)) = at_node src (root (g c)) (env (g c))) /\
    (forall src c, node_at (tree_of np (at_node src (root c) (env c))) (loc_path np) = Some c) /\
    macros_ok (env pn_empty).
  Lemma focus_slot l v a root env : focus l v a root env -> forall cs k,
    slot (Loc (in_macros l) (loc_path l ++ [length cs])) (fun c => root (cs ++ [(k, c)])) (fun c => env (cs ++ [(k, c)])).
  Proof.
    intros F cs k. split; [|split].
    - intros src c g. apply (focus_last _ _ _ _ _ F).
    - intros src c. apply (focus_last_node _ _ _ _ _ F).
    - apply F.
  Qed.
  Lemma macro_slot root env (k : str) : macros_ok env -> (exists n, k = dollar :: n) -> slot (Loc true [length env]) (fun _ => root) (fun c => env ++ [(k, c)]).
  Proof.
    intros Hm Hk. split; [|split].
    - intros src c g. apply modify_macro.
    - intros src c. unfold tree_of. cbn [in_macros loc_path z_macros at_node node_at pn_children]. rewrite nth_error_last. reflexivity.
    - apply Forall_app. split; [exact Hm|]. constructor; [exact Hk|constructor].
  Qed.
  Lemma copy_ext f g : (forall c, f c = g c) -> copy f = copy g.
  Proof. intros H. unfold copy. rewrite (H pn_empty). cbv zeta. rewrite H. reflexivity. Qed.
  Lemma assign_copy np root env source src : slot np root env ->
    assign np source (at_node src (root pn_empty) (env pn_empty)) =
    let c := copy (fun c => node_at (tree_of source (at_node src (root c) (env c))) (loc_path source)) in at_node src (root c) (env c).
  Proof.
    intros [S1 [S2 _]]. cbn zeta. unfold assign. destruct (Bool.eqb (in_macros np) (in_macros source) && path_eqb (loc_path np) (loc_path source)) eqn:E.
    - apply andb_true_iff in E. destruct E as [E1 E2]. apply eqb_prop in E1. apply path_eqb_iff in E2.
      assert (H : forall c, node_at (tree_of source (at_node src (root c) (env c))) (loc_path source) = Some c).
      { intros c. rewrite <- E2. replace (tree_of source (at_node src (root c) (env c))) with (tree_of np (at_node src (root c) (env c))); [apply S2|]. unfold tree_of. rewrite E1. reflexivity. }
      unfold copy. rewrite !H. reflexivity.
    - rewrite S1. cbn [pn_children pn_flag pn_value pn_empty]. unfold copy.
      set (v := pn_value match node_at (tree_of source (at_node src (root pn_empty) (env pn_empty))) (loc_path source) with Some n => n | None => pn_empty end).
      assert (Ev : match node_at (tree_of source (at_node src (root pn_empty) (env pn_empty))) (loc_path source) with Some u => pn_value u | None => [] end = v).
      { unfold v. destruct (node_at _ _); reflexivity. }
      rewrite Ev. rewrite S1. clearbody v. clear Ev. cbn [pn_children pn_flag pn_value]. destruct (node_at _ (loc_path source)); reflexivity.
  Qed.
  Lemma last_index_ext p q : (forall k, p k = q k) -> forall (cs : kids) i acc, last_index p cs i acc = last_index q cs i acc.
  Proof. intros H cs. induction cs as [|[k m] cs IH]; intros i acc; [reflexivity|]. cbn [last_index]. rewrite H, IH. reflexivity. Qed.
  Lemma parts_length parts : length parts <= length (concat (map part_text parts)).
  Proof. induction parts as [|[n s] parts IH]; [cbn; lia|]. cbn [map concat]. rewrite app_length. unfold part_text at 1. cbn [fst snd]. rewrite app_length. cbn [length lit list_ascii_of_string]. lia. Qed.
  Lemma content_not_open c : content_ok c -> content_token c <> lit "{" /\ content_token c <> lit "[".
  Proof. destruct c as [s parts|n|q]; intros H; [unfold content_ok in H; tauto| |]; split; intros E; discriminate E. Qed.
  Lemma value_meaning np root env c src : slot np root env -> content_ok c ->
    assign_value np (content_token c) (at_node src (root pn_empty) (env pn_empty)) =
    omap (fun n => at_node src (root n) (env n)) (content_node root env c).
  Proof.
    intros Sl Hc. unfold assign_value. destruct c as [s parts|n|q].
    - destruct Hc as [H1 [H2 [H3 [H4 [H5 H6]]]]]. set (t := content_token (Text s parts)) in *.
      replace (str_begins_with_char t "@") with false.
      2:{ destruct t as [|x r] eqn:Et; [reflexivity|]. cbn. symmetry. apply eqb_false. intros ->. exact (H5 r eq_refl). }
      replace ((2 <=? length t) && Ascii.eqb (nth 0 t nul) "$" && negb (Ascii.eqb (nth 1 t nul) "{")) with false.
      2:{ destruct t as [|x [|y r]] eqn:Et; try reflexivity. cbn [length Nat.leb nth andb]. destruct (Ascii.eqb_spec x "$") as [->|]; [|reflexivity].
          rewrite (H6 y r eq_refl). reflexivity. }
      cbn [at_node z_macros pn_children]. unfold t, content_token. rewrite inline_expand; [|apply Sl|exact H1|exact H2|].
      2:{ pose proof (parts_length parts). pose proof (app_length s (concat (map part_text parts))) as HL. unfold str in *. rewrite HL. lia. }
      unfold content_node. destruct (expand (env pn_empty) parts) as [v| |]; cbn [omap obind app]; try reflexivity. f_equal.
      destruct Sl as [S1 _]. exact (S1 src pn_empty (fun n => set_value n (s ++ v))).
    - destruct Hc as [x [r [-> Hx]]]. cbn [content_token]. replace (str_begins_with_char (dollar :: x :: r) "@") with false by reflexivity.
      cbn [length Nat.leb nth]. replace (Ascii.eqb dollar "$") with true by reflexivity. replace (Ascii.eqb x "{") with false by (symmetry; apply eqb_false; exact Hx).
      cbn [andb negb at_node z_macros pn_children content_node].
      rewrite (last_index_latest (x :: r)) by (try apply Sl; intros k; rewrite str_eqb_eq; split; congruence).
      destruct (latest (x :: r) (env pn_empty)) as [i|]; [|reflexivity]. cbn [Nat.add omap]. f_equal.
      change (ZSt src (root pn_empty) (PN [] (env pn_empty) false)) with (at_node src (root pn_empty) (env pn_empty)).
      rewrite (assign_copy np root env (Loc true [i]) src Sl). cbn zeta. rewrite (copy_ext _ (fun c => option_map snd (nth_error (env c) i))); [reflexivity|].
      intros c. unfold tree_of. cbn [in_macros loc_path at_node z_macros node_at pn_children]. destruct (nth_error (env c) i) as [[k m]|]; reflexivity.
    - cbn [content_token]. replace (str_begins_with_char ("@"%char :: q) "@") with true by reflexivity.
      replace (substr ("@"%char :: q) 1 None) with (Ok q) by (symmetry; exact (substr_end ["@"%char] q)). cbn [obind at_node z_root content_node].
      destruct (try_get_query (root pn_empty) q ".") as [[p|]| |]; cbn [obind omap]; try reflexivity. f_equal.
      change (ZSt src (root pn_empty) (PN [] (env pn_empty) false)) with (at_node src (root pn_empty) (env pn_empty)).
      rewrite (assign_copy np root env (Loc false p) src Sl). reflexivity.
  Qed.

  (** ** items *)
  Fixpoint item_size (it : item) : nat :=
    match it with
    | Open _ _ _ body | More _ body | ElemOpen _ body => 2 + list_sum (map item_size body)
    | _ => 1
    end.
  Definition size (l : list item) : nat := list_sum (map item_size l).
  Lemma item_size_pos it : 1 <= item_size it.
  Proof. destruct it; cbn; lia. Qed.

  (** the token that ends a list of items *)
  Definition ends (arr : bool) (close : str) : Prop := if arr then close = lit "]" else close = lit "}" \/ close = [].
  Definition closed (inside : bool) (l : loc) := inside = in_macros l.

  Definition result (o : outcome kids) (root : kids -> pn) (env : kids -> kids) (rest : list str) : zres (zst (list str)) :=
    Some (omap (fun cs => at_node rest (root cs) (env cs)) o).

  Lemma key_first k : key_ok k -> exists x r, k = x :: r /\ isgraph x = true /\ is_macro k = Ascii.eqb x "$".
  Proof. intros [[x [r [-> Hx]]] _]. exists x, r. auto. Qed.
  Lemma close_key close k : ends false close -> key_ok k -> str_eqb k close = false.
  Proof.
    intros He Hk. apply str_eqb_neq. destruct Hk as [[x [r [-> _]]] [_ [_ [Hk _]]]]. destruct He as [->| ->]; [exact Hk|discriminate].
  Qed.
  Lemma str_neq a b : a <> b -> str_eqb a b = false.
  Proof. apply str_eqb_neq. Qed.

  Lemma ends_not_array close : ends false close -> str_eqb close (lit "]") = false.
  Proof. intros [->| ->]; reflexivity. Qed.
  Lemma head_key close l v a root env cs k eq t tl : ends false close -> key_ok k -> focus l v a root env ->
    (eq = None -> t = lit "{" \/ t = lit "[") ->
    item_head next_list close l k (at_node ((match eq with Some b => [assign_token b] | None => [] end) ++ t :: tl) (root cs) (env cs)) =
    if is_macro k then
      if in_macros l then UB else Ok (Loc true [length (env cs)], t, at_node tl (root cs) (env cs ++ [(k, pn_empty)]))
    else Ok (Loc (in_macros l) (loc_path l ++ [length cs]), t, at_node tl (root (cs ++ [(k, pn_empty)])) (env (cs ++ [(k, pn_empty)]))).
  Proof.
    intros He Hk F Heq. unfold item_head. rewrite (ends_not_array _ He). destruct (key_first k Hk) as [x [r [Ek [Hx Hm]]]].
    destruct Hk as [_ [K1 [K2 [K3 K4]]]]. rewrite (str_neq k _ K1), (str_neq k _ K2). cbn [orb].
    assert (Hsep : forall np root' env', (do r <- tok next_list (at_node ((match eq with Some b => [assign_token b] | None => [] end) ++ t :: tl) root' env');
      let (t, s) := r in
      if str_eqb t (lit "=") || str_eqb t (lit ": ") then do r <- tok next_list s; let (t, s) := r in Ok (np, t, s)
      else if str_eqb t (lit "{") || str_eqb t (lit "[") then Ok (np, t, s) else Throw) = Ok (np : loc, t, at_node tl root' env')).
    { intros np root' env'. destruct eq as [[]|]; [reflexivity|reflexivity|]. destruct (Heq eq_refl) as [->| ->]; reflexivity. }
    rewrite Hm, Ek. destruct (Ascii.eqb x "$").
    - destruct (in_macros l); [reflexivity|]. cbn [obind]. rewrite new_child_macro. apply Hsep.
    - rewrite Hx. cbn [negb obind]. rewrite (new_child_focus _ _ _ _ _ F). apply Hsep.
  Qed.
  Lemma layer_key f close l mc k toks root env : ends false close -> key_ok k ->
    layer (S f) close l mc (at_node (k :: toks) root env) =
    zbind (item_head next_list close l k (at_node toks root env)) (fun r => let '(np, t, s) := r in
          if str_eqb t (lit "{") then
            zbind' (layer f (lit "}") np (pn_size (z_macros s)) s) (layer f close l mc)
          else if str_eqb t (lit "[") then
            zbind' (layer f (lit "]") np (pn_size (z_macros s)) s) (layer f close l mc)
          else zbind (assign_value np t s) (layer f close l mc)).
  Proof.
    intros He Hk. cbn [read_zml_layer tok at_node z_src next_list obind fst snd zbind z_root z_macros].
    rewrite (close_key _ _ He Hk). destruct Hk as [[x [r [Ek _]]] [_ [_ [_ K4]]]]. rewrite (str_neq k _ K4). rewrite Ek. reflexivity.
  Qed.
  Lemma macro_keys k m : is_macro k = true -> macros_ok [(k, m)].
  Proof. intros H. destruct k as [|x k]; [discriminate|]. cbn in H. apply Ascii.eqb_eq in H. subst x. constructor; [exists k; reflexivity|constructor]. Qed.
  Lemma macro_key_ex k : is_macro k = true -> exists n, k = dollar :: n.
  Proof. intros H. destruct k as [|x k]; [discriminate|]. cbn in H. apply Ascii.eqb_eq in H. subst x. exists k. reflexivity. Qed.
  Lemma opening_cases arr {A} (x y z : A) : (if str_eqb (opening arr) (lit "{") then x else if str_eqb (opening arr) (lit "[") then y else z) = if arr then y else x.
  Proof. destruct arr; reflexivity. Qed.

  Lemma items_read n : forall items, size items <= n -> forall arr close inside l v a root env env0 mc cs tail rest f,
    Forall (item_ok arr) items -> ends arr close -> inside = in_macros l -> focus l v a root env ->
    (forall c, exists D, env c = env0 c ++ D) -> (forall c, length (env0 c) = mc) -> next_list tail = Ok (close, rest) -> size items < f ->
    layer f close l mc (at_node (flat_map item_tokens items ++ tail) (root cs) (env cs)) =
    result (items_meaning (item_meaning include inside) root env cs items) root env0 rest.
  Proof.
    induction n as [n IHn] using lt_wf_ind. intros items Hn arr close inside l v a root env env0 mc cs tail rest f Hok He Hi F Henv Hmc Ht Hf.
    destruct f as [|f]; [lia|]. destruct items as [|it items].
    { cbn [flat_map app items_meaning]. cbn [read_zml_layer]. unfold tok. cbn [at_node z_src]. rewrite Ht. cbn [obind fst snd zbind].
      rewrite str_eqb_refl. unfold result, at_node, pop_macros. cbn [omap z_src z_root z_macros pn_value pn_children pn_flag]. destruct (Henv cs) as [D ->]. rewrite <- (Hmc cs), firstn_length_app. reflexivity. }
    inversion Hok as [|? ? Hit Hrest]; subst. assert (Hsz : size (it :: items) = item_size it + size items) by reflexivity.
    pose proof (item_size_pos it) as Hpos. cbn [items_meaning].
    (* what remains after the item *)
    assert (Hgo : forall cs' D, macros_ok D -> (in_macros l = false \/ D = []) ->
      layer f close l mc (at_node (flat_map item_tokens items ++ tail) (root cs') (env cs' ++ D)) =
      result (items_meaning (item_meaning include (in_macros l)) root (fun c => env c ++ D) cs' items) root env0 rest).
    { intros cs' D HD Hl. apply (IHn (size items) ltac:(lia) items (le_n _) arr close (in_macros l) l v a root (fun c => env c ++ D) env0 mc cs' tail rest f Hrest He eq_refl).
      - destruct Hl as [Hl| ->]; [apply focus_macro; assumption|]. destruct F as [F1 [F2 [F3 F4]]]. split; [|split; [|split]]; intros; rewrite ?app_nil_r; auto.
      - intros c. destruct (Henv c) as [D' ->]. exists (D' ++ D). rewrite app_assoc. reflexivity.
      - exact Hmc.
      - exact Ht.
      - lia. }
    assert (Hgo0 : forall cs', layer f close l mc (at_node (flat_map item_tokens items ++ tail) (root cs') (env cs')) =
      result (items_meaning (item_meaning include (in_macros l)) root (fun c => env c ++ []) cs' items) root env0 rest).
    { intros cs'. rewrite <- (Hgo cs' [] (Forall_nil _) (or_intror eq_refl)). rewrite app_nil_r. reflexivity. }
    (* a nested block *)
    assert (Hblock : forall b arr' l' v' a' root' env' cs0 tl, Forall (item_ok arr') b -> 2 + size b <= item_size it ->
      focus l' v' a' root' env' ->
      layer f (closing arr') l' (length (env' cs0)) (at_node (flat_map item_tokens b ++ closing arr' :: tl) (root' cs0) (env' cs0)) =
      result (items_meaning (item_meaning include (in_macros l')) root' env' cs0 b) root' env' tl).
    { intros b arr' l' v' a' root' env' cs0 tl Hb Hs F'. apply (IHn (size b) ltac:(lia) b (le_n _) arr' (closing arr') (in_macros l') l' v' a' root' env' env' _ cs0 (closing arr' :: tl) tl f Hb).
      - destruct arr'; [reflexivity|left; reflexivity].
      - reflexivity.
      - exact F'.
      - intros c. exists []. rewrite app_nil_r. reflexivity.
      - intros c. apply F'.
      - reflexivity.
      - lia. }
    inversion Hit as [k b c Hk Hc|k eq arr' body Hk Hb|arr' body Hb|c Hc H1 H2 H3|arr' body Hb|arr' fl]; subst.
    - (* key = content *)
      cbn [flat_map item_tokens app item_meaning]. rewrite layer_key by assumption.
      pose proof (head_key close l v a root env cs k (Some b) (content_token c) (flat_map item_tokens items ++ tail) He Hk F ltac:(discriminate)) as Hh.
      cbn [app] in Hh. rewrite Hh. clear Hh.
      destruct (content_not_open c Hc) as [O1 O2]. apply str_neq in O1, O2.
      destruct (is_macro k) eqn:Em; [destruct (in_macros l) eqn:El; [reflexivity|]|]; cbn [zbind]; rewrite O1, O2.
      + rewrite (value_meaning (Loc true [length (env cs)]) (fun _ => root cs) (fun m => env cs ++ [(k, m)]) c _ (macro_slot _ _ _ (proj1 (proj2 (proj2 F)) cs) (macro_key_ex k Em)) Hc).
        destruct (content_node (fun _ => root cs) _ c) as [m| |]; cbn [omap zbind obind fst snd]; try reflexivity.
        rewrite Hgo; [reflexivity|exact (macro_keys k m Em)|left; reflexivity].
      + rewrite (value_meaning _ _ _ c _ (focus_slot l v a root env F cs k) Hc).
        destruct (content_node _ _ c) as [m| |]; cbn [omap zbind obind fst snd]; try reflexivity. apply Hgo0.
    - (* key { ... } *)
      assert (Et : flat_map item_tokens (Open k eq arr' body :: items) ++ tail =
        k :: (match eq with Some b => [assign_token b] | None => [] end) ++ opening arr' :: flat_map item_tokens body ++ closing arr' :: flat_map item_tokens items ++ tail).
      { cbn [flat_map item_tokens]. rewrite <- app_assoc. cbn [app]. rewrite <- app_assoc. cbn [app]. rewrite <- app_assoc. reflexivity. }
      rewrite Et. clear Et. cbn [item_meaning]. rewrite layer_key by assumption.
      rewrite (head_key close l v a root env cs k eq (opening arr')) by (try assumption; intros _; destruct arr'; auto).
      destruct (is_macro k) eqn:Em; [destruct (in_macros l) eqn:El; [reflexivity|]|]; cbn [zbind]; rewrite opening_cases; change (pn_size (z_macros (at_node ?s ?r ?e))) with (length e).
      + specialize (Hblock body arr' (Loc true [length (env cs)]) [] false (fun _ => root cs) (fun b => env cs ++ [(k, PN [] b false)]) [] (flat_map item_tokens items ++ tail) Hb (le_n _)
          (focus_new_macro _ _ _ (proj1 (proj2 (proj2 F)) cs) (macro_key_ex k Em))).
        cbn [in_macros] in Hblock. change (PN [] [] false) with pn_empty in Hblock. destruct arr'; cbn [closing] in Hblock |- *; (rewrite Hblock; unfold result; destruct (items_meaning _ _ _ [] body) as [b| |]; cbn [omap zbind' zbind obind fst snd]; try reflexivity;
          rewrite Hgo; [reflexivity|exact (macro_keys k _ Em)|left; reflexivity]).
      + specialize (Hblock body arr' _ [] false _ _ [] (flat_map item_tokens items ++ tail) Hb (le_n _) (focus_child l v a root env F cs k [] false)).
        cbn [in_macros] in Hblock. change (PN [] [] false) with pn_empty in Hblock. destruct arr'; cbn [closing] in Hblock |- *; (rewrite Hblock; unfold result; destruct (items_meaning _ _ _ [] body) as [b| |]; cbn [omap zbind' zbind obind fst snd]; try reflexivity;
          apply Hgo0).
    - (* { ... } *)
      cbn [flat_map item_tokens item_meaning app]. rewrite <- !app_assoc. cbn [app].
      cbn [read_zml_layer tok at_node z_src next_list obind fst snd zbind z_root z_macros].
      replace (str_eqb (opening arr') close) with false by (symmetry; apply str_neq; destruct arr', He as [->| ->]; discriminate).
      replace (str_eqb (opening arr') (lit "<<")) with false by (destruct arr'; reflexivity).
      change (ZSt ?s ?r (PN [] ?e false)) with (at_node s r e).
      set (TL := flat_map item_tokens body ++ closing arr' :: flat_map item_tokens items ++ tail).
      assert (Hh : item_head next_list close l (opening arr') (at_node TL (root cs) (env cs)) =
        match length cs with O => Throw | S m => Ok (Loc (in_macros l) (loc_path l ++ [m]), opening arr', at_node TL (root cs) (env cs)) end).
      { unfold item_head. rewrite (ends_not_array _ He). replace (str_eqb (opening arr') (lit "{") || str_eqb (opening arr') (lit "[")) with true by (destruct arr'; reflexivity).
        unfold children_at. rewrite (proj1 F). reflexivity. }
      assert (Ho : opening arr' = hd nul (opening arr') :: tl (opening arr')) by (destruct arr'; reflexivity).
      rewrite Ho at 1. rewrite Hh. clear Hh Ho.
      assert (Hcs : cs = [] \/ exists r k c, cs = r ++ [(k, c)]).
      { destruct cs as [|[k c] r] using rev_ind; [left; reflexivity|right; exists r, k, c; reflexivity]. }
      destruct Hcs as [->|[r [k [[v' b0 a'] ->]]]]; [reflexivity|]. rewrite rev_unit, rev_involutive. rewrite app_length. cbn [length]. rewrite Nat.add_1_r. cbn [zbind].
      rewrite opening_cases. change (pn_size (z_macros (at_node ?s ?r ?e))) with (length e).
      specialize (Hblock body arr' _ v' a' _ _ b0 (flat_map item_tokens items ++ tail) Hb (le_n _) (focus_child l v a root env F r k v' a')).
      cbn [in_macros] in Hblock. change (PN [] [] false) with pn_empty in Hblock. destruct arr'; cbn [closing] in Hblock; unfold TL; cbn [closing]; (rewrite Hblock; unfold result; destruct (items_meaning _ _ _ b0 body) as [b| |]; cbn [omap zbind' zbind obind fst snd]; try reflexivity;
          apply Hgo0).
    - (* element *)
      cbn [ends] in He. subst close. cbn [flat_map item_tokens item_meaning app].
      cbn [read_zml_layer tok at_node z_src next_list obind fst snd zbind z_root z_macros].
      rewrite (str_neq _ _ H2), (str_neq _ _ H3). change (ZSt ?s ?r (PN [] ?e false)) with (at_node s r e).
      assert (Ho : content_token c = hd nul (content_token c) :: tl (content_token c)) by (destruct (content_token c); [congruence|reflexivity]).
      rewrite Ho at 1. unfold item_head. replace (str_eqb (lit "]") (lit "]")) with true by reflexivity.
      rewrite (new_child_focus _ _ _ _ _ F). cbn [zbind]. destruct (content_not_open c Hc) as [O1 O2]. apply str_neq in O1, O2. rewrite O1, O2.
      rewrite (value_meaning _ _ _ c _ (focus_slot l v a root env F cs []) Hc).
      destruct (content_node _ _ c) as [m| |]; cbn [omap zbind obind fst snd]; try reflexivity. apply Hgo0.
    - (* element { ... } *)
      cbn [ends] in He. subst close. cbn [flat_map item_tokens item_meaning app]. rewrite <- !app_assoc. cbn [app].
      cbn [read_zml_layer tok at_node z_src next_list obind fst snd zbind z_root z_macros].
      replace (str_eqb (opening arr') (lit "]")) with false by (destruct arr'; reflexivity).
      replace (str_eqb (opening arr') (lit "<<")) with false by (destruct arr'; reflexivity).
      change (ZSt ?s ?r (PN [] ?e false)) with (at_node s r e).
      assert (Ho : opening arr' = hd nul (opening arr') :: tl (opening arr')) by (destruct arr'; reflexivity).
      rewrite Ho at 1. unfold item_head. replace (str_eqb (lit "]") (lit "]")) with true by reflexivity.
      rewrite (new_child_focus _ _ _ _ _ F). cbn [zbind]. rewrite opening_cases. change (pn_size (z_macros (at_node ?s ?r ?e))) with (length e).
      specialize (Hblock body arr' _ [] false _ _ [] (flat_map item_tokens items ++ tail) Hb (le_n _) (focus_child l v a root env F cs [] [] false)).
      cbn [in_macros] in Hblock. change (PN [] [] false) with pn_empty in Hblock. destruct arr'; cbn [closing] in Hblock; cbn [closing]; (rewrite Hblock; unfold result; destruct (items_meaning _ _ _ [] body) as [b| |]; cbn [omap zbind' zbind obind fst snd]; try reflexivity;
          apply Hgo0).
    - (* include *) cbn [flat_map item_tokens app item_meaning]. cbn [read_zml_layer tok at_node z_src next_list obind fst snd zbind z_root z_macros].
      replace (str_eqb (lit "<<") close) with false by (symmetry; apply str_neq; destruct arr; [rewrite He; discriminate|destruct He as [->| ->]; discriminate]).
      cbn [lit list_ascii_of_string]. rewrite !str_eqb_refl. destruct (include fl) as [t| |]; cbn [zbind obind]; try reflexivity.
      change (ZSt ?s ?r (PN [] ?e false)) with (at_node s r e).
      destruct F as [F1 [F2 [F3 F4]]]. rewrite (F2 _ cs (cs ++ pn_children t)) by reflexivity. apply Hgo0.
  Qed.
End Reading.

Lemma document_meaning include text rest doc : Forall (item_ok false) doc -> lexes text rest (flat_map item_tokens doc) -> final_layout rest ->
  parse_zml include text = meaning include doc.
Proof.
  intros Hok Hl Hf. unfold parse_zml, cs_of_string.
  assert (F : focus (Loc false []) [] false (fun cs => PN [] cs false) (fun _ => [])).
  { split; [|split; [|split]].
    - intros src cs. reflexivity.
    - intros src cs cs' f Hfe. unfold modify, at_node. cbn [in_macros loc_path z_src z_root z_macros update_at]. rewrite Hfe. reflexivity.
    - intros cs. constructor.
    - reflexivity. }
  pose proof (items_read include (size doc) doc (le_n _) false [] false (Loc false []) [] false (fun cs => PN [] cs false) (fun _ => []) (fun _ => []) 0 [] [] []
    (S (size doc)) Hok (or_intror eq_refl) eq_refl F (fun _ => ex_intro _ [] eq_refl) (fun _ => eq_refl) eq_refl (le_n _)) as H.
  rewrite app_nil_r in H. unfold at_node in H at 1.
  etransitivity; [eapply (parse_agree next_list include (fun s l => exists text, at_text s text /\ (lexes text rest l \/ (text = [] /\ l = []))) _ (flat_map item_tokens doc) (S (size doc)))|].
  - intros x l [u [Hx Hu]]. rewrite (at_token _ _ Hx). destruct Hu as [Hu|[-> ->]].
    + destruct l as [|t l].
      * apply lexes_nil in Hu. subst u. rewrite (zml_final_layout _ Hf). cbn [next_list orel fst snd]. split; [reflexivity|]. exists []. split; [left; reflexivity|right; split; reflexivity].
      * destruct (lexes_next _ _ _ _ Hu) as [y [-> M]]. cbn [next_list orel fst snd]. split; [reflexivity|]. exists y. split; [left; reflexivity|left; exact M].
    + rewrite (zml_final_layout []) by (apply fl_layout || constructor; constructor). cbn [next_list orel fst snd]. split; [reflexivity|]. exists []. split; [left; reflexivity|right; split; reflexivity].
  - exists text. split; [right; reflexivity|left; exact Hl].
  - exact H.
  - unfold meaning, result. destruct (items_meaning _ _ _ [] doc); reflexivity.
Qed.
