(** Reading the token sequence of a tree gives the tree. *)
From Coq Require Import Ascii String List Arith Bool Lia.
From Verif Require Import Base BaseProofs Str StrSpec StrModel StrBase StrProofs PnSpec PnModel PnProofs PnProofs2
  TokSpec TokModel ZmlSpec ZmlModel ZmlReader.
Import ListNotations.

(** the tree with all access flags cleared *)
Fixpoint fresh (t : pn) : pn :=
  match t with PN v cs _ => PN v (map (fun kc => (fst kc, fresh (snd kc))) cs) false end.
Definition fresh_list (cs : list (str * pn)) : list (str * pn) := map (fun kc => (fst kc, fresh (snd kc))) cs.
Lemma fresh_same t : same_tree (fresh t) t.
Proof.
  induction t as [v cs a IH] using pn_ind'. cbn [fresh]. constructor.
  induction IH as [|kc cs H _ IHcs]; cbn [map]; constructor; auto.
Qed.

(** * the tokens of a tree *)
Definition open_tok (arr : bool) : str := bracket arr (lit "[") (lit "{").
Definition close_tok (arr : bool) : str := bracket arr (lit "]") (lit "}").
Definition shows_label (label : str) : bool := match label with [] => false | _ => true end.
Definition shows_value (v : str) (cs : list (str * pn)) : bool :=
  match v with [] => match cs with [] => true | _ => false end | _ => true end.
Definition kvp_toks (label v : str) (cs : list (str * pn)) : list str :=
  (if shows_label label then [label] else []) ++
  (if shows_label label && shows_value v cs then [lit "="] else []) ++
  (if shows_value v cs then [v] else []).
Fixpoint node_toks (label : str) (t : pn) : list str :=
  match t with
  | PN v cs _ => kvp_toks label v cs ++
    match cs with
    | [] => []
    | _ => [open_tok (no_keys cs)] ++ flat_map (fun kc => node_toks (fst kc) (snd kc)) cs ++ [close_tok (no_keys cs)]
    end
  end.
Definition list_toks (cs : list (str * pn)) : list str := flat_map (fun kc => node_toks (fst kc) (snd kc)) cs.

(** * replacing a node *)
Definition put (root : pn) (p : list nat) (n : pn) : pn := update_at root p (fun _ => n).

Lemma update_put root p f n : node_at root p = Some n -> update_at root p f = put root p (f n).
Proof.
  revert root. induction p as [|i p IH]; intros [v cs a] H; cbn [node_at update_at put] in *.
  - injection H as <-. reflexivity.
  - unfold put. cbn [update_at pn_value pn_children pn_flag] in *. f_equal. apply upd_child_ext.
    intros kc E. rewrite E in H. rewrite (IH _ H). reflexivity.
Qed.
Lemma node_put root p n m : node_at root p = Some n -> node_at (put root p m) p = Some m.
Proof.
  revert root. induction p as [|i p IH]; intros [v cs a] H; unfold put; cbn [node_at update_at pn_value pn_children pn_flag] in *.
  - reflexivity.
  - destruct (nth_error cs i) as [kc|] eqn:E; [|discriminate].
    rewrite (nth_upd_child_eq _ _ _ _ E). cbn [snd]. apply IH. exact H.
Qed.
Lemma put_put root p m1 m2 : put (put root p m1) p m2 = put root p m2.
Proof.
  revert root. induction p as [|i p IH]; intros [v cs a]; unfold put; cbn [update_at pn_value pn_children pn_flag].
  - reflexivity.
  - f_equal. rewrite upd_child_comp. apply upd_child_ext. intros kc _. apply IH.
Qed.
Lemma node_app root p q n : node_at root p = Some n -> node_at root (p ++ q) = node_at n q.
Proof.
  revert root. induction p as [|i p IH]; intros [v cs a] H; cbn [node_at app pn_children] in *.
  - injection H as <-. reflexivity.
  - destruct (nth_error cs i) as [kc|] eqn:E; [|discriminate]. apply IH. exact H.
Qed.
Lemma put_app root p q n m : node_at root p = Some n -> put root (p ++ q) m = put root p (put n q m).
Proof.
  revert root. induction p as [|i p IH]; intros [v cs a] H; unfold put in *; cbn [node_at update_at app pn_value pn_children pn_flag] in *.
  - injection H as <-. reflexivity.
  - f_equal. apply upd_child_ext. intros kc E. rewrite E in H. apply IH. exact H.
Qed.
Lemma put_last v (cs : list (str * pn)) k c m fl : put (PN v (cs ++ [(k, c)]) fl) [length cs] m = PN v (cs ++ [(k, m)]) fl.
Proof.
  unfold put. cbn [update_at pn_value pn_children pn_flag]. f_equal.
  unfold upd_child. rewrite nth_error_app2 by lia. rewrite Nat.sub_diag. cbn [nth_error fst snd].
  rewrite list_set_app2 by lia. rewrite Nat.sub_diag. reflexivity.
Qed.
Lemma node_last v (cs : list (str * pn)) k c fl : node_at (PN v (cs ++ [(k, c)]) fl) [length cs] = Some c.
Proof. cbn [node_at pn_children]. rewrite nth_error_app2 by lia. rewrite Nat.sub_diag. reflexivity. Qed.

(** * a list of tokens as source *)
Definition next_list (l : list str) : outcome (str * list str) :=
  match l with [] => Ok ([], []) | t :: r => Ok (t, r) end.

Section Round.
  Context (include : str -> outcome pn).
  Notation layer := (read_zml_layer next_list include).

  Lemma tok_cons t l root M : tok next_list (ZSt (t :: l) root M) = Ok (t, ZSt l root M).
  Proof. reflexivity. Qed.

  Lemma modify_root p f (l : list str) root M n : node_at root p = Some n ->
    modify (Loc false p) f (ZSt l root M) = ZSt l (put root p (f n)) M.
  Proof. intros H. unfold modify. cbn [in_macros loc_path z_src z_root z_macros]. rewrite (update_put _ _ f _ H). reflexivity. Qed.

  Lemma new_child_root p k (l : list str) root M v cs fl : node_at root p = Some (PN v cs fl) ->
    new_child (Loc false p) k (ZSt l root M) =
    (Loc false (p ++ [length cs]), ZSt l (put root p (PN v (cs ++ [(k, pn_empty)]) fl)) M).
  Proof.
    intros H. unfold new_child. rewrite (modify_root _ _ _ _ _ _ H). unfold children_at, tree_of.
    cbn [in_macros loc_path z_root]. rewrite H. reflexivity.
  Qed.

  (** ** plain values *)
  Lemma no_inline s : has_inline_macro s = false -> Str.find s (lit "${") 0 = None.
  Proof.
    intros H. apply find_none. intros i _ [a [b [E Hi]]]. subst i. revert s H E.
    induction a as [|x a IH]; intros s H E; subst s; cbn [app] in H.
    - cbn [lit list_ascii_of_string app has_inline_macro] in H. rewrite !Ascii.eqb_refl in H. discriminate H.
    - cbn [has_inline_macro] in H. apply orb_false_iff in H. destruct H as [_ H]. eapply IH; [exact H|reflexivity].
  Qed.

  Lemma value_ok_iff v : value_ok v = true -> has_inline_macro v = false /\ v <> lit "{" /\ v <> lit "[" /\
    str_begins_with_char v "@"%char = false /\
    (2 <=? length v) && Ascii.eqb (nth 0 v nul) "$"%char && negb (Ascii.eqb (nth 1 v nul) "{"%char) = false.
  Proof.
    unfold value_ok. rewrite !andb_true_iff, !negb_true_iff. intros [[[_ H1] H2] H3].
    unfold one_of_strs in H1. cbn [existsb] in H1. rewrite !orb_false_iff in H1. destruct H1 as [H1 [H1' _]].
    apply str_eqb_neq in H1, H1'. split; [exact H2|]. split; [exact H1|]. split; [exact H1'|].
    destruct v as [|x t]; [split; reflexivity|].
    apply andb_true_iff in H3. rewrite !negb_true_iff in H3. destruct H3 as [H3 H4].
    cbn [str_begins_with_char nth length]. split; [exact H3|].
    destruct (Ascii.eqb x "$"%char); [|rewrite andb_false_r; reflexivity].
    destruct t as [|y t]; [reflexivity|discriminate].
  Qed.

  Lemma assign_plain p v (l : list str) root M n : value_ok v = true -> node_at root p = Some n ->
    assign_value (Loc false p) v (ZSt l root M) = Ok (ZSt l (put root p (set_value n v)) M).
  Proof.
    intros Hv Hn. apply value_ok_iff in Hv. destruct Hv as [H1 [_ [_ [H2 H3]]]].
    unfold assign_value. rewrite H2, H3. cbn [inline_loop]. rewrite (no_inline _ H1). cbn [obind app].
    rewrite (modify_root _ _ _ _ _ _ Hn). reflexivity.
  Qed.

  Lemma pop_all (l : list str) root M : pop_macros (pn_size M) (ZSt l root M) = ZSt l root M.
  Proof. destruct M as [v cs fl]. unfold pop_macros, pn_size. cbn [z_src z_root z_macros pn_value pn_children pn_flag]. rewrite firstn_all. reflexivity. Qed.

  (** ** reaching *)
  Definition reach (close : str) (p : list nat) (mc : nat) (s1 s2 : zst (list str)) : Prop :=
    forall r f, layer f close (Loc false p) mc s2 = Some r -> exists f', layer f' close (Loc false p) mc s1 = Some r.

  Lemma reach_trans close p mc a b c : reach close p mc a b -> reach close p mc b c -> reach close p mc a c.
  Proof. intros H1 H2 r f H. destruct (H2 _ _ H) as [f1 E]. exact (H1 _ _ E). Qed.

  (** the token [t] starts an item *)
  Definition starts_item (close t : str) : Prop := t <> [] /\ t <> close /\ t <> lit "<<".

  Lemma step_eq close p mc t l root M f : starts_item close t ->
    layer (S f) close (Loc false p) mc (ZSt (t :: l) root M) =
    zbind (item_head next_list close (Loc false p) t (ZSt l root M)) (fun r => let '(np, t, s) := r in
          if str_eqb t (lit "{") then
            zbind' (layer f (lit "}") np (pn_size (z_macros s)) s) (layer f close (Loc false p) mc)
          else if str_eqb t (lit "[") then
            zbind' (layer f (lit "]") np (pn_size (z_macros s)) s) (layer f close (Loc false p) mc)
          else zbind (assign_value np t s) (layer f close (Loc false p) mc)).
  Proof.
    intros [H1 [H2 H3]]. cbn [read_zml_layer]. rewrite tok_cons. cbn [zbind].
    apply str_eqb_neq in H2, H3. rewrite H2. destruct t as [|x t]; [congruence|]. rewrite H3. reflexivity.
  Qed.

  (** an item whose value is plain *)
  Lemma reach_value close p mc t l root M np v l' root1 n : starts_item close t ->
    item_head next_list close (Loc false p) t (ZSt l root M) = Ok (Loc false np, v, ZSt l' root1 M) ->
    value_ok v = true -> node_at root1 np = Some n ->
    reach close p mc (ZSt (t :: l) root M) (ZSt l' (put root1 np (set_value n v)) M).
  Proof.
    intros Ht Hh Hv Hn r f H. exists (S f). rewrite step_eq by exact Ht. rewrite Hh. cbn [zbind].
    pose proof (value_ok_iff _ Hv) as [_ [Hv1 [Hv2 _]]]. apply str_eqb_neq in Hv1, Hv2. rewrite Hv1, Hv2.
    rewrite (assign_plain _ _ _ _ _ _ Hv Hn). exact H.
  Qed.

  (** an item that opens a group or array *)
  Lemma reach_nested close p mc t l root M np arr l' root1 root2 l2 f1 : starts_item close t ->
    item_head next_list close (Loc false p) t (ZSt l root M) = Ok (Loc false np, open_tok arr, ZSt l' root1 M) ->
    layer f1 (close_tok arr) (Loc false np) (pn_size M) (ZSt l' root1 M) = Some (Ok (ZSt l2 root2 M)) ->
    reach close p mc (ZSt (t :: l) root M) (ZSt l2 root2 M).
  Proof.
    intros Ht Hh Hn r f H. exists (S (f + f1)). rewrite step_eq by exact Ht. rewrite Hh. cbn [zbind z_macros].
    apply (layer_mono _ _ f1 (f + f1)) in Hn; [|lia]. apply (layer_mono _ _ f (f + f1)) in H; [|lia].
    destruct arr.
    - change (str_eqb (open_tok true) (lit "{")) with false. change (str_eqb (open_tok true) (lit "[")) with true. cbv iota.
      change (lit "]") with (close_tok true). rewrite Hn. cbn [zbind' zbind]. exact H.
    - change (str_eqb (open_tok false) (lit "{")) with true. cbv iota.
      change (lit "}") with (close_tok false). rewrite Hn. cbn [zbind' zbind]. exact H.
  Qed.

  Lemma label_ok_iff s : label_ok s = true -> s <> lit "<<" /\ s <> lit "{" /\ s <> lit "[" /\ s <> lit "}" /\
    exists x u, s = x :: u /\ isgraph x = true /\ Ascii.eqb x "$"%char = false.
  Proof.
    unfold label_ok. rewrite !andb_true_iff, !negb_true_iff. intros [[_ H1] H2].
    unfold one_of_strs in H1. cbn [existsb] in H1. rewrite !orb_false_iff in H1. destruct H1 as [A [B [C [D _]]]].
    apply str_eqb_neq in A, B, C, D. split; [exact A|]. split; [exact B|]. split; [exact C|]. split; [exact D|].
    destruct s as [|x u]; [discriminate|]. exists x, u. apply andb_true_iff in H2. rewrite negb_true_iff in H2.
    destruct H2 as [H2 H3]. split; [reflexivity|]. split; [exact H2|exact H3].
  Qed.

  (** closing tokens of scopes with labels *)
  Definition group_close (close : str) : Prop := close = [] \/ close = lit "}".

  Lemma group_head_label close p label t l root M v cs fl : group_close close -> label_ok label = true ->
    node_at root p = Some (PN v cs fl) -> t = lit "{" \/ t = lit "[" ->
    item_head next_list close (Loc false p) label (ZSt (t :: l) root M) =
    Ok (Loc false (p ++ [length cs]), t, ZSt l (put root p (PN v (cs ++ [(label, pn_empty)]) fl)) M).
  Proof.
    intros Hc Hl Hn Ht. apply label_ok_iff in Hl. destruct Hl as [_ [H1 [H2 [_ [x [u [E [H3 H4]]]]]]]].
    unfold item_head. replace (str_eqb close (lit "]")) with false by (destruct Hc as [->| ->]; reflexivity).
    apply str_eqb_neq in H1, H2. rewrite H1, H2. cbn [orb]. rewrite E at 1. rewrite H4, H3. cbn [negb].
    rewrite (new_child_root _ _ _ _ _ _ _ _ Hn). cbn [obind]. rewrite tok_cons. cbn [obind].
    destruct Ht as [-> | ->]; reflexivity.
  Qed.
  Lemma group_head_value close p label w l root M v cs fl : group_close close -> label_ok label = true ->
    node_at root p = Some (PN v cs fl) ->
    item_head next_list close (Loc false p) label (ZSt (lit "=" :: w :: l) root M) =
    Ok (Loc false (p ++ [length cs]), w, ZSt l (put root p (PN v (cs ++ [(label, pn_empty)]) fl)) M).
  Proof.
    intros Hc Hl Hn. apply label_ok_iff in Hl. destruct Hl as [_ [H1 [H2 [_ [x [u [E [H3 H4]]]]]]]].
    unfold item_head. replace (str_eqb close (lit "]")) with false by (destruct Hc as [->| ->]; reflexivity).
    apply str_eqb_neq in H1, H2. rewrite H1, H2. cbn [orb]. rewrite E at 1. rewrite H4, H3. cbn [negb].
    rewrite (new_child_root _ _ _ _ _ _ _ _ Hn). cbn [obind]. rewrite tok_cons. cbn [obind].
    replace (str_eqb (lit "=") (lit "=")) with true by reflexivity. cbn [orb]. rewrite tok_cons. reflexivity.
  Qed.
  Lemma group_head_open close p arr l root M v cs k c fl : group_close close ->
    node_at root p = Some (PN v (cs ++ [(k, c)]) fl) ->
    item_head next_list close (Loc false p) (open_tok arr) (ZSt l root M) =
    Ok (Loc false (p ++ [length cs]), open_tok arr, ZSt l root M).
  Proof.
    intros Hc Hn. unfold item_head. replace (str_eqb close (lit "]")) with false by (destruct Hc as [->| ->]; reflexivity).
    replace (str_eqb (open_tok arr) (lit "{") || str_eqb (open_tok arr) (lit "[")) with true by (destruct arr; reflexivity).
    unfold children_at, tree_of. cbn [in_macros loc_path z_root]. rewrite Hn. cbn [pn_children].
    rewrite app_length. cbn [length]. rewrite Nat.add_1_r. reflexivity.
  Qed.
  Lemma array_head p t l root M v cs fl : node_at root p = Some (PN v cs fl) ->
    item_head next_list (lit "]") (Loc false p) t (ZSt l root M) =
    Ok (Loc false (p ++ [length cs]), t, ZSt l (put root p (PN v (cs ++ [([], pn_empty)]) fl)) M).
  Proof.
    intros Hn. unfold item_head. replace (str_eqb (lit "]") (lit "]")) with true by reflexivity.
    rewrite (new_child_root _ _ _ _ _ _ _ _ Hn). reflexivity.
  Qed.

  Definition scope_ok (close : str) (in_array : bool) (label : str) : Prop :=
    if in_array then close = lit "]" /\ label = [] else group_close close /\ label_ok label = true.

  (** reading the children of an open node *)
  Definition reads_children (cs : list (str * pn)) (close : str) : Prop :=
    forall p mc l root M v cs0 fl, node_at root p = Some (PN v cs0 fl) ->
      reach close p mc (ZSt (list_toks cs ++ l) root M) (ZSt l (put root p (PN v (cs0 ++ fresh_list cs) fl)) M).

  Lemma nested_reads cs arr p l root M v fl : reads_children cs (close_tok arr) ->
    node_at root p = Some (PN v [] fl) ->
    exists f, layer f (close_tok arr) (Loc false p) (pn_size M) (ZSt (list_toks cs ++ close_tok arr :: l) root M) =
      Some (Ok (ZSt l (put root p (PN v (fresh_list cs) fl)) M)).
  Proof.
    intros H Hn. eapply (H p (pn_size M) (close_tok arr :: l) root M v [] fl Hn _ 1).
    cbn [read_zml_layer]. rewrite tok_cons. cbn [zbind]. rewrite str_eqb_refl, pop_all. reflexivity.
  Qed.

  Lemma open_starts close arr : group_close close \/ close = lit "]" -> starts_item close (open_tok arr).
  Proof.
    intros H. split; [destruct arr; discriminate|]. split; [|destruct arr; discriminate].
    destruct H as [[->| ->]| ->]; destruct arr; discriminate.
  Qed.
  Lemma label_starts close label : group_close close -> label_ok label = true -> starts_item close label.
  Proof.
    intros Hc Hl. apply label_ok_iff in Hl. destruct Hl as [H1 [H2 [H3 [H4 [x [u [E _]]]]]]].
    split; [congruence|]. split; [destruct Hc as [->| ->]; congruence|exact H1].
  Qed.
  Lemma element_ok_iff v : element_ok v = true -> value_ok v = true /\ starts_item (lit "]") v.
  Proof.
    unfold element_ok. rewrite !andb_true_iff, negb_true_iff. intros [[H1 H2] H3].
    unfold one_of_strs in H2. cbn [existsb] in H2. rewrite !orb_false_iff in H2. destruct H2 as [A [B _]].
    apply str_eqb_neq in A, B. split; [exact H1|]. split; [destruct v; congruence|]. split; assumption.
  Qed.

  Lemma node_reads t : forall empties close in_array label p mc l root M v cs0 fl,
    node_ok empties in_array t = true -> scope_ok close in_array label -> node_at root p = Some (PN v cs0 fl) ->
    reach close p mc (ZSt (node_toks label t ++ l) root M) (ZSt l (put root p (PN v (cs0 ++ [(label, fresh t)]) fl)) M).
  Proof.
    induction t as [w cs a IH] using pn_ind'. intros empties close in_array label p mc l root M v cs0 fl Hok Hs Hn.
    cbn [node_toks fresh]. fold (fresh_list cs). fold (list_toks cs).
    destruct cs as [|c0 cs].
    { (* leaf *)
      cbn [node_ok] in Hok. apply andb_true_iff in Hok. destruct Hok as [Hok _].
      replace (kvp_toks label w []) with ((if shows_label label then [label; lit "="] else []) ++ [w])
        by (unfold kvp_toks, shows_value; destruct w, label; reflexivity).
      rewrite app_nil_r. cbn [fresh_list map].
      set (root1 := put root p (PN v (cs0 ++ [(label, pn_empty)]) fl)).
      assert (Hn1 : node_at root1 p = Some (PN v (cs0 ++ [(label, pn_empty)]) fl)) by (eapply node_put; exact Hn).
      assert (Hn2 : node_at root1 (p ++ [length cs0]) = Some pn_empty) by (rewrite (node_app _ _ _ _ Hn1); apply node_last).
      assert (E : put root1 (p ++ [length cs0]) (set_value pn_empty w) = put root p (PN v (cs0 ++ [(label, PN w [] false)]) fl)).
      { rewrite (put_app _ _ _ _ _ Hn1), put_last. unfold root1. rewrite put_put. reflexivity. }
      rewrite <- E. destruct in_array.
      - destruct Hs as [-> ->]. cbn [shows_label app]. apply element_ok_iff in Hok. destruct Hok as [Hv Hst].
        eapply reach_value; [exact Hst|apply array_head; exact Hn|exact Hv|exact Hn2].
      - destruct Hs as [Hc Hl]. assert (Esl : shows_label label = true).
        { apply label_ok_iff in Hl. destruct Hl as [_ [_ [_ [_ [x [u [-> _]]]]]]]. reflexivity. }
        rewrite Esl. cbn [app].
        eapply reach_value; [apply label_starts; assumption|apply group_head_value; eassumption|exact Hok|exact Hn2]. }
    (* node with children *)
    assert (Hparts : match w with [] => true | _ => negb in_array && value_ok w end = true /\
      Forall (fun kc => node_ok empties (no_keys (c0 :: cs)) (snd kc) = true /\
        scope_ok (close_tok (no_keys (c0 :: cs))) (no_keys (c0 :: cs)) (fst kc)) (c0 :: cs)).
    { cbn [node_ok] in Hok. apply andb_true_iff in Hok. destruct Hok as [Hw Hok]. split; [exact Hw|].
      clear Hw.
      destruct (no_keys (c0 :: cs)) eqn:En; apply Forall_forall; intros kc Hkc;
        rewrite forallb_forall in Hok; specialize (Hok kc Hkc).
      - split; [exact Hok|]. cbn [scope_ok]. split; [reflexivity|]. unfold no_keys in En. rewrite forallb_forall in En.
        specialize (En kc Hkc). destruct kc as [k c]. cbn [fst] in *. destruct k; [reflexivity|discriminate En].
      - apply andb_true_iff in Hok. destruct Hok as [H1 H2]. split; [exact H2|]. cbn [scope_ok].
        split; [right; reflexivity|exact H1]. }
    destruct Hparts as [Hw Hcs]. clear Hok. set (kids := c0 :: cs) in *.
    set (arr := no_keys kids) in *.
    assert (Hkids : reads_children kids (close_tok arr)).
    { clear Hs Hn. intros p' mc' l' root' M' v' cs0' fl'. clearbody arr. revert root' cs0'. 
      induction kids as [|kc kids IHk]; intros root' cs0' Hn'.
      - cbn [list_toks flat_map app fresh_list map]. rewrite app_nil_r. intros r f H. exists f.
        replace (put root' p' (PN v' cs0' fl')) with root' in H; [exact H|]. symmetry.
        clear -Hn'. revert root' Hn'. induction p' as [|i p' IHp]; intros [v cs a] Hn'; unfold put; cbn [node_at update_at pn_value pn_children pn_flag] in *.
        + congruence.
        + f_equal. apply list_eq_nth'. intros j. destruct (Nat.eq_dec i j) as [->|Hj].
          * destruct (nth_error cs j) as [kc|] eqn:E; [|discriminate]. rewrite (nth_upd_child_eq _ _ _ _ E).
            unfold put in IHp. rewrite (IHp _ Hn'). destruct kc; reflexivity.
          * apply nth_upd_child_neq. exact Hj.
      - pose proof (Forall_inv Hcs) as [Hk1 Hk2]. apply Forall_inv_tail in Hcs.
        pose proof (Forall_inv IH) as IH1. apply Forall_inv_tail in IH.
        cbn [list_toks flat_map fresh_list map]. rewrite <- app_assoc.
        eapply reach_trans; [eapply IH1; [exact Hk1|exact Hk2|exact Hn']|].
        specialize (IHk IH Hcs (put root' p' (PN v' (cs0' ++ [(fst kc, fresh (snd kc))]) fl')) (cs0' ++ [(fst kc, fresh (snd kc))])).
        rewrite put_put, <- app_assoc in IHk. apply IHk. eapply node_put. exact Hn'. }
    clear IH Hcs.
    rewrite <- !app_assoc. cbn [app].
    set (root1 := put root p (PN v (cs0 ++ [(label, pn_empty)]) fl)).
    assert (Hn1 : node_at root1 p = Some (PN v (cs0 ++ [(label, pn_empty)]) fl)) by (eapply node_put; exact Hn).
    assert (Hn2 : node_at root1 (p ++ [length cs0]) = Some pn_empty) by (rewrite (node_app _ _ _ _ Hn1); apply node_last).
    assert (Eput : forall m, put root1 (p ++ [length cs0]) m = put root p (PN v (cs0 ++ [(label, m)]) fl)).
    { intros m. rewrite (put_app _ _ _ _ _ Hn1), put_last. unfold root1. rewrite put_put. reflexivity. }
    destruct in_array.
    - destruct Hs as [-> ->]. destruct w as [|w0 w]; [|discriminate].
      unfold kvp_toks, shows_value, kids. cbn [shows_label andb app]. fold kids.
      destruct (nested_reads kids arr (p ++ [length cs0]) l root1 M [] false Hkids Hn2) as [f1 Hf1].
      rewrite Eput in Hf1.
      eapply reach_nested; [apply open_starts; right; reflexivity|apply array_head; exact Hn|exact Hf1].
    - destruct Hs as [Hc Hl]. assert (Esl : shows_label label = true).
      { apply label_ok_iff in Hl. destruct Hl as [_ [_ [_ [_ [x [u [-> _]]]]]]]. reflexivity. }
      unfold kvp_toks. rewrite Esl. cbn [andb]. destruct w as [|w0 w].
      + unfold shows_value, kids. cbn [app]. fold kids.
        destruct (nested_reads kids arr (p ++ [length cs0]) l root1 M [] false Hkids Hn2) as [f1 Hf1].
        rewrite Eput in Hf1.
        eapply reach_nested; [apply label_starts; assumption| |exact Hf1].
        apply group_head_label; [exact Hc|exact Hl|exact Hn|]. destruct arr; [right|left]; reflexivity.
      + cbn [shows_value app negb andb] in *. 
        eapply reach_trans.
        * eapply reach_value; [apply label_starts; assumption|apply group_head_value; eassumption|exact Hw|exact Hn2].
        * rewrite Eput. set (root2 := put root p (PN v (cs0 ++ [(label, set_value pn_empty (w0 :: w))]) fl)).
          assert (Hn3 : node_at root2 p = Some (PN v (cs0 ++ [(label, set_value pn_empty (w0 :: w))]) fl)) by (eapply node_put; exact Hn).
          assert (Hn4 : node_at root2 (p ++ [length cs0]) = Some (PN (w0 :: w) [] false)) by (rewrite (node_app _ _ _ _ Hn3); apply node_last).
          destruct (nested_reads kids arr (p ++ [length cs0]) l root2 M (w0 :: w) false Hkids Hn4) as [f1 Hf1].
          rewrite (put_app _ _ _ _ _ Hn3), put_last in Hf1. unfold root2 at 2 in Hf1. rewrite put_put in Hf1.
          eapply reach_nested; [apply open_starts; left; exact Hc|eapply group_head_open; [exact Hc|exact Hn3]|exact Hf1].
  Qed.

  (** reading the tokens of a whole tree *)
  Lemma tree_reads empties cs a : tree_ok empties (PN [] cs a) = true ->
    exists f, layer f [] (Loc false []) 0 (ZSt (list_toks cs) pn_empty pn_empty) =
      Some (Ok (ZSt [] (fresh (PN [] cs a)) pn_empty)).
  Proof.
    intros H. cbn [tree_ok andb] in H.
    assert (G : forall cs0, reach [] [] 0 (ZSt (list_toks cs) (PN [] cs0 false) pn_empty)
      (ZSt [] (PN [] (cs0 ++ fresh_list cs) false) pn_empty)).
    { induction cs as [|kc cs IH]; intros cs0.
      - cbn [list_toks flat_map fresh_list map]. rewrite app_nil_r. intros r f E. exists f. exact E.
      - cbn [forallb] in H. apply andb_true_iff in H. destruct H as [H1 H2]. apply andb_true_iff in H1.
        destruct H1 as [H1 H3]. cbn [list_toks flat_map].
        eapply reach_trans; [eapply (node_reads (snd kc) empties [] false (fst kc) []); [exact H3| |reflexivity]|].
        + split; [left; reflexivity|exact H1].
        + unfold put. cbn [update_at]. specialize (IH H2 (cs0 ++ [(fst kc, fresh (snd kc))])).
          rewrite <- app_assoc in IH. exact IH. }
    eapply (G [] _ 1). cbn [read_zml_layer]. reflexivity.
  Qed.
End Round.
