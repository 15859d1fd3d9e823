(** The text of a tree has the tokens of the tree. *)
From Coq Require Import Ascii String List Arith Bool Lia.
From Verif Require Import Base BaseProofs Str StrSpec StrModel StrBase StrProofs PnSpec PnModel PnProofs PnProofs2
  TokSpec TokModel TokProofs ZmlSpec ZmlModel ZmlReader ZmlLex ZmlRound.
Import ListNotations.

Definition blanks (b : str) : Prop := Forall (fun x => is_blank x = true) b.

(** the tokens read from a text *)
Fixpoint yields (text : str) (l : list str) : Prop :=
  match l with
  | [] => blanks text
  | t :: r => exists rest, get_zml_token (mk text) = Ok (t, mk rest) /\ yields rest r
  end.
Definition yieldsb (text : str) (l : list str) : Prop := forall b, blanks b -> yields (b ++ text) l.

(** [a] gives the tokens [l] when what follows satisfies [F] *)
Definition emits (F : str -> Prop) (a : str) (l : list str) : Prop :=
  forall f l', F f -> yieldsb f l' -> yieldsb (a ++ f) (l ++ l').
Definition anything (f : str) : Prop := True.

Lemma emits_weaken (F G : str -> Prop) a l : (forall f, G f -> F f) -> emits F a l -> emits G a l.
Proof. intros H E f l' Hf Hy. apply E; [apply H; exact Hf|exact Hy]. Qed.
Lemma emits_app (F1 F2 : str -> Prop) a b l1 l2 : emits F1 a l1 -> emits F2 b l2 -> (forall f, F2 f -> F1 (b ++ f)) ->
  emits F2 (a ++ b) (l1 ++ l2).
Proof.
  intros H1 H2 HF f l' Hf Hy. rewrite <- !app_assoc. apply H1; [apply HF; exact Hf|]. apply H2; assumption.
Qed.
Lemma emits_nil F : emits F [] [].
Proof. intros f l' _ H. exact H. Qed.
Lemma emits_blanks F b : blanks b -> emits F b [].
Proof. intros Hb f l' _ H b' Hb'. rewrite app_assoc. apply H. apply Forall_app. split; assumption. Qed.
Lemma emits_token (s : str) : token_ok s = true ->
  emits (fun f => follow f /\ (s = [] -> follow_blank f)) (try_quoted s zml_special) [s].
Proof.
  intros Hs f l' [Hf He] Hy b Hb. cbn [app yields]. exists f. split; [apply read_written; assumption|].
  apply (Hy []). constructor.
Qed.
Lemma emits_op x : In x op_chars -> emits anything [x] [[x]].
Proof.
  intros Hx f l' _ Hy b Hb. cbn [app yields]. exists f. split; [apply read_op; assumption|]. apply (Hy []). constructor.
Qed.

Lemma follow_blank_app x r : is_blank x = true -> follow_blank (x :: r).
Proof. intros H. right. exists x, r. split; [reflexivity|exact H]. Qed.
Lemma follow_op x r : In x op_chars -> follow (x :: r).
Proof. intros H. right. exists x, r. split; [reflexivity|exact H]. Qed.

(** what must follow a node *)
Definition fol (empties : bool) : str -> Prop := if empties then follow_blank else follow.
Lemma fol_blank e x r : is_blank x = true -> fol e (x :: r).
Proof. intros H. destruct e; [|left]; apply follow_blank_app; exact H. Qed.
Lemma fol_follow e f : fol e f -> follow f.
Proof. destruct e; intros H; [left|]; exact H. Qed.
Lemma fol_nil e : fol e [].
Proof. destruct e; [left; reflexivity|left; left; reflexivity]. Qed.

(** equals signs *)
Definition equals_ok (eq : str) : Prop := eq = lit " = " \/ eq = lit "=".
Lemma equals_emits eq : equals_ok eq -> emits anything eq [lit "="].
Proof.
  intros [->| ->].
  - apply (emits_app anything anything (lit " ") (lit "= ") [] [lit "="]).
    + apply emits_blanks. repeat constructor.
    + apply (emits_app anything anything (lit "=") (lit " ") [lit "="] []); [|apply emits_blanks; repeat constructor|exact (fun _ H => H)].
      apply emits_op. left. reflexivity.
    + exact (fun _ H => H).
  - apply emits_op. left. reflexivity.
Qed.
Lemma equals_follow eq f : equals_ok eq -> follow (eq ++ f).
Proof. intros [->| ->]; [left; apply follow_blank_app; reflexivity|apply follow_op; left; reflexivity]. Qed.

Lemma kvp_emits label v cs a eq inarr : equals_ok eq -> token_ok label = true -> token_ok v = true ->
  (label = [] -> inarr = true \/ (v = [] /\ cs <> [])) ->
  exists k, write_kvp label (PN v cs a) eq inarr = Ok k /\
    emits (fun f => follow f /\ (v = [] -> cs = [] -> follow_blank f)) k (kvp_toks label v cs).
Proof.
  intros Heq Hl Hv Hi. unfold write_kvp. set (G := fun f => follow f /\ (v = [] -> cs = [] -> follow_blank f)).
  change (has_value (PN v cs a)) with (match v with [] => false | _ => true end).
  unfold pn_size. cbn [pn_children pn_value].
  replace (match v with [] => false | _ => true end || (length cs =? 0)) with (shows_value v cs)
    by (destruct v, cs; reflexivity).
  change (match label with [] => false | _ => true end) with (shows_label label).
  assert (Hnot : negb (shows_label label) && shows_value v cs && negb inarr = false).
  { destruct label as [|x label]; [|reflexivity]. destruct (Hi eq_refl) as [->|[-> Hcs]]; [apply andb_false_r|].
    destruct cs; [congruence|reflexivity]. }
  rewrite Hnot. eexists. split; [reflexivity|]. unfold kvp_toks.
  assert (Hval : emits G (if shows_value v cs then try_quoted v zml_special else []) (if shows_value v cs then [v] else [])).
  { destruct (shows_value v cs) eqn:Es; [|apply emits_nil].
    eapply emits_weaken; [|apply emits_token; exact Hv]. intros f [H1 H2]. split; [exact H1|]. intros ->. apply H2; [reflexivity|].
    destruct cs; [reflexivity|discriminate]. }
  assert (Hrest : emits G ((if shows_label label && shows_value v cs then eq else []) ++
    (if shows_value v cs then try_quoted v zml_special else []))
    ((if shows_label label && shows_value v cs then [lit "="] else []) ++ (if shows_value v cs then [v] else []))).
  { eapply (emits_app anything G); [|exact Hval|intros; exact I].
    destruct (shows_label label && shows_value v cs); [apply equals_emits; exact Heq|apply emits_nil]. }
  destruct label as [|x label].
  - cbn [shows_label andb app] in *. exact Hrest.
  - cbn [shows_label andb] in *. eapply emits_app; [apply emits_token; exact Hl|exact Hrest|].
    intros f Hf. split; [|discriminate]. rewrite <- app_assoc. destruct (shows_value v cs); [apply equals_follow; exact Heq|].
    exact (proj1 Hf).
Qed.

(** * lists of children *)
Definition join_written (w : str -> pn -> outcome str) :=
  fix go (cs : list (str * pn)) (sep : str) : outcome str :=
  match cs with
  | [] => Ok []
  | (l, c) :: r => do x <- w l c; do y <- go r (lit " "); Ok (sep ++ x ++ y)
  end.
Definition lines_written (w : str -> pn -> outcome str) :=
  fix go (cs : list (str * pn)) : outcome str :=
  match cs with
  | [] => Ok []
  | (l, c) :: r => do x <- w l c; do y <- go r; Ok (x ++ [lf] ++ y)
  end.

Definition writes (e : bool) (w : str -> pn -> outcome str) (kc : str * pn) : Prop :=
  exists x, w (fst kc) (snd kc) = Ok x /\ emits (fol e) x (node_toks (fst kc) (snd kc)).

Lemma join_emits e w cs : Forall (writes e w) cs -> forall sep, sep = [] \/ sep = lit " " ->
  exists y, join_written w cs sep = Ok y /\ emits (fol e) y (list_toks cs) /\ (sep = lit " " -> forall f, fol e f -> fol e (y ++ f)).
Proof.
  induction 1 as [|[k c] cs [x [Ex Hx]] _ IH]; intros sep Hsep.
  - exists []. split; [reflexivity|]. split; [apply emits_nil|]. intros _ f Hf. exact Hf.
  - destruct (IH (lit " ") (or_intror eq_refl)) as [y [Ey [Hy Hfy]]]. cbn [fst snd] in *.
    exists (sep ++ x ++ y). split; [cbn [join_written]; rewrite Ex; cbn [obind]; fold (join_written w); rewrite Ey; reflexivity|]. split.
    + change (list_toks ((k, c) :: cs)) with ([] ++ node_toks k c ++ list_toks cs).
      eapply (emits_app anything); [|eapply (emits_app (fol e)); [exact Hx|exact Hy|apply Hfy; reflexivity]|intros; exact I].
      destruct Hsep as [->| ->]; [apply emits_nil|]. apply emits_blanks. repeat constructor.
    + intros -> f _. apply fol_blank. reflexivity.
Qed.
Lemma lines_emits e w cs : Forall (writes e w) cs ->
  exists y, lines_written w cs = Ok y /\ emits anything y (list_toks cs).
Proof.
  induction 1 as [|[k c] cs [x [Ex Hx]] _ [y [Ey Hy]]].
  - exists []. split; [reflexivity|apply emits_nil].
  - cbn [fst snd] in *. exists (x ++ [lf] ++ y). split; [cbn [lines_written]; rewrite Ex; cbn [obind]; fold (lines_written w); rewrite Ey; reflexivity|].
    change (list_toks ((k, c) :: cs)) with (node_toks k c ++ [] ++ list_toks cs).
    eapply (emits_app (fol e)); [exact Hx|eapply (emits_app anything)|].
    + apply emits_blanks. repeat constructor.
    + exact Hy.
    + intros; exact I.
    + intros f _. apply fol_blank. reflexivity.
Qed.

Lemma bracket_emits arr a b x y : In x op_chars -> In y op_chars -> forall s1 s2 t1 t2,
  blanks s1 -> blanks s2 -> blanks t1 -> blanks t2 -> a = s1 ++ [x] ++ s2 -> b = t1 ++ [y] ++ t2 ->
  emits anything (bracket arr a b) [if arr then [x] else [y]].
Proof.
  intros Hx Hy s1 s2 t1 t2 H1 H2 H3 H4 -> ->. destruct arr; cbn [bracket].
  - apply (emits_app anything anything s1 ([x] ++ s2) [] [[x]]); [apply emits_blanks; exact H1| |intros; exact I].
    apply (emits_app anything anything [x] s2 [[x]] []); [apply emits_op; exact Hx|apply emits_blanks; exact H2|intros; exact I].
  - apply (emits_app anything anything t1 ([y] ++ t2) [] [[y]]); [apply emits_blanks; exact H3| |intros; exact I].
    apply (emits_app anything anything [y] t2 [[y]] []); [apply emits_op; exact Hy|apply emits_blanks; exact H4|intros; exact I].
Qed.
Lemma open_emits arr a b : a = lit "[" /\ b = lit "{" \/ a = lit "[ " /\ b = lit "{ " ->
  emits anything (bracket arr a b) [open_tok arr].
Proof.
  intros [[-> ->]|[-> ->]].
  - apply (bracket_emits arr _ _ "["%char "{"%char) with (s1 := []) (s2 := []) (t1 := []) (t2 := []);
      try reflexivity; try (repeat constructor; fail); cbn; tauto.
  - apply (bracket_emits arr _ _ "["%char "{"%char) with (s1 := []) (s2 := lit " ") (t1 := []) (t2 := lit " ");
      try reflexivity; try (repeat constructor; fail); cbn; tauto.
Qed.
Lemma close_emits arr a b : a = lit "]" /\ b = lit "}" \/ a = lit " ]" /\ b = lit " }" ->
  emits anything (bracket arr a b) [close_tok arr].
Proof.
  intros [[-> ->]|[-> ->]].
  - apply (bracket_emits arr _ _ "]"%char "}"%char) with (s1 := []) (s2 := []) (t1 := []) (t2 := []);
      try reflexivity; try (repeat constructor; fail); cbn; tauto.
  - apply (bracket_emits arr _ _ "]"%char "}"%char) with (s1 := lit " ") (s2 := []) (t1 := lit " ") (t2 := []);
      try reflexivity; try (repeat constructor; fail); cbn; tauto.
Qed.

(** a node with children, from its parts *)
Lemma parts_emit G k label v cs o body c : cs <> [] ->
  emits (fun f => follow f /\ (v = [] -> cs = [] -> follow_blank f)) k (kvp_toks label v cs) ->
  emits anything o [open_tok (no_keys cs)] -> (forall f, follow (o ++ f)) ->
  emits G body (list_toks cs) -> emits anything c [close_tok (no_keys cs)] -> (forall f, G (c ++ f)) ->
  forall a, emits anything (k ++ o ++ body ++ c) (node_toks label (PN v cs a)).
Proof.
  intros Hcs Hk Ho Hof Hb Hc Hcf a. cbn [node_toks]. fold (list_toks cs).
  replace (match cs with [] => [] | _ => [open_tok (no_keys cs)] ++ list_toks cs ++ [close_tok (no_keys cs)] end)
    with ([open_tok (no_keys cs)] ++ list_toks cs ++ [close_tok (no_keys cs)]) by (destruct cs; [congruence|reflexivity]).
  eapply emits_app; [exact Hk|eapply (emits_app anything); [exact Ho|eapply emits_app; [exact Hb|exact Hc|intros f _; apply Hcf]|intros; exact I]|].
  intros f _. split; [|congruence]. rewrite <- app_assoc. apply Hof.
Qed.

(** * labels and values of good trees *)
Lemma label_token s : label_ok s = true -> token_ok s = true.
Proof. unfold label_ok. rewrite !andb_true_iff. tauto. Qed.
Lemma value_token s : value_ok s = true -> token_ok s = true.
Proof. unfold value_ok. rewrite !andb_true_iff. tauto. Qed.
Lemma element_value s : element_ok s = true -> value_ok s = true.
Proof. unfold element_ok. rewrite !andb_true_iff. tauto. Qed.
Lemma label_nonempty s : label_ok s = true -> s <> [].
Proof. unfold label_ok. intros H ->. discriminate. Qed.

Definition label_fits (in_array : bool) (label : str) : Prop :=
  if in_array then label = [] else label_ok label = true.
Lemma fits_token ia l : label_fits ia l -> token_ok l = true.
Proof. destruct ia; cbn [label_fits]; [intros ->; reflexivity|apply label_token]. Qed.

Lemma node_value_token e ia v cs a : node_ok e ia (PN v cs a) = true -> token_ok v = true.
Proof.
  cbn [node_ok]. destruct cs as [|c cs]; intros H; apply andb_true_iff in H; destruct H as [H _].
  - apply value_token. destruct ia; [apply element_value|]; exact H.
  - destruct v as [|x v]; [reflexivity|]. apply andb_true_iff in H. apply value_token. tauto.
Qed.
Lemma node_kids e ia v cs a : node_ok e ia (PN v cs a) = true ->
  Forall (fun kc => node_ok e (no_keys cs) (snd kc) = true /\ label_fits (no_keys cs) (fst kc)) cs.
Proof.
  destruct cs as [|c0 cs]; [constructor|]. cbn [node_ok]. set (kids := c0 :: cs). intros H.
  apply andb_true_iff in H. destruct H as [_ H]. destruct (no_keys kids) eqn:En; apply Forall_forall; intros [k c] Hin;
    rewrite forallb_forall in H; specialize (H _ Hin); cbn [fst snd] in *.
  - split; [exact H|]. unfold no_keys in En. rewrite forallb_forall in En. specialize (En _ Hin). cbn [fst] in En.
    cbn [label_fits]. destruct k; [reflexivity|discriminate En].
  - apply andb_true_iff in H. split; [exact (proj2 H)|exact (proj1 H)].
Qed.

(** the follow condition of a leaf *)
Lemma leaf_fol e ia v a f : node_ok e ia (PN v [] a) = true -> fol e f ->
  follow f /\ (v = [] -> @nil (str * pn) = [] -> follow_blank f).
Proof.
  intros H Hf. split; [exact (fol_follow _ _ Hf)|]. intros -> _. cbn [node_ok] in H. apply andb_true_iff in H.
  destruct H as [_ H]. destruct e; [exact Hf|discriminate].
Qed.
Lemma array_value e v c cs a : node_ok e true (PN v (c :: cs) a) = true -> v = [].
Proof. cbn [node_ok]. rewrite andb_true_iff. intros [H _]. destruct v; [reflexivity|discriminate]. Qed.

Lemma label_space_follow label o f : follow (o ++ f) -> follow ((label_space label ++ o) ++ f).
Proof. intros H. destruct label; [exact H|]. left. apply follow_blank_app. reflexivity. Qed.
Lemma label_space_emits label o l : emits anything o l -> emits anything (label_space label ++ o) l.
Proof.
  intros H. apply (emits_app anything anything (label_space label) o [] l); [|exact H|intros; exact I].
  apply emits_blanks. destruct label; repeat constructor.
Qed.
Lemma open_follow arr a b f : a = lit "[" /\ b = lit "{" \/ a = lit "[ " /\ b = lit "{ " -> follow (bracket arr a b ++ f).
Proof. intros [[-> ->]|[-> ->]]; destruct arr; apply follow_op; cbn; tauto. Qed.

(** * write_one_line *)
Lemma one_line_eq label v cs a ia : write_one_line label (PN v cs a) ia =
  (do k <- write_kvp label (PN v cs a) (lit " = ") ia;
   match cs with
   | [] => Ok k
   | _ => do body <- join_written (fun l c => write_one_line l c (no_keys cs)) cs [];
     Ok (k ++ label_space label ++ bracket (no_keys cs) (lit "[ ") (lit "{ ") ++ body ++ bracket (no_keys cs) (lit " ]") (lit " }"))
   end).
Proof. destruct cs as [|c cs]; reflexivity. Qed.

Lemma one_line_emits t : forall ia label ia',
  node_ok true ia t = true -> label_fits ia label -> ia' = ia \/ pn_children t <> [] ->
  exists x, write_one_line label t ia' = Ok x /\ emits (fol true) x (node_toks label t).
Proof.
  induction t as [v cs a IH] using pn_ind'. intros ia label ia' Hok Hl Hia.
  assert (Hkv : label = [] -> ia' = true \/ (v = [] /\ cs <> [])).
  { intros ->. destruct ia; [|discriminate Hl]. destruct cs as [|c cs].
    - left. destruct Hia as [->|H]; [reflexivity|]. exfalso. apply H. reflexivity.
    - right. split; [exact (array_value _ _ _ _ _ Hok)|discriminate]. }
  destruct (kvp_emits label v cs a (lit " = ") ia' (or_introl eq_refl) (fits_token _ _ Hl) (node_value_token _ _ _ _ _ Hok) Hkv) as [k [Ek Hk]].
  rewrite one_line_eq, Ek. cbn [obind]. destruct cs as [|c cs].
  - exists k. split; [reflexivity|]. cbn [node_toks]. rewrite app_nil_r.
    eapply emits_weaken; [|exact Hk]. intros f Hf. eapply leaf_fol; eassumption.
  - assert (Hw : Forall (writes true (fun l c0 => write_one_line l c0 (no_keys (c :: cs)))) (c :: cs)).
    { pose proof (node_kids _ _ _ _ _ Hok) as Hkids. clear -IH Hkids. revert Hkids. generalize (no_keys (c :: cs)) as arr.
      intros arr Hkids. induction IH as [|kc l H _ IHl]; [constructor|].
      pose proof (Forall_inv Hkids) as [H1 H2]. apply Forall_inv_tail in Hkids. constructor; [|exact (IHl Hkids)].
      unfold writes. eapply H; [exact H1|exact H2|left; reflexivity]. }
    destruct (join_emits true _ _ Hw [] (or_introl eq_refl)) as [body [Eb [Hb _]]]. rewrite Eb. cbn [obind].
    eexists. split; [reflexivity|]. eapply emits_weaken with (F := anything); [intros; exact I|].
    rewrite (app_assoc (label_space label)).
    eapply (parts_emit (fol true)); [discriminate|exact Hk|apply label_space_emits; apply open_emits; tauto| |exact Hb|apply close_emits; tauto|].
    + intros f. apply label_space_follow. apply open_follow. tauto.
    + intros f. destruct (no_keys (c :: cs)); apply fol_blank; reflexivity.
Qed.

(** * write_node below the root *)
Definition node_multi (label : str) (v : str) (cs : list (str * pn)) (a : bool) (level : nat) (ia : bool) : outcome str :=
  do k <- write_kvp label (PN v cs a) (lit " = ") ia;
  do body <- lines_written (fun l c => write_node l c (S level) (no_keys cs)) cs;
  Ok (repeat tab (level - 1) ++ k ++ label_space label ++
      (if level =? 0 then [] else bracket (no_keys cs) (lit "[") (lit "{") ++ [lf]) ++ body ++
      (if level =? 0 then [] else repeat tab (level - 1) ++ bracket (no_keys cs) (lit "]") (lit "}"))).
Lemma write_node_eq label v cs a level ia : write_node label (PN v cs a) level ia =
  match cs with
  | [] => do k <- write_kvp label (PN v cs a) (lit " = ") ia; Ok (repeat tab (level - 1) ++ k)
  | _ =>
    if negb (level =? 0) && (count_layers (PN v cs a) <=? 2) && (count_children (PN v cs a) <=? 5) then
      do one <- write_one_line label (PN v cs a) (no_keys cs);
      if level + length label + 1 + length one <=? 80 then Ok (repeat tab (level - 1) ++ one)
      else node_multi label v cs a level ia
    else node_multi label v cs a level ia
  end.
Proof. destruct cs as [|c cs]; reflexivity. Qed.

Lemma tabs_blank n : blanks (repeat tab n).
Proof. induction n; constructor; [reflexivity|assumption]. Qed.

Lemma write_node_emits t : forall level ia label,
  node_ok true ia t = true -> label_fits ia label ->
  exists x, write_node label t (S level) ia = Ok x /\ emits (fol true) x (node_toks label t).
Proof.
  induction t as [v cs a IH] using pn_ind'. intros level ia label Hok Hl.
  assert (Hkv : label = [] -> ia = true \/ (v = [] /\ cs <> [])).
  { intros ->. left. destruct ia; [reflexivity|discriminate Hl]. }
  destruct (kvp_emits label v cs a (lit " = ") ia (or_introl eq_refl) (fits_token _ _ Hl) (node_value_token _ _ _ _ _ Hok) Hkv) as [k [Ek Hk]].
  rewrite write_node_eq. change (S level - 1) with (level - 0). rewrite Nat.sub_0_r.
  destruct cs as [|c cs].
  - rewrite Ek. eexists. split; [reflexivity|]. cbn [node_toks]. rewrite app_nil_r.
    change (kvp_toks label v []) with ([] ++ kvp_toks label v []).
    eapply (emits_app anything); [apply emits_blanks; apply tabs_blank| |intros; exact I].
    eapply emits_weaken; [|exact Hk]. intros f Hf. eapply leaf_fol; eassumption.
  - assert (Hmulti : exists x, node_multi label v (c :: cs) a (S level) ia = Ok x /\ emits (fol true) x (node_toks label (PN v (c :: cs) a))).
    { assert (Hw : Forall (writes true (fun l c0 => write_node l c0 (S (S level)) (no_keys (c :: cs)))) (c :: cs)).
      { pose proof (node_kids _ _ _ _ _ Hok) as Hkids. clear -IH Hkids. revert Hkids. generalize (no_keys (c :: cs)) as arr.
        intros arr Hkids. induction IH as [|kc l H _ IHl]; [constructor|].
        pose proof (Forall_inv Hkids) as [H1 H2]. apply Forall_inv_tail in Hkids. constructor; [|exact (IHl Hkids)].
        unfold writes. eapply H; [exact H1|exact H2]. }
      destruct (lines_emits true _ _ Hw) as [body [Eb Hb]].
      unfold node_multi. rewrite Ek. cbn [obind]. rewrite Eb. cbn [obind Nat.eqb].
      change (S level - 1) with (level - 0). rewrite Nat.sub_0_r.
      eexists. split; [reflexivity|]. eapply emits_weaken with (F := anything); [intros; exact I|].
      change (node_toks label (PN v (c :: cs) a)) with ([] ++ node_toks label (PN v (c :: cs) a)).
      eapply (emits_app anything); [apply emits_blanks; apply tabs_blank| |intros; exact I].
      rewrite (app_assoc (label_space label)).
      eapply (parts_emit anything); [discriminate|exact Hk| | |exact Hb| |intros; exact I].
      - apply label_space_emits. change [open_tok (no_keys (c :: cs))] with ([open_tok (no_keys (c :: cs))] ++ []).
        eapply (emits_app anything); [apply open_emits; tauto|apply emits_blanks; repeat constructor|intros; exact I].
      - intros f. apply label_space_follow. rewrite <- app_assoc. apply open_follow. tauto.
      - change [close_tok (no_keys (c :: cs))] with ([] ++ [close_tok (no_keys (c :: cs))]).
        eapply (emits_app anything); [apply emits_blanks; apply tabs_blank|apply close_emits; tauto|intros; exact I]. }
    destruct (negb (S level =? 0) && (count_layers (PN v (c :: cs) a) <=? 2) && (count_children (PN v (c :: cs) a) <=? 5)); [|exact Hmulti].
    assert (Hne : pn_children (PN v (c :: cs) a) <> []) by (cbn [pn_children]; congruence).
    destruct (one_line_emits (PN v (c :: cs) a) ia label (no_keys (c :: cs)) Hok Hl (or_intror Hne)) as [one [Eo Ho]].
    rewrite Eo. cbn [obind].
    match goal with |- context [if ?b then _ else _] => destruct b end; [|exact Hmulti].
    eexists. split; [reflexivity|].
    change (node_toks label (PN v (c :: cs) a)) with ([] ++ node_toks label (PN v (c :: cs) a)).
    eapply (emits_app anything); [apply emits_blanks; apply tabs_blank|exact Ho|intros; exact I].
Qed.

(** * write_concise below the root *)
Lemma concise_eq label v cs a level ia : write_concise label (PN v cs a) level ia =
  (do k <- write_kvp label (PN v cs a) (lit "=") ia;
   match cs with
   | [] => Ok k
   | _ => do body <- join_written (fun l c => write_concise l c (S level) (no_keys cs)) cs [];
     Ok (k ++ (if level =? 0 then [] else bracket (no_keys cs) (lit "[") (lit "{")) ++ body ++
         (if level =? 0 then [] else bracket (no_keys cs) (lit "]") (lit "}")))
   end).
Proof. destruct cs as [|c cs]; reflexivity. Qed.

Lemma concise_emits t : forall level ia label,
  node_ok false ia t = true -> label_fits ia label ->
  exists x, write_concise label t (S level) ia = Ok x /\ emits (fol false) x (node_toks label t).
Proof.
  induction t as [v cs a IH] using pn_ind'. intros level ia label Hok Hl.
  assert (Hkv : label = [] -> ia = true \/ (v = [] /\ cs <> [])).
  { intros ->. left. destruct ia; [reflexivity|discriminate Hl]. }
  destruct (kvp_emits label v cs a (lit "=") ia (or_intror eq_refl) (fits_token _ _ Hl) (node_value_token _ _ _ _ _ Hok) Hkv) as [k [Ek Hk]].
  rewrite concise_eq, Ek. cbn [obind]. destruct cs as [|c cs].
  - exists k. split; [reflexivity|]. cbn [node_toks]. rewrite app_nil_r.
    eapply emits_weaken; [|exact Hk]. intros f Hf. eapply leaf_fol; eassumption.
  - assert (Hw : Forall (writes false (fun l c0 => write_concise l c0 (S (S level)) (no_keys (c :: cs)))) (c :: cs)).
    { pose proof (node_kids _ _ _ _ _ Hok) as Hkids. clear -IH Hkids. revert Hkids. generalize (no_keys (c :: cs)) as arr.
      intros arr Hkids. induction IH as [|kc l H _ IHl]; [constructor|].
      pose proof (Forall_inv Hkids) as [H1 H2]. apply Forall_inv_tail in Hkids. constructor; [|exact (IHl Hkids)].
      unfold writes. eapply H; [exact H1|exact H2]. }
    destruct (join_emits false _ _ Hw [] (or_introl eq_refl)) as [body [Eb [Hb _]]]. rewrite Eb. cbn [obind Nat.eqb].
    eexists. split; [reflexivity|]. eapply emits_weaken with (F := anything); [intros; exact I|].
    eapply (parts_emit (fol false)); [discriminate|exact Hk|apply open_emits; tauto| |exact Hb|apply close_emits; tauto|].
    + intros f. apply open_follow. tauto.
    + intros f. destruct (no_keys (c :: cs)); apply follow_op; cbn; tauto.
Qed.

(** * whole documents *)
Lemma tree_kids e v cs a : tree_ok e (PN v cs a) = true -> v = [] /\
  Forall (fun kc => node_ok e false (snd kc) = true /\ label_fits false (fst kc)) cs /\ (cs <> [] -> no_keys cs = false).
Proof.
  cbn [tree_ok]. rewrite andb_true_iff. intros [Hv H]. split; [destruct v; [reflexivity|discriminate]|].
  assert (G : Forall (fun kc => node_ok e false (snd kc) = true /\ label_fits false (fst kc)) cs).
  { apply Forall_forall. intros kc Hin. rewrite forallb_forall in H. specialize (H _ Hin). apply andb_true_iff in H. tauto. }
  split; [exact G|]. intros Hcs. destruct G as [|[k c] cs [_ Hk]]; [congruence|]. cbn [fst label_fits] in Hk.
  cbn [no_keys forallb fst]. destruct k; [discriminate Hk|reflexivity].
Qed.

Lemma yields_nil : yieldsb [] [].
Proof. intros b Hb. rewrite app_nil_r. exact Hb. Qed.

Lemma write_zml_yields t : tree_ok true t = true ->
  exists x, write_zml t = Ok x /\ yields x (list_toks (pn_children t)).
Proof.
  destruct t as [v cs a]. intros H. destruct (tree_kids _ _ _ _ H) as [-> [Hk Hn]]. unfold write_zml. cbn [pn_children].
  destruct cs as [|c cs]; [exists []; split; [reflexivity|constructor]|].
  change (pn_is_empty (PN [] (c :: cs) a)) with false. cbv iota. rewrite write_node_eq. cbn [Nat.eqb negb andb].
  unfold node_multi. rewrite (Hn ltac:(discriminate)).
  change (write_kvp [] (PN [] (c :: cs) a) (lit " = ") false) with (@Ok str []). cbn [obind].
  assert (Hw : Forall (writes true (fun l c0 => write_node l c0 1 false)) (c :: cs)).
  { eapply Forall_impl; [|exact Hk]. intros kc [H1 H2]. unfold writes. eapply write_node_emits; eassumption. }
  destruct (lines_emits true _ _ Hw) as [body [Eb Hb]]. rewrite Eb. cbn [obind Nat.eqb Nat.sub repeat label_space app].
  exists (body ++ []). split; [reflexivity|].
  specialize (Hb [] [] I yields_nil [] ltac:(constructor)). rewrite !app_nil_r in Hb. rewrite app_nil_r. exact Hb.
Qed.
Lemma write_concise_yields t : tree_ok false t = true -> pn_children t <> [] ->
  exists x, write_zml_concise t = Ok x /\ yields x (list_toks (pn_children t)).
Proof.
  destruct t as [v cs a]. intros H Hcs. destruct (tree_kids _ _ _ _ H) as [-> [Hk Hn]]. unfold write_zml_concise. cbn [pn_children] in *.
  destruct cs as [|c cs]; [congruence|]. rewrite concise_eq. rewrite (Hn Hcs).
  change (write_kvp [] (PN [] (c :: cs) a) (lit "=") false) with (@Ok str []). cbn [obind].
  assert (Hw : Forall (writes false (fun l c0 => write_concise l c0 1 false)) (c :: cs)).
  { eapply Forall_impl; [|exact Hk]. intros kc [H1 H2]. unfold writes. eapply concise_emits; eassumption. }
  destruct (join_emits false _ _ Hw [] (or_introl eq_refl)) as [body [Eb [Hb _]]]. rewrite Eb. cbn [obind Nat.eqb app].
  exists (body ++ []). split; [reflexivity|].
  specialize (Hb [] [] (fol_nil _) yields_nil [] ltac:(constructor)). rewrite !app_nil_r in Hb. rewrite app_nil_r. exact Hb.
Qed.
