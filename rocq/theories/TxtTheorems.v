(** Theorems about the texts of property trees: C171-C174. *)
From Coq Require Import Ascii String List Arith Bool ZArith Lia.
From Verif Require Import Base BaseProofs Str StrSpec StrModel StrBase PnSpec PnModel PnProofs PnProofs2 ZmlSpec ZmlModel ZmlRound TxtSpec TxtModel TxtProofs TxtRead.
Import ListNotations.

Definition leaf (v : string) : pn := PN (lit v) [] false.
Definition sample : pn :=
  PN [] [(lit "name", leaf "xo"); (lit "window", PN [] [(lit "width", leaf "640"); (lit "h", PN (lit "480") [] true)] false); (lit "e", leaf "")] false.

(** * C171: to_str *)
(** never throws; one line for every node, parents before children, the equals signs below each other in the column right after the longest name *)
Theorem C171_text t : exists column ls,
  to_str t = Ok (lines_text ls) /\
  Forall2 (fun e l => line_shows column (fst (fst e)) (snd (fst e)) (snd e) l) (outline 0 t) ls /\
  Forall (fun e => 2 * fst (fst e) + length (snd (fst e)) <= column) (outline 0 t) /\
  (outline 0 t <> [] -> exists e, In e (outline 0 t) /\ 2 * fst (fst e) + length (snd (fst e)) = column).
Proof.
  exists (align_width t 2 0), (map (line_text (fun k => k) (align_width t 2 0)) (outline 0 t)). pose proof (align_fits t 0) as Fit. split; [unfold to_str; exact (stream_lines t 0 0 Fit)|]. split.
  - set (w := align_width t 2 0) in *. clearbody w. induction (outline 0 t) as [|e l IH]; [constructor|]. inversion Fit; subst. cbn [map]. constructor; [|apply IH; assumption]. exact (line_text_shows (fun k => k) (fun k => le_n _) w e H1).
  - split; [exact Fit|apply (align_attained t 0)].
Qed.
Example C171_text_case : to_str sample = Ok (lit "name    = xo" ++ [lf] ++ lit "window" ++ [lf] ++ lit "  width = 640" ++ [lf] ++ lit "  h     = 480" ++ [lf] ++ lit "e       = " ++ [lf]).
Proof. vm_compute. reflexivity. Qed.

(** with a column given, no less than what the tree needs, and starting at any depth *)
Theorem C171_given_column t depth column : 0 < column -> Forall (fun e => 2 * fst (fst e) + length (snd (fst e)) <= column) (outline depth t) ->
  exists ls, to_stream t depth column = Ok (lines_text ls) /\ Forall2 (fun e l => line_shows column (fst (fst e)) (snd (fst e)) (snd e) l) (outline depth t) ls.
Proof.
  intros P Fit. assert (E : (column =? 0) = false) by (apply Nat.eqb_neq; lia). pose proof (stream_lines t depth column) as H. rewrite E in H. eexists. split; [apply H, Fit|]. clear H. induction (outline depth t) as [|e l IH]; [constructor|]. inversion Fit; subst. cbn [map]. constructor; [|apply IH; assumption]. exact (line_text_shows (fun k => k) (fun k => le_n _) column e H1).
Qed.
Example C171_given_column_case : to_stream (PN [] [(lit "ab", leaf "1")] false) 1 6 = Ok (lit "  ab   = 1" ++ [lf]).
Proof. vm_compute. reflexivity. Qed.
(** a column that is too small throws *)
Theorem C171_any_column_refuted : exists t column, 0 < column /\ to_stream t 0 column = Throw.
Proof. exists sample, 3. split; [lia|]. vm_compute. reflexivity. Qed.

(** trees of plain names and values of one line that have the same text have the same children *)
Theorem C171_identifies t u : plain_tree t -> plain_tree u -> to_str t = to_str u ->
  Forall2 (fun x y => fst x = fst y /\ same_tree (snd x) (snd y)) (pn_children t) (pn_children u).
Proof. apply text_inj. Qed.
Example C171_identifies_case : plain_tree sample.
Proof.
  assert (N : forall s, forallb (fun x => negb (Ascii.eqb x "="%char) && negb (Ascii.eqb x lf)) s = true -> (exists x r, s = x :: r /\ x <> " "%char) -> last s " "%char <> " "%char -> plain_name s).
  { intros s F X L. rewrite forallb_forall in F. split; [|split; [|split; assumption]]; intros I; specialize (F _ I); discriminate F. }
  assert (V : forall s, forallb (fun x => negb (Ascii.eqb x lf)) s = true -> one_line s). { intros s F I. rewrite forallb_forall in F. specialize (F _ I). discriminate F. }
  cbn [plain_tree sample leaf fold_right fst snd pn_value]. repeat match goal with |- _ /\ _ => split | |- True => exact I end;
    try (apply V; reflexivity); apply N; try reflexivity; try discriminate; (do 2 eexists; split; [reflexivity|discriminate]).
Qed.
(** the value of the root is not in its text *)
Theorem C171_root_value_refuted : exists t u, pn_value t <> pn_value u /\ pn_children t = pn_children u /\ to_str t = to_str u.
Proof. exists (PN (lit "a") (pn_children sample) false), (PN (lit "b") (pn_children sample) false). split; [discriminate|]. split; reflexivity. Qed.
(** and a value with an end of line can be taken for a further node *)
Theorem C171_lines_refuted : exists t u, length (pn_children t) <> length (pn_children u) /\ to_str t = to_str u.
Proof.
  exists (PN [] [(lit "a", PN (lit "1" ++ [lf] ++ lit "b = 2") [] false)] false), (PN [] [(lit "a", leaf "1"); (lit "b", leaf "2")] false). split; [discriminate|]. vm_compute. reflexivity.
Qed.

(** to_str counts as reading: afterwards no value below the root is unread, and nothing else changed *)
Theorem C171_marks t : same_tree (after_to_stream t) t /\ pn_flag (after_to_stream t) = pn_flag t /\ Forall (fun e => ~ unread (snd e)) (outline 0 (after_to_stream t)) /\ to_str_unaccessed (after_to_stream t) = [].
Proof.
  split; [apply after_same|]. split; [destruct t; reflexivity|]. split; [apply after_read|]. unfold to_str_unaccessed. rewrite str_unaccessed_lines. cbn [List.app].
  assert (E : filter wanted (outline 0 (after_to_stream t)) = []); [|rewrite E; reflexivity].
  pose proof (after_read t 0) as F. assert (G : forall d u, Forall (fun e => ~ unread (snd e)) (outline d u) -> filter wanted (outline d u) = []).
  { clear. intros d u. revert d. induction u as [v cs a IH] using pn_ind'. intros d. rewrite outline_eq. induction cs as [|kc cs IHc]; intros F; [reflexivity|]. inversion IH as [|? ? H1 H2]; subst. cbn [flat_map List.app filter] in *. inversion F as [|? ? F1 F2]; subst. apply Forall_app in F2. destruct F2 as [F2 F3].
    rewrite filter_app, (H1 _ F2), (IHc H2 F3). destruct (wanted (d, fst kc, snd kc)) eqn:W; [|reflexivity]. exfalso. unfold wanted in W. apply Nat.ltb_lt, count_contains, contains_eq in W. cbn [snd] in *. destruct W as [W|(c & I & U)]; [exact (F1 W)|].
    rewrite (outline_depth _ 0 (S d)) in I. apply in_map_iff in I. destruct I as (e & <- & I). rewrite Forall_forall in F2. exact (F2 e I U). }
  apply G, F.
Qed.
Example C171_marks_case : to_str_unaccessed sample <> [] /\ to_str_unaccessed (after_to_stream sample) = [].
Proof. split; [vm_compute; discriminate|reflexivity]. Qed.

(** * C172: unread values *)
(** exactly the nodes that have, or have below them, a value that was never asked for; in order; a star and the value where it is the node's own *)
Theorem C172_text t : exists es ls, selects (fun e => contains_unread (snd e)) (outline 0 t) es /\ Forall2 (fun e l => unread_line (fst (fst e)) (snd (fst e)) (snd e) l) es ls /\ to_str_unaccessed t = lines_text ls.
Proof.
  exists (filter wanted (outline 0 t)), (map unread_text (filter wanted (outline 0 t))). split; [apply wanted_selects|]. split; [|unfold to_str_unaccessed; rewrite str_unaccessed_lines; reflexivity].
  induction (filter wanted (outline 0 t)) as [|e l IH]; [constructor|]. cbn [map]. constructor; [apply unread_text_ok|exact IH].
Qed.
Example C172_text_case : to_str_unaccessed sample = lit "name = xo *" ++ [lf] ++ lit "window" ++ [lf] ++ lit "  width = 640 *" ++ [lf].
Proof. vm_compute. reflexivity. Qed.
(** log_unaccessed sends the same lines, one message each, all of the level given *)
Theorem C172_log t level depth : exists es ls, selects (fun e => contains_unread (snd e)) (outline depth t) es /\ Forall2 (fun e l => unread_line (fst (fst e)) (snd (fst e)) (snd e) l) es ls /\ log_unaccessed t level depth = map (pair level) ls.
Proof.
  exists (filter wanted (outline depth t)), (map unread_text (filter wanted (outline depth t))). split; [apply wanted_selects|]. split; [|rewrite log_unaccessed_lines, map_map; reflexivity].
  induction (filter wanted (outline depth t)) as [|e l IH]; [constructor|]. cbn [map]. constructor; [apply unread_text_ok|exact IH].
Qed.
Theorem C172_agree t level : lines_text (map snd (log_unaccessed t level 0)) = to_str_unaccessed t.
Proof. unfold to_str_unaccessed. rewrite str_unaccessed_lines, log_unaccessed_lines, map_map. reflexivity. Qed.
Example C172_log_case : log_unaccessed sample 4 1 = [(4%Z, lit "  name = xo *"); (4%Z, lit "  window"); (4%Z, lit "    width = 640 *")].
Proof. vm_compute. reflexivity. Qed.
(** nothing is reported exactly when every value below the root was asked for *)
Theorem C172_empty t : to_str_unaccessed t = [] <-> Forall (fun e => ~ unread (snd e)) (outline 0 t).
Proof.
  destruct (C172_text t) as (es & ls & Sel & Ln & E). rewrite E. split.
  - intros H. assert (ls = []) by (destruct ls as [|[|x l] ls]; [reflexivity|discriminate H|discriminate H]). subst ls. inversion Ln; subst. clear - Sel. remember (@nil (nat * str * pn)) as es. induction Sel as [|x l s Px _ _|x l s Px Sl IH]; [constructor|discriminate Heqes|]. constructor; [|apply IH, Heqes]. intros U. apply Px. left. exact U.
  - intros F. assert (X : es = []); [|subst es; inversion Ln; reflexivity]. destruct es as [|e es]; [reflexivity|exfalso].
    assert (I : In e (outline 0 t) /\ contains_unread (snd e)). { clear - Sel. remember (e :: es) as r. induction Sel as [|x l s Px _ _|x l s Px Sl IH]; [discriminate Heqr| |]. { injection Heqr as -> ->. split; [left; reflexivity|exact Px]. } destruct (IH Heqr). split; [right; assumption|assumption]. }
    destruct I as [I C]. apply contains_eq in C. rewrite Forall_forall in F. destruct C as [C|(c & J & U)]; [exact (F e I C)|].
    assert (B : forall d u e, In e (outline d u) -> incl (map snd (outline 0 (snd e))) (map snd (outline d u))).
    { clear. intros d u. revert d. induction u as [v cs a IH] using pn_ind'. intros d e. rewrite outline_eq. induction cs as [|kc cs IHc]; [intros []|]. inversion IH as [|? ? H1 H2]; subst. cbn [flat_map List.app map]. rewrite map_app. intros [<-|I].
      - cbn [snd]. rewrite (outline_depth _ 0 (S d)). intros c Ic. right. apply in_or_app. left. exact Ic.
      - apply in_app_or in I. destruct I as [I|I]; intros c Ic; right; apply in_or_app; [left; apply (H1 _ _ I), Ic|right; apply (IHc H2 I), Ic]. }
    apply (B 0 t e I) in J. apply in_map_iff in J. destruct J as (e' & <- & J). exact (F e' J U).
Qed.
Example C172_empty_case : to_str_unaccessed (PN [] [(lit "a", PN (lit "1") [] true); (lit "b", leaf "")] false) = [].
Proof. reflexivity. Qed.
(** the root's own unread value is counted by count_unaccessed but not reported *)
Theorem C172_root_refuted : exists t, unread t /\ count_unaccessed t = 1 /\ to_str_unaccessed t = [].
Proof. exists (leaf "1"). split; [split; [discriminate|reflexivity]|]. split; reflexivity. Qed.

(** * C173: log_prop_node *)
(** never throws; one message for every node, with the level its key asks for, the rest as in to_str *)
Theorem C173_messages t depth : exists column ms,
  log_prop_node t depth 0 = Ok ms /\
  Forall2 (fun e m => forall level name, asks (snd (fst e)) level name -> fst m = level /\ line_shows column (fst (fst e)) name (snd e) (snd m)) (outline depth t) ms /\
  Forall (fun e => 2 * fst (fst e) + length (snd (fst e)) <= column) (outline depth t) /\
  (outline depth t <> [] -> exists e, In e (outline depth t) /\ 2 * fst (fst e) + length (snd (fst e)) = column).
Proof.
  exists (align_width t 2 depth), (map (message_of (align_width t 2 depth)) (outline depth t)). pose proof (align_fits t depth) as Fit. split; [exact (log_lines t depth 0 Fit)|]. split.
  - set (w := align_width t 2 depth) in *. clearbody w. induction (outline depth t) as [|e l IH]; [constructor|]. inversion Fit; subst. cbn [map]. constructor; [|apply IH; assumption].
    intros level name A. pose proof (line_text_shows (fun k => snd (logged_name k)) name_shorter w e H1) as L. unfold message_of. cbn [fst snd].
    assert (X : logged_name (snd (fst e)) = (level, name)).
    { clear - A. destruct A as [d r D ->|N].
      - unfold logged_name. rewrite Ascii.eqb_refl. do 10 (destruct d as [|d]; [reflexivity|]). lia.
      - destruct (snd (fst e)) as [|x [|y r]]; try reflexivity. unfold logged_name. destruct (Ascii.eqb_spec x "@"%char) as [->|]; [exfalso; exact (N (y :: r) eq_refl)|reflexivity]. }
    cbv beta in L. rewrite X in *. cbn [fst snd] in *. split; [reflexivity|exact L].
  - split; [exact Fit|apply (align_attained t depth)].
Qed.
Example C173_messages_case : log_prop_node (PN [] [(lit "@1bad", leaf "1"); (lit "ok", PN [] [(lit "@4x", leaf "2")] false)] false) 0 0 = Ok [(1%Z, lit "bad   = 1"); (3%Z, lit "ok"); (4%Z, lit "  x   = 2")].
Proof. vm_compute. reflexivity. Qed.
Example C173_asks_case : asks (lit "@1bad") 1 (lit "bad") /\ asks (lit "ok") 3 (lit "ok").
Proof. split; [apply (asks_level _ 1); [lia|reflexivity]|apply asks_info; intros r; discriminate]. Qed.
(** any other key that begins with @ loses two characters, and its message has a level there is not *)
Theorem C173_other_keys_refuted : exists t level, log_prop_node t 0 0 = Ok [(level, lit "ome   = 1")] /\ pn_children t = [(lit "@home", leaf "1")] /\ (level > 7)%Z.
Proof. exists (PN [] [(lit "@home", leaf "1")] false), 56%Z. split; [vm_compute; reflexivity|]. split; [reflexivity|lia]. Qed.

(** * C174: make_str_from_prop_node *)
(** the text of a tree of words, put behind a key, is ZML for that tree *)
Theorem C174_zml include k t : word k -> word_tree t -> exists u, parse_zml include (k ++ lit " = " ++ make_str t) = Ok (PN [] [(k, u)] false) /\ same_tree u t.
Proof. intros K W. exists (fresh t). split; [apply make_str_read; assumption|apply fresh_same]. Qed.
Definition words : pn := PN (lit "base") [(lit "a", leaf "1.5"); (lit "list", PN [] [([], leaf "x"); ([], PN [] [([], leaf "y"); ([], leaf "-3")] false)] false); (lit "sub", PN [] [(lit "c", leaf "z_1")] false)] true.
Example C174_zml_case : word (lit "top") /\ word_tree words /\ make_str words = lit "base { a = 1.5 list = [ x [ y -3 ] ] sub = { c = z_1 } }".
Proof.
  assert (W : forall s, s <> [] -> forallb word_char s = true -> word s) by (intros s A B; split; assumption).
  split; [apply W; [discriminate|reflexivity]|]. split; [|reflexivity]. unfold words, leaf.
  apply wt_keys; [right; apply W; [discriminate|reflexivity]|discriminate|].
  apply Forall_cons; [cbn [fst snd]; split; [apply W; [discriminate|reflexivity]|apply wt_leaf, W; [discriminate|reflexivity]]|].
  apply Forall_cons; [cbn [fst snd]; split; [apply W; [discriminate|reflexivity]|]|].
  - apply wt_array; [left; reflexivity|discriminate|]. apply Forall_cons; [cbn [fst snd]; split; [reflexivity|split; [apply wt_leaf, W; [discriminate|reflexivity]|intros H; exfalso; apply H; reflexivity]]|].
    apply Forall_cons; [cbn [fst snd]; split; [reflexivity|split; [|reflexivity]]|constructor].
    apply wt_array; [left; reflexivity|discriminate|]. apply Forall_cons; [cbn [fst snd]; split; [reflexivity|split; [apply wt_leaf, W; [discriminate|reflexivity]|intros H; exfalso; apply H; reflexivity]]|].
    apply Forall_cons; [cbn [fst snd]; split; [reflexivity|split; [apply wt_leaf, W; [discriminate|reflexivity]|intros H; exfalso; apply H; reflexivity]]|constructor].
  - apply Forall_cons; [cbn [fst snd]; split; [apply W; [discriminate|reflexivity]|]|constructor]. apply wt_keys; [left; reflexivity|discriminate|].
    apply Forall_cons; [cbn [fst snd]; split; [apply W; [discriminate|reflexivity]|apply wt_leaf, W; [discriminate|reflexivity]]|constructor].
Qed.
(** values are not put in quotes: one with a space becomes a value and a further key *)
Theorem C174_spaces_refuted : exists t u, (forall include, parse_zml include (lit "k = " ++ make_str t) = Ok u) /\ pn_children t = [(lit "a", leaf "x b = 2")] /\ pn_children u = [(lit "k", PN [] [(lit "a", leaf "x"); (lit "b", leaf "2")] false)].
Proof. exists (PN [] [(lit "a", leaf "x b = 2")] false). eexists. split; [intros include; vm_compute; reflexivity|]. split; reflexivity. Qed.
(** so that different trees have the same text *)
Theorem C174_unique_refuted : exists t u, ~ same_tree t u /\ make_str t = make_str u.
Proof.
  exists (PN [] [(lit "a", leaf "x b = 2")] false), (PN [] [(lit "a", leaf "x"); (lit "b", leaf "2")] false). split; [|vm_compute; reflexivity]. intros H. inversion H as [? ? ? ? ? F]; subst. inversion F as [|? ? ? ? _ F']; subst. inversion F'.
Qed.
(** an empty value loses its node *)
Theorem C174_empty_refuted : exists t, pn_children t = [([], leaf ""); ([], leaf "1")] /\ forall include, exists u, parse_zml include (lit "k = " ++ make_str t) = Ok (PN [] [(lit "k", u)] false) /\ pn_size u = 1.
Proof. exists (PN [] [([], leaf ""); ([], leaf "1")] false). split; [reflexivity|]. intros include. eexists. split; [vm_compute; reflexivity|reflexivity]. Qed.

Print Assumptions C171_text.
Print Assumptions C171_given_column.
Print Assumptions C171_any_column_refuted.
Print Assumptions C171_identifies.
Print Assumptions C171_root_value_refuted.
Print Assumptions C171_lines_refuted.
Print Assumptions C171_marks.
Print Assumptions C172_text.
Print Assumptions C172_log.
Print Assumptions C172_agree.
Print Assumptions C172_empty.
Print Assumptions C172_root_refuted.
Print Assumptions C173_messages.
Print Assumptions C173_other_keys_refuted.
Print Assumptions C174_zml.
Print Assumptions C174_spaces_refuted.
Print Assumptions C174_unique_refuted.
Print Assumptions C174_empty_refuted.
