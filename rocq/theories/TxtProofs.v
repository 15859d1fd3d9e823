(** Proofs about the texts of property trees. *)
From Coq Require Import Ascii String List Arith Bool ZArith Lia.
From Verif Require Import Base BaseProofs Str PnSpec PnModel PnProofs TxtSpec TxtModel.
Import ListNotations.

Lemma outline_eq d v cs a : outline d (PN v cs a) = flat_map (fun kc => (d, fst kc, snd kc) :: outline (S d) (snd kc)) cs.
Proof. reflexivity. Qed.
Definition extent (e : nat * str * pn) : nat := 2 * fst (fst e) + length (snd (fst e)).

(** * widths *)
Lemma fold_max (f g : str * pn -> nat) cs : forall w, fold_left (fun w kc => Nat.max (Nat.max w (f kc)) (g kc)) cs w = Nat.max w (list_max (flat_map (fun kc => [f kc; g kc]) cs)).
Proof.
  induction cs as [|kc cs IH]; intros w; cbn [fold_left flat_map List.app]; [symmetry; apply Nat.max_0_r|]. rewrite IH. change (list_max (f kc :: g kc :: ?l)) with (Nat.max (f kc) (Nat.max (g kc) (list_max l))). lia.
Qed.
Lemma align_eq t : forall d, align_width t 2 d = list_max (map extent (outline d t)).
Proof.
  induction t as [v cs a IH] using pn_ind'. intros d. cbn [align_width]. rewrite (fold_max (fun kc => d * 2 + length (fst kc)) (fun kc => align_width (snd kc) 2 (S d))), Nat.max_0_l, outline_eq.
  induction cs as [|kc cs IHc]; [reflexivity|]. inversion IH as [|? ? H1 H2]; subst. cbn [flat_map]. change ([?x; ?y] ++ ?l) with (x :: y :: l). change (list_max (?x :: ?y :: ?l)) with (Nat.max x (Nat.max y (list_max l))). rewrite (IHc H2), (H1 (S d)).
  cbn [List.app map]. rewrite map_app. change (list_max (?x :: ?l)) with (Nat.max x (list_max l)). rewrite list_max_app. unfold extent at 3. cbn [fst snd]. lia.
Qed.
Lemma align_fits t d : Forall (fun e => extent e <= align_width t 2 d) (outline d t).
Proof. rewrite align_eq. apply (proj1 (Forall_map extent (fun n => n <= list_max (map extent (outline d t))) (outline d t))). apply list_max_le. lia. Qed.
Lemma align_attained t d : outline d t <> [] -> exists e, In e (outline d t) /\ extent e = align_width t 2 d.
Proof.
  rewrite align_eq. generalize (outline d t). intros l. induction l as [|e l IH]; [congruence|]. intros _. cbn [map]. change (list_max (?x :: ?r)) with (Nat.max x (list_max r)).
  destruct (le_lt_dec (list_max (map extent l)) (extent e)) as [L|L]; [exists e; split; [left; reflexivity|lia]|]. destruct l as [|e' l]; [cbn in L; lia|]. destruct (IH ltac:(discriminate)) as (e2 & I & E). exists e2. split; [right; exact I|lia].
Qed.

(** * lines *)
Definition shown (t : pn) : bool := has_value t || (pn_size t =? 0).
Lemma shown_spec t : shown t = true <-> shows_value t.
Proof.
  unfold shown, shows_value, has_value, pn_size. destruct t as [v cs a]. cbn [pn_value pn_children]. rewrite orb_true_iff, Nat.eqb_eq. split.
  - intros [H|H]; [left; destruct v; [discriminate H|discriminate]|right; destruct cs; [reflexivity|discriminate H]].
  - intros [H|H]; [left; destruct v; [congruence|reflexivity]|right; rewrite H; reflexivity].
Qed.
Lemma lines_app a b : lines_text (a ++ b) = lines_text a ++ lines_text b.
Proof. unfold lines_text. rewrite map_app, concat_app. reflexivity. Qed.
Lemma spaces_run n : spaces n = blank_run n.
Proof. reflexivity. Qed.
Lemma spaces_length n : length (spaces n) = n.
Proof. apply repeat_length. Qed.

Section Lines.
  (** the shown name of a key *)
  Context (name : str -> str) (shorter : forall k, length (name k) <= length k).
  Definition line_text (w : nat) (e : nat * str * pn) : str :=
    let '(d, k, c) := e in let key := spaces (d * 2) ++ name k in key ++ (if shown c then spaces (w - length key) ++ lit " = " ++ pn_value c else []).
  Lemma line_text_eq w d k c : line_text w (d, k, c) = (spaces (d * 2) ++ name k) ++ (if shown c then spaces (w - length (spaces (d * 2) ++ name k)) ++ lit " = " ++ pn_value c else []).
  Proof. reflexivity. Qed.
  Lemma line_text_shows w e : extent e <= w -> line_shows w (fst (fst e)) (name (snd (fst e))) (snd e) (line_text w e).
  Proof.
    destruct e as [[d k] c]. unfold extent. cbn [fst snd line_text]. intros L. pose proof (shorter k) as K. split; intros H.
    - apply shown_spec in H. rewrite H. exists (w - length (spaces (d * 2) ++ name k)). rewrite app_length, spaces_length. split; [lia|]. rewrite <- app_assoc, (Nat.mul_comm d 2). reflexivity.
    - destruct (shown c) eqn:E; [apply shown_spec in E; contradiction|]. rewrite app_nil_r, (Nat.mul_comm d 2). reflexivity.
  Qed.
End Lines.

Lemma childless d t : Forall (fun e => extent e <= 0) (outline (S d) t) -> pn_children t = [].
Proof. destruct t as [v [|kc cs] a]; [reflexivity|]. rewrite outline_eq. cbn [flat_map List.app]. intros H. inversion H as [|? ? H1 _]; subst. unfold extent in H1. cbn [fst snd] in H1. lia. Qed.

Lemma stream_lines t : forall d a, let w := if a =? 0 then align_width t 2 d else a in Forall (fun e => extent e <= w) (outline d t) ->
  to_stream t d a = Ok (lines_text (map (line_text (fun k => k) w) (outline d t))).
Proof.
  induction t as [v cs f IH] using pn_ind'. intros d a w Fit. cbn [to_stream]. fold w. clearbody w. rewrite outline_eq in *.
  induction cs as [|kc cs IHc]; [reflexivity|]. inversion IH as [|? ? H1 H2]; subst. cbn [flat_map List.app] in *. inversion Fit as [|? ? F1 F2]; subst. apply Forall_app in F2. destruct F2 as [F2 F3].
  fold (shown (snd kc)). rewrite (IHc H2 F3). unfold padding. assert (L : length (spaces (d * 2) ++ fst kc) <= w) by (rewrite app_length, spaces_length; unfold extent in F1; cbn [fst snd] in F1; lia).
  assert (Below : to_stream (snd kc) (S d) w = Ok (lines_text (map (line_text (fun k => k) w) (outline (S d) (snd kc))))).
  { destruct (Nat.eqb_spec w 0) as [->|N].
    - pose proof (childless _ _ F2) as C. destruct (snd kc) as [v' cs' a']. cbn [pn_children] in C. subst cs'. reflexivity.
    - specialize (H1 (S d) w). cbv zeta in H1. destruct (Nat.eqb_spec w 0) as [E|_]; [contradiction|]. apply H1, F2. }
  rewrite Below. apply Nat.leb_le in L. rewrite L. cbn [map]. change (lines_text (?x :: ?l)) with ((x ++ [lf]) ++ lines_text l). rewrite map_app, lines_app, line_text_eq.
  destruct (shown (snd kc)); cbn [obind]; rewrite <- ?app_assoc; reflexivity.
Qed.

(** * the log *)
Lemma name_shorter k : length (snd (logged_name k)) <= length k.
Proof. destruct k as [|x [|y r]]; try (cbn; lia). unfold logged_name. destruct (Ascii.eqb x "@"%char); cbn [snd length]; lia. Qed.
Definition message_of (w : nat) (e : nat * str * pn) : message := (fst (logged_name (snd (fst e))), line_text (fun k => snd (logged_name k)) w e).
Lemma message_eq w d k c : message_of w (d, k, c) = (fst (logged_name k), (spaces (d * 2) ++ snd (logged_name k)) ++ (if shown c then spaces (w - length (spaces (d * 2) ++ snd (logged_name k))) ++ lit " = " ++ pn_value c else [])).
Proof. reflexivity. Qed.
Lemma log_lines t : forall d a, let w := if a =? 0 then align_width t 2 d else a in Forall (fun e => extent e <= w) (outline d t) ->
  log_prop_node t d a = Ok (map (message_of w) (outline d t)).
Proof.
  induction t as [v cs f IH] using pn_ind'. intros d a w Fit. cbn [log_prop_node]. fold w. clearbody w. rewrite outline_eq in *.
  induction cs as [|kc cs IHc]; [reflexivity|]. inversion IH as [|? ? H1 H2]; subst. cbn [flat_map List.app] in *. inversion Fit as [|? ? F1 F2]; subst. apply Forall_app in F2. destruct F2 as [F2 F3].
  fold (shown (snd kc)). rewrite (IHc H2 F3). unfold padding. assert (L : length (spaces (d * 2) ++ snd (logged_name (fst kc))) <= w) by (rewrite app_length, spaces_length; pose proof (name_shorter (fst kc)); unfold extent in F1; cbn [fst snd] in F1; lia).
  assert (Below : log_prop_node (snd kc) (S d) w = Ok (map (message_of w) (outline (S d) (snd kc)))).
  { destruct (Nat.eqb_spec w 0) as [->|N].
    - pose proof (childless _ _ F2) as C. destruct (snd kc) as [v' cs' a']. cbn [pn_children] in C. subst cs'. reflexivity.
    - specialize (H1 (S d) w). cbv zeta in H1. destruct (Nat.eqb_spec w 0) as [E|_]; [contradiction|]. apply H1, F2. }
  rewrite Below. apply Nat.leb_le in L. rewrite L. cbn [map]. rewrite map_app. rewrite (message_eq w d (fst kc) (snd kc)).
  destruct (shown (snd kc)); cbn [obind]; rewrite ?app_nil_r; reflexivity.
Qed.

(** * values never asked for *)
Lemma fold_count cs : forall n, fold_left (fun n (kc : str * pn) => n + count_unaccessed (snd kc)) cs n = n + list_sum (map (fun kc => count_unaccessed (snd kc)) cs).
Proof. induction cs as [|kc cs IH]; intros n; cbn [fold_left map list_sum fold_right]; [lia|]. rewrite IH. unfold list_sum. cbn [fold_right]. lia. Qed.
Lemma accessed_spec t : is_accessed t = false <-> unread t.
Proof. unfold is_accessed, unread, has_value. destruct t as [v cs a]. cbn [pn_flag pn_value]. destruct a, v; cbn; split; try discriminate; intros H; try (destruct H; congruence); split; congruence || reflexivity. Qed.
Lemma accessed_true t : is_accessed t = true <-> ~ unread t.
Proof. rewrite <- accessed_spec. destruct (is_accessed t); split; try congruence; intros H; exfalso; apply H; reflexivity. Qed.
Lemma unread_dec t : unread t \/ ~ unread t.
Proof. destruct (is_accessed t) eqn:E; [right; apply accessed_true, E|left; apply accessed_spec, E]. Qed.
Lemma outline_depth t : forall d d', map snd (outline d t) = map snd (outline d' t).
Proof.
  induction t as [v cs a IH] using pn_ind'. intros d d'. rewrite !outline_eq. induction cs as [|kc cs IHc]; [reflexivity|]. inversion IH as [|? ? H1 H2]; subst. cbn [flat_map List.app map snd]. rewrite !map_app, (IHc H2), (H1 (S d) (S d')). reflexivity.
Qed.
Lemma contains_eq t : contains_unread t <-> unread t \/ exists c, In c (map snd (outline 0 t)) /\ unread c.
Proof. unfold contains_unread. split; intros [H|(e & I & U)]; auto; right; [exists (snd e); split; [apply in_map, I|exact U]|apply in_map_iff in I; destruct I as (e' & <- & I); exists e'; auto]. Qed.
Lemma count_contains t : 0 < count_unaccessed t <-> contains_unread t.
Proof.
  induction t as [v cs a IH] using pn_ind'. cbn [count_unaccessed]. rewrite fold_count, contains_eq, outline_eq. destruct (is_accessed (PN v cs a)) eqn:E.
  - apply accessed_true in E. assert (X : 0 < list_sum (map (fun kc => count_unaccessed (snd kc)) cs) <-> exists c, In c (map snd (flat_map (fun kc => (0, fst kc, snd kc) :: outline 1 (snd kc)) cs)) /\ unread c); [|rewrite Nat.add_0_l, X; tauto]. clear E.
    induction cs as [|kc cs IHc]; [cbn; split; [lia|intros (c & [] & _)]|]. inversion IH as [|? ? H1 H2]; subst. specialize (IHc H2). cbn [map list_sum fold_right flat_map List.app snd]. unfold list_sum in *. cbn [fold_right]. rewrite map_app, (outline_depth _ 1 0). rewrite contains_eq in H1. split.
    + intros H. assert (D : 0 < count_unaccessed (snd kc) \/ 0 < fold_right Nat.add 0 (map (fun kc => count_unaccessed (snd kc)) cs)) by lia. destruct D as [D|D].
      * apply H1 in D. destruct D as [D|(c & I & U)]; [exists (snd kc); split; [left; reflexivity|exact D]|exists c; split; [right; apply in_or_app; left; exact I|exact U]].
      * apply IHc in D. destruct D as (c & I & U). exists c. split; [right; apply in_or_app; right; exact I|exact U].
    + intros (c & [<-|I] & U); [assert (0 < count_unaccessed (snd kc)) by (apply H1; left; exact U); lia|]. apply in_app_or in I. destruct I as [I|I].
      * assert (0 < count_unaccessed (snd kc)) by (apply H1; right; exists c; auto). lia.
      * assert (0 < fold_right Nat.add 0 (map (fun kc => count_unaccessed (snd kc)) cs)) by (apply IHc; exists c; auto). lia.
  - apply accessed_spec in E. split; [intros _; left; exact E|intros _; lia].
Qed.
Definition wanted (e : nat * str * pn) : bool := 0 <? count_unaccessed (snd e).
Definition unread_text (e : nat * str * pn) : str := unaccessed_text (fst (fst e)) (snd (fst e), snd e).
Lemma log_unaccessed_lines t level : forall d, log_unaccessed t level d = map (fun e => (level, unread_text e)) (filter wanted (outline d t)).
Proof.
  induction t as [v cs a IH] using pn_ind'. intros d. cbn [log_unaccessed]. rewrite outline_eq. induction cs as [|kc cs IHc]; [reflexivity|]. inversion IH as [|? ? H1 H2]; subst. cbn [flat_map List.app filter]. rewrite (IHc H2), (H1 (S d)), filter_app. unfold wanted at 3. cbn [snd].
  destruct (0 <? count_unaccessed (snd kc)); cbn [List.app map]; rewrite map_app; [|reflexivity]. unfold unread_text at 3. cbn [fst snd]. destruct kc as [k c]. reflexivity.
Qed.
Lemma str_unaccessed_lines t : forall d s, to_str_unaccessed_from t s d = s ++ lines_text (map unread_text (filter wanted (outline d t))).
Proof.
  induction t as [v cs a IH] using pn_ind'. intros d. cbn [to_str_unaccessed_from]. rewrite outline_eq. induction cs as [|kc cs IHc]; intros s; [cbn; rewrite app_nil_r; reflexivity|]. inversion IH as [|? ? H1 H2]; subst. cbn [fold_left flat_map List.app filter]. rewrite (H1 (S d)), (IHc H2), filter_app. unfold wanted at 3. cbn [snd].
  destruct (0 <? count_unaccessed (snd kc)); cbn [map]; rewrite map_app, ?lines_app; [|rewrite <- app_assoc; reflexivity]. change (lines_text (?x :: ?l)) with ((x ++ [lf]) ++ lines_text l). rewrite lines_app. unfold unread_text at 3. cbn [fst snd]. destruct kc as [k c]. cbn [fst snd]. rewrite <- !app_assoc. reflexivity.
Qed.
Lemma unread_text_ok e : unread_line (fst (fst e)) (snd (fst e)) (snd e) (unread_text e).
Proof.
  destruct e as [[d k] c]. unfold unread_text, unaccessed_text. cbn [fst snd]. split; intros U.
  - pose proof U as U'. apply accessed_spec in U'. rewrite U'. unfold has_value. destruct U as [V _]. destruct (pn_value c); [congruence|]. rewrite (Nat.mul_comm d 2), <- !app_assoc. reflexivity.
  - apply accessed_true in U. rewrite U, app_nil_r, (Nat.mul_comm d 2). reflexivity.
Qed.
Lemma wanted_selects l : selects (fun e : nat * str * pn => contains_unread (snd e)) l (filter wanted l).
Proof.
  induction l as [|e l IH]; [constructor|]. cbn [filter]. destruct (wanted e) eqn:E; unfold wanted in E; [apply Nat.ltb_lt in E; apply sel_take; [apply count_contains, E|exact IH]|]. apply sel_skip; [|exact IH]. intros C. apply count_contains in C. apply Nat.ltb_lt in C. congruence.
Qed.

(** * marks *)
Lemma after_eq v cs a : after_to_stream (PN v cs a) = PN v (map (fun kc => (fst kc, let c := after_to_stream (snd kc) in if shown (snd kc) then access c else c)) cs) a.
Proof. reflexivity. Qed.
Lemma after_value t : pn_value (after_to_stream t) = pn_value t.
Proof. destruct t. reflexivity. Qed.
Lemma after_same t : same_tree (after_to_stream t) t.
Proof.
  induction t as [v cs a IH] using pn_ind'. rewrite after_eq. constructor. induction cs as [|kc cs IHc]; [constructor|]. inversion IH as [|? ? H1 H2]; subst. cbn [map]. constructor; [|apply IHc, H2]. cbn [fst snd]. split; [reflexivity|]. cbv zeta.
  destruct (shown (snd kc)); [|exact H1]. inversion H1; subst. constructor. assumption.
Qed.
Lemma after_read t : forall d, Forall (fun e => ~ unread (snd e)) (outline d (after_to_stream t)).
Proof.
  induction t as [v cs a IH] using pn_ind'. intros d. rewrite after_eq, outline_eq. induction cs as [|kc cs IHc]; [constructor|]. inversion IH as [|? ? H1 H2]; subst. cbn [map flat_map List.app fst snd]. cbv zeta. constructor.
  - cbn [snd]. destruct (shown (snd kc)) eqn:E; [unfold unread, access; cbn [pn_flag]; intros [_ X]; discriminate X|]. unfold unread. rewrite after_value. intros [V _]. assert (shows_value (snd kc)) by (left; exact V). apply shown_spec in H. congruence.
  - apply Forall_app. split; [|apply IHc, H2]. destruct (shown (snd kc)); [|apply H1]. specialize (H1 (S d)). destruct (after_to_stream (snd kc)) as [v' cs' a']. exact H1.
Qed.

(** * the text tells the tree *)
Lemma lines_inj ls : forall ls', Forall (fun l => ~ In lf l) ls -> Forall (fun l => ~ In lf l) ls' -> lines_text ls = lines_text ls' -> ls = ls'.
Proof.
  assert (One : forall (a b : str) x y, ~ In lf a -> ~ In lf b -> a ++ lf :: x = b ++ lf :: y -> a = b /\ x = y).
  { induction a as [|c a IH]; intros [|c' b] x y A B E; cbn [List.app] in E.
    - injection E as E. auto.
    - injection E as E1 E2. exfalso. apply B. left. auto.
    - injection E as E1 E2. exfalso. apply A. left. auto.
    - injection E as -> E. destruct (IH b x y) as [-> ->]; [intros H; apply A; right; exact H|intros H; apply B; right; exact H|exact E|]. auto. }
  induction ls as [|l ls IH]; intros [|l' ls'] F F' E; [reflexivity| | |].
  - exfalso. unfold lines_text in E. cbn [map concat] in E. destruct l'; discriminate E.
  - exfalso. unfold lines_text in E. cbn [map concat] in E. destruct l; discriminate E.
  - inversion F; subst. inversion F'; subst. change (lines_text (?a :: ?b)) with ((a ++ [lf]) ++ lines_text b) in E. rewrite <- !app_assoc in E. cbn [List.app] in E. apply One in E; [|assumption|assumption]. destruct E as [-> E]. f_equal. apply IH; assumption.
Qed.
Lemma run_inj n : forall m (s t : str), (forall x r, s = x :: r -> x <> " "%char) -> (forall x r, t = x :: r -> x <> " "%char) -> s <> [] -> t <> [] -> spaces n ++ s = spaces m ++ t -> n = m /\ s = t.
Proof.
  induction n as [|n IH]; intros [|m] s t S T NS NT E; cbn [spaces repeat List.app] in E.
  - auto.
  - subst s. exfalso. apply (S _ _ eq_refl). reflexivity.
  - subst t. exfalso. apply (T _ _ eq_refl). reflexivity.
  - injection E as E. destruct (IH m s t S T NS NT E) as [-> ->]. auto.
Qed.
Lemma split_at_first (c : ascii) (a : str) : forall b x y, ~ In c a -> ~ In c b -> a ++ c :: x = b ++ c :: y -> a = b /\ x = y.
Proof.
  induction a as [|z a IH]; intros [|z' b] x y A B E; cbn [List.app] in E.
  - injection E as E. auto.
  - injection E as E1 E2. exfalso. apply B. left. auto.
  - injection E as E1 E2. exfalso. apply A. left. auto.
  - injection E as -> E. destruct (IH b x y) as [-> ->]; [intros H; apply A; right; exact H|intros H; apply B; right; exact H|exact E|]. auto.
Qed.
Lemma spaces_rev n : rev (spaces n) = spaces n.
Proof. induction n as [|n IH]; [reflexivity|]. cbn [spaces repeat rev]. fold (spaces n). rewrite IH. clear IH. induction n as [|n IH]; [reflexivity|]. cbn [spaces repeat List.app] in *. fold (spaces n) in *. rewrite IH. reflexivity. Qed.
Lemma not_in_spaces c n : c <> " "%char -> ~ In c (spaces n).
Proof. intros N I. apply repeat_spec in I. congruence. Qed.
Lemma last_rev (s : str) d : last s d = match rev s with [] => d | x :: _ => x end.
Proof.
  destruct s as [|x s] using rev_ind; [reflexivity|]. rewrite rev_app_distr. cbn [rev List.app]. rewrite last_last. reflexivity.
Qed.
Definition value_shown (c : pn) : option str := if shown c then Some (pn_value c) else None.
Lemma line_inj w w' d d' k k' c c' : plain_name k -> plain_name k' -> line_text (fun k => k) w (d, k, c) = line_text (fun k => k) w' (d', k', c') -> d = d' /\ k = k' /\ value_shown c = value_shown c'.
Proof.
  intros (E1 & _ & (x & r & K & X) & L) (E1' & _ & (x' & r' & K' & X') & L'). rewrite !line_text_eq, <- !app_assoc. unfold value_shown.
  set (T := if shown c then _ ++ _ else @nil ascii). set (T' := if shown c' then _ ++ _ else @nil ascii). intros E.
  assert (H : d * 2 = d' * 2 /\ k ++ T = k' ++ T').
  { apply run_inj; [| | | |exact E].
    - rewrite K. cbn [List.app]. intros z s Z. injection Z as -> _. exact X.
    - rewrite K'. cbn [List.app]. intros z s Z. injection Z as -> _. exact X'.
    - rewrite K. discriminate.
    - rewrite K'. discriminate. }
  destruct H as [D E2]. split; [lia|]. clear E. unfold T, T' in *. clear T T'.
  assert (Eq : forall n (v : str), spaces n ++ lit " = " ++ v = spaces (S n) ++ "="%char :: " "%char :: v).
  { intros n v. change (lit " = " ++ v) with (" "%char :: "="%char :: " "%char :: v). induction n as [|n IH]; [reflexivity|]. cbn [spaces repeat List.app] in *. fold (spaces n) in *. rewrite IH. reflexivity. }
  destruct (shown c), (shown c').
  - rewrite !Eq in E2. rewrite !app_assoc in E2. apply split_at_first in E2.
    + destruct E2 as [E2 E3]. injection E3 as E3. assert (R : rev (k ++ spaces (S (w - length (spaces (d * 2) ++ k)))) = rev (k' ++ spaces (S (w' - length (spaces (d' * 2) ++ k'))))) by (rewrite E2; reflexivity).
      rewrite !rev_app_distr, !spaces_rev in R. rewrite last_rev in L, L'. apply run_inj in R.
      * destruct R as [_ R]. split; [rewrite <- (rev_involutive k), R, rev_involutive; reflexivity|rewrite E3; reflexivity].
      * intros z s Z. rewrite Z in L. exact L.
      * intros z s Z. rewrite Z in L'. exact L'.
      * intros Z. apply (f_equal (@rev _)) in Z. rewrite rev_involutive in Z. subst k. discriminate Z.
      * intros Z. apply (f_equal (@rev _)) in Z. rewrite rev_involutive in Z. subst k'. discriminate Z.
    + intros I. apply in_app_or in I. destruct I as [I|I]; [exact (E1 I)|]. revert I. apply not_in_spaces. discriminate.
    + intros I. apply in_app_or in I. destruct I as [I|I]; [exact (E1' I)|]. revert I. apply not_in_spaces. discriminate.
  - exfalso. rewrite app_nil_r, Eq in E2. apply E1'. rewrite <- E2. apply in_or_app. right. apply in_or_app. right. left. reflexivity.
  - exfalso. rewrite app_nil_r, Eq in E2. apply E1. rewrite E2. apply in_or_app. right. apply in_or_app. right. left. reflexivity.
  - rewrite !app_nil_r in E2. auto.
Qed.

Definition entry (e : nat * str * pn) : nat * str * option str := (fst e, value_shown (snd e)).
Definition entries (d : nat) (cs : list (str * pn)) : list (nat * str * option str) := map entry (flat_map (fun kc => (d, fst kc, snd kc) :: outline (S d) (snd kc)) cs).
Lemma entries_cons d kc cs : entries d (kc :: cs) = (d, fst kc, value_shown (snd kc)) :: entries (S d) (pn_children (snd kc)) ++ entries d cs.
Proof. unfold entries. cbn [flat_map List.app map]. rewrite map_app. destruct (snd kc) as [v cs' a]. reflexivity. Qed.
Definition above (d : nat) (r : list (nat * str * option str)) : Prop := match r with [] => True | e :: _ => fst (fst e) < d end.
Lemma value_eq c c' : value_shown c = value_shown c' -> pn_value c = pn_value c'.
Proof.
  unfold value_shown. destruct (shown c) eqn:E, (shown c') eqn:E'; intros H; try discriminate H; [injection H as H; exact H|].
  unfold shown, has_value in E, E'. destruct (pn_value c); [|discriminate E]. destruct (pn_value c'); [reflexivity|discriminate E'].
Qed.
Lemma entries_inj t : forall d u r r', above d r -> above d r' -> entries d (pn_children t) ++ r = entries d (pn_children u) ++ r' ->
  Forall2 (fun x y => fst x = fst y /\ same_tree (snd x) (snd y)) (pn_children t) (pn_children u) /\ r = r'.
Proof.
  induction t as [v cs a IH] using pn_ind'. intros d [v' cs' a'] r r'. cbn [pn_children]. revert cs' r r'. induction cs as [|kc cs IHc]; intros cs' r r' A A' E.
  - destruct cs' as [|kc' cs']; [split; [constructor|exact E]|]. rewrite entries_cons in E. cbn [entries flat_map map List.app] in E. subst r. cbn [above fst] in A. lia.
  - inversion IH as [|? ? H1 H2]; subst. specialize (IHc H2). rewrite entries_cons in E. destruct cs' as [|kc' cs'].
    + cbn [entries flat_map map List.app] in E. subst r'. cbn [above fst] in A'. lia.
    + rewrite entries_cons in E. cbn [List.app] in E. injection E as K O E. rewrite <- !app_assoc in E.
      assert (Ab : forall l s, above d s -> above (S d) (entries d l ++ s)) by (intros [|x l] s S; [destruct s; [exact I|cbn [entries flat_map map List.app above] in *; lia]|rewrite entries_cons; cbn [List.app above fst]; lia]).
      destruct (H1 (S d) (snd kc') _ _ (Ab cs r A) (Ab cs' r' A') E) as [C E2]. destruct (IHc cs' r r' A A' E2) as [F ->]. split; [|reflexivity]. constructor; [|exact F]. split; [exact K|].
      apply value_eq in O. destruct (snd kc) as [v1 c1 a1], (snd kc') as [v2 c2 a2]. cbn [pn_value] in O. subst v2. constructor. exact C.
Qed.
Lemma plain_outline t : plain_tree t -> forall d, Forall (fun e => plain_name (snd (fst e)) /\ one_line (pn_value (snd e))) (outline d t).
Proof.
  induction t as [v cs a IH] using pn_ind'. intros P d. rewrite outline_eq. cbn [plain_tree] in P. induction cs as [|kc cs IHc]; [constructor|]. inversion IH as [|? ? H1 H2]; subst. cbn [fold_right] in P. destruct P as (P1 & P2 & P3 & P4). cbn [flat_map List.app]. constructor; [split; assumption|].
  apply Forall_app. split; [apply H1, P3|apply IHc; assumption].
Qed.
Lemma line_no_end w e : plain_name (snd (fst e)) -> one_line (pn_value (snd e)) -> ~ In lf (line_text (fun k => k) w e).
Proof.
  destruct e as [[d k] c]. cbn [fst snd]. intros (_ & N & _) V. rewrite line_text_eq. intros I. apply in_app_or in I. destruct I as [I|I]; [apply in_app_or in I; destruct I as [I|I]; [revert I; apply not_in_spaces; discriminate|exact (N I)]|].
  destruct (shown c); [|exact I]. apply in_app_or in I. destruct I as [I|I]; [revert I; apply not_in_spaces; discriminate|]. apply in_app_or in I. destruct I as [I|I]; [|exact (V I)]. cbn in I. decompose [or] I; discriminate || contradiction.
Qed.
Lemma text_inj t u : plain_tree t -> plain_tree u -> to_str t = to_str u -> Forall2 (fun x y => fst x = fst y /\ same_tree (snd x) (snd y)) (pn_children t) (pn_children u).
Proof.
  intros P Q E. unfold to_str in E. rewrite (stream_lines t 0 0), (stream_lines u 0 0) in E by apply align_fits. cbn [Nat.eqb] in E. injection E as E. set (w := align_width t 2 0) in *. set (w' := align_width u 2 0) in *. clearbody w w'.
  apply lines_inj in E.
  - assert (M : map entry (outline 0 t) = map entry (outline 0 u)).
    { pose proof (plain_outline t P 0) as F. pose proof (plain_outline u Q 0) as G. revert E F G. generalize (outline 0 t) (outline 0 u). clear. induction l as [|e l IH]; intros [|e' l'] E F G; try discriminate E; [reflexivity|]. cbn [map] in *. injection E as E1 E2. inversion F as [|? ? [F1 _] F2]; subst. inversion G as [|? ? [G1 _] G2]; subst.
      rewrite (IH l' E2 F2 G2). f_equal. destruct e as [[d k] c], e' as [[d' k'] c']. cbn [fst snd] in *. destruct (line_inj w w' d d' k k' c c' F1 G1 E1) as (-> & -> & V). unfold entry. cbn [fst snd]. rewrite V. reflexivity. }
    destruct (entries_inj t 0 u [] [] I I) as [F _]; [|exact F]. rewrite !app_nil_r. destruct t as [v cs a], u as [v' cs' a']. exact M.
  - apply Forall_map. eapply Forall_impl; [|apply (plain_outline t P 0)]. intros e [A B]. apply line_no_end; assumption.
  - apply Forall_map. eapply Forall_impl; [|apply (plain_outline u Q 0)]. intros e [A B]. apply line_no_end; assumption.
Qed.
