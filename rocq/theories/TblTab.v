(** Proofs about tables as text. *)
From Coq Require Import Ascii String List Arith Bool NArith ZArith SpecFloat Lia.
From Verif Require Import Base BaseProofs Str StrSpec StrBase StrModel StrProofs CastSpec CastModel CastProofs FltSpec FltModel FltNum FltText FltProofs FltRead
  AssocSpec AssocModel AssocProofs GridSpec GridModel GridProofs IoModel TblSpec TblModel TblNum TblProofs.
Import ListNotations.

(** ** istream *)
Lemma whitespace_space c : in_set whitespace c = isspace c.
Proof. apply eq_true_iff_eq. rewrite <- space_isspace, in_set_In. unfold is_space_char, whitespace. cbn [In]. tauto. Qed.
Lemma skip_ws_ok ws u : Forall is_space_char ws -> (match u with c :: _ => isspace c = false | [] => True end) -> skip_ws (ws ++ u) = u.
Proof.
  intros W H. induction W as [|x ws X _ IH]; cbn [app skip_ws].
  - destruct u as [|c u]; [reflexivity|]. cbn [skip_ws]. rewrite whitespace_space, H. reflexivity.
  - rewrite whitespace_space. apply space_isspace in X. rewrite X. exact IH.
Qed.
Lemma extract_ok {T} (parse : str -> option T * nat) ws u r x : Forall is_space_char ws -> (match u with c :: _ => isspace c = false | [] => False end) ->
  parse (u ++ r) = (Some x, length u) -> r <> [] -> extract parse (IS (ws ++ u ++ r) false false) = (IS r false false, Some x).
Proof.
  intros W U P R. unfold extract. cbn [good eofbit failbit orb negb rest]. destruct u as [|c u]; [destruct U|]. rewrite skip_ws_ok by (first [exact W|exact U]). cbn [app]. cbn [app] in P. rewrite P.
  rewrite app_comm_cons. rewrite skipn_app, skipn_all2, Nat.sub_diag by lia. cbn [app skipn].
  replace (length (c :: u ++ r) <=? length (c :: u)) with false; [reflexivity|]. symmetry. apply Nat.leb_gt. cbn [length]. rewrite app_length. destruct r; [congruence|cbn; lia].
Qed.
Lemma extract_end {T} (parse : str -> option T * nat) ws : Forall is_space_char ws -> extract parse (IS ws false false) = (IS [] true true, None).
Proof. intros W. unfold extract. cbn [good eofbit failbit orb negb rest]. rewrite <- (app_nil_r ws). rewrite (skip_ws_ok ws [] W I). reflexivity. Qed.
Lemma take_word_ok w r : Forall (fun c => ~ is_space_char c) w -> space_or_end r -> take_word (w ++ r) = w.
Proof.
  intros W R. induction W as [|c w C _ IH]; cbn [app take_word].
  - destruct r as [|c r]; [reflexivity|]. cbn [take_word]. cbn in R. rewrite whitespace_space. replace (isspace c) with true by (symmetry; apply space_isspace; exact R). reflexivity.
  - rewrite whitespace_space. replace (isspace c) with false; [rewrite IH; reflexivity|]. symmetry. apply not_true_iff_false. rewrite <- space_isspace. exact C.
Qed.
Lemma first_line_ok l t : ~ In lf l -> first_line (l ++ lf :: t) = (l, Some t).
Proof. induction l as [|c l IH]; intros N; cbn [app first_line]; [reflexivity|]. cbn in N. destruct (Ascii.eqb_spec c lf) as [->|_]; [tauto|]. rewrite IH by tauto. reflexivity. Qed.

Section Table.
  Context {T : Type} (tdef zero : T) (put : T -> str) (parse : str -> option T * nat).
  Local Notation tab := (tab T str).

  Lemma lv_add_ok lb ls l : labels_are lb ls -> ~ In l ls -> exists lb', lv_add str_eqb lb l = Ok (lb', length ls) /\ labels_are lb' (ls ++ [l]).
  Proof.
    intros [H1 H2] N. unfold lv_add. destruct (lv_find str_eqb lb l) as [i|] eqn:F; [exfalso; apply N; apply H2 in F; apply nth_error_In in F; exact F|].
    eexists. split; [rewrite H1; replace (length (ls ++ [l]) - 1) with (length ls) by (rewrite app_length; cbn; lia); reflexivity|]. split; [cbn [lv_labels]; reflexivity|].
    intros l' i. rewrite lv_find_map_set by exact str_eqb_eq. destruct (str_eqb l l') eqn:E.
    - apply str_eqb_eq in E. subst l'. split.
      + intros Q. injection Q as <-. rewrite nth_error_app2 by lia. rewrite Nat.sub_diag. reflexivity.
      + intros Q. destruct (Nat.lt_ge_cases i (length ls)) as [Li|Li].
        * rewrite nth_error_app1 in Q by exact Li. exfalso. apply N, (nth_error_In _ i). exact Q.
        * rewrite nth_error_app2 in Q by exact Li. destruct (i - length ls) as [|k] eqn:K; [f_equal; lia|]. destruct k; discriminate.
    - transitivity (lv_find str_eqb lb l' = Some i); [reflexivity|]. rewrite H2. split.
      + intros Q. rewrite nth_error_app1; [exact Q|]. apply nth_error_Some. congruence.
      + intros Q. destruct (Nat.lt_ge_cases i (length ls)) as [Li|Li].
        * rewrite nth_error_app1 in Q by exact Li. exact Q.
        * rewrite nth_error_app2 in Q by exact Li. destruct (i - length ls) as [|k]; [|destruct k; discriminate]. injection Q as ->.
          replace (str_eqb l' l') with true in E; [discriminate|]. symmetry. apply str_eqb_eq. reflexivity.
  Qed.
  (** setting the label of a new last position is adding it *)
  Lemma lv_set_last lb ls l : labels_are lb ls -> ~ In l ls -> exists lb', labels_are lb' (ls ++ [l]) /\
    lv_set str_eqb {| lv_labels := vec_resize ls (length ls + 1) []; lv_index := lv_index lb |} (length ls) l = Ok (lb', length ls).
  Proof.
    intros H N. destruct (lv_add_ok lb ls l H N) as (lb' & E & L). exists lb'. split; [exact L|]. destruct H as [H1 H2]. unfold lv_add, lv_set in *. cbn [lv_labels lv_index].
    assert (R : vec_resize ls (length ls + 1) [] = ls ++ [[]]) by (unfold vec_resize; rewrite firstn_all2 by lia; replace (length ls + 1 - length ls) with 1 by lia; reflexivity). rewrite R.
    replace (length ls <? length (ls ++ [[]])) with true by (symmetry; apply Nat.ltb_lt; rewrite app_length; cbn; lia). cbn [andb].
    replace (lv_find str_eqb {| lv_labels := ls ++ [[]]; lv_index := lv_index lb |} l) with (lv_find str_eqb lb l) by reflexivity.
    destruct (lv_find str_eqb lb l) as [i|]; [discriminate|]. rewrite list_set_app2 by lia. rewrite Nat.sub_diag. cbn [list_set]. rewrite H1 in E. rewrite <- E. repeat f_equal; rewrite app_length; cbn; lia.
  Qed.
  Lemma add_columns_ok rl : labels_are rl [] -> forall news cl ls, labels_are cl ls -> NoDup (ls ++ news) -> exists cl', labels_are cl' (ls ++ news) /\
    add_columns tdef {| tb_rows := rl; tb_cols := cl; tb_data := [] |} news = Ok {| tb_rows := rl; tb_cols := cl'; tb_data := [] |}.
  Proof.
    intros R. induction news as [|l news IH]; intros cl ls H N; [rewrite app_nil_r; exists cl; auto|].
    cbn [add_columns]. unfold tb_add_column, tb_resize, tb_row_size, tb_col_size. cbn [tb_rows tb_cols tb_data]. destruct H as [H1 H2]. destruct R as [R1 R2]. rewrite H1, R1. cbn [length].
    replace ((0 <? 0) || (length ls + 1 <? length ls)) with false by (symmetry; apply orb_false_iff; split; [reflexivity|apply Nat.ltb_ge; lia]).
    unfold tb_move. cbn [ofor_down obind Nat.mul]. unfold lv_resize. rewrite H1, R1. replace (length ls <=? length ls + 1) with true by (symmetry; apply Nat.leb_le; lia). cbn [obind length Nat.leb].
    cbn [tb_cols tb_rows tb_data lv_labels]. rewrite vec_resize_length. replace (length ls + 1 - 1) with (length ls) by lia.
    assert (N1 : ~ In l ls) by (apply NoDup_remove_2 in N; rewrite in_app_iff in N; tauto).
    destruct (lv_set_last cl ls l (conj H1 H2) N1) as (cl1 & L1 & E). rewrite E. cbn [obind].
    replace (vec_resize [] 0 tdef) with (@nil T) by reflexivity.
    destruct (IH cl1 (ls ++ [l]) L1) as (cl' & L' & E'); [rewrite <- app_assoc; exact N|]. rewrite <- app_assoc in L'. exists cl'. split; [exact L'|].
    assert (RR : rl = {| lv_labels := []; lv_index := lv_index rl |}) by (destruct rl; cbn in *; subst; reflexivity). rewrite RR in E' at 1. exact E'.
  Qed.

  (** ** writing *)
  Definition row_text (lr : str * list T) : str := fst lr ++ flat_map (fun x => Str.tab :: put x) (snd lr) ++ [lf].
  Lemma put_cells_ok (t : tab) row : forall xs col, (forall i x, nth_error xs i = Some x -> tb_get t row (col + i) = Ok x) ->
    put_cells put t row (length xs) col = Ok (flat_map (fun x => Str.tab :: put x) xs ++ [lf]).
  Proof.
    induction xs as [|x xs IH]; intros col H; [reflexivity|]. cbn [length put_cells flat_map]. pose proof (H 0 x eq_refl) as H0. rewrite Nat.add_0_r in H0. rewrite H0. cbn [obind].
    rewrite IH; [|intros i y E; replace (S col + i) with (col + S i) by lia; apply H; exact E]. cbn [obind app]. rewrite <- app_assoc. reflexivity.
  Qed.
  Lemma put_rows_ok (t : tab) : forall rows row, (forall i lr, nth_error rows i = Some lr -> lv_get (tb_rows t) (row + i) = Ok (fst lr) /\ length (snd lr) = tb_col_size t /\
      forall c x, nth_error (snd lr) c = Some x -> tb_get t (row + i) c = Ok x) ->
    put_rows put t (length rows) row = Ok (concat (map row_text rows)).
  Proof.
    induction rows as [|lr rows IH]; intros row H; [reflexivity|]. cbn [length put_rows map concat]. destruct (H 0 lr eq_refl) as (H1 & H2 & H3). rewrite Nat.add_0_r in H1, H3. rewrite H1. cbn [obind].
    rewrite <- H2, (put_cells_ok t row (snd lr) 0 H3). cbn [obind]. rewrite IH; [|intros i x E; replace (S row + i) with (row + S i) by lia; apply H; exact E]. cbn [obind]. unfold row_text. rewrite <- !app_assoc. reflexivity.
  Qed.

  (** ** reading *)
  Context (ok : T -> Prop) (back : T -> T).
  Context (Hhead : forall x, ok x -> match put x with c :: _ => isspace c = false | [] => False end).
  Context (Hparse : forall x r, ok x -> space_or_end r -> parse (put x ++ r) = (Some (back x), length (put x))).
  Lemma read_cells_ok rl cl pre r : length pre = (length (lv_labels rl) - 1) * length (lv_labels cl) -> 0 < length (lv_labels rl) -> r <> [] -> space_or_end r -> forall xs d, Forall ok xs ->
    length d + length xs = length (lv_labels cl) ->
    read_cells zero parse (IS (flat_map (fun x => Str.tab :: put x) xs ++ r) false false) {| tb_rows := rl; tb_cols := cl; tb_data := pre ++ d ++ repeat tdef (length xs) |} (length xs) (length d) =
    Ok (IS r false false, {| tb_rows := rl; tb_cols := cl; tb_data := pre ++ d ++ map back xs |}).
  Proof.
    intros P R0 R Sp. induction xs as [|x xs IH]; intros d O L; [reflexivity|]. inversion O as [|? ? O1 O2]; subst. cbn [length read_cells flat_map repeat map].
    assert (E : extract parse (IS ((Str.tab :: put x) ++ flat_map (fun x => Str.tab :: put x) xs ++ r) false false) = (IS (flat_map (fun x => Str.tab :: put x) xs ++ r) false false, Some (back x))).
    { change ((Str.tab :: put x) ++ flat_map (fun x => Str.tab :: put x) xs ++ r) with ([Str.tab] ++ put x ++ flat_map (fun x => Str.tab :: put x) xs ++ r). apply extract_ok; [repeat constructor; cbn; tauto| | |].
      - specialize (Hhead x O1). destruct (put x); [destruct Hhead|exact Hhead].
      - apply Hparse; [exact O1|]. destruct xs; [exact Sp|]. cbn. tauto.
      - destruct xs; [exact R|discriminate]. }
    rewrite <- app_assoc. rewrite E. unfold tb_put, tb_row_size, tb_col_size. cbn [tb_rows tb_cols tb_data length] in *.
    replace ((length (lv_labels rl) - 1 <? length (lv_labels rl)) && (length d <? length (lv_labels cl))) with true by (symmetry; apply andb_true_iff; split; apply Nat.ltb_lt; lia).
    rewrite vec_set_ok by (rewrite !app_length; cbn [length]; lia). cbn [obind]. rewrite (app_assoc pre d).
    replace ((length (lv_labels rl) - 1) * length (lv_labels cl) + length d) with (length (pre ++ d)) by (rewrite app_length; lia). rewrite list_set_mid.
    rewrite <- app_assoc. replace (d ++ back x :: repeat tdef (length xs)) with ((d ++ [back x]) ++ repeat tdef (length xs)) by (rewrite <- app_assoc; reflexivity).
    replace (S (length d)) with (length (d ++ [back x])) by (rewrite app_length; cbn; lia). rewrite IH; [rewrite <- app_assoc; reflexivity|exact O2|rewrite app_length; cbn; lia].
  Qed.
  Lemma read_rows_ok cl cls : labels_are cl cls -> forall rows fuel ws rl rls d, labels_are rl rls -> NoDup (rls ++ map fst rows) -> length d = length rls * length cls ->
    Forall (fun lr => word (fst lr) /\ length (snd lr) = length cls /\ Forall ok (snd lr)) rows -> Forall is_space_char ws -> length rows + 2 <= fuel ->
    exists rl', labels_are rl' (rls ++ map fst rows) /\
      read_rows tdef zero parse fuel (IS (ws ++ concat (map row_text rows)) false false) {| tb_rows := rl; tb_cols := cl; tb_data := d |} =
      Ok {| tb_rows := rl'; tb_cols := cl; tb_data := d ++ concat (map (fun lr => map back (snd lr)) rows) |}.
  Proof.
    intros CL. induction rows as [|[l xs] rows IH]; intros fuel ws rl rls d RL N D O W F.
    - exists rl. cbn [map concat]. rewrite !app_nil_r. split; [exact RL|]. destruct fuel as [|[|fuel]]; [cbn in F; lia|cbn in F; lia|]. cbn [read_rows]. cbn [good eofbit failbit orb negb]. rewrite (extract_end _ ws W). reflexivity.
    - inversion O as [|? ? [O1 [O2 O3]] O4]; subst. cbn [fst snd map] in *. destruct fuel as [|fuel]; [cbn in F; lia|]. cbn [read_rows map concat]. cbn [good eofbit failbit orb negb].
      unfold row_text at 1. cbn [fst snd]. rewrite <- !app_assoc. set (rest := flat_map (fun x => Str.tab :: put x) xs ++ [lf] ++ concat (map row_text rows)).
      assert (RS : space_or_end rest /\ rest <> []) by (subst rest; destruct xs; cbn; split; (tauto || discriminate)). destruct O1 as [O1 O1'].
      rewrite (extract_ok parse_word ws l rest l W); [|destruct l as [|c l]; [congruence|]; apply Forall_inv in O1'; apply not_true_iff_false; rewrite <- space_isspace; exact O1'| |tauto].
      2: { unfold parse_word. rewrite (take_word_ok l rest O1' (proj1 RS)). reflexivity. }
      cbn [good eofbit failbit orb negb]. assert (Nl : ~ In l rls) by (apply NoDup_remove_2 in N; rewrite in_app_iff in N; tauto).
      destruct (lv_add_ok rl rls l RL Nl) as (rl1 & E1 & L1). unfold tb_add_row. cbn [tb_rows tb_cols tb_data]. rewrite E1. cbn [obind fst]. unfold tb_col_size. cbn [tb_cols].
      pose proof CL as [C1 _]. pose proof L1 as [R1 _]. rewrite R1, C1. rewrite app_length. cbn [length].
      replace (vec_resize d ((length rls + 1) * length cls) tdef) with (d ++ [] ++ repeat tdef (length xs)).
      2: { unfold vec_resize. rewrite firstn_all2 by lia. cbn [app]. do 2 f_equal. lia. }
      rewrite <- O2. subst rest. pose proof (read_cells_ok rl1 cl d ([lf] ++ concat (map row_text rows))) as RC. rewrite R1, C1, app_length in RC. cbn [length] in RC.
      change 0 with (length (@nil T)) at 1.
      rewrite (RC ltac:(lia) ltac:(lia) ltac:(discriminate) ltac:(cbn; tauto) xs [] O3 ltac:(cbn; lia)). cbn [obind fst snd app].
      destruct (IH fuel [lf] rl1 (rls ++ [l]) (d ++ map back xs)) as (rl' & L' & E').
      + exact L1.
      + rewrite <- app_assoc. exact N.
      + rewrite !app_length, map_length. cbn [length]. lia.
      + exact O4.
      + constructor; [unfold is_space_char; cbn; tauto|constructor].
      + cbn [length] in F. lia.
      + exists rl'. rewrite <- app_assoc in L', E'. cbn [app] in L', E'. split; [exact L'|]. exact E'.
  Qed.
  Theorem table_text (t : tab) rows : Forall word (lv_labels (tb_cols t)) -> NoDup (lv_labels (tb_cols t)) -> lv_labels (tb_rows t) = map fst rows -> Forall (fun lr => word (fst lr)) rows -> NoDup (map fst rows) ->
    Forall (fun lr => Forall ok (snd lr)) rows ->
    (forall i lr, nth_error rows i = Some lr -> length (snd lr) = tb_col_size t /\ forall c x, nth_error (snd lr) c = Some x -> tb_get t i c = Ok x) ->
    exists text rl cl, tab_write put t = Ok text /\ labels_are cl (lv_labels (tb_cols t)) /\ labels_are rl (map fst rows) /\
      tab_read tdef zero parse text true = Ok {| tb_rows := rl; tb_cols := cl; tb_data := concat (map (fun lr => map back (snd lr)) rows) |}.
  Proof.
    intros CW CN RL RW RN O G. set (cs := lv_labels (tb_cols t)) in *.
    assert (WT : tab_write put t = Ok (put_header t ++ concat (map row_text rows))).
    { unfold tab_write, tb_row_size. rewrite RL, map_length. rewrite (put_rows_ok t rows 0); [reflexivity|]. intros i lr E. cbn [Nat.add]. destruct (G i lr E) as [G1 G2]. split; [|split; assumption].
      unfold lv_get, vec_get. rewrite RL, nth_error_map, E. reflexivity. }
    eexists. assert (H0 : put_header t = join [Str.tab] (lit "Row" :: cs) ++ [lf]) by (unfold put_header; etransitivity; [|exact (f_equal (fun u => u ++ [lf]) (eq_sym (join_cons [Str.tab] (lit "Row") cs)))]; cbn beta; rewrite <- app_assoc; reflexivity).
    assert (WW : Forall word (lit "Row" :: cs)). { constructor; [|exact CW]. split; [discriminate|]. repeat constructor; cbn; intuition discriminate. }
    assert (WN : Forall (fun c => c <> lf) (join [Str.tab] (lit "Row" :: cs))).
    { apply join_chars; [repeat constructor; discriminate|]. revert WW. apply Forall_impl. intros l [_ H]. revert H. apply Forall_impl. intros c H ->. apply H. cbn. tauto. }
    assert (Spl : split_str (join [Str.tab] (lit "Row" :: cs)) [" "%char; Str.tab] = Ok (lit "Row" :: cs)).
    { apply split_join; [cbn; intuition discriminate|discriminate|repeat constructor; cbn; tauto|]. revert WW. apply Forall_impl. intros l [H1 H2]. split; [exact H1|]. revert H2. apply Forall_impl. unfold one_of, is_space_char. cbn. tauto. }
    assert (NL : labels_are (lv_of_size (L := str) [] 0) []) by (split; [reflexivity|]; intros l i; split; [discriminate|destruct i; discriminate]).
    destruct (add_columns_ok (lv_of_size [] 0) NL cs _ [] NL CN) as (cl & CL & E1). cbn [app] in CL.
    destruct (read_rows_ok cl cs CL rows (S (S (length (concat (map row_text rows))))) [] _ [] [] NL RN eq_refl) as (rl & L' & E2).
    - apply Forall_forall. intros lr H. rewrite Forall_forall in RW, O. split; [apply RW; exact H|]. split; [|apply O; exact H]. apply In_nth_error in H. destruct H as [i H]. destruct (G i lr H) as [G1 _]. exact G1.
    - constructor.
    - assert (length rows <= length (concat (map row_text rows))); [|lia]. clear. induction rows as [|lr rows IH]; [cbn; lia|]. cbn [map concat length]. rewrite app_length. unfold row_text at 1. rewrite !app_length. cbn [length]. lia.
    - exists rl, cl. split; [exact WT|]. split; [exact CL|]. split; [exact L'|]. unfold tab_read. rewrite H0, <- app_assoc. cbn [app].
      rewrite first_line_ok; [|intros Q; rewrite Forall_forall in WN; apply WN in Q; tauto]. rewrite Spl. cbn [obind skipn]. unfold tb_make.
      match goal with |- context [add_columns tdef ?a ?b] => replace (add_columns tdef a b) with (Ok {| tb_rows := lv_of_size (L := str) [] 0; tb_cols := cl; tb_data := @nil T |}) by (symmetry; exact E1) end. cbn [obind]. exact E2.
  Qed.
End Table.

(** ** numbers *)
Lemma isdigit_digit c : isdigit c = true <-> is_digit_char c.
Proof. unfold isdigit, is_digit_char. rewrite N_nat_ascii. rewrite andb_true_iff, !N.leb_le. lia. Qed.
Lemma take_digits_ok ds r : Forall is_digit_char ds -> no_digit_head r -> take_digits_of (ds ++ r) = ds.
Proof.
  intros D R. induction D as [|c ds C _ IH]; cbn [app take_digits_of].
  - destruct r as [|c r]; [reflexivity|]. cbn [take_digits_of]. cbn in R. replace (isdigit c) with false; [reflexivity|]. symmetry. apply not_true_iff_false. rewrite isdigit_digit. exact R.
  - apply isdigit_digit in C. rewrite C, IH. reflexivity.
Qed.
Lemma skipn_own {A} (a b : list A) : skipn (length a) (a ++ b) = b.
Proof. rewrite skipn_app, skipn_all, Nat.sub_diag. reflexivity. Qed.
Lemma take_sign_ok sg sgn u : sign_text sg sgn -> (match u with c :: _ => c <> "-"%char /\ c <> "+"%char | [] => True end) -> take_sign (sg ++ u) = sg.
Proof.
  intros S U. destruct S; cbn [app take_sign]; try reflexivity. destruct u as [|c u]; [reflexivity|]. cbn [take_sign]. destruct (in_set (lit "+-") c) eqn:E; [|reflexivity]. exfalso. apply in_set_In in E. cbn in E. intuition congruence.
Qed.
Lemma number_form_ok s sgn v r : decimal_text s sgn v -> number_ends r -> number_form (s ++ r) = s.
Proof.
  intros H R. destruct H as [sg sgn ip pt fp ex x S I F N P E]. destruct (exponent_head ex x r E R) as [E1 E2]. rewrite <- !app_assoc. unfold number_form.
  assert (U : match ip ++ pt ++ fp ++ ex ++ r with c :: _ => c <> "-"%char /\ c <> "+"%char | [] => True end).
  { destruct ip as [|c ip]; cbn [app]; [|apply Forall_inv in I; apply digit_head_sign; exact I]. destruct P as [->|[-> ->]]; [split; discriminate|cbn in N; congruence]. }
  rewrite (take_sign_ok sg sgn _ S U), skipn_own.
  assert (P1 : no_digit_head (pt ++ fp ++ ex ++ r)) by (destruct P as [->|[-> ->]]; [cbn; apply not_digit; left; cbv; lia|exact E1]).
  rewrite (take_digits_ok ip _ I P1), skipn_own.
  assert (PF : (match pt ++ fp ++ ex ++ r with c :: t => if Ascii.eqb c "." then c :: take_digits_of t else [] | [] => [] end) = pt ++ fp).
  { destruct P as [->|[-> ->]]; cbn [app].
    - change (Ascii.eqb "." ".") with true. cbn match. rewrite (take_digits_ok fp _ F E1). reflexivity.
    - destruct (ex ++ r) as [|c t]; [reflexivity|]. destruct E2 as (E2 & _). apply Ascii.eqb_neq in E2. rewrite E2. reflexivity. }
  rewrite PF. rewrite (app_assoc pt fp), skipn_own. f_equal. f_equal. rewrite <- app_assoc. do 2 f_equal.
  destruct E as [|c sg' x' ds C S' N' D'].
  - cbn [app]. destruct r as [|c r]; [reflexivity|]. destruct R as [_ R]. replace (in_set (lit "eE") c) with false; [reflexivity|]. symmetry. apply not_true_iff_false. rewrite in_set_In. intros Q. apply R. cbn in *. tauto.
  - cbn [app]. replace (in_set (lit "eE") c) with true by (symmetry; apply in_set_In; exact C).
    replace ((0 <? length ip) || (1 <? length (pt ++ fp)))%nat with true.
    + cbn [andb]. rewrite <- app_assoc. rewrite (take_sign_ok sg' x' _ S'); [|destruct ds as [|d ds]; [congruence|]; cbn [app]; apply digit_head_sign; apply Forall_inv in D'; exact D']. rewrite skipn_own.
      rewrite take_digits_ok; [reflexivity|exact D'|]. destruct r as [|d r]; [exact Logic.I|]. cbn in *. tauto.
    + symmetry. apply orb_true_iff. destruct ip as [|c0 ip]; [right|left; reflexivity]. destruct P as [->|[-> ->]]; [|cbn in N; congruence]. destruct fp; [cbn in N; congruence|reflexivity].
Qed.
Lemma num_get_written f x r : writable f -> of_format f x -> finite x -> finite (read_back f x) -> space_or_end r -> num_get f (print_g x ++ r) = (Some (read_back f x), length (print_g x)).
Proof.
  intros W H F B R. rewrite (print_g_text f x W H). pose proof (written_decimal f x W H F) as D. unfold num_get. rewrite (number_form_ok _ _ _ r D (space_ends r R)).
  destruct (written_read f x [] W H I) as [E1 E2]. rewrite (print_g_text f x W H) in E1, E2. rewrite app_nil_r in E1, E2. rewrite E1, E2. destruct (read_back f x); try contradiction; reflexivity.
Qed.
