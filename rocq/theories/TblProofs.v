(** Proofs about storages as text. *)
From Coq Require Import Ascii String List Arith Bool NArith ZArith SpecFloat Lia.
From Verif Require Import Base BaseProofs Str StrSpec StrBase StrModel StrProofs CastSpec CastModel CastProofs FltSpec FltModel FltNum FltText FltProofs FltRead
  TokSpec TokModel AssocSpec AssocModel AssocProofs GridSpec GridModel GridProofs TblSpec TblModel TblNum.
Import ListNotations.

(** ** lines *)
Lemma lines_line l t : ~ In lf l -> lines (l ++ lf :: t) = l :: lines t.
Proof.
  induction l as [|c l IH]; intros N; cbn [app lines]; [reflexivity|]. cbn in N. destruct (Ascii.eqb_spec c lf) as [->|_]; [tauto|]. rewrite IH by tauto. reflexivity.
Qed.
Lemma lines_last_ok l : l <> [] -> ~ In lf l -> lines l = [l].
Proof.
  induction l as [|c l IH]; intros E N; [congruence|]. cbn [lines]. cbn in N. destruct (Ascii.eqb_spec c lf) as [->|_]; [tauto|]. destruct l as [|d l]; [reflexivity|]. rewrite IH by (first [discriminate|tauto]). reflexivity.
Qed.
Lemma lines_ok s ls : lines_of s ls -> lines s = ls.
Proof. induction 1 as [|l E N|l t ls N _ IH]; [reflexivity|apply lines_last_ok; assumption|]. rewrite lines_line, IH by exact N. reflexivity. Qed.
Lemma lines_exist s : lines_of s (lines s).
Proof.
  induction s as [|c s IH]; [constructor|]. cbn [lines]. destruct (Ascii.eqb_spec c lf) as [->|N]; [exact (lines_more [] s _ (fun H => H) IH)|].
  inversion IH as [E1 E2|l E Nl E1 E2|l t ls Nl H E1 E2].
  - apply lines_last; [discriminate|]. intros [Q|[]]. congruence.
  - apply lines_last; [discriminate|]. intros [Q|Q]; [congruence|tauto].
  - apply (lines_more (c :: l)); [|exact H]. intros [Q|Q]; [congruence|tauto].
Qed.

Lemma list_set_mid {A} (a b : list A) x y : list_set (a ++ x :: b) (length a) y = a ++ y :: b.
Proof. rewrite list_set_app2 by lia. rewrite Nat.sub_diag. reflexivity. Qed.
Lemma join_chars (P : ascii -> Prop) (d : str) : Forall P d -> forall l, Forall (Forall P) l -> Forall P (join d l).
Proof. intros D. induction 1 as [|x l X _ IH]; [constructor|]. destruct l as [|y l]; [exact X|]. change (join d (x :: y :: l)) with (x ++ d ++ join d (y :: l)). rewrite !Forall_app. auto. Qed.

Section Storage.
  Context {T : Type} (zero : T) (put : T -> str) (read : cs -> cs * T).
  Local Notation sto := (sto T str).

  (** ** reading a line *)
  Fixpoint row_of (n : nat) (c : cs) : list T :=
    match n with
    | O => []
    | S m => if good c then fst (let (c', x) := read c in (x, c')) :: row_of m (fst (read c)) else repeat zero (S m)
    end.
  Lemma row_of_length n : forall c, length (row_of n c) = n.
  Proof. induction n as [|n IH]; intros c; [reflexivity|]. cbn [row_of]. destruct (good c); [cbn [length]; rewrite IH; reflexivity|apply repeat_length]. Qed.
  Lemma read_samples_ok fr lb pre fi : length pre = fi * length (lv_labels lb) -> forall n ci c d, length d = ci -> ci + n = length (lv_labels lb) ->
    read_samples read n ci fi c {| st_frames := fr; st_labels := lb; st_data := pre ++ d ++ repeat zero n |} =
    Ok {| st_frames := fr; st_labels := lb; st_data := pre ++ d ++ row_of n c |}.
  Proof.
    intros P. induction n as [|n IH]; intros ci c d D E; cbn [read_samples row_of repeat]; [reflexivity|].
    destruct (good c); [|reflexivity]. destruct (read c) as [c' x]. cbn [fst]. unfold st_put, st_channels. cbn [st_data st_labels st_frames].
    rewrite vec_set_ok by (rewrite !app_length; cbn [length]; lia). cbn [obind].
    rewrite (app_assoc pre d). replace (fi * length (lv_labels lb) + ci) with (length (pre ++ d)) by (rewrite app_length; lia). rewrite list_set_mid.
    rewrite <- app_assoc. replace (d ++ x :: repeat zero n) with ((d ++ [x]) ++ repeat zero n) by (rewrite <- app_assoc; reflexivity).
    rewrite IH by (rewrite ?app_length; cbn [length]; lia). rewrite <- app_assoc. reflexivity.
  Qed.
  Lemma read_frames_ok lb : forall ls fr d, length d = fr * length (lv_labels lb) ->
    read_frames zero read {| st_frames := fr; st_labels := lb; st_data := d |} ls =
    Ok {| st_frames := fr + length ls; st_labels := lb; st_data := d ++ concat (map (fun l => row_of (length (lv_labels lb)) (cs_of_cstr l)) ls) |}.
  Proof.
    induction ls as [|l ls IH]; intros fr d D; cbn [read_frames map concat length]; [rewrite Nat.add_0_r, app_nil_r; reflexivity|].
    unfold st_add_frame, st_channels. cbn [st_frames st_labels st_data]. unfold vec_resize. rewrite firstn_all2 by lia. replace (length d + _ - length d) with (length (lv_labels lb)) by lia.
    rewrite (read_samples_ok (S fr) lb d (S fr - 1)) with (d := []) by (cbn [length]; lia). cbn [obind app]. rewrite IH by (rewrite app_length, row_of_length; lia).
    rewrite <- app_assoc. do 2 f_equal. lia.
  Qed.

  (** ** the channels *)
  Definition labels_are (lb : lvec (L := str)) (ls : list str) : Prop := lv_labels lb = ls /\ forall l i, lv_find str_eqb lb l = Some i <-> nth_error ls i = Some l.
  Lemma add_channels_ok : forall news lb ls, labels_are lb ls ->
    (NoDup (ls ++ news) -> exists lb', labels_are lb' (ls ++ news) /\
      add_channels zero {| st_frames := 0; st_labels := lb; st_data := [] |} news = Ok {| st_frames := 0; st_labels := lb'; st_data := [] |}) /\
    (NoDup ls -> ~ NoDup (ls ++ news) -> add_channels zero {| st_frames := 0; st_labels := lb; st_data := [] |} news = Throw).
  Proof.
    induction news as [|l news IH]; intros lb ls H; [rewrite app_nil_r; split; [intros _; exists lb; auto|intros A B; contradiction]|].
    cbn [add_channels]. destruct H as [H1 H2]. unfold st_add_channel, st_resize, st_channels. cbn [st_frames st_labels st_data]. rewrite H1.
    replace ((0 <? 0) || (length ls + 1 <? length ls)) with false by (symmetry; apply orb_false_iff; split; [reflexivity|apply Nat.ltb_ge; lia]).
    replace (length ls <? length ls + 1) with true by (symmetry; apply Nat.ltb_lt; lia). cbn [Nat.ltb Nat.leb obind Nat.mul]. unfold lv_resize. rewrite H1.
    replace (length ls <=? length ls + 1) with true by (symmetry; apply Nat.leb_le; lia). cbn [obind]. cbn [st_frames st_labels st_data lv_labels].
    assert (R : vec_resize ls (length ls + 1) [] = ls ++ [[]]) by (unfold vec_resize; rewrite firstn_all2 by lia; replace (length ls + 1 - length ls) with 1 by lia; reflexivity). rewrite R.
    unfold lv_set. cbn [lv_labels lv_index]. replace (length (ls ++ [[]]) - 1) with (length ls) by (rewrite app_length; cbn; lia).
    replace (length ls <? length (ls ++ [[]])) with true by (symmetry; apply Nat.ltb_lt; rewrite app_length; cbn; lia). cbn [andb].
    replace (lv_find str_eqb {| lv_labels := ls ++ [[]]; lv_index := lv_index lb |} l) with (lv_find str_eqb lb l) by reflexivity.
    destruct (lv_find str_eqb lb l) as [i|] eqn:F.
    - split.
      + intros N. exfalso. apply H2 in F. apply nth_error_In in F. apply NoDup_remove_2 in N. apply N, in_or_app. auto.
      + intros _ _. reflexivity.
    - rewrite list_set_app2 by lia. rewrite Nat.sub_diag. cbn [list_set obind].
      set (lb1 := {| lv_labels := ls ++ [l]; lv_index := lv_map_set str_eqb (lv_index lb) l (length ls) |}).
      assert (F' : ~ In l ls) by (intros Q; apply In_nth_error in Q; destruct Q as [i Q]; apply H2 in Q; congruence).
      assert (L1 : labels_are lb1 (ls ++ [l])).
      { split; [reflexivity|]. intros l' i. unfold lb1. rewrite lv_find_map_set by exact str_eqb_eq. destruct (str_eqb l l') eqn:E.
        - apply str_eqb_eq in E. subst l'. split.
          + intros Q. injection Q as <-. rewrite nth_error_app2 by lia. rewrite Nat.sub_diag. reflexivity.
          + intros Q. destruct (Nat.lt_ge_cases i (length ls)) as [Li|Li].
            * rewrite nth_error_app1 in Q by exact Li. exfalso. apply F', (nth_error_In _ i). exact Q.
            * rewrite nth_error_app2 in Q by exact Li. destruct (i - length ls) as [|k] eqn:K; [f_equal; lia|]. destruct k; discriminate.
        - transitivity (lv_find str_eqb lb l' = Some i); [reflexivity|]. rewrite H2. split.
          + intros Q. rewrite nth_error_app1; [exact Q|]. apply nth_error_Some. congruence.
          + intros Q. destruct (Nat.lt_ge_cases i (length ls)) as [Li|Li].
            * rewrite nth_error_app1 in Q by exact Li. exact Q.
            * rewrite nth_error_app2 in Q by exact Li. destruct (i - length ls) as [|k]; [|destruct k; discriminate]. injection Q as ->.
              replace (str_eqb l' l') with true in E; [discriminate|]. symmetry. apply str_eqb_eq. reflexivity. }
      destruct (IH lb1 _ L1) as [A B]. rewrite <- app_assoc in A, B. cbn [app] in A, B. split; [exact A|]. intros N1 N2. apply B; [|exact N2].
      apply (NoDup_Add (Add_app l ls [])). rewrite app_nil_r. auto.
  Qed.
  Lemma no_labels : labels_are (st_labels (st_make (T := T) (L := str) [] 0 0 zero)) [].
  Proof. split; [reflexivity|]. intros l i. split; [discriminate|destruct i; discriminate]. Qed.
  (** reading any text into an empty storage *)
  Lemma sto_read_ok h ls ps : split_str h [Str.tab; " "%char] = Ok ps -> forall text, lines text = h :: ls ->
    (NoDup ps -> exists lb, labels_are lb ps /\ sto_read zero read (st_make [] 0 0 zero) text =
       Ok {| st_frames := length ls; st_labels := lb; st_data := concat (map (fun l => row_of (length ps) (cs_of_cstr l)) ls) |}) /\
    (~ NoDup ps -> sto_read zero read (st_make [] 0 0 zero) text = Throw).
  Proof.
    intros P text L. unfold sto_read. rewrite L, P. cbn [obind]. destruct (add_channels_ok ps _ [] no_labels) as [A B].
    change (st_make [] 0 0 zero) with {| st_frames := 0; st_labels := st_labels (st_make (T := T) (L := str) [] 0 0 zero); st_data := @nil T |} at 1 2.
    split.
    - intros N. destruct (A N) as (lb & HL & E). exists lb. split; [exact HL|]. cbn [st_make Nat.mul repeat]  in *. rewrite E. cbn [obind]. rewrite (read_frames_ok lb ls 0 []) by reflexivity.
      destruct HL as [-> _]. reflexivity.
    - intros N. cbn [st_make Nat.mul repeat] in *. rewrite B; [reflexivity|constructor|exact N].
  Qed.
  Lemma nth_concat (n : nat) (rows : list (list T)) : rectangular n rows -> forall f c row, nth_error rows f = Some row -> c < n -> nth_error (concat rows) (f * n + c) = nth_error row c.
  Proof.
    induction 1 as [|r rows R _ IH]; intros f c row E C; [destruct f; discriminate|]. cbn [concat]. destruct f as [|f].
    - injection E as ->. cbn [Nat.mul Nat.add]. apply nth_error_app1. lia.
    - cbn [Nat.mul]. rewrite nth_error_app2 by lia. replace (n + f * n + c - length r) with (f * n + c) by lia. apply IH; assumption.
  Qed.
  Lemma rows_of_rect n (ls : list str) : rectangular n (map (fun l => row_of n (cs_of_cstr l)) ls).
  Proof. apply Forall_forall. intros r H. apply in_map_iff in H. destruct H as (l & <- & _). apply row_of_length. Qed.
  Lemma get_row lb ps ls f c l : labels_are lb ps -> nth_error ls f = Some l -> c < length ps ->
    st_get {| st_frames := length ls; st_labels := lb; st_data := concat (map (fun l => row_of (length ps) (cs_of_cstr l)) ls) |} f c =
    match nth_error (row_of (length ps) (cs_of_cstr l)) c with Some x => Ok x | None => UB end.
  Proof.
    intros [L _] E C. unfold st_get, st_channels, vec_get. cbn [st_labels st_data]. rewrite L.
    rewrite (nth_concat (length ps) _ (rows_of_rect _ ls) f c (row_of (length ps) (cs_of_cstr l))); [reflexivity| |exact C]. rewrite nth_error_map, E. reflexivity.
  Qed.

  (** ** writing *)
  Definition line_text (xs : list str) : str := match xs with [] => [] | _ => join [Str.tab] xs ++ [lf] end.
  Lemma put_line_ok : forall xs ci (item : nat -> outcome str), (forall i x, nth_error xs i = Some x -> item (ci + i) = Ok x) -> put_line (length xs) ci item = Ok (line_text xs).
  Proof.
    induction xs as [|x xs IH]; intros ci item H; [reflexivity|]. cbn [length put_line]. pose proof (H 0 x eq_refl) as H0. rewrite Nat.add_0_r in H0. rewrite H0. cbn [obind].
    rewrite (IH (S ci) item); [|intros i y E; replace (S ci + i) with (ci + S i) by lia; apply H; exact E]. cbn [obind]. f_equal. destruct xs as [|y xs]; [reflexivity|]. cbn [length line_text].
    change (join [Str.tab] (x :: y :: xs)) with (x ++ [Str.tab] ++ join [Str.tab] (y :: xs)). rewrite <- !app_assoc. reflexivity.
  Qed.
  Lemma put_frames_ok (s : sto) : forall rows fi,
    (forall i row, nth_error rows i = Some row -> length row = st_channels s /\ forall c x, nth_error row c = Some x -> st_get s (fi + i) c = Ok x) ->
    put_frames put s (length rows) fi = Ok (concat (map (fun row => line_text (map put row)) rows)).
  Proof.
    induction rows as [|row rows IH]; intros fi H; [reflexivity|]. cbn [length put_frames map concat]. destruct (H 0 row eq_refl) as [L G]. rewrite Nat.add_0_r in G. rewrite <- L at 1.
    rewrite <- (map_length put row). rewrite put_line_ok.
    - cbn [obind]. rewrite IH; [reflexivity|]. intros i r E. replace (S fi + i) with (fi + S i) by lia. apply H. exact E.
    - intros i x E. rewrite nth_error_map in E. destruct (nth_error row i) as [y|] eqn:Y; [|discriminate]. injection E as <-. cbn [Nat.add]. rewrite (G i y Y). reflexivity.
  Qed.
  Lemma sto_write_ok (s : sto) rows : length rows = st_frames s ->
    (forall i row, nth_error rows i = Some row -> length row = st_channels s /\ forall c x, nth_error row c = Some x -> st_get s i c = Ok x) ->
    sto_write put s = Ok (line_text (lv_labels (st_labels s)) ++ concat (map (fun row => line_text (map put row)) rows)).
  Proof.
    intros L H. unfold sto_write, st_channels. rewrite put_line_ok; [|intros i x E; unfold lv_get, vec_get; cbn [Nat.add]; rewrite E; reflexivity]. cbn [obind]. rewrite <- L, (put_frames_ok s rows 0 H). reflexivity.
  Qed.

  (** ** reading what was written *)
  Context (ok : T -> Prop) (back : T -> T).
  Context (Hchars : forall x, ok x -> Forall (fun c => ~ is_space_char c /\ c <> nul) (put x)).
  Context (Hread : forall x ws r, ok x -> Forall is_space_char ws -> space_or_end r -> read (CS (ws ++ put x ++ r) false false) = (CS r false false, back x)).
  Lemma row_back : forall xs ws, Forall ok xs -> Forall is_space_char ws -> row_of (length xs) (CS (ws ++ join [Str.tab] (map put xs)) false false) = map back xs.
  Proof.
    induction xs as [|x xs IH]; intros ws O W; [reflexivity|]. inversion O as [|? ? O1 O2]; subst. cbn [length row_of map]. cbn [good cs_fail cs_eof orb negb].
    destruct xs as [|y xs].
    - cbn [map join]. rewrite <- (app_nil_r (put x)) at 1 2. rewrite (Hread x ws [] O1 W I). reflexivity.
    - change (join [Str.tab] (put x :: map put (y :: xs))) with (put x ++ [Str.tab] ++ join [Str.tab] (map put (y :: xs))).
      rewrite (Hread x ws ([Str.tab] ++ join [Str.tab] (map put (y :: xs))) O1 W) by (cbn; tauto). cbn [fst]. f_equal. apply IH; [exact O2|]. constructor; [cbn; tauto|constructor].
  Qed.
  Lemma row_chars xs : Forall ok xs -> Forall (fun c => c <> lf /\ c <> nul) (join [Str.tab] (map put xs)).
  Proof.
    intros O. apply join_chars; [repeat constructor; discriminate|]. apply Forall_forall. intros t H. apply in_map_iff in H. destruct H as (x & <- & X). rewrite Forall_forall in O. specialize (Hchars x (O x X)).
    revert Hchars. apply Forall_impl. intros c [C1 C2]. split; [intros ->; apply C1; cbn; tauto|exact C2].
  Qed.
  Lemma c_str_all s : Forall (fun c => c <> lf /\ c <> nul) s -> c_str s = s.
  Proof. intros H. rewrite <- (app_nil_r s) at 1. rewrite c_str_skip; [cbn; apply app_nil_r|]. rewrite Forall_forall in H. intros Q. apply H in Q. tauto. Qed.
  Lemma rows_lines n rows : n <> 0 -> rectangular n rows -> Forall (Forall ok) rows ->
    lines (concat (map (fun row => line_text (map put row)) rows)) = map (fun row => join [Str.tab] (map put row)) rows.
  Proof.
    intros N. induction 1 as [|row rows R _ IH]; intros O; [reflexivity|]. inversion O as [|? ? O1 O2]; subst. cbn [map concat]. destruct row as [|x row]; [cbn in *; lia|].
    unfold line_text at 1. cbn [map]. change (put x :: map put row) with (map put (x :: row)). rewrite <- app_assoc. cbn [app]. rewrite lines_line; [rewrite IH by exact O2; reflexivity|].
    pose proof (row_chars (x :: row) O1) as C. rewrite Forall_forall in C. intros Q. apply C in Q. tauto.
  Qed.
  Theorem storage_text (s : sto) rows : st_channels s <> 0 -> Forall word (lv_labels (st_labels s)) -> NoDup (lv_labels (st_labels s)) -> length rows = st_frames s -> Forall (Forall ok) rows ->
    (forall i row, nth_error rows i = Some row -> length row = st_channels s /\ forall c x, nth_error row c = Some x -> st_get s i c = Ok x) ->
    exists text lb, sto_write put s = Ok text /\ labels_are lb (lv_labels (st_labels s)) /\
      sto_read zero read (st_make [] 0 0 zero) text = Ok {| st_frames := st_frames s; st_labels := lb; st_data := concat (map (map back) rows) |}.
  Proof.
    intros N W D L O G. rewrite (sto_write_ok s rows L G). set (ls := lv_labels (st_labels s)) in *.
    assert (R : rectangular (length ls) rows). { apply Forall_forall. intros row H. apply In_nth_error in H. destruct H as [i H]. apply G in H. tauto. }
    assert (WN : Forall (fun c => c <> lf) (join [Str.tab] ls)).
    { apply join_chars; [repeat constructor; discriminate|]. revert W. apply Forall_impl. intros l [_ H]. revert H. apply Forall_impl. intros c H ->. apply H. cbn. tauto. }
    assert (S : split_str (join [Str.tab] ls) [Str.tab; " "%char] = Ok ls).
    { apply split_join; [cbn; intuition discriminate|discriminate|repeat constructor; cbn; tauto|]. revert W. apply Forall_impl. intros l [H1 H2]. split; [exact H1|]. revert H2. apply Forall_impl. unfold one_of, is_space_char. cbn. tauto. }
    eexists. destruct (sto_read_ok (join [Str.tab] ls) (map (fun row => join [Str.tab] (map put row)) rows) ls S
      (line_text ls ++ concat (map (fun row => line_text (map put row)) rows))) as [A _].
    - unfold line_text at 1. unfold st_channels in N. fold ls in N. destruct ls as [|l0 ls0] eqn:E; [cbn in N; lia|]. rewrite <- E in *. rewrite <- app_assoc. cbn [app]. rewrite lines_line.
      + f_equal. apply (rows_lines (length ls)); [rewrite E; discriminate|exact R|exact O].
      + intros Q. rewrite Forall_forall in WN. apply WN in Q. tauto.
    - destruct (A D) as (lb & HL & E). exists lb. split; [reflexivity|]. split; [exact HL|]. rewrite E. f_equal. rewrite map_length, L. f_equal. f_equal. rewrite map_map. apply map_ext_in. intros row H.
      assert (O1 : Forall ok row) by (rewrite Forall_forall in O; auto). assert (R1 : length row = length ls) by (unfold rectangular in R; rewrite Forall_forall in R; auto).
      unfold cs_of_cstr. rewrite (c_str_all _ (row_chars row O1)). rewrite <- R1. exact (row_back row [] O1 (Forall_nil _)).
  Qed.
End Storage.

(** ** numbers *)
Lemma delim_space c : c <> nul -> is_delim plain_stream c = isspace c.
Proof.
  intros N. unfold is_delim, strchr. apply Ascii.eqb_neq in N. rewrite N, orb_false_r. apply eq_true_iff_eq. rewrite <- space_isspace, in_set_In. change (c_str (lex_delims plain_stream)) with whitespace. unfold is_space_char, whitespace. cbn [In]. tauto.
Qed.
Lemma skip_delims_ok ws c t : Forall is_space_char ws -> c <> nul -> isspace c = false -> skip_delims plain_stream (ws ++ c :: t) = c :: t.
Proof.
  intros W N S. induction W as [|x ws X _ IH]; cbn [app skip_delims]; [rewrite (delim_space c N), S; reflexivity|].
  rewrite delim_space by (intros ->; cbn in X; intuition discriminate). apply space_isspace in X. rewrite X. exact IH.
Qed.
Lemma cs_number_written f x ws r : writable f -> of_format f x -> Forall is_space_char ws -> space_or_end r ->
  cs_number f (CS (ws ++ print_g x ++ r) false false) = (CS r false false, read_back f x).
Proof.
  intros W H S R. destruct (written_read f x r W H R) as [E1 E2]. destruct (written_head f x W H) as (c & t & P & C). pose proof (written_no_space f x W H) as N. unfold cs_number, skip_delimiters.
  cbn [cs_rest cs_fail cs_eof]. rewrite P in *. cbn [app] in *. rewrite skip_delims_ok; [|exact S|apply Forall_inv in N; tauto|exact C]. cbn [test_eof cs_rest fst cs_fail cs_eof]. rewrite E1, E2. reflexivity.
Qed.
(** ** any line *)
Lemma skip_space_none s : (match s with c :: _ => isspace c = false | [] => True end) -> skip_space s = s.
Proof. destruct s as [|c s]; [reflexivity|]. intros H. cbn [skip_space]. rewrite H. reflexivity. Qed.
Lemma skip_space_head s : match skip_space s with c :: _ => isspace c = false | [] => True end.
Proof. induction s as [|c s IH]; [exact I|]. cbn [skip_space]. destruct (isspace c) eqn:E; [exact IH|exact E]. Qed.
Lemma skip_space_twice s : skip_space (skip_space s) = skip_space s.
Proof. apply skip_space_none, skip_space_head. Qed.
Lemma skip_delims_space s : ~ In nul s -> skip_delims plain_stream s = skip_space s.
Proof.
  induction s as [|c s IH]; intros N; [reflexivity|]. cbn [skip_delims skip_space]. cbn in N. rewrite delim_space by (intros ->; tauto). destruct (isspace c); [apply IH; tauto|reflexivity].
Qed.
Lemma strtod_skip f s : strtod f (skip_space s) = strtod f s.
Proof. unfold strtod. rewrite skip_space_twice. reflexivity. Qed.
Lemma after_skip f s : strtod f s <> None -> after_number (skip_space s) = after_number s.
Proof.
  unfold strtod, after_number. rewrite skip_space_twice. destruct (scan_sign (skip_space s)) as [neg r].
  destruct (starts_word (lit "infinity") r); [reflexivity|]. destruct (starts_word (lit "inf") r); [reflexivity|]. destruct (starts_word (lit "nan") r); [reflexivity|].
  destruct (if starts_word (lit "0x") r then _ else None) as [[[v k] r2]|]; [reflexivity|]. destruct (scan_mantissa 10 r) as [[[v k] r2]|]; [reflexivity|]. congruence.
Qed.
Lemma strtod_nil f : strtod f [] = None.
Proof. reflexivity. Qed.
Lemma cs_number_some f s x : ~ In nul s -> strtod f s = Some x -> cs_number f (CS s false false) = (CS (after_number s) false false, x).
Proof.
  intros N E. unfold cs_number, skip_delimiters. cbn [cs_rest cs_fail cs_eof]. rewrite (skip_delims_space s N). destruct (skip_space s) as [|c t] eqn:K.
  - rewrite <- strtod_skip, K in E. discriminate.
  - cbn [test_eof cs_rest fst cs_fail cs_eof]. rewrite <- K. rewrite strtod_skip, E. rewrite (after_skip f) by congruence. reflexivity.
Qed.
Lemma cs_number_none f s : ~ In nul s -> strtod f s = None -> good (fst (cs_number f (CS s false false))) = false /\ snd (cs_number f (CS s false false)) = S754_zero false.
Proof.
  intros N E. unfold cs_number, skip_delimiters. cbn [cs_rest cs_fail cs_eof]. rewrite (skip_delims_space s N). rewrite <- strtod_skip in E.
  destruct (skip_space s) as [|c t] eqn:K; cbn [test_eof cs_rest fst cs_fail cs_eof]; [rewrite strtod_nil|rewrite E]; split; reflexivity.
Qed.
Lemma Forall2_repeat {A B} (P : A -> B -> Prop) a b n : P a b -> Forall2 P (repeat a n) (repeat b n).
Proof. intros H. induction n; constructor; auto. Qed.
Lemma line_values_ok f n l vs : usable f -> line_values f n l vs -> ~ In nul l -> Forall2 (fun P y => P y) vs (row_of (S754_zero false) (cs_number f) n (CS l false false)).
Proof.
  intros U. induction 1 as [r|n ws s sgn v r vs W D R _ IH|n ws sg sgn w r vs W S A R _ IH|n ws sg sgn w r vs W S A R _ IH|n r H]; intros N.
  - constructor.
  - cbn [row_of]. cbn [good cs_fail cs_eof orb negb]. rewrite !in_app_iff in N.
    destruct (read_nearest f ws s sgn v r U W D R) as (E1 & E2 & E3). rewrite no_nul_read in E1, E2, E3 by (rewrite !in_app_iff; exact N).
    destruct (strtod f (ws ++ s ++ r)) as [x|] eqn:E; [|discriminate]. rewrite (cs_number_some f _ x) by (first [exact E|rewrite !in_app_iff; exact N]). cbn [fst].
    rewrite (after_decimal ws s sgn v r W D R). constructor; [exact (conj E2 E3)|]. apply IH. tauto.
  - cbn [row_of]. cbn [good cs_fail cs_eof orb negb]. destruct (read_inf f ws sg sgn w r W S A R) as [E1 E2]. rewrite (cs_number_some f _ _ N E1). cbn [fst]. rewrite E2. constructor; [reflexivity|]. apply IH.
    rewrite !in_app_iff in N. tauto.
  - cbn [row_of]. cbn [good cs_fail cs_eof orb negb]. destruct (read_nan f ws sg sgn w r W S A R) as [E1 E2]. rewrite (cs_number_some f _ _ N E1). cbn [fst]. rewrite E2. constructor; [reflexivity|]. apply IH.
    rewrite !in_app_iff in N. tauto.
  - destruct n as [|n]; [constructor|]. cbn [row_of repeat]. cbn [good cs_fail cs_eof orb negb]. assert (E : strtod f r = None).
    { destruct (strtod f r) eqn:E; [|reflexivity]. exfalso. apply H. apply (strtod_some f). congruence. }
    destruct (cs_number_none f r N E) as [E1 E2]. destruct (cs_number f (CS r false false)) as [c' x]. cbn [fst snd] in *. subst x. constructor; [reflexivity|].
    destruct n as [|n]; [constructor|]. cbn [row_of]. rewrite E1. apply Forall2_repeat. reflexivity.
Qed.
