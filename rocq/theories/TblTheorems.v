(** Theorems about storages and tables as text, frames, and values between frames. *)
From Coq Require Import Ascii String List Arith Bool ZArith Reals SpecFloat Lia Lra.
From Verif Require Import Base BaseProofs Str StrSpec StrBase StrModel StrProofs CastSpec CastModel FltSpec FltModel FltNum FltText FltProofs FltRead FltTheorems
  TokSpec TokModel AssocSpec AssocModel GridSpec GridModel GridProofs IoModel TblSpec TblModel TblNum TblProofs TblTab TblFrame.
Import ListNotations.
Local Open Scope nat_scope.

(** a sample and what is read for it: six digits survive, and infinities and nan do *)
Definition kept (f : format) (x y : spec_float) : Prop :=
  (finite x -> of_format f y /\ finite y /\ negative y = negative x /\ (Rabs (value y - value x) <= / 100000 * Rabs (value x))%R /\ (six_digits (value x) -> y = x)) /\ (~ finite x -> y = x).
Lemma kept_back f x : cpp_type f -> of_format f x -> kept f x (read_back f x).
Proof.
  intros C X. split.
  - intros F. pose proof (C140_close f x [] [] C X F (Forall_nil _) I) as H. cbn zeta in H. cbn [app] in H. rewrite app_nil_r in H. destruct H as (_ & H1 & H2 & H3 & H4). split; [exact H1|]. split; [exact H2|]. split; [exact H3|]. split; [exact H4|].
    intros S. pose proof (C140_six f x [] [] C X F (Forall_nil _) I S) as H. cbn [app] in H. rewrite app_nil_r in H. unfold read_back. rewrite H. reflexivity.
  - intros F. unfold read_back. rewrite C140_special; [reflexivity|]. intros (s & m & e & ->). apply F. exact I.
Qed.
Lemma rows_of_cells {T} (cells : nat -> nat -> T) n k : let rows := map (fun i => map (cells i) (seq 0 k)) (seq 0 n) in
  length rows = n /\ (forall i, i < n -> nth_error rows i = Some (map (cells i) (seq 0 k))) /\ forall i row, nth_error rows i = Some row -> i < n /\ row = map (cells i) (seq 0 k).
Proof.
  cbn zeta. rewrite map_length, seq_length. split; [reflexivity|]. assert (H : forall i, i < n -> nth_error (map (fun i => map (cells i) (seq 0 k)) (seq 0 n)) i = Some (map (cells i) (seq 0 k))).
  { intros i L. rewrite nth_error_map. rewrite (nth_error_nth' _ 0) by (rewrite seq_length; exact L). rewrite seq_nth by exact L. reflexivity. }
  split; [exact H|]. intros i row E. assert (L : i < n). { pose proof (proj1 (nth_error_Some _ i) ltac:(rewrite E; discriminate)) as L. rewrite map_length, seq_length in L. exact L. } split; [exact L|]. rewrite H in E by exact L. congruence.
Qed.
Lemma cell_nth {T} (g : nat -> T) k c : c < k -> nth_error (map g (seq 0 k)) c = Some (g c).
Proof. intros L. rewrite nth_error_map. rewrite (nth_error_nth' _ 0) by (rewrite seq_length; exact L). rewrite seq_nth by exact L. reflexivity. Qed.
Lemma cell_inv {T} (g : nat -> T) k c x : nth_error (map g (seq 0 k)) c = Some x -> c < k /\ x = g c.
Proof. intros E. assert (L : c < k). { pose proof (proj1 (nth_error_Some _ c) ltac:(rewrite E; discriminate)) as L. rewrite map_length, seq_length in L. exact L. } split; [exact L|]. rewrite cell_nth in E by exact L. congruence. Qed.

(** C143: a storage written to a text and read back has the same channels and frames, and the samples up to the sixth digit. *)
Theorem C143_storage (f : format) (s : sto spec_float str) (cells : nat -> nat -> spec_float) : cpp_type f -> 0 < st_channels s -> Forall word (lv_labels (st_labels s)) -> NoDup (lv_labels (st_labels s)) ->
  (forall i c, i < st_frames s -> c < st_channels s -> st_get s i c = Ok (cells i c) /\ of_format f (cells i c)) ->
  exists text s', write_storage s = Ok text /\ read_storage f new_storage text = Ok s' /\ lv_labels (st_labels s') = lv_labels (st_labels s) /\ st_frames s' = st_frames s /\
    (forall l c, st_find_channel str_eqb s' l = Some c <-> nth_error (lv_labels (st_labels s)) c = Some l) /\
    forall i c, i < st_frames s -> c < st_channels s -> exists y, st_get s' i c = Ok y /\ kept f (cells i c) y.
Proof.
  intros C N W D G. destruct (rows_of_cells cells (st_frames s) (st_channels s)) as (R1 & R2 & R3). set (rows := map _ _) in *.
  destruct (storage_text (S754_zero false) print_g (cs_number f) (of_format f) (read_back f)) with (s := s) (rows := rows) as (text & lb & E1 & L & E2).
  - intros x X. exact (written_no_space f x (cpp_writable f C) X).
  - intros x ws r X S R. exact (cs_number_written f x ws r (cpp_writable f C) X S R).
  - lia.
  - exact W.
  - exact D.
  - exact R1.
  - apply Forall_forall. intros row H. apply In_nth_error in H. destruct H as [i H]. apply R3 in H. destruct H as [Li ->]. apply Forall_forall. intros x H. apply In_nth_error in H. destruct H as [c H]. apply cell_inv in H. destruct H as [Lc ->]. apply G; assumption.
  - intros i row H. apply R3 in H. destruct H as [Li ->]. rewrite map_length, seq_length. split; [reflexivity|]. intros c x H. apply cell_inv in H. destruct H as [Lc ->]. apply G; assumption.
  - exists text. eexists. split; [exact E1|]. split; [exact E2|]. cbn [st_labels st_frames]. pose proof L as [L1 L2]. split; [exact L1|]. split; [reflexivity|]. split; [exact L2|].
    intros i c Li Lc. exists (read_back f (cells i c)). split; [|apply kept_back; [exact C|apply G; assumption]].
    assert (RR : rectangular (st_channels s) (map (map (read_back f)) rows)). { apply Forall_forall. intros row H. apply in_map_iff in H. destruct H as (row' & <- & H). apply In_nth_error in H. destruct H as [j H]. apply R3 in H. destruct H as [_ ->]. rewrite !map_length, seq_length. reflexivity. }
    unfold st_get, st_channels, vec_get. cbn [st_labels st_data]. rewrite L1. fold (st_channels s).
    rewrite (nth_concat (S754_zero false) print_g (st_channels s) _ RR i c (map (read_back f) (map (cells i) (seq 0 (st_channels s))))); [|rewrite nth_error_map, R2 by exact Li; reflexivity|exact Lc].
    rewrite nth_error_map, cell_nth by exact Lc. reflexivity.
Qed.
Print Assumptions C143_storage.
Definition two_channels (l1 l2 : string) (d : list spec_float) : sto spec_float str := {| st_frames := 2; st_labels := {| lv_labels := [lit l1; lit l2]; lv_index := [(lit l2, 1); (lit l1, 0)] |}; st_data := d |}.
Example C143_storage_case : let s := two_channels "t" "x.y" [half; S754_nan; minus_three_halves; S754_infinity true] in let nl := String lf EmptyString in let tb := String Str.tab EmptyString in
  Forall word (lv_labels (st_labels s)) /\ NoDup (lv_labels (st_labels s)) /\ (forall i c, i < 2 -> c < 2 -> exists x, st_get s i c = Ok x /\ of_format f_double x) /\
  write_storage s = Ok (lit ("t" ++ tb ++ "x.y" ++ nl ++ "0.5" ++ tb ++ "nan" ++ nl ++ "-1.5" ++ tb ++ "-inf" ++ nl)).
Proof.
  cbn zeta. split; [repeat constructor; (discriminate || (cbn; intuition discriminate))|]. split; [repeat constructor; cbn; intuition discriminate|]. split; [|vm_compute; reflexivity].
  intros [|[|i]] [|[|c]] Hi Hc; try lia; (eexists; split; [reflexivity|reflexivity]).
Qed.
(** it does not hold for labels with spaces, for channels without a label, and labels read from a file with carriage returns end with one *)
Theorem C143_spaces_refuted : exists text s', write_storage (two_channels "a b" "c" [half; half; half; half]) = Ok text /\ read_storage f_double new_storage text = Ok s' /\ st_channels s' = 3.
Proof. eexists _, _. split; [vm_compute; reflexivity|]. split; [vm_compute; reflexivity|reflexivity]. Qed.
Print Assumptions C143_spaces_refuted.
Theorem C143_unlabelled_refuted : exists text s', write_storage (st_make [] 3 1 half) = Ok text /\ read_storage f_double new_storage text = Ok s' /\ st_channels s' = 0.
Proof. eexists _, _. split; [vm_compute; reflexivity|]. split; [vm_compute; reflexivity|reflexivity]. Qed.
Print Assumptions C143_unlabelled_refuted.
Theorem C143_carriage_return_refuted : exists s', read_storage f_double new_storage (lit "a" ++ [cr; lf] ++ lit "1.5" ++ [cr; lf]) = Ok s' /\ st_find_channel str_eqb s' (lit "a") = None.
Proof. eexists. split; [vm_compute; reflexivity|reflexivity]. Qed.
Print Assumptions C143_carriage_return_refuted.

(** C144: reading any text into an empty storage: the words of the first line are the channels, every further line is a frame with the numbers at its beginning, 0 where
    there are too few of them; a label that occurs twice is an exception. *)
Theorem C144_lines (f : format) (text h : str) (ls ps : list str) : cpp_type f -> lines_of text (h :: ls) -> pieces (one_of [Str.tab; " "%char]) h ps ->
  (NoDup ps -> exists s, read_storage f new_storage text = Ok s /\ lv_labels (st_labels s) = ps /\ st_frames s = length ls /\
     (forall l c, st_find_channel str_eqb s l = Some c <-> nth_error ps c = Some l) /\
     forall i l vs, nth_error ls i = Some l -> ~ In nul l -> line_values f (length ps) l vs ->
       exists ys, Forall2 (fun P y => P y) vs ys /\ forall c y, nth_error ys c = Some y -> st_get s i c = Ok y) /\
  (~ NoDup ps -> read_storage f new_storage text = Throw).
Proof.
  intros C L P. apply lines_ok in L. apply split_str_iff in P; [|cbn; intuition discriminate]. destruct (sto_read_ok (S754_zero false) print_g (cs_number f) h ls ps P text L) as [A B]. split; [|exact B].
  intros N. destruct (A N) as (lb & HL & E). eexists. split; [exact E|]. cbn [st_labels st_frames]. split; [apply HL|]. split; [reflexivity|]. split; [apply HL|].
  intros i l vs E1 Z V. pose proof (line_values_ok f (length ps) l vs (cpp_usable f C) V Z) as F. exists (row_of (S754_zero false) (cs_number f) (length ps) (CS l false false)). split; [exact F|].
  intros c y Y. assert (Lc : c < length ps). { rewrite <- (row_of_length (S754_zero false) (cs_number f) (length ps) (CS l false false)). apply nth_error_Some. congruence. }
  rewrite (get_row (S754_zero false) print_g (cs_number f) lb ps ls i c l HL E1 Lc). unfold cs_of_cstr. rewrite <- (app_nil_r l) in Y |- * at 1. rewrite c_str_skip by exact Z. cbn [c_str]. rewrite app_nil_r in *. rewrite Y. reflexivity.
Qed.
Print Assumptions C144_lines.
Theorem C144_total (f : format) (text : str) : read_storage f new_storage text <> UB.
Proof.
  destruct (lines text) as [|h ls] eqn:L; [unfold read_storage, sto_read; rewrite L; discriminate|]. destruct (split_str_ok h [Str.tab; " "%char]) as (ps & P & _); [cbn; intuition discriminate|].
  destruct (sto_read_ok (S754_zero false) print_g (cs_number f) h ls ps P text L) as [A B]. unfold read_storage. assert (E : eq_test str_eqb) by exact str_eqb_eq.
  assert (D : NoDup ps \/ ~ NoDup ps). { destruct (ListDec.NoDup_dec (list_eq_dec ascii_dec) ps); auto. }
  destruct D as [D|D]; [destruct (A D) as (lb & _ & Q); unfold new_storage; rewrite Q; discriminate|unfold new_storage; rewrite (B D); discriminate].
Qed.
Print Assumptions C144_total.
Example C144_lines_case : exists vs, lines_of (lit "a b" ++ [lf] ++ lit "1 x" ++ [lf; lf] ++ lit "-2.5 inf 3") [lit "a b"; lit "1 x"; []; lit "-2.5 inf 3"] /\ pieces (one_of [Str.tab; " "%char]) (lit "a b") [lit "a"; lit "b"] /\
  line_values f_double 2 (lit "-2.5 inf 3") vs /\
  omap st_data (read_storage f_double new_storage (lit "a b" ++ [lf] ++ lit "1 x" ++ [lf; lf] ++ lit "-2.5 inf 3")) =
    Ok [S754_finite false 4503599627370496 (-52); S754_zero false; S754_zero false; S754_zero false; S754_finite true 5629499534213120 (-51); S754_infinity false].
Proof.
  eexists. split; [|split; [|split; [|vm_compute; reflexivity]]].
  - apply (lines_more (lit "a b")); [cbn; intuition discriminate|]. apply (lines_more (lit "1 x")); [cbn; intuition discriminate|]. apply (lines_more []); [cbn; tauto|]. apply lines_last; [discriminate|cbn; intuition discriminate].
  - apply (pieces_cons _ [] (lit "a") " "%char (lit "b")); [constructor|discriminate|repeat constructor; cbn; intuition discriminate|cbn; tauto|]. apply (pieces_last _ [" "%char] (lit "b")); [repeat constructor; cbn; tauto|discriminate|repeat constructor; cbn; intuition discriminate].
  - eapply (line_number f_double 1 [] (lit "-2.5") (-1) (_ : R) (lit " inf 3")).
    + apply Forall_nil.
    + apply (decimal ["-"%char] (-1) (lit "2") (lit ".") (lit "5") [] 0).
      * constructor.
      * repeat constructor; cbv; lia.
      * repeat constructor; cbv; lia.
      * discriminate.
      * left; reflexivity.
      * constructor.
    + split; [intros Q; cbv in Q; lia|cbn; intuition discriminate].
    + apply (line_inf f_double 0 [" "%char] [] 1 (lit "inf") (lit " 3")).
      * repeat constructor; cbn; tauto.
      * constructor.
      * repeat constructor.
      * cbn; tauto.
      * constructor.
Qed.

(** C145: a table of finite numbers written to a text and read back has the same rows and columns, and the values up to the sixth digit. *)
Theorem C145_table (f : format) (t : tab spec_float str) (cells : nat -> nat -> spec_float) : cpp_type f -> Forall word (lv_labels (tb_cols t)) -> NoDup (lv_labels (tb_cols t)) -> Forall word (lv_labels (tb_rows t)) -> NoDup (lv_labels (tb_rows t)) ->
  (forall i c, i < tb_row_size t -> c < tb_col_size t -> tb_get t i c = Ok (cells i c) /\ of_format f (cells i c) /\ finite (cells i c)) ->
  exists text t', write_table t = Ok text /\ read_table f text true = Ok t' /\ lv_labels (tb_cols t') = lv_labels (tb_cols t) /\ lv_labels (tb_rows t') = lv_labels (tb_rows t) /\
    (forall l c, tb_find_column str_eqb t' l = Some c <-> nth_error (lv_labels (tb_cols t)) c = Some l) /\ (forall l c, tb_find_row str_eqb t' l = Some c <-> nth_error (lv_labels (tb_rows t)) c = Some l) /\
    forall i c, i < tb_row_size t -> c < tb_col_size t -> exists y, tb_get t' i c = Ok y /\ kept f (cells i c) y.
Proof.
  intros C CW CN RW RN G. set (rls := lv_labels (tb_rows t)) in *. set (k := tb_col_size t).
  set (rows := combine rls (map (fun i => map (cells i) (seq 0 k)) (seq 0 (tb_row_size t)))).
  destruct (rows_of_cells cells (tb_row_size t) k) as (R1 & R2 & R3). set (vals := map (fun i => map (cells i) (seq 0 k)) (seq 0 (tb_row_size t))) in *.
  assert (LL : length rls = length vals) by (rewrite R1; reflexivity).
  assert (F1 : map fst rows = rls). { subst rows. revert LL. generalize vals. clear. induction rls as [|l rls IH]; intros [|v vals] L; try discriminate; [reflexivity|]. cbn. f_equal. apply IH. cbn in L. lia. }
  assert (F2 : map snd rows = vals). { subst rows. revert LL. generalize vals. clear. induction rls as [|l rls IH]; intros [|v vals] L; try discriminate; [reflexivity|]. cbn. f_equal. apply IH. cbn in L. lia. }
  assert (RI : forall i lr, nth_error rows i = Some lr -> i < tb_row_size t /\ snd lr = map (cells i) (seq 0 k)). { intros i lr H. apply R3. rewrite <- F2, nth_error_map, H. reflexivity. }
  pose proof (cpp_writable f C) as W.
  destruct (table_text (S754_zero false) (S754_zero false) print_g (num_get f) (fun x => of_format f x /\ finite x) (read_back f)) with (t := t) (rows := rows) as (text & rl & cl & E1 & CL & RL & E2).
  - intros x [X _]. destruct (written_head f x W X) as (c & u & -> & H). exact H.
  - intros x r [X F] R. apply num_get_written; [exact W|exact X|exact F| |exact R]. destruct (kept_back f x C X) as [K _]. destruct (K F) as (_ & K2 & _). exact K2.
  - exact CW.
  - exact CN.
  - symmetry. exact F1.
  - rewrite Forall_forall in *. intros lr H. apply RW. rewrite <- F1. apply in_map. exact H.
  - rewrite F1. exact RN.
  - apply Forall_forall. intros lr H. apply In_nth_error in H. destruct H as [i H]. apply RI in H. destruct H as [Li ->]. apply Forall_forall. intros x H. apply In_nth_error in H. destruct H as [c H]. apply cell_inv in H. destruct H as [Lc ->]. apply G; assumption.
  - intros i lr H. apply RI in H. destruct H as [Li ->]. rewrite map_length, seq_length. split; [reflexivity|]. intros c x H. apply cell_inv in H. destruct H as [Lc ->]. apply G; assumption.
  - exists text. eexists. split; [exact E1|]. split; [exact E2|]. cbn [tb_cols tb_rows]. rewrite F1 in RL. split; [apply CL|]. split; [apply RL|]. split; [apply CL|]. split; [apply RL|].
    intros i c Li Lc. exists (read_back f (cells i c)). split; [|apply kept_back; [exact C|apply G; assumption]].
    assert (RR : rectangular k (map (fun lr => map (read_back f) (snd lr)) rows)). { apply Forall_forall. intros row H. apply in_map_iff in H. destruct H as (lr & <- & H). apply In_nth_error in H. destruct H as [j H]. apply RI in H. destruct H as [_ ->]. rewrite !map_length, seq_length. reflexivity. }
    unfold tb_get, tb_row_size, tb_col_size, vec_get. cbn [tb_rows tb_cols tb_data]. destruct CL as [-> _], RL as [-> _]. fold (tb_row_size t). change (length rls) with (tb_row_size t). change (length (lv_labels (tb_cols t))) with k.
    replace ((i <? tb_row_size t) && (c <? k)) with true by (symmetry; apply andb_true_iff; split; apply Nat.ltb_lt; assumption).
    rewrite (nth_concat (S754_zero false) print_g k _ RR i c (map (read_back f) (map (cells i) (seq 0 k)))); [|rewrite <- (map_map snd (map (read_back f))), F2, nth_error_map, R2 by exact Li; reflexivity|exact Lc].
    rewrite nth_error_map, cell_nth by exact Lc. reflexivity.
Qed.
Print Assumptions C145_table.
Definition small_table (x : spec_float) : tab spec_float str :=
  {| tb_rows := {| lv_labels := [lit "u"; lit "v"]; lv_index := [(lit "v", 1); (lit "u", 0)] |}; tb_cols := {| lv_labels := [lit "p"; lit "q"]; lv_index := [(lit "q", 1); (lit "p", 0)] |}; tb_data := [half; x; minus_three_halves; third] |}.
Example C145_table_case : Forall word (lv_labels (tb_cols (small_table half))) /\ Forall word (lv_labels (tb_rows (small_table half))) /\
  (forall i c, i < 2 -> c < 2 -> exists x, tb_get (small_table half) i c = Ok x /\ of_format f_double x /\ finite x) /\
  omap tb_data (do text <- write_table (small_table half); read_table f_double text true) = Ok [half; half; minus_three_halves; read_back f_double third].
Proof.
  split; [repeat constructor; (discriminate || (cbn; intuition discriminate))|]. split; [repeat constructor; (discriminate || (cbn; intuition discriminate))|]. split; [|vm_compute; reflexivity].
  intros [|[|i]] [|[|c]] Hi Hc; try lia; (eexists; split; [reflexivity|split; [reflexivity|exact I]]).
Qed.
(** it does not hold with an infinite value: what follows is lost, without an error *)
Theorem C145_infinite_refuted : exists text t', write_table (small_table (S754_infinity false)) = Ok text /\ read_table f_double text true = Ok t' /\ tb_row_size t' = 1 /\ tb_get t' 0 1 = Ok (S754_zero false).
Proof. eexists _, _. split; [vm_compute; reflexivity|]. split; [vm_compute; reflexivity|]. split; reflexivity. Qed.
Print Assumptions C145_infinite_refuted.

(** C146: values written to fields of a frame, with the channels added that are not there yet, are read back; other samples are not changed, and new channels are 0 in other frames. *)
Theorem C146_fields (T : Type) (tdef : T) (ops : list (sto_op T str)) (g : grid T str) (s : sto T str) (fields : list (str * T)) (fi : nat) :
  spec_run (sto_spec str_eqb tdef) (grid_empty tdef) ops = Some g -> st_run str_eqb [] tdef (st_make [] 0 0 tdef) ops = Ok s -> fi < st_frames s -> NoDup (map fst fields) ->
  exists s', frame_puts tdef s fi fields = Ok s' /\ st_frames s' = st_frames s /\
    (forall l x, In (l, x) fields -> frame_get s' (const_frame s' fi) l = Ok x) /\
    (forall f l, f < st_frames s -> ~ In l (map fst fields) -> sample s' f l = sample s f l) /\
    (forall f l, f < st_frames s -> f <> fi -> In l (map fst fields) -> sample s' f l = Some (match sample s f l with Some y => y | None => Ok tdef end)).
Proof. exact (frame_write tdef ops g s fields fi). Qed.
Print Assumptions C146_fields.
Theorem C146_vec (T : Type) (tdef : T) (ops : list (sto_op T str)) (g : grid T str) (s : sto T str) (fi : nat) (name : str) (x y z : T) :
  spec_run (sto_spec str_eqb tdef) (grid_empty tdef) ops = Some g -> st_run str_eqb [] tdef (st_make [] 0 0 tdef) ops = Ok s -> fi < st_frames s ->
  exists s', write_vec tdef s fi name x y z = Ok s' /\ read_vec s' (const_frame s' fi) name = Ok (x, y, z).
Proof.
  intros G E F. destruct (frame_write tdef ops g s [(name ++ lit ".x", x); (name ++ lit ".y", y); (name ++ lit ".z", z)] fi G E F (vec_labels name)) as (s' & E' & _ & H & _). exists s'. split; [exact E'|].
  unfold read_vec. rewrite (H _ x) by (cbn; tauto). rewrite (H _ y) by (cbn; tauto). rewrite (H _ z) by (cbn; tauto). reflexivity.
Qed.
Print Assumptions C146_vec.
Theorem C146_quat (T : Type) (tdef : T) (ops : list (sto_op T str)) (g : grid T str) (s : sto T str) (fi : nat) (name : str) (w x y z : T) :
  spec_run (sto_spec str_eqb tdef) (grid_empty tdef) ops = Some g -> st_run str_eqb [] tdef (st_make [] 0 0 tdef) ops = Ok s -> fi < st_frames s ->
  exists s', write_quat tdef s fi name w x y z = Ok s' /\ read_quat s' (const_frame s' fi) name = Ok (w, x, y, z).
Proof.
  intros G E F. destruct (frame_write tdef ops g s [(name ++ lit ".w", w); (name ++ lit ".x", x); (name ++ lit ".y", y); (name ++ lit ".z", z)] fi G E F (quat_labels name)) as (s' & E' & _ & H & _). exists s'. split; [exact E'|].
  unfold read_quat. rewrite (H _ w) by (cbn; tauto). rewrite (H _ x) by (cbn; tauto). rewrite (H _ y) by (cbn; tauto). rewrite (H _ z) by (cbn; tauto). reflexivity.
Qed.
Print Assumptions C146_quat.
Example C146_case : let ops := [SAddChannel (lit "p.y") 7; SAddFrame 1; SAddFrame 2] in exists g s s', spec_run (sto_spec str_eqb 0) (grid_empty 0) ops = Some g /\ st_run str_eqb [] 0 (st_make [] 0 0 0) ops = Ok s /\ st_frames s = 2 /\
  write_vec 0 s 1 (lit "p") 3 4 5 = Ok s' /\ st_data s' = [1; 0; 0; 4; 3; 5].
Proof. cbn zeta. eexists _, _, _. split; [reflexivity|]. split; [vm_compute; reflexivity|]. split; [reflexivity|]. split; [vm_compute; reflexivity|reflexivity]. Qed.
(** a frame read through a handle made before channels were added gives samples of other frames *)
Theorem C146_stale_refuted : exists (s s' : sto nat str) fi, fi < st_frames s /\ write_vec 0 s fi (lit "p") 3 4 5 = Ok s' /\ frame_get s' (const_frame s' fi) (lit "a") = frame_get s (const_frame s fi) (lit "a") /\
  frame_get s' (const_frame s fi) (lit "a") <> frame_get s (const_frame s fi) (lit "a") /\ frame_get s' (const_frame s fi) (lit "a") = Ok 0.
Proof.
  exists {| st_frames := 2; st_labels := {| lv_labels := [lit "a"]; lv_index := [(lit "a", 0)] |}; st_data := [1; 2] |}. eexists. exists 1. split; [cbn; lia|]. split; [vm_compute; reflexivity|]. split; [reflexivity|]. split; [vm_compute; discriminate|reflexivity].
Qed.
Print Assumptions C146_stale_refuted.
(** a field that is not there is read as the last sample of the frame before *)
Theorem C146_missing_refuted : exists (s : sto nat str) fi x, st_find_channel str_eqb s (lit "b") = None /\ fi < st_frames s /\ frame_get s (const_frame s fi) (lit "b") = Ok x.
Proof. exists {| st_frames := 2; st_labels := {| lv_labels := [lit "a"]; lv_index := [(lit "a", 0)] |}; st_data := [1; 2] |}, 1, 1. split; [reflexivity|]. split; [cbn; lia|reflexivity]. Qed.
Print Assumptions C146_missing_refuted.

(** C147: the value between two frames is on the straight line between their samples, also at the frames themselves. *)
Theorem C147_between (s : sto R str) (c : nat) (cells : nat -> R) (k : nat) (x : R) : (forall i, i < st_frames s -> st_get s i c = Ok (cells i)) ->
  (INR k <= x <= INR k + 1)%R -> (x < INR (st_frames s) - 1)%R -> get_interpolated_value s x c = Ok (cells k + (x - INR k) * (cells (k + 1)%nat - cells k))%R.
Proof.
  intros H X L. assert (K : k + 1 < st_frames s). { apply INR_lt. rewrite plus_INR. cbn [INR]. lra. }
  apply interpolated; [exact X|exact L|exact K|apply H; lia|apply H; lia|]. intros K2. exists (cells (k + 2)). apply H. exact K2.
Qed.
Print Assumptions C147_between.
Theorem C147_beyond (s : sto R str) (x : R) (c : nat) : (0 <= x)%R -> (INR (st_frames s) - 1 <= x)%R -> get_interpolated_value s x c = Throw.
Proof. intros P H. exact (interpolated_range s x c H P). Qed.
Print Assumptions C147_beyond.
Example C147_case : let s := {| st_frames := 3; st_labels := {| lv_labels := [lit "a"]; lv_index := [(lit "a", 0)] |}; st_data := [1; 3; 2]%R |} in get_interpolated_value s (3 / 2) 0 = Ok (5 / 2)%R.
Proof.
  cbn zeta. set (s := {| st_frames := 3; st_labels := _; st_data := _ |}). rewrite (C147_between s 0 (fun i => nth i [1; 3; 2]%R 0%R) 1); [f_equal; cbn; lra| | |].
  - intros [|[|[|i]]] L; cbn in L |- *; try reflexivity. lia.
  - cbn. lra.
  - cbn. lra.
Qed.
(** the last frame has no value although it is a frame *)
Theorem C147_last_refuted : exists (s : sto R str) a, st_get s (st_frames s - 1) 0 = Ok a /\ get_interpolated_value s (INR (st_frames s - 1)) 0 = Throw.
Proof.
  exists {| st_frames := 2; st_labels := {| lv_labels := [lit "a"]; lv_index := [(lit "a", 0)] |}; st_data := [1; 3]%R |}, 3%R. split; [reflexivity|]. apply interpolated_range; cbn; lra.
Qed.
Print Assumptions C147_last_refuted.
