(** Where a number in a text ends. *)
From Coq Require Import Ascii String List Arith Bool NArith ZArith Reals SpecFloat Lia.
From Verif Require Import Base BaseProofs Str StrBase StrModel CastSpec CastModel CastProofs FltSpec FltModel FltNum FltText FltProofs FltRead TokSpec TokModel IoModel TblSpec TblModel.
Import ListNotations.
Local Open Scope Z_scope.

Lemma print_g_text f x : writable f -> of_format f x -> print_g x = to_str_float x.
Proof.
  intros W H. destruct x as [[]|[]| |s m e]; try reflexivity. destruct (print_shape f s m e W H) as [E _]. rewrite E. cbn [print_g].
  destruct (six (scale_num 2 (Zpos m) (- e)) (scale_den 2 1 (- e))), s; reflexivity.
Qed.

(** ** the end of a decimal number *)
Lemma after_exponent_ok ex x r : exponent_text ex x -> number_ends r -> after_exponent (lit "eE") (ex ++ r) = r.
Proof.
  intros H R. destruct H as [|c sg sgn ds C S N D].
  - cbn [app]. destruct r as [|c r]; [reflexivity|]. cbn [after_exponent]. destruct R as [_ R]. destruct (in_set (lit "eE") c) eqn:E; [|reflexivity]. exfalso. apply in_set_In in E. apply R. cbn in *. tauto.
  - cbn [app after_exponent]. replace (in_set (lit "eE") c) with true by (symmetry; apply in_set_In; exact C). rewrite <- app_assoc.
    rewrite (scan_sign_ok sg sgn); [|exact S|destruct ds as [|d ds]; [congruence|]; cbn [app]; apply digit_head_sign; apply Forall_inv in D; exact D].
    rewrite take_base_ok; [|exact D|destruct r as [|d r]; [exact I|cbn in *; tauto]]. replace (0 + length ds =? 0)%nat with false by (destruct ds; [congruence|reflexivity]). reflexivity.
Qed.
Lemma number_start_infinity s : number_start s -> starts_word (lit "infinity") s = false.
Proof.
  intros H. destruct (number_start_words s H) as [E _]. destruct s as [|c s]; [destruct H|]. unfold starts_word in *. cbn [map starts_with lit list_ascii_of_string] in *.
  destruct (Ascii.eqb "i" (to_lower c)) eqn:A; [|reflexivity]. exfalso. destruct H as [H _]. apply Ascii.eqb_eq in A. destruct H as [H| ->]; [|discriminate].
  unfold to_lower, is_digit_char in *. rewrite N_nat_ascii in *. replace ((65 <=? N.of_nat (nat_of_ascii c))%N) with false in A by lia. cbn [andb] in A. subst c. cbv in H. lia.
Qed.
Lemma after_decimal ws s sgn v r : Forall is_space_char ws -> decimal_text s sgn v -> number_ends r -> after_number (ws ++ s ++ r) = r.
Proof.
  intros W H R. destruct H as [sg sgn ip pt fp ex x S I F N P E].
  destruct (mantissa_ok ip pt fp ex x r I F N P E R) as [M B]. rewrite <- !app_assoc. unfold after_number.
  assert (Hd : match ip ++ pt ++ fp ++ ex ++ r with c :: _ => c <> "-"%char /\ c <> "+"%char /\ isspace c = false | [] => False end).
  { destruct (ip ++ pt ++ fp ++ ex ++ r) as [|c t]; [destruct B|]. destruct B as [[B| ->] _]; [apply digit_not_space in B; destruct B as (B1 & B2 & B3 & _); apply Ascii.eqb_neq in B2, B3; auto|repeat split; discriminate]. }
  rewrite skip_space_app; [|exact W|].
  - rewrite (scan_sign_ok sg sgn); [|exact S|destruct (ip ++ pt ++ fp ++ ex ++ r); tauto].
    rewrite (number_start_infinity _ B). destruct (number_start_words _ B) as (-> & -> & ->). rewrite M. exact (after_exponent_ok ex x r E R).
  - intros c t Q. destruct S; cbn [app] in Q; [destruct (ip ++ pt ++ fp ++ ex ++ r); [destruct Hd|]; injection Q as <- _; tauto|injection Q as <- _; reflexivity|injection Q as <- _; reflexivity].
Qed.
(** ** words *)
Lemma space_isspace c : is_space_char c <-> isspace c = true.
Proof. unfold isspace. rewrite in_set_In. reflexivity. Qed.
Lemma case_cons w b word : any_case w (b :: word) -> exists a w', w = a :: w' /\ (a = b \/ N_of_ascii b = (N_of_ascii a + 32)%N) /\ any_case w' word.
Proof. intros H. inversion H; subst. eauto. Qed.
Lemma case_letter a b : (97 <= N_of_ascii b <= 122)%N -> a = b \/ N_of_ascii b = (N_of_ascii a + 32)%N -> (65 <= N_of_ascii a <= 122)%N.
Proof. intros B [->|E]; lia. Qed.
Lemma letter_plain a : (65 <= N_of_ascii a <= 122)%N -> a <> "-"%char /\ a <> "+"%char /\ isspace a = false.
Proof.
  intros [H1 H2]. split; [intros ->; apply H1; reflexivity|]. split; [intros ->; apply H1; reflexivity|]. destruct (isspace a) eqn:E; [|reflexivity]. exfalso. apply space_isspace in E. cbn in E.
  repeat (destruct E as [<-|E]; [apply H1; reflexivity|]). exact E.
Qed.
Lemma lower_letter a b : (97 <= N_of_ascii b <= 122)%N -> a = b \/ N_of_ascii b = (N_of_ascii a + 32)%N -> to_lower a = b.
Proof. intros B E. symmetry. apply Ascii.eqb_eq. apply lower_match; assumption. Qed.
Lemma map_lower w word : Forall (fun b => (97 <= N_of_ascii b <= 122)%N) word -> any_case w word -> map to_lower w = word.
Proof. intros B H. induction H as [|a b w word E _ IH]; [reflexivity|]. inversion B as [|? ? B1 B2]; subst. cbn [map]. rewrite (lower_letter a b B1 E), IH by exact B2. reflexivity. Qed.
(** the word behind spaces and a sign *)
Lemma word_head ws sg sgn w word r : Forall is_space_char ws -> sign_text sg sgn -> Forall (fun b => (97 <= N_of_ascii b <= 122)%N) word -> word <> [] -> any_case w word ->
  scan_sign (skip_space (ws ++ sg ++ w ++ r)) = ((sgn <? 0), w ++ r).
Proof.
  intros W S B N A. destruct word as [|b word]; [congruence|]. apply case_cons in A. destruct A as (a & w' & -> & E & A). apply Forall_inv in B.
  pose proof (letter_plain a (case_letter a b B E)) as (L1 & L2 & L3). cbn [app]. rewrite skip_space_app; [|exact W|].
  - rewrite (scan_sign_ok sg sgn); [reflexivity|exact S|tauto].
  - intros c t Q. destruct S; cbn [app] in Q; injection Q as <- _; [exact L3|reflexivity|reflexivity].
Qed.
Lemma starts_word_app w word r : Forall (fun b => (97 <= N_of_ascii b <= 122)%N) word -> any_case w word -> starts_word word (w ++ r) = true.
Proof. intros B A. apply word_ok; [exact B|]. eauto. Qed.
Lemma inf_letters : Forall (fun b => (97 <= N_of_ascii b <= 122)%N) (lit "inf"). Proof. repeat constructor; discriminate. Qed.
Lemma nan_letters : Forall (fun b => (97 <= N_of_ascii b <= 122)%N) (lit "nan"). Proof. repeat constructor; discriminate. Qed.
Lemma read_inf f ws sg sgn w r : Forall is_space_char ws -> sign_text sg sgn -> any_case w (lit "inf") -> space_or_end r ->
  strtod f (ws ++ sg ++ w ++ r) = Some (S754_infinity (sgn <? 0)) /\ after_number (ws ++ sg ++ w ++ r) = r.
Proof.
  intros W S A R. unfold strtod, after_number. rewrite (word_head ws sg sgn w (lit "inf") r W S inf_letters ltac:(discriminate) A). rewrite (starts_word_app w (lit "inf") r inf_letters A). split; [reflexivity|].
  assert (M := map_lower w (lit "inf") inf_letters A). assert (L : length w = 3%nat) by (rewrite <- (map_length to_lower), M; reflexivity).
  replace (starts_word (lit "infinity") (w ++ r)) with false.
  - rewrite skipn_app, skipn_all2, L by lia. rewrite Nat.sub_diag. reflexivity.
  - unfold starts_word. rewrite map_app, M. destruct r as [|c r]; [reflexivity|]. cbn in R. repeat (destruct R as [<-|R]; [reflexivity|]). destruct R.
Qed.
Lemma read_nan f ws sg sgn w r : Forall is_space_char ws -> sign_text sg sgn -> any_case w (lit "nan") -> space_or_end r ->
  strtod f (ws ++ sg ++ w ++ r) = Some S754_nan /\ after_number (ws ++ sg ++ w ++ r) = r.
Proof.
  intros W S A R. unfold strtod, after_number. rewrite (word_head ws sg sgn w (lit "nan") r W S nan_letters ltac:(discriminate) A). rewrite (starts_word_app w (lit "nan") r nan_letters A).
  assert (M := map_lower w (lit "nan") nan_letters A). assert (L : length w = 3%nat) by (rewrite <- (map_length to_lower), M; reflexivity).
  replace (starts_word (lit "inf") (w ++ r)) with false by (unfold starts_word; rewrite map_app, M; reflexivity).
  replace (starts_word (lit "infinity") (w ++ r)) with false by (unfold starts_word; rewrite map_app, M; reflexivity). split; [reflexivity|].
  rewrite skipn_app, skipn_all2, L by lia. rewrite Nat.sub_diag. cbn [skipn app]. destruct r as [|c r]; [reflexivity|]. cbn [after_nan]. destruct (Ascii.eqb_spec c "(") as [->|_]; [|reflexivity].
  exfalso. cbn in R. intuition discriminate.
Qed.
Lemma space_ends r : space_or_end r -> number_ends r.
Proof.
  destruct r as [|c r]; [auto|]. cbn [space_or_end number_ends]. intros H. split.
  - intros D. apply digit_not_space in D. destruct D as [D _]. apply space_isspace in H. congruence.
  - intros Q. cbn in H, Q. repeat (destruct H as [<-|H]; [intuition discriminate|]). exact H.
Qed.
(** ** any number that was written *)
Lemma no_nul_read f s : ~ In nul s -> from_str_float f s = match strtod f s with Some x => (x, true) | None => (S754_zero false, false) end.
Proof. intros N. unfold from_str_float. rewrite <- (app_nil_r s) at 1. rewrite c_str_skip by exact N. cbn [c_str]. rewrite app_nil_r. reflexivity. Qed.
Definition read_back (f : format) (x : spec_float) : spec_float := fst (from_str_float f (to_str_float x)).
Lemma strtod_decimal f s sgn v r : decimal_text s sgn v -> number_ends r -> strtod f (s ++ r) = strtod f s.
Proof.
  intros H R. destruct H as [sg sgn ip pt fp ex x S I F N P E].
  destruct (mantissa_ok ip pt fp ex x r I F N P E R) as [M B]. destruct (mantissa_ok ip pt fp ex x [] I F N P E Logic.I) as [M' B']. rewrite <- !app_assoc. rewrite !app_nil_r in *. 
  assert (X := exponent_ok ex x r E R). assert (X' := exponent_ok ex x [] E Logic.I). rewrite app_nil_r in X'.
  assert (G : forall u e', scan_mantissa 10 u = Some (decimal_value (ip ++ fp), length fp, e') -> number_start u -> scan_exponent (lit "eE") e' = x ->
    strtod f (sg ++ u) = Some (round_scaled f (sgn <? 0) (decimal_value (ip ++ fp)) 10 (x - Z.of_nat (length fp)))).
  { intros u e' U1 U2 U3. assert (Hd : match u with c :: _ => c <> "-"%char /\ c <> "+"%char /\ isspace c = false | [] => False end).
    { destruct u as [|c t]; [destruct U2|]. destruct U2 as [[U2| ->] _]; [apply digit_not_space in U2; destruct U2 as (B1 & B2 & B3 & _); apply Ascii.eqb_neq in B2, B3; auto|repeat split; discriminate]. }
    unfold strtod. change (sg ++ u) with ([] ++ sg ++ u). rewrite skip_space_app; [|constructor|].
    - rewrite (scan_sign_ok sg sgn); [|exact S|destruct u; tauto]. destruct (number_start_words _ U2) as (-> & -> & ->). rewrite U1, U3. reflexivity.
    - intros c t Q. destruct S; cbn [app] in Q; [destruct u; [destruct Hd|]; injection Q as <- _; tauto|injection Q as <- _; reflexivity|injection Q as <- _; reflexivity]. }
  rewrite (G _ _ M B X), (G _ _ M' B' X'). reflexivity.
Qed.
Lemma written_read f x r : writable f -> of_format f x -> space_or_end r ->
  strtod f (print_g x ++ r) = Some (read_back f x) /\ after_number (print_g x ++ r) = r.
Proof.
  intros W H R. rewrite (print_g_text f x W H). unfold read_back.
  assert (G : finite x -> strtod f (to_str_float x ++ r) = Some (fst (from_str_float f (to_str_float x))) /\ after_number (to_str_float x ++ r) = r).
  { intros F. assert (D := written_decimal f x W H F). split; [|exact (after_decimal [] _ _ _ r (Forall_nil _) D (space_ends r R))].
    rewrite (strtod_decimal f _ _ _ r D (space_ends r R)). rewrite no_nul_read by (eapply decimal_no_nul; exact D).
    destruct (decimal_text_read f [] _ _ _ [] (Forall_nil _) D I) as (V & q & _ & _ & E). cbn [app] in E. rewrite app_nil_r in E. rewrite E. reflexivity. }
  destruct x as [s|s| |s m e]; [exact (G I)| | |exact (G I)].
  - destruct s; [exact (read_inf f [] ["-"%char] (-1) (lit "inf") r (Forall_nil _) sign_minus ltac:(repeat constructor) R)|exact (read_inf f [] [] 1 (lit "inf") r (Forall_nil _) sign_none ltac:(repeat constructor) R)].
  - exact (read_nan f [] [] 1 (lit "nan") r (Forall_nil _) sign_none ltac:(repeat constructor) R).
Qed.
(** the first character of a written number *)
Lemma written_head f x : writable f -> of_format f x -> exists c t, print_g x = c :: t /\ isspace c = false.
Proof.
  intros W H. destruct x as [[]|[]| |s m e]; try (eexists _, _; split; [reflexivity|reflexivity]). rewrite (print_g_text f _ W H).
  assert (D := written_decimal f _ W H I). destruct D as [sg sgn ip pt fp ex x S II F N P E]. destruct (mantissa_ok ip pt fp ex x [] II F N P E I) as [_ B]. rewrite app_nil_r in B.
  destruct S; cbn [app]; try (eexists _, _; split; reflexivity). destruct (ip ++ pt ++ fp ++ ex) as [|c t]; [destruct B|]. exists c, t. split; [reflexivity|].
  destruct B as [[B| ->] _]; [apply digit_not_space in B; tauto|reflexivity].
Qed.
Lemma written_no_space f x : writable f -> of_format f x -> Forall (fun c => ~ is_space_char c /\ c <> nul) (print_g x).
Proof.
  intros W H. destruct x as [[]|[]| |s m e]; try (repeat constructor; cbn; intuition discriminate). rewrite (print_g_text f _ W H).
  assert (D := written_decimal f _ W H I). assert (DG : forall ds, Forall is_digit_char ds -> Forall (fun c => ~ is_space_char c /\ c <> nul) ds).
  { intros ds. apply Forall_impl. intros c Q. apply digit_not_space in Q. split; [rewrite space_isspace; destruct Q as [Q _]; congruence|tauto]. }
  assert (SG : forall sg x, sign_text sg x -> Forall (fun c => ~ is_space_char c /\ c <> nul) sg) by (intros sg x [| |]; repeat constructor; cbn; intuition discriminate).
  destruct D as [sg sgn ip pt fp ex x S II F N P E]. rewrite !Forall_app. split; [eapply SG; exact S|]. split; [apply DG; exact II|]. split; [destruct P as [->|[-> _]]; repeat constructor; cbn; intuition discriminate|].
  split; [apply DG; exact F|]. destruct E as [|c sg' x' ds C S' N' D']; [constructor|]. constructor; [destruct C as [<-|[<-|[]]]; cbn; intuition discriminate|]. apply Forall_app. split; [eapply SG; exact S'|apply DG; exact D'].
Qed.
