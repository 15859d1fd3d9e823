(** Which texts are read as a number: hexadecimal numbers, words, and texts that are refused. *)
From Coq Require Import Ascii String List Arith Bool NArith ZArith Reals SpecFloat Lia Lra Psatz.
From Flocq Require Import Core.
From Verif Require Import Base BaseProofs Str StrBase StrModel CastSpec CastModel CastProofs FltSpec FltModel FltNum FltText.
Import ListNotations.
Local Open Scope Z_scope.

(** ** hexadecimal numbers *)
Lemma Forall2_len {A B} (P : A -> B -> Prop) a b : Forall2 P a b -> length a = length b.
Proof. induction 1; cbn; congruence. Qed.
Lemma hex_read c v : hex_digit c v -> digit_of 16 c = Some v.
Proof.
  intros (n & -> & H). do 16 (destruct n as [|n]; [destruct H as [H|H]; injection H as <-; reflexivity|]). destruct n; destruct H as [H|H]; discriminate.
Qed.
Lemma hex_read_inv c v : digit_of 16 c = Some v -> hex_digit c v.
Proof.
  unfold digit_of. rewrite N_nat_ascii, nat_N_Z. intros H. rewrite <- (ascii_nat_embedding c). set (n := nat_of_ascii c) in *. clearbody n.
  destruct ((48 <=? Z.of_nat n) && (Z.of_nat n <=? 57)) eqn:A; [|destruct ((65 <=? Z.of_nat n) && (Z.of_nat n <=? 70)) eqn:B; [|destruct ((97 <=? Z.of_nat n) && (Z.of_nat n <=? 102)) eqn:C; [|discriminate]]];
    destruct (_ <? 16) eqn:L; try discriminate; injection H as <-.
  - exists (n - 48)%nat. split; [lia|]. assert (n - 48 <= 9)%nat by lia. replace n with (48 + (n - 48))%nat at 2 4 by lia. set (k := (n - 48)%nat) in *. clearbody k. do 10 (destruct k as [|k]; [left; reflexivity|]). lia.
  - exists (n - 55)%nat. split; [lia|]. assert (n - 65 <= 5)%nat by lia. replace (n - 55)%nat with (10 + (n - 65))%nat by lia. replace n with (65 + (n - 65))%nat at 2 4 by lia. set (k := (n - 65)%nat) in *. clearbody k. do 6 (destruct k as [|k]; [right; reflexivity|]). lia.
  - exists (n - 87)%nat. split; [lia|]. assert (n - 97 <= 5)%nat by lia. replace (n - 87)%nat with (10 + (n - 97))%nat by lia. replace n with (97 + (n - 97))%nat at 2 4 by lia. set (k := (n - 97)%nat) in *. clearbody k. do 6 (destruct k as [|k]; [left; reflexivity|]). lia.
Qed.
Definition no_hex_head (r : str) : Prop := match r with [] => True | c :: _ => digit_of 16 c = None end.
Lemma take_hex ds vs : Forall2 hex_digit ds vs -> forall r acc n, no_hex_head r -> take_base 16 (ds ++ r) acc n = (fold_left (fun a v => 16 * a + v) vs acc, (n + length ds)%nat, r).
Proof.
  induction 1 as [|c v ds vs C _ IH]; intros r acc n R.
  - cbn [app fold_left length]. rewrite Nat.add_0_r. destruct r as [|c r]; [reflexivity|]. cbn [take_base]. cbn in R. rewrite R. reflexivity.
  - cbn [app take_base fold_left length]. rewrite (hex_read c v C), IH by exact R. f_equal. f_equal; [f_equal; ring|lia].
Qed.
Lemma hex_ends_head r : hexadecimal_ends r -> no_hex_head r.
Proof. destruct r as [|c r]; [auto|]. cbn. intros [H _]. destruct (digit_of 16 c) as [v|] eqn:E; [|reflexivity]. exfalso. apply H. exists v. apply hex_read_inv. exact E. Qed.
Lemma hex_of_decimal c : is_digit_char c -> exists v, hex_digit c v.
Proof.
  intros H. exists (Z.of_nat (nat_of_ascii c) - 48). apply hex_read_inv. unfold digit_of, is_digit_char in *. rewrite N_nat_ascii, nat_N_Z. replace ((48 <=? Z.of_nat (nat_of_ascii c)) && (Z.of_nat (nat_of_ascii c) <=? 57)) with true by lia. replace (_ <? 16) with true by lia. reflexivity.
Qed.
Lemma binary_exponent_ok ex x r : binary_exponent ex x -> hexadecimal_ends r -> scan_exponent (lit "pP") (ex ++ r) = x.
Proof.
  intros H R. assert (R' : no_digit_head r) by (destruct r as [|c r]; [exact I|]; cbn in *; intros D; apply hex_of_decimal in D; tauto). destruct H as [|c sg sgn ds C S N D].
  - cbn [app]. destruct r as [|c r]; [reflexivity|]. cbn [scan_exponent]. destruct R as [_ R]. destruct (in_set (lit "pP") c) eqn:E; [|reflexivity]. exfalso. apply in_set_In in E. apply R. cbn in *. tauto.
  - cbn [app scan_exponent]. replace (in_set (lit "pP") c) with true by (symmetry; apply in_set_In; exact C). rewrite <- app_assoc. rewrite (scan_sign_ok sg sgn); [|exact S|destruct ds as [|d ds]; [congruence|]; cbn [app]; apply digit_head_sign; apply Forall_inv in D; exact D].
    rewrite (take_base_ok ds r 0 0 D R'). destruct ds as [|d ds]; [congruence|]. cbn [length Nat.add Nat.eqb]. replace (0 * _ + _) with (decimal_value (d :: ds)) by lia. destruct S; cbn [Z.ltb Z.compare]; lia.
Qed.
Lemma hex_mantissa ip pt fp vs ex x r : Forall2 hex_digit (ip ++ fp) vs -> vs <> [] -> pt = ["."%char] \/ (pt = [] /\ fp = []) -> binary_exponent ex x -> hexadecimal_ends r ->
  scan_mantissa 16 (ip ++ pt ++ fp ++ ex ++ r) = Some (hex_value vs, length fp, ex ++ r).
Proof.
  intros H N P E R. apply Forall2_app_inv_l in H. destruct H as (vi & vf & Hi & Hf & ->). unfold hex_value. rewrite fold_left_app.
  assert (T : no_hex_head (ex ++ r) /\ match ex ++ r with c :: _ => Ascii.eqb c "." = false | [] => True end).
  { destruct E as [|c sg sgn ds C S N' D]; cbn [app]; [|destruct C as [<-|[<-|[]]]; split; reflexivity]. split; [apply hex_ends_head; exact R|]. destruct r as [|c r]; [exact I|]. apply Ascii.eqb_neq. intros ->. apply R. cbn. tauto. }
  assert (L : (length ip + length fp =? 0)%nat = false) by (apply Nat.eqb_neq; apply Forall2_len in Hi; apply Forall2_len in Hf; destruct vi; [destruct vf; [cbn in N; congruence|]|]; cbn in *; lia).
  unfold scan_mantissa. destruct P as [->|[-> ->]].
  - rewrite (take_hex ip vi Hi) by reflexivity. cbn [app]. change (Ascii.eqb "." ".") with true. cbn match. rewrite (take_hex fp vf Hf) by tauto. cbn [Nat.add]. rewrite L. reflexivity.
  - inversion Hf; subst. cbn [app fold_left length]. rewrite (take_hex ip vi Hi) by tauto. replace (match ex ++ r with c :: t => _ | [] => _ end) with (fold_left (fun a v => 16 * a + v) vi 0, O, ex ++ r).
    + cbn [Nat.add]. cbn [length] in L. rewrite L. reflexivity.
    + destruct (ex ++ r) as [|c t]; [reflexivity|]. rewrite (proj2 T). reflexivity.
Qed.
Lemma hex_no_nul s sgn v : hexadecimal_text s sgn v -> ~ In nul s.
Proof.
  intros H Z. assert (D : forall ds, Forall is_digit_char ds -> ~ In nul ds).
  { intros ds D. rewrite Forall_forall in D. intros Q. apply D in Q. unfold is_digit_char in Q. cbv in Q. lia. }
  assert (G : forall sg x, sign_text sg x -> ~ In nul sg) by (intros sg x [| |]; cbn; intuition discriminate).
  assert (X : forall ds vs, Forall2 hex_digit ds vs -> ~ In nul ds) by (induction 1 as [|c v' ds vs C _ IH]; [tauto|]; intros [->|Q]; [apply hex_read in C; discriminate|tauto]).
  destruct H as [sg sgn z ip pt fp vs ex x S Zx F N P E]. apply X in F. rewrite in_app_iff in F. rewrite in_app_iff in Z. cbn [In] in Z. rewrite !in_app_iff in Z. destruct Z as [Z|[Z|[Z|[Z|[Z|[Z|Z]]]]]]; try tauto; try discriminate.
  - exact (G _ _ S Z).
  - subst z. destruct Zx as [Zx|[Zx|[]]]; discriminate.
  - destruct P as [->|[-> _]]; cbn in Z; intuition discriminate.
  - destruct E as [|c sg' x' ds C S' N' D']; [destruct Z|]. destruct Z as [Z|Z]; [subst c; destruct C as [C|[C|[]]]; discriminate|]. rewrite in_app_iff in Z. destruct Z as [Z|Z]; [exact (G _ _ S' Z)|exact (D _ D' Z)].
Qed.
Lemma spaces_no_nul ws : Forall is_space_char ws -> ~ In nul ws.
Proof. intros W Z. rewrite Forall_forall in W. apply W in Z. cbn in Z. intuition discriminate. Qed.
Lemma read_hexadecimal f ws s sgn v r : usable f -> Forall is_space_char ws -> hexadecimal_text s sgn v -> hexadecimal_ends r ->
  snd (from_str_float f (ws ++ s ++ r)) = true /\ negative (fst (from_str_float f (ws ++ s ++ r))) = (sgn <? 0) /\ nearest f v (fst (from_str_float f (ws ++ s ++ r))).
Proof.
  intros U W H R. unfold from_str_float. rewrite c_str_skip by (apply spaces_no_nul; exact W). rewrite c_str_skip by (eapply hex_no_nul; exact H).
  assert (R' : hexadecimal_ends (c_str r)) by (destruct r as [|c r]; [exact I|]; cbn; destruct (Ascii.eqb c nul); [exact I|exact R]). set (r' := c_str r) in *. clearbody r'. clear R r.
  assert (Q : exists V q, 0 <= V /\ v = (IZR V * bpow radix2 q)%R /\ strtod f (ws ++ s ++ r') = Some (round_scaled f (sgn <? 0) V 2 q)).
  { destruct H as [sg sgn z ip pt fp vs ex x S Z F N P E]. exists (hex_value vs), (x - 4 * Z.of_nat (length fp)). split; [|split].
    - assert (B : forall us (ds : str) a, Forall2 hex_digit ds us -> 0 <= a -> 0 <= fold_left (fun a v => 16 * a + v) us a).
      { induction us as [|u us IH]; intros ds a Q A; [exact A|]. inversion Q as [|d ? ds' ? (n & -> & _) Q']; subst. cbn [fold_left]. apply (IH ds'); [exact Q'|lia]. }
      apply (B vs _ 0 F). lia.
    - rewrite p2. reflexivity.
    - unfold strtod. rewrite skip_space_app; [|exact W|intros c t Q; destruct S; cbn [app] in Q; injection Q as <- _; reflexivity]. rewrite <- app_assoc. cbn [app].
      rewrite (scan_sign_ok sg sgn); [|exact S|split; discriminate].
      replace (starts_word (lit "inf") _) with false by reflexivity. replace (starts_word (lit "nan") _) with false by reflexivity. replace (starts_word (lit "0x") _) with true by (destruct Z as [<-|[<-|[]]]; reflexivity).
      cbn [skipn]. rewrite <- !app_assoc. rewrite (hex_mantissa ip pt fp vs ex x r' F N P E R'). rewrite (binary_exponent_ok ex x r' E R'). reflexivity. }
  destruct Q as (V & q & V0 & -> & ->). cbn [fst snd]. split; [reflexivity|]. destruct (round_scaled_ok f U (sgn <? 0) V radix2 q V0) as (A & B & C). change (radix_val radix2) with 2 in *. split; [exact B|].
  assert (P0 : (0 <= IZR V * bpow radix2 q)%R) by (apply Rmult_le_pos; [apply IZR_le; exact V0|apply bpow_ge_0]). apply nearest_ok; [exact U|exact P0|exact A|].
  rewrite B. destruct C as [(C1 & C2 & C3)|C]; [left|right; exact C]. split; [exact C1|]. split; [exact C2|]. rewrite C3.
  assert (0 <= rnd2 f (IZR V * bpow radix2 q))%R by (pose proof (rnd2_le f 0 _ U P0) as L; unfold rnd2 at 1 in L; rewrite round_0 in L by apply valid_rnd_N; exact L).
  destruct (sgn <? 0); [rewrite Rabs_Ropp|]; apply Rabs_pos_eq; assumption.
Qed.

(** ** words *)
Lemma lower_match a b : (97 <= N_of_ascii b <= 122)%N -> (Ascii.eqb b (to_lower a) = true <-> a = b \/ N_of_ascii b = (N_of_ascii a + 32)%N).
Proof.
  intros B. rewrite Ascii.eqb_eq. unfold to_lower. destruct ((65 <=? N_of_ascii a) && (N_of_ascii a <=? 90))%N eqn:A.
  - split; [intros ->; right; apply N_ascii_embedding; lia|]. intros [->|E]; [lia|]. rewrite <- E. symmetry. apply ascii_N_embedding.
  - split; [auto|]. intros [->|E]; [reflexivity|]. lia.
Qed.
Lemma word_ok word : Forall (fun b => (97 <= N_of_ascii b <= 122)%N) word -> forall r, starts_word word r = true <-> exists w t, r = w ++ t /\ any_case w word.
Proof.
  unfold starts_word. induction 1 as [|b word B _ IH]; intros r.
  - split; [intros _; exists [], r; split; [reflexivity|constructor]|]. intros _. destruct (map to_lower r); reflexivity.
  - destruct r as [|a r].
    + split; [discriminate|]. intros (w & t & E & A). inversion A; subst. discriminate.
    + cbn [map starts_with]. rewrite andb_true_iff, IH, (lower_match a b B). split.
      * intros [E (w & t & -> & A)]. exists (a :: w), t. split; [reflexivity|constructor; assumption].
      * intros (w & t & E & A). inversion A as [|a' ? w' ? E1 A']; subst. injection E as <- ->. split; [exact E1|]. exists w', t. auto.
Qed.
Lemma inf_ok r : starts_word (lit "inf") r = true <-> exists w t, r = w ++ t /\ any_case w (list_ascii_of_string "inf").
Proof. apply word_ok. repeat constructor; discriminate. Qed.
Lemma nan_ok r : starts_word (lit "nan") r = true <-> exists w t, r = w ++ t /\ any_case w (list_ascii_of_string "nan").
Proof. apply word_ok. repeat constructor; discriminate. Qed.

(** ** what is refused *)
Lemma sign_split s : exists sg, s = sg ++ snd (scan_sign s) /\ sign_text sg (if fst (scan_sign s) then -1 else 1).
Proof.
  destruct s as [|c s]; [exists []; split; [reflexivity|constructor]|]. cbn [scan_sign]. destruct (Ascii.eqb_spec c "-") as [->|]; [exists ["-"%char]; split; [reflexivity|constructor]|].
  destruct (Ascii.eqb_spec c "+") as [->|]; [exists ["+"%char]; split; [reflexivity|constructor]|]. exists []. split; [reflexivity|constructor].
Qed.
Lemma take_count_le base s : forall acc n, (n <= snd (fst (take_base base s acc n)))%nat.
Proof. induction s as [|c s IH]; intros acc n; [cbn; lia|]. cbn [take_base]. destruct (digit_of base c); [|cbn; lia]. specialize (IH (acc * base + z) (S n)). lia. Qed.
Lemma take_none s acc : snd (fst (take_base 10 s acc 0)) = O -> no_digit_head s /\ snd (take_base 10 s acc 0) = s.
Proof.
  destruct s as [|c s]; [intros _; split; [exact I|reflexivity]|]. cbn [take_base no_digit_head]. destruct (digit_of 10 c) as [v|] eqn:E.
  - intros H. pose proof (take_count_le 10 s (acc * 10 + v) 1). lia.
  - intros _. split; [|reflexivity]. intros D. rewrite (digit_of_digit c D) in E. discriminate.
Qed.
Lemma take_some c s acc : is_digit_char c -> (0 < snd (fst (take_base 10 (c :: s) acc 0)))%nat.
Proof. intros D. cbn [take_base]. rewrite (digit_of_digit c D). pose proof (take_count_le 10 s (acc * 10 + (Z.of_nat (nat_of_ascii c) - 48)) 1). lia. Qed.
Lemma mantissa_none r : scan_mantissa 10 r = None <-> ~ ((exists c t, r = c :: t /\ is_digit_char c) \/ (exists c t, r = "."%char :: c :: t /\ is_digit_char c)).
Proof.
  unfold scan_mantissa. destruct (take_base 10 r 0 0) as [[v n] u] eqn:E. split.
  - intros H [(c & t & -> & D)|(c & t & -> & D)].
    + pose proof (take_some c t 0 D) as P. rewrite E in P. cbn [fst snd] in P. destruct (match u with [] => _ | _ => _ end) as [[v2 n2] r2]. replace (n + n2 =? 0)%nat with false in H by (symmetry; apply Nat.eqb_neq; lia). discriminate.
    + cbn [take_base] in E. change (digit_of 10 ".") with (@None Z) in E. injection E as <- <- <-. change (Ascii.eqb "." ".") with true in H. cbn match in H. pose proof (take_some c t 0 D) as P. destruct (take_base 10 (c :: t) 0 0) as [[v2 n2] r2]. cbn [fst snd] in P.
      replace (0 + n2 =? 0)%nat with false in H by (symmetry; apply Nat.eqb_neq; lia). discriminate.
  - intros H. assert (N : n = O).
    { destruct n; [reflexivity|]. exfalso. apply H. left. destruct r as [|c t]; [discriminate|]. exists c, t. split; [reflexivity|]. cbn [take_base] in E. destruct (isdigit c) eqn:I; [apply isdigit_iff; exact I|]. rewrite digit_of_other in E; [discriminate|]. intros D. apply isdigit_iff in D. congruence. }
    subst n. destruct (take_none r 0) as [_ R]; [rewrite E; reflexivity|]. rewrite E in R. cbn [snd] in R. subst u. destruct r as [|c t]; [reflexivity|]. destruct (Ascii.eqb_spec c ".") as [->|_]; [|reflexivity].
    destruct (take_base 10 t v 0) as [[v2 n2] r2] eqn:E2. replace n2 with O; [reflexivity|]. destruct n2; [reflexivity|]. exfalso. apply H. right. destruct t as [|d t]; [discriminate|]. exists d, t. split; [reflexivity|]. cbn [take_base] in E2. destruct (isdigit d) eqn:I; [apply isdigit_iff; exact I|]. rewrite digit_of_other in E2; [discriminate|]. intros D. apply isdigit_iff in D. congruence.
Qed.
Lemma begins_head r : number_begins r -> exists c t, r = c :: t /\ isspace c = false /\ c <> "-"%char /\ c <> "+"%char /\ c <> nul.
Proof.
  assert (W : forall w u, any_case w u -> Forall (fun b => (97 <= N_of_ascii b <= 122)%N) u -> u <> [] -> exists c t, w = c :: t /\ isspace c = false /\ c <> "-"%char /\ c <> "+"%char /\ c <> nul).
  { intros w u A F N. destruct A as [|a b w u A _]; [congruence|]. apply Forall_inv in F. exists a, w. split; [reflexivity|]. assert (L : (65 <= N_of_ascii a)%N) by (destruct A as [->|A]; lia).
    split; [|repeat split; intros ->; cbv in L; apply L; reflexivity]. destruct (isspace a) eqn:S; [|reflexivity]. apply isspace_iff in S. exfalso. unfold is_space_char in S. cbn in S. repeat (destruct S as [<-|S]; [cbv in L; apply L; reflexivity|]). destruct S. }
  intros [(c & t & -> & D)|[(c & t & -> & D)|(w & t & -> & [A|A])]].
  - apply digit_not_space in D. destruct D as (D1 & D2 & D3 & D4 & _). apply Ascii.eqb_neq in D2, D3. exists c, t. auto.
  - exists "."%char, (c :: t). repeat split; discriminate.
  - destruct (W _ _ A) as (c & t' & -> & H); [repeat constructor; discriminate|discriminate|]. exists c, (t' ++ t). split; [reflexivity|exact H].
  - destruct (W _ _ A) as (c & t' & -> & H); [repeat constructor; discriminate|discriminate|]. exists c, (t' ++ t). split; [reflexivity|exact H].
Qed.
Lemma strtod_some f s : strtod f s <> None <-> exists ws sg sgn r, s = ws ++ sg ++ r /\ Forall is_space_char ws /\ sign_text sg sgn /\ number_begins r.
Proof.
  assert (B : forall neg r, (if starts_word (lit "inf") r then Some (S754_infinity neg) else if starts_word (lit "nan") r then Some S754_nan else
    match (if starts_word (lit "0x") r then scan_mantissa 16 (skipn 2 r) else None) with
    | Some (v, k, r2) => Some (round_scaled f neg v 2 (scan_exponent (lit "pP") r2 - 4 * Z.of_nat k))
    | None => match scan_mantissa 10 r with Some (v, k, r2) => Some (round_scaled f neg v 10 (scan_exponent (lit "eE") r2 - Z.of_nat k)) | None => None end end) <> None <-> number_begins r).
  { intros neg r. destruct (starts_word (lit "inf") r) eqn:I; [apply inf_ok in I; destruct I as (w & t & E & A); split; [|discriminate]; intros _; right; right; exists w, t; auto|].
    destruct (starts_word (lit "nan") r) eqn:Na; [apply nan_ok in Na; destruct Na as (w & t & E & A); split; [|discriminate]; intros _; right; right; exists w, t; auto|].
    assert (M : scan_mantissa 10 r <> None <-> number_begins r).
    { destruct (scan_mantissa 10 r) eqn:M.
      - split; [|discriminate]. intros _. destruct r as [|c t]; [discriminate|]. destruct (isdigit c) eqn:D; [left; exists c, t; split; [reflexivity|apply isdigit_iff; exact D]|].
        destruct (Ascii.eqb_spec c ".") as [->|N].
        + destruct t as [|d t]; [discriminate|]. destruct (isdigit d) eqn:D2; [right; left; exists d, t; split; [reflexivity|apply isdigit_iff; exact D2]|]. exfalso. assert (scan_mantissa 10 ("."%char :: d :: t) = None) by (apply mantissa_none; intros [(c & u & Q & Dc)|(c & u & Q & Dc)]; [injection Q as <- _; apply isdigit_iff in Dc; discriminate Dc|injection Q as <- _; apply isdigit_iff in Dc; congruence]). congruence.
        + exfalso. assert (scan_mantissa 10 (c :: t) = None) by (apply mantissa_none; intros [(c' & u & Q & Dc)|(c' & u & Q & Dc)]; injection Q as Q1 Q2; [subst c'; apply isdigit_iff in Dc|]; congruence). congruence.
      - split; [congruence|]. intros [H|[H|(w & t & E & [A|A])]]; [exfalso; apply mantissa_none in M; tauto|exfalso; apply mantissa_none in M; tauto| |].
        + assert (starts_word (lit "inf") r = true) by (apply inf_ok; exists w, t; auto). congruence.
        + assert (starts_word (lit "nan") r = true) by (apply nan_ok; exists w, t; auto). congruence. }
    rewrite <- M. destruct (starts_word (lit "0x") r) eqn:X.
    - assert (Y : scan_mantissa 10 r <> None).
      { rewrite mantissa_none. intros H. apply H. left. destruct r as [|c t]; [discriminate|]. exists c, t. split; [reflexivity|]. unfold starts_word in X. cbn [map starts_with lit list_ascii_of_string] in X. apply andb_prop in X. destruct X as [X _]. apply Ascii.eqb_eq in X.
        unfold to_lower in X. destruct ((65 <=? N_of_ascii c) && (N_of_ascii c <=? 90))%N eqn:L; [apply (f_equal N_of_ascii) in X; rewrite N_ascii_embedding in X by lia; change (N_of_ascii "0") with 48%N in X; lia|]. subst c. unfold is_digit_char. cbv. lia. }
      destruct (scan_mantissa 16 (skipn 2 r)) as [[[v k] r2]|]; [split; [intros _; exact Y|discriminate]|]. destruct (scan_mantissa 10 r) as [[[v k] r2]|]; [split; discriminate|congruence].
    - destruct (scan_mantissa 10 r) as [[[v k] r2]|]; [split; discriminate|tauto]. }
  unfold strtod. split.
  - intros H. destruct (skip_space_split s) as (ws & E & W). destruct (sign_split (skip_space s)) as (sg & E2 & S). destruct (scan_sign (skip_space s)) as [neg r]. apply B in H. cbn [fst snd] in E2, S. exists ws, sg, (if neg then -1 else 1), r. rewrite E, E2. auto.
  - intros (ws & sg & sgn & r & -> & W & S & N). destruct (begins_head r N) as (c & t & -> & C1 & C2 & C3 & _). rewrite skip_space_app; [|exact W|intros d u Q; destruct S; cbn [app] in Q; injection Q as <- _; try reflexivity; exact C1].
    rewrite (scan_sign_ok sg sgn); [|exact S|auto]. apply B. exact N.
Qed.
Lemma c_str_split s : exists r, s = c_str s ++ r.
Proof. induction s as [|c s (r & E)]; [exists []; reflexivity|]. cbn [c_str]. destruct (Ascii.eqb c nul); [exists (c :: s); reflexivity|]. exists r. cbn. f_equal. exact E. Qed.
Lemma digit_not_nul c : is_digit_char c -> Ascii.eqb c nul = false.
Proof. intros D. apply digit_not_space in D. apply Ascii.eqb_neq. tauto. Qed.
Lemma case_no_nul u w : any_case w u -> Forall (fun b => (97 <= N_of_ascii b <= 122)%N) u -> ~ In nul w.
Proof.
intros A. induction A as [|a b w u A _ IH]; intros F; [tauto|]. intros [->|I]; [|apply IH in I; [exact I|apply Forall_inv_tail in F; exact F]]. apply Forall_inv in F. destruct A as [<-|A]; [destruct F as [F _]; cbv in F; exfalso; apply F; reflexivity|]. change (N_of_ascii nul) with 0%N in A. lia.
Qed.
Lemma begins_c_str r : number_begins r -> number_begins (c_str r).
Proof.
  intros [(c & t & -> & D)|[(c & t & -> & D)|(w & t & -> & A)]].
  - left. exists c, (c_str t). split; [|exact D]. cbn [c_str]. rewrite (digit_not_nul c D). reflexivity.
  - right. left. exists c, (c_str t). split; [|exact D]. cbn [c_str]. change (Ascii.eqb "." nul) with false. cbn match. rewrite (digit_not_nul c D). reflexivity.
  - right. right. exists w, (c_str t). split; [|exact A]. apply c_str_skip. destruct A as [A|A]; apply (case_no_nul _ _ A); repeat constructor; discriminate.
Qed.
Lemma sign_no_nul sg sgn : sign_text sg sgn -> ~ In nul sg.
Proof. intros [| |]; cbn; intuition discriminate. Qed.
Lemma accepts f s : snd (from_str_float f s) = true <-> exists ws sg sgn r, s = ws ++ sg ++ r /\ Forall is_space_char ws /\ sign_text sg sgn /\ number_begins r.
Proof.
  unfold from_str_float. transitivity (strtod f (c_str s) <> None); [destruct (strtod f (c_str s)); cbn; intuition congruence|]. rewrite strtod_some. split.
  - intros (ws & sg & sgn & r & E & W & S & B). destruct (c_str_split s) as (q & Q). exists ws, sg, sgn, (r ++ q). split; [rewrite Q, E, <- !app_assoc; reflexivity|]. split; [exact W|]. split; [exact S|].
    destruct B as [(c & t & -> & D)|[(c & t & -> & D)|(w & t & -> & A)]]; [left; exists c, (t ++ q); auto|right; left; exists c, (t ++ q); auto|right; right; exists w, (t ++ q); rewrite app_assoc; auto].
  - intros (ws & sg & sgn & r & -> & W & S & B). exists ws, sg, sgn, (c_str r). split; [|split; [exact W|split; [exact S|apply begins_c_str; exact B]]]. rewrite c_str_skip by (apply spaces_no_nul; exact W). rewrite c_str_skip by (eapply sign_no_nul; exact S). reflexivity.
Qed.
Lemma refused f s : snd (from_str_float f s) = false -> fst (from_str_float f s) = S754_zero false.
Proof. unfold from_str_float. destruct (strtod f (c_str s)); [discriminate|reflexivity]. Qed.
Lemma words_read f ws sg sgn w r : Forall is_space_char ws -> sign_text sg sgn ->
  (any_case w (list_ascii_of_string "inf") -> from_str_float f (ws ++ sg ++ w ++ r) = (S754_infinity (sgn <? 0), true)) /\
  (any_case w (list_ascii_of_string "nan") -> from_str_float f (ws ++ sg ++ w ++ r) = (S754_nan, true)).
Proof.
  intros W S.
  assert (G : any_case w (list_ascii_of_string "inf") \/ any_case w (list_ascii_of_string "nan") -> exists r', from_str_float f (ws ++ sg ++ w ++ r) = match strtod f (ws ++ sg ++ w ++ r') with Some x => (x, true) | None => (S754_zero false, false) end /\ scan_sign (skip_space (ws ++ sg ++ w ++ r')) = ((sgn <? 0), w ++ r')).
  { intros A. exists (c_str r). assert (B : number_begins (w ++ r)) by (right; right; exists w, r; auto). assert (C := begins_c_str _ B).
    assert (N : ~ In nul w) by (destruct A as [A|A]; apply (case_no_nul _ _ A); repeat constructor; discriminate).
    unfold from_str_float. rewrite c_str_skip by (apply spaces_no_nul; exact W). rewrite c_str_skip by (eapply sign_no_nul; exact S). rewrite c_str_skip by exact N. split; [reflexivity|].
    rewrite c_str_skip in C by exact N. destruct (begins_head _ C) as (c & t & E & C1 & C2 & C3 & _). rewrite E. rewrite skip_space_app; [|exact W|intros d u Q; destruct S; cbn [app] in Q; injection Q as <- _; try reflexivity; exact C1].
    apply scan_sign_ok; [exact S|auto]. }
  split; intros A; (destruct G as (r' & -> & E); [tauto|]); unfold strtod; rewrite E.
  - replace (starts_word (lit "inf") (w ++ r')) with true by (symmetry; apply inf_ok; exists w, r'; auto). reflexivity.
  - replace (starts_word (lit "inf") (w ++ r')) with false.
    + replace (starts_word (lit "nan") (w ++ r')) with true by (symmetry; apply nan_ok; exists w, r'; auto). reflexivity.
    + symmetry. destruct (starts_word (lit "inf") (w ++ r')) eqn:I; [|reflexivity]. exfalso. apply inf_ok in I. destruct I as (w' & t & Q & I). inversion A as [|a ? ? ? A1 A2]; subst. inversion I as [|b ? ? ? B1 B2]; subst. injection Q as <- _.
      destruct A1 as [->|A1], B1 as [B1|B1]; try discriminate; subst; try discriminate. change (N_of_ascii "n") with 110%N in *. change (N_of_ascii "i") with 105%N in *. lia.
Qed.
