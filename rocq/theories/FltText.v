(** Reading decimal numbers and writing six digits. *)
From Coq Require Import Ascii String List Arith Bool NArith ZArith Reals SpecFloat Lia Lra Psatz.
From Flocq Require Import Core.
From Verif Require Import Base BaseProofs Str StrBase StrModel CastSpec CastModel CastProofs FltSpec FltModel FltNum.
Import ListNotations.
Local Open Scope Z_scope.

(** ** reading *)
Lemma digit_of_digit c : is_digit_char c -> digit_of 10 c = Some (Z.of_nat (nat_of_ascii c) - 48).
Proof.
  intros H. unfold digit_of. rewrite N_nat_ascii in *. unfold is_digit_char in H. rewrite nat_N_Z. replace (48 <=? Z.of_nat (nat_of_ascii c)) with true by lia. replace (Z.of_nat (nat_of_ascii c) <=? 57) with true by lia.
  cbn [andb]. replace (_ <? 10) with true by lia. reflexivity.
Qed.
Lemma digit_of_other c : ~ is_digit_char c -> digit_of 10 c = None.
Proof.
  intros H. unfold digit_of, is_digit_char in *. rewrite N_nat_ascii in *. rewrite nat_N_Z. set (n := Z.of_nat (nat_of_ascii c)).
  replace ((48 <=? n) && (n <=? 57)) with false by lia. destruct ((65 <=? n) && (n <=? 70)) eqn:E1; [replace (_ <? 10) with false by lia; reflexivity|]. destruct ((97 <=? n) && (n <=? 102)) eqn:E2; [replace (_ <? 10) with false by lia; reflexivity|]. reflexivity.
Qed.
Lemma dv_fold ds : forall a, fold_left (fun a c => 10 * a + (Z.of_nat (nat_of_ascii c) - 48)) ds a = a * 10 ^ Z.of_nat (length ds) + decimal_value ds.
Proof.
  unfold decimal_value. induction ds as [|c ds IH]; intros a; [cbn; lia|]. cbn [fold_left length]. rewrite (IH (10 * a + _)), (IH (10 * 0 + _)). replace (Z.of_nat (S (length ds))) with (1 + Z.of_nat (length ds)) by lia. rewrite Z.pow_add_r by lia. change (10 ^ 1) with 10. ring.
Qed.
Lemma decimal_app a b : decimal_value (a ++ b) = decimal_value a * 10 ^ Z.of_nat (length b) + decimal_value b.
Proof. unfold decimal_value at 1. rewrite fold_left_app. apply dv_fold. Qed.
Lemma decimal_cons c ds : decimal_value (c :: ds) = (Z.of_nat (nat_of_ascii c) - 48) * 10 ^ Z.of_nat (length ds) + decimal_value ds.
Proof. change (c :: ds) with ([c] ++ ds). rewrite decimal_app. reflexivity. Qed.
Lemma decimal_bounds ds : Forall is_digit_char ds -> 0 <= decimal_value ds < 10 ^ Z.of_nat (length ds).
Proof.
  induction 1 as [|c ds C _ IH]; [cbn; lia|]. rewrite decimal_cons. cbn [length]. replace (Z.of_nat (S (length ds))) with (1 + Z.of_nat (length ds)) by lia. rewrite Z.pow_add_r by lia. change (10 ^ 1) with 10. unfold is_digit_char in C. nia.
Qed.
Lemma take_base_ok ds : forall r acc n, Forall is_digit_char ds -> no_digit_head r ->
  take_base 10 (ds ++ r) acc n = (acc * 10 ^ Z.of_nat (length ds) + decimal_value ds, (n + length ds)%nat, r).
Proof.
  induction ds as [|c ds IH]; intros r acc n D R.
  - cbn [app length]. replace (acc * _ + _) with acc by (cbn; lia). rewrite Nat.add_0_r. destruct r as [|c r]; [reflexivity|]. cbn [take_base]. rewrite (digit_of_other c R). reflexivity.
  - inversion D as [|? ? C D']; subst. cbn [app take_base]. rewrite (digit_of_digit c C). rewrite (IH r _ (S n) D' R). rewrite decimal_cons. cbn [length]. f_equal. f_equal; [|lia].
    replace (Z.of_nat (S (length ds))) with (1 + Z.of_nat (length ds)) by lia. rewrite Z.pow_add_r by lia. change (10 ^ 1) with 10. ring.
Qed.
Lemma scan_sign_ok sg sgn r : sign_text sg sgn -> (match r with c :: _ => c <> "-"%char /\ c <> "+"%char | [] => True end) -> scan_sign (sg ++ r) = ((sgn <? 0), r).
Proof.
  intros H R. destruct H; cbn [app scan_sign]; try reflexivity. destruct r as [|c r]; [reflexivity|]. cbn [scan_sign]. destruct R as [R1 R2]. apply Ascii.eqb_neq in R1, R2. rewrite R1, R2. reflexivity.
Qed.
Lemma digit_head_sign c : is_digit_char c -> c <> "-"%char /\ c <> "+"%char.
Proof. intros H. apply digit_not_space in H. destruct H as (_ & H1 & H2 & _). apply Ascii.eqb_neq in H1, H2. auto. Qed.
Lemma ends_no_digit r : number_ends r -> no_digit_head r.
Proof. destruct r as [|c r]; cbn; tauto. Qed.
Lemma not_digit c : (nat_of_ascii c < 48 \/ 57 < nat_of_ascii c)%nat -> ~ is_digit_char c.
Proof. unfold is_digit_char. lia. Qed.
Lemma letter_not_digit c : In c ["e"; "E"]%char -> ~ is_digit_char c.
Proof. intros [<-|[<-|[]]]; apply not_digit; right; cbv; lia. Qed.
Lemma exponent_ok ex x r : exponent_text ex x -> number_ends r -> scan_exponent (lit "eE") (ex ++ r) = x.
Proof.
  intros H R. destruct H as [|c sg sgn ds C S N D].
  - cbn [app]. destruct r as [|c r]; [reflexivity|]. cbn [scan_exponent]. destruct R as [_ R]. destruct (in_set (lit "eE") c) eqn:E; [|reflexivity]. exfalso. apply in_set_In in E. apply R. cbn in *. tauto.
  - cbn [app scan_exponent]. replace (in_set (lit "eE") c) with true by (symmetry; apply in_set_In; exact C). rewrite <- app_assoc. rewrite (scan_sign_ok sg sgn); [|exact S|destruct ds as [|d ds]; [congruence|]; cbn [app]; apply digit_head_sign; apply Forall_inv in D; exact D].
    rewrite (take_base_ok ds r 0 0 D (ends_no_digit r R)). destruct ds as [|d ds]; [congruence|]. cbn [length Nat.add Nat.eqb]. replace (0 * _ + _) with (decimal_value (d :: ds)) by lia. destruct S; cbn [Z.ltb Z.compare]; lia.
Qed.
Lemma exponent_head ex x r : exponent_text ex x -> number_ends r -> no_digit_head (ex ++ r) /\ (match ex ++ r with c :: _ => c <> "."%char /\ c <> "x"%char /\ c <> "X"%char | [] => True end).
Proof.
  intros H R. destruct H as [|c sg sgn ds C S N D].
  - cbn [app]. destruct r as [|c r]; [split; exact I|]. cbn in *. destruct R as [R1 R2]. split; [exact R1|]. repeat split; intros ->; tauto.
  - cbn [app no_digit_head]. split; [apply letter_not_digit; exact C|]. destruct C as [<-|[<-|[]]]; repeat split; discriminate.
Qed.
(** the first characters of a number *)
Definition number_start (s : str) : Prop :=
  match s with c :: t => (is_digit_char c \/ c = "."%char) /\ (match t with d :: _ => d <> "x"%char /\ d <> "X"%char | [] => True end) | [] => False end.
Lemma number_start_words s : number_start s -> starts_word (lit "inf") s = false /\ starts_word (lit "nan") s = false /\ starts_word (lit "0x") s = false.
Proof.
  destruct s as [|c t]; [intros []|]. cbn [number_start]. intros [C T]. unfold starts_word. cbn [map starts_with lit list_ascii_of_string].
  assert (L : to_lower c = c).
  { unfold to_lower. destruct C as [C| ->]; [|reflexivity]. rewrite N_nat_ascii. unfold is_digit_char in C. replace ((65 <=? N.of_nat (nat_of_ascii c))%N) with false by lia. reflexivity. }
  rewrite L. assert (NI : Ascii.eqb "i" c = false /\ Ascii.eqb "n" c = false).
  { split; apply Ascii.eqb_neq; intros <-; destruct C as [C|C]; try discriminate; unfold is_digit_char in C; cbv in C; lia. }
  destruct NI as [-> ->]. cbn [andb]. split; [reflexivity|]. split; [reflexivity|]. destruct t as [|d t]; [cbn [map starts_with]; apply andb_false_r|]. cbn [map starts_with].
  replace (Ascii.eqb "x" (to_lower d)) with false; [cbn [andb]; apply andb_false_r|]. symmetry. apply Ascii.eqb_neq. intros E. destruct T as [T1 T2].
  unfold to_lower in E. destruct ((65 <=? N_of_ascii d) && (N_of_ascii d <=? 90))%N eqn:B; [|congruence]. apply (f_equal N_of_ascii) in E. rewrite N_ascii_embedding in E by lia. change (N_of_ascii "x") with 120%N in E.
  apply T2. rewrite <- (ascii_N_embedding d). replace (N_of_ascii d) with 88%N by lia. reflexivity.
Qed.
Lemma digit_not_x c : is_digit_char c -> c <> "x"%char /\ c <> "X"%char /\ c <> "."%char.
Proof. unfold is_digit_char. intros H. repeat split; intros ->; cbv in H; lia. Qed.

(** digits, point, digits, exponent *)
Lemma mantissa_ok ip pt fp ex x r : Forall is_digit_char ip -> Forall is_digit_char fp -> ip ++ fp <> [] -> pt = ["."%char] \/ (pt = [] /\ fp = []) -> exponent_text ex x -> number_ends r ->
  scan_mantissa 10 (ip ++ pt ++ fp ++ ex ++ r) = Some (decimal_value (ip ++ fp), length fp, ex ++ r) /\ number_start (ip ++ pt ++ fp ++ ex ++ r).
Proof.
  intros I F N P E R. destruct (exponent_head ex x r E R) as [E1 E2]. split.
  - unfold scan_mantissa. destruct P as [->|[-> ->]].
    + rewrite (take_base_ok ip) by (first [exact I|cbn; apply not_digit; left; cbv; lia]). cbn [app]. change (Ascii.eqb "." ".") with true. cbn match. rewrite (take_base_ok fp) by assumption.
      replace ((0 + length ip + (0 + length fp)) =? 0)%nat with false by (destruct ip; [destruct fp; [cbn in N; congruence|]|]; reflexivity).
      rewrite decimal_app. do 2 f_equal.
    + cbn [app]. rewrite app_nil_r in *. rewrite (take_base_ok ip) by assumption. replace (match ex ++ r with c :: t => _ | [] => _ end) with (0 * 10 ^ Z.of_nat (length ip) + decimal_value ip, O, ex ++ r).
      * cbn [length]. replace ((0 + length ip + 0) =? 0)%nat with false by (destruct ip; [congruence|reflexivity]). do 3 f_equal.
      * destruct (ex ++ r) as [|c t]; [reflexivity|]. destruct E2 as (E2 & _). apply Ascii.eqb_neq in E2. rewrite E2. reflexivity.
  - assert (H2 : match fp ++ ex ++ r with d :: _ => d <> "x"%char /\ d <> "X"%char | [] => True end).
    { destruct fp as [|d fp]; cbn [app]; [destruct (ex ++ r); tauto|]. apply Forall_inv, digit_not_x in F. tauto. }
    destruct ip as [|c ip]; cbn [app number_start].
    + destruct P as [->|[-> ->]]; [|cbn in N; congruence]. cbn [app]. split; [right; reflexivity|exact H2].
    + inversion I as [|? ? C I']; subst. split; [left; exact C|]. destruct ip as [|d ip]; cbn [app].
      * destruct P as [->|[-> ->]]; cbn [app]; [repeat split; discriminate|exact H2].
      * apply Forall_inv, digit_not_x in I'. tauto.
Qed.
Lemma decimal_text_read f ws s sgn v r : Forall is_space_char ws -> decimal_text s sgn v -> number_ends r ->
  exists V q, 0 <= V /\ v = (IZR V * bpow radix10 q)%R /\ strtod f (ws ++ s ++ r) = Some (round_scaled f (sgn <? 0) V 10 q).
Proof.
  intros W H R. destruct H as [sg sgn ip pt fp ex x S I F N P E].
  exists (decimal_value (ip ++ fp)), (x - Z.of_nat (length fp)). split; [apply decimal_bounds; apply Forall_app; auto|]. split; [rewrite p10; reflexivity|].
  destruct (mantissa_ok ip pt fp ex x r I F N P E R) as [M B]. rewrite <- !app_assoc. unfold strtod.
  assert (Hd : match ip ++ pt ++ fp ++ ex ++ r with c :: _ => c <> "-"%char /\ c <> "+"%char /\ isspace c = false | [] => False end).
  { destruct (ip ++ pt ++ fp ++ ex ++ r) as [|c t]; [destruct B|]. destruct B as [[B| ->] _]; [apply digit_not_space in B; destruct B as (B1 & B2 & B3 & _); apply Ascii.eqb_neq in B2, B3; auto|repeat split; discriminate]. }
  rewrite skip_space_app; [|exact W|].
  - rewrite (scan_sign_ok sg sgn); [|exact S|destruct (ip ++ pt ++ fp ++ ex ++ r); tauto].
    destruct (number_start_words _ B) as (-> & -> & ->). rewrite M. rewrite (exponent_ok ex x r E R). reflexivity.
  - intros c t Q. destruct S; cbn [app] in Q; [destruct (ip ++ pt ++ fp ++ ex ++ r); [destruct Hd|]; injection Q as <- _; tauto|injection Q as <- _; reflexivity|injection Q as <- _; reflexivity].
Qed.
Lemma decimal_no_nul s sgn v : decimal_text s sgn v -> ~ In nul s.
Proof.
  intros H Z. assert (D : forall ds, Forall is_digit_char ds -> ~ In nul ds).
  { intros ds D. rewrite Forall_forall in D. intros Q. apply D in Q. unfold is_digit_char in Q. cbv in Q. lia. }
  assert (G : forall sg x, sign_text sg x -> ~ In nul sg) by (intros sg x [| |]; cbn; intuition discriminate).
  destruct H as [sg sgn ip pt fp ex x S I F N P E]. rewrite !in_app_iff in Z. destruct Z as [Z|[Z|[Z|[Z|Z]]]]; [exact (G _ _ S Z)|exact (D _ I Z)| |exact (D _ F Z)|].
  - destruct P as [->|[-> _]]; cbn in Z; intuition discriminate.
  - destruct E as [|c sg' x' ds C S' N' D']; [destruct Z|]. destruct Z as [Z|Z]; [subst c; destruct C as [C|[C|[]]]; discriminate|]. rewrite in_app_iff in Z. destruct Z as [Z|Z]; [exact (G _ _ S' Z)|exact (D _ D' Z)].
Qed.
Lemma c_str_skip p s : ~ In nul p -> c_str (p ++ s) = p ++ c_str s.
Proof. induction p as [|c p IH]; intros N; [reflexivity|]. cbn [app c_str]. cbn in N. destruct (Ascii.eqb_spec c nul) as [->|_]; [tauto|]. rewrite IH by tauto. reflexivity. Qed.
Lemma ends_c_str r : number_ends r -> number_ends (c_str r).
Proof. destruct r as [|c r]; [auto|]. cbn. destruct (Ascii.eqb c nul); [intros _; exact I|auto]. Qed.
Lemma read_decimal f ws s sgn v r : usable f -> Forall is_space_char ws -> decimal_text s sgn v -> number_ends r -> let y := fst (from_str_float f (ws ++ s ++ r)) in
  snd (from_str_float f (ws ++ s ++ r)) = true /\ (0 <= v)%R /\ of_format f y /\ negative y = (sgn <? 0) /\
  ((rnd2 f v < bpow radix2 (top f))%R /\ finite y /\ value y = (if sgn <? 0 then - rnd2 f v else rnd2 f v)%R \/ (bpow radix2 (top f) <= rnd2 f v)%R /\ y = S754_infinity (sgn <? 0)).
Proof.
  intros U W H R. cbn zeta. unfold from_str_float.
  assert (Z1 : ~ In nul ws) by (intros Z; rewrite Forall_forall in W; apply W in Z; cbn in Z; intuition discriminate). rewrite c_str_skip by exact Z1. rewrite c_str_skip by (eapply decimal_no_nul; exact H).
  destruct (decimal_text_read f ws s sgn v (c_str r) W H (ends_c_str r R)) as (V & q & V0 & -> & ->). cbn [fst snd]. split; [reflexivity|].
  split; [apply Rmult_le_pos; [apply IZR_le; exact V0|apply bpow_ge_0]|]. exact (round_scaled_ok f U (sgn <? 0) V radix10 q V0).
Qed.

(** ** writing *)
Lemma dec_digits_head fuel : forall n, (0 < n)%N -> (n < 10 ^ N.of_nat (S fuel))%N -> hd "0"%char (dec_digits fuel n) <> "0"%char.
Proof.
  assert (Z : forall n, (0 < n < 10)%N -> digit n <> "0"%char).
  { intros n H E. apply (f_equal nat_of_ascii) in E. rewrite digit_nat in E by lia. change (nat_of_ascii "0") with 48%nat in E. lia. }
  induction fuel as [|f IH]; intros n P L; cbn [dec_digits].
  - change (10 ^ N.of_nat 1)%N with 10%N in L. rewrite N.mod_small by lia. apply Z. lia.
  - destruct (N.ltb_spec n 10) as [T|T]; [apply Z; lia|].
    assert (L' : (n / 10 < 10 ^ N.of_nat (S f))%N) by (apply N.div_lt_upper_bound; [lia|]; replace (N.of_nat (S (S f))) with (N.succ (N.of_nat (S f))) in L by lia; rewrite N.pow_succ_r' in L; exact L).
    assert (P' : (0 < n / 10)%N) by (apply N.div_str_pos; lia). specialize (IH (n / 10)%N P' L'). destruct (dec_digits_ok f (n / 10)%N L') as [E _]. destruct (dec_digits f (n / 10)); [congruence|exact IH].
Qed.
Lemma to_string_pos z : 0 < z -> Forall is_digit_char (to_string z) /\ decimal_value (to_string z) = z /\ hd "0"%char (to_string z) <> "0"%char /\ to_string z <> [].
Proof.
  intros P. unfold to_string. replace (z <? 0) with false by lia. destruct (dec_digits_ok _ _ (size_nat_bound (Z.abs_N z))) as (H1 & H2 & H3). split; [exact H2|]. split; [rewrite H3; lia|]. split; [|exact H1]. apply dec_digits_head; [lia|apply size_nat_bound].
Qed.
Lemma digits_length ds n : Forall is_digit_char ds -> hd "0"%char ds <> "0"%char -> 10 ^ Z.of_nat n <= decimal_value ds < 10 ^ Z.of_nat (S n) -> length ds = S n.
Proof.
  intros D H B. destruct ds as [|c ds]; [cbn in H; congruence|]. cbn [hd] in H. pose proof (decimal_bounds _ D) as U. inversion D as [|? ? C D']; subst. pose proof (decimal_bounds _ D') as U'.
  assert (1 <= Z.of_nat (nat_of_ascii c) - 48).
  { unfold is_digit_char in C. destruct (Nat.eq_dec (nat_of_ascii c) 48) as [Q|Q]; [|lia]. exfalso. apply H. rewrite <- (ascii_nat_embedding c), Q. reflexivity. }
  assert (L : 10 ^ Z.of_nat (length ds) <= decimal_value (c :: ds)) by (rewrite decimal_cons; nia).
  cbn [length] in *. assert (Z.of_nat (length ds) < Z.of_nat (S n)) by (apply (Z.pow_lt_mono_r_iff 10); lia). assert (Z.of_nat n < Z.of_nat (S (length ds))) by (apply (Z.pow_lt_mono_r_iff 10); lia). lia.
Qed.
Lemma strip_ok s : exists j, s = strip_zeros s ++ repeat "0"%char j /\ (strip_zeros s <> [] -> last (strip_zeros s) "0"%char <> "0"%char).
Proof.
  induction s as [|c s (j & E & L)]; [exists O; split; [reflexivity|cbn; congruence]|]. cbn [strip_zeros]. destruct (strip_zeros s) as [|d r] eqn:Q.
  - destruct (Ascii.eqb_spec c "0") as [->|N].
    + exists (S j). split; [rewrite E; reflexivity|congruence].
    + exists j. split; [rewrite E; reflexivity|intros _; exact N].
  - exists j. split; [rewrite E; reflexivity|intros _]. cbn [last]. apply L. discriminate.
Qed.
Lemma zeros_digits j : Forall is_digit_char (repeat "0"%char j).
Proof. apply Forall_forall. intros c H. apply repeat_spec in H. subst. unfold is_digit_char. cbv. lia. Qed.
Lemma zeros_value j : decimal_value (repeat "0"%char j) = 0.
Proof. induction j as [|j IH]; [reflexivity|]. cbn [repeat]. rewrite decimal_cons, IH. change (nat_of_ascii "0") with 48%nat. lia. Qed.
Lemma pow10_split a b : (bpow radix10 (Z.of_nat a) = IZR (10 ^ Z.of_nat a))%R /\ (bpow radix10 (- Z.of_nat (a + b)) * IZR (10 ^ Z.of_nat b) = bpow radix10 (- Z.of_nat a))%R.
Proof.
  assert (E : forall n, IZR (10 ^ Z.of_nat n) = bpow radix10 (Z.of_nat n)) by (intros n; change 10 with (radix_val radix10); apply IZR_Zpower; lia).
  split; [symmetry; apply E|]. rewrite E, <- bpow_plus. f_equal. lia.
Qed.
(** cutting zeros off the end keeps the value *)
Lemma strip_value ip fp x : Forall is_digit_char ip -> Forall is_digit_char fp ->
  (IZR (decimal_value (ip ++ fp)) * bpow radix10 (x - Z.of_nat (length fp)) = IZR (decimal_value (ip ++ strip_zeros fp)) * bpow radix10 (x - Z.of_nat (length (strip_zeros fp))))%R.
Proof.
  intros I F. destruct (strip_ok fp) as (j & E & _). set (fs := strip_zeros fp) in *. rewrite E. rewrite app_assoc, (decimal_app _ (repeat _ j)), zeros_value, Z.add_0_r, app_length, repeat_length. rewrite mult_IZR.
  replace (x - Z.of_nat (length fs + j)) with (x + - Z.of_nat (length fs + j)) by lia. replace (x - Z.of_nat (length fs)) with (x + - Z.of_nat (length fs)) by lia. rewrite !bpow_plus. rewrite <- (proj2 (pow10_split (length fs) j)). ring.
Qed.
Lemma strip_digits fp : Forall is_digit_char fp -> Forall is_digit_char (strip_zeros fp).
Proof. destruct (strip_ok fp) as (j & E & _). intros H. rewrite E in H. apply Forall_app in H. apply H. Qed.
Lemma strip_nil fp : Forall is_digit_char fp -> strip_zeros fp = [] -> decimal_value fp = 0.
Proof. intros _ H. destruct (strip_ok fp) as (j & E & _). rewrite H in E. cbn [app] in E. rewrite E. apply zeros_value. Qed.
Lemma at_least_two_ok s : Forall is_digit_char s -> s <> [] -> hd "0"%char s <> "0"%char -> let t := at_least_two s in
  (length t >= 2)%nat /\ Forall is_digit_char t /\ (hd "0"%char t = "0"%char -> length t = 2%nat) /\ decimal_value t = decimal_value s /\ (length t <= Nat.max 2 (length s))%nat.
Proof.
  intros D N H. unfold at_least_two. destruct s as [|c [|d s]]; [congruence| |].
  - cbn zeta. cbn [length hd]. repeat split; try lia. constructor; [unfold is_digit_char; cbv; lia|exact D].
  - cbn zeta. cbn [hd] in *. repeat split; try (cbn [length]; lia); [exact D|congruence].
Qed.
Lemma format_neat k x : 10 ^ 5 <= k < 10 ^ 6 -> neat_text (format_g k x) (IZR k * bpow radix10 (x - 5)).
Proof.
  intros K. destruct (to_string_pos k ltac:(lia)) as (D & V & H & _). set (ds := to_string k) in *. assert (L : length ds = 6%nat) by (apply digits_length; [exact D|exact H|rewrite V; exact K]).
  assert (Kr : (IZR (10 ^ 5) <= IZR k < IZR (10 ^ 6))%R) by (split; [apply IZR_le|apply IZR_lt]; lia). set (v := (IZR k * bpow radix10 (x - 5))%R).
  assert (B1 : (bpow radix10 x <= v)%R).
  { unfold v. apply Rle_trans with (IZR (10 ^ 5) * bpow radix10 (x - 5))%R; [|apply Rmult_le_compat_r; [apply bpow_ge_0|lra]]. change 10 with (radix_val radix10). rewrite IZR_Zpower, <- bpow_plus by lia. apply bpow_le. lia. }
  assert (B2 : (v < bpow radix10 (x + 1))%R).
  { unfold v. apply Rlt_le_trans with (IZR (10 ^ 6) * bpow radix10 (x - 5))%R; [apply Rmult_lt_compat_r; [apply bpow_gt_0|lra]|]. change 10 with (radix_val radix10). rewrite IZR_Zpower, <- bpow_plus by lia. apply bpow_le. lia. }
  assert (T1 : bpow radix10 (-4) = (/ 10000)%R) by (cbn; lra). assert (T2 : bpow radix10 6 = 1000000%R) by (cbn; lra).
  unfold format_g. fold ds. destruct ((-4 <=? x) && (x <? 6)) eqn:C.
  - apply andb_prop in C. destruct C as [C1 C2]. apply Z.leb_le in C1. apply Z.ltb_lt in C2.
    assert (R1 : (/ 10000 <= v)%R) by (rewrite <- T1; apply Rle_trans with (2 := B1); apply bpow_le; lia). assert (R2 : (v < 1000000)%R) by (rewrite <- T2; apply Rlt_le_trans with (1 := B2); apply bpow_le; lia).
    destruct (Z.leb_spec 0 x) as [X|X].
    + set (n := Z.to_nat (x + 1)). assert (S : ds = firstn n ds ++ skipn n ds) by (symmetry; apply firstn_skipn). assert (Dp : Forall is_digit_char (firstn n ds) /\ Forall is_digit_char (skipn n ds)) by (apply Forall_app; rewrite <- S; exact D). destruct Dp as [D1 D2].
      assert (Li : length (firstn n ds) = n) by (rewrite firstn_length; lia). assert (Lf : length (skipn n ds) = (6 - n)%nat) by (rewrite skipn_length; lia).
      assert (Hi : hd "0"%char (firstn n ds) <> "0"%char /\ firstn n ds <> []) by (destruct ds as [|c ds']; [discriminate L|]; destruct n as [|n'] eqn:Q; [lia|]; cbn in *; split; [exact H|discriminate]).
      assert (E : v = (IZR (decimal_value (firstn n ds ++ strip_zeros (skipn n ds))) * bpow radix10 (0 - Z.of_nat (length (strip_zeros (skipn n ds)))))%R).
      { rewrite <- strip_value by assumption. rewrite <- S, V, Lf. unfold v. do 2 f_equal. lia. }
      unfold with_fraction. destruct (strip_zeros (skipn n ds)) as [|c fs] eqn:Q.
      * rewrite app_nil_r in E. cbn [length] in E. replace (bpow radix10 (0 - Z.of_nat 0)) with 1%R in E by reflexivity. rewrite Rmult_1_r in E. rewrite E. apply neat_whole; try tauto. rewrite <- E. exact R2.
      * assert (F : Forall is_digit_char (c :: fs)) by (rewrite <- Q; apply strip_digits; exact D2). destruct (strip_ok (skipn n ds)) as (j & _ & NZ). rewrite Q in NZ. apply neat_fraction; try tauto; try discriminate; try (apply NZ; discriminate); try (split; assumption). rewrite p10. exact E.
    + set (z := repeat "0"%char (Z.to_nat (- x - 1))). assert (Df : Forall is_digit_char (z ++ ds)) by (apply Forall_app; split; [apply zeros_digits|exact D]).
      assert (D0 : Forall is_digit_char ["0"%char]) by (constructor; [unfold is_digit_char; cbv; lia|constructor]).
      assert (E : v = (IZR (decimal_value (["0"%char] ++ strip_zeros (z ++ ds))) * bpow radix10 (0 - Z.of_nat (length (strip_zeros (z ++ ds)))))%R).
      { rewrite <- strip_value by assumption. rewrite app_length, L. cbn [app]. rewrite decimal_cons, decimal_app. unfold z. rewrite repeat_length, zeros_value, V. change (nat_of_ascii "0") with 48%nat. unfold v. f_equal; f_equal; lia. }
      unfold with_fraction. destruct (strip_zeros (z ++ ds)) as [|c fs] eqn:Q.
      * exfalso. apply strip_nil in Q; [|exact Df]. rewrite decimal_app in Q. unfold z in Q. rewrite zeros_value, V in Q. lia.
      * assert (F : Forall is_digit_char (c :: fs)) by (rewrite <- Q; apply strip_digits; exact Df). destruct (strip_ok (z ++ ds)) as (j & _ & NZ). rewrite Q in NZ. apply (neat_fraction ["0"%char]); try tauto; try discriminate; try (apply NZ; discriminate); try (split; assumption). rewrite p10. exact E.
  - assert (X : x < -4 \/ 6 <= x) by lia. destruct ds as [|c ds5]; [discriminate L|]. cbn [firstn skipn length] in *. injection L as L. assert (Dc := Forall_inv D). assert (D5 := Forall_inv_tail D). cbn [hd] in H.
    assert (Ax : 0 < Z.abs x) by lia. destruct (to_string_pos (Z.abs x) Ax) as (Dx & Vx & Hx & Nx). destruct (at_least_two_ok _ Dx Nx Hx) as (A1 & A2 & A3 & A4 & _). set (ex := at_least_two (to_string (Z.abs x))) in *.
    assert (E : v = (IZR (decimal_value ([c] ++ strip_zeros ds5)) * bpow radix10 (x - Z.of_nat (length (strip_zeros ds5))))%R).
    { rewrite <- strip_value by (first [exact D5|constructor; [exact Dc|constructor]]). cbn [app]. rewrite V, L. reflexivity. }
    assert (Shape : with_fraction [c] ds5 ++ "e"%char :: (if x <? 0 then "-"%char else "+"%char) :: ex = c :: (match strip_zeros ds5 with [] => [] | _ => "."%char :: strip_zeros ds5 end) ++ "e"%char :: (if x <? 0 then ["-"%char] else ["+"%char]) ++ ex).
    { unfold with_fraction. destruct (strip_zeros ds5); destruct (x <? 0); reflexivity. }
    rewrite Shape. apply (neat_exponent c (strip_zeros ds5) _ (if x <? 0 then -1 else 1)); try assumption.
    + apply strip_digits. exact D5.
    + destruct (strip_ok ds5) as (j & _ & NZ). exact NZ.
    + destruct (x <? 0); auto.
    + rewrite p10. rewrite A4, Vx. replace ((if x <? 0 then -1 else 1) * Z.abs x) with x by (destruct (Z.ltb_spec x 0); lia). exact E.
    + intros [G1 G2]. destruct X as [X|X].
      * assert (bpow radix10 (x + 1) <= bpow radix10 (-4))%R by (apply bpow_le; lia). lra.
      * assert (bpow radix10 6 <= bpow radix10 x)%R by (apply bpow_le; lia). lra.
Qed.
Lemma neat_decimal s v sg sgn : neat_text s v -> sign_text sg sgn -> decimal_text (sg ++ s) sgn v.
Proof.
  assert (X : forall ds : str, (length ds >= 2)%nat -> ds <> []) by (intros [|]; cbn; [lia|discriminate]).
  intros H G0. destruct H as [ip N D _ _|ip fp v N D F NF _ _ -> _|c fp sg' sgn' ds v C _ F _ G L D _ -> _].
  - pose proof (decimal sg sgn ip [] [] [] 0 G0 D (Forall_nil _) ltac:(rewrite app_nil_r; exact N) ltac:(auto) exponent_none) as T. cbn [app length] in T. rewrite !app_nil_r in T. replace (powerRZ 10 (0 - Z.of_nat 0)) with 1%R in T by reflexivity. rewrite Rmult_1_r in T. exact T.
  - pose proof (decimal sg sgn ip ["."%char] fp [] 0 G0 D F ltac:(destruct ip; [congruence|discriminate]) ltac:(auto) exponent_none) as T. cbn [app] in T. rewrite app_nil_r in T. exact T.
  - assert (S : sign_text sg' sgn') by (destruct G as [[-> ->]|[-> ->]]; constructor).
    pose proof (decimal sg sgn [c] (match fp with [] => [] | _ => ["."%char] end) fp ("e"%char :: sg' ++ ds) _ G0 ltac:(constructor; [exact C|constructor]) F ltac:(discriminate) ltac:(destruct fp; auto)
      (exponent_some "e"%char sg' sgn' ds ltac:(cbn; auto) S (X ds L) D)) as T. cbn [app] in T. destruct fp; exact T.
Qed.
