(** Lemmas about products in binary floating point and about the texts of numbers. *)
From Coq Require Import Ascii String List Arith Bool NArith ZArith Reals SpecFloat Lia Lra.
From Flocq Require Import Core IEEE754.BinarySingleNaN.
From Verif Require Import Base BaseProofs Str StrBase StrSpec StrModel CastSpec CastModel CastProofs PnSpec PnModel GpnSpec GpnModel FltSpec FltModel FltNum FltText FltProofs FltRead TblNum FltTheorems GftSpec GftModel.
Import ListNotations.
Local Open Scope Z_scope.

(** ** products *)
Lemma nearest_even_mode s m l : round_nearest_even m l = choice_mode mode_NE s m l.
Proof. case l; [reflexivity|intro c]. case c; [|reflexivity..]. cbn. unfold Round.cond_incr. case Z.even; reflexivity. Qed.
Lemma round_aux_mode prec emax sx mx ex lx : SpecFloat.binary_round_aux prec emax sx mx ex lx = binary_round_aux prec emax mode_NE sx mx ex lx.
Proof. unfold SpecFloat.binary_round_aux, binary_round_aux. set (r := shr_fexp _ _ _ _ _). case r. intros m e. rewrite (nearest_even_mode sx). reflexivity. Qed.
Section Products.
  Context (f : format) (U : usable f).
  Let fexp := FLT_exp (bottom f) (bits f).
  Local Instance prec_pos' : Prec_gt_0 (bits f).
  Proof. destruct U. unfold Prec_gt_0. lia. Qed.
  Local Instance prec_top' : Prec_lt_emax (bits f) (top f).
  Proof. destruct U. unfold Prec_lt_emax. lia. Qed.
  Local Instance fexp_valid' : Valid_exp fexp.
  Proof. apply FLT_exp_valid, prec_pos'. Qed.
  Lemma product_B x y (Hx : of_format f x) (Hy : of_format f y) :
    SFmul (bits f) (top f) x y = B2SF (Bmult (prec_gt_0_ := prec_pos') (prec_lt_emax_ := prec_top') mode_NE (SF2B x Hx) (SF2B y Hy)).
  Proof. destruct x, y; try reflexivity. cbn [SFmul SF2B Bmult]. rewrite B2SF_SF2B. apply round_aux_mode. Qed.
  Lemma negative_sign x : negative x = sign_SF x. Proof. destruct x; reflexivity. Qed.
  Lemma finite_SF x : finite x <-> is_finite_SF x = true. Proof. destruct x; cbn; intuition discriminate. Qed.
  Lemma product_ok x y : of_format f x -> of_format f y -> finite x -> finite y -> (Rabs (rnd2 f (value x * value y)) < bpow radix2 (top f))%R ->
    let z := SFmul (bits f) (top f) x y in of_format f z /\ finite z /\ value z = rnd2 f (value x * value y) /\ negative z = xorb (negative x) (negative y).
  Proof.
    intros Hx Hy Fx Fy L. cbn zeta. rewrite (product_B x y Hx Hy). pose proof (Bmult_correct (bits f) (top f) _ _ mode_NE (SF2B x Hx) (SF2B y Hy)) as C.
    rewrite !B2R_SF2B, <- !value_SF in C. change (round radix2 (SpecFloat.fexp (bits f) (top f)) (round_mode mode_NE) (value x * value y)) with (rnd2 f (value x * value y)) in C.
    rewrite Rlt_bool_true in C by exact L. destruct C as (C1 & C2 & C3). rewrite !is_finite_SF2B in C2. apply finite_SF in Fx, Fy. rewrite Fx, Fy in C2. set (z := Bmult mode_NE (SF2B x Hx) (SF2B y Hy)) in *.
    split; [apply valid_binary_B2SF|]. split; [destruct z; [exact I|discriminate C2|discriminate C2|exact I]|]. split; [rewrite value_SF, SF2R_B2SF; exact C1|].
    rewrite negative_sign. replace (sign_SF (B2SF z)) with (Bsign z) by (destruct z; reflexivity). rewrite C3 by (destruct z; [reflexivity|discriminate|discriminate|reflexivity]). rewrite !Bsign_SF2B. destruct x, y; reflexivity.
  Qed.
  Lemma power_ok e : bottom f <= e - (bits f - 1) -> e - (bits f - 1) <= top f - bits f -> of_format f (power_of_two f e) /\ value (power_of_two f e) = bpow radix2 e.
  Proof.
    destruct U as [U1 U2]. intros A B. assert (P := Z.pow_pos_nonneg 2 (bits f - 1) ltac:(lia) ltac:(lia)). unfold power_of_two. split.
    - apply valid_intro; [exact U|exact A|exact B|rewrite Z2Pos.id by lia; apply Z.pow_lt_mono_r; lia|left; rewrite Z2Pos.id by lia; lia].
    - unfold value. rewrite Z2Pos.id by lia. rewrite p2. change 2 with (radix_val radix2). rewrite IZR_Zpower by lia. rewrite <- bpow_plus. f_equal. lia.
  Qed.
  Lemma finite_limit x : of_format f x -> (Rabs (value x) < bpow radix2 (top f))%R.
  Proof. intros H. rewrite value_SF, <- (B2R_SF2B _ _ x H). apply abs_B2R_lt_emax. Qed.
  Lemma two_top : 2 < top f -> bottom f <= 1 - (bits f - 1).
  Proof. destruct U. unfold bottom. lia. Qed.
  Lemma format_double v : generic_format radix2 fexp v -> generic_format radix2 fexp (2 * v).
  Proof.
    intros G. apply (FLT_format_generic radix2 (bottom f) (bits f)) in G. destruct G as [[m e] E1 E2 E3]. cbn [Fnum Fexp] in *. apply generic_format_FLT. exists (Float radix2 m (e + 1)); cbn [Fnum Fexp]; [|exact E2|lia].
    rewrite E1. unfold F2R. cbn [Fnum Fexp]. rewrite bpow_plus. change (bpow radix2 1) with 2%R. ring.
  Qed.
  Lemma doubled x : can_double f x -> of_format f (times_two f x) /\ finite (times_two f x) /\ value (times_two f x) = (2 * value x)%R /\ negative (times_two f x) = negative x.
  Proof.
    intros (X & F & L). rewrite p2 in L. destruct U as [U1 U2]. destruct (power_ok 1) as [P1 P2]; [unfold bottom; lia|lia|]. change (bpow radix2 1) with 2%R in P2.
    assert (E : rnd2 f (2 * value x) = (2 * value x)%R). { apply round_generic; [apply valid_rnd_N|]. apply format_double. apply value_format; exact X. }
    destruct (product_ok (power_of_two f 1) x P1 X I F) as (A & B & C & D); [rewrite P2, E; exact L|]. rewrite P2, E in C. split; [exact A|]. split; [exact B|]. split; [exact C|]. unfold times_two, times_half. rewrite D. destruct (negative x); reflexivity.
  Qed.
  Lemma halved_error v : generic_format radix2 fexp v -> (Rabs (rnd2 f (/ 2 * v) - / 2 * v) <= / 2 * bpow radix2 (bottom f))%R.
  Proof.
    intros G. pose proof (bpow_gt_0 radix2 (bottom f)) as B0. apply (FLT_format_generic radix2 (bottom f) (bits f)) in G. destruct G as [[m e] E1 E2 E3]. cbn [Fnum Fexp] in *. destruct (Z.eq_dec e (bottom f)) as [->|N].
    - destruct (Req_dec v 0) as [->|V]; [rewrite Rmult_0_r; unfold rnd2; rewrite round_0 by apply valid_rnd_N; rewrite Rminus_0_r, Rabs_R0; lra|].
      eapply Rle_trans; [apply error_le_half_ulp; exact fexp_valid'|]. apply Rmult_le_compat_l; [lra|]. rewrite ulp_neq_0 by lra. unfold cexp. apply bpow_le. unfold fexp, FLT_exp.
      assert (M : mag radix2 (/ 2 * v) <= bits f - 1 + bottom f).
      { apply mag_le_bpow; [lra|]. rewrite E1. unfold F2R. cbn [Fnum Fexp]. destruct U. replace (bits f - 1 + bottom f) with (bits f + (-1) + bottom f) by lia. rewrite !bpow_plus. change (bpow radix2 (-1)) with (/ 2)%R.
        assert (Q : (Rabs (IZR m) < bpow radix2 (bits f))%R) by (rewrite <- IZR_Zpower by lia; rewrite <- abs_IZR; apply IZR_lt; exact E2).
        rewrite !Rabs_mult, (Rabs_pos_eq (/ 2)), (Rabs_pos_eq (bpow radix2 (bottom f))) by lra. replace (/ 2 * (Rabs (IZR m) * bpow radix2 (bottom f)))%R with (Rabs (IZR m) * (/ 2 * bpow radix2 (bottom f)))%R by ring. rewrite Rmult_assoc. apply Rmult_lt_compat_r; lra. }
      destruct U. lia.
    - replace (rnd2 f (/ 2 * v))%R with (/ 2 * v)%R; [rewrite Rminus_diag_eq by reflexivity; rewrite Rabs_R0; lra|]. symmetry. apply round_generic; [apply valid_rnd_N|]. apply generic_format_FLT.
      exists (Float radix2 m (e - 1)); cbn [Fnum Fexp]; [|exact E2|lia]. rewrite E1. unfold F2R. cbn [Fnum Fexp]. unfold Z.sub. rewrite bpow_plus. change (bpow radix2 (-(1))) with (/ 2)%R. ring.
  Qed.
  Lemma halved_num x : of_format f x -> finite x -> of_format f (times_half f x) /\ finite (times_half f x) /\ value (times_half f x) = rnd2 f (/ 2 * value x) /\ negative (times_half f x) = negative x.
  Proof.
    intros X F. destruct U as [U1 U2]. destruct (power_ok (-1)) as [P1 P2]; [unfold bottom; lia|lia|]. change (bpow radix2 (-1)) with (/ 2)%R in P2.
    assert (G := value_format f x X). assert (L := finite_limit x X).
    assert (E : (Rabs (rnd2 f (/ 2 * value x)) <= Rabs (value x))%R).
    { apply abs_round_le_generic; [exact fexp_valid'|apply valid_rnd_N|apply generic_format_abs; exact G|]. rewrite Rabs_mult, (Rabs_pos_eq (/ 2)) by lra. pose proof (Rabs_pos (value x)). lra. }
    destruct (product_ok (power_of_two f (-1)) x P1 X I F) as (A & B & C & D); [rewrite P2; lra|]. rewrite P2 in C. split; [exact A|]. split; [exact B|]. split; [exact C|]. unfold times_two, times_half. rewrite D. destruct (negative x); reflexivity.
  Qed.
End Products.

(** ** numbers in front of two points *)
Lemma dot_no_digit (r : str) : no_digit_head ("."%char :: r).
Proof. apply not_digit. left. cbv. lia. Qed.
Lemma exponent_dots ex x r : exponent_text ex x -> scan_exponent (lit "eE") (ex ++ "."%char :: r) = x /\ no_digit_head (ex ++ "."%char :: r).
Proof.
  intros [|c sg sgn ds C S N D]; [split; [reflexivity|apply dot_no_digit]|]. split; [|apply letter_not_digit; exact C].
  cbn [app scan_exponent]. replace (in_set (lit "eE") c) with true by (symmetry; apply in_set_In; exact C). rewrite <- app_assoc. rewrite (scan_sign_ok sg sgn); [|exact S|destruct ds as [|d ds]; [congruence|]; cbn [app]; apply digit_head_sign; apply Forall_inv in D; exact D].
  rewrite (take_base_ok ds _ 0 0 D (dot_no_digit r)). destruct ds as [|d ds]; [congruence|]. cbn [length Nat.add Nat.eqb]. replace (0 * _ + _) with (decimal_value (d :: ds)) by lia. destruct S; cbn [Z.ltb Z.compare]; lia.
Qed.
Lemma start_app s c r : number_start s -> c <> "x"%char -> c <> "X"%char -> number_start (s ++ c :: r).
Proof. destruct s as [|a [|b s]]; cbn; tauto. Qed.
Lemma mantissa_dots ip pt fp ex x r : Forall is_digit_char ip -> Forall is_digit_char fp -> ip ++ fp <> [] -> pt = ["."%char] \/ (pt = [] /\ fp = []) -> exponent_text ex x ->
  number_start (ip ++ pt ++ fp ++ ex ++ lit ".." ++ r) /\ exists e, scan_mantissa 10 (ip ++ pt ++ fp ++ ex ++ lit ".." ++ r) = Some (decimal_value (ip ++ fp), length fp, e) /\ scan_exponent (lit "eE") e = x.
Proof.
  intros I F N P E. split.
  { destruct (mantissa_ok ip pt fp ex x [] I F N P E Logic.I) as [_ B]. rewrite app_nil_r in B. apply (start_app _ "."%char ("."%char :: r)) in B; [|discriminate|discriminate]. rewrite <- !app_assoc in B. exact B. }
  change (lit ".." ++ r) with ("."%char :: "."%char :: r). destruct (exponent_dots ex x ("."%char :: r) E) as [E1 E2]. unfold scan_mantissa. destruct P as [->|[-> ->]].
  - rewrite (take_base_ok ip) by (first [exact I|apply dot_no_digit]). cbn [app]. change (Ascii.eqb "." ".") with true. cbn match. rewrite (take_base_ok fp) by assumption.
    replace ((0 + length ip + (0 + length fp)) =? 0)%nat with false by (destruct ip; [destruct fp; [cbn in N; congruence|]|]; reflexivity).
    rewrite decimal_app. eexists. split; [reflexivity|exact E1].
  - cbn [app]. rewrite app_nil_r in *. destruct E as [|c sg sgn ds C S N' D].
    + cbn [app]. rewrite (take_base_ok ip) by (first [exact I|apply dot_no_digit]). change (Ascii.eqb "." ".") with true. cbn match. change ("."%char :: r) with ([] ++ "."%char :: r). rewrite (take_base_ok []) by (first [constructor|apply dot_no_digit]).
      replace ((0 + length ip + (0 + length (@nil ascii))) =? 0)%nat with false by (destruct ip; [congruence|reflexivity]). exists ("."%char :: r). split; [|reflexivity]. cbn. do 3 f_equal. lia.
    + rewrite (take_base_ok ip) by assumption. cbn [app]. replace (Ascii.eqb c ".") with false by (destruct C as [<-|[<-|[]]]; reflexivity).
      replace ((0 + length ip + 0) =? 0)%nat with false by (destruct ip; [congruence|reflexivity]). eexists. split; [|exact E1]. reflexivity.
Qed.
Lemma strtod_dots f s sgn v r : decimal_text s sgn v -> strtod f (s ++ lit ".." ++ r) = strtod f s.
Proof.
  intros H. destruct H as [sg sgn ip pt fp ex x S I F N P E].
  destruct (mantissa_dots ip pt fp ex x r I F N P E) as (B & e & M & X). destruct (mantissa_ok ip pt fp ex x [] I F N P E Logic.I) as [M' B']. rewrite <- !app_assoc. rewrite !app_nil_r in *.
  assert (X' := exponent_ok ex x [] E Logic.I). rewrite app_nil_r in X'.
  assert (G : forall u e', scan_mantissa 10 u = Some (decimal_value (ip ++ fp), length fp, e') -> number_start u -> scan_exponent (lit "eE") e' = x ->
    strtod f (sg ++ u) = Some (round_scaled f (sgn <? 0) (decimal_value (ip ++ fp)) 10 (x - Z.of_nat (length fp)))).
  { intros u e' U1 U2 U3. assert (Hd : match u with c :: _ => c <> "-"%char /\ c <> "+"%char /\ isspace c = false | [] => False end).
    { destruct u as [|c t]; [destruct U2|]. destruct U2 as [[U2| ->] _]; [apply digit_not_space in U2; destruct U2 as (B1 & B2 & B3 & _); apply Ascii.eqb_neq in B2, B3; auto|repeat split; discriminate]. }
    unfold strtod. change (sg ++ u) with ([] ++ sg ++ u). rewrite skip_space_app; [|constructor|].
    - rewrite (scan_sign_ok sg sgn); [|exact S|destruct u; tauto]. destruct (number_start_words _ U2) as (-> & -> & ->). rewrite U1, U3. reflexivity.
    - intros c t Q. destruct S; cbn [app] in Q; [destruct u; [destruct Hd|]; injection Q as <- _; tauto|injection Q as <- _; reflexivity|injection Q as <- _; reflexivity]. }
  rewrite (G _ _ M B X), (G _ _ M' B' X'). reflexivity.
Qed.
Lemma read_dots f s sgn v r : decimal_text s sgn v -> from_str_float f (s ++ lit ".." ++ r) = from_str_float f s.
Proof.
  intros H. unfold from_str_float. assert (Q := decimal_no_nul s sgn v H). assert (C : c_str s = s) by (rewrite <- (app_nil_r s) at 1; rewrite (c_str_skip s) by exact Q; apply app_nil_r).
  rewrite (c_str_skip s) by exact Q. change (c_str (lit ".." ++ r)) with (lit ".." ++ c_str r). rewrite C. rewrite (strtod_dots f s sgn v _ H). reflexivity.
Qed.
Lemma written_dots f x r : cpp_type f -> of_format f x -> float_from f (to_str_float x ++ lit ".." ++ r) = float_from f (to_str_float x).
Proof.
  intros T X. unfold float_from. destruct x as [s|s| |s m e].
  - rewrite (read_dots f _ _ _ r (written_decimal f _ (cpp_writable f T) X I)). reflexivity.
  - destruct s; reflexivity.
  - reflexivity.
  - rewrite (read_dots f _ _ _ r (written_decimal f _ (cpp_writable f T) X I)). reflexivity.
Qed.

(** ** what a written number is read as *)
Lemma kept_read f x : cpp_type f -> of_format f x -> float_from f (to_str_float x) = Some (read_back f x) /\ kept f x (read_back f x).
Proof.
  intros T X. unfold float_from, read_back. assert (D : finite x \/ ~ finite x) by (destruct x; cbn; tauto). destruct D as [F|F].
  - destruct (C140_close f x [] [] T X F (Forall_nil _) I) as (A & B & C & D & E). cbn [app] in *. rewrite app_nil_r in *. pose proof (C140_six f x [] [] T X F (Forall_nil _) I) as Q. cbn [app] in Q. rewrite app_nil_r in Q.
    destruct (from_str_float f (to_str_float x)) as [y ok]. cbn [fst snd] in *. subst ok. split; [reflexivity|]. split; [exact B|]. split; [auto|]. intros S. specialize (Q (S F)). congruence.
  - rewrite C140_special by (intros (s & m & e & ->); apply F; exact I). split; [reflexivity|]. cbn [fst]. split; [exact X|]. split; [intros G; destruct (F G)|auto].
Qed.
Lemma kept_order f x y : cpp_type f -> of_format f x -> finite x -> of_format f y -> finite y -> (value x <= value y)%R -> (value (read_back f x) <= value (read_back f y))%R.
Proof. exact (C141_order f x y). Qed.

(** ** where the points are *)
Definition no_dot (s : str) : Prop := ~ In "."%char s.
Definition one_dot (s : str) : Prop := exists a b, s = a ++ b /\ no_dot a /\ (b = [] \/ exists d c, b = "."%char :: d :: c /\ no_dot (d :: c)).
Lemma digits_no_dot ds : Forall is_digit_char ds -> no_dot ds.
Proof. intros D Q. rewrite Forall_forall in D. apply D in Q. revert Q. apply not_digit. left. cbv. lia. Qed.
Lemma no_dot_app a b : no_dot a -> no_dot b -> no_dot (a ++ b).
Proof. intros A B Q. apply in_app_iff in Q. destruct Q; auto. Qed.
Lemma neat_one_dot s v : neat_text s v -> one_dot s.
Proof.
  intros [ip N D H L|ip fp v' N D F FN FL H E B|c fp sg sgn ds v' C C0 F FL SG L D H E B].
  - exists ip, []. split; [rewrite app_nil_r; reflexivity|]. split; [apply digits_no_dot; exact D|left; reflexivity].
  - exists ip, ("."%char :: fp). split; [reflexivity|]. split; [apply digits_no_dot; exact D|]. right. destruct fp as [|d c]; [congruence|]. exists d, c. split; [reflexivity|]. apply digits_no_dot. exact F.
  - assert (E' : no_dot ("e"%char :: sg ++ ds)).
    { intros [Q|Q]; [discriminate|]. revert Q. apply no_dot_app; [destruct SG as [[-> _]|[-> _]]; intros [Q|[]]; discriminate|apply digits_no_dot; exact D]. }
    assert (C' : no_dot [c]) by (apply digits_no_dot; constructor; [exact C|constructor]).
    destruct fp as [|d fp].
    + exists ([c] ++ "e"%char :: sg ++ ds), []. split; [rewrite app_nil_r; reflexivity|]. split; [apply no_dot_app; assumption|left; reflexivity].
    + exists [c], ("."%char :: d :: fp ++ "e"%char :: sg ++ ds). split; [reflexivity|]. split; [exact C'|]. right. exists d, (fp ++ "e"%char :: sg ++ ds). split; [reflexivity|].
      change (d :: fp ++ "e"%char :: sg ++ ds) with ((d :: fp) ++ "e"%char :: sg ++ ds). apply no_dot_app; [apply digits_no_dot; exact F|exact E'].
Qed.
Lemma written_one_dot f x : cpp_type f -> of_format f x -> one_dot (to_str_float x).
Proof.
  intros T X. assert (W : forall s, no_dot s -> one_dot s) by (intros s H; exists s, []; split; [rewrite app_nil_r; reflexivity|auto]).
  destruct x as [s|s| |s m e]; [destruct s; apply W; cbv; intuition discriminate|destruct s; apply W; cbv; intuition discriminate|apply W; cbv; intuition discriminate|].
  destruct (C139_text f (S754_finite s m e) T X I) as (d & t & _ & N & E & _).
  { pose proof (abs_value f s m e) as A. intros Q. rewrite Q, Rabs_R0 in A. symmetry in A. apply eq_0_F2R in A. discriminate. }
  rewrite E. apply neat_one_dot in N. destruct N as (a & b & -> & A & B). exists ((if negative (S754_finite s m e) then lit "-" else []) ++ a), b. split; [rewrite app_assoc; reflexivity|]. split; [|exact B].
  apply no_dot_app; [|exact A]. destruct (negative _); cbv; intuition discriminate.
Qed.
Lemma one_dot_first s r : one_dot s -> first_occurrence (s ++ lit ".." ++ r) (lit "..") 0 (length s).
Proof.
  intros (a & b & -> & A & B). split; [lia|]. split; [exists (a ++ b), r; split; reflexivity|]. intros j [_ Hj] (u & w & E & Hu). subst j.
  assert (E1 : nth_error ((a ++ b) ++ lit ".." ++ r) (length u) = Some "."%char) by (rewrite E, nth_error_app2, Nat.sub_diag by lia; reflexivity).
  assert (E2 : nth_error ((a ++ b) ++ lit ".." ++ r) (S (length u)) = Some "."%char) by (rewrite E, nth_error_app2 by lia; replace (S (length u) - length u)%nat with 1%nat by lia; reflexivity).
  rewrite nth_error_app1 in E1 by lia. destruct (le_lt_dec (length a) (length u)) as [L|L]; [|rewrite nth_error_app1 in E1 by lia; apply nth_error_In in E1; exact (A E1)].
  rewrite nth_error_app2 in E1 by lia. destruct B as [->|(d & c & -> & B)]; [destruct (length u - length a)%nat; discriminate|]. rewrite app_length in Hj. cbn [length] in Hj.
  destruct (Nat.eq_dec (length u) (length a)) as [Q|Q].
  - rewrite Q in E2. rewrite <- app_assoc in E2. rewrite nth_error_app2 in E2 by lia. replace (S (length a) - length a)%nat with 1%nat in E2 by lia. cbn in E2. injection E2 as ->. apply B. left. reflexivity.
  - replace (length u - length a)%nat with (S (length u - length a - 1)) in E1 by lia. cbn [nth_error] in E1. apply nth_error_In in E1. exact (B E1).
Qed.
Lemma one_dot_none s : one_dot s -> find s (lit "..") 0 = None.
Proof.
  intros H. apply find_none. intros i _ (u & w & E & _). destruct (one_dot_first s [] H) as (_ & _ & F). apply (F (length u)); [subst s; rewrite !app_length; cbn; lia|]. exists u, (w ++ lit ".."). split; [|reflexivity]. rewrite E, <- !app_assoc. reflexivity.
Qed.
Lemma sign_no_dot sg x : sign_text sg x -> no_dot sg. Proof. intros [| |]; cbv; intuition discriminate. Qed.
Lemma exponent_no_dot ex x : exponent_text ex x -> no_dot ex.
Proof.
  intros [|c sg sgn ds C S N D]; [intros []|]. change (c :: sg ++ ds) with ([c] ++ sg ++ ds). apply no_dot_app; [destruct C as [<-|[<-|[]]]; cbv; intuition discriminate|]. apply no_dot_app; [eapply sign_no_dot; exact S|apply digits_no_dot; exact D].
Qed.
Lemma decimal_one_dot s sgn v : decimal_text s sgn v -> last s nul <> "."%char -> one_dot s.
Proof.
  intros [sg sgn' ip pt fp ex x S I F N P E] L. destruct P as [->|[-> ->]].
  - exists (sg ++ ip), ("."%char :: fp ++ ex). split; [rewrite <- app_assoc; reflexivity|]. split; [apply no_dot_app; [eapply sign_no_dot; exact S|apply digits_no_dot; exact I]|]. right.
    assert (Q : no_dot (fp ++ ex)) by (apply no_dot_app; [apply digits_no_dot; exact F|eapply exponent_no_dot; exact E]).
    destruct (fp ++ ex) as [|d c] eqn:H; [|exists d, c; split; [reflexivity|exact Q]]. exfalso. apply L. apply app_eq_nil in H. destruct H as [-> ->]. rewrite app_assoc. cbn [app]. apply last_last.
  - exists (sg ++ ip ++ ex), []. split; [rewrite app_nil_r; reflexivity|]. split; [|left; reflexivity]. apply no_dot_app; [eapply sign_no_dot; exact S|]. apply no_dot_app; [apply digits_no_dot; exact I|eapply exponent_no_dot; exact E].
Qed.
