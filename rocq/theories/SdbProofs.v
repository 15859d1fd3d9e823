(** Lemmas about the numbers in settings as doubles. *)
From Coq Require Import Ascii String List Arith Bool NArith ZArith Reals SpecFloat Lia Lra.
From Flocq Require Import Core IEEE754.BinarySingleNaN.
From Verif Require Import Base BaseProofs Str StrBase StrModel CastSpec CastModel CastProofs PnSpec PnModel SetSpec SetModel SetProofs DurModel DurProofs FltSpec FltModel FltNum FltText FltProofs FltRead SdbSpec SdbModel.
Import ListNotations.
Local Open Scope Z_scope.

(** ** what strtod gives *)
Lemma digit_nonneg base c v : digit_of base c = Some v -> 0 <= v.
Proof. unfold digit_of. repeat match goal with |- context [if ?b then _ else _] => destruct b eqn:? end; intros [= <-]; lia. Qed.
Lemma take_nonneg base s : 0 <= base -> forall acc n, 0 <= acc -> 0 <= fst (fst (take_base base s acc n)).
Proof.
  intros B. induction s as [|c s IH]; intros acc n A; [exact A|]. cbn [take_base]. destruct (digit_of base c) as [v|] eqn:E; [|exact A]. apply IH. apply digit_nonneg in E. nia.
Qed.
Lemma mantissa_nonneg base s v k r : 0 <= base -> scan_mantissa base s = Some (v, k, r) -> 0 <= v.
Proof.
  intros B. unfold scan_mantissa. pose proof (take_nonneg base s B 0 0%nat ltac:(lia)) as P. destruct (take_base base s 0 0) as [[v1 n1] r1]. cbn [fst] in P.
  destruct r1 as [|c t].
  - destruct (n1 + 0 =? 0)%nat; [discriminate|]. intros [= <- _ _]. exact P.
  - destruct (Ascii.eqb c "."); [|destruct (n1 + 0 =? 0)%nat; [discriminate|]; intros [= <- _ _]; exact P].
    pose proof (take_nonneg base t B v1 0%nat P) as Q. destruct (take_base base t v1 0) as [[v2 n2] r2]. cbn [fst] in Q. destruct (n1 + n2 =? 0)%nat; [discriminate|]. intros [= <- _ _]. exact Q.
Qed.
Lemma read_valid f s : usable f -> of_format f (fst (from_str_float f s)) /\
  (fst (from_str_float f s) = S754_nan -> exists ws sg sgn w t, c_str s = ws ++ sg ++ w ++ t /\ Forall is_space_char ws /\ sign_text sg sgn /\ any_case w (lit "nan")).
Proof.
  intros U. unfold from_str_float, strtod. destruct (skip_space_split (c_str s)) as (ws & E & W). destruct (sign_split (skip_space (c_str s))) as (sg & E2 & S).
  destruct (scan_sign (skip_space (c_str s))) as [neg r]. cbn [fst snd] in E2, S.
  destruct (starts_word (lit "inf") r); [split; [reflexivity|discriminate]|].
  destruct (starts_word (lit "nan") r) eqn:N.
  - split; [reflexivity|]. intros _. apply nan_ok in N. destruct N as (w & t & -> & A). exists ws, sg, (if neg then -1 else 1), w, t. split; [rewrite E at 1; rewrite E2; reflexivity|]. auto.
  - assert (G : forall v (b : radix) q, 0 <= v -> of_format f (round_scaled f neg v b q) /\ round_scaled f neg v b q <> S754_nan).
    { intros v b q V. destruct (round_scaled_ok f U neg v b q V) as (A & _ & [(_ & F & _)|(_ & F)]); (split; [exact A|]); intros X; rewrite X in F; [exact F|discriminate]. }
    destruct (if starts_word (lit "0x") r then scan_mantissa 16 (skipn 2 r) else None) as [[[v k] r2]|] eqn:X.
    + destruct (starts_word (lit "0x") r); [|discriminate]. apply mantissa_nonneg in X; [|lia]. destruct (G v radix2 (scan_exponent (lit "pP") r2 - 4 * Z.of_nat k) X) as [G1 G2]. split; [exact G1|intros Q; destruct (G2 Q)].
    + destruct (scan_mantissa 10 r) as [[[v k] r2]|] eqn:Y; [|split; [reflexivity|discriminate]]. apply mantissa_nonneg in Y; [|lia]. destruct (G v radix10 (scan_exponent (lit "eE") r2 - Z.of_nat k) Y) as [G1 G2]. split; [exact G1|intros Q; destruct (G2 Q)].
Qed.
Lemma read_real s : B2SF (fst (read_double s)) = fst (from_str_float f_double s) /\ snd (read_double s) = snd (from_str_float f_double s).
Proof.
  unfold read_double. pose proof (read_valid f_double s usable_double) as [V _]. destruct (from_str_float f_double s) as [x ok]. cbn [fst snd] in *. split; [apply sf_ok; exact V|reflexivity].
Qed.
Lemma B2SF_valid (d : f64) : of_format f_double (B2SF d). Proof. apply (valid_binary_B2SF 53 1024 d). Qed.
Lemma sf_inj (a b : f64) : B2SF a = B2SF b -> a = b. Proof. apply B2SF_inj. Qed.
Lemma finite_iff (d : f64) : is_finite d = true <-> finite (B2SF d).
Proof. destruct d; cbn; intuition discriminate. Qed.
Lemma real_value (d : f64) : B2R d = value (B2SF d).
Proof. rewrite value_SF. symmetry. apply SF2R_B2SF. Qed.
Lemma nan_iff (d : f64) : Bleb d d = false <-> d = B754_nan.
Proof.
  split; [|intros ->; reflexivity]. destruct (is_finite d) eqn:F; [rewrite (Bleb_correct 53 1024 d d F F), Rle_bool_true by lra; discriminate|]. destruct d as [s|s| |s m e h]; try discriminate; [destruct s; discriminate|reflexivity].
Qed.
Lemma double_lt (a b : f64) : Bltb a b = Bleb a b && negb (Bleb b a).
Proof.
  pose proof (Bcompare_swap 53 1024 a b) as S. unfold Bcompare in S. unfold Bltb, Bleb, SFltb, SFleb. rewrite S. destruct (SFcompare (B2SF a) (B2SF b)) as [[]|]; reflexivity.
Qed.
Lemma double_total (a b : f64) : Bleb a a = true -> Bleb b b = true -> Bleb a b = true \/ Bleb b a = true.
Proof.
  intros A B. pose proof (Bcompare_swap 53 1024 a b) as S. unfold Bcompare in S. unfold Bleb, SFleb. rewrite S. destruct (SFcompare (B2SF a) (B2SF b)) as [[]|] eqn:E; auto.
  exfalso. destruct a as [s|s| |s m e h], b as [s'|s'| |s' m' e' h']; try discriminate.
  all: cbn in E; repeat match type of E with context [match ?x with _ => _ end] => destruct x end; discriminate.
Qed.
Lemma double_number (a b : f64) : Bleb a b = true -> Bleb a a = true /\ Bleb b b = true.
Proof.
  intros H. split; match goal with |- Bleb ?d ?d = true => destruct (Bleb d d) eqn:E; [reflexivity|apply nan_iff in E; subst d] end; [discriminate|]. destruct a as [s|[]| |[] m e h]; discriminate.
Qed.

(** ** the text of a double *)
Definition wide : format := Format 200 5000.
Lemma wide_usable : usable wide. Proof. split; reflexivity. Qed.
(** the text of two numbers is the same only when the six digits are the same *)
Lemma wide_small f x : writable f -> of_format f x -> finite x -> value x <> 0%R -> ((1 - / 200000) * bpow radix2 (bottom wide + bits wide - 1) <= Rabs (rnd10 (value x)))%R.
Proof.
  intros W X F N. destruct x as [s|s| |s m e]; try contradiction; try (cbn in N; congruence). pose proof (abs_ge_bottom f s m e (proj1 W) X) as B.
  assert (A : Rabs (value (S754_finite s m e)) = (IZR (Zpos m) * bpow radix2 e)%R) by (rewrite value_signed; pose proof (value_pos m e); destruct s; [rewrite Rabs_Ropp|]; apply Rabs_pos_eq; lra).
  rewrite abs_rnd10, A. set (v := (IZR (Zpos m) * bpow radix2 e)%R) in *. assert (V : (0 < v)%R) by apply value_pos. pose proof (rnd10_error v) as E. rewrite (Rabs_pos_eq v) in E by lra. apply Rabs_le_inv in E.
  assert (L : (bpow radix2 (bottom wide + bits wide - 1) <= v)%R) by (eapply Rle_trans; [|exact B]; apply bpow_le; destruct W as (_ & _ & W & _); change (bottom wide + bits wide - 1) with (-4998); lia).
  pose proof (bpow_gt_0 radix2 (bottom wide + bits wide - 1)). lra.
Qed.
Lemma text_digits f x y : writable f -> of_format f x -> of_format f y -> finite x -> finite y -> to_str_float x = to_str_float y -> negative x = negative y /\ rnd10 (value x) = rnd10 (value y).
Proof.
  intros W X Y Fx Fy E. pose proof (written_decimal f x W X Fx) as Dx. pose proof (written_decimal f y W Y Fy) as Dy. rewrite <- E in Dy.
  destruct (read_decimal wide [] _ _ _ [] wide_usable ltac:(constructor) Dx I) as (_ & _ & _ & Nx & Rx). destruct (read_decimal wide [] _ _ _ [] wide_usable ltac:(constructor) Dy I) as (_ & _ & _ & Ny & Ry).
  assert (Ng : negative x = negative y) by (rewrite Nx in Ny; destruct (negative x), (negative y); cbn in Ny; congruence). split; [exact Ng|].
  assert (Q : Rabs (rnd10 (value x)) = Rabs (rnd10 (value y))).
  { set (z := fst _) in *. assert (T : forall u, writable f -> of_format f u -> finite u -> (rnd2 wide (Rabs (rnd10 (value u))) < bpow radix2 (top wide))%R).
    { intros u _ Hu Fu. rewrite abs_rnd10. pose proof (abs_le_biggest f u (proj1 W) Hu) as B. pose proof (rnd10_le _ _ B) as B2. destruct W as (U & _ & _ & Tp & Bg).
      assert (C : (rnd10 (Rabs (value u)) <= bpow radix2 (top f))%R) by (unfold biggest in Bg, B2; pose proof (bpow_gt_0 radix2 (top f - bits f)); lra).
      apply Rle_lt_trans with (rnd2 wide (bpow radix2 (top f))); [apply rnd2_le; [exact wide_usable|exact C]|]. unfold rnd2. rewrite round_generic; [apply bpow_lt; cbn; lia|apply valid_rnd_N|].
      apply generic_format_bpow. unfold FLT_exp. change (bottom wide) with (-5197). change (bits wide) with 200. destruct U. lia. }
    destruct Rx as [(_ & F1 & V1)|(V1 & _)]; [|pose proof (T x W X Fx); lra]. destruct Ry as [(_ & F2 & V2)|(V2 & _)]; [|pose proof (T y W Y Fy); lra].
    assert (R2 : rnd2 wide (Rabs (rnd10 (value x))) = rnd2 wide (Rabs (rnd10 (value y)))) by (rewrite V1 in V2; rewrite <- Ng in V2; destruct (negative x); cbn in V2; lra).
    assert (Z : forall u, writable f -> of_format f u -> finite u -> value u = 0%R \/ rnd10 (rnd2 wide (Rabs (rnd10 (value u)))) = Rabs (rnd10 (value u))).
    { intros u _ Hu Fu. destruct (Req_dec (value u) 0) as [Q|Q]; [auto|right]. apply stable; [exact wide_usable|cbn; lia| |apply (wide_small f); assumption].
      rewrite abs_rnd10. apply generic_format_round; [exact valid10|apply valid_rnd_N]. }
    assert (O : rnd10 0 = 0%R) by (unfold rnd10; apply round_0, valid_rnd_N). assert (O2 : rnd2 wide 0 = 0%R) by (unfold rnd2; apply round_0, valid_rnd_N).
    destruct (Z x W X Fx) as [Zx|Zx], (Z y W Y Fy) as [Zy|Zy].
    - rewrite Zx, Zy. reflexivity.
    - rewrite <- Zy, <- R2, Zx, O, Rabs_R0, O2, O. reflexivity.
    - rewrite <- Zx, R2, Zy, O, Rabs_R0, O2, O. reflexivity.
    - rewrite <- Zx, <- Zy, R2. reflexivity. }
  rewrite (sign_value x Fx), (sign_value y Fy), Ng, !rnd10_signed, <- !abs_rnd10, Q. reflexivity.
Qed.
Lemma rnd10_zero f x : writable f -> of_format f x -> finite x -> rnd10 (value x) = 0%R -> value x = 0%R.
Proof.
  intros W X F E. destruct (Req_dec (value x) 0) as [Q|Q]; [exact Q|]. pose proof (wide_small f x W X F Q) as B. rewrite E, Rabs_R0 in B. pose proof (bpow_gt_0 radix2 (bottom wide + bits wide - 1)). lra.
Qed.
Lemma negative_value x : finite x -> (value x < 0 -> negative x = true)%R /\ (0 < value x -> negative x = false)%R.
Proof. intros F. pose proof (sign_value x F) as S. pose proof (Rabs_pos (value x)). destruct (negative x); split; auto; lra. Qed.
Lemma between_text f x y z : writable f -> of_format f x -> of_format f y -> of_format f z -> finite x -> finite y -> finite z ->
  (value x <= value y <= value z)%R -> (value x < value y \/ value y < value z)%R -> to_str_float x = to_str_float z -> to_str_float y = to_str_float x.
Proof.
  intros W X Y Z Fx Fy Fz [L1 L2] S E. destruct (text_digits f x z W X Z Fx Fz E) as [N R]. pose proof (rnd10_le _ _ L1) as R1. pose proof (rnd10_le _ _ L2) as R2. assert (Q : rnd10 (value y) = rnd10 (value x)) by lra.
  apply (same_text f); auto. assert (O : rnd10 0 = 0%R) by (unfold rnd10; apply round_0, valid_rnd_N). destruct (negative_value x Fx) as [X1 X2]. destruct (negative_value y Fy) as [Y1 Y2]. destruct (negative_value z Fz) as [Z1 Z2].
  destruct (Req_dec (value y) 0) as [V|V].
  - exfalso. rewrite V, O in Q. assert (value x = 0%R) by (apply (rnd10_zero f); auto). assert (value z = 0%R) by (apply (rnd10_zero f); auto; congruence). lra.
  - destruct (Rlt_or_le (value y) 0) as [P|P]; [rewrite Y1 by exact P; rewrite X1 by lra; reflexivity|]. rewrite Y2 by lra. rewrite N, Z2 by lra. reflexivity.
Qed.
Lemma text_class (a c : f64) : write_double a = write_double c -> (is_finite a = true <-> is_finite c = true) /\ (is_finite a = false -> a = c).
Proof.
  unfold write_double. intros E. assert (K : forall d : f64, (is_finite d = true -> finite (fst (from_str_float f_double (to_str_float (B2SF d))))) /\ (is_finite d = false -> fst (from_str_float f_double (to_str_float (B2SF d))) = B2SF d)).
  { intros d. split; intros F.
    - apply finite_iff in F. destruct (roundtrip f_double (B2SF d) [] [] writable_double (B2SF_valid d) F ltac:(constructor) I) as (_ & _ & C & _). cbn [app] in C. rewrite app_nil_r in C. exact C.
    - destruct d as [s|s| |s m e h]; try discriminate; [destruct s; reflexivity|reflexivity]. }
  destruct (K a) as [A1 A2], (K c) as [C1 C2]. rewrite E in A1, A2. destruct (is_finite a) eqn:Fa, (is_finite c) eqn:Fc.
  - split; [tauto|discriminate].
  - exfalso. specialize (A1 eq_refl). rewrite (C2 eq_refl) in A1. apply finite_iff in A1. congruence.
  - exfalso. specialize (C1 eq_refl). rewrite (A2 eq_refl) in C1. apply finite_iff in C1. congruence.
  - split; [tauto|]. intros _. apply sf_inj. rewrite <- (A2 eq_refl). exact (C2 eq_refl).
Qed.
Lemma double_between (a b c : f64) : Bleb a b = true -> Bleb b c = true -> Bltb a b = true \/ Bltb b c = true -> write_double a = write_double c -> write_double b = write_double a.
Proof.
  intros L1 L2 S E. destruct (text_class a c E) as [Cl Eq]. destruct (is_finite a) eqn:Fa.
  - assert (Fc : is_finite c = true) by tauto. assert (Fb : is_finite b = true) by (destruct a as [?|?| |[] ? ? ?], b as [?|[]| |[] ? ? ?], c as [?|?| |[] ? ? ?]; try discriminate; reflexivity).
    rewrite (Bleb_correct 53 1024 a b Fa Fb) in L1. rewrite (Bleb_correct 53 1024 b c Fb Fc) in L2. rewrite (Bltb_correct 53 1024 a b Fa Fb), (Bltb_correct 53 1024 b c Fb Fc) in S. rewrite !real_value in *.
    assert (M1 : (value (B2SF a) <= value (B2SF b))%R) by (destruct (Rle_bool_spec (value (B2SF a)) (value (B2SF b))); [assumption|discriminate]).
    assert (M2 : (value (B2SF b) <= value (B2SF c))%R) by (destruct (Rle_bool_spec (value (B2SF b)) (value (B2SF c))); [assumption|discriminate]).
    unfold write_double in *. apply (between_text f_double (B2SF a) (B2SF b) (B2SF c) writable_double); auto using B2SF_valid; try (apply finite_iff; assumption).
    destruct S as [S|S]; [left|right]; match type of S with Rlt_bool ?u ?v = true => destruct (Rlt_bool_spec u v); [assumption|discriminate] end.
  - rewrite <- (Eq eq_refl) in *. exfalso. pose proof (double_lt a b) as Q1. pose proof (double_lt b a) as Q2. rewrite L1, L2 in *. cbn in Q1, Q2. rewrite Q1, Q2 in S. destruct S; discriminate.
Qed.
Lemma double_again (d : f64) : exists d2, read_double (write_double d) = (d2, true) /\ Bleb d2 d2 = Bleb d d /\ is_finite d2 = is_finite d.
Proof.
  destruct (read_real (write_double d)) as [E1 E2]. destruct (read_double (write_double d)) as [d2 ok]. cbn [fst snd] in *. unfold write_double in *. exists d2. destruct (is_finite d) eqn:F.
  - pose proof F as F0. apply finite_iff in F0. destruct (roundtrip f_double (B2SF d) [] [] writable_double (B2SF_valid d) F0 ltac:(constructor) I) as (A & _ & C & _). cbn [app] in *. rewrite app_nil_r in *. rewrite <- E1 in C. rewrite A in E2. subst ok.
    apply finite_iff in C. split; [reflexivity|]. split; [|exact C]. rewrite (Bleb_correct 53 1024 d d F F), (Bleb_correct 53 1024 d2 d2 C C), !Rle_bool_true by lra. reflexivity.
  - assert (B2SF d2 = B2SF d /\ ok = true) as [Q ->] by (destruct d as [s|s| |s m e h]; try discriminate; [destruct s; cbn in E1, E2; auto|cbn in E1, E2; auto]). apply sf_inj in Q. subst d2. auto.
Qed.
Lemma double_some (d : f64) : write_double d <> [].
Proof. intros E. destruct (double_again d) as (d2 & H & _). rewrite E in H. apply (f_equal snd) in H. discriminate H. Qed.
Lemma double_int t z : from_str_int KInt t = (z, true) -> Bleb (fst (read_double t)) (fst (read_double t)) = true.
Proof.
  intros H. destruct (Bleb (fst (read_double t)) (fst (read_double t))) eqn:E; [reflexivity|]. exfalso. apply nan_iff in E. destruct (read_real t) as [R _]. rewrite E in R. cbn [B2SF] in R. symmetry in R.
  apply (proj2 (read_valid f_double t usable_double)) in R. destruct R as (ws & sg & sgn & w & r & R & W & S & A). unfold from_str_int in H. destruct (scan_int (c_str t)) as [[ng v]|] eqn:Q; [|discriminate].
  clear H. unfold scan_int in Q. inversion A as [|a b w' u Ha Aw]; subst. assert (Na : a = "n"%char \/ a = "N"%char).
  { destruct Ha as [->|Ha]; [auto|]. right. apply (f_equal ascii_of_N) in Ha. rewrite <- (ascii_N_embedding a). assert (N_of_ascii a = 78%N) as -> by (apply (f_equal N_of_ascii) in Ha; revert Ha; destruct a as [[] [] [] [] [] [] [] []]; vm_compute; congruence). reflexivity. }
  rewrite R in Q. rewrite skip_space_app in Q; [|exact W|intros d u' X; destruct S; cbn [app] in X; injection X as <- _; try reflexivity; destruct Na as [->| ->]; reflexivity].
  rewrite (scan_sign_ok sg sgn) in Q; [|exact S|cbn; destruct Na as [->| ->]; split; discriminate]. cbn [app] in Q. destruct Na as [->| ->]; cbn in Q; discriminate.
Qed.

(** ** an int setting reads the whole part *)
Lemma leading_int sg sgn ds r : sign_text sg sgn -> ds <> [] -> Forall is_digit_char ds -> no_digit_head r -> ~ In nul (sg ++ ds ++ r) -> decimal_value ds < 2 ^ 31 ->
  from_str_int KInt (sg ++ ds ++ r) = (sgn * decimal_value ds, true).
Proof.
  intros S N D R Nn B. destruct (scan_ok [] sg sgn ds r ltac:(constructor) S N D R) as (neg & v & E & Hv & Hsgn). cbn [app] in E.
  pose proof (from_str_value KInt (sg ++ ds) (sgn * decimal_value ds)) as P. unfold from_str_int in *. rewrite c_str_id by exact Nn. rewrite E.
  assert (T : int_text (sg ++ ds) (sgn * decimal_value ds)) by (exists [], sg, ds, sgn; repeat split; auto; constructor).
  assert (N2 : ~ In nul (sg ++ ds)) by (intros H; apply Nn; rewrite !in_app_iff in *; tauto). rewrite c_str_id in P by exact N2.
  destruct (scan_ok [] sg sgn ds [] ltac:(constructor) S N D I) as (neg' & v' & E' & Hv' & Hsgn'). cbn [app] in E'. rewrite app_nil_r in E'. rewrite E' in P.
  assert (v' = v) as -> by (rewrite <- Hv in Hv'; apply N2Z.inj; exact Hv'). assert (neg' = neg) as -> by (subst sgn; destruct neg, neg'; congruence || discriminate).
  apply P; [exact T|]. assert (0 <= decimal_value ds) by (rewrite <- Hv; lia). cbn [kind_min kind_max]. destruct S; lia.
Qed.
Lemma point_no_digit : ~ is_digit_char "."%char. Proof. unfold is_digit_char. intros H. apply proj1 in H. revert H. vm_compute. lia. Qed.
Lemma e_no_digit : ~ is_digit_char "e"%char. Proof. unfold is_digit_char. intros H. apply proj2 in H. revert H. vm_compute. lia. Qed.
Lemma neat_head s v : neat_text s v -> exists ds r, s = ds ++ r /\ ds <> [] /\ Forall is_digit_char ds /\ no_digit_head r /\ decimal_value ds < 2 ^ 31.
Proof.
  intros [ip N D H L|ip fp v' N D Df Nf Lf H V L|c fp sg sgn ds v' C C0 Df Lf S Ld D Hd V L].
  - exists ip, []. rewrite app_nil_r. split; [reflexivity|]. split; [exact N|]. split; [exact D|]. split; [exact I|]. apply lt_IZR in L. lia.
  - exists ip, ("."%char :: fp). split; [reflexivity|]. split; [exact N|]. split; [exact D|]. split; [exact point_no_digit|]. subst v'. destruct L as [_ L].
    rewrite p10, decimal_app in L. pose proof (decimal_bounds fp Df) as [F _]. pose proof (decimal_bounds ip D) as [F2 _]. rewrite plus_IZR, mult_IZR in L. change (10 ^ Z.of_nat (length fp)) with (radix_val radix10 ^ Z.of_nat (length fp)) in L. rewrite IZR_Zpower in L by lia.
    rewrite Rmult_plus_distr_r, Rmult_assoc, <- bpow_plus in L. replace (Z.of_nat (length fp) + - Z.of_nat (length fp)) with 0 in L by lia. change (bpow radix10 0) with 1%R in L.
    assert (0 <= IZR (decimal_value fp) * bpow radix10 (- Z.of_nat (length fp)))%R by (apply Rmult_le_pos; [apply IZR_le; exact F|apply bpow_ge_0]). assert (IZR (decimal_value ip) < 1000000)%R by lra. assert (decimal_value ip < 1000000) by (apply lt_IZR; assumption). lia.
  - exists [c], ((match fp with [] => [] | _ => "."%char :: fp end) ++ "e"%char :: sg ++ ds). split; [reflexivity|]. split; [discriminate|]. split; [constructor; [exact C|constructor]|].
    split; [destruct fp; [exact e_no_digit|exact point_no_digit]|]. pose proof (decimal_bounds [c] ltac:(constructor; [exact C|constructor])) as [_ B]. cbn [length] in B. change (10 ^ Z.of_nat 1) with 10 in B. lia.
Qed.
Lemma double_int_text (d : f64) : is_finite d = true -> exists z, from_str_int KInt (write_double d) = (z, true) /\ z <> kind_min KInt.
Proof.
  intros F. apply finite_iff in F. unfold write_double. assert (Z0 : forall x, finite x -> value x = 0%R -> to_str_float x = lit "0" \/ to_str_float x = lit "-0").
  { intros [s|s| |s m e] Fx V; try contradiction; [destruct s; auto|]. rewrite value_signed in V. pose proof (value_pos m e). destruct s; lra. }
  destruct (Req_dec (value (B2SF d)) 0) as [V|V].
  - exists 0. split; [|discriminate]. destruct (Z0 _ F V) as [-> | ->]; vm_compute; reflexivity.
  - destruct (print_assembled f_double (B2SF d) writable_double (B2SF_valid d) F V) as (s & E & _ & T & _). pose proof (neat_no_nul _ _ T) as Nn. destruct (neat_head _ _ T) as (ds & r & -> & N & D & R & B). rewrite E.
    pose proof (sign_str_text (negative (B2SF d))) as S. eexists. split; [apply leading_int; [exact S|exact N|exact D|exact R| |exact B]|].
    + rewrite in_app_iff. intros [X|X]; [destruct (negative (B2SF d)); cbn in X; intuition discriminate|exact (Nn X)].
    + pose proof (decimal_bounds ds D) as [G _]. cbn [kind_min]. destruct (negative (B2SF d)); lia.
Qed.

(** ** texts that give themselves again *)
Lemma below_normal f v : usable f -> 24 <= bits f -> (0 <= v < (1 - / 200000) * smallest_normal f)%R -> (rnd2 f v < smallest_normal f)%R.
Proof.
  intros U B [V0 V]. unfold smallest_normal in *. rewrite p2 in *. set (b := bottom f) in *. set (n := bits f) in *.
  assert (P : bpow radix2 (b + n - 1) = (bpow radix2 b * bpow radix2 (n - 1))%R) by (rewrite <- bpow_plus; f_equal; lia). pose proof (bpow_gt_0 radix2 b) as Pb.
  assert (P2 : (bpow radix2 23 <= bpow radix2 (n - 1))%R) by (apply bpow_le; lia). change (bpow radix2 23) with 8388608%R in P2.
  assert (G : generic_format radix2 (FLT_exp b n) (bpow radix2 (b + n - 1) - bpow radix2 b)).
  { apply generic_format_FLT. exists (Float radix2 (2 ^ (n - 1) - 1) b).
    - unfold F2R. cbn [Fnum Fexp]. rewrite minus_IZR, P. change 2 with (radix_val radix2). rewrite IZR_Zpower by lia. ring.
    - cbn [Fnum]. assert (0 < 2 ^ (n - 1)) by (apply Z.pow_pos_nonneg; lia). assert (2 ^ n = 2 * 2 ^ (n - 1)) by (rewrite <- Z.pow_succ_r by lia; f_equal; lia). change (radix_val radix2) with 2. rewrite Z.abs_eq by lia. lia.
    - cbn [Fexp]. lia. }
  assert (L : (v <= bpow radix2 (b + n - 1) - bpow radix2 b)%R) by (rewrite P in *; nra).
  apply (rnd2_le f _ _ U) in L. assert (E : rnd2 f (bpow radix2 (b + n - 1) - bpow radix2 b) = (bpow radix2 (b + n - 1) - bpow radix2 b)%R) by (unfold rnd2; apply round_generic; [apply valid_rnd_N|exact G]). rewrite E in L. lra.
Qed.
Lemma read_stable f x : writable f -> of_format f x -> finite x -> let y := fst (from_str_float f (to_str_float x)) in (value y = 0 \/ smallest_normal f <= Rabs (value y))%R -> to_str_float y = to_str_float x.
Proof.
  intros W X F. cbn zeta. destruct (roundtrip f x [] [] W X F ltac:(constructor) I) as (_ & B & C & D & E). destruct (close_assembled f x [] [] W X F ltac:(constructor) I) as (_ & _ & _ & _ & A). cbn zeta in A. cbn [app] in *. rewrite app_nil_r in *. intros L. assert (U := proj1 W). destruct L as [L|L].
  - apply stable_assembled; auto. left. rewrite L in A. replace (0 - value x)%R with (- value x)%R in A by ring. rewrite Rabs_Ropp in A. pose proof (Rabs_pos (value x)). destruct (Req_dec (value x) 0) as [Q|Q]; [exact Q|]. apply Rabs_pos_lt in Q. lra.
  - apply (same_text f); auto. rewrite E in *. rewrite abs_rnd2, abs_rnd10 in L by exact U.
    assert (Q : rnd10 (rnd2 f (rnd10 (Rabs (value x)))) = rnd10 (Rabs (value x))).
    { apply stable; [exact U|exact (proj1 (proj2 W))|apply generic_format_round; [exact valid10|apply valid_rnd_N]|]. apply Rnot_lt_le. intros H. pose proof (rnd10_ge0 _ (Rabs_pos (value x))) as G.
      pose proof (below_normal f (rnd10 (Rabs (value x))) U (proj1 (proj2 W))) as K. unfold smallest_normal in K, L. rewrite p2 in K, L. specialize (K (conj G H)). lra. }
    pose proof (sign_value x F) as Sx. set (a := Rabs (value x)) in *. rewrite Sx, !rnd10_signed, rnd2_signed, rnd10_signed, Q. reflexivity.
Qed.
Lemma double_stable (d : f64) : ~ subnormal (fst (read_double (write_double d))) -> write_double (fst (read_double (write_double d))) = write_double d.
Proof.
  intros N. destruct (is_finite d) eqn:F.
  - apply finite_iff in F. destruct (read_real (write_double d)) as [E _]. unfold write_double in *. unfold subnormal in N. rewrite real_value, E in N. rewrite E. apply (read_stable f_double); [exact writable_double|apply B2SF_valid|exact F|].
    change (smallest_normal f_double) with (powerRZ 2 (-1022)). destruct (Req_dec (value (fst (from_str_float f_double (to_str_float (B2SF d))))) 0) as [Q|Q]; [auto|right]. apply Rnot_lt_le. intros L. apply N. auto.
  - destruct (read_real (write_double d)) as [E _]. unfold write_double in *. rewrite E. destruct d as [s|s| |s m e h]; try discriminate; [destruct s; reflexivity|reflexivity].
Qed.

Lemma double_six (d : f64) : exists y, read_double (write_double d) = (y, true) /\ six_of d y.
Proof.
  destruct (double_again d) as (y & E & _ & Fy). exists y. split; [exact E|]. destruct (read_real (write_double d)) as [R _]. rewrite E in R. cbn [fst] in R. unfold write_double in *. split; intros F; rewrite F in Fy.
  - apply finite_iff in F. destruct (close_assembled f_double (B2SF d) [] [] writable_double (B2SF_valid d) F ltac:(constructor) I) as (_ & _ & _ & _ & A). cbn zeta in A. cbn [app] in A. rewrite app_nil_r, <- R, <- !real_value in A. split; [exact Fy|]. split; [exact A|].
    intros S. rewrite real_value in S. pose proof (six_kept f_double (B2SF d) [] [] writable_double (B2SF_valid d) F ltac:(constructor) I S) as K. cbn [app] in K. rewrite app_nil_r in K. rewrite K in R. apply sf_inj. exact R.
  - apply sf_inj. rewrite R. destruct d as [s|s| |s m e h]; try discriminate; [destruct s; reflexivity|reflexivity].
Qed.

(** ** settings *)
Section Reload.
  Variables is_color is_vec3 : pn -> bool.
  Lemma double_type (lo hi d : f64) s : (forall t, has_child s "type" t -> pn_value t = lit "float" \/ pn_value t = lit "int" /\ is_finite lo = true /\ is_finite hi = true) ->
    Bleb lo d = true -> Bleb d hi = true -> type_ok read_double Bleb is_color is_vec3 s (PN (write_double d) [] false).
  Proof.
    intros T L1 L2 t Ht. cbn [pn_value]. destruct (T t Ht) as [E|(E & F1 & F2)]; rewrite E; (split; [|split; [|split; [|split]]]); try discriminate.
    - intros _. destruct (double_again d) as (d2 & A & B & _). exists d2. split; [exact A|]. unfold is_nan. rewrite B. apply double_number in L1. destruct L1 as [_ L1]. congruence.
    - intros _. apply double_int_text. destruct lo as [?|?| |[] ? ? ?], d as [?|[]| |[] ? ? ?], hi as [?|?| |[] ? ? ?]; try discriminate; reflexivity.
  Qed.
  Lemma double_reload schema ops data cur : separate schema -> (forall s, ~ setting schema [] s) -> (forall ks s, ~ setting schema (lit "version" :: ks) s) ->
    (forall ks s dflt, setting schema ks s -> has_child s "default" dflt -> exists r, double_range s = Ok r /\
       (forall lo hi, r = Some (lo, hi) -> Bleb lo hi = true /\ snd (read_double (pn_value dflt)) = true /\ (forall l, ~ has_child s "allowed" l) /\
          forall t, has_child s "type" t -> pn_value t = lit "float" \/ pn_value t = lit "int" /\ is_finite lo = true /\ is_finite hi = true)) ->
    Forall named_op ops -> double_run is_color is_vec3 schema pn_empty ops = Ok data -> (exists w, from_str_version (to_str_version cur) (Ver 0 0 0 0 []) = Ok (w, true)) ->
    (forall ks s r u, setting schema ks s -> double_range s = Ok (Some r) -> at_keys data ks u -> ~ subnormal (fst (read_double (pn_value u)))) ->
    exists data', double_load is_color is_vec3 schema pn_empty (Some (saved data cur)) = Ok data' /\
      forall id ks s, names id ks -> setting schema ks s -> exists u u', get_node schema data id = Ok u /\ get_node schema data' id = Ok u' /\ same_tree u' u.
  Proof.
    intros S NS NV NR F R W Sub. unfold double_range, double_run, double_load in *.
    apply (@reload_assembled f64 read_double write_double Bleb Bltb is_color is_vec3 double_lt double_total double_number) with (ops := ops); auto.
    - intros d. destruct (double_again d) as (d2 & A & B & _). exists d2. auto.
    - exact double_between.
    - exact double_some.
    - exact double_int.
    - intros ks s dflt H Hd. destruct (NR ks s dflt H Hd) as (r & Er & Rr). exists r. split; [exact Er|]. destruct r as [[lo hi]|]; [|exact I]. destruct (Rr lo hi eq_refl) as (R1 & R2 & R3 & R4).
      split; [exact R1|]. split; [destruct (read_double (pn_value dflt)) as [d ok]; cbn [snd] in R2; subst ok; exists d; reflexivity|]. split; [exact R3|]. split.
      + intros t Ht. destruct (R4 t Ht) as [->|[-> _]]; cbn; auto.
      + intros d L1 L2. apply (double_type lo hi); assumption.
    - intros ks s [lo hi] u H Er Hu. destruct H as [H0 (dflt & Hd)]. assert (H : setting schema ks s) by (split; [exact H0|exists dflt; exact Hd]). destruct (NR ks s dflt H Hd) as (r & Er' & Rr). rewrite Er in Er'. injection Er' as <-. destruct (Rr lo hi eq_refl) as (R1 & _).
      assert (Nk : ks <> []) by (intros ->; exact (NS s H)).
      destruct (@valid_assembled f64 read_double write_double Bleb Bltb is_color is_vec3 double_lt double_total double_number schema ops data S F R) as [V _].
      specialize (V ks s dflt _ u Nk H Hd Er Hu). cbn in V. destruct (V R1) as (d & -> & _). specialize (Sub ks s _ _ H Er Hu). cbn [pn_value] in *. apply double_stable. exact Sub.
  Qed.
  Lemma double_set schema ops data id ks v s dflt lo hi : separate schema -> Forall named_op ops -> double_run is_color is_vec3 schema pn_empty ops = Ok data ->
    names id ks -> setting schema ks s -> has_child s "default" dflt -> double_range s = Ok (Some (lo, hi)) -> Bleb lo hi = true -> snd (read_double (pn_value dflt)) = true ->
    ordinary_value v dflt -> type_ok read_double Bleb is_color is_vec3 s v -> allowed_ok s v ->
    exists data' u d y, try_set read_double write_double Bleb Bltb is_color is_vec3 schema data id v = Ok (data', true) /\ get_node schema data' id = Ok u /\
      restricted Bleb lo hi (fst (read_double (pn_value v))) d /\ read_double (pn_value u) = (y, true) /\ six_of d y.
  Proof.
    intros S F R N H Hd Er Lh Rd O T A. destruct (double_number lo hi Lh) as [Hl Hh]. assert (Q : exists d, get_d read_double dflt = Ok d).
    { unfold get_d. destruct (read_double (pn_value dflt)) as [d ok]. cbn [snd] in Rd. subst ok. exists d. reflexivity. }
    destruct (@set_assembled f64 read_double write_double Bleb Bltb is_color is_vec3 double_lt double_total double_number schema ops data id ks v s dflt (Some (lo, hi)) S F R N H Hd Er (or_intror Q)) as (data' & b & E & B & _ & _ & G & _).
    assert (b = true) as -> by (apply B; right; auto). destruct (G O eq_refl Hl Hh) as (d & G1 & G2). destruct (double_six d) as (y & Y1 & Y2). exists data', (PN (write_double d) [] false), d, y. auto.
  Qed.
  Lemma double_stored schema ops data ks s dflt lo hi u : separate schema -> (forall s, ~ setting schema [] s) -> Forall named_op ops -> double_run is_color is_vec3 schema pn_empty ops = Ok data ->
    setting schema ks s -> has_child s "default" dflt -> double_range s = Ok (Some (lo, hi)) -> Bleb lo hi = true -> at_keys data ks u ->
    exists d y, (d = B754_nan \/ Bleb lo d = true /\ Bleb d hi = true) /\ read_double (pn_value u) = (y, true) /\ six_of d y.
  Proof.
    intros S NS F R H Hd Er Lh Hu. destruct (@valid_assembled f64 read_double write_double Bleb Bltb is_color is_vec3 double_lt double_total double_number schema ops data S F R) as [V _].
    assert (Nk : ks <> []) by (intros ->; exact (NS s H)). specialize (V ks s dflt _ u Nk H Hd Er Hu). cbn in V. destruct (V Lh) as (d & -> & V2). destruct (double_six d) as (y & Y1 & Y2). exists d, y. split; [|auto].
    destruct V2 as [V2|V2]; [left; apply nan_iff; exact V2|auto].
  Qed.
End Reload.
