(** Writing a floating-point number and reading it again. *)
From Coq Require Import Ascii String List Arith Bool NArith ZArith Reals SpecFloat Lia Lra Psatz.
From Flocq Require Import Core IEEE754.BinarySingleNaN Relative.
From Verif Require Import Base BaseProofs Str StrBase StrModel CastSpec CastModel CastProofs FltSpec FltModel FltNum FltText.
Import ListNotations.
Local Open Scope Z_scope.

(** the largest number of a format *)
Definition biggest (f : format) : R := (bpow radix2 (top f) - bpow radix2 (top f - bits f))%R.
Definition writable (f : format) : Prop := usable f /\ 24 <= bits f /\ -1074 <= bottom f /\ top f <= 1024 /\ (rnd10 (biggest f) <= biggest f)%R.
Lemma biggest_written f n : usable f -> n = 2 ^ top f - 2 ^ (top f - bits f) -> 0 < n -> (let (k, x) := six n 1 in 5 <= x /\ k * 10 ^ (x - 5) <= n) -> (rnd10 (biggest f) <= biggest f)%R.
Proof.
  intros [U1 U2] N P H. assert (E : biggest f = (IZR n / IZR 1)%R) by (unfold biggest; rewrite N, minus_IZR; change 2 with (radix_val radix2); rewrite !IZR_Zpower by lia; field).
  rewrite E. destruct (six_ok n 1 P ltac:(lia)) as [_ ->]. destruct (six n 1) as [k x]. cbn [fst snd]. destruct H as [X H]. rewrite <- IZR_Zpower by lia. change (radix_val radix10) with 10. rewrite <- mult_IZR. replace (IZR n / IZR 1)%R with (IZR n) by (field; lra). apply IZR_le. exact H.
Qed.
Lemma writable_double : writable f_double.
Proof. split; [exact usable_double|]. repeat split; try (vm_compute; discriminate). apply (biggest_written f_double _ usable_double eq_refl); [vm_compute; reflexivity|]. vm_compute. split; discriminate. Qed.
Lemma writable_float : writable f_float.
Proof. split; [exact usable_float|]. repeat split; try (vm_compute; discriminate). apply (biggest_written f_float _ usable_float eq_refl); [vm_compute; reflexivity|]. vm_compute. split; discriminate. Qed.

(** ** writing *)
Definition sign_str (b : bool) : str := if b then ["-"%char] else [].
Lemma fraction_value m e : (IZR (scale_num 2 m (- e)) / IZR (scale_den 2 1 (- e)) = IZR m * bpow radix2 e)%R.
Proof. change 2 with (radix_val radix2). rewrite scaled by lia. rewrite Z.opp_involutive. field. Qed.
Lemma six_finite m e : let kx := six (scale_num 2 (Zpos m) (- e)) (scale_den 2 1 (- e)) in
  10 ^ 5 <= fst kx < 10 ^ 6 /\ rnd10 (IZR (Zpos m) * bpow radix2 e) = (IZR (fst kx) * bpow radix10 (snd kx - 5))%R.
Proof. cbn zeta. rewrite <- fraction_value. apply six_ok; [apply (scale_num_pos radix2)|apply (scale_den_pos radix2)]; lia. Qed.
Lemma value_signed s m e : value (S754_finite s m e) = (if s then - (IZR (Zpos m) * bpow radix2 e) else IZR (Zpos m) * bpow radix2 e)%R.
Proof. unfold value. rewrite p2. destruct s; ring. Qed.
Lemma rnd10_signed (s : bool) v : rnd10 (if s then - v else v) = (if s then - rnd10 v else rnd10 v)%R.
Proof. destruct s; [apply rnd10_opp|reflexivity]. Qed.
Lemma rnd2_signed f (s : bool) v : rnd2 f (if s then - v else v) = (if s then - rnd2 f v else rnd2 f v)%R.
Proof. destruct s; [apply rnd2_opp|reflexivity]. Qed.
Lemma rnd10_ge0 v : (0 <= v)%R -> (0 <= rnd10 v)%R.
Proof. intros H. apply rnd10_le in H. unfold rnd10 at 1 in H. rewrite round_0 in H by apply valid_rnd_N. exact H. Qed.
Lemma rnd2_ge0 f v : usable f -> (0 <= v)%R -> (0 <= rnd2 f v)%R.
Proof. intros U H. apply (rnd2_le f 0 v U) in H. unfold rnd2 at 1 in H. rewrite round_0 in H by apply valid_rnd_N. exact H. Qed.

Lemma strip_length fp : (length (strip_zeros fp) <= length fp)%nat.
Proof. destruct (strip_ok fp) as (j & E & _). rewrite E at 2. rewrite app_length. lia. Qed.
Lemma with_fraction_length ip fp : (length (with_fraction ip fp) <= length ip + 1 + length fp)%nat.
Proof. unfold with_fraction. pose proof (strip_length fp) as L. destruct (strip_zeros fp); [lia|]. rewrite app_length. cbn [length] in *. lia. Qed.
Lemma format_length k x : 10 ^ 5 <= k < 10 ^ 6 -> Z.abs x < 1000 -> (length (format_g k x) <= 12)%nat.
Proof.
  intros K X. destruct (to_string_pos k ltac:(lia)) as (D & V & H & _). assert (L : length (to_string k) = 6%nat) by (apply digits_length; [exact D|exact H|rewrite V; exact K]).
  unfold format_g. destruct ((-4 <=? x) && (x <? 6)) eqn:C.
  - apply andb_prop in C. destruct (Z.leb_spec 0 x) as [Y|Y]; eapply Nat.le_trans; try apply with_fraction_length.
    + rewrite firstn_length, skipn_length. lia.
    + rewrite app_length, repeat_length. cbn [length]. lia.
  - rewrite app_length. cbn [length]. pose proof (with_fraction_length (firstn 1 (to_string k)) (skipn 1 (to_string k))) as W. rewrite firstn_length, skipn_length, L in W.
    destruct (to_string_pos (Z.abs x) ltac:(lia)) as (Dx & Vx & Hx & Nx). destruct (at_least_two_ok _ Dx Nx Hx) as (_ & _ & _ & _ & A).
    assert (length (to_string (Z.abs x)) <= 3)%nat.
    { destruct (Z_lt_le_dec (Z.abs x) 10); [rewrite (digits_length _ 0 Dx Hx) by (rewrite Vx; cbn; lia); lia|]. destruct (Z_lt_le_dec (Z.abs x) 100); [rewrite (digits_length _ 1 Dx Hx) by (rewrite Vx; cbn; lia); lia|]. rewrite (digits_length _ 2 Dx Hx) by (rewrite Vx; cbn; lia). lia. }
    lia.
Qed.
Lemma abs_lt_top f x : usable f -> of_format f x -> (Rabs (value x) < bpow radix2 (top f))%R.
Proof. intros U H. rewrite value_SF, <- (B2R_SF2B _ _ x H). apply abs_B2R_lt_emax. Qed.
Lemma abs_le_biggest f x : usable f -> of_format f x -> (Rabs (value x) <= biggest f)%R.
Proof. intros U H. apply (below_biggest f U); [apply abs_format; assumption|apply abs_lt_top; assumption]. Qed.
Lemma abs_ge_bottom f s m e : usable f -> of_format f (S754_finite s m e) -> (bpow radix2 (bottom f) <= IZR (Zpos m) * bpow radix2 e)%R.
Proof.
  intros U H. unfold of_format, valid_binary, bounded, canonical_mantissa, SpecFloat.fexp in H. apply andb_prop in H. destruct H as [H _]. apply Zeq_bool_eq in H.
  change (emin (bits f) (top f)) with (bottom f) in H. apply Rle_trans with (1 * bpow radix2 e)%R; [rewrite Rmult_1_l; apply bpow_le; lia|]. apply Rmult_le_compat_r; [apply bpow_ge_0|apply IZR_le; lia].
Qed.
Lemma six_exponent f s m e : writable f -> of_format f (S754_finite s m e) -> Z.abs (snd (six (scale_num 2 (Zpos m) (- e)) (scale_den 2 1 (- e)))) < 1000.
Proof.
  intros (U & _ & W1 & W2 & _) H. pose proof (abs_ge_bottom f s m e U H) as L. pose proof (abs_lt_top f _ U H) as T. rewrite (abs_value f) in T. unfold F2R in T. cbn [Fnum Fexp] in T.
  destruct (six_finite m e) as [K R]. set (x := snd _) in *. set (k := fst _) in *. set (v := (IZR (Zpos m) * bpow radix2 e)%R) in *.
  assert (Kr : (IZR (10 ^ 5) <= IZR k < IZR (10 ^ 6))%R) by (split; [apply IZR_le|apply IZR_lt]; lia).
  assert (F10 : forall j, rnd10 (bpow radix10 j) = bpow radix10 j).
  { intros j. apply round_generic; [apply valid_rnd_N|]. apply six_format. exists 1, j. split; [reflexivity|]. rewrite p10. ring. }
  assert (P1 : (bpow radix2 1024 <= bpow radix10 400)%R) by (rewrite <- !IZR_Zpower by lia; apply IZR_le; vm_compute; discriminate).
  assert (P2 : (bpow radix10 (-400) <= bpow radix2 (-1074))%R).
  { change (-400) with (- (400)). change (-1074) with (- (1074)). rewrite !bpow_opp. apply Rinv_le; [apply bpow_gt_0|]. rewrite <- !IZR_Zpower by lia; apply IZR_le; vm_compute; discriminate. }
  assert (U1 : (rnd10 v <= bpow radix10 400)%R) by (rewrite <- (F10 400); apply rnd10_le; apply Rle_trans with (2 := P1); apply Rle_trans with (bpow radix2 (top f)); [lra|apply bpow_le; lia]).
  assert (U2 : (bpow radix10 (-400) <= rnd10 v)%R) by (rewrite <- (F10 (-400)); apply rnd10_le; apply Rle_trans with (1 := P2); apply Rle_trans with (bpow radix2 (bottom f)); [apply bpow_le; lia|lra]).
  rewrite R in U1, U2.
  assert (X1 : (bpow radix10 (5 + (x - 5)) <= bpow radix10 400)%R).
  { apply Rle_trans with (2 := U1). rewrite bpow_plus. apply Rmult_le_compat_r; [apply bpow_ge_0|]. rewrite <- IZR_Zpower by lia. apply Kr. }
  apply le_bpow in X1.
  assert (X2 : (bpow radix10 (-400) < bpow radix10 (6 + (x - 5)))%R).
  { apply Rle_lt_trans with (1 := U2). rewrite bpow_plus. apply Rmult_lt_compat_r; [apply bpow_gt_0|]. rewrite <- IZR_Zpower by lia. apply Kr. }
  apply lt_bpow in X2. lia.
Qed.
Lemma neat_no_nul s v : neat_text s v -> ~ In nul s.
Proof. intros H. apply (neat_decimal s v [] 1) in H; [|constructor]. apply decimal_no_nul in H. exact H. Qed.
(** what is written for a number other than zero *)
Lemma print_shape f s m e : writable f -> of_format f (S754_finite s m e) -> let kx := six (scale_num 2 (Zpos m) (- e)) (scale_den 2 1 (- e)) in
  to_str_float (S754_finite s m e) = sign_str s ++ format_g (fst kx) (snd kx) /\ (length (to_str_float (S754_finite s m e)) <= 13)%nat /\
  neat_text (format_g (fst kx) (snd kx)) (rnd10 (IZR (Zpos m) * bpow radix2 e)).
Proof.
  intros W H. cbn zeta. destruct (six_finite m e) as [K R]. pose proof (six_exponent f s m e W H) as X. set (kx := six _ _) in *. pose proof (format_neat (fst kx) (snd kx) K) as N. rewrite <- R in N.
  pose proof (format_length (fst kx) (snd kx) K X) as L.
  assert (E : print_g (S754_finite s m e) = sign_str s ++ format_g (fst kx) (snd kx)) by (cbn [print_g]; fold kx; destruct kx, s; reflexivity).
  assert (L' : (length (print_g (S754_finite s m e)) <= 13)%nat) by (rewrite E, app_length; destruct s; cbn [sign_str length]; lia).
  unfold to_str_float. rewrite firstn_all2 by lia. rewrite c_str_id; [auto|]. rewrite E, in_app_iff. intros [Z|Z]; [destruct s; cbn in Z; intuition discriminate|]. exact (neat_no_nul _ _ N Z).
Qed.
Lemma print_assembled f x : writable f -> of_format f x -> finite x -> value x <> 0%R -> exists s, to_str_float x = sign_str (negative x) ++ s /\ (length (to_str_float x) <= 13)%nat /\
  neat_text s (Rabs (rnd10 (value x))) /\ nearest_six (value x) (rnd10 (value x)).
Proof.
  intros W H F N. destruct x as [s|s| |s m e]; try contradiction; try (cbn in N; congruence).
  destruct (print_shape f s m e W H) as (E & L & T). exists (format_g (fst (six (scale_num 2 (Zpos m) (- e)) (scale_den 2 1 (- e)))) (snd (six (scale_num 2 (Zpos m) (- e)) (scale_den 2 1 (- e))))). split; [exact E|]. split; [exact L|]. split; [|apply rnd10_nearest; exact N].
  rewrite value_signed, rnd10_signed. replace (Rabs _) with (rnd10 (IZR (Zpos m) * bpow radix2 e)); [exact T|].
  assert (0 <= rnd10 (IZR (Zpos m) * bpow radix2 e))%R by (apply rnd10_ge0, Rmult_le_pos; [apply IZR_le; lia|apply bpow_ge_0]). destruct s; [rewrite Rabs_Ropp|]; rewrite Rabs_pos_eq; auto.
Qed.

(** ** reading it again *)
Lemma value_pos m e : (0 < IZR (Zpos m) * bpow radix2 e)%R.
Proof. apply Rmult_lt_0_compat; [apply IZR_lt; lia|apply bpow_gt_0]. Qed.
Lemma no_overflow f v : writable f -> (0 <= v <= biggest f)%R -> (rnd2 f (rnd10 v) < bpow radix2 (top f))%R.
Proof.
  intros (U & _ & _ & _ & W) [V1 V2]. apply rnd10_le in V2. apply Rle_lt_trans with (biggest f).
  - assert (E : rnd2 f (biggest f) = biggest f) by (apply round_generic; [apply valid_rnd_N|apply biggest_format; exact U]). rewrite <- E. apply rnd2_le; [exact U|lra].
  - unfold biggest. pose proof (bpow_gt_0 radix2 (top f - bits f)). lra.
Qed.
Lemma zero_decimal sg sgn : sign_text sg sgn -> decimal_text (sg ++ ["0"%char]) sgn 0.
Proof.
  intros S. pose proof (decimal sg sgn ["0"%char] [] [] [] 0 S ltac:(constructor; [unfold is_digit_char; cbv; lia|constructor]) ltac:(constructor) ltac:(discriminate) ltac:(auto) exponent_none) as T.
  cbn [app] in T. change (decimal_value ["0"%char]) with 0 in T. rewrite Rmult_0_l in T. exact T.
Qed.
Lemma sign_str_text b : sign_text (sign_str b) (if b then -1 else 1).
Proof. destruct b; constructor. Qed.
(** the text is a decimal number for what was written *)
Lemma written_decimal f x : writable f -> of_format f x -> finite x -> decimal_text (to_str_float x) (if negative x then -1 else 1) (Rabs (rnd10 (value x))).
Proof.
  intros W H F. destruct x as [s|s| |s m e]; try contradiction.
  - cbn [value negative]. unfold rnd10. rewrite round_0 by apply valid_rnd_N. rewrite Rabs_R0. destruct s; [apply (zero_decimal ["-"%char]); constructor|apply (zero_decimal []); constructor].
  - destruct (print_assembled f (S754_finite s m e) W H I) as (t & -> & _ & T & _); [rewrite value_signed; pose proof (value_pos m e); destruct s; lra|]. apply neat_decimal; [exact T|apply sign_str_text].
Qed.
Lemma abs_rnd2 f v : usable f -> Rabs (rnd2 f v) = rnd2 f (Rabs v).
Proof.
  intros U. destruct (Rle_or_lt 0 v) as [H|H]; [rewrite !Rabs_pos_eq; auto using rnd2_ge0|]. pose proof (rnd2_ge0 f (- v) U ltac:(lra)) as P. rewrite (Rabs_left v H), rnd2_opp in *. unfold Rabs. destruct (Rcase_abs _); lra.
Qed.
Lemma abs_rnd10 v : Rabs (rnd10 v) = rnd10 (Rabs v).
Proof.
  destruct (Rle_or_lt 0 v) as [H|H]; [rewrite !Rabs_pos_eq; auto using rnd10_ge0|]. pose proof (rnd10_ge0 (- v) ltac:(lra)) as P. rewrite (Rabs_left v H), rnd10_opp in *. unfold Rabs. destruct (Rcase_abs _); lra.
Qed.
Lemma sign_value x : finite x -> value x = (if negative x then - Rabs (value x) else Rabs (value x))%R.
Proof.
  destruct x as [s|s| |s m e]; cbn [finite negative]; try tauto; intros _; [cbn; rewrite Rabs_R0; destruct s; lra|]. rewrite value_signed. pose proof (value_pos m e). destruct s; [rewrite Rabs_Ropp|]; rewrite Rabs_pos_eq; lra.
Qed.
Lemma roundtrip f x ws r : writable f -> of_format f x -> finite x -> Forall is_space_char ws -> number_ends r -> let y := fst (from_str_float f (ws ++ to_str_float x ++ r)) in
  snd (from_str_float f (ws ++ to_str_float x ++ r)) = true /\ of_format f y /\ finite y /\ negative y = negative x /\ value y = rnd2 f (rnd10 (value x)).
Proof.
  intros W H F S R. cbn zeta. assert (U := proj1 W). destruct (read_decimal f ws _ _ _ r U S (written_decimal f x W H F) R) as (A & _ & B & C & D).
  split; [exact A|]. split; [exact B|]. assert (N : ((if negative x then -1 else 1) <? 0) = negative x) by (destruct (negative x); reflexivity). rewrite N in *.
  assert (O : (rnd2 f (Rabs (rnd10 (value x))) < bpow radix2 (top f))%R) by (rewrite abs_rnd10; apply no_overflow; [exact W|]; split; [apply Rabs_pos|apply abs_le_biggest; assumption]).
  destruct D as [(_ & D1 & D2)|(D1 & _)]; [|lra]. split; [exact D1|]. split; [exact C|]. rewrite D2, abs_rnd10. pose proof (sign_value x F) as Q. set (a := Rabs (value x)) in *. rewrite Q, rnd10_signed, rnd2_signed. reflexivity.
Qed.
(** ** accuracy, order, stability *)
Lemma rnd2_nearest f v g : usable f -> generic_format radix2 (FLT_exp (bottom f) (bits f)) g -> (Rabs (rnd2 f v - v) <= Rabs (g - v))%R.
Proof. intros U G. assert (V := fexp_valid f U). destruct (round_N_pt radix2 (FLT_exp (bottom f) (bits f)) (fun x => negb (Z.even x)) v) as [_ N]. apply N. exact G. Qed.
Lemma rnd10_error v : (Rabs (rnd10 v - v) <= / 200000 * Rabs v)%R.
Proof. eapply Rle_trans; [apply (relative_error_N_FLX radix10 6 eq_refl (fun x => negb (Z.even x)) v)|]. right. f_equal. cbn. lra. Qed.
Lemma accuracy f v : usable f -> generic_format radix2 (FLT_exp (bottom f) (bits f)) v -> (Rabs (rnd2 f (rnd10 v) - v) <= / 100000 * Rabs v)%R.
Proof.
  intros U G. pose proof (rnd2_nearest f (rnd10 v) v U G) as A. pose proof (rnd10_error v) as B. rewrite (Rabs_minus_sym v) in A.
  replace (rnd2 f (rnd10 v) - v)%R with ((rnd2 f (rnd10 v) - rnd10 v) + (rnd10 v - v))%R by ring. eapply Rle_trans; [apply Rabs_triang|]. lra.
Qed.
Lemma rnd2_error f v : usable f -> 24 <= bits f -> ((1 - / 200000) * bpow radix2 (bottom f + bits f - 1) <= v)%R -> (Rabs (rnd2 f v - v) <= / 10000000 * v)%R.
Proof.
  intros U B L. assert (P := prec_pos f U). set (sn := bpow radix2 (bottom f + bits f - 1)) in *. assert (S0 : (0 < sn)%R) by apply bpow_gt_0. assert (V0 : (0 < v)%R) by lra.
  assert (E24 : (bpow radix2 (- bits f) <= / 16000000)%R).
  { apply Rle_trans with (bpow radix2 (-24)); [apply bpow_le; lia|]. cbn. lra. }
  pose proof (bpow_gt_0 radix2 (- bits f)) as P24.
  destruct (Rle_or_lt sn v) as [G|G].
  - pose proof (relative_error_N_FLT radix2 (bottom f) (bits f) P (fun x => negb (Z.even x)) v) as E. specialize (E ltac:(fold sn; rewrite Rabs_pos_eq; lra)). rewrite (Rabs_pos_eq v) in E by lra.
    eapply Rle_trans; [exact E|]. rewrite bpow_plus. change (bpow radix2 1) with 2%R. nra.
  - pose proof (error_le_half_ulp radix2 (FLT_exp (bottom f) (bits f)) (fun x => negb (Z.even x)) v) as E. fold (rnd2 f v) in E. eapply Rle_trans; [exact E|].
    assert (Ul : ulp radix2 (FLT_exp (bottom f) (bits f)) v = bpow radix2 (bottom f)).
    { rewrite ulp_neq_0 by lra. unfold cexp, FLT_exp. f_equal. apply Z.max_r. assert (mag radix2 v <= bottom f + bits f - 1) by (apply mag_le_bpow; [lra|rewrite Rabs_pos_eq; [exact G|lra]]). lia. }
    rewrite Ul. replace (bpow radix2 (bottom f)) with (2 * bpow radix2 (- bits f) * sn)%R; [nra|]. unfold sn. change 2%R with (bpow radix2 1). rewrite <- !bpow_plus. f_equal. lia.
Qed.
Lemma stable f v : usable f -> 24 <= bits f -> generic_format radix10 (FLX_exp 6) v -> ((1 - / 200000) * bpow radix2 (bottom f + bits f - 1) <= v)%R -> rnd10 (rnd2 f v) = v.
Proof.
  intros U B F L. pose proof (rnd2_error f v U B L) as E. assert (V0 : (0 < v)%R) by (pose proof (bpow_gt_0 radix2 (bottom f + bits f - 1)); lra). apply Rabs_le_inv in E.
  assert (V := valid10). assert (P6 : Prec_gt_0 6) by exact eq_refl. apply Rle_antisym.
  - apply round_N_le_midp; [exact V|exact F|]. rewrite succ_eq_pos by lra. pose proof (ulp_FLX_ge radix10 6 v) as G. rewrite Rabs_pos_eq in G by lra. replace (bpow radix10 (- (6))) with (/ 1000000)%R in G by (cbn; lra). lra.
  - apply round_N_ge_midp; [exact V|exact F|]. pose proof (pred_plus_ulp radix10 (FLX_exp 6) v V0 F) as Q. set (p := pred radix10 (FLX_exp 6) v) in *.
    assert (P0 : (0 <= p)%R) by (apply pred_ge_0; [exact V|exact V0|exact F]). pose proof (ulp_FLX_ge radix10 6 p) as G. rewrite Rabs_pos_eq in G by lra. replace (bpow radix10 (- (6))) with (/ 1000000)%R in G by (cbn; lra). lra.
Qed.
Lemma same_text f x y : writable f -> of_format f x -> of_format f y -> finite x -> finite y -> negative x = negative y -> rnd10 (value x) = rnd10 (value y) -> to_str_float x = to_str_float y.
Proof.
  intros W X Y Fx Fy S E.
  assert (N0 : forall s m e, rnd10 (value (S754_finite s m e)) <> 0%R).
  { intros s m e Q. apply eq_0_round_0_FLX in Q; [|reflexivity|apply valid_rnd_N]. rewrite value_signed in Q. pose proof (value_pos m e). destruct s; lra. }
  assert (Z0 : forall s, rnd10 (value (S754_zero s)) = 0%R) by (intros s; unfold rnd10; apply round_0; apply valid_rnd_N).
  destruct x as [s|s| |s m e]; try contradiction; destruct y as [s'|s'| |s' m' e']; try contradiction.
  - cbn in S. subst. reflexivity.
  - rewrite Z0 in E. symmetry in E. apply N0 in E. contradiction.
  - rewrite Z0 in E. apply N0 in E. contradiction.
  - cbn [negative] in S. subst s'. destruct (print_shape f s m e W X) as (-> & _ & _). destruct (print_shape f s m' e' W Y) as (-> & _ & _).
    destruct (six_finite m e) as [K R]. destruct (six_finite m' e') as [K' R']. set (a := six _ _) in *. set (b := six _ (scale_den 2 1 (- e'))) in *.
    rewrite !value_signed, !rnd10_signed, R, R' in E. assert (E' : (IZR (fst a) * bpow radix10 (snd a - 5) = IZR (fst b) * bpow radix10 (snd b - 5))%R) by (destruct s; lra).
    assert (G : forall c : Z * Z, 10 ^ 5 <= fst c < 10 ^ 6 -> canonical radix10 (FLX_exp 6) (Float radix10 (fst c) (snd c - 5))).
    { intros c C. unfold canonical, cexp. cbn [Fexp]. rewrite mag_F2R_Zdigits by lia. rewrite (Zdigits_unique radix10 (fst c) 6); [unfold FLX_exp; lia|]. rewrite Z.abs_eq by lia. exact C. }
    pose proof (canonical_unique _ _ _ _ (G a K) (G b K') E') as Q. injection Q as Q1 Q2. replace (snd b) with (snd a) by lia. rewrite Q1. reflexivity.
Qed.
Lemma value_inj f x y : usable f -> of_format f x -> of_format f y -> finite x -> finite y -> negative x = negative y -> value x = value y -> x = y.
Proof.
  intros U X Y Fx Fy S E. destruct x as [s|s| |s m e]; try contradiction; destruct y as [s'|s'| |s' m' e']; try contradiction; cbn [negative] in S; subst s'; [reflexivity| | |].
  - exfalso. rewrite (value_signed s m' e') in E. cbn [value] in E. pose proof (value_pos m' e'). destruct s; lra.
  - exfalso. rewrite (value_signed s m e) in E. cbn [value] in E. pose proof (value_pos m e). destruct s; lra.
  - apply andb_prop in X, Y. pose proof (canonical_canonical_mantissa (bits f) (top f) s m e (proj1 X)) as C. pose proof (canonical_canonical_mantissa (bits f) (top f) s m' e' (proj1 Y)) as C'.
    rewrite !value_SF in E. cbn [SF2R] in E. pose proof (canonical_unique _ _ _ _ C C' E) as Q. injection Q as Q1 Q2. subst e'. destruct s; cbn [cond_Zopp] in Q1; injection Q1 as ->; reflexivity.
Qed.

(** ** whole numbers *)
Lemma decimal_inj a : forall b, Forall is_digit_char a -> Forall is_digit_char b -> length a = length b -> decimal_value a = decimal_value b -> a = b.
Proof.
  induction a as [|c a IH]; intros [|d b] A B L E; try discriminate; [reflexivity|]. injection L as L. inversion A as [|? ? C A']; inversion B as [|? ? D B']; subst. rewrite !decimal_cons, L in E.
  pose proof (decimal_bounds a A') as Ba. pose proof (decimal_bounds b B') as Bb. rewrite L in Ba. set (p := 10 ^ Z.of_nat (length b)) in *. unfold is_digit_char in C, D.
  assert (Q : Z.of_nat (nat_of_ascii c) = Z.of_nat (nat_of_ascii d)) by nia. assert (c = d) by (apply Nat2Z.inj in Q; rewrite <- (ascii_nat_embedding c), <- (ascii_nat_embedding d), Q; reflexivity). subst d. f_equal. apply IH; auto. nia.
Qed.
Lemma digits_unique s n : Forall is_digit_char s -> hd "0"%char s <> "0"%char -> 0 < n -> decimal_value s = n -> s = to_string n.
Proof.
  intros D H P V. destruct (to_string_pos n P) as (D' & V' & H' & _). destruct (digits10_ok n P) as [K1 K2]. set (k := digits10 n) in *. assert (E : k - 1 = Z.of_nat (Z.to_nat (k - 1)) /\ k = Z.of_nat (S (Z.to_nat (k - 1)))) by lia. destruct E as [E1 E2]. rewrite E2 in K2 at 2. rewrite E1 in K2 at 1.
  apply decimal_inj; [exact D|exact D'| |congruence]. rewrite (digits_length s _ D H) by (rewrite V; exact K2). rewrite (digits_length _ _ D' H') by (rewrite V'; exact K2). reflexivity.
Qed.
Lemma neat_integer s n : neat_text s (IZR n) -> 0 < n < 10 ^ 6 -> s = to_string n.
Proof.
  intros H P. remember (IZR n) as v eqn:E. assert (B : (/ 10000 <= v < 1000000)%R) by (subst v; split; [apply Rle_trans with 1%R; [lra|apply IZR_le; lia]|apply IZR_lt; lia]).
  destruct H as [ip N D H L|ip fp v N D F NF LF H V B'|c fp sg sgn ds v C C0 F LF S L D H V B'].
  - apply eq_IZR in E. apply digits_unique; auto. lia.
  - exfalso. destruct (exists_last NF) as (fp' & l & ->). rewrite last_last in LF. rewrite p10 in V. rewrite app_length in V. cbn [length] in V.
    assert (Q : decimal_value (ip ++ fp' ++ [l]) = n * 10 ^ Z.of_nat (length fp' + 1)).
    { apply eq_IZR. rewrite mult_IZR. change 10 with (radix_val radix10). rewrite IZR_Zpower by lia. rewrite <- E, V. rewrite Rmult_assoc, <- bpow_plus. replace (- _ + _) with 0 by lia. cbn. ring. }
    rewrite app_assoc, decimal_app in Q. cbn [length] in Q. replace (Z.of_nat (length fp' + 1)) with (Z.of_nat (length fp') + 1) in Q by lia. rewrite Z.pow_add_r in Q by lia. change (10 ^ 1) with 10 in Q. change (10 ^ Z.of_nat 1) with 10 in Q.
    apply Forall_app in F. destruct F as [_ F]. apply Forall_inv in F. unfold decimal_value at 2 in Q. cbn [fold_left] in Q. set (a := decimal_value (ip ++ fp')) in *. set (b := 10 ^ Z.of_nat (length fp')) in *. unfold is_digit_char in F.
    assert (nat_of_ascii l = 48%nat) by nia. apply LF. rewrite <- (ascii_nat_embedding l). rewrite H0. reflexivity.
  - tauto.
Qed.
Lemma to_string_neg n : n < 0 -> to_string n = "-"%char :: to_string (- n).
Proof. intros H. unfold to_string. replace (n <? 0) with true by lia. replace (- n <? 0) with false by lia. rewrite Zabs2N.inj_opp. reflexivity. Qed.
Lemma integer_text f x n : writable f -> of_format f x -> finite x -> value x = IZR n -> n <> 0 -> Z.abs n < 10 ^ 6 -> to_str_float x = to_string n.
Proof.
  intros W X F V N A. destruct (print_assembled f x W X F) as (s & -> & _ & T & _); [rewrite V; apply IZR_neq; exact N|].
  assert (E : rnd10 (value x) = IZR n) by (rewrite V; apply round_generic; [apply valid_rnd_N|]; apply six_format; exists n, 0; split; [exact A|cbn; ring]). rewrite E, <- abs_IZR in T. apply neat_integer in T; [|lia]. subst s.
  assert (S : negative x = (n <? 0)).
  { pose proof (sign_value x F) as Q. rewrite V in Q. pose proof (Rabs_pos (IZR n)) as P. assert (Rabs (IZR n) <> 0)%R by (apply Rabs_no_R0, IZR_neq; exact N). destruct (negative x); destruct (Z.ltb_spec n 0); auto; exfalso; [apply IZR_le in H0|apply IZR_lt in H0]; lra. }
  rewrite S. destruct (Z.ltb_spec n 0) as [L|L]; cbn [sign_str app]; [rewrite (to_string_neg n L), Z.abs_neq by lia; reflexivity|rewrite Z.abs_eq by lia; reflexivity].
Qed.

(** ** assembled *)
Lemma read_nearest f ws s sgn v r : usable f -> Forall is_space_char ws -> decimal_text s sgn v -> number_ends r -> let y := fst (from_str_float f (ws ++ s ++ r)) in
  snd (from_str_float f (ws ++ s ++ r)) = true /\ negative y = (sgn <? 0) /\ nearest f v y.
Proof.
  intros U W H R. cbn zeta. destruct (read_decimal f ws s sgn v r U W H R) as (A & B & C & D & E). split; [exact A|]. split; [exact D|]. apply nearest_ok; [exact U|exact B|exact C|].
  rewrite D. destruct E as [(E1 & E2 & E3)|E]; [left|right; exact E]. split; [exact E1|]. split; [exact E2|]. rewrite E3. pose proof (rnd2_ge0 f v U B). destruct (sgn <? 0); [rewrite Rabs_Ropp|]; apply Rabs_pos_eq; assumption.
Qed.
Lemma six_kept f x ws r : writable f -> of_format f x -> finite x -> Forall is_space_char ws -> number_ends r -> six_digits (value x) -> from_str_float f (ws ++ to_str_float x ++ r) = (x, true).
Proof.
  intros W X F S R H. destruct (roundtrip f x ws r W X F S R) as (A & B & C & D & E). destruct (from_str_float f (ws ++ to_str_float x ++ r)) as [y b]. cbn [fst snd] in *. subst b. f_equal.
  symmetry. apply (value_inj f); auto; [exact (proj1 W)|]. rewrite E. apply six_format in H. assert (Q : rnd10 (value x) = value x) by (apply round_generic; [apply valid_rnd_N|exact H]). rewrite Q. symmetry. apply round_generic; [apply valid_rnd_N|]. apply value_format; exact X.
Qed.
Lemma close_assembled f x ws r : writable f -> of_format f x -> finite x -> Forall is_space_char ws -> number_ends r -> let y := fst (from_str_float f (ws ++ to_str_float x ++ r)) in
  snd (from_str_float f (ws ++ to_str_float x ++ r)) = true /\ of_format f y /\ finite y /\ negative y = negative x /\ (Rabs (value y - value x) <= / 100000 * Rabs (value x))%R.
Proof.
  intros W X F S R. destruct (roundtrip f x ws r W X F S R) as (A & B & C & D & E). cbn zeta. repeat (split; [assumption|]). rewrite E. apply accuracy; [exact (proj1 W)|apply value_format; exact X].
Qed.
Lemma order_assembled f x y : writable f -> of_format f x -> finite x -> of_format f y -> finite y -> (value x <= value y)%R ->
  (value (fst (from_str_float f (to_str_float x))) <= value (fst (from_str_float f (to_str_float y))))%R.
Proof.
  intros W X Fx Y Fy L. destruct (roundtrip f x [] [] W X Fx ltac:(constructor) I) as (_ & _ & _ & _ & E1). destruct (roundtrip f y [] [] W Y Fy ltac:(constructor) I) as (_ & _ & _ & _ & E2). cbn [app] in E1, E2. rewrite app_nil_r in E1, E2. rewrite E1, E2.
  apply rnd2_le; [exact (proj1 W)|]. apply rnd10_le. exact L.
Qed.
Lemma stable_assembled f x : writable f -> of_format f x -> finite x -> (value x = 0 \/ smallest_normal f <= Rabs (value x))%R -> to_str_float (fst (from_str_float f (to_str_float x))) = to_str_float x.
Proof.
  intros W X F L. destruct (roundtrip f x [] [] W X F ltac:(constructor) I) as (_ & B & C & D & E). cbn [app] in *. rewrite app_nil_r in *. assert (U := proj1 W).
  apply (same_text f); auto. rewrite E. destruct L as [L|L].
  - rewrite L. unfold rnd10 at 2 3. rewrite round_0 by apply valid_rnd_N. unfold rnd2. rewrite round_0 by apply valid_rnd_N. unfold rnd10. apply round_0. apply valid_rnd_N.
  - assert (Q : rnd10 (rnd2 f (rnd10 (Rabs (value x)))) = rnd10 (Rabs (value x))).
    { apply stable; [exact U|exact (proj1 (proj2 W))|apply generic_format_round; [exact valid10|apply valid_rnd_N]|]. pose proof (rnd10_error (Rabs (value x))) as P. apply Rabs_le_inv in P. rewrite Rabs_Rabsolu in P. unfold smallest_normal in L. rewrite p2 in L. pose proof (bpow_gt_0 radix2 (bottom f + bits f - 1)). lra. }
    pose proof (sign_value x F) as Sx. set (a := Rabs (value x)) in *. rewrite Sx, !rnd10_signed, rnd2_signed, rnd10_signed, Q. reflexivity.
Qed.
(** a number typed with at most six digits *)
Lemma typed_kept f ws s sgn v r : writable f -> Forall is_space_char ws -> decimal_text s sgn v -> number_ends r -> six_digits v -> (smallest_normal f <= v < overflow_threshold f)%R ->
  exists t, to_str_float (fst (from_str_float f (ws ++ s ++ r))) = sign_str (sgn <? 0) ++ t /\ neat_text t v.
Proof.
  intros W S H R V [L1 L2]. assert (U := proj1 W). destruct (read_decimal f ws s sgn v r U S H R) as (_ & B & C & D & E). set (y := fst _) in *. apply (below_threshold f U) in L2. destruct E as [(_ & E1 & E2)|(E & _)]; [|lra].
  unfold smallest_normal in L1. rewrite p2 in L1. pose proof (bpow_gt_0 radix2 (bottom f + bits f - 1)) as P. apply six_format in V.
  assert (Q : rnd10 (rnd2 f v) = v) by (apply stable; [exact U|exact (proj1 (proj2 W))|exact V|lra]).
  assert (Q2 : Rabs (rnd10 (value y)) = v) by (rewrite E2, rnd10_signed, Q; destruct (sgn <? 0); [rewrite Rabs_Ropp|]; apply Rabs_pos_eq; lra).
  destruct (print_assembled f y W C E1) as (t & T1 & _ & T2 & _).
  - intros Z. rewrite Z in Q2. unfold rnd10 in Q2. rewrite round_0, Rabs_R0 in Q2 by apply valid_rnd_N. lra.
  - exists t. rewrite Q2 in T2. rewrite D in T1. auto.
Qed.
