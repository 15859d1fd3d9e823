(** Lemmas about unique colours in floats. *)
From Coq Require Import List Arith Bool ZArith Reals Lra Lia.
From Flocq Require Import Core IEEE754.BinarySingleNaN.
From Verif Require Import Base ColSpec ColModel DblSpec DblModel DblProofs FrmModel FrmProofs VecModel VecProofs HsvSpec HsvModel HsvProofs UnqSpec UnqModel.
Import ListNotations.
Local Open Scope R_scope.

(** errors are counted in [e] *)
Definition e : R := u + eta.
Lemma e_small : 0 < e /\ 110 * e <= / 100000 /\ u <= e /\ eta <= e /\ 0 < u /\ 0 < eta.
Proof. unfold e. destruct u_eta as (A & B & C). repeat split; lra. Qed.
Lemma rnd_near x b : Rabs x <= b -> 1 <= b -> Rabs (rnd x - x) <= b * e.
Proof. intros X B. eapply Rle_trans; [apply (rnd_err 24 128 prec32)|]. destruct e_small as (E1 & _ & _ & _ & E2 & E3). unfold e in *. assert (u * Rabs x <= u * b) by (apply Rmult_le_compat_l; lra). assert (eta * 1 <= eta * b) by (apply Rmult_le_compat_l; lra). lra. Qed.
Lemma abs_le x a : Rabs x <= a -> - a <= x <= a.
Proof. intros H. unfold Rabs in H. destruct (Rcase_abs x); lra. Qed.
Lemma le_abs x a : - a <= x <= a -> Rabs x <= a.
Proof. intros H. apply Rabs_le. exact H. Qed.

(** ** perceived brightness *)
Lemma weight_ok m ex w : (0 < m < 2 ^ 24)%Z -> (-30 <= ex <= -24)%Z -> Rabs (IZR m * bpow radix2 ex - w) <= e -> unit_float (fconst m ex) /\ Rabs (B2R (fconst m ex) - w) <= e /\ B2R (fconst m ex) = IZR m * bpow radix2 ex.
Proof.
  intros M X W. assert (E : F2R (Defs.Float radix2 m ex) = IZR m * bpow radix2 ex) by reflexivity.
  assert (B : 0 <= IZR m * bpow radix2 ex <= 1). { pose proof (bpow_gt_0 radix2 ex). assert (0 <= IZR m) by (apply IZR_le; lia). split; [nra|]. apply Rle_trans with (bpow radix2 24 * bpow radix2 ex); [apply Rmult_le_compat_r; [lra|]|rewrite <- bpow_plus; change 1 with (bpow radix2 0); apply bpow_le; lia]. change (bpow radix2 24) with (IZR (2 ^ 24)). apply IZR_le. lia. }
  pose proof lim_big. destruct (const_ok 24 128 prec32 emax32 three m ex) as [A C].
  - rewrite E, Rabs_pos_eq; lra.
  - apply generic_format_FLT. exists (Defs.Float radix2 m ex); [reflexivity|cbn [Fnum]; rewrite Z.abs_eq by lia; apply M|cbn [Fexp]; unfold SpecFloat.emin; lia].
  - rewrite E in A. split; [split; [exact C|rewrite A; exact B]|]. split; [rewrite A; exact W|exact A].
Qed.
Lemma e_lower : / 16777216 <= e. Proof. unfold e. rewrite <- u_value. destruct u_eta as (_ & A & _). lra. Qed.
Lemma weight_r_ok : unit_float weight_r /\ Rabs (B2R weight_r - 299 / 1000) <= e /\ / 16 <= B2R weight_r.
Proof. pose proof e_lower. destruct (weight_ok 10032775 (-25) (299 / 1000)) as (A & B & C); [lia|lia|apply le_abs; cbn; lra|]. fold weight_r in *. split; [exact A|split; [exact B|]]. rewrite C. cbn. lra. Qed.
Lemma weight_g_ok : unit_float weight_g /\ Rabs (B2R weight_g - 587 / 1000) <= e /\ / 16 <= B2R weight_g.
Proof. pose proof e_lower. destruct (weight_ok 9848226 (-24) (587 / 1000)) as (A & B & C); [lia|lia|apply le_abs; cbn; lra|]. fold weight_g in *. split; [exact A|split; [exact B|]]. rewrite C. cbn. lra. Qed.
Lemma weight_b_ok : unit_float weight_b /\ Rabs (B2R weight_b - 114 / 1000) <= e /\ / 16 <= B2R weight_b.
Proof. pose proof e_lower. destruct (weight_ok 15300821 (-27) (114 / 1000)) as (A & B & C); [lia|lia|apply le_abs; cbn; lra|]. fold weight_b in *. split; [exact A|split; [exact B|]]. rewrite C. cbn. lra. Qed.

Lemma term_ok (w x : f32) v : unit_float w -> unit_float x -> Rabs (B2R w - v) <= e ->
  unit_float (fmul (fmul w x) x) /\ Rabs (B2R (fmul (fmul w x) x) - v * (B2R x * B2R x)) <= 3 * e /\ (B2R x = 1 -> B2R (fmul (fmul w x) x) = B2R w).
Proof.
  intros Hw Hx E. destruct (prod_ok w x Hw Hx) as [A A']. destruct (prod_ok _ x A Hx) as [B B']. split; [exact B|]. split.
  - destruct Hw as [_ Bw], Hx as [_ Bx], A as [_ BA]. pose proof (unit_mul _ _ Bw Bx) as (M & _). pose proof (unit_mul _ _ BA Bx) as (N & _). pose proof (unit_err _ M) as E1. rewrite <- A' in E1. pose proof (unit_err _ N) as E2. rewrite <- B' in E2. fold e in E1, E2.
    set (a := B2R (fmul w x)) in *. set (t := B2R (fmul (fmul w x) x)) in *. set (y := B2R x) in *. set (c := B2R w) in *.
    replace (t - v * (y * y)) with ((t - a * y) + ((a - c * y) * y + (c - v) * (y * y))) by ring. eapply Rle_trans; [apply Rabs_triang|]. eapply Rle_trans; [apply Rplus_le_compat_l, Rabs_triang|]. rewrite !Rabs_mult, (Rabs_pos_eq y) by lra.
    pose proof (Rabs_pos (a - c * y)). pose proof (Rabs_pos (c - v)). assert (y * y <= 1) by nra. assert (0 <= y * y) by nra. assert (Rabs (a - c * y) * y <= e) by nra. assert (Rabs (c - v) * (y * y) <= e) by nra. lra.
  - intros O. rewrite B', A', O, !Rmult_1_r. rewrite !(rnd_exact 24 128); try reflexivity; try apply num_form. rewrite (rnd_exact 24 128); apply num_form.
Qed.
Lemma plus_ok (a b : f32) : is_finite a = true -> is_finite b = true -> 0 <= B2R a <= 2 -> 0 <= B2R b <= 1 ->
  is_finite (fadd a b) = true /\ B2R a <= B2R (fadd a b) /\ B2R b <= B2R (fadd a b) /\ B2R (fadd a b) = rnd (B2R a + B2R b).
Proof.
  intros F G A B. pose proof lim_big. destruct (add_ok 24 128 prec32 emax32 three a b F G) as [X Y]; [rewrite Rabs_pos_eq; lra|]. rewrite X. split; [exact Y|]. split; [apply (rnd_lb 24 128 prec32); [apply num_form|lra]|]. split; [apply (rnd_lb 24 128 prec32); [apply num_form|lra]|reflexivity].
Qed.
Definition sum3 (c : rgba f32) : f32 := fadd (fadd (fmul (fmul weight_r (c_r c)) (c_r c)) (fmul (fmul weight_g (c_g c)) (c_g c))) (fmul (fmul weight_b (c_b c)) (c_b c)).
Lemma sum3_ok (c : rgba f32) : unit_float (c_r c) -> unit_float (c_g c) -> unit_float (c_b c) -> (B2R (c_r c) = 1 \/ B2R (c_g c) = 1 \/ B2R (c_b c) = 1) ->
  is_finite (sum3 c) = true /\ / 16 <= B2R (sum3 c) <= 4 /\
  Rabs (B2R (sum3 c) - (299 / 1000 * (B2R (c_r c) * B2R (c_r c)) + 587 / 1000 * (B2R (c_g c) * B2R (c_g c)) + 114 / 1000 * (B2R (c_b c) * B2R (c_b c)))) <= 14 * e.
Proof.
  intros R G B O. destruct weight_r_ok as (W1 & W1' & W1l). destruct weight_g_ok as (W2 & W2' & W2l). destruct weight_b_ok as (W3 & W3' & W3l).
  destruct (term_ok _ (c_r c) _ W1 R W1') as ((F1 & B1) & E1 & O1). destruct (term_ok _ (c_g c) _ W2 G W2') as ((F2 & B2) & E2 & O2). destruct (term_ok _ (c_b c) _ W3 B W3') as ((F3 & B3) & E3 & O3).
  unfold sum3. set (t1 := fmul (fmul weight_r _) _) in *. set (t2 := fmul (fmul weight_g _) _) in *. set (t3 := fmul (fmul weight_b _) _) in *.
  destruct (plus_ok t1 t2 F1 F2 ltac:(lra) B2) as (F12 & L1 & L2 & V12). pose proof (rnd_near (B2R t1 + B2R t2) 2) as N12. rewrite <- V12 in N12. set (s := fadd t1 t2) in *.
  assert (S2 : 0 <= B2R s <= 2). { split; [lra|]. rewrite V12. apply (rnd_ub 24 128 prec32); [apply (int_format 2); lia|lra]. }
  destruct (plus_ok s t3 F12 F3 S2 B3) as (F13 & L3 & L4 & V13). pose proof (rnd_near (B2R s + B2R t3) 3) as N13. rewrite <- V13 in N13. set (r := fadd s t3) in *.
  split; [exact F13|]. split.
  - split; [|rewrite V13; apply (rnd_ub 24 128 prec32); [apply (int_format 4); lia|lra]]. destruct O as [O|[O|O]]; [rewrite (O1 O) in *|rewrite (O2 O) in *|rewrite (O3 O) in *]; lra.
  - assert (N1 : Rabs (B2R s - (B2R t1 + B2R t2)) <= 2 * e) by (apply N12; [apply le_abs|]; lra). assert (N2 : Rabs (B2R r - (B2R s + B2R t3)) <= 3 * e) by (apply N13; [apply le_abs|]; lra).
    apply abs_le in N1, N2, E1, E2, E3. apply le_abs. lra.
Qed.
Lemma brightness_ok (c : rgba f32) y : unit_float (c_r c) -> unit_float (c_g c) -> unit_float (c_b c) -> (B2R (c_r c) = 1 \/ B2R (c_g c) = 1 \/ B2R (c_b c) = 1) -> is_brightness (channels c) y ->
  is_finite (brightness c) = true /\ / 4 <= B2R (brightness c) <= 2 /\ Rabs (B2R (brightness c) - y) <= 58 * e.
Proof.
  intros R G B O [Y0 Y]. destruct (sum3_ok c R G B O) as (F & X & E). assert (E' : Rabs (B2R (sum3 c) - y * y) <= 14 * e) by (rewrite Y; exact E). clear E. rename E' into E. unfold brightness. fold (sum3 c). destruct (sqrt_ok 24 128 prec32 emax32 (sum3 c) F ltac:(lra)) as [V Fv]. split; [exact Fv|]. rewrite V.
  set (s := B2R (sum3 c)) in *. set (r := R_sqrt.sqrt s). assert (R0 : 0 <= r) by apply sqrt_pos. assert (RR : r * r = s) by (apply sqrt_sqrt; lra). assert (R1 : / 4 <= r <= 2) by nra.
  split. { apply rnd_between; [change (/ 4) with (bpow radix2 (-2)); apply (bpow_format 24 128 three); cbn; lia|apply (int_format 2); lia|exact R1]. }
  assert (N : Rabs (rnd r - r) <= 2 * e) by (apply rnd_near; [apply le_abs|]; lra). apply abs_le in N, E. destruct e_small as (E0 & _). assert (D : Rabs (r - y) <= 56 * e). { apply le_abs. rewrite <- RR in E. split; nra. }
  apply abs_le in D. apply le_abs. lra.
Qed.
Lemma brightness_exists c : exists y, is_brightness c y.
Proof.
  exists (R_sqrt.sqrt (299 / 1000 * (c_r c * c_r c) + 587 / 1000 * (c_g c * c_g c) + 114 / 1000 * (c_b c * c_b c))). split; [apply sqrt_pos|]. apply sqrt_sqrt. nra.
Qed.
Lemma mean_below a b c y : 0 <= a -> 0 <= b -> 0 <= c -> 0 <= y -> y * y = 299 / 1000 * (a * a) + 587 / 1000 * (b * b) + 114 / 1000 * (c * c) -> 299 / 1000 * a + 587 / 1000 * b + 114 / 1000 * c <= y.
Proof.
  intros A B C Y E. apply Rsqr_incr_0_var; [|exact Y]. unfold Rsqr. rewrite E.
  assert (0 <= (a - b) * (a - b)) by apply Rle_0_sqr. assert (0 <= (a - c) * (a - c)) by apply Rle_0_sqr. assert (0 <= (b - c) * (b - c)) by apply Rle_0_sqr. lra.
Qed.
Lemma bright_le c d y z k : 0 <= c_r c -> 0 <= c_g c -> 0 <= c_b c -> 0 <= c_r d -> 0 <= c_g d -> 0 <= c_b d -> 0 <= k -> c_r c <= c_r d + k -> c_g c <= c_g d + k -> c_b c <= c_b d + k -> is_brightness c y -> is_brightness d z -> y <= z + k.
Proof.
  intros C1 C2 C3 D1 D2 D3 K L1 L2 L3 [Y0 Y] [Z0 Z]. pose proof (mean_below _ _ _ _ D1 D2 D3 Z0 Z) as M. apply Rsqr_incr_0_var; [|lra]. unfold Rsqr. rewrite Y.
  assert (S1 : c_r c * c_r c <= (c_r d + k) * (c_r d + k)) by (apply Rmult_le_compat; lra). assert (S2 : c_g c * c_g c <= (c_g d + k) * (c_g d + k)) by (apply Rmult_le_compat; lra). assert (S3 : c_b c * c_b c <= (c_b d + k) * (c_b d + k)) by (apply Rmult_le_compat; lra).
  assert (KM : k * (299 / 1000 * c_r d + 587 / 1000 * c_g d + 114 / 1000 * c_b d) <= k * z) by (apply Rmult_le_compat_l; lra). replace ((z + k) * (z + k)) with (z * z + 2 * (k * z) + k * k) by ring. rewrite Z. lra.
Qed.
Lemma bright_scale c z v : 0 <= v -> is_brightness c z -> is_brightness (C4 (v * c_r c) (v * c_g c) (v * c_b c) 1) (v * z).
Proof. intros V [Z0 Z]. split; [apply Rmult_le_pos; assumption|]. cbn [c_r c_g c_b]. replace (v * z * (v * z)) with (v * v * (z * z)) by ring. rewrite Z. ring. Qed.

(** ** saturation and hue *)
Lemma fint_round n : (0 <= n <= 2 ^ 64)%Z -> B2R (fint n) = rnd (IZR n) /\ is_finite (fint n) = true.
Proof.
  intros N. unfold fint, DblModel.const. pose proof (binary_normalize_correct 24 128 prec32 emax32 mode_NE n 0 false) as C. assert (E : F2R (Defs.Float radix2 n 0) = IZR n) by (unfold F2R; cbn; ring). rewrite E in C. cbn [round_mode] in C.
  assert (L : Rabs (IZR n) <= lim). { rewrite Rabs_pos_eq by (apply IZR_le; lia). apply Rle_trans with (bpow radix2 64); [change (bpow radix2 64) with (IZR (2 ^ 64)); apply IZR_le; lia|apply bpow_le; lia]. }
  pose proof (small_finite 24 128 prec32 emax32 three _ L) as S. unfold DblProofs.rnd in S. rewrite S in C. destruct C as (A & B & _). split; assumption.
Qed.
Definition sat_of (q : Z) : f32 := fdiv (fint 1) (fadd (fint 1) (fint q)).
Lemma sat_ok q : (0 <= q <= 2 ^ 64)%Z -> unit_float (sat_of q).
Proof.
  intros Q. destruct (fint_round q Q) as [V F]. destruct (fint_ok 1 ltac:(lia)) as [V1 F1].
  assert (B : 0 <= B2R (fint q) <= bpow radix2 64). { rewrite V. apply rnd_between; [apply (int_format 0); lia|apply (bpow_format 24 128 three); cbn; lia|]. split; [apply IZR_le; lia|change (bpow radix2 64) with (IZR (2 ^ 64)); apply IZR_le; lia]. }
  assert (L : 1 + bpow radix2 64 <= lim). { apply Rle_trans with (bpow radix2 65); [|apply bpow_le; lia]. assert (1 <= bpow radix2 64) by (change 1 with (bpow radix2 0); apply bpow_le; lia). change (bpow radix2 65) with (IZR (2 * 2 ^ 64)). rewrite mult_IZR. change (IZR (2 ^ 64)) with (bpow radix2 64). lra. }
  destruct (add_ok 24 128 prec32 emax32 three (fint 1) (fint q) F1 F) as [A FA]; [rewrite V1, Rabs_pos_eq; lra|]. rewrite V1 in A.
  assert (O : 1 <= B2R (fadd (fint 1) (fint q))) by (rewrite A; apply (rnd_lb 24 128 prec32); [apply (int_format 1); lia|lra]).
  assert (D : 0 <= 1 / B2R (fadd (fint 1) (fint q)) <= 1). { unfold Rdiv. rewrite Rmult_1_l. split; [apply Rlt_le, Rinv_0_lt_compat; lra|]. apply Rle_trans with (/ 1); [apply Rinv_le_contravar; lra|lra]. }
  pose proof lim_big. destruct (div_ok 24 128 prec32 emax32 three (fint 1) (fadd (fint 1) (fint q)) F1) as [X Y]; [lra|rewrite V1, Rabs_pos_eq; lra|]. rewrite V1 in X. split; [exact Y|]. unfold sat_of. rewrite X. apply unit_rnd, D.
Qed.
Lemma sat_near q : (0 <= q < 400)%Z -> Rabs (B2R (sat_of q) - / (1 + IZR q)) <= e.
Proof.
  intros Q. destruct (fint_ok q ltac:(lia)) as [V F]. destruct (fint_ok 1 ltac:(lia)) as [V1 F1]. pose proof lim_big. assert (B : 0 <= IZR q <= 400) by (split; apply IZR_le; lia).
  destruct (add_ok 24 128 prec32 emax32 three (fint 1) (fint q) F1 F) as [A FA]; [rewrite V1, V, Rabs_pos_eq; lra|]. rewrite V1, V in A. rewrite (rnd_exact 24 128) in A by (rewrite <- plus_IZR; apply int_format; lia).
  assert (D : 0 <= 1 / (1 + IZR q) <= 1). { unfold Rdiv. rewrite Rmult_1_l. split; [apply Rlt_le, Rinv_0_lt_compat; lra|]. apply Rle_trans with (/ 1); [apply Rinv_le_contravar; lra|lra]. }
  destruct (div_ok 24 128 prec32 emax32 three (fint 1) (fadd (fint 1) (fint q)) F1) as [X Y]; [lra|rewrite V1, A, Rabs_pos_eq; lra|]. rewrite V1, A in X. unfold sat_of. rewrite X. replace (/ (1 + IZR q)) with (1 / (1 + IZR q)) by (unfold Rdiv; ring). apply unit_err, D.
Qed.
Lemma hue_ok i : (0 <= i < 12)%Z -> exists h, vec_get hues (Z.to_nat i) = Ok h /\ (0 <= h <= 330)%Z.
Proof.
  intros I. assert (C : (i = 0 \/ i = 1 \/ i = 2 \/ i = 3 \/ i = 4 \/ i = 5 \/ i = 6 \/ i = 7 \/ i = 8 \/ i = 9 \/ i = 10 \/ i = 11)%Z) by lia.
  repeat destruct C as [->|C]; try (eexists; split; [reflexivity|lia]). subst i. eexists; split; [reflexivity|lia].
Qed.

(** ** the colours *)
Definition top_of (b p : f32) : f32 := fclamped (fdiv b p) b (fint 1).
Lemma top_ok (b p : f32) : is_finite b = true -> 0 < B2R b <= 1 -> is_finite p = true -> / 4 <= B2R p <= 2 ->
  unit_float (top_of b p) /\ B2R b <= B2R (top_of b p) /\ exists v0, Rabs (v0 - B2R b / B2R p) <= 4 * e /\ ((v0 < B2R b /\ B2R (top_of b p) = B2R b) \/ (1 < v0 /\ B2R (top_of b p) = 1) \/ B2R (top_of b p) = v0).
Proof.
  intros Fb Bb Fp Bp. pose proof lim_big. assert (D : 0 <= B2R b / B2R p <= 4). { split; [apply Rmult_le_pos; [lra|apply Rlt_le, Rinv_0_lt_compat; lra]|]. apply Rmult_le_reg_r with (B2R p); [lra|]. unfold Rdiv. rewrite Rmult_assoc, Rinv_l by lra. lra. }
  destruct (div_ok 24 128 prec32 emax32 three b p Fb) as [X Y]; [lra|rewrite Rabs_pos_eq; lra|]. destruct (fint_ok 1 ltac:(lia)) as [V1 F1].
  assert (N : Rabs (B2R (fdiv b p) - B2R b / B2R p) <= 4 * e) by (rewrite X; apply rnd_near; [apply le_abs|]; lra).
  unfold top_of, DblModel.clamped. rewrite (lt_finite 24 128 _ _ Y Fb), (lt_finite 24 128 _ _ F1 Y), V1.
  destruct (Rlt_bool_spec (B2R (fdiv b p)) (B2R b)) as [L|L]; [|destruct (Rlt_bool_spec 1 (B2R (fdiv b p))) as [M|M]].
  - split; [split; [exact Fb|lra]|]. split; [lra|]. exists (B2R (fdiv b p)). split; [exact N|]. left. split; [exact L|reflexivity].
  - split; [split; [exact F1|rewrite V1; lra]|]. split; [rewrite V1; lra|]. exists (B2R (fdiv b p)). split; [exact N|]. right; left. split; [exact M|exact V1].
  - split; [split; [exact Y|lra]|]. split; [lra|]. exists (B2R (fdiv b p)). split; [exact N|]. right; right. reflexivity.
Qed.
Lemma hsv_facts (H : f32) : is_finite H = true -> 0 <= B2R H -> exists t, 0 <= t < 6 /\ (exists h, hue_of (B2R H) h /\ Rabs (t - h) <= 6 * e) /\ forall S V, unit_float S -> unit_float V ->
  let c := hsv H S V in near (4 * e) (c_r c) (B2R V) (B2R S) (no_red t) /\ near (4 * e) (c_g c) (B2R V) (B2R S) (no_green t) /\ near (4 * e) (c_b c) (B2R V) (B2R S) (no_blue t) /\
  within_float (low V S) V (c_r c) /\ within_float (low V S) V (c_g c) /\ within_float (low V S) V (c_b c) /\ In V [c_r c; c_g c; c_b c] /\ In (low V S) [c_r c; c_g c; c_b c] /\ c_a c = fint 1.
Proof.
  intros F P. destruct (turn_ok H F P) as (h & HH & G & B & E & _). destruct (six_cases _ B) as (k & K & X). exists (B2R (turn H)). split; [exact B|]. split.
  - exists h. split; [exact HH|]. destruct e_small as (_ & _ & _ & _ & E1 & E2). eapply Rle_trans; [exact E|]. unfold e. lra.
  - intros S V HS HV. cbv zeta. rewrite (hsv_sector H S V k G K X). destruct (fract_ok _ k G ltac:(lia) X) as [U _]. destruct (sector_close V S _ k HV HS G K X) as (N1 & N2 & N3). destruct (sector_range V S _ k HV HS U K) as (R1 & R2 & R3 & R4 & R5 & R6). repeat (split; [assumption|]). assumption.
Qed.
Lemma low_unit (V S : f32) : unit_float V -> unit_float S -> unit_float (low V S).
Proof. intros HV HS. apply (prod_ok V (fsub (fint 1) S) HV). apply (co_ok S HS). Qed.
Lemma within_unit l h (x : f32) : unit_float l -> unit_float h -> within_float l h x -> unit_float x.
Proof. intros [_ A] [_ B] [F C]. split; [exact F|lra]. Qed.
Lemma near_pair x x1 v s m : 0 <= v <= 1 -> near (4 * e) x v s m -> near (4 * e) x1 1 s m -> Rabs (B2R x - v * B2R x1) <= 8 * e.
Proof.
  unfold near. intros V A B. replace (B2R x - v * B2R x1) with ((B2R x - v * (1 - s * m)) - v * (B2R x1 - 1 * (1 - s * m))) by ring. apply abs_le in A, B. apply le_abs. destruct e_small as (E & _). split; nra.
Qed.
Lemma unit_bright c y : unit_channels c -> is_brightness c y -> y <= 1.
Proof.
  intros (A & B & C & _) [Y0 Y]. assert (c_r c * c_r c <= 1) by nra. assert (c_g c * c_g c <= 1) by nra. assert (c_b c * c_b c <= 1) by nra. nra.
Qed.
Definition color_for (h q : Z) (b : f32) : rgba f32 := hsv (fint h) (sat_of q) (top_of b (brightness (hsv (fint h) (sat_of q) (fint 1)))).
Lemma unique_for idx b : (0 <= idx)%Z -> exists h, vec_get hues (Z.to_nat (idx mod 12)) = Ok h /\ (0 <= h <= 330)%Z /\ unique_color idx b = Ok (color_for h (idx / 12) b).
Proof.
  intros I. destruct (hue_ok (idx mod 12)) as (h & E & B); [apply Z.mod_pos_bound; lia|]. exists h. split; [exact E|]. split; [exact B|]. unfold unique_color. change (Z.of_nat (length hues)) with 12%Z. rewrite E. reflexivity.
Qed.
Lemma color_for_ok h q (b : f32) : (0 <= h <= 330)%Z -> (0 <= q <= 2 ^ 64)%Z -> is_finite b = true -> 0 < B2R b <= 1 ->
  let c := color_for h q b in exists v y : R, opaque c /\ is_largest c v /\ B2R b <= v <= 1 /\ is_brightness (channels c) y /\ y <= B2R b + 90 * e /\ (B2R b - 90 * e <= y \/ v = 1).
Proof.
  intros Hh Hq Fb Bb. destruct (fint_ok h ltac:(lia)) as [EH FH]. destruct (hsv_facts (fint h) FH) as (t & T & _ & W); [rewrite EH; apply IZR_le; lia|]. pose proof (sat_ok q Hq) as HS. destruct (fint_ok 1 ltac:(lia)) as [E1 F1]. assert (H1 : unit_float (fint 1)) by (split; [exact F1|rewrite E1; lra]).
  pose proof (W (sat_of q) (fint 1) HS H1) as W1. set (c1 := hsv (fint h) (sat_of q) (fint 1)) in *. cbv zeta in W1. destruct W1 as (N1 & N2 & N3 & R1 & R2 & R3 & I & _ & _). pose proof (low_unit _ _ H1 HS) as HL.
  pose proof (within_unit _ _ _ HL H1 R1) as U1. pose proof (within_unit _ _ _ HL H1 R2) as U2. pose proof (within_unit _ _ _ HL H1 R3) as U3.
  assert (O : B2R (c_r c1) = 1 \/ B2R (c_g c1) = 1 \/ B2R (c_b c1) = 1). { cbn [In] in I. destruct I as [I|[I|[I|[]]]]; rewrite I; rewrite E1; tauto. }
  destruct (brightness_exists (channels c1)) as (y1 & Y1). destruct (brightness_ok c1 y1 U1 U2 U3 O Y1) as (FB & BB & EB). set (p := brightness c1) in *. destruct (top_ok b p Fb Bb FB BB) as (HV & LV & v0 & Ev & Cv).
  unfold color_for. fold c1. fold p. set (V := top_of b p) in *. pose proof (W (sat_of q) V HS HV) as W2. set (c := hsv (fint h) (sat_of q) V) in *. cbv zeta in W2. destruct W2 as (M1 & M2 & M3 & S1 & S2 & S3 & J & _ & A).
  pose proof (low_unit _ _ HV HS) as HL'. pose proof (within_unit _ _ _ HL' HV S1) as X1. pose proof (within_unit _ _ _ HL' HV S2) as X2. pose proof (within_unit _ _ _ HL' HV S3) as X3.
  destruct (brightness_exists (channels c)) as (y & Y). assert (X4 : unit_float (c_a c) /\ B2R (c_a c) = 1) by (rewrite A; split; [exact H1|exact E1]). exists (B2R V), y. split; [split; [exact X1|split; [exact X2|split; [exact X3|exact X4]]]|].
  split. { split; [apply in_map; exact J|]. cbn [map In]. intros x [<-|[<-|[<-|[]]]]; [apply S1|apply S2|apply S3]. }
  destruct HV as [FV BV]. split; [lra|]. split; [exact Y|].
  rewrite E1 in N1, N2, N3. pose proof (near_pair _ _ _ _ _ BV M1 N1) as D1. pose proof (near_pair _ _ _ _ _ BV M2 N2) as D2. pose proof (near_pair _ _ _ _ _ BV M3 N3) as D3. apply abs_le in D1, D2, D3.
  destruct e_small as (E0 & _). pose proof (bright_scale _ _ (B2R V) (proj1 BV) Y1) as Z1. destruct U1 as [_ U1], U2 as [_ U2], U3 as [_ U3], X1 as [_ X1], X2 as [_ X2], X3 as [_ X3].
  assert (AA : B2R (c_a c1) = 1) by (destruct (W (sat_of q) (fint 1) HS H1) as (_ & _ & _ & _ & _ & _ & _ & _ & AA); fold c1 in AA; rewrite AA; exact E1). unfold f32 in *.
  assert (P : forall x, 0 <= x <= 1 -> 0 <= B2R V * x) by (intros x Hx; apply Rmult_le_pos; lra). pose proof (P _ U1). pose proof (P _ U2). pose proof (P _ U3).
  assert (G1 : y <= B2R V * y1 + 8 * e). { eapply bright_le; [..|exact Y|exact Z1]; cbn [channels c_r c_g c_b]; lra. }
  assert (G2 : B2R V * y1 <= y + 8 * e). { eapply bright_le; [..|exact Z1|exact Y]; cbn [channels c_r c_g c_b]; lra. }
  assert (Y1' : 0 <= y1 <= 1). { split; [apply Y1|]. apply (unit_bright (channels c1)); [|exact Y1]. pose proof H1 as [_ _]. unfold unit_channels, channels. cbn [c_r c_g c_b c_a]. repeat split; lra. }
  apply abs_le in Ev, EB. assert (BP : B2R b = B2R b / B2R p * B2R p) by (field; lra). set (d := B2R b / B2R p) in *. set (pv := B2R p) in *. set (bv := B2R b) in *. set (v := B2R V) in *.
  assert (K1 : - 8 * e <= (v0 - d) * pv <= 8 * e) by (split; nra).
  destruct Cv as [[C E]|[[C E]|E]].
  - assert (Q1 : v * y1 <= bv) by nra. assert (Q2 : v * y1 >= bv - 66 * e). { assert (v0 * pv <= bv * pv) by nra. assert (bv * (y1 - pv) >= - 58 * e) by nra. rewrite E. lra. } split; [lra|left; lra].
  - rewrite E in *. assert (v0 * pv >= pv) by nra. split; [lra|right; reflexivity].
  - assert (Q : - 58 * e <= v * (y1 - pv) <= 58 * e) by (split; nra). assert (v * pv = v0 * pv) by (rewrite E; reflexivity). split; [lra|left; lra].
Qed.

(** ** different colours *)
Lemma shade_0 : no_red (IZR 0 / 60) = 0 /\ no_green (IZR 0 / 60) = 1 /\ no_blue (IZR 0 / 60) = 1. Proof. repeat split; shade. Qed.
Lemma shade_120 : no_red (IZR 120 / 60) = 1 /\ no_green (IZR 120 / 60) = 0 /\ no_blue (IZR 120 / 60) = 1. Proof. repeat split; shade. Qed.
Lemma shade_240 : no_red (IZR 240 / 60) = 1 /\ no_green (IZR 240 / 60) = 1 /\ no_blue (IZR 240 / 60) = 0. Proof. repeat split; shade. Qed.
Lemma shade_45 : no_red (IZR 45 / 60) = 0 /\ no_green (IZR 45 / 60) = 1 / 4 /\ no_blue (IZR 45 / 60) = 1. Proof. repeat split; shade. Qed.
Lemma shade_195 : no_red (IZR 195 / 60) = 1 /\ no_green (IZR 195 / 60) = 1 / 4 /\ no_blue (IZR 195 / 60) = 0. Proof. repeat split; shade. Qed.
Lemma shade_310 : no_red (IZR 310 / 60) = 0 /\ no_green (IZR 310 / 60) = 1 /\ no_blue (IZR 310 / 60) = 1 / 6. Proof. repeat split; shade. Qed.
Lemma shade_20 : no_red (IZR 20 / 60) = 0 /\ no_green (IZR 20 / 60) = 2 / 3 /\ no_blue (IZR 20 / 60) = 1. Proof. repeat split; shade. Qed.
Lemma shade_75 : no_red (IZR 75 / 60) = 1 / 4 /\ no_green (IZR 75 / 60) = 0 /\ no_blue (IZR 75 / 60) = 1. Proof. repeat split; shade. Qed.
Lemma shade_165 : no_red (IZR 165 / 60) = 1 /\ no_green (IZR 165 / 60) = 0 /\ no_blue (IZR 165 / 60) = 1 / 4. Proof. repeat split; shade. Qed.
Lemma shade_215 : no_red (IZR 215 / 60) = 1 /\ no_green (IZR 215 / 60) = 7 / 12 /\ no_blue (IZR 215 / 60) = 0. Proof. repeat split; shade. Qed.
Lemma shade_275 : no_red (IZR 275 / 60) = 5 / 12 /\ no_green (IZR 275 / 60) = 1 /\ no_blue (IZR 275 / 60) = 0. Proof. repeat split; shade. Qed.
Lemma shade_330 : no_red (IZR 330 / 60) = 0 /\ no_green (IZR 330 / 60) = 1 /\ no_blue (IZR 330 / 60) = 1 / 2. Proof. repeat split; shade. Qed.

Definition all_shades := conj shade_0 (conj shade_120 (conj shade_240 (conj shade_45 (conj shade_195 (conj shade_310 (conj shade_20 (conj shade_75 (conj shade_165 (conj shade_215 (conj shade_275 shade_330)))))))))).
Lemma shades_differ i j h k : (0 <= i < 12)%Z -> (0 <= j < 12)%Z -> i <> j -> vec_get hues (Z.to_nat i) = Ok h -> vec_get hues (Z.to_nat j) = Ok k ->
  Rabs (no_red (IZR h / 60) - no_red (IZR k / 60)) <= / 10 -> Rabs (no_green (IZR h / 60) - no_green (IZR k / 60)) <= / 10 -> Rabs (no_blue (IZR h / 60) - no_blue (IZR k / 60)) <= / 10 -> False.
Proof.
  intros I J N A B. assert (C : (i = 0 \/ i = 1 \/ i = 2 \/ i = 3 \/ i = 4 \/ i = 5 \/ i = 6 \/ i = 7 \/ i = 8 \/ i = 9 \/ i = 10 \/ i = 11)%Z) by lia.
  assert (D : (j = 0 \/ j = 1 \/ j = 2 \/ j = 3 \/ j = 4 \/ j = 5 \/ j = 6 \/ j = 7 \/ j = 8 \/ j = 9 \/ j = 10 \/ j = 11)%Z) by lia.
  destruct all_shades as ((? & ? & ?) & (? & ? & ?) & (? & ? & ?) & (? & ? & ?) & (? & ? & ?) & (? & ? & ?) & (? & ? & ?) & (? & ? & ?) & (? & ? & ?) & (? & ? & ?) & (? & ? & ?) & (? & ? & ?)).
  assert (E : forall x y : Z, Ok x = Ok y -> x = y) by (intros x y Q; injection Q; auto).
  assert (P : forall a b c d f g : R, Rabs (a - b) <= / 10 -> Rabs (c - d) <= / 10 -> Rabs (f - g) <= / 10 -> (a - b <= / 10 /\ b - a <= / 10) /\ (c - d <= / 10 /\ d - c <= / 10) /\ (f - g <= / 10 /\ g - f <= / 10)).
  { intros a b c d f g X Y Z. apply abs_le in X, Y, Z. lra. }
  intros X Y Z. destruct (P _ _ _ _ _ _ X Y Z) as ((X1 & X2) & (Y1 & Y2) & (Z1 & Z2)). clear X Y Z P.
  repeat (destruct C as [->|C]); try subst i; apply E in A; subst h; (repeat (destruct D as [->|D]); try subst j; apply E in B; subst k; first [exfalso; apply N; reflexivity|lra]).
Qed.
Lemma color_parts h q (b : f32) : (0 <= h <= 330)%Z -> (0 <= q < 400)%Z -> is_finite b = true -> / 10 <= B2R b <= 1 ->
  let c := color_for h q b in let S := B2R (sat_of q) in exists V l : R, / 10 <= V <= 1 /\ is_largest c V /\ In l (map B2R [c_r c; c_g c; c_b c]) /\ (forall x, In x (map B2R [c_r c; c_g c; c_b c]) -> l <= x) /\ Rabs (l - V * (1 - S)) <= 3 * e /\
  near (10 * e) (c_r c) V S (no_red (IZR h / 60)) /\ near (10 * e) (c_g c) V S (no_green (IZR h / 60)) /\ near (10 * e) (c_b c) V S (no_blue (IZR h / 60)).
Proof.
  intros Hh Hq Fb Bb. destruct (fint_ok h ltac:(lia)) as [EH FH]. destruct (hsv_facts (fint h) FH) as (t & T & (t' & HT & ET) & W); [rewrite EH; apply IZR_le; lia|]. assert (Q : (0 <= q <= 2 ^ 64)%Z) by lia. pose proof (sat_ok q Q) as HS.
  assert (Et : t' = IZR h / 60). { apply (hue_unique (B2R (fint h)) (IZR h) t' (IZR h / 60) 0); [exact HT| |rewrite EH; lra]. assert (0 <= IZR h <= 330) by (split; apply IZR_le; lia). split; [lra|]. exists 0%Z. lra. }
  subst t'. destruct (fint_ok 1 ltac:(lia)) as [E1 F1]. assert (H1 : unit_float (fint 1)) by (split; [exact F1|rewrite E1; lra]).
  pose proof (W (sat_of q) (fint 1) HS H1) as W1. set (c1 := hsv (fint h) (sat_of q) (fint 1)) in *. cbv zeta in W1. destruct W1 as (N1 & N2 & N3 & R1 & R2 & R3 & I & _ & _). pose proof (low_unit _ _ H1 HS) as HL.
  pose proof (within_unit _ _ _ HL H1 R1) as U1. pose proof (within_unit _ _ _ HL H1 R2) as U2. pose proof (within_unit _ _ _ HL H1 R3) as U3.
  assert (O : B2R (c_r c1) = 1 \/ B2R (c_g c1) = 1 \/ B2R (c_b c1) = 1). { cbn [In] in I. destruct I as [I|[I|[I|[]]]]; rewrite I; rewrite E1; tauto. }
  destruct (brightness_exists (channels c1)) as (y1 & Y1). destruct (brightness_ok c1 y1 U1 U2 U3 O Y1) as (FB & BB & EB). set (p := brightness c1) in *. destruct (top_ok b p Fb ltac:(lra) FB BB) as (HV & LV & _).
  unfold color_for. fold c1. fold p. set (V := top_of b p) in *. pose proof (W (sat_of q) V HS HV) as W2. set (c := hsv (fint h) (sat_of q) V) in *. cbv zeta in W2. destruct W2 as (M1 & M2 & M3 & S1 & S2 & S3 & J & K & A).
  cbv zeta. exists (B2R V), (B2R (low V (sat_of q))). pose proof HV as [FV BV]. pose proof HS as [FS BS]. split; [lra|].
  split. { split; [apply in_map; exact J|]. cbn [map In]. intros x [<-|[<-|[<-|[]]]]; [apply S1|apply S2|apply S3]. }
  split; [apply in_map; exact K|]. split. { cbn [map In]. intros x [<-|[<-|[<-|[]]]]; [apply S1|apply S2|apply S3]. }
  split; [apply (base_ok V (sat_of q) HV HS)|].
  replace (10 * e) with (4 * e + 6 * e) by ring. split; [|split]; (eapply near_move; [exact BV|exact BS| |eassumption]); (eapply Rle_trans; [|exact ET]); [apply no_red_lip|apply no_green_lip|apply no_blue_lip].
Qed.
Lemma inv_apart q q' : (0 <= q < q')%Z -> (q' < 400)%Z -> / 160000 <= / (1 + IZR q) - / (1 + IZR q').
Proof.
  intros Q Q'. assert (A : 0 <= IZR q <= 399) by (split; apply IZR_le; lia). assert (B : IZR q + 1 <= IZR q' <= 399) by (rewrite <- plus_IZR; split; apply IZR_le; lia).
  replace (/ (1 + IZR q) - / (1 + IZR q')) with ((IZR q' - IZR q) / ((1 + IZR q) * (1 + IZR q'))) by (field; lra). assert (X : 1 <= 1 + IZR q <= 400) by lra. assert (Y : 1 <= 1 + IZR q' <= 400) by lra. set (x := 1 + IZR q) in *. set (y := 1 + IZR q') in *. assert (x * y <= 160000) by nra. assert (0 < x * y) by nra.
  apply Rle_trans with (/ (x * y)); [apply Rinv_le_contravar; lra|]. unfold Rdiv. rewrite <- (Rmult_1_l (/ (x * y))) at 1. apply Rmult_le_compat_r; [apply Rlt_le, Rinv_0_lt_compat; assumption|lra].
Qed.
Lemma shade_near V S m m' (x : f32) : / 10 <= V -> / 500 <= S -> near (10 * e) x V S m -> near (10 * e) x V S m' -> Rabs (m - m') <= / 10.
Proof.
  unfold near. intros HV HS A B. apply abs_le in A, B. assert (P : / 5000 <= V * S) by nra. destruct e_small as (E0 & E1 & _). apply le_abs. assert (Q : - (20 * e) <= (V * S) * (m - m') <= 20 * e) by (replace (V * S * (m - m')) with (V * (1 - S * m') - V * (1 - S * m)) by ring; lra). split; nra.
Qed.
Lemma colors_differ i j (b b' : f32) c d : (0 <= i < 4800)%Z -> (0 <= j < 4800)%Z -> i <> j -> is_finite b = true -> / 10 <= B2R b <= 1 -> is_finite b' = true -> / 10 <= B2R b' <= 1 ->
  unique_color i b = Ok c -> unique_color j b' = Ok d -> B2R (c_r c) = B2R (c_r d) -> B2R (c_g c) = B2R (c_g d) -> B2R (c_b c) = B2R (c_b d) -> False.
Proof.
  intros I J N Fb Bb Fb' Bb' C D R G B. destruct (unique_for i b ltac:(lia)) as (h & VH & BH & EC). destruct (unique_for j b' ltac:(lia)) as (k & VK & BK & ED). rewrite EC in C. rewrite ED in D. injection C as C. injection D as D.
  assert (Qi : (0 <= i / 12 < 400)%Z) by (split; [apply Z.div_pos; lia|apply Z.div_lt_upper_bound; lia]). assert (Qj : (0 <= j / 12 < 400)%Z) by (split; [apply Z.div_pos; lia|apply Z.div_lt_upper_bound; lia]).
  destruct (color_parts h (i / 12) b BH Qi Fb Bb) as (V & l & BV & [LV1 LV2] & L1 & L2 & L3 & N1 & N2 & N3). destruct (color_parts k (j / 12) b' BK Qj Fb' Bb') as (V' & l' & BV' & [LV1' LV2'] & L1' & L2' & L3' & N1' & N2' & N3'). rewrite C in *. rewrite D in *.
  assert (M : map B2R [c_r c; c_g c; c_b c] = map B2R [c_r d; c_g d; c_b d]) by (cbn [map]; rewrite R, G, B; reflexivity). unfold f32 in *. rewrite M in *.
  assert (EV : V' = V) by (apply Rle_antisym; auto). assert (EL : l' = l) by (apply Rle_antisym; auto). subst V' l'. pose proof (sat_near _ Qi) as SI. pose proof (sat_near _ Qj) as SJ. destruct e_small as (E0 & E1 & _).
  set (s := B2R (sat_of (i / 12))) in *. set (s' := B2R (sat_of (j / 12))) in *. apply abs_le in L3, L3', SI, SJ.
  assert (SS : - (60 * e) <= s - s' <= 60 * e) by (split; nra).
  assert (EQ : (i / 12 = j / 12)%Z). { destruct (Z.lt_trichotomy (i / 12) (j / 12)) as [L|[L|L]]; [|exact L|]; exfalso. - pose proof (inv_apart (i / 12) (j / 12) ltac:(lia) ltac:(lia)). lra. - pose proof (inv_apart (j / 12) (i / 12) ltac:(lia) ltac:(lia)). lra. }
  assert (NE : (i mod 12 <> j mod 12)%Z) by (intros E; apply N; rewrite (Z.div_mod i 12), (Z.div_mod j 12), E, EQ by lia; reflexivity).
  assert (Es : s' = s) by (unfold s, s'; rewrite EQ; reflexivity). rewrite Es in *.
  assert (HS : / 500 <= s). { assert (0 <= IZR (i / 12) <= 399) by (split; apply IZR_le; lia). assert (/ 400 <= / (1 + IZR (i / 12))) by (apply Rinv_le_contravar; lra). lra. }
  unfold near in N1', N2', N3'. rewrite <- R in N1'. rewrite <- G in N2'. rewrite <- B in N3'.
  apply (shades_differ (i mod 12) (j mod 12) h k); try assumption; try (apply Z.mod_pos_bound; lia).
  - exact (shade_near V s _ _ (c_r c) (proj1 BV) HS N1 N1').
  - exact (shade_near V s _ _ (c_g c) (proj1 BV) HS N2 N2').
  - exact (shade_near V s _ _ (c_b c) (proj1 BV) HS N3 N3').
Qed.

(** ** the first three *)
Lemma same_bits (x y : f32) : B2SF x = B2SF y -> x = y. Proof. apply B2SF_inj. Qed.
Lemma turns : turn (fint 0) = fint 0 /\ turn (fint 120) = fint 2 /\ turn (fint 240) = fint 4 /\ fract (fint 0) = fint 0 /\ fract (fint 2) = fint 0 /\ fract (fint 4) = fint 0 /\ sat_of 0 = fint 1.
Proof. repeat split; apply same_bits; vm_compute; reflexivity. Qed.
Lemma pure_parts (V : f32) : unit_float V -> B2R (low V (fint 1)) = 0 /\ B2R (channel V (fint 1) (fsub (fint 1) (fint 0))) = 0.
Proof.
  intros HV. destruct (fint_ok 1 ltac:(lia)) as [E1 F1]. destruct (fint_ok 0 ltac:(lia)) as [E0 F0]. assert (H1 : unit_float (fint 1)) by (split; [exact F1|rewrite E1; lra]). assert (H0 : unit_float (fint 0)) by (split; [exact F0|rewrite E0; lra]).
  destruct (co_ok _ H1) as [A A']. destruct (co_ok _ H0) as [B B']. assert (X : rnd 1 = 1) by (apply rnd_exact, (int_format 1); lia). split.
  - destruct (prod_ok V _ HV A) as [_ C]. unfold low. rewrite C, A', E1. replace (1 - 1) with 0 by ring. rewrite rnd_0, Rmult_0_r. apply rnd_0.
  - rewrite (channel_value V _ _ HV H1 B), B', E0, E1. rewrite Rminus_0_r, X, Rmult_1_r, X. replace (1 - 1) with 0 by ring. rewrite rnd_0, Rmult_0_r. apply rnd_0.
Qed.
Lemma primary i (b : f32) : (0 <= i < 3)%Z -> is_finite b = true -> 0 < B2R b <= 1 -> exists c v, unique_color i b = Ok c /\ B2R b <= v <= 1 /\ map B2R [c_r c; c_g c; c_b c] = match i with 0%Z => [v; 0; 0] | 1%Z => [0; v; 0] | _ => [0; 0; v] end.
Proof.
  intros I Fb Bb. destruct (unique_for i b ltac:(lia)) as (h & VH & BH & EC). assert (Q : (i / 12 = 0)%Z) by (apply Z.div_small; lia). rewrite Q in EC. destruct (fint_ok h ltac:(lia)) as [EH FH].
  destruct (color_for_ok h 0 b BH ltac:(lia) Fb Bb) as (v & y & _ & [L1 L2] & BV & _). exists (color_for h 0 b), v. split; [exact EC|]. split; [exact BV|].
  destruct turns as (T0 & T2 & T4 & Z0 & Z2 & Z4 & S0).
  assert (HV : unit_float (top_of b (brightness (hsv (fint h) (sat_of 0) (fint 1))))).
  { destruct (hsv_facts (fint h) FH) as (t & T & _ & W); [rewrite EH; apply IZR_le; lia|]. assert (Q0 : (0 <= 0 <= 2 ^ 64)%Z) by lia. pose proof (sat_ok 0 Q0) as HS. destruct (fint_ok 1 ltac:(lia)) as [E1 F1]. assert (H1 : unit_float (fint 1)) by (split; [exact F1|rewrite E1; lra]).
    pose proof (W (sat_of 0) (fint 1) HS H1) as W1. set (c1 := hsv (fint h) (sat_of 0) (fint 1)) in *. cbv zeta in W1. destruct W1 as (_ & _ & _ & R1 & R2 & R3 & J & _ & _). pose proof (low_unit _ _ H1 HS) as HL.
    assert (O : B2R (c_r c1) = 1 \/ B2R (c_g c1) = 1 \/ B2R (c_b c1) = 1). { cbn [In] in J. destruct J as [J|[J|[J|[]]]]; rewrite J; rewrite E1; tauto. }
    destruct (brightness_exists (channels c1)) as (y1 & Y1). destruct (brightness_ok c1 y1 (within_unit _ _ _ HL H1 R1) (within_unit _ _ _ HL H1 R2) (within_unit _ _ _ HL H1 R3) O Y1) as (FB & BB & _). apply (top_ok b _ Fb Bb FB BB). }
  unfold color_for in *. rewrite S0 in *. set (V := top_of _ _) in *. destruct (pure_parts V HV) as [P T].
  assert (C : (i = 0 \/ i = 1 \/ i = 2)%Z) by lia. destruct C as [->|[->| ->]]; injection VH as <-.
  - destruct (fint_ok 0 ltac:(lia)) as [K KF]. assert (X : hsv (fint 0) (fint 1) V = sector 0 V (fint 1) (fint 0)) by (rewrite (hsv_sector (fint 0) (fint 1) V 0); rewrite ?T0, ?K, ?Z0; [reflexivity|exact KF|lia|lra]).
    rewrite X in *. cbn [sector c_r c_g c_b map In] in *. rewrite P, T in *. f_equal. destruct L1 as [E|[E|[E|[]]]]; [exact E|lra|lra].
  - destruct (fint_ok 2 ltac:(lia)) as [K KF]. assert (X : hsv (fint 120) (fint 1) V = sector 2 V (fint 1) (fint 0)) by (rewrite (hsv_sector (fint 120) (fint 1) V 2); rewrite ?T2, ?K, ?Z2; [reflexivity|exact KF|lia|lra]).
    rewrite X in *. cbn [sector c_r c_g c_b map In] in *. rewrite P, T in *. f_equal. f_equal. destruct L1 as [E|[E|[E|[]]]]; [lra|exact E|lra].
  - destruct (fint_ok 4 ltac:(lia)) as [K KF]. assert (X : hsv (fint 240) (fint 1) V = sector 4 V (fint 1) (fint 0)) by (rewrite (hsv_sector (fint 240) (fint 1) V 4); rewrite ?T4, ?K, ?Z4; [reflexivity|exact KF|lia|lra]).
    rewrite X in *. cbn [sector c_r c_g c_b map In] in *. rewrite P, T in *. f_equal. f_equal. f_equal. destruct L1 as [E|[E|[E|[]]]]; [lra|lra|exact E].
Qed.
