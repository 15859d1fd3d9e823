(** Errors of lengths, normalization and rotations in floating point. *)
From Coq Require Import Bool ZArith Reals Lra Lia SpecFloat.
From Flocq Require Import Core IEEE754.BinarySingleNaN Relative Plus_error Mult_error.
From Verif Require Import Base DblModel DblProofs VecSpec VecModel.
Local Open Scope R_scope.

Lemma abs_in e E : Rabs e <= E -> - E <= e <= E.
Proof. intros H. unfold Rabs in H. destruct (Rcase_abs e); lra. Qed.
Lemma in_abs e E : - E <= e <= E -> Rabs e <= E.
Proof. intros H. unfold Rabs. destruct (Rcase_abs e); lra. Qed.
Lemma abs_between x y d : Rabs (x - y) <= d -> Rabs x <= Rabs y + d.
Proof. intros H. replace x with (y + (x - y)) by ring. eapply Rle_trans; [apply Rabs_triang|]. lra. Qed.

Section Vectors.
  Context (prec emax : Z) (Hp : Prec_gt_0 prec) (He : Prec_lt_emax prec emax) (H11 : (11 <= prec)%Z) (H4 : (4 * prec <= emax)%Z).
  Notation num := (binary_float prec emax).
  Notation fx := (fexp prec emax).
  Notation add := (DblModel.add prec emax Hp He).
  Notation sub := (DblModel.sub prec emax Hp He).
  Notation mul := (DblModel.mul prec emax Hp He).
  Notation div := (DblModel.div prec emax Hp He).
  Notation const := (DblModel.const prec emax Hp He).
  Notation lt := (DblModel.lt prec emax).
  Notation le := (DblModel.le prec emax).
  Notation rnd := (DblProofs.rnd prec emax).
  Notation u := (DblProofs.u prec).
  Notation eta := (DblProofs.eta prec emax).
  Notation limit := (DblProofs.limit emax).
  Let H3 : (3 <= prec)%Z. Proof. lia. Qed.

  Lemma u_small : 0 < u <= / 2048.
  Proof. split; [apply bpow_gt_0|]. change (/ 2048) with (bpow radix2 (-11)). apply bpow_le. lia. Qed.
  Lemma eta_u : eta = u * bpow radix2 (2 - emax).
  Proof. unfold DblProofs.eta, DblProofs.u. rewrite <- bpow_plus. f_equal. unfold emin. lia. Qed.
  Lemma low_small : 0 < bpow radix2 (2 - emax) <= / 16777216.
  Proof. split; [apply bpow_gt_0|]. change (/ 16777216) with (bpow radix2 (-24)). apply bpow_le. lia. Qed.
  Lemma eta_small : 0 < eta <= u * / 16777216.
  Proof. pose proof u_small. pose proof low_small. rewrite eta_u. split; [apply Rmult_lt_0_compat; lra|apply Rmult_le_compat_l; lra]. Qed.
  Lemma limit_large : 2 ^ 40 <= limit.
  Proof. replace (2 ^ 40) with (bpow radix2 40) by (cbn; lra). apply bpow_le. lia. Qed.
  Lemma uu : 0 < u * u <= / 2048 * u.
  Proof. pose proof u_small. split; [apply Rmult_lt_0_compat; lra|]. apply Rmult_le_compat_r; lra. Qed.
  (** underflow does not matter when the result is not near the smallest numbers *)
  Lemma rnd_big x : bpow radix2 (11 - emax) <= Rabs x -> Rabs (rnd x - x) <= u * (1 + / 512) * Rabs x.
  Proof.
    intros H. pose proof (rnd_err prec emax Hp x) as E. pose proof u_small. assert (eta <= u * / 512 * Rabs x); [|lra]. rewrite eta_u.
    replace (u * / 512 * Rabs x) with (u * (/ 512 * Rabs x)) by ring. apply Rmult_le_compat_l; [lra|]. replace (11 - emax)%Z with (9 + (2 - emax))%Z in H by lia. rewrite bpow_plus in H. change (bpow radix2 9) with 512 in H. lra.
  Qed.

  (** * sums of products *)
  Lemma mul_err (a b : num) : is_finite a = true -> is_finite b = true -> Rabs (B2R a * B2R b) <= limit -> is_finite (mul a b) = true /\ Rabs (B2R (mul a b) - B2R a * B2R b) <= u * Rabs (B2R a * B2R b) + eta.
  Proof. intros Fa Fb L. destruct (mul_ok prec emax Hp He H3 a b Fa Fb L) as [E F]. split; [exact F|]. rewrite E. apply (rnd_err prec emax Hp). Qed.
  Lemma acc_step (c m : num) s p T E h E' h' : is_finite c = true -> is_finite m = true -> Rabs (B2R c - s) <= E * T + h -> Rabs (B2R m - p) <= u * Rabs p + eta -> Rabs s <= T -> 0 <= E -> 0 <= h ->
    E + u * (1 + E) <= E' -> u + u * (1 + u) <= E' -> (1 + u) * (h + eta) <= h' -> E <= 1 -> h <= 1 -> T + Rabs p <= bpow radix2 (emax - 3) ->
    is_finite (add c m) = true /\ Rabs (B2R (add c m) - (s + p)) <= E' * (T + Rabs p) + h' /\ Rabs (s + p) <= T + Rabs p.
  Proof.
    intros Fc Fm Hc Hm Hs E0 h0 E1 E2 Hh EL hL L. pose proof u_small as U. pose proof eta_small as N. pose proof limit_large as LL. pose proof (Rabs_pos p) as P0. pose proof (Rabs_pos s) as S0.
    assert (LQ : 4 * bpow radix2 (emax - 3) = limit). { change 4 with (bpow radix2 2). rewrite <- bpow_plus. unfold DblProofs.limit. f_equal. lia. }
    assert (Ac : Rabs (B2R c) <= T + (E * T + h)) by (apply abs_between in Hc; lra). assert (Am : Rabs (B2R m) <= Rabs p + (u * Rabs p + eta)) by (apply abs_between in Hm; lra).
    assert (Sum : Rabs (B2R c + B2R m) <= (1 + E) * T + h + (1 + u) * Rabs p + eta) by (eapply Rle_trans; [apply Rabs_triang|lra]).
    assert (ET : E * T <= T) by (replace T with (1 * T) at 2 by ring; apply Rmult_le_compat_r; lra). assert (UP : u * Rabs p <= Rabs p) by (replace (Rabs p) with (1 * Rabs p) at 2 by ring; apply Rmult_le_compat_r; lra).
    destruct (add_ok prec emax Hp He H3 c m Fc Fm ltac:(lra)) as [B F]. split; [exact F|]. split; [|eapply Rle_trans; [apply Rabs_triang|lra]]. rewrite B. pose proof (sum_err prec emax Hp H3 c m) as R.
    replace (rnd (B2R c + B2R m) - (s + p)) with (rnd (B2R c + B2R m) - (B2R c + B2R m) + ((B2R c - s) + (B2R m - p))) by ring. eapply Rle_trans; [apply Rabs_triang|]. assert (Rabs (B2R c - s + (B2R m - p)) <= E * T + h + (u * Rabs p + eta)) by (eapply Rle_trans; [apply Rabs_triang|lra]).
    assert (UR : u * Rabs (B2R c + B2R m) <= u * ((1 + E) * T + h + (1 + u) * Rabs p + eta)) by (apply Rmult_le_compat_l; lra).
    assert (X1 : (E + u * (1 + E)) * T <= E' * T) by (apply Rmult_le_compat_r; lra). assert (X2 : (u + u * (1 + u)) * Rabs p <= E' * Rabs p) by (apply Rmult_le_compat_r; lra). lra.
  Qed.
  Lemma sub_opp (c m : num) : is_finite c = true -> is_finite m = true -> Rabs (B2R c - B2R m) <= limit -> B2R (sub c m) = B2R (add c (Bopp m)) /\ is_finite (sub c m) = is_finite (add c (Bopp m)).
  Proof.
    intros Fc Fm L. destruct (sub_ok prec emax Hp He H3 c m Fc Fm L) as [A B]. destruct (add_ok prec emax Hp He H3 c (Bopp m) Fc ltac:(rewrite is_finite_Bopp; exact Fm) ltac:(rewrite B2R_Bopp; exact L)) as [C D]. rewrite A, B, C, D, B2R_Bopp. split; reflexivity.
  Qed.
  Lemma acc_step_sub (c m : num) s p T E h E' h' : is_finite c = true -> is_finite m = true -> Rabs (B2R c - s) <= E * T + h -> Rabs (B2R m - p) <= u * Rabs p + eta -> Rabs s <= T -> 0 <= E -> 0 <= h ->
    E + u * (1 + E) <= E' -> u + u * (1 + u) <= E' -> (1 + u) * (h + eta) <= h' -> E <= 1 -> h <= 1 -> T + Rabs p <= bpow radix2 (emax - 3) ->
    is_finite (sub c m) = true /\ Rabs (B2R (sub c m) - (s - p)) <= E' * (T + Rabs p) + h' /\ Rabs (s - p) <= T + Rabs p.
  Proof.
    intros Fc Fm Hc Hm Hs E0 h0 E1 E2 Hh EL hL L. destruct (acc_step c (Bopp m) s (- p) T E h E' h') as (A & B & C); try assumption; [rewrite is_finite_Bopp; exact Fm| |rewrite Rabs_Ropp; exact L|].
    - rewrite B2R_Bopp, Rabs_Ropp. replace (- B2R m - - p) with (- (B2R m - p)) by ring. rewrite Rabs_Ropp. exact Hm.
    - rewrite Rabs_Ropp in B, C. pose proof u_small as U. pose proof eta_small as N. pose proof limit_large as LL. pose proof (Rabs_pos p) as P0. pose proof (Rabs_pos s) as S0.
      assert (LQ : 4 * bpow radix2 (emax - 3) = limit). { change 4 with (bpow radix2 2). rewrite <- bpow_plus. unfold DblProofs.limit. f_equal. lia. }
      assert (ET : E * T <= T) by (replace T with (1 * T) at 2 by ring; apply Rmult_le_compat_r; lra). assert (UP : u * Rabs p <= Rabs p) by (replace (Rabs p) with (1 * Rabs p) at 2 by ring; apply Rmult_le_compat_r; lra).
      destruct (sub_opp c m Fc Fm) as [X Y].
      { apply abs_between in Hc, Hm. unfold Rminus. eapply Rle_trans; [apply Rabs_triang|]. rewrite Rabs_Ropp. lra. }
      rewrite X, Y. split; [exact A|]. split; [exact B|exact C].
  Qed.
  (** four products, with signs *)
  Definition sgn (b : bool) (x : R) : R := if b then x else - x.
  Definition put_on (b : bool) (c m : num) : num := if b then add c m else sub c m.
  Lemma four_products (a1 b1 a2 b2 a3 b3 a4 b4 : num) s2 s3 s4 : is_finite a1 = true -> is_finite b1 = true -> is_finite a2 = true -> is_finite b2 = true -> is_finite a3 = true -> is_finite b3 = true -> is_finite a4 = true -> is_finite b4 = true ->
    let p1 := B2R a1 * B2R b1 in let p2 := B2R a2 * B2R b2 in let p3 := B2R a3 * B2R b3 in let p4 := B2R a4 * B2R b4 in
    let T := Rabs p1 + Rabs p2 + Rabs p3 + Rabs p4 in T <= bpow radix2 (emax - 3) ->
    let r := put_on s4 (put_on s3 (put_on s2 (mul a1 b1) (mul a2 b2)) (mul a3 b3)) (mul a4 b4) in
    is_finite r = true /\ Rabs (B2R r - (p1 + sgn s2 p2 + sgn s3 p3 + sgn s4 p4)) <= u * (4 + / 200) * T + 6 * eta.
  Proof.
    intros F1 G1 F2 G2 F3 G3 F4 G4. cbv zeta. set (p1 := B2R a1 * B2R b1). set (p2 := B2R a2 * B2R b2). set (p3 := B2R a3 * B2R b3). set (p4 := B2R a4 * B2R b4). intros L. pose proof (Rabs_pos p1) as P1. pose proof (Rabs_pos p2) as P2. pose proof (Rabs_pos p3) as P3. pose proof (Rabs_pos p4) as P4.
    pose proof u_small as U. pose proof eta_small as N. pose proof uu as UU. pose proof limit_large as LL. assert (UN : u * eta <= / 2048 * eta) by (apply Rmult_le_compat_r; lra).
    assert (LQ : 4 * bpow radix2 (emax - 3) = limit). { change 4 with (bpow radix2 2). rewrite <- bpow_plus. unfold DblProofs.limit. f_equal. lia. }
    destruct (mul_err a1 b1 F1 G1 ltac:(fold p1; lra)) as [M1 N1]. destruct (mul_err a2 b2 F2 G2 ltac:(fold p2; lra)) as [M2 N2]. destruct (mul_err a3 b3 F3 G3 ltac:(fold p3; lra)) as [M3 N3]. destruct (mul_err a4 b4 F4 G4 ltac:(fold p4; lra)) as [M4 N4]. fold p1 in N1. fold p2 in N2. fold p3 in N3. fold p4 in N4.
    assert (G : forall b (c m : num) s p T E h E' h', is_finite c = true -> is_finite m = true -> Rabs (B2R c - s) <= E * T + h -> Rabs (B2R m - p) <= u * Rabs p + eta -> Rabs s <= T -> 0 <= E -> 0 <= h ->
      E + u * (1 + E) <= E' -> u + u * (1 + u) <= E' -> (1 + u) * (h + eta) <= h' -> E <= 1 -> h <= 1 -> T + Rabs p <= bpow radix2 (emax - 3) ->
      is_finite (put_on b c m) = true /\ Rabs (B2R (put_on b c m) - (s + sgn b p)) <= E' * (T + Rabs p) + h' /\ Rabs (s + sgn b p) <= T + Rabs p).
    { intros [|]; [apply acc_step|]. intros. unfold put_on, sgn. change (s + - p) with (s - p). eapply acc_step_sub; eassumption. }
    destruct (G s2 (mul a1 b1) (mul a2 b2) p1 p2 (Rabs p1) u eta (u * (2 + / 2000)) (3 * eta)) as (A1 & A2 & A3); try assumption; try lra.
    destruct (G s3 _ (mul a3 b3) _ p3 _ (u * (2 + / 2000)) (3 * eta) (u * (3 + / 500)) (4 * eta + eta * / 100) A1 M3 A2 N3 A3) as (B1 & B2 & B3); try lra.
    destruct (G s4 _ (mul a4 b4) _ p4 _ (u * (3 + / 500)) (4 * eta + eta * / 100) (u * (4 + / 200)) (5 * eta + eta * / 50) B1 M4 B2 N4 B3) as (C1 & C2 & C3); try lra.
    split; [exact C1|]. fold p1 p2 p3 p4. eapply Rle_trans; [exact C2|]. lra.
  Qed.
  (** three products *)
  Lemma three_products (a1 b1 a2 b2 a3 b3 : num) s2 s3 : is_finite a1 = true -> is_finite b1 = true -> is_finite a2 = true -> is_finite b2 = true -> is_finite a3 = true -> is_finite b3 = true ->
    let p1 := B2R a1 * B2R b1 in let p2 := B2R a2 * B2R b2 in let p3 := B2R a3 * B2R b3 in
    let T := Rabs p1 + Rabs p2 + Rabs p3 in T <= bpow radix2 (emax - 3) ->
    let r := put_on s3 (put_on s2 (mul a1 b1) (mul a2 b2)) (mul a3 b3) in
    is_finite r = true /\ Rabs (B2R r - (p1 + sgn s2 p2 + sgn s3 p3)) <= u * (3 + / 500) * T + 5 * eta.
  Proof.
    intros F1 G1 F2 G2 F3 G3. cbv zeta. set (p1 := B2R a1 * B2R b1). set (p2 := B2R a2 * B2R b2). set (p3 := B2R a3 * B2R b3). intros L. pose proof (Rabs_pos p1) as P1. pose proof (Rabs_pos p2) as P2. pose proof (Rabs_pos p3) as P3.
    pose proof u_small as U. pose proof eta_small as N. pose proof uu as UU. pose proof limit_large as LL. assert (UN : u * eta <= / 2048 * eta) by (apply Rmult_le_compat_r; lra).
    assert (LQ : 4 * bpow radix2 (emax - 3) = limit). { change 4 with (bpow radix2 2). rewrite <- bpow_plus. unfold DblProofs.limit. f_equal. lia. }
    destruct (mul_err a1 b1 F1 G1 ltac:(fold p1; lra)) as [M1 N1]. destruct (mul_err a2 b2 F2 G2 ltac:(fold p2; lra)) as [M2 N2]. destruct (mul_err a3 b3 F3 G3 ltac:(fold p3; lra)) as [M3 N3]. fold p1 in N1. fold p2 in N2. fold p3 in N3.
    assert (G : forall b (c m : num) s p T E h E' h', is_finite c = true -> is_finite m = true -> Rabs (B2R c - s) <= E * T + h -> Rabs (B2R m - p) <= u * Rabs p + eta -> Rabs s <= T -> 0 <= E -> 0 <= h ->
      E + u * (1 + E) <= E' -> u + u * (1 + u) <= E' -> (1 + u) * (h + eta) <= h' -> E <= 1 -> h <= 1 -> T + Rabs p <= bpow radix2 (emax - 3) ->
      is_finite (put_on b c m) = true /\ Rabs (B2R (put_on b c m) - (s + sgn b p)) <= E' * (T + Rabs p) + h' /\ Rabs (s + sgn b p) <= T + Rabs p).
    { intros [|]; [apply acc_step|]. intros. unfold put_on, sgn. change (s + - p) with (s - p). eapply acc_step_sub; eassumption. }
    destruct (G s2 (mul a1 b1) (mul a2 b2) p1 p2 (Rabs p1) u eta (u * (2 + / 2000)) (3 * eta)) as (A1 & A2 & A3); try assumption; try lra.
    destruct (G s3 _ (mul a3 b3) _ p3 _ (u * (2 + / 2000)) (3 * eta) (u * (3 + / 500)) (4 * eta + eta * / 100) A1 M3 A2 N3 A3) as (B1 & B2 & B3); try lra.
    split; [exact B1|]. fold p1 p2 p3. eapply Rle_trans; [exact B2|]. lra.
  Qed.

  (** * the square root and its inverse *)
  (** c approximates s *)
  Definition squares (c : num) (s : R) : Prop := is_finite c = true /\ Rabs (B2R c - s) <= u * (4 + / 200) * s + 6 * eta.
  Definition top : R := bpow radix2 (emax / 2 - 2).
  Lemma square_near L c e : 0 <= L -> 0 <= e <= 1 -> L * L * ((1 - e) * (1 - e)) <= c <= L * L * ((1 + e) * (1 + e)) -> Rabs (R_sqrt.sqrt c - L) <= e * L.
  Proof.
    intros L0 E [C1 C2]. apply in_abs. assert (L * (1 - e) <= R_sqrt.sqrt c).
    { rewrite <- (sqrt_square (L * (1 - e))) by (apply Rmult_le_pos; lra). apply sqrt_le_1_alt. lra. }
    assert (R_sqrt.sqrt c <= L * (1 + e)). { rewrite <- (sqrt_square (L * (1 + e))) by (apply Rmult_le_pos; lra). apply sqrt_le_1_alt. lra. }
    lra.
  Qed.
  Lemma sqrt_ok (c : num) : is_finite c = true -> 0 < B2R c -> B2R (sqrt prec emax Hp He c) = rnd (R_sqrt.sqrt (B2R c)) /\ is_finite (sqrt prec emax Hp He c) = true.
  Proof.
    intros F P. unfold sqrt. destruct (Bsqrt_correct prec emax Hp He mode_NE c) as (A & B & _). split; [exact A|]. rewrite B. destruct c as [s|[|]| |[|] m e Hb]; try discriminate F; try reflexivity.
    exfalso. apply (Rlt_not_le _ _ P). apply Rlt_le. apply F2R_lt_0. reflexivity.
  Qed.
  Lemma sqrt_between x : bpow radix2 (12 - emax) <= x -> bpow radix2 (12 - emax) <= R_sqrt.sqrt x.
  Proof.
    intros H. pose proof (bpow_gt_0 radix2 (12 - emax)) as P. destruct (Rle_lt_dec x 1) as [X|X].
    - eapply Rle_trans; [exact H|]. rewrite <- (sqrt_square x) at 1 by lra. apply sqrt_le_1_alt. replace x with (x * 1) at 3 by ring. apply Rmult_le_compat_l; lra.
    - assert (1 <= R_sqrt.sqrt x) by (rewrite <- sqrt_1 at 1; apply sqrt_le_1_alt; lra). assert (bpow radix2 (12 - emax) <= 1) by (change 1 with (bpow radix2 0); apply bpow_le; lia). lra.
  Qed.
  Lemma tiny_eta s : not_tiny (emax := emax) s -> 1024 * eta <= u * s.
  Proof. unfold not_tiny. intros H. pose proof u_small. rewrite eta_u. replace (12 - emax)%Z with (10 + (2 - emax))%Z in H by lia. rewrite bpow_plus in H. change (bpow radix2 10) with 1024 in H. replace (1024 * (u * bpow radix2 (2 - emax))) with (u * (1024 * bpow radix2 (2 - emax))) by ring. apply Rmult_le_compat_l; lra. Qed.
  Lemma square_err (c : num) s : squares c s -> not_tiny (emax := emax) s -> s * (1 - u * (4 + / 90)) <= B2R c <= s * (1 + u * (4 + / 90)).
  Proof. intros [F E] T. pose proof (tiny_eta s T) as H. apply abs_in in E. pose proof u_small. unfold not_tiny in T. pose proof (bpow_gt_0 radix2 (12 - emax)). assert (0 < u * s) by (apply Rmult_lt_0_compat; lra). lra. Qed.
  Lemma root_err (c : num) s : squares c s -> not_tiny (emax := emax) s -> Rabs (R_sqrt.sqrt (B2R c) - R_sqrt.sqrt s) <= u * (2 + / 100) * R_sqrt.sqrt s.
  Proof.
    intros Q T. destruct (square_err c s Q T) as [C1 C2]. pose proof u_small as U. pose proof uu as UU. unfold not_tiny in T. pose proof (bpow_gt_0 radix2 (12 - emax)) as T0. apply square_near; [apply sqrt_pos|lra|]. rewrite sqrt_sqrt by lra. split.
    - eapply Rle_trans; [|exact C1]. apply Rmult_le_compat_l; lra.
    - eapply Rle_trans; [exact C2|]. apply Rmult_le_compat_l; lra.
  Qed.
  Lemma length_err (c : num) s : squares c s -> not_tiny (emax := emax) s -> s <= top * top ->
    let r := sqrt prec emax Hp He c in is_finite r = true /\ Rabs (B2R r - R_sqrt.sqrt s) <= u * (3 + / 50) * R_sqrt.sqrt s.
  Proof.
    intros Q T Tp. cbv zeta. pose proof (root_err c s Q T) as E. destruct (square_err c s Q T) as [C1 C2]. destruct Q as [F Q]. pose proof u_small as U. pose proof uu as UU. assert (T' := T). unfold not_tiny in T. pose proof (bpow_gt_0 radix2 (12 - emax)) as T0.
    assert (Us : u * s <= / 2048 * s) by (apply Rmult_le_compat_r; lra). destruct (sqrt_ok c F ltac:(lra)) as [A B]. split; [exact B|]. rewrite A. assert (SL := sqrt_between s T). set (L := R_sqrt.sqrt s) in *. set (R0 := R_sqrt.sqrt (B2R c)) in *. apply abs_in in E.
    assert (UL : u * L <= / 2048 * L) by (apply Rmult_le_compat_r; lra). assert (UL0 : 0 < u * L) by (apply Rmult_lt_0_compat; lra).
    assert (HB : bpow radix2 (12 - emax) = 2 * bpow radix2 (11 - emax)) by (replace (12 - emax)%Z with (1 + (11 - emax))%Z by lia; rewrite bpow_plus; reflexivity).
    assert (R1 : bpow radix2 (11 - emax) <= Rabs R0) by (rewrite Rabs_pos_eq by lra; lra). apply rnd_big in R1. rewrite (Rabs_pos_eq R0) in R1 by lra. apply abs_in in R1. apply in_abs. assert (u * R0 <= u * L * (1 + / 1000)) by (replace (u * L * (1 + / 1000)) with (u * (L * (1 + / 1000))) by ring; apply Rmult_le_compat_l; lra). lra.
  Qed.
  Lemma top_facts : 1 <= top /\ 4 * top <= limit /\ top * top <= bpow radix2 (emax - 4) /\ bpow radix2 (11 - emax) * (4 * top) <= 1.
  Proof.
    assert (0 <= emax mod 2 < 2)%Z by (apply Z.mod_pos_bound; lia). pose proof (Z.div_mod emax 2 ltac:(lia)). unfold top, DblProofs.limit. change 4 with (bpow radix2 2). change 1 with (bpow radix2 0). rewrite <- !bpow_plus. repeat split; apply bpow_le; lia.
  Qed.
  Lemma root_top s : 0 <= s -> s <= top * top -> R_sqrt.sqrt s <= top.
  Proof. intros S0 H. pose proof top_facts as (T1 & _). rewrite <- (sqrt_square top) by lra. apply sqrt_le_1_alt. exact H. Qed.
  Lemma over_near a b e : 0 < b -> 0 <= e -> e <= / 100 -> Rabs (a - b) <= e * b -> 0 < a /\ Rabs (/ a - / b) <= e * (1 + 2 * e) * / b.
  Proof.
    intros B0 E0 E1 H. assert (H' := H). apply abs_in in H'. assert (EB : e * b <= / 100 * b) by (apply Rmult_le_compat_r; lra). assert (A0 : 0 < a) by lra. split; [exact A0|].
    replace (/ a - / b) with ((b - a) * / a * / b) by (field; split; lra). rewrite !Rabs_mult. rewrite (Rabs_pos_eq (/ b)) by (apply Rlt_le, Rinv_0_lt_compat; exact B0). apply Rmult_le_compat_r; [apply Rlt_le, Rinv_0_lt_compat; exact B0|].
    rewrite (Rabs_pos_eq (/ a)) by (apply Rlt_le, Rinv_0_lt_compat; exact A0). rewrite Rabs_minus_sym in H. apply (Rmult_le_reg_r a _ _ A0). replace (Rabs (b - a) * / a * a) with (Rabs (b - a)) by (field; lra). eapply Rle_trans; [exact H|].
    assert (b <= (1 + 2 * e) * a). { assert (b * (1 - e) <= a) by lra. assert ((1 + 2 * e) * (b * (1 - e)) <= (1 + 2 * e) * a) by (apply Rmult_le_compat_l; lra). assert (0 <= e * (1 - 2 * e) * b) by (repeat apply Rmult_le_pos; lra). lra. }
    replace (e * (1 + 2 * e) * a) with (e * ((1 + 2 * e) * a)) by ring. apply Rmult_le_compat_l; lra.
  Qed.
  Lemma inverse_err (r : num) L : is_finite r = true -> Rabs (B2R r - L) <= u * (3 + / 50) * L -> bpow radix2 (12 - emax) <= L <= top ->
    is_finite (inv prec emax Hp He r) = true /\ Rabs (B2R (inv prec emax Hp He r) - / L) <= u * (4 + / 25) * / L.
  Proof.
    intros F H [L0 L1]. pose proof u_small as U. pose proof uu as UU. pose proof (bpow_gt_0 radix2 (12 - emax)) as T0. destruct (over_near (B2R r) L (u * (3 + / 50)) ltac:(lra) ltac:(lra) ltac:(lra) H) as [R0 E]. destruct (const_1 prec emax Hp He H3) as [K1 K2].
    assert (IL : 0 < / L) by (apply Rinv_0_lt_compat; lra). assert (E' : Rabs (/ B2R r - / L) <= u * (3 + / 30) * / L). { eapply Rle_trans; [exact E|]. apply Rmult_le_compat_r; lra. }
    apply abs_in in E'. assert (UL : u * / L <= / 2048 * / L) by (apply Rmult_le_compat_r; lra). assert (UL0 : 0 < u * / L) by (apply Rmult_lt_0_compat; lra). pose proof top_facts as (T1 & T2 & T3 & T4).
    assert (I1 : / L <= bpow radix2 (emax - 12)). { replace (emax - 12)%Z with (- (12 - emax))%Z by lia. rewrite bpow_opp. apply Rinv_le; lra. }
    assert (I3 : 4 * bpow radix2 (emax - 12) <= limit) by (change 4 with (bpow radix2 2); rewrite <- bpow_plus; apply bpow_le; lia).
    assert (I2 : bpow radix2 (11 - emax) <= / B2R r).
    { assert (/ top <= / L) by (apply Rinv_le; lra). assert (bpow radix2 (11 - emax) <= / 4 * / top); [|assert (0 < / top) by (apply Rinv_0_lt_compat; lra); lra]. apply (Rmult_le_reg_r (4 * top)); [lra|]. replace (/ 4 * / top * (4 * top)) with 1 by (field; lra). exact T4. }
    destruct (div_ok prec emax Hp He H3 (const 1 0) r K2 ltac:(lra)) as [A B]. { rewrite K1. unfold Rdiv. rewrite Rmult_1_l, Rabs_pos_eq by lra. lra. }
    unfold inv. split; [exact B|]. rewrite A, K1. unfold Rdiv. rewrite Rmult_1_l. pose proof (rnd_big (/ B2R r)) as G. pose proof (bpow_gt_0 radix2 (11 - emax)). rewrite Rabs_pos_eq in G by lra. specialize (G I2). apply abs_in in G. apply in_abs.
    assert (u * / B2R r <= u * / L * (1 + / 500)) by (replace (u * / L * (1 + / 500)) with (u * (/ L * (1 + / 500))) by ring; apply Rmult_le_compat_l; lra). lra.
  Qed.

  (** * scaling by a factor near the inverse of the length *)
  Lemma component_err (x f : num) L K : is_finite x = true -> is_finite f = true -> 0 < L -> Rabs (B2R x) <= L -> 0 <= K <= 47 / 10 -> Rabs (B2R f - / L) <= u * K * / L ->
    is_finite (mul x f) = true /\ Rabs (B2R (mul x f) - B2R x / L) <= u * (K + 1 + / 90) * Rabs (B2R x / L) + eta.
  Proof.
    intros Fx Ff L0 X K0 E. pose proof u_small as U. pose proof uu as UU. pose proof eta_small as N. pose proof limit_large as LL. assert (IL : 0 < / L) by (apply Rinv_0_lt_compat; lra). set (t := B2R x / L).
    assert (T : Rabs t <= 1). { unfold t, Rdiv. rewrite Rabs_mult, (Rabs_pos_eq (/ L)) by lra. apply (Rmult_le_reg_r L _ _ L0). rewrite Rmult_assoc, Rinv_l, Rmult_1_r by lra. lra. }
    assert (P : Rabs (B2R x * B2R f - t) <= u * K * Rabs t). { unfold t, Rdiv. replace (B2R x * B2R f - B2R x * / L) with (B2R x * (B2R f - / L)) by ring. rewrite !Rabs_mult, (Rabs_pos_eq (/ L)) by lra. replace (u * K * (Rabs (B2R x) * / L)) with (Rabs (B2R x) * (u * K * / L)) by ring. apply Rmult_le_compat_l; [apply Rabs_pos|exact E]. }
    pose proof (Rabs_pos t) as T0. assert (UK : u * K <= / 400). { assert (u * K <= / 2048 * K) by (apply Rmult_le_compat_r; lra). lra. } assert (UK0 : 0 <= u * K) by (apply Rmult_le_pos; lra). assert (UKT : u * K * Rabs t <= / 400 * Rabs t) by (apply Rmult_le_compat_r; lra).
    pose proof (abs_between _ _ _ P) as Pb. destruct (mul_err x f Fx Ff ltac:(lra)) as [A B]. split; [exact A|]. replace (B2R (mul x f) - t) with (B2R (mul x f) - B2R x * B2R f + (B2R x * B2R f - t)) by ring. eapply Rle_trans; [apply Rabs_triang|].
    assert (u * Rabs (B2R x * B2R f) <= u * (Rabs t + / 400 * Rabs t)) by (apply Rmult_le_compat_l; lra). assert (UK2 : u * (/ 400 * Rabs t) <= u * (/ 90 * Rabs t)) by (apply Rmult_le_compat_l; lra). lra.
  Qed.
  Lemma unit_square t n K : 0 <= K <= 47 / 10 -> Rabs t <= 1 -> Rabs (n - t) <= u * (K + 1 + / 90) * Rabs t + eta -> Rabs (n * n - t * t) <= u * (2 * K + 2 + / 20) * (t * t) + 3 * eta.
  Proof.
    intros K0 T H. pose proof u_small as U. pose proof eta_small as N. pose proof (Rabs_pos t) as T0. replace (n * n - t * t) with ((n - t) * (n - t) + 2 * (t * (n - t))) by ring. set (d := n - t) in *. set (a := Rabs t) in *. set (K' := K + 1 + / 90) in *.
    assert (K1 : 0 <= K' <= 572 / 100) by (unfold K'; lra). assert (TT : t * t = a * a) by (unfold a; rewrite <- Rabs_mult; symmetry; apply Rabs_pos_eq; nra). rewrite TT.
    assert (UK : 0 <= u * K' <= / 350). { split; [apply Rmult_le_pos; lra|]. assert (u * K' <= / 2048 * K') by (apply Rmult_le_compat_r; lra). lra. }
    assert (D0 := Rabs_pos d). assert (DD : d * d <= (u * K' * a + eta) * (u * K' * a + eta)). { rewrite <- (Rabs_pos_eq (d * d)) by nra. rewrite Rabs_mult. apply Rmult_le_compat; assumption. }
    assert (TD : Rabs (t * d) <= a * (u * K' * a + eta)). { rewrite Rabs_mult. apply Rmult_le_compat_l; assumption. }
    assert (a * a <= a) by (replace a with (a * 1) at 3 by ring; apply Rmult_le_compat_l; lra). assert (AE : a * eta <= eta) by (replace eta with (1 * eta) at 2 by ring; apply Rmult_le_compat_r; lra). assert (EE : eta * eta <= / 10 * eta) by (apply Rmult_le_compat_r; lra).
    assert (Q1 : u * K' * a * (u * K' * a) <= u * / 50 * (a * a)). { replace (u * K' * a * (u * K' * a)) with ((u * K') * K' * u * (a * a)) by ring. apply Rmult_le_compat_r; [nra|]. rewrite (Rmult_comm u (/ 50)). apply Rmult_le_compat_r; [lra|]. assert (u * K' * K' <= / 350 * K') by (apply Rmult_le_compat_r; lra). lra. }
    assert (Q2 : u * K' * (a * eta) <= / 350 * eta). { assert (u * K' * (a * eta) <= / 350 * (a * eta)) by (apply Rmult_le_compat_r; [nra|lra]). lra. }
    apply abs_in in TD. apply in_abs. assert (0 <= d * d) by nra. assert (KK : u * K' * (a * a) = u * (K + 1 + / 90) * (a * a)) by reflexivity. assert (0 <= u * (a * a)) by (apply Rmult_le_pos; [lra|nra]). split; lra.
  Qed.

  (** * quaternions *)
  Notation quat := (VecModel.quat prec emax).
  Notation vec := (VecModel.vec prec emax).
  Definition norm2 (q : quat) : R := B2R (qw _ _ q) * B2R (qw _ _ q) + B2R (qx _ _ q) * B2R (qx _ _ q) + B2R (qy _ _ q) * B2R (qy _ _ q) + B2R (qz _ _ q) * B2R (qz _ _ q).
  Definition norm2v (v : vec) : R := B2R (vx _ _ v) * B2R (vx _ _ v) + B2R (vy _ _ v) * B2R (vy _ _ v) + B2R (vz _ _ v) * B2R (vz _ _ v).
  Definition finite_q (q : quat) : Prop := is_finite (qw _ _ q) = true /\ is_finite (qx _ _ q) = true /\ is_finite (qy _ _ q) = true /\ is_finite (qz _ _ q) = true.
  Definition finite_v (v : vec) : Prop := is_finite (vx _ _ v) = true /\ is_finite (vy _ _ v) = true /\ is_finite (vz _ _ v) = true.
  Definition moderate_q (q : quat) : Prop := moderate (qw _ _ q) /\ moderate (qx _ _ q) /\ moderate (qy _ _ q) /\ moderate (qz _ _ q).
  Definition moderate_v (v : vec) : Prop := moderate (vx _ _ v) /\ moderate (vy _ _ v) /\ moderate (vz _ _ v).
  Lemma square_pos x : 0 <= x * x. Proof. nra. Qed.
  Lemma abs_square x : Rabs (x * x) = x * x. Proof. apply Rabs_pos_eq, square_pos. Qed.
  Lemma quat_sum (q : quat) : finite_q q -> norm2 q <= bpow radix2 (emax - 3) -> squares (quat_squared_length prec emax Hp He q) (norm2 q).
  Proof.
    intros (F1 & F2 & F3 & F4) L. destruct (four_products (qw _ _ q) (qw _ _ q) (qx _ _ q) (qx _ _ q) (qy _ _ q) (qy _ _ q) (qz _ _ q) (qz _ _ q) true true true F1 F1 F2 F2 F3 F3 F4 F4) as [A B]; [rewrite !abs_square; exact L|]. rewrite !abs_square in B. split; [exact A|exact B].
  Qed.
  Lemma vec_sum (v : vec) : finite_v v -> norm2v v <= bpow radix2 (emax - 3) -> squares (vec_squared_length prec emax Hp He v) (norm2v v) /\ Rabs (B2R (vec_squared_length prec emax Hp He v) - norm2v v) <= u * (3 + / 500) * norm2v v + 5 * eta.
  Proof.
    intros (F1 & F2 & F3) L. destruct (three_products (vx _ _ v) (vx _ _ v) (vy _ _ v) (vy _ _ v) (vz _ _ v) (vz _ _ v) true true F1 F1 F2 F2 F3 F3) as [A B]; [rewrite !abs_square; exact L|]. rewrite !abs_square in B. split; [|exact B]. split; [exact A|]. eapply Rle_trans; [exact B|]. fold (norm2v v).
    pose proof eta_small. assert (0 <= u * norm2v v); [|lra]. apply Rmult_le_pos; [pose proof u_small; lra|]. unfold norm2v. pose proof (square_pos (B2R (vx _ _ v))). pose proof (square_pos (B2R (vy _ _ v))). pose proof (square_pos (B2R (vz _ _ v))). lra.
  Qed.
  Lemma top_half : top * top = 4 * (bpow radix2 (emax / 2 - 3) * bpow radix2 (emax / 2 - 3)).
  Proof. unfold top. change 4 with (bpow radix2 2). rewrite <- !bpow_plus. f_equal. lia. Qed.
  Lemma moderate_square (a : num) : moderate a -> is_finite a = true /\ B2R a * B2R a <= / 4 * (top * top).
  Proof. intros [F M]. split; [exact F|]. rewrite top_half. rewrite <- abs_square, Rabs_mult. replace (/ 4 * (4 * (bpow radix2 (emax / 2 - 3) * bpow radix2 (emax / 2 - 3)))) with (bpow radix2 (emax / 2 - 3) * bpow radix2 (emax / 2 - 3)) by lra. apply Rmult_le_compat; try apply Rabs_pos; exact M. Qed.
  Lemma top_fits : top * top <= bpow radix2 (emax - 3).
  Proof. pose proof top_facts as (_ & _ & A & _). eapply Rle_trans; [exact A|]. apply bpow_le. lia. Qed.
  Lemma moderate_quat (q : quat) : moderate_q q -> finite_q q /\ norm2 q <= top * top /\ squares (quat_squared_length prec emax Hp He q) (norm2 q).
  Proof.
    intros (M1 & M2 & M3 & M4). destruct (moderate_square _ M1) as [F1 S1]. destruct (moderate_square _ M2) as [F2 S2]. destruct (moderate_square _ M3) as [F3 S3]. destruct (moderate_square _ M4) as [F4 S4]. assert (F : finite_q q) by (repeat split; assumption). assert (T : norm2 q <= top * top) by (unfold norm2; lra).
    split; [exact F|]. split; [exact T|]. apply quat_sum; [exact F|]. pose proof top_fits. lra.
  Qed.
  Lemma moderate_vec (v : vec) : moderate_v v -> finite_v v /\ norm2v v <= top * top /\ squares (vec_squared_length prec emax Hp He v) (norm2v v).
  Proof.
    intros (M1 & M2 & M3). destruct (moderate_square _ M1) as [F1 S1]. destruct (moderate_square _ M2) as [F2 S2]. destruct (moderate_square _ M3) as [F3 S3]. assert (F : finite_v v) by (repeat split; assumption). pose proof (square_pos top). assert (T : norm2v v <= top * top) by (unfold norm2v; lra).
    split; [exact F|]. split; [exact T|]. apply vec_sum; [exact F|]. pose proof top_fits. lra.
  Qed.
  Lemma format_31u : generic_format radix2 fx ((15 + / 2) * u).
  Proof.
    replace ((15 + / 2) * u) with (F2R (Float radix2 31 (- prec - 1))).
    - apply generic_format_F2R. intros _. unfold cexp, fexp, emin. assert (mag radix2 (F2R (Float radix2 31 (- prec - 1))) <= 4 - prec)%Z.
      { apply mag_le_bpow; [apply Rgt_not_eq, F2R_gt_0; reflexivity|]. unfold F2R. cbn [Fnum Fexp]. rewrite Rabs_pos_eq by (apply Rmult_le_pos; [lra|apply bpow_ge_0]). replace (4 - prec)%Z with (5 + (- prec - 1))%Z by lia. rewrite bpow_plus. apply Rmult_lt_compat_r; [apply bpow_gt_0|]. change (bpow radix2 5) with 32. lra. }
      lia.
    - unfold F2R, DblProofs.u. cbn [Fnum Fexp]. unfold Zminus. rewrite bpow_plus. change (bpow radix2 (- (1))) with (/ 2). lra.
  Qed.
  Lemma format_16u : generic_format radix2 fx (16 * u).
  Proof. replace (16 * u) with (bpow radix2 (4 - prec)); [apply (bpow_format prec emax); unfold emin; lia|]. unfold DblProofs.u. change 16 with (bpow radix2 4). rewrite <- bpow_plus. f_equal. Qed.
  Lemma ample_ok : B2R (ample_epsilon prec emax Hp He) = 16 * u /\ is_finite (ample_epsilon prec emax Hp He) = true.
  Proof.
    unfold ample_epsilon. assert (E : F2R (Float radix2 1 (4 - prec)) = 16 * u). { rewrite F2R_bpow. unfold DblProofs.u. change 16 with (bpow radix2 4). rewrite <- bpow_plus. f_equal. }
    rewrite <- E. apply const_ok; [exact H3| |]; rewrite E; [|apply format_16u]. pose proof u_small. pose proof limit_large. rewrite Rabs_pos_eq by lra. lra.
  Qed.
  Lemma near_one (c : num) : is_finite c = true -> Rabs (B2R c - 1) <= 16 * u -> le (Babs (sub c (const 1 0))) (ample_epsilon prec emax Hp He) = true.
  Proof.
    intros F H. destruct (const_1 prec emax Hp He H3) as [K1 K2]. pose proof u_small. pose proof limit_large. destruct (sub_ok prec emax Hp He H3 c (const 1 0) F K2) as [A B]; [rewrite K1; lra|]. destruct ample_ok as [E1 E2].
    rewrite le_finite by (try rewrite is_finite_Babs; assumption). apply Rle_bool_true. rewrite B2R_Babs, A, K1, E1. apply (rnd_abs prec emax Hp); [apply format_16u|exact H].
  Qed.
  Lemma near_one_back (c : num) : le (Babs (sub c (const 1 0))) (ample_epsilon prec emax Hp He) = true -> is_finite c = true /\ Rabs (B2R c - 1) <= 17 * u.
  Proof.
    intros H. destruct (const_1 prec emax Hp He H3) as [K1 K2]. destruct ample_ok as [E1 E2]. pose proof u_small as U. pose proof limit_large as LL.
    assert (S : is_finite (Babs (sub c (const 1 0))) = true). { apply le_cases in H. destruct H as [[H _]|[[H _]|[H _]]]; [|rewrite H in E2; discriminate|exact H]. destruct (sub c (const 1 0)); discriminate H. }
    rewrite is_finite_Babs in S.
    assert (F : is_finite c = true). { destruct c as [|s| |]; try reflexivity; exfalso; revert S; unfold DblModel.sub; destruct (const 1 0) as [|s'| |]; try discriminate K2; try (destruct s); cbn; discriminate. }
    split; [exact F|]. rewrite le_finite in H by (try rewrite is_finite_Babs; assumption). apply Rle_bool_true_iff in H || (revert H; case Rle_bool_spec; [intros H _|discriminate]). rewrite B2R_Babs, E1 in H.
    pose proof (Bminus_correct prec emax Hp He mode_NE c (const 1 0) F K2) as C. rewrite K1 in C. fold (DblModel.sub prec emax Hp He) in C. destruct (Rlt_bool _ _) in C.
    - destruct C as (C & _). change (B2R (sub c (const 1 0)) = rnd (B2R c - 1)) in C. rewrite C in H. pose proof (diff_err prec emax Hp H3 c (const 1 0)) as D. rewrite K1 in D. rewrite Rabs_minus_sym in D. apply abs_between in D || idtac.
      assert (X : Rabs (B2R c - 1) <= Rabs (rnd (B2R c - 1)) + u * Rabs (B2R c - 1)). { replace (B2R c - 1) with (rnd (B2R c - 1) + (B2R c - 1 - rnd (B2R c - 1))) at 1 by ring. eapply Rle_trans; [apply Rabs_triang|]. pose proof (diff_err prec emax Hp H3 c (const 1 0)) as D'. rewrite K1 in D'. rewrite Rabs_minus_sym in D'. lra. }
      pose proof (Rabs_pos (B2R c - 1)). assert (u * Rabs (B2R c - 1) <= / 2048 * Rabs (B2R c - 1)) by (apply Rmult_le_compat_r; lra). lra.
    - destruct C as [C _]. exfalso. revert S C. unfold DblModel.sub. destruct (Bminus _ _ _); cbn; try discriminate; destruct (overflow_to_inf _ _); discriminate.
  Qed.
  Lemma small_abs x s : x * x <= s -> Rabs x <= R_sqrt.sqrt s.
  Proof. intros H. rewrite <- sqrt_Rsqr_abs. apply sqrt_le_1_alt. exact H. Qed.
  (** each component of the scaled quaternion, and its squared length *)
  Lemma scaled_unit (q : quat) (f : num) K : finite_q q -> 0 < norm2 q -> is_finite f = true -> 0 <= K <= 47 / 10 -> Rabs (B2R f - / R_sqrt.sqrt (norm2 q)) <= u * K * / R_sqrt.sqrt (norm2 q) ->
    let n := quat_scale prec emax Hp He q f in
    let near (a b : num) := Rabs (B2R a - B2R b / R_sqrt.sqrt (norm2 q)) <= u * (K + 1 + / 90) * Rabs (B2R b / R_sqrt.sqrt (norm2 q)) + eta in
    finite_q n /\ (near (qw _ _ n) (qw _ _ q) /\ near (qx _ _ n) (qx _ _ q) /\ near (qy _ _ n) (qy _ _ q) /\ near (qz _ _ n) (qz _ _ q)) /\
    Rabs (norm2 n - 1) <= u * (2 * K + 2 + / 10) /\ quat_is_normalized prec emax Hp He n = true.
  Proof.
    intros (F1 & F2 & F3 & F4) S0 Ff K0 E. cbv zeta. set (L := R_sqrt.sqrt (norm2 q)) in *. assert (L0 : 0 < L) by (apply sqrt_lt_R0; exact S0). pose proof u_small as U. pose proof eta_small as N. pose proof limit_large as LL.
    pose proof (square_pos (B2R (qw _ _ q))) as P1. pose proof (square_pos (B2R (qx _ _ q))) as P2. pose proof (square_pos (B2R (qy _ _ q))) as P3. pose proof (square_pos (B2R (qz _ _ q))) as P4. assert (NQ := eq_refl (norm2 q)). unfold norm2 at 2 in NQ.
    assert (X1 : Rabs (B2R (qw _ _ q)) <= L) by (apply small_abs; lra). assert (X2 : Rabs (B2R (qx _ _ q)) <= L) by (apply small_abs; lra). assert (X3 : Rabs (B2R (qy _ _ q)) <= L) by (apply small_abs; lra). assert (X4 : Rabs (B2R (qz _ _ q)) <= L) by (apply small_abs; lra).
    destruct (component_err _ f L K F1 Ff L0 X1 K0 E) as [G1 D1]. destruct (component_err _ f L K F2 Ff L0 X2 K0 E) as [G2 D2]. destruct (component_err _ f L K F3 Ff L0 X3 K0 E) as [G3 D3]. destruct (component_err _ f L K F4 Ff L0 X4 K0 E) as [G4 D4].
    set (n := quat_scale prec emax Hp He q f). assert (Fn : finite_q n) by (repeat split; assumption). split; [exact Fn|]. split; [repeat split; assumption|].
    assert (T : forall x, Rabs x <= L -> Rabs (x / L) <= 1). { intros x X. unfold Rdiv. assert (0 < / L) by (apply Rinv_0_lt_compat; exact L0). rewrite Rabs_mult, (Rabs_pos_eq (/ L)) by lra. apply (Rmult_le_reg_r L _ _ L0). rewrite Rmult_assoc, Rinv_l, Rmult_1_r by lra. lra. }
    pose proof (unit_square _ _ K K0 (T _ X1) D1) as Q1. pose proof (unit_square _ _ K K0 (T _ X2) D2) as Q2. pose proof (unit_square _ _ K K0 (T _ X3) D3) as Q3. pose proof (unit_square _ _ K K0 (T _ X4) D4) as Q4.
    assert (ONE : B2R (qw _ _ q) / L * (B2R (qw _ _ q) / L) + B2R (qx _ _ q) / L * (B2R (qx _ _ q) / L) + B2R (qy _ _ q) / L * (B2R (qy _ _ q) / L) + B2R (qz _ _ q) / L * (B2R (qz _ _ q) / L) = 1).
    { transitivity (norm2 q / (L * L)); [unfold norm2; field; lra|]. unfold L. rewrite sqrt_sqrt by lra. field. lra. }
    set (t1 := B2R (qw _ _ q) / L) in *. set (t2 := B2R (qx _ _ q) / L) in *. set (t3 := B2R (qy _ _ q) / L) in *. set (t4 := B2R (qz _ _ q) / L) in *.
    assert (Nn : norm2 n = B2R (mul (qw _ _ q) f) * B2R (mul (qw _ _ q) f) + B2R (mul (qx _ _ q) f) * B2R (mul (qx _ _ q) f) + B2R (mul (qy _ _ q) f) * B2R (mul (qy _ _ q) f) + B2R (mul (qz _ _ q) f) * B2R (mul (qz _ _ q) f)) by reflexivity.
    assert (SQ : Rabs (norm2 n - 1) <= u * (2 * K + 2 + / 10)).
    { rewrite Nn, <- ONE. apply abs_in in Q1, Q2, Q3, Q4. apply in_abs.
      assert (CC : u * (2 * K + 2 + / 20) * (t1 * t1) + u * (2 * K + 2 + / 20) * (t2 * t2) + u * (2 * K + 2 + / 20) * (t3 * t3) + u * (2 * K + 2 + / 20) * (t4 * t4) = u * (2 * K + 2 + / 20)). { rewrite <- !Rmult_plus_distr_l, ONE. ring. }
      split; lra. }
    split; [exact SQ|]. assert (UK : u * K <= u * (47 / 10)) by (apply Rmult_le_compat_l; lra). assert (UK0 : 0 <= u * K) by (apply Rmult_le_pos; lra). apply abs_in in SQ.
    assert (B2 : 2 <= bpow radix2 (emax - 3)) by (change 2 with (bpow radix2 1); apply bpow_le; lia).
    destruct (quat_sum n Fn ltac:(lra)) as [Fc C]. unfold quat_is_normalized. apply near_one; [exact Fc|]. apply abs_in in C. apply in_abs.
    assert (u * norm2 n <= u * (1 + / 100)) by (apply Rmult_le_compat_l; lra). assert (0 <= u * norm2 n) by (apply Rmult_le_pos; lra). split; lra.
  Qed.

  Lemma not_tiny_pos x : not_tiny (emax := emax) x -> 0 < x.
  Proof. intros H. unfold not_tiny in H. pose proof (bpow_gt_0 radix2 (12 - emax)). lra. Qed.
  Lemma normalize_factor (c : num) s : squares c s -> not_tiny (emax := emax) s -> s <= top * top ->
    let f := inv prec emax Hp He (sqrt prec emax Hp He c) in is_finite f = true /\ Rabs (B2R f - / R_sqrt.sqrt s) <= u * (4 + / 25) * / R_sqrt.sqrt s.
  Proof.
    intros Q T Tp. destruct (length_err c s Q T Tp) as [F E]. apply (inverse_err _ _ F E). split; [apply sqrt_between; exact T|]. apply root_top; [|exact Tp]. apply Rlt_le, not_tiny_pos, T.
  Qed.
  Lemma fast_factor (c tol : num) s : squares c s -> not_tiny (emax := emax) s -> is_finite tol = true -> B2R tol * B2R tol <= 9 / 2 * u -> lt (Babs (sub (const 1 0) c)) tol = true ->
    let f := div (const 2 0) (add (const 1 0) c) in is_finite f = true /\ Rabs (B2R f - / R_sqrt.sqrt s) <= u * (47 / 10) * / R_sqrt.sqrt s.
  Proof.
    intros Q T Ft Tol Lt. cbv zeta. pose proof (root_err c s Q T) as RE. pose proof (square_err c s Q T) as [C1 C2]. destruct Q as [F Q]. pose proof u_small as U. pose proof uu as UU. pose proof limit_large as LL. pose proof (not_tiny_pos s T) as S0. destruct (const_1 prec emax Hp He H3) as [K1 K2]. destruct (const_2 prec emax Hp He H3) as [K3 K4].
    assert (Us : u * s <= / 2048 * s) by (apply Rmult_le_compat_r; lra). assert (Cp : 0 < B2R c) by lra.
    assert (Sf : is_finite (sub (const 1 0) c) = true). { rewrite <- is_finite_Babs. apply lt_weak in Lt. destruct Lt as [Lt _]. apply le_cases in Lt. destruct Lt as [[X _]|[[X _]|[X _]]]; [destruct (sub (const 1 0) c); discriminate X|rewrite X in Ft; discriminate|exact X]. }
    assert (Sv : B2R (sub (const 1 0) c) = rnd (1 - B2R c)).
    { pose proof (Bminus_correct prec emax Hp He mode_NE (const 1 0) c K2 F) as C. rewrite K1 in C. fold (DblModel.sub prec emax Hp He) in C. destruct (Rlt_bool _ _) in C; [destruct C as (C & _); exact C|]. destruct C as [C _]. exfalso. revert Sf C. unfold DblModel.sub. destruct (Bminus _ _ _); cbn; try discriminate; destruct (overflow_to_inf _ _); discriminate. }
    rewrite lt_finite in Lt by (try rewrite is_finite_Babs; assumption). revert Lt. case Rlt_bool_spec; [intros Lt _|discriminate]. rewrite B2R_Babs, Sv in Lt. pose proof (diff_err prec emax Hp H3 (const 1 0) c) as D. rewrite K1 in D.
    set (e := Rabs (1 - B2R c)) in *. assert (e0 : 0 <= e) by apply Rabs_pos. assert (e1 : e <= (1 + / 1000) * B2R tol). { assert (e <= Rabs (rnd (1 - B2R c)) + u * e). { unfold e at 1. replace (1 - B2R c) with (rnd (1 - B2R c) + (1 - B2R c - rnd (1 - B2R c))) at 1 by ring. eapply Rle_trans; [apply Rabs_triang|]. rewrite (Rabs_minus_sym (1 - B2R c)). lra. } assert (u * e <= / 2048 * e) by (apply Rmult_le_compat_r; lra). lra. }
    assert (T0 : 0 <= B2R tol) by lra. assert (e2 : e * e <= 452 / 100 * u). { assert (e * e <= (1 + / 1000) * B2R tol * ((1 + / 1000) * B2R tol)) by (apply Rmult_le_compat; lra). lra. }
    assert (e3 : e <= / 20). { destruct (Rle_lt_dec e (/ 20)) as [X|X]; [exact X|]. assert (/ 20 * / 20 <= e * e) by (apply Rmult_le_compat; lra). lra. }
    assert (e4 := e3). unfold e in e4. apply abs_in in e4. set (x := B2R c) in *. set (L := R_sqrt.sqrt s) in *. set (r := R_sqrt.sqrt x) in *. assert (rr : r * r = x) by (apply sqrt_sqrt; lra). assert (r0 : 97 / 100 <= r). { unfold r. rewrite <- (sqrt_square (97 / 100)) by lra. apply sqrt_le_1_alt. lra. }
    assert (L0 : 0 < L) by (apply sqrt_lt_R0; exact S0). assert (IL : 0 < / L) by (apply Rinv_0_lt_compat; exact L0).
    (* the sum and the quotient *)
    destruct (add_ok prec emax Hp He H3 (const 1 0) c K2 F) as [A1 A2]; [rewrite K1; fold x; rewrite Rabs_pos_eq by lra; lra|]. rewrite K1 in A1. fold x in A1. pose proof (sum_err prec emax Hp H3 (const 1 0) c) as SE. rewrite K1 in SE. fold x in SE. rewrite <- A1 in SE. set (a := add (const 1 0) c) in *. rewrite (Rabs_pos_eq (1 + x)) in SE by lra.
    destruct (over_near (B2R a) (1 + x) u ltac:(lra) ltac:(lra) ltac:(lra) SE) as [a0 IE]. set (G := / (1 + x)) in *. assert (G0 : 0 < G) by (apply Rinv_0_lt_compat; lra). assert (G1 : G * (1 + x) = 1) by (unfold G; field; lra).
    assert (IE' : Rabs (/ B2R a - G) <= u * (1 + / 1000) * G) by (eapply Rle_trans; [exact IE|apply Rmult_le_compat_r; lra]). apply abs_in in IE'.
    assert (G2 : G <= 52 / 100). { apply (Rmult_le_reg_r (1 + x)); [lra|]. rewrite G1. lra. } assert (G3 : 48 / 100 <= G). { apply (Rmult_le_reg_r (1 + x)); [lra|]. rewrite G1. lra. }
    assert (UG : 0 < u * G <= / 2048 * G) by (split; [apply Rmult_lt_0_compat; lra|apply Rmult_le_compat_r; lra]).
    destruct (div_ok prec emax Hp He H3 (const 2 0) a K4 ltac:(lra)) as [B1 B2]; [rewrite K3; unfold Rdiv; rewrite Rabs_pos_eq by lra; lra|]. split; [exact B2|]. rewrite B1, K3. unfold Rdiv.
    pose proof (rnd_big (2 * / B2R a)) as RB. rewrite (Rabs_pos_eq (2 * / B2R a)) in RB by lra. assert (BL : bpow radix2 (11 - emax) <= / 10) by (eapply Rle_trans; [apply (bpow_le radix2 _ (-4)); lia|cbn; lra]). specialize (RB ltac:(lra)). apply abs_in in RB. set (d := rnd (2 * / B2R a)) in *.
    assert (d1 : Rabs (d - 2 * G) <= u * (2 + / 200) * (2 * G)). { apply in_abs. assert (u * / B2R a <= u * (G * (1 + / 1000))) by (apply Rmult_le_compat_l; lra). lra. }
    (* against the inverse of the root *)
    assert (gr : Rabs (2 * G * r - 1) <= 63 / 100 * u).
    { assert (GR : 2 * G * r - 1 = - ((1 - r) * (1 - r) * G)). { assert (2 * G * r - 1 + (1 - r) * (1 - r) * G = G * (1 + r * r) - 1) by ring. rewrite rr in H. lra. }
      rewrite GR, Rabs_Ropp, Rabs_pos_eq by (apply Rmult_le_pos; [apply square_pos|lra]). assert (EE : e * e = (1 - r) * (1 - r) * ((1 + r) * (1 + r))). { unfold e. rewrite <- Rabs_mult, Rabs_pos_eq by apply square_pos. rewrite <- rr. ring. }
      pose proof (square_pos (1 - r)) as W0. set (W := (1 - r) * (1 - r)) in *. assert (R2 : 388 / 100 <= (1 + r) * (1 + r)). { assert (197 / 100 * (197 / 100) <= (1 + r) * (1 + r)) by (apply Rmult_le_compat; lra). lra. } assert (W * (388 / 100) <= W * ((1 + r) * (1 + r))) by (apply Rmult_le_compat_l; lra). assert (W * G <= W * (52 / 100)) by (apply Rmult_le_compat_l; lra). lra. }
    assert (dr : Rabs (d * r - 1) <= 265 / 100 * u).
    { replace (d * r - 1) with ((d - 2 * G) * r + (2 * G * r - 1)) by ring. eapply Rle_trans; [apply Rabs_triang|]. rewrite Rabs_mult, (Rabs_pos_eq r) by lra. assert (Rabs (d - 2 * G) * r <= u * (2 + / 200) * (2 * G) * r) by (apply Rmult_le_compat_r; lra). apply abs_in in gr. assert (u * (2 * G * r) <= u * (1 + / 1000)) by (apply Rmult_le_compat_l; lra). assert (Rabs (2 * G * r - 1) <= 63 / 100 * u) by (apply in_abs; lra). lra. }
    destruct (over_near r L (u * (2 + / 100)) L0 ltac:(lra) ltac:(lra) RE) as [_ IR]. assert (IR' : Rabs (/ r - / L) <= u * (2 + / 50) * / L) by (eapply Rle_trans; [exact IR|apply Rmult_le_compat_r; lra]).
    replace (d - / L) with ((d * r - 1) * / r + (/ r - / L)) by (field; split; lra). eapply Rle_trans; [apply Rabs_triang|]. rewrite Rabs_mult, (Rabs_pos_eq (/ r)) by (apply Rlt_le, Rinv_0_lt_compat; lra). assert (IR2 := IR'). apply abs_in in IR2. assert (UL : 0 < u * / L <= / 2048 * / L) by (split; [apply Rmult_lt_0_compat; lra|apply Rmult_le_compat_r; lra]).
    assert (Rabs (d * r - 1) * / r <= 265 / 100 * u * (/ L * (1 + / 900))). { apply Rmult_le_compat; [apply Rabs_pos|apply Rlt_le, Rinv_0_lt_compat; lra|exact dr|lra]. } lra.
  Qed.

  (** * vectors *)
  Lemma scaled_unit_v (v : vec) (f : num) K : finite_v v -> 0 < norm2v v -> is_finite f = true -> 0 <= K <= 47 / 10 -> Rabs (B2R f - / R_sqrt.sqrt (norm2v v)) <= u * K * / R_sqrt.sqrt (norm2v v) ->
    let n := vec_scale prec emax Hp He v f in
    let near (a b : num) := Rabs (B2R a - B2R b / R_sqrt.sqrt (norm2v v)) <= u * (K + 1 + / 90) * Rabs (B2R b / R_sqrt.sqrt (norm2v v)) + eta in
    finite_v n /\ (near (vx _ _ n) (vx _ _ v) /\ near (vy _ _ n) (vy _ _ v) /\ near (vz _ _ n) (vz _ _ v)) /\
    Rabs (norm2v n - 1) <= u * (2 * K + 2 + / 10) /\ vec_is_normalized prec emax Hp He n = true.
  Proof.
    intros (F2 & F3 & F4) S0 Ff K0 E. cbv zeta. set (L := R_sqrt.sqrt (norm2v v)) in *. assert (L0 : 0 < L) by (apply sqrt_lt_R0; exact S0). pose proof u_small as U. pose proof uu as UU. pose proof eta_small as N. pose proof limit_large as LL.
    pose proof (square_pos (B2R (vx _ _ v))) as P2. pose proof (square_pos (B2R (vy _ _ v))) as P3. pose proof (square_pos (B2R (vz _ _ v))) as P4. assert (NQ := eq_refl (norm2v v)). unfold norm2v at 2 in NQ.
    assert (X2 : Rabs (B2R (vx _ _ v)) <= L) by (apply small_abs; lra). assert (X3 : Rabs (B2R (vy _ _ v)) <= L) by (apply small_abs; lra). assert (X4 : Rabs (B2R (vz _ _ v)) <= L) by (apply small_abs; lra).
    destruct (component_err _ f L K F2 Ff L0 X2 K0 E) as [G2 D2]. destruct (component_err _ f L K F3 Ff L0 X3 K0 E) as [G3 D3]. destruct (component_err _ f L K F4 Ff L0 X4 K0 E) as [G4 D4].
    set (n := vec_scale prec emax Hp He v f). assert (Fn : finite_v n) by (repeat split; assumption). split; [exact Fn|]. split; [repeat split; assumption|].
    assert (T : forall x, Rabs x <= L -> Rabs (x / L) <= 1). { intros x X. unfold Rdiv. assert (0 < / L) by (apply Rinv_0_lt_compat; exact L0). rewrite Rabs_mult, (Rabs_pos_eq (/ L)) by lra. apply (Rmult_le_reg_r L _ _ L0). rewrite Rmult_assoc, Rinv_l, Rmult_1_r by lra. lra. }
    pose proof (unit_square _ _ K K0 (T _ X2) D2) as Q2. pose proof (unit_square _ _ K K0 (T _ X3) D3) as Q3. pose proof (unit_square _ _ K K0 (T _ X4) D4) as Q4.
    assert (ONE : B2R (vx _ _ v) / L * (B2R (vx _ _ v) / L) + B2R (vy _ _ v) / L * (B2R (vy _ _ v) / L) + B2R (vz _ _ v) / L * (B2R (vz _ _ v) / L) = 1).
    { transitivity (norm2v v / (L * L)); [unfold norm2v; field; lra|]. unfold L. rewrite sqrt_sqrt by lra. field. lra. }
    set (t2 := B2R (vx _ _ v) / L) in *. set (t3 := B2R (vy _ _ v) / L) in *. set (t4 := B2R (vz _ _ v) / L) in *.
    assert (Nn : norm2v n = B2R (mul (vx _ _ v) f) * B2R (mul (vx _ _ v) f) + B2R (mul (vy _ _ v) f) * B2R (mul (vy _ _ v) f) + B2R (mul (vz _ _ v) f) * B2R (mul (vz _ _ v) f)) by reflexivity.
    assert (SQ : Rabs (norm2v n - 1) <= u * (2 * K + 2 + / 10)).
    { rewrite Nn, <- ONE. apply abs_in in Q2, Q3, Q4. apply in_abs.
      assert (CC : u * (2 * K + 2 + / 20) * (t2 * t2) + u * (2 * K + 2 + / 20) * (t3 * t3) + u * (2 * K + 2 + / 20) * (t4 * t4) = u * (2 * K + 2 + / 20)). { rewrite <- !Rmult_plus_distr_l, ONE. ring. }
      split; lra. }
    split; [exact SQ|]. assert (UK : u * K <= u * (47 / 10)) by (apply Rmult_le_compat_l; lra). assert (UK0 : 0 <= u * K) by (apply Rmult_le_pos; lra). apply abs_in in SQ.
    assert (B2 : 2 <= bpow radix2 (emax - 3)) by (change 2 with (bpow radix2 1); apply bpow_le; lia).
    destruct (vec_sum n Fn ltac:(lra)) as [[Fc _] C]. apply abs_in in C. set (c := vec_squared_length prec emax Hp He n) in *. assert (Un : 0 <= u * norm2v n <= u * (1 + / 100)) by (split; [apply Rmult_le_pos; lra|apply Rmult_le_compat_l; lra]).
    assert (C1 : Rabs (B2R c - 1) <= (15 + / 2) * u) by (apply in_abs; lra). unfold vec_is_normalized, equal. fold c. apply abs_in in C1.
    destruct (const_1 prec emax Hp He H3) as [K1 K2]. destruct (const_0 prec emax Hp He H3) as [Z1 Z2]. destruct ample_ok as [E1 E2].
    assert (ABS : forall a : num, is_finite a = true -> B2R (VecModel.abs prec emax Hp He a) = Rabs (B2R a) /\ is_finite (VecModel.abs prec emax Hp He a) = true).
    { intros a Fa. unfold VecModel.abs. rewrite lt_finite by assumption. rewrite Z1. case Rlt_bool_spec; intros Ha; [rewrite B2R_Bopp, is_finite_Bopp, Rabs_left by exact Ha; split; [reflexivity|exact Fa]|rewrite Rabs_pos_eq by exact Ha; split; [reflexivity|exact Fa]]. }
    destruct (sub_ok prec emax Hp He H3 c (const 1 0) Fc K2) as [A B]; [rewrite K1; apply in_abs; lra|]. rewrite K1 in A. destruct (ABS _ B) as [A' B']. destruct (ABS c Fc) as [Ac Bc]. rewrite Rabs_pos_eq in Ac by lra.
    assert (Big : (15 + / 2) * u <= B2R c * (16 * u)). { assert ((1 - / 100) * (16 * u) <= B2R c * (16 * u)) by (apply Rmult_le_compat_r; lra). lra. } assert (Big2 : B2R c * (16 * u) <= 2 * (16 * u)) by (apply Rmult_le_compat_r; lra).
    destruct (mul_ok prec emax Hp He H3 (VecModel.abs prec emax Hp He c) (ample_epsilon prec emax Hp He) Bc E2) as [M1 M2]; [rewrite Ac, E1; apply in_abs; lra|].
    rewrite le_finite by assumption. apply Rle_bool_true. rewrite A', A, M1, Ac, E1. apply (rnd_abs prec emax Hp); [apply (rnd_format prec emax Hp)|]. apply in_abs.
    assert (X : (15 + / 2) * u <= rnd (B2R c * (16 * u))); [|lra]. eapply Rle_trans; [|apply (rnd_le prec emax Hp), Big]. apply (rnd_lb prec emax Hp); [apply format_31u|lra].
  Qed.
  Lemma epsilon_ok : B2R (epsilon prec emax Hp He) = 2 * u /\ is_finite (epsilon prec emax Hp He) = true.
  Proof.
    unfold epsilon. assert (E : F2R (Float radix2 1 (1 - prec)) = 2 * u). { rewrite F2R_bpow. unfold DblProofs.u. change 2 with (bpow radix2 1). rewrite <- bpow_plus. f_equal. }
    rewrite <- E. pose proof u_small. pose proof limit_large. apply const_ok; [exact H3| |]; rewrite E; [rewrite Rabs_pos_eq by lra; lra|]. replace (2 * u) with (bpow radix2 (1 - prec)); [apply (bpow_format prec emax); unfold emin; lia|]. rewrite <- E, F2R_bpow. reflexivity.
  Qed.
End Vectors.
