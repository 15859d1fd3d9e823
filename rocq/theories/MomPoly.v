(** Proofs about exact sums and polynomials in floating point. *)
From Coq Require Import List Arith Bool ZArith Reals Lra Lia ZifyBool SpecFloat.
From Flocq Require Import Core IEEE754.BinarySingleNaN Relative.
From Verif Require Import Base DblSpec MomSpec DblModel VecModel MomModel DblProofs MomProofs.
Import ListNotations.
Local Open Scope R_scope.

Lemma poly_abs cs x : Rabs (poly cs x) <= poly (map Rabs cs) (Rabs x).
Proof.
  induction cs as [|c r IH]; cbn [poly map]; [rewrite Rabs_R0; lra|]. eapply Rle_trans; [apply Rabs_triang|]. rewrite Rabs_mult. apply Rplus_le_compat_l, Rmult_le_compat_l; [apply Rabs_pos|exact IH].
Qed.
Lemma poly_abs_pos cs x : 0 <= poly (map Rabs cs) (Rabs x).
Proof. eapply Rle_trans; [apply Rabs_pos|apply poly_abs]. Qed.

Section Numbers.
  Context (prec emax : Z) (Hp : Prec_gt_0 prec) (He : Prec_lt_emax prec emax) (H3 : (3 <= prec)%Z).
  Notation num := (binary_float prec emax).
  Notation fx := (fexp prec emax).
  Notation add := (DblModel.add prec emax Hp He).
  Notation sub := (DblModel.sub prec emax Hp He).
  Notation mul := (DblModel.mul prec emax Hp He).
  Notation div := (DblModel.div prec emax Hp He).
  Notation const := (DblModel.const prec emax Hp He).
  Notation rnd := (DblProofs.rnd prec emax).
  Notation u := (DblProofs.u prec).
  Notation eta := (DblProofs.eta prec emax).
  Notation limit := (DblProofs.limit emax).
  Notation total := (DblProofs.total prec emax).
  Notation weight := (DblProofs.weight prec emax).
  Notation accumulate := (MomModel.accumulate prec emax Hp He).
  Lemma int_exact z : (Z.abs z <= 2 ^ (prec - 1))%Z -> generic_format radix2 fx (IZR z).
  Proof.
    intros B. destruct (Z.le_gt_cases 0 z) as [P|P]; [apply (integer_format prec emax He H3); lia|]. replace (IZR z) with (- IZR (- z)) by (rewrite opp_IZR; ring). apply generic_format_opp, (integer_format prec emax He H3). lia.
  Qed.
  Lemma int_limit z : (Z.abs z <= 2 ^ (prec - 1))%Z -> Rabs (IZR z) <= limit.
  Proof. intros B. rewrite <- abs_IZR. apply Rle_trans with (bpow radix2 (prec - 1)); [rewrite <- IZR_Zpower by lia; apply IZR_le; exact B|]. apply bpow_le. pose proof (He : (prec < emax)%Z). lia. Qed.
  Lemma int_of_real z x : Rabs (IZR z) <= x -> x <= bpow radix2 (prec - 1) -> (Z.abs z <= 2 ^ (prec - 1))%Z.
  Proof. intros A B. apply le_IZR. rewrite abs_IZR. change 2%Z with (radix_val radix2). rewrite IZR_Zpower by lia. lra. Qed.
  Lemma accumulate_exact (l : list num) : forall init, is_finite init = true -> all_finite l -> integers (init :: l) -> Rabs (B2R init) + weight l <= bpow radix2 (prec - 1) ->
    is_finite (accumulate l init) = true /\ B2R (accumulate l init) = B2R init + total l.
  Proof.
    induction l as [|v l IH]; intros init F0 F I W; [split; [exact F0|cbn; ring]|]. inversion F as [|? ? Fv Fl]; subst. inversion I as [|? ? [a Ia] I']; subst. inversion I' as [|? ? [b Ib] I2]; subst. cbn [DblProofs.weight fold_right DblProofs.total] in *. fold (weight l) in *. fold (total l) in *. pose proof (weight_pos prec emax l) as W0.
    assert (AB : Rabs (B2R init + B2R v) <= Rabs (B2R init) + Rabs (B2R v)) by apply Rabs_triang. assert (AZ : B2R init + B2R v = IZR (a + b)) by (rewrite plus_IZR; lra). assert (AL : (Z.abs (a + b) <= 2 ^ (prec - 1))%Z) by (apply (int_of_real _ (Rabs (B2R init) + Rabs (B2R v))); [rewrite <- AZ; exact AB|lra]).
    destruct (add_ok prec emax Hp He H3 init v F0 Fv) as [R FR]; [rewrite AZ; apply int_limit, AL|]. rewrite AZ, (rnd_exact prec emax _ (int_exact _ AL)), <- AZ in R. change (accumulate (v :: l) init) with (accumulate l (add init v)).
    destruct (IH (add init v) FR Fl) as [X Y]; [constructor; [exists (a + b)%Z; rewrite R; exact AZ|exact I2]|rewrite R; lra|]. split; [exact X|]. rewrite Y, R. ring.
  Qed.

  (** * powers *)
  Fixpoint power (v : num) (k : nat) : num := match k with O => v | S j => mul (power v j) v end.
  Fixpoint terms (cs : list num) (v f : num) : list num := match cs with [] => [] | c :: r => mul f c :: terms r v (mul f v) end.
  Lemma eval_terms cs v : forall r f, fst (fold_left (fun '(result, factor) c => (add result (mul factor c), mul factor v)) cs (r, f)) = accumulate (terms cs v f) r.
  Proof. unfold MomModel.accumulate. induction cs as [|c cs IH]; intros r f; cbn [fold_left terms]; [reflexivity|]. apply IH. Qed.
  Lemma rnd_normal x : 1 <= Rabs x -> Rabs (rnd x - x) <= u * Rabs x.
  Proof.
    intros X. rewrite <- (u_eq prec). apply (relative_error_N_FLT radix2 (emin prec emax) prec Hp (fun z => negb (Z.even z)) x). eapply Rle_trans; [|exact X]. change 1 with (bpow radix2 0). apply bpow_le. unfold emin. pose proof (He : (prec < emax)%Z). lia.
  Qed.
  Lemma pow_abs_le x a b : 1 <= Rabs x -> (a <= b)%nat -> Rabs x ^ a <= Rabs x ^ b.
  Proof. intros X L. apply Rle_pow; assumption. Qed.
  Lemma power_ok (v : num) d : is_finite v = true -> (2 * INR d * u <= 1) -> Rabs (B2R v) ^ d <= bpow radix2 (emax - 3) -> forall k, (k < d)%nat ->
    is_finite (power v k) = true /\ Rabs (B2R (power v k) - B2R v ^ (k + 1)) <= 2 * INR k * (u * Rabs (B2R v) ^ (k + 1) + eta).
  Proof.
    intros F D L. pose proof (u_pos prec H3) as U. pose proof (eta_pos prec emax) as E0. destruct (quarter emax) as [Q Q0]. set (a := Rabs (B2R v)) in *. assert (A0 : 0 <= a) by apply Rabs_pos. pose proof (bpow_gt_0 radix2 (emax - 3)) as B0.
    assert (B1 : 1 <= bpow radix2 (emax - 3)) by (change 1 with (bpow radix2 0); apply bpow_le; pose proof (He : (prec < emax)%Z); lia).
    assert (ES : eta <= / 8). { change (/ 8) with (bpow radix2 (-3)). apply bpow_le. unfold emin. pose proof (He : (prec < emax)%Z). lia. }
    destruct (Rle_lt_dec a 1) as [A1|A1].
    - (* at most 1 *)
      assert (AK : forall k, 0 <= a ^ k <= 1) by (intros k; split; [apply pow_le; exact A0|]; induction k; cbn [pow]; [lra|]; assert (a * a ^ k <= 1 * 1) by (apply Rmult_le_compat; try lra; apply pow_le; lra); lra).
      induction k as [|k IH]; intros K; [split; [exact F|]; cbn [power INR Nat.add pow]; rewrite Rmult_1_r, Rminus_diag_eq, Rabs_R0 by reflexivity; lra|]. destruct (IH ltac:(lia)) as [FK EK]. cbn [power]. rewrite S_INR. set (p := power v k) in *.
      pose proof (pos_INR k) as K0. assert (KU : 2 * INR k * u <= 1) by (assert (INR k <= INR d) by (apply le_INR; lia); nra).
      assert (PA : Rabs (B2R p) <= 2 * a ^ (k + 1) + 2 * INR k * eta). { eapply Rle_trans; [apply (abs_tri _ (B2R v ^ (k + 1)))|]. rewrite <- RPow_abs. fold a. pose proof (AK (k + 1)%nat). assert (2 * INR k * u * a ^ (k + 1) <= 1 * a ^ (k + 1)) by (apply Rmult_le_compat_r; lra). lra. }
      assert (KE : 2 * INR k * eta <= 1). { assert (eta <= u). { unfold DblProofs.eta, DblProofs.u. apply bpow_le. unfold emin. pose proof (He : (prec < emax)%Z). lia. } assert (2 * INR k * eta <= 2 * INR k * u) by (apply Rmult_le_compat_l; lra). lra. }
      assert (PV : Rabs (B2R p * B2R v) <= 2 * a ^ (S k + 1) + 2 * INR k * eta).
      { rewrite Rabs_mult. fold a. cbn [Nat.add pow]. assert (Rabs (B2R p) * a <= (2 * a ^ (k + 1) + 2 * INR k * eta) * a) by (apply Rmult_le_compat_r; lra). assert (2 * INR k * eta * a <= 2 * INR k * eta * 1) by (apply Rmult_le_compat_l; [apply Rmult_le_pos|]; lra). lra. }
      destruct (mul_ok prec emax Hp He H3 p v FK F) as [M FM]; [pose proof (AK (S k + 1)%nat); lra|]. split; [exact FM|]. rewrite M. pose proof (rnd_err prec emax Hp (B2R p * B2R v)) as E.
      replace (rnd (B2R p * B2R v) - B2R v ^ (S k + 1)) with ((rnd (B2R p * B2R v) - B2R p * B2R v) + (B2R p - B2R v ^ (k + 1)) * B2R v) by (cbn [Nat.add pow]; ring). eapply Rle_trans; [apply Rabs_triang|]. rewrite (Rabs_mult (_ - _)). fold a.
      assert (X1 : Rabs (B2R p - B2R v ^ (k + 1)) * a <= 2 * INR k * (u * a ^ (k + 1) + eta) * a) by (apply Rmult_le_compat_r; lra). assert (X2 : u * Rabs (B2R p * B2R v) <= u * (2 * a ^ (S k + 1) + 2 * INR k * eta)) by (apply Rmult_le_compat_l; lra).
      assert (X3 : 2 * INR k * eta * a <= 2 * INR k * eta * 1) by (apply Rmult_le_compat_l; [apply Rmult_le_pos|]; lra). assert (X4 : 2 * INR k * u * eta <= 1 * eta) by (apply Rmult_le_compat_r; lra). cbn [Nat.add pow] in *. lra.
    - (* larger than 1 *)
      assert (G : forall k, (k < d)%nat -> is_finite (power v k) = true /\ 1 <= Rabs (B2R (power v k)) /\ Rabs (B2R (power v k) - B2R v ^ (k + 1)) <= 2 * INR k * (u * a ^ (k + 1))).
      { induction k as [|k IH]; intros K; [split; [exact F|]; split; [fold a; cbn [power]; fold a; lra|]; cbn [power INR Nat.add pow]; rewrite Rmult_1_r, Rminus_diag_eq, Rabs_R0 by reflexivity; lra|]. destruct (IH ltac:(lia)) as (FK & PK & EK). cbn [power]. rewrite S_INR. set (p := power v k) in *.
        pose proof (pos_INR k) as K0. assert (KU : 2 * INR k * u <= 1) by (assert (INR k <= INR d) by (apply le_INR; lia); nra). assert (AP : 0 <= a ^ (k + 1)) by (apply pow_le; lra).
        assert (AL : a ^ (S k + 1) <= bpow radix2 (emax - 3) * a). { replace (S k + 1)%nat with (S (S k)) by lia. cbn [pow]. rewrite Rmult_comm. apply Rmult_le_compat_r; [lra|]. eapply Rle_trans; [|exact L]. change (a * a ^ k) with (a ^ S k). apply pow_abs_le; [fold a; lra|lia]. }
        assert (PA : Rabs (B2R p) <= 2 * a ^ (k + 1)). { eapply Rle_trans; [apply (abs_tri _ (B2R v ^ (k + 1)))|]. rewrite <- RPow_abs. fold a. assert (2 * INR k * u * a ^ (k + 1) <= 1 * a ^ (k + 1)) by (apply Rmult_le_compat_r; lra). lra. }
        assert (PV : Rabs (B2R p * B2R v) <= 2 * a ^ (S k + 1)). { rewrite Rabs_mult. fold a. cbn [Nat.add pow]. assert (Rabs (B2R p) * a <= 2 * a ^ (k + 1) * a) by (apply Rmult_le_compat_r; lra). lra. }
        assert (AD : a ^ (S k + 1) <= bpow radix2 (emax - 3)) by (eapply Rle_trans; [apply pow_abs_le|exact L]; [fold a; lra|lia]).
        destruct (mul_ok prec emax Hp He H3 p v FK F) as [M FM]; [lra|]. split; [exact FM|]. assert (PV1 : 1 <= Rabs (B2R p * B2R v)). { rewrite Rabs_mult. fold a. replace 1 with (1 * 1) by ring. apply Rmult_le_compat; lra. }
        split.
        - rewrite M. rewrite <- (Rabs_pos_eq 1) by lra. assert (F1 : generic_format radix2 fx 1) by (change 1 with (IZR 1); apply int_exact; cbn; pose proof (Z.pow_pos_nonneg 2 (prec - 1)); lia). unfold DblProofs.rnd. rewrite (Rabs_pos_eq 1) by lra. apply abs_round_ge_generic; [apply (fexp_correct prec emax Hp)|apply valid_rnd_N|exact F1|exact PV1].
        - rewrite M. pose proof (rnd_normal _ PV1) as E. replace (rnd (B2R p * B2R v) - B2R v ^ (S k + 1)) with ((rnd (B2R p * B2R v) - B2R p * B2R v) + (B2R p - B2R v ^ (k + 1)) * B2R v) by (cbn [Nat.add pow]; ring). eapply Rle_trans; [apply Rabs_triang|]. rewrite (Rabs_mult (_ - _)). fold a.
          assert (X1 : Rabs (B2R p - B2R v ^ (k + 1)) * a <= 2 * INR k * (u * a ^ (k + 1)) * a) by (apply Rmult_le_compat_r; lra). assert (X2 : u * Rabs (B2R p * B2R v) <= u * (2 * a ^ (S k + 1))) by (apply Rmult_le_compat_l; lra). cbn [Nat.add pow] in *. lra. }
      intros k K. destruct (G k K) as (X & _ & Z). split; [exact X|]. pose proof (pos_INR k). assert (0 <= 2 * INR k * eta) by (apply Rmult_le_pos; lra). lra.
  Qed.
  Definition abs_values (cs : list num) : list R := map Rabs (values cs).
  Lemma terms_ok (v : num) d : is_finite v = true -> 2 * (INR d + 1) * u <= 1 -> Rabs (B2R v) ^ d <= bpow radix2 (emax - 3) -> forall cs k, (k + length cs <= d)%nat -> all_finite cs ->
    Rabs (B2R v) ^ (k + 1) * poly (abs_values cs) (Rabs (B2R v)) <= bpow radix2 (emax - 4) -> real_sum (abs_values cs) <= bpow radix2 (emax - 4) ->
    let W := Rabs (B2R v) ^ (k + 1) * poly (abs_values cs) (Rabs (B2R v)) in let small := ((2 * INR d + 1) * real_sum (abs_values cs) + INR (length cs)) * eta in
    all_finite (terms cs v (power v k)) /\ length (terms cs v (power v k)) = length cs /\
    Rabs (total (terms cs v (power v k)) - B2R v ^ (k + 1) * poly (values cs) (B2R v)) <= (2 * INR d + 2) * u * W + small /\
    weight (terms cs v (power v k)) <= (1 + (2 * INR d + 2) * u) * W + small.
  Proof.
    intros F D L. pose proof (u_pos prec H3) as U. pose proof (eta_pos prec emax) as E0. set (a := Rabs (B2R v)) in *. assert (A0 : 0 <= a) by apply Rabs_pos.
    assert (EU : eta <= u). { unfold DblProofs.eta, DblProofs.u. apply bpow_le. unfold emin. pose proof (He : (prec < emax)%Z). lia. }
    assert (B4 : bpow radix2 (emax - 3) = 2 * bpow radix2 (emax - 4)) by (change 2 with (bpow radix2 1); rewrite <- bpow_plus; f_equal; lia). destruct (quarter emax) as [Q Q0].
    induction cs as [|c cs IH]; intros k K FC LW LS; cbv zeta.
    - cbn [terms length abs_values values map poly real_sum fold_right INR DblProofs.total DblProofs.weight]. split; [constructor|]. split; [reflexivity|]. rewrite !Rmult_0_r, Rminus_0_r, Rabs_R0. lra.
    - inversion FC as [|? ? Fc Fr]; subst. cbn [length] in K. destruct (power_ok v d F ltac:(lra) L k ltac:(lia)) as [FP EP]. fold a in EP. cbn [abs_values values map poly] in *. fold (values cs) in *. fold (abs_values cs) in *. unfold real_sum in *. cbn [fold_right] in *. fold (real_sum (abs_values cs)) in *.
      set (S := real_sum (abs_values cs)) in *. set (C := Rabs (B2R c)) in *. set (G := poly (abs_values cs) a) in *. assert (C0 : 0 <= C) by apply Rabs_pos. assert (G0 : 0 <= G) by apply poly_abs_pos.
      assert (S0 : 0 <= S) by (apply (real_sum_nonneg Rabs (values cs)); intros; apply Rabs_pos). assert (AK : 0 <= a ^ (k + 1)) by (apply pow_le; exact A0). assert (AK1 : a ^ (Datatypes.S k + 1) = a * a ^ (k + 1)) by reflexivity.
      assert (W1 : 0 <= a ^ (k + 1) * C) by (apply Rmult_le_pos; assumption). assert (W2 : 0 <= a ^ (Datatypes.S k + 1) * G) by (rewrite AK1; apply Rmult_le_pos; [apply Rmult_le_pos|]; assumption).
      assert (WS : a ^ (k + 1) * (C + a * G) = a ^ (k + 1) * C + a ^ (Datatypes.S k + 1) * G) by (rewrite AK1; ring). rewrite WS in *.
      destruct (IH (Datatypes.S k) ltac:(lia) Fr ltac:(lra) ltac:(lra)) as (I1 & I2 & I3 & I4). cbv zeta in I3, I4. cbn [terms length DblProofs.total DblProofs.weight fold_right]. change (mul (power v k) v) with (power v (Datatypes.S k)). fold (total (terms cs v (power v (Datatypes.S k)))). fold (weight (terms cs v (power v (Datatypes.S k)))).
      set (p := power v k) in *. set (T := terms cs v (power v (Datatypes.S k))) in *. pose proof (pos_INR k) as K0. assert (KD : INR k + 1 <= INR d) by (rewrite <- S_INR; apply le_INR; lia).
      assert (KU : 2 * INR k * u <= 1) by (assert (INR k * u <= INR d * u) by (apply Rmult_le_compat_r; lra); lra).
      assert (PA : Rabs (B2R p) <= 2 * a ^ (k + 1) + 2 * INR k * eta). { eapply Rle_trans; [apply (abs_tri _ (B2R v ^ (k + 1)))|]. rewrite <- RPow_abs. fold a. assert (2 * INR k * u * a ^ (k + 1) <= 1 * a ^ (k + 1)) by (apply Rmult_le_compat_r; lra). lra. }
      assert (PC : Rabs (B2R p * B2R c) <= 2 * (a ^ (k + 1) * C) + 2 * INR k * eta * C). { rewrite Rabs_mult. fold C. assert (Rabs (B2R p) * C <= (2 * a ^ (k + 1) + 2 * INR k * eta) * C) by (apply Rmult_le_compat_r; lra). lra. }
      assert (KE : 2 * INR k * eta * C <= 1 * C). { apply Rmult_le_compat_r; [exact C0|]. assert (2 * INR k * eta <= 2 * INR k * u) by (apply Rmult_le_compat_l; lra). lra. }
      destruct (mul_ok prec emax Hp He H3 p c FP Fc) as [M FM]; [lra|]. set (t := mul p c) in *. pose proof (rnd_err prec emax Hp (B2R p * B2R c)) as E. rewrite <- M in E.
      assert (ET : Rabs (B2R t - B2R v ^ (k + 1) * B2R c) <= (2 * INR d + 2) * u * (a ^ (k + 1) * C) + ((2 * INR d + 1) * C + 1) * eta).
      { replace (B2R t - B2R v ^ (k + 1) * B2R c) with ((B2R t - B2R p * B2R c) + (B2R p - B2R v ^ (k + 1)) * B2R c) by ring. eapply Rle_trans; [apply Rabs_triang|]. rewrite (Rabs_mult (_ - _)). fold C.
        assert (X1 : Rabs (B2R p - B2R v ^ (k + 1)) * C <= 2 * INR k * (u * a ^ (k + 1) + eta) * C) by (apply Rmult_le_compat_r; lra). assert (X2 : u * Rabs (B2R p * B2R c) <= u * (2 * (a ^ (k + 1) * C) + 2 * INR k * eta * C)) by (apply Rmult_le_compat_l; lra).
        assert (X3 : 2 * INR k * u * (eta * C) <= 1 * (eta * C)) by (apply Rmult_le_compat_r; [apply Rmult_le_pos; lra|lra]). assert (X4 : INR k * (u * (a ^ (k + 1) * C)) <= INR d * (u * (a ^ (k + 1) * C))) by (apply Rmult_le_compat_r; [apply Rmult_le_pos; lra|lra]).
        assert (X5 : INR k * (eta * C) <= INR d * (eta * C)) by (apply Rmult_le_compat_r; [apply Rmult_le_pos; lra|lra]). lra. }
      split; [constructor; assumption|]. split; [f_equal; exact I2|]. change (length (c :: cs)) with (Datatypes.S (length cs)). rewrite S_INR. split.
      + replace (B2R t + total T - B2R v ^ (k + 1) * (B2R c + B2R v * poly (values cs) (B2R v))) with ((B2R t - B2R v ^ (k + 1) * B2R c) + (total T - B2R v ^ (Datatypes.S k + 1) * poly (values cs) (B2R v))) by (cbn [Nat.add pow]; ring). eapply Rle_trans; [apply Rabs_triang|]. fold S in I3. lra.
      + assert (TA : Rabs (B2R t) <= a ^ (k + 1) * C + ((2 * INR d + 2) * u * (a ^ (k + 1) * C) + ((2 * INR d + 1) * C + 1) * eta)). { eapply Rle_trans; [apply (abs_tri _ (B2R v ^ (k + 1) * B2R c))|]. rewrite Rabs_mult, <- RPow_abs. fold a C. lra. } fold S in I4. lra.
  Qed.
  Lemma poly_ok (c0 : num) cs (v : num) : is_finite c0 = true -> all_finite cs -> is_finite v = true -> few prec (c0 :: cs) -> Rabs (B2R v) ^ length cs <= bpow radix2 (emax - 3) ->
    let B := poly (abs_values (c0 :: cs)) (Rabs (B2R v)) in let K := real_sum (abs_values cs) in let d := INR (length cs) in
    B <= bpow radix2 (emax - 5) -> K <= bpow radix2 (emax - 5) ->
    let r := polynomial_eval prec emax Hp He c0 cs v in
    is_finite r = true /\ Rabs (B2R r - poly (values (c0 :: cs)) (B2R v)) <= (6 * d + 2) * u * B + (4 * d + 2) * (K + 1) * eta.
  Proof.
    intros F0 FC F N L B K d HB HK r. pose proof (u_pos prec H3) as U. pose proof (eta_pos prec emax) as E0. pose proof (few_u prec H3 _ N) as NU. change (length (c0 :: cs)) with (S (length cs)) in NU. rewrite S_INR in NU. fold d in NU. assert (D0 : 0 <= d) by apply pos_INR.
    assert (B5 : bpow radix2 (emax - 3) = 4 * bpow radix2 (emax - 5)) by (change 4 with (bpow radix2 2); rewrite <- bpow_plus; f_equal; lia). assert (B4 : bpow radix2 (emax - 4) = 2 * bpow radix2 (emax - 5)) by (change 2 with (bpow radix2 1); rewrite <- bpow_plus; f_equal; lia). pose proof (bpow_gt_0 radix2 (emax - 5)) as B0.
    pose proof (few_eta prec emax H3 _ N) as NE. change (length (c0 :: cs)) with (S (length cs)) in NE. rewrite S_INR in NE. fold d in NE.
    assert (E1 : bpow radix2 (1 - emax) <= bpow radix2 (emax - 5)) by (apply bpow_le; pose proof (He : (prec < emax)%Z); lia). assert (E2 : bpow radix2 (1 - emax) <= / 2) by (change (/ 2) with (bpow radix2 (-1)); apply bpow_le; pose proof (He : (prec < emax)%Z); lia).
    unfold abs_values in B. cbn [values map poly] in B. fold (values cs) in B. fold (abs_values cs) in B. set (a := Rabs (B2R v)) in *. set (G := poly (abs_values cs) a) in *. assert (A0 : 0 <= a) by apply Rabs_pos. assert (G0 : 0 <= G) by apply poly_abs_pos. assert (AG : 0 <= a * G) by (apply Rmult_le_pos; assumption). assert (C0 : 0 <= Rabs (B2R c0)) by apply Rabs_pos.
    assert (K0 : 0 <= K) by (apply (real_sum_nonneg Rabs (values cs)); intros; apply Rabs_pos).
    destruct (terms_ok v (length cs) F NU L cs 0 (le_n _) FC) as (T1 & T2 & T3 & T4); [fold a G; cbn [Nat.add pow]; unfold B in HB; lra|fold K; lra|]. cbv zeta in T3, T4. fold a G K d in T3, T4. cbn [Nat.add pow power] in T1, T2, T3, T4. rewrite !Rmult_1_r in T3, T4.
    set (T := terms cs v v) in *. set (D := (2 * d + 2) * u) in *. assert (D1 : 0 <= D <= 1) by (unfold D; split; [apply Rmult_le_pos; lra|lra]). set (sm := ((2 * d + 1) * K + d) * eta) in *.
    assert (DE : d * eta <= / 2 * bpow radix2 (emax - 5) /\ (2 * d + 1) * eta <= 1). { split; [|lra]. assert (bpow radix2 (1 - emax) <= / 2 * bpow radix2 (emax - 5)); [|lra]. change (/ 2) with (bpow radix2 (-1)). rewrite <- bpow_plus. apply bpow_le. pose proof (He : (prec < emax)%Z). lia. }
    assert (KE : (2 * d + 1) * eta * K <= 1 * K) by (apply Rmult_le_compat_r; lra). assert (SM : 0 <= sm <= K + / 2 * bpow radix2 (emax - 5)). { unfold sm. split; [apply Rmult_le_pos; [|lra]; assert (0 <= (2 * d + 1) * K) by (apply Rmult_le_pos; lra); lra|]. lra. }
    assert (DG : D * (a * G) <= 1 * (a * G)) by (apply Rmult_le_compat_r; lra). assert (W : Rabs (B2R c0) + weight T <= 2 * B + sm) by (unfold B; lra).
    destruct (accumulate_ok prec emax Hp He H3 T c0 F0 T1) as [R1 R2]; [unfold B in HB, W; lra|unfold few in *; rewrite T2; cbn [length] in N; lia|]. rewrite T2 in R2. fold d in R2. assert (RE : r = accumulate T c0) by (unfold r, polynomial_eval, T; apply eval_terms). rewrite <- RE in R1, R2. split; [exact R1|].
    cbn [values map poly]. fold (values cs). set (q := B2R v * poly (values cs) (B2R v)) in *. replace (B2R r - (B2R c0 + q)) with ((B2R r - (B2R c0 + total T)) + (total T - q)) by ring. eapply Rle_trans; [apply Rabs_triang|].
    assert (DU : 0 <= 2 * d * u <= 1) by (split; [apply Rmult_le_pos; lra|lra]). assert (X1 : 2 * d * u * (Rabs (B2R c0) + weight T) <= 2 * d * u * (2 * B + sm)) by (apply Rmult_le_compat_l; lra). assert (X2 : 2 * d * u * sm <= 1 * sm) by (apply Rmult_le_compat_r; lra).
    assert (X3 : D * (a * G) <= D * B) by (apply Rmult_le_compat_l; [lra|unfold B; lra]). unfold D in *. assert (2 * sm <= (4 * d + 2) * (K + 1) * eta) by (unfold sm; assert (0 <= d * eta) by (apply Rmult_le_pos; lra); lra). lra.
  Qed.
  (** with a zero argument only the first coefficient counts *)
  Lemma poly_zero (c0 : num) cs (v : num) : is_finite c0 = true -> all_finite cs -> is_finite v = true -> B2R v = 0 -> let r := polynomial_eval prec emax Hp He c0 cs v in is_finite r = true /\ B2R r = B2R c0.
  Proof.
    intros F0 FC F Z. cbv zeta. unfold polynomial_eval. rewrite eval_terms. destruct (quarter emax) as [Q Q0].
    assert (G : forall cs f r, all_finite cs -> is_finite f = true -> B2R f = 0 -> is_finite r = true -> is_finite (accumulate (terms cs v f) r) = true /\ B2R (accumulate (terms cs v f) r) = B2R r); [|apply G; assumption].
    clear cs FC c0 F0. induction cs as [|c cs IH]; intros f r FC Ff Zf Fr; [split; [exact Fr|reflexivity]|]. inversion FC as [|? ? Fc FC']; subst. cbn [terms]. change (accumulate (mul f c :: terms cs v (mul f v)) r) with (accumulate (terms cs v (mul f v)) (add r (mul f c))).
    assert (P : forall x : num, is_finite x = true -> is_finite (mul f x) = true /\ B2R (mul f x) = 0). { intros x Fx. destruct (mul_ok prec emax Hp He H3 f x Ff Fx) as [A B]; [rewrite Zf, Rmult_0_l, Rabs_R0; lra|]. split; [exact B|]. rewrite A, Zf, Rmult_0_l. apply rnd_0. }
    destruct (P c Fc) as [P1 P2]. destruct (P v F) as [P3 P4].
    assert (AD : is_finite (add r (mul f c)) = true /\ B2R (add r (mul f c)) = B2R r).
    { pose proof (Bplus_correct prec emax Hp He mode_NE r (mul f c) Fr P1) as G. rewrite P2, Rplus_0_r in G. assert (RR : round radix2 fx (round_mode mode_NE) (B2R r) = B2R r) by (apply round_generic; [apply valid_rnd_round_mode|apply num_format]). rewrite RR, Rlt_bool_true in G by apply abs_B2R_lt_emax. destruct G as (G1 & G2 & _). split; assumption. }
    destruct AD as [A1 A2]. rewrite <- A2. apply IH; assumption.
  Qed.
  (** whole numbers *)
  Lemma poly_integers (c0 : num) cs (v : num) : is_finite c0 = true -> all_finite cs -> is_finite v = true -> integers (v :: c0 :: cs) -> Rabs (B2R v) ^ length cs <= bpow radix2 (prec - 1) ->
    poly (abs_values (c0 :: cs)) (Rabs (B2R v)) <= bpow radix2 (prec - 1) -> let r := polynomial_eval prec emax Hp He c0 cs v in is_finite r = true /\ B2R r = poly (values (c0 :: cs)) (B2R v).
  Proof.
    intros F0 FC F I L B. cbv zeta. unfold polynomial_eval. rewrite eval_terms. inversion I as [|? ? [z Iv] I']; subst. inversion I' as [|? ? [z0 I0] I2]; subst. set (a := Rabs (B2R v)) in *. assert (A0 : 0 <= a) by apply Rabs_pos.
    assert (P1 : forall k, (k <= length cs)%nat -> a ^ k <= bpow radix2 (prec - 1)).
    { intros k K. destruct (Rle_lt_dec 1 a) as [G|G]; [eapply Rle_trans; [apply Rle_pow; [exact G|exact K]|exact L]|]. assert (a ^ k <= 1); [|assert (1 <= bpow radix2 (prec - 1)) by (change 1 with (bpow radix2 0); apply bpow_le; lia); lra].
      clear - A0 G. induction k as [|k IH]; cbn [pow]; [lra|]. assert (0 <= a ^ k) by (apply pow_le; exact A0). assert (a * a ^ k <= 1 * 1) by (apply Rmult_le_compat; lra). lra. }
    assert (MI : forall x y : num, is_finite x = true -> is_finite y = true -> (exists p : Z, B2R x = IZR p) -> (exists q : Z, B2R y = IZR q) -> Rabs (B2R x * B2R y) <= bpow radix2 (prec - 1) -> is_finite (mul x y) = true /\ B2R (mul x y) = B2R x * B2R y).
    { intros x y Fx Fy [p X] [q Y] LL. assert (XY : B2R x * B2R y = IZR (p * q)) by (rewrite mult_IZR; congruence). rewrite XY in *. assert (ZL : (Z.abs (p * q) <= 2 ^ (prec - 1))%Z) by (apply (int_of_real _ _ (Rle_refl _)); exact LL). destruct (mul_ok prec emax Hp He H3 x y Fx Fy) as [M FM]; [rewrite XY; apply int_limit, ZL|]. split; [exact FM|]. rewrite M, XY. apply rnd_exact, int_exact, ZL. }
    assert (G : forall ds k f, (k + length ds <= length cs)%nat -> all_finite ds -> integers ds -> is_finite f = true -> B2R f = B2R v ^ (k + 1) \/ ds = [] -> a ^ (k + 1) * poly (abs_values ds) a <= bpow radix2 (prec - 1) ->
      all_finite (terms ds v f) /\ integers (terms ds v f) /\ total (terms ds v f) = B2R v ^ (k + 1) * poly (values ds) (B2R v) /\ weight (terms ds v f) <= a ^ (k + 1) * poly (abs_values ds) a).
    { induction ds as [|c ds IH]; intros k f K Fd Id Ff Bf LL; [cbn; repeat split; try constructor; try ring; lra|]. destruct Bf as [Bf|]; [|discriminate]. inversion Fd as [|? ? Fc Fd']; subst. inversion Id as [|? ? [zc Ic] Id']; subst. cbn [length] in K. cbn [abs_values values map poly] in *. fold (values ds) in *. fold (abs_values ds) in *.
      set (C := Rabs (B2R c)) in *. set (g := poly (abs_values ds) a) in *. assert (C0 : 0 <= C) by apply Rabs_pos. assert (g0 : 0 <= g) by apply poly_abs_pos. assert (AK : 0 <= a ^ (k + 1)) by (apply pow_le; exact A0).
      assert (AK1 : a ^ (S k + 1) = a * a ^ (k + 1)) by reflexivity. assert (WS : a ^ (k + 1) * (C + a * g) = a ^ (k + 1) * C + a ^ (S k + 1) * g) by (rewrite AK1; ring). assert (W1 : 0 <= a ^ (k + 1) * C) by (apply Rmult_le_pos; assumption). assert (W2 : 0 <= a ^ (S k + 1) * g) by (rewrite AK1; apply Rmult_le_pos; [apply Rmult_le_pos|]; assumption). rewrite WS in *.
      assert (If : exists p : Z, B2R f = IZR p) by (exists (z ^ Z.of_nat (k + 1))%Z; rewrite Bf, Iv, pow_IZR; reflexivity).
      assert (FA : Rabs (B2R f) = a ^ (k + 1)) by (rewrite Bf, <- RPow_abs; reflexivity). assert (TC : Rabs (B2R f * B2R c) = a ^ (k + 1) * C) by (rewrite Rabs_mult, FA; reflexivity).
      destruct (MI f c Ff Fc If (ex_intro _ zc Ic)) as [M1 M2]; [lra|]. cbn [terms].
      assert (NX : exists f', mul f v = f' /\ (ds = [] \/ (is_finite f' = true /\ B2R f' = B2R v ^ (S k + 1)))).
      { eexists. split; [reflexivity|]. destruct ds as [|c' ds']; [left; reflexivity|right]. destruct (MI f v Ff F If (ex_intro _ z Iv)) as [N1 N2]; [rewrite Rabs_mult, FA; fold a; rewrite Rmult_comm, <- AK1; apply P1; cbn [length] in K; lia|]. split; [exact N1|]. rewrite N2, Bf. cbn [Nat.add pow]. ring. }
      destruct NX as (f' & -> & NX). assert (IHX : all_finite (terms ds v f') /\ integers (terms ds v f') /\ total (terms ds v f') = B2R v ^ (S k + 1) * poly (values ds) (B2R v) /\ weight (terms ds v f') <= a ^ (S k + 1) * g).
      { destruct NX as [->|[N1 N2]]; [cbn; repeat split; try constructor; try ring; cbn in g; unfold g in W2; exact W2 || lra|]. apply IH; [lia|exact Fd'|exact Id'|exact N1|left; exact N2|lra]. }
      destruct IHX as (X1 & X2 & X3 & X4). split; [constructor; assumption|]. split; [constructor; [destruct If as [p If]; exists (p * zc)%Z; rewrite M2, mult_IZR, If, Ic; reflexivity|exact X2]|]. cbn [DblProofs.total DblProofs.weight fold_right]. fold (total (terms ds v f')). fold (weight (terms ds v f')). rewrite X3, M2, TC, Bf. split; [cbn [Nat.add pow]; ring|lra]. }
    cbn [abs_values values map poly] in B. fold (values cs) in B. fold (abs_values cs) in B. assert (C0 : 0 <= Rabs (B2R c0)) by apply Rabs_pos. destruct (G cs 0%nat v (le_n _) FC I2 F) as (X1 & X2 & X3 & X4); [left; cbn; ring|cbn [Nat.add pow]; lra|]. cbn [Nat.add pow] in X3, X4. rewrite Rmult_1_r in X3, X4.
    destruct (accumulate_exact (terms cs v v) c0 F0 X1) as [R1 R2]; [constructor; [exists z0; exact I0|exact X2]|lra|]. split; [exact R1|]. rewrite R2, X3. reflexivity.
  Qed.
End Numbers.
