(** Waves and whole numbers in floating point. *)
From Coq Require Import List Arith Bool ZArith Reals Lra Lia SpecFloat.
From Flocq Require Import Core IEEE754.BinarySingleNaN Relative Plus_error Mult_error.
From Verif Require Import Base DblSpec DblModel DblProofs FrmSpec FrmModel FrmProofs.
Local Open Scope R_scope.

Section Waves.
  Context (prec emax : Z) (Hp : Prec_gt_0 prec) (He : Prec_lt_emax prec emax) (H3 : (3 <= prec)%Z).
  Notation num := (binary_float prec emax).
  Notation fx := (fexp prec emax).
  Notation add := (DblModel.add prec emax Hp He).
  Notation sub := (DblModel.sub prec emax Hp He).
  Notation mul := (DblModel.mul prec emax Hp He).
  Notation const := (DblModel.const prec emax Hp He).
  Notation lt := (DblModel.lt prec emax).
  Notation rnd := (DblProofs.rnd prec emax).
  Notation u := (DblProofs.u prec).
  Notation eta := (DblProofs.eta prec emax).
  Notation floor := (FrmModel.floor prec emax He).

  Lemma two_pow k : (0 <= k)%Z -> IZR (2 ^ k) = bpow radix2 k.
  Proof. exact (IZR_Zpower radix2 k). Qed.
  Lemma multiple_format m e : (emin prec emax <= e)%Z -> Rabs (IZR m * bpow radix2 e) < bpow radix2 (e + prec) -> generic_format radix2 fx (IZR m * bpow radix2 e).
  Proof.
    intros E B. apply (generic_format_FLT radix2 (emin prec emax) prec). exists (Float radix2 m e); [reflexivity| |exact E]. cbn [Fnum].
    apply lt_IZR. rewrite abs_IZR, IZR_Zpower by (unfold Prec_gt_0 in Hp; lia). rewrite Rabs_mult, (Rabs_pos_eq (bpow radix2 e)), bpow_plus, Rmult_comm in B by apply bpow_ge_0. apply Rmult_lt_reg_l in B; [exact B|apply bpow_gt_0].
  Qed.
  Lemma emin_neg : (emin prec emax <= - prec)%Z.
  Proof. pose proof (emin_small prec emax He H3). unfold emin, Prec_lt_emax in *. lia. Qed.
  Lemma half_integer_format n : (Z.abs n < 2 ^ prec)%Z -> generic_format radix2 fx (IZR n / 2).
  Proof.
    intros B. replace (IZR n / 2) with (IZR n * bpow radix2 (-1)) by (cbn; lra). apply multiple_format; [pose proof emin_neg; lia|]. rewrite Rabs_mult, (Rabs_pos_eq (bpow radix2 (-1))) by apply bpow_ge_0.
    rewrite bpow_plus, Rmult_comm. apply Rmult_lt_compat_l; [apply bpow_gt_0|]. rewrite <- abs_IZR, <- IZR_Zpower by lia. apply IZR_lt. exact B.
  Qed.
  Lemma whole_format n : (Z.abs n < 2 ^ (prec - 1))%Z -> generic_format radix2 fx (IZR n).
  Proof. intros B. replace (IZR n) with (IZR (2 * n) / 2) by (rewrite mult_IZR; lra). apply half_integer_format. replace prec with (1 + (prec - 1))%Z by ring. rewrite Z.pow_add_r by lia. lia. Qed.
  (** half a unit above 1/2 is a tie, and 1/2 is even *)
  Lemma tie : rnd (/ 2 + u / 2) = / 2.
  Proof.
    assert (U : bpow radix2 (- prec) = u) by reflexivity. destruct (u_pos prec H3) as [U1 U2].
    assert (M : (mag radix2 (/ 2 + u / 2) = 0 :> Z)%Z). { apply mag_unique. rewrite Rabs_pos_eq by lra. cbn [bpow Z.sub]. replace (bpow radix2 (0 - 1)) with (/ 2) by (cbn; lra). cbn [bpow]. lra. }
    unfold DblProofs.rnd, round, scaled_mantissa, cexp. rewrite M. assert (Fe : fx 0 = (- prec)%Z) by (unfold fexp; pose proof emin_neg; lia). rewrite Fe.
    replace ((/ 2 + u / 2) * bpow radix2 (- - prec)) with (IZR (2 ^ (prec - 1)) + / 2).
    - assert (Fl : Zfloor (IZR (2 ^ (prec - 1)) + / 2) = (2 ^ (prec - 1))%Z) by (apply Zfloor_imp; rewrite plus_IZR; lra).
      unfold Znearest. rewrite Fl. rewrite Rcompare_Eq by lra.
      replace (Z.even (2 ^ (prec - 1))) with true.
      + cbn [negb]. unfold F2R. cbn [Fnum Fexp]. rewrite two_pow by lia. rewrite <- bpow_plus. replace (prec - 1 + - prec)%Z with (-1)%Z by ring. cbn. lra.
      + symmetry. replace (prec - 1)%Z with (Z.succ (prec - 2)) by ring. rewrite Z.pow_succ_r by lia. rewrite Z.even_mul. reflexivity.
    - rewrite two_pow by lia. rewrite <- U. rewrite Rmult_plus_distr_r. unfold Rdiv. rewrite (Rmult_comm (bpow radix2 (- prec))), Rmult_assoc, <- bpow_plus. replace (- prec + - - prec)%Z with 0%Z by ring.
      replace (- - prec)%Z with (1 + (prec - 1))%Z by ring. rewrite bpow_plus. change (bpow radix2 1) with 2. change (bpow radix2 0) with 1. lra.
  Qed.

  (** rounding the sum up to the next whole number: only just below one half *)
  Lemma floor_sum (h : num) n : Rabs (B2R h) <= bpow radix2 (prec - 2) - 1 -> IZR n <= B2R h + / 2 < IZR n + 1 ->
    Zfloor (rnd (B2R h + / 2)) = n \/ (n = 0%Z /\ Zfloor (rnd (B2R h + / 2)) = 1%Z /\ / 2 - u / 2 <= B2R h < / 2).
  Proof.
    intros B N. set (z := B2R h + / 2) in *. assert (Two : bpow radix2 (prec - 2) = IZR (2 ^ (prec - 2))) by (rewrite two_pow by lia; reflexivity).
    assert (NB : (Z.abs n < 2 ^ (prec - 2))%Z). { apply Rabs_le_inv in B. rewrite Two in B. apply Z.abs_lt. split; apply lt_IZR; rewrite ?opp_IZR; unfold z in N; lra. }
    assert (P1 : (2 ^ prec = 4 * 2 ^ (prec - 2))%Z) by (replace prec with (2 + (prec - 2))%Z at 1 by ring; rewrite Z.pow_add_r by lia; reflexivity).
    assert (P2 : (2 ^ (prec - 1) = 2 * 2 ^ (prec - 2))%Z) by (replace (prec - 1)%Z with (1 + (prec - 2))%Z at 1 by ring; rewrite Z.pow_add_r by lia; reflexivity).
    assert (L1 : IZR n <= rnd z) by (apply rnd_lb; [exact Hp|apply whole_format; lia|apply N]).
    assert (L2 : rnd z <= IZR n + 1) by (apply rnd_ub; [exact Hp|rewrite <- (plus_IZR n 1); apply whole_format; lia|lra]).
    destruct (Rle_lt_or_eq_dec _ _ L2) as [L3|L3]; [left; apply Zfloor_imp; rewrite plus_IZR; lra|]. 
    assert (F : ~ generic_format radix2 fx z) by (intros G; rewrite (rnd_exact prec emax z G) in L3; lra).
    assert (Low : IZR n <= B2R h).
    { destruct (Rle_lt_dec (IZR n) (B2R h)) as [|K]; [assumption|]. exfalso. assert (rnd z <= IZR (2 * n + 1) / 2) by (apply rnd_ub; [exact Hp|apply half_integer_format; lia|rewrite plus_IZR, mult_IZR; unfold z; lra]). rewrite plus_IZR, mult_IZR in H. lra. }
    pose proof (num_format prec emax h) as Fh. apply (FLT_format_generic radix2 (emin prec emax) prec) in Fh. destruct Fh as [[m e] Vh Mh Eh]. cbn [Fnum Fexp] in *. unfold F2R in Vh. cbn [Fnum Fexp] in Vh.
    destruct (Z.le_gt_cases 0 e) as [E0|E0].
    { exfalso. assert (W : B2R h = IZR (m * 2 ^ e)) by (rewrite Vh, mult_IZR; rewrite two_pow by lia; reflexivity).
      apply F. unfold z. replace (B2R h + / 2) with (IZR (2 * (m * 2 ^ e) + 1) / 2) by (rewrite plus_IZR, mult_IZR, W; lra). apply half_integer_format.
      assert ((m * 2 ^ e)%Z = n) by (assert (n <= m * 2 ^ e < n + 1)%Z; [|lia]; split; [apply le_IZR; lra|apply lt_IZR; rewrite plus_IZR; unfold z in N; lra]). lia. }
    assert (Vz : z = IZR (m + 2 ^ (- 1 - e)) * bpow radix2 e).
    { unfold z. rewrite Vh, plus_IZR. rewrite two_pow by lia. rewrite Rmult_plus_distr_r, <- bpow_plus. f_equal. replace (- 1 - e + e)%Z with (-1)%Z by ring. cbn. lra. }
    assert (Bm : Rabs (B2R h) < bpow radix2 (e + prec)).
    { rewrite Vh, Rabs_mult, (Rabs_pos_eq (bpow radix2 e)), bpow_plus, Rmult_comm by apply bpow_ge_0. apply Rmult_lt_compat_l; [apply bpow_gt_0|]. rewrite <- abs_IZR, <- IZR_Zpower by lia. apply IZR_lt. exact Mh. }
    destruct (Z.lt_trichotomy n 0) as [S1|[S1|S1]].
    - exfalso. apply F. rewrite Vz. apply multiple_format; [exact Eh|]. rewrite <- Vz. eapply Rle_lt_trans; [|exact Bm]. assert (IZR n <= -1) by (apply IZR_le; lia). unfold z in *. rewrite !Rabs_left1 by lra. lra.
    - right. subst n. split; [reflexivity|]. rewrite L3. split; [rewrite Rplus_0_l; apply (Zfloor_IZR 1)|]. split; [|unfold z in N; lra].
      destruct (u_pos prec H3) as [U1 U2]. destruct (Rle_lt_dec (/ 2 - u / 2) (B2R h)) as [|K]; [assumption|]. exfalso.
      assert (G : generic_format radix2 fx (1 - u)).
      { replace (1 - u) with (IZR (2 ^ prec - 1) * bpow radix2 (- prec)). - apply multiple_format; [apply emin_neg|]. replace (- prec + prec)%Z with 0%Z by ring. cbn [bpow]. rewrite minus_IZR. rewrite two_pow by lia. rewrite Rmult_minus_distr_r, <- bpow_plus. replace (prec + - prec)%Z with 0%Z by ring. cbn [bpow]. rewrite Rmult_1_l. fold u. rewrite Rabs_pos_eq by lra. lra.
        - rewrite minus_IZR. rewrite two_pow by lia. rewrite Rmult_minus_distr_r, <- bpow_plus. replace (prec + - prec)%Z with 0%Z by ring. cbn [bpow]. rewrite Rmult_1_l. reflexivity. }
      destruct (Rle_lt_dec z (1 - u)) as [K2|K2]; [pose proof (rnd_ub prec emax Hp z _ G K2); lra|].
      pose proof (round_N_pt radix2 fx (fun x => negb (Z.even x)) z) as [_ Near]. specialize (Near (1 - u) G). fold (rnd z) in Near. rewrite L3 in Near. rewrite Rplus_0_l in Near. unfold z in *. rewrite (Rabs_pos_eq (1 - _)), Rabs_left1 in Near by lra. lra.
    - exfalso. apply F. rewrite Vz. apply multiple_format; [exact Eh|]. rewrite <- Vz. assert (I1 : 1 <= IZR n) by (apply IZR_le; lia). rewrite Rabs_pos_eq by (unfold z; lra). rewrite Rabs_pos_eq in Bm by lra.
      assert (Pe : (0 <= e + prec)%Z). { destruct (Z.le_gt_cases 0 (e + prec)) as [|K]; [assumption|]. exfalso. assert (bpow radix2 (e + prec) <= 1) by (change 1 with (bpow radix2 0); apply bpow_le; lia). lra. }
      assert (I2 : (n + 1 <= 2 ^ (e + prec))%Z). { assert (n < 2 ^ (e + prec))%Z; [|lia]. apply lt_IZR. rewrite two_pow by lia. lra. }
      apply IZR_le in I2. rewrite plus_IZR in I2. rewrite two_pow in I2 by lia. lra.
  Qed.

  Lemma halved (v : num) : ordinary v -> B2R v = 0 \/ bpow radix2 (3 - emax) <= Rabs (B2R v) -> B2R (mul (const 1 (-1)) v) = B2R v / 2 /\ is_finite (mul (const 1 (-1)) v) = true.
  Proof.
    intros [F O] N. destruct (const_half prec emax Hp He H3) as [C1 C2]. destruct (quarter emax) as [Q1 Q2]. destruct (mul_ok prec emax Hp He H3 (const 1 (-1)) v C2 F) as [M G]; [rewrite C1, Rabs_mult, (Rabs_pos_eq (/ 2)) by lra; pose proof (Rabs_pos (B2R v)); lra|].
    split; [|exact G]. rewrite M, C1. replace (/ 2 * B2R v) with (B2R v * bpow radix2 (-1)) by (cbn; lra). rewrite rnd_exact; [cbn; lra|]. destruct N as [N|N]; [rewrite N, Rmult_0_l; apply generic_format_0|].
    apply (mult_bpow_exact_FLT radix2 (emin prec emax) prec); [apply num_format|]. assert (3 - emax + 1 <= mag radix2 (B2R v))%Z by (apply mag_ge_bpow; replace (3 - emax + 1 - 1)%Z with (3 - emax)%Z by ring; exact N). unfold emin. lia.
  Qed.
  Lemma wave_ok (v : num) : is_finite v = true -> (prec <= emax - 2)%Z -> Rabs (B2R v) <= bpow radix2 (prec - 1) - 2 -> B2R v = 0 \/ bpow radix2 (3 - emax) <= Rabs (B2R v) ->
    let t := triangle_wave prec emax Hp He v in
    is_finite t = true /\ 0 <= B2R t <= 1 /\ exists k : Z, Rabs (B2R v - 2 * IZR k) <= 1 /\ Rabs (B2R t - Rabs (B2R v - 2 * IZR k)) <= u.
  Proof.
    intros F PE B N. cbv zeta. unfold triangle_wave. assert (O : ordinary v). { split; [exact F|]. assert (bpow radix2 (prec - 1) <= bpow radix2 (emax - 3)) by (apply bpow_le; lia). lra. }
    destruct (halved v O N) as [Vh Fh]. set (h := mul (const 1 (-1)) v) in *. destruct (const_half prec emax Hp He H3) as [C1 C2]. destruct (const_2 prec emax Hp He H3) as [D1 D2]. pose proof (limit_big prec emax He H3) as LB. destruct (u_pos prec H3) as [U1 U2].
    assert (Bh : Rabs (B2R h) <= bpow radix2 (prec - 2) - 1). { rewrite Vh. unfold Rdiv. rewrite Rabs_mult, (Rabs_pos_eq (/ 2)) by lra. replace (prec - 1)%Z with (1 + (prec - 2))%Z in B by ring. rewrite bpow_plus in B. change (bpow radix2 1) with 2 in B. lra. }
    assert (P2 : bpow radix2 (prec - 2) <= bpow radix2 (emax - 3)) by (apply bpow_le; lia). destruct (quarter emax) as [Q1 Q2].
    destruct (add_ok prec emax Hp He H3 h (const 1 (-1)) Fh C2) as [S1 G1]; [rewrite C1; eapply Rle_trans; [apply Rabs_triang|]; rewrite (Rabs_pos_eq (/ 2)) by lra; lra|]. rewrite C1 in S1.
    destruct (floor_ok prec emax Hp He (add h (const 1 (-1))) G1) as [V2 G2] || destruct (floor_ok prec emax He (add h (const 1 (-1))) G1) as [V2 G2]. rewrite S1 in V2. set (f := floor (add h (const 1 (-1)))) in *.
    set (n := Zfloor (B2R h + / 2)). assert (Nb : IZR n <= B2R h + / 2 < IZR n + 1) by (split; [apply Zfloor_lb|apply Zfloor_ub]).
    assert (Key : Rabs (B2R h - B2R f) <= 1 /\ Rabs (rnd (B2R h - B2R f)) <= / 2 /\ Rabs (2 * Rabs (rnd (B2R h - B2R f)) - 2 * Rabs (B2R h - IZR n)) <= u).
    { assert (Hf : generic_format radix2 fx (/ 2)) by (rewrite <- C1; apply num_format). destruct (floor_sum h n Bh Nb) as [E|(E0 & E1 & E2)].
      - rewrite E in V2. rewrite V2. assert (A : Rabs (B2R h - IZR n) <= / 2) by (apply Rabs_le; lra). split; [lra|]. split; [apply rnd_abs; assumption|]. rewrite <- V2 in *. pose proof (diff_err prec emax Hp H3 h f) as R.
        rewrite <- Rmult_minus_distr_l, Rabs_mult, (Rabs_pos_eq 2) by lra. pose proof (Rabs_triang_inv2 (rnd (B2R h - B2R f)) (B2R h - B2R f)) as T. assert (u * Rabs (B2R h - B2R f) <= u * / 2) by (apply Rmult_le_compat_l; lra). lra.
      - rewrite E1 in V2. rewrite V2, E0. assert (A : rnd (B2R h - 1) = - / 2).
        { replace (B2R h - 1) with (- (1 - B2R h)) by ring. rewrite rnd_opp. f_equal. apply Rle_antisym; [rewrite <- tie; apply rnd_le; [exact Hp|lra]|apply rnd_lb; [exact Hp|exact Hf|lra]]. }
        rewrite A, Rabs_Ropp, (Rabs_pos_eq (/ 2)) by lra. split; [apply Rabs_le; lra|]. split; [lra|]. rewrite Rminus_0_r, (Rabs_pos_eq (B2R h)) by lra. rewrite Rabs_pos_eq by lra. lra. }
    destruct Key as (K1 & K2 & K3). destruct (sub_ok prec emax Hp He H3 h f Fh G2 ltac:(lra)) as [S3 G3]. assert (G4 : is_finite (Babs (sub h f)) = true) by (rewrite is_finite_Babs; exact G3).
    destruct (mul_ok prec emax Hp He H3 (const 2 0) (Babs (sub h f)) D2 G4) as [M G]; rewrite B2R_Babs, S3, D1 in *; [rewrite Rabs_mult, Rabs_Rabsolu, (Rabs_pos_eq 2) by lra; lra|]. split; [exact G|].
    assert (V : B2R (mul (const 2 0) (Babs (sub h f))) = 2 * Rabs (rnd (B2R h - B2R f))).
    { rewrite M. apply rnd_exact. rewrite <- S3, <- B2R_Babs. apply double_format; [try exact Hp..|]. rewrite B2R_Babs, S3, Rabs_Rabsolu. assert (1 <= bpow radix2 (prec - 2)) by (change 1 with (bpow radix2 0); apply bpow_le; lia). lra. }
    rewrite V. split; [pose proof (Rabs_pos (rnd (B2R h - B2R f))); lra|]. exists n. replace (B2R v - 2 * IZR n) with (2 * (B2R h - IZR n)) by (rewrite Vh; field). rewrite Rabs_mult, (Rabs_pos_eq 2) by lra. split; [|exact K3].
    assert (Rabs (B2R h - IZR n) <= / 2) by (apply Rabs_le; lra). lra.
  Qed.

  Lemma square_ok (v : num) : is_finite v = true -> 0 <= B2R v -> exists k : Z, 2 * IZR k <= B2R v < 2 * IZR k + 2 /\
    (B2R v < 2 * IZR k + 1 -> square_wave prec emax Hp He v = const 1 0) /\ (2 * IZR k + 1 <= B2R v -> square_wave prec emax Hp He v = const 0 0).
  Proof.
    intros F P. destruct (const_2 prec emax Hp He H3) as [D1 D2]. destruct (const_1 prec emax Hp He H3) as [C1 C2]. destruct (fmod_ok prec emax Hp He H3 v (const 2 0) F D2) as (n & M & G & A & A2 & B & _); [rewrite D1; lra|].
    rewrite D1 in M, A. rewrite (Rabs_pos_eq 2) in A by lra. apply Rabs_def2 in A. exists n. assert (Mp : 0 <= B2R (fmod prec emax Hp He v (const 2 0))).
    { destruct (Rle_lt_or_eq_dec _ _ P) as [L|L].
      - destruct (Rle_lt_dec 0 (B2R (fmod prec emax Hp He v (const 2 0)))) as [|W]; [assumption|]. assert (0 < B2R v * - B2R (fmod prec emax Hp He v (const 2 0))) by (apply Rmult_lt_0_compat; lra). lra.
      - rewrite <- L, Rabs_R0 in A2. unfold Rabs in A2. destruct (Rcase_abs _); lra. }
    split; [lra|]. unfold square_wave. rewrite lt_finite, C1 by assumption. split; intros K; [rewrite Rlt_bool_true by lra|rewrite Rlt_bool_false by lra]; reflexivity.
  Qed.
  Lemma whole_ok (v : num) : is_finite v = true -> (is_whole prec emax He v = true <-> exists k : Z, B2R v = IZR k).
  Proof.
    intros F. unfold is_whole. destruct (Bnearbyint_correct prec emax He mode_DN v) as (A & B & _). rewrite Beqb_correct by (unfold FrmModel.floor; rewrite ?B; exact F). unfold FrmModel.floor. rewrite A, fix_round. cbn [round_mode].
    destruct (Req_bool_spec (IZR (Zfloor (B2R v))) (B2R v)) as [E|E]; split; intros K; try discriminate K; try reflexivity; [exists (Zfloor (B2R v)); symmetry; exact E|]. destruct K as [k K]. exfalso. apply E. rewrite K, Zfloor_IZR. reflexivity.
  Qed.
End Waves.
