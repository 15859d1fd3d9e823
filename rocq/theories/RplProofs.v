(** Lemmas about regular samples in floating point. *)
From Coq Require Import List Arith Bool ZArith Reals Lra Lia.
From Flocq Require Import Core IEEE754.BinarySingleNaN.
From Verif Require Import Base BaseProofs DblSpec DblModel DblProofs FrmModel FrmProofs RplSpec RplModel.
Import ListNotations.
Local Open Scope R_scope.

Section Samples.
  Context (prec emax : Z) (Hp : Prec_gt_0 prec) (He : Prec_lt_emax prec emax) (H3 : (3 <= prec)%Z) (H40 : (50 <= emax)%Z).
  Notation num := (binary_float prec emax).
  Notation add := (DblModel.add prec emax Hp He).
  Notation sub := (DblModel.sub prec emax Hp He).
  Notation mul := (DblModel.mul prec emax Hp He).
  Notation div := (DblModel.div prec emax Hp He).
  Notation const := (DblModel.const prec emax Hp He).
  Notation rnd := (DblProofs.rnd prec emax).
  Notation u := (DblProofs.u prec).
  Notation eta := (DblProofs.eta prec emax).
  Notation lim := (limit emax).
  Notation fx := (SpecFloat.fexp prec emax).

  Lemma const_int k : (0 <= k <= 2 ^ (prec - 1))%Z -> B2R (const k 0) = IZR k /\ is_finite (const k 0) = true.
  Proof.
    intros K. assert (E : F2R (Defs.Float radix2 k 0) = IZR k) by (unfold F2R; cbn; ring). destruct (const_ok prec emax Hp He H3 k 0) as [A B]; rewrite ?E in *; [|apply (integer_format prec emax He H3); exact K|split; assumption].
    rewrite Rabs_pos_eq by (apply IZR_le; lia). unfold limit. apply Rle_trans with (IZR (2 ^ (prec - 1))); [apply IZR_le; lia|]. change 2%Z with (radix_val radix2). rewrite IZR_Zpower by lia. apply bpow_le. pose proof He as H. unfold Prec_lt_emax in H. lia.
  Qed.
  Lemma lim_pow e : (e <= emax - 1)%Z -> bpow radix2 e <= lim. Proof. intros H. apply bpow_le. exact H. Qed.
  Lemma pow_pos e : 0 < bpow radix2 e. Proof. apply bpow_gt_0. Qed.
  Lemma abs_in x a : Rabs x <= a -> - a <= x <= a.
  Proof. intros H. unfold Rabs in H. destruct (Rcase_abs x); lra. Qed.
  Lemma in_abs x a : - a <= x <= a -> Rabs x <= a.
  Proof. intros H. apply Rabs_le. exact H. Qed.

  (** a weighted sum as the code computes it, for any weight *)
  Definition blend (w a b : num) : num := add (mul (sub (const 1 0) w) a) (mul w b).
  Definition tame (a : num) : Prop := is_finite a = true /\ Rabs (B2R a) <= bpow radix2 (emax - 40).
  Lemma big : bpow radix2 33 <= bpow radix2 (emax - 10) /\ bpow radix2 34 * bpow radix2 (emax - 40) = bpow radix2 (emax - 6) /\ 4 * bpow radix2 (emax - 6) <= lim /\ 8 * bpow radix2 (emax - 10) <= lim.
  Proof.
    split; [apply bpow_le; lia|]. split; [rewrite <- bpow_plus; f_equal; lia|]. split.
    - change 4 with (bpow radix2 2). rewrite <- bpow_plus. apply lim_pow. lia.
    - change 8 with (bpow radix2 3). rewrite <- bpow_plus. apply lim_pow. lia.
  Qed.
  Lemma pow33 : bpow radix2 33 = 8589934592 /\ bpow radix2 34 = 17179869184 /\ bpow radix2 31 = 2147483648. Proof. split; [|split]; cbn; lra. Qed.
  Lemma blend_ok (t a b : num) k : is_finite t = true -> Rabs (B2R t) <= bpow radix2 31 -> (0 <= k <= 2 ^ (prec - 1))%Z -> (k < 2 ^ 31)%Z -> tame a -> tame b ->
    let z := B2R t - IZR k in let r := blend (sub t (const k 0)) a b in
    is_finite r = true /\ Rabs (B2R r - ((1 - z) * B2R a + z * B2R b)) <= 8 * u * (1 + Rabs z) * (Rabs (B2R a) + Rabs (B2R b)) + 3 * eta.
  Proof.
    intros Ft Bt K K31 [Fa Ba] [Fb Bb] z r. destruct big as (B1 & B2 & B3 & B4). destruct pow33 as (P33 & P34 & P31). rewrite P31 in Bt. rewrite P33 in B1. rewrite P34 in B2. destruct (const_int k K) as [Kv Kf]. pose proof (u_pos prec H3) as U. pose proof (eta_pos prec emax) as ET.
    assert (K0 : 0 <= IZR k <= 2147483648) by (split; apply IZR_le; lia). apply abs_in in Bt.
    assert (Z : Rabs z <= 4294967296) by (apply in_abs; unfold z; lra). pose proof (Rabs_pos z) as Z0. pose proof (pow_pos (emax - 40)) as PP.
    destruct (sub_ok prec emax Hp He H3 t (const k 0) Ft Kf) as [Wv Wf]; [rewrite Kv; fold z; lra|]. rewrite Kv in Wv. pose proof (diff_err prec emax Hp H3 t (const k 0)) as We. rewrite Kv, <- Wv in We. fold z in We, Wv. unfold r. set (w := sub t (const k 0)) in *.
    assert (Wb : Rabs (B2R w) <= 9 / 8 * Rabs z). { replace (B2R w) with ((B2R w - z) + z) by ring. eapply Rle_trans; [apply Rabs_triang|]. nra. }
    destruct (const_1 prec emax Hp He H3) as [Ov Of].
    assert (Ow : Rabs (1 - B2R w) <= 1 + 9 / 8 * Rabs z). { unfold Rminus. eapply Rle_trans; [apply Rabs_triang|]. rewrite Rabs_Ropp, Rabs_R1. lra. }
    destruct (sub_ok prec emax Hp He H3 (const 1 0) w Of Wf) as [Vv Vf]; [rewrite Ov; lra|]. rewrite Ov in Vv. pose proof (diff_err prec emax Hp H3 (const 1 0) w) as Ve. rewrite Ov, <- Vv in Ve. set (v := sub (const 1 0) w) in *.
    assert (Vb : Rabs (B2R v) <= 2 * (1 + Rabs z)). { replace (B2R v) with ((B2R v - (1 - B2R w)) + (1 - B2R w)) by ring. eapply Rle_trans; [apply Rabs_triang|]. pose proof (Rabs_pos (1 - B2R w)). nra. }
    pose proof (Rabs_pos (B2R a)) as A0. pose proof (Rabs_pos (B2R b)) as C0. pose proof (Rabs_pos (B2R v)) as V0. pose proof (Rabs_pos (B2R w)) as W0.
    assert (Pb : Rabs (B2R v * B2R a) <= bpow radix2 (emax - 6)). { rewrite Rabs_mult, <- B2. apply Rmult_le_compat; lra. }
    assert (Qb : Rabs (B2R w * B2R b) <= bpow radix2 (emax - 6)). { rewrite Rabs_mult, <- B2. apply Rmult_le_compat; lra. }
    pose proof (pow_pos (emax - 6)) as PQ.
    destruct (mul_ok prec emax Hp He H3 v a Vf Fa) as [Pv Pf]; [lra|]. destruct (mul_ok prec emax Hp He H3 w b Wf Fb) as [Qv Qf]; [lra|].
    assert (F6 : generic_format radix2 fx (bpow radix2 (emax - 6))). { apply (bpow_format prec emax H3). unfold SpecFloat.emin. pose proof He as H. unfold Prec_lt_emax in H. lia. }
    assert (Pb' : Rabs (B2R (mul v a)) <= bpow radix2 (emax - 6)) by (rewrite Pv; apply (rnd_abs prec emax Hp); assumption). assert (Qb' : Rabs (B2R (mul w b)) <= bpow radix2 (emax - 6)) by (rewrite Qv; apply (rnd_abs prec emax Hp); assumption).
    pose proof (rnd_err prec emax Hp (B2R v * B2R a)) as Pe. rewrite <- Pv in Pe. pose proof (rnd_err prec emax Hp (B2R w * B2R b)) as Qe. rewrite <- Qv in Qe.
    destruct (add_ok prec emax Hp He H3 (mul v a) (mul w b) Pf Qf) as [Sv Sf]; [eapply Rle_trans; [apply Rabs_triang|]; lra|]. pose proof (sum_err prec emax Hp H3 (mul v a) (mul w b)) as Se. rewrite <- Sv in Se.
    split; [exact Sf|]. unfold blend. fold v. set (s := B2R (add (mul v a) (mul w b))) in *. set (p := B2R (mul v a)) in *. set (q := B2R (mul w b)) in *. rewrite Rabs_mult in Pe, Qe. set (da := Rabs (B2R a)) in *. set (db := Rabs (B2R b)) in *. set (W := 1 + Rabs z) in *.
    (* products *)
    assert (E1 : Rabs (p - (1 - z) * B2R a) <= 5 * u * (W * da) + eta).
    { replace (p - (1 - z) * B2R a) with ((p - B2R v * B2R a) + ((B2R v - (1 - B2R w)) - (B2R w - z)) * B2R a) by ring. eapply Rle_trans; [apply Rabs_triang|]. rewrite Rabs_mult. fold da.
      assert (X1 : Rabs (B2R v - (1 - B2R w) - (B2R w - z)) <= u * (3 * W)). { unfold Rminus at 1. eapply Rle_trans; [apply Rabs_triang|]. rewrite Rabs_Ropp. assert (u * Rabs (1 - B2R w) <= u * (1 + 9 / 8 * Rabs z)) by (apply Rmult_le_compat_l; lra). unfold W. assert (0 <= u * Rabs z) by (apply Rmult_le_pos; lra). lra. }
      assert (X2 : Rabs (B2R v - (1 - B2R w) - (B2R w - z)) * da <= u * (3 * W) * da) by (apply Rmult_le_compat_r; assumption).
      assert (X3 : u * (Rabs (B2R v) * da) <= u * (2 * W * da)) by (apply Rmult_le_compat_l; [lra|apply Rmult_le_compat_r; assumption]). lra. }
    assert (E2 : Rabs (q - z * B2R b) <= 3 * u * (W * db) + eta).
    { replace (q - z * B2R b) with ((q - B2R w * B2R b) + (B2R w - z) * B2R b) by ring. eapply Rle_trans; [apply Rabs_triang|]. rewrite Rabs_mult. fold db.
      assert (X1 : Rabs (B2R w - z) * db <= u * Rabs z * db) by (apply Rmult_le_compat_r; assumption). assert (X2 : u * (Rabs (B2R w) * db) <= u * (9 / 8 * Rabs z * db)) by (apply Rmult_le_compat_l; [lra|apply Rmult_le_compat_r; assumption]).
      assert (X3 : u * (Rabs z * db) <= u * (W * db)) by (apply Rmult_le_compat_l; [lra|apply Rmult_le_compat_r; unfold W; lra]). assert (0 <= u * (W * db)) by (apply Rmult_le_pos; [lra|apply Rmult_le_pos; unfold W; lra]). lra. }
    assert (E3 : Rabs (p + q) <= 3 * (W * (da + db)) + 2 * eta).
    { eapply Rle_trans; [apply Rabs_triang|]. assert (Y1 : Rabs p <= Rabs (B2R v) * da + (u * (Rabs (B2R v) * da) + eta)). { replace p with (B2R v * B2R a + (p - B2R v * B2R a)) at 1 by ring. eapply Rle_trans; [apply Rabs_triang|]. rewrite Rabs_mult. fold da. lra. }
      assert (Y2 : Rabs q <= Rabs (B2R w) * db + (u * (Rabs (B2R w) * db) + eta)). { replace q with (B2R w * B2R b + (q - B2R w * B2R b)) at 1 by ring. eapply Rle_trans; [apply Rabs_triang|]. rewrite Rabs_mult. fold db. lra. }
      assert (Y3 : Rabs (B2R v) * da <= 2 * W * da) by (apply Rmult_le_compat_r; assumption). assert (Y4 : Rabs (B2R w) * db <= 9 / 8 * W * db) by (apply Rmult_le_compat_r; [assumption|unfold W; lra]).
      assert (0 <= Rabs (B2R v) * da) by (apply Rmult_le_pos; assumption). assert (0 <= Rabs (B2R w) * db) by (apply Rmult_le_pos; assumption).
      assert (Y5 : u * (Rabs (B2R v) * da) <= / 8 * (Rabs (B2R v) * da)) by (apply Rmult_le_compat_r; lra). assert (Y6 : u * (Rabs (B2R w) * db) <= / 8 * (Rabs (B2R w) * db)) by (apply Rmult_le_compat_r; lra).
      assert (0 <= W * da) by (apply Rmult_le_pos; unfold W; lra). assert (0 <= W * db) by (apply Rmult_le_pos; unfold W; lra). lra. }
    assert (E4 : u * Rabs (p + q) <= 3 * u * (W * (da + db)) + / 4 * eta). { assert (u * Rabs (p + q) <= u * (3 * (W * (da + db)) + 2 * eta)) by (apply Rmult_le_compat_l; lra). assert (u * eta <= / 8 * eta) by (apply Rmult_le_compat_r; lra). lra. }
    replace (s - ((1 - z) * B2R a + z * B2R b)) with ((s - (p + q)) + ((p - (1 - z) * B2R a) + (q - z * B2R b))) by ring. eapply Rle_trans; [apply Rabs_triang|]. eapply Rle_trans; [apply Rplus_le_compat_l, Rabs_triang|].
    assert (0 <= u * (W * db)) by (apply Rmult_le_pos; [lra|apply Rmult_le_pos; unfold W; lra]). lra.
  Qed.
  Lemma blend_knot (t a b : num) k : is_finite t = true -> (0 <= k <= 2 ^ (prec - 1))%Z -> is_finite a = true -> is_finite b = true -> Rabs (B2R a) <= lim -> Rabs (B2R b) <= lim ->
    (B2R t = IZR k -> B2R (blend (sub t (const k 0)) a b) = B2R a) /\ (B2R t = IZR k + 1 -> B2R (blend (sub t (const k 0)) a b) = B2R b).
  Proof.
    intros Ft K Fa Fb La Lb. destruct (const_int k K) as [Kv Kf]. destruct (const_1 prec emax Hp He H3) as [Ov Of]. pose proof (DblProofs.limit_big prec emax He H3) as L4. pose proof (rnd_0 prec emax) as R0.
    assert (R1 : rnd 1 = 1) by (apply rnd_exact; change 1 with (IZR 1); apply (integer_format prec emax He H3); split; [lia|]; apply (Z.pow_le_mono_r 2 0); lia).
    assert (RA : rnd (B2R a) = B2R a) by (apply rnd_exact, num_format). assert (RB : rnd (B2R b) = B2R b) by (apply rnd_exact, num_format).
    split; intros T; unfold blend.
    - destruct (sub_ok prec emax Hp He H3 t (const k 0) Ft Kf) as [Wv Wf]; [rewrite Kv, T; replace (IZR k - IZR k) with 0 by ring; rewrite Rabs_R0; lra|]. rewrite Kv, T in Wv. replace (IZR k - IZR k) with 0 in Wv by ring. rewrite R0 in Wv. set (w := sub t (const k 0)) in *.
      destruct (sub_ok prec emax Hp He H3 (const 1 0) w Of Wf) as [Vv Vf]; [rewrite Ov, Wv, Rminus_0_r, Rabs_R1; lra|]. rewrite Ov, Wv, Rminus_0_r, R1 in Vv. set (v := sub (const 1 0) w) in *.
      destruct (mul_ok prec emax Hp He H3 v a Vf Fa) as [Pv Pf]; [rewrite Vv, Rmult_1_l; lra|]. rewrite Vv, Rmult_1_l, RA in Pv. destruct (mul_ok prec emax Hp He H3 w b Wf Fb) as [Qv Qf]; [rewrite Wv, Rmult_0_l, Rabs_R0; lra|]. rewrite Wv, Rmult_0_l, R0 in Qv.
      destruct (add_ok prec emax Hp He H3 (mul v a) (mul w b) Pf Qf) as [Sv _]; [rewrite Pv, Qv, Rplus_0_r; lra|]. rewrite Sv, Pv, Qv, Rplus_0_r. exact RA.
    - destruct (sub_ok prec emax Hp He H3 t (const k 0) Ft Kf) as [Wv Wf]; [rewrite Kv, T; replace (IZR k + 1 - IZR k) with 1 by ring; rewrite Rabs_R1; lra|]. rewrite Kv, T in Wv. replace (IZR k + 1 - IZR k) with 1 in Wv by ring. rewrite R1 in Wv. set (w := sub t (const k 0)) in *.
      destruct (sub_ok prec emax Hp He H3 (const 1 0) w Of Wf) as [Vv Vf]; [rewrite Ov, Wv; replace (1 - 1) with 0 by ring; rewrite Rabs_R0; lra|]. rewrite Ov, Wv in Vv. replace (1 - 1) with 0 in Vv by ring. rewrite R0 in Vv. set (v := sub (const 1 0) w) in *.
      destruct (mul_ok prec emax Hp He H3 v a Vf Fa) as [Pv Pf]; [rewrite Vv, Rmult_0_l, Rabs_R0; lra|]. rewrite Vv, Rmult_0_l, R0 in Pv. destruct (mul_ok prec emax Hp He H3 w b Wf Fb) as [Qv Qf]; [rewrite Wv, Rmult_1_l; lra|]. rewrite Wv, Rmult_1_l, RB in Qv.
      destruct (add_ok prec emax Hp He H3 (mul v a) (mul w b) Pf Qf) as [Sv _]; [rewrite Pv, Qv, Rplus_0_l; lra|]. rewrite Sv, Pv, Qv, Rplus_0_l. exact RB.
  Qed.
  Notation small := (DblProofs.small prec emax).
  Notation position := (RplModel.position prec emax Hp He).
  Notation evaluate := (RplModel.evaluate prec emax Hp He).
  Lemma eta_1 : eta <= / 16.
  Proof. unfold DblProofs.eta. change (/ 16) with (bpow radix2 (-4)). apply bpow_le. unfold SpecFloat.emin. lia. Qed.
  Lemma lim_40 : bpow radix2 40 <= lim. Proof. apply lim_pow. lia. Qed.
  (** the position and its two roundings *)
  Lemma position_err f x M : small x -> small (x_base _ _ f) -> 0 < B2R (x_step _ _ f) -> 0 <= M <= bpow radix2 38 -> let q := (B2R x - B2R (x_base _ _ f)) / B2R (x_step _ _ f) in Rabs q <= M ->
    is_finite (position f x) = true /\ Rabs (B2R (position f x) - q) <= (2 * u + u * u) * Rabs q + eta.
  Proof.
    intros X B S M38 q Q. destruct (small_sub prec emax Hp He H3 x _ X B) as [Dv Df]. pose proof (diff_err prec emax Hp H3 x (x_base _ _ f)) as De. rewrite <- Dv in De. unfold RplModel.position. set (d := sub x (x_base _ _ f)) in *. set (s := B2R (x_step _ _ f)) in *. set (e := B2R x - B2R (x_base _ _ f)) in *.
    pose proof (u_pos prec H3) as U. pose proof (eta_pos prec emax) as ET. pose proof (Rabs_pos q) as Q0. assert (S' : 0 < / s) by (apply Rinv_0_lt_compat; exact S).
    assert (E1 : Rabs (B2R d / s - q) <= u * Rabs q). { unfold q. replace (B2R d / s - e / s) with ((B2R d - e) * / s) by (unfold Rdiv; ring). rewrite Rabs_mult, (Rabs_pos_eq (/ s)) by lra. unfold Rdiv. rewrite (Rabs_mult e), (Rabs_pos_eq (/ s)) by lra. rewrite <- Rmult_assoc. apply Rmult_le_compat_r; lra. }
    assert (E2 : Rabs (B2R d / s) <= Rabs q + u * Rabs q). { replace (B2R d / s) with (q + (B2R d / s - q)) by ring. eapply Rle_trans; [apply Rabs_triang|]. lra. }
    assert (UQ : u * Rabs q <= / 8 * Rabs q) by (apply Rmult_le_compat_r; lra). assert (M40 : bpow radix2 40 = 4 * bpow radix2 38) by (change 4 with (bpow radix2 2); rewrite <- bpow_plus; reflexivity). pose proof lim_40 as L40. pose proof (pow_pos 38) as P38.
    destruct (div_ok prec emax Hp He H3 d (x_step _ _ f) Df) as [Tv Tf]; [fold s; lra|fold s; lra|]. fold s in Tv. split; [exact Tf|]. pose proof (rnd_err prec emax Hp (B2R d / s)) as Te. rewrite <- Tv in Te. fold s.
    replace (B2R (div d (x_step prec emax f)) - q) with ((B2R (div d (x_step prec emax f)) - B2R d / s) + (B2R d / s - q)) by ring. eapply Rle_trans; [apply Rabs_triang|]. assert (u * Rabs (B2R d / s) <= u * (Rabs q + u * Rabs q)) by (apply Rmult_le_compat_l; lra). lra.
  Qed.
  Lemma near_range t q : Rabs (t - q) <= (2 * u + u * u) * Rabs q + eta -> q - (17 / 64 * Rabs q + / 16) <= t <= q + (17 / 64 * Rabs q + / 16).
  Proof.
    intros H. pose proof (u_pos prec H3) as U. pose proof eta_1 as E1. pose proof (Rabs_pos q) as Q0. assert (V : 2 * u + u * u <= 17 / 64) by nra. assert ((2 * u + u * u) * Rabs q <= 17 / 64 * Rabs q) by (apply Rmult_le_compat_r; assumption). apply Rabs_le_inv in H. lra.
  Qed.
  Lemma index_max i n : (2 <= n)%Z -> (if (i <? 0)%Z then 0 else if (n - 2 <? i)%Z then n - 2 else i)%Z = Z.max 0 (Z.min i (n - 2)).
  Proof. intros N. destruct (Z.ltb_spec i 0); destruct (Z.ltb_spec (n - 2) i); lia. Qed.
  Lemma get_some {A} (l : list A) k a : nth_error l k = Some a -> vec_get l k = Ok a. Proof. intros H. unfold vec_get. rewrite H. reflexivity. Qed.
  Lemma evaluate_unfold f x t : t = position f x -> is_finite t = true -> (2 <= length (samples _ _ f))%nat -> (- 2147483648 <= B2R t < 2147483648) ->
    let k := left_sample (length (samples _ _ f)) (B2R t) in exists a b, nth_error (samples _ _ f) k = Some a /\ nth_error (samples _ _ f) (S k) = Some b /\ (S k < length (samples _ _ f))%nat /\
    evaluate f x = Ok (blend (sub t (const (Z.of_nat k) 0)) a b).
  Proof.
    intros E F N T k. destruct (FrmProofs.floor_ok prec emax He t F) as [Fv Ff]. set (n := length (samples _ _ f)) in *.
    assert (K : Z.max 0 (Z.min (Zfloor (B2R t)) (Z.of_nat n - 2)) = Z.of_nat k) by (unfold k, left_sample; rewrite Z2Nat.id; lia). assert (K2 : (S k < n)%nat) by lia.
    destruct (nth_error (samples _ _ f) k) as [a|] eqn:A; [|apply nth_error_None in A; fold n in A; lia]. destruct (nth_error (samples _ _ f) (S k)) as [b|] eqn:B; [|apply nth_error_None in B; fold n in B; lia]. exists a, b. split; [reflexivity|]. split; [reflexivity|]. split; [exact K2|].
    unfold RplModel.evaluate. rewrite <- E. rewrite (FrmProofs.cast_ok prec emax He _ _ _ (Zfloor (B2R t))); [|exact Ff|exact Fv|].
    - cbn [obind]. fold n. rewrite index_max by lia. rewrite K, Nat2Z.id, Nat.add_1_r. rewrite (get_some _ _ _ A), (get_some _ _ _ B). reflexivity.
    - split; [apply Zfloor_lub; apply (Rle_trans _ (- 2147483648)); [apply IZR_le; lia|lra]|]. assert (Zfloor (B2R t) < 2 ^ 31)%Z; [|lia]. apply lt_IZR. eapply Rle_lt_trans; [apply Zfloor_lb|]. change (IZR (2 ^ 31)) with 2147483648. lra.
  Qed.
  Lemma value_ok f x : small x -> small (x_base _ _ f) -> 0 < B2R (x_step _ _ f) -> let n := length (samples _ _ f) in (2 <= n)%nat -> (Z.of_nat n <= 2 ^ 31)%Z -> (Z.of_nat n <= 2 ^ (prec - 1))%Z -> Forall tame (samples _ _ f) ->
    let q := (B2R x - B2R (x_base _ _ f)) / B2R (x_step _ _ f) in Rabs q <= bpow radix2 30 ->
    exists r t a b, let k := left_sample n t in evaluate f x = Ok r /\ is_finite r = true /\ Rabs (t - q) <= (2 * u + u * u) * Rabs q + eta /\ nth_error (samples _ _ f) k = Some a /\ nth_error (samples _ _ f) (S k) = Some b /\
      Rabs (B2R r - on_line k (B2R a) (B2R b) t) <= 8 * u * (1 + Rabs (t - INR k)) * (Rabs (B2R a) + Rabs (B2R b)) + 3 * eta.
  Proof.
    intros X B S n N N31 NP D q Q. destruct (position_err f x (bpow radix2 30) X B S) as [F E]; [split; [apply bpow_ge_0|apply bpow_le; lia]|exact Q|]. fold q in E. pose proof (near_range _ _ E) as T. assert (P30 : bpow radix2 30 = 1073741824) by (cbn; lra). rewrite P30 in Q. pose proof (Rabs_le_inv _ _ Q) as Q'. pose proof (Rabs_pos q) as Q0.
    destruct (evaluate_unfold f x (position f x) eq_refl F N ltac:(lra)) as (a & b & A & C & K & V). fold n in A, C, K, V. set (t := B2R (position f x)) in *. exists (blend (sub (position f x) (const (Z.of_nat (left_sample n t)) 0)) a b), t, a, b. set (k := left_sample n t) in *.
    split; [exact V|]. assert (TA : tame a) by (eapply Forall_forall; [exact D|eapply nth_error_In; exact A]). assert (TB : tame b) by (eapply Forall_forall; [exact D|eapply nth_error_In; exact C]).
    destruct (blend_ok (position f x) a b (Z.of_nat k) F) as [R1 R2]; [fold t; destruct pow33 as (_ & _ & ->); apply Rabs_le; lra|lia|lia|exact TA|exact TB|]. split; [exact R1|]. split; [exact E|]. split; [exact A|]. split; [exact C|]. unfold on_line. rewrite INR_IZR_INZ. fold t in R2. exact R2.
  Qed.
  Lemma floor_int k : Zfloor (IZR k) = k. Proof. apply Zfloor_IZR. Qed.
  Lemma knot_ok f x j a : small x -> small (x_base _ _ f) -> 0 < B2R (x_step _ _ f) -> let n := length (samples _ _ f) in (2 <= n)%nat -> (Z.of_nat n <= 2 ^ 31)%Z -> (Z.of_nat n <= 2 ^ (prec - 1))%Z -> Forall tame (samples _ _ f) ->
    nth_error (samples _ _ f) j = Some a -> B2R x - B2R (x_base _ _ f) = INR j * B2R (x_step _ _ f) -> generic_format radix2 fx (INR j * B2R (x_step _ _ f)) -> exists r, evaluate f x = Ok r /\ B2R r = B2R a.
  Proof.
    intros X B S n N N31 NP D A EX G. assert (J : (j < n)%nat) by (unfold n; apply nth_error_Some; congruence). assert (JZ : (0 <= Z.of_nat j <= 2 ^ (prec - 1))%Z) by lia. rewrite INR_IZR_INZ in *.
    destruct (small_sub prec emax Hp He H3 x _ X B) as [Dv Df]. rewrite EX, (rnd_exact prec emax _ G) in Dv.
    assert (QE : IZR (Z.of_nat j) * B2R (x_step _ _ f) / B2R (x_step _ _ f) = IZR (Z.of_nat j)) by (field; lra). assert (J31 : 0 <= IZR (Z.of_nat j) <= 2147483647) by (split; apply IZR_le; lia). pose proof lim_40 as L40. assert (P40 : bpow radix2 40 = 1099511627776) by (cbn; lra).
    destruct (div_ok prec emax Hp He H3 (sub x (x_base _ _ f)) (x_step _ _ f) Df) as [Tv Tf]; [lra|rewrite Dv, QE, Rabs_pos_eq; lra|]. rewrite Dv, QE, (rnd_exact prec emax) in Tv by (apply (integer_format prec emax He H3); exact JZ). change (div (sub x (x_base prec emax f)) (x_step prec emax f)) with (position f x) in Tv, Tf.
    destruct (evaluate_unfold f x (position f x) eq_refl Tf N) as (a' & b & A' & C & K & V); [lra|]. fold n in A', C, K, V. rewrite Tv in A', C, K, V. assert (KE : left_sample n (IZR (Z.of_nat j)) = Nat.min j (n - 2)) by (unfold left_sample; rewrite floor_int; lia). rewrite KE in *.
    eexists. split; [exact V|]. assert (TA : tame a') by (eapply Forall_forall; [exact D|eapply nth_error_In; exact A']). assert (TB : tame b) by (eapply Forall_forall; [exact D|eapply nth_error_In; exact C]). assert (L : bpow radix2 (emax - 40) <= lim) by (apply lim_pow; lia).
    destruct (blend_knot (position f x) a' b (Z.of_nat (Nat.min j (n - 2))) Tf) as [B1 B2]; [lia|apply TA|apply TB|eapply Rle_trans; [apply TA|exact L]|eapply Rle_trans; [apply TB|exact L]|]. destruct (Nat.le_gt_cases j (n - 2)) as [O|O].
    - rewrite Nat.min_l in * by exact O. rewrite (B1 Tv). congruence.
    - assert (j = Datatypes.S (n - 2)) by lia. subst j. rewrite Nat.min_r in * by lia. rewrite B2; [congruence|]. rewrite Tv, Nat2Z.inj_succ, <- Z.add_1_r, plus_IZR. ring.
  Qed.
  Lemma far_ok f x : small x -> small (x_base _ _ f) -> 0 < B2R (x_step _ _ f) -> bpow radix2 32 * B2R (x_step _ _ f) <= Rabs (B2R x - B2R (x_base _ _ f)) <= bpow radix2 38 * B2R (x_step _ _ f) -> evaluate f x = UB.
  Proof.
    intros X B S R. set (q := (B2R x - B2R (x_base _ _ f)) / B2R (x_step _ _ f)). assert (Q : bpow radix2 32 <= Rabs q <= bpow radix2 38).
    { unfold q, Rdiv. rewrite Rabs_mult, (Rabs_pos_eq (/ _)) by (apply Rlt_le, Rinv_0_lt_compat; exact S). split; apply (Rmult_le_reg_r (B2R (x_step _ _ f))); try exact S; rewrite Rmult_assoc, Rinv_l by lra; lra. }
    destruct (position_err f x (bpow radix2 38) X B S) as [F E]; [split; [apply bpow_ge_0|apply Rle_refl]|apply Q|]. fold q in E. pose proof (near_range _ _ E) as T. destruct Q as [Q _]. assert (P32 : bpow radix2 32 = 4294967296) by (cbn; lra). rewrite P32 in Q.
    unfold RplModel.evaluate. set (t := position f x) in *. destruct (FrmProofs.floor_ok prec emax He t F) as [Fv Ff]. rewrite (FrmProofs.cast_bad prec emax He _ _ _ _ Ff Fv); [reflexivity|]. unfold Rabs in Q, T. destruct (Rcase_abs q).
    - left. apply lt_IZR. eapply Rle_lt_trans; [apply Zfloor_lb|]. change (IZR (- 2 ^ 31)) with (- 2147483648). lra.
    - right. apply Z.lt_le_trans with (2 ^ 31)%Z; [lia|]. apply Zfloor_lub. change (IZR (2 ^ 31)) with 2147483648. lra.
  Qed.
  (** where the samples are taken *)
  Lemma abscissa_ok (lo hi : num) n i : is_finite lo = true -> is_finite hi = true -> Rabs (B2R lo) <= bpow radix2 (emax - 6) -> Rabs (B2R hi) <= bpow radix2 (emax - 6) -> (2 <= n)%nat -> (Z.of_nat n <= 2 ^ (prec - 1))%Z -> (i < n)%nat ->
    let x := add lo (mul (const (Z.of_nat i) 0) (div (sub hi lo) (const (Z.of_nat n - 1) 0))) in let L := B2R hi - B2R lo in
    is_finite x = true /\ Rabs (B2R x - (B2R lo + INR i * (L / INR (n - 1)))) <= u * Rabs (B2R lo) + 5 * u * Rabs L + 2 * (INR i + 1) * eta.
  Proof.
    intros Fl Fh Bl Bh N NP I x L. unfold x. clear x. rewrite !INR_IZR_INZ, (Nat2Z.inj_sub n 1) by lia. change (Z.of_nat 1) with 1%Z. destruct (const_int (Z.of_nat i) ltac:(lia)) as [Iv If]. destruct (const_int (Z.of_nat n - 1) ltac:(lia)) as [Nv Nf].
    assert (I0 : 0 <= IZR (Z.of_nat i)) by (apply IZR_le; lia). assert (N1 : 1 <= IZR (Z.of_nat n - 1)) by (apply IZR_le; lia). assert (IN : IZR (Z.of_nat i) <= IZR (Z.of_nat n - 1)) by (apply IZR_le; lia). set (ri := IZR (Z.of_nat i)) in *. set (rn := IZR (Z.of_nat n - 1)) in *.
    pose proof (u_pos prec H3) as U. pose proof (eta_pos prec emax) as ET. pose proof eta_1 as E1. pose proof (pow_pos (emax - 6)) as P6. destruct big as (_ & _ & B3 & _). assert (B32 : 32 * bpow radix2 (emax - 6) = lim) by (change 32 with (bpow radix2 5); rewrite <- bpow_plus; unfold limit; f_equal; lia).
    assert (P1 : 1 <= bpow radix2 (emax - 6)) by (change 1 with (bpow radix2 0); apply bpow_le; lia).
    assert (LB : Rabs L <= 2 * bpow radix2 (emax - 6)) by (apply Rabs_le_inv in Bl, Bh; apply Rabs_le; unfold L; lra). pose proof (Rabs_pos L) as L0.
    destruct (sub_ok prec emax Hp He H3 hi lo Fh Fl) as [Dv Df]; [fold L; lra|]. pose proof (diff_err prec emax Hp H3 hi lo) as De. rewrite <- Dv in De. fold L in De. set (d := sub hi lo) in *. set (c := const (Z.of_nat n - 1) 0) in *. set (m := const (Z.of_nat i) 0) in *.
    assert (RN : 0 < / rn <= 1). { split; [apply Rinv_0_lt_compat; lra|]. rewrite <- Rinv_1. apply Rinv_le; lra. }
    set (s := L / rn). assert (SA : Rabs s = Rabs L * / rn) by (unfold s, Rdiv; rewrite Rabs_mult, (Rabs_pos_eq (/ rn)); lra).
    assert (SI : ri * Rabs s <= Rabs L). { rewrite SA. replace (ri * (Rabs L * / rn)) with (Rabs L * (ri * / rn)) by ring. assert (ri * / rn <= 1). { apply (Rmult_le_reg_r rn); [lra|]. rewrite Rmult_assoc, Rinv_l by lra. lra. } rewrite <- (Rmult_1_r (Rabs L)) at 2. apply Rmult_le_compat_l; assumption. }
    pose proof (Rabs_pos s) as S0. assert (SL : Rabs s <= Rabs L) by (rewrite SA; rewrite <- (Rmult_1_r (Rabs L)) at 2; apply Rmult_le_compat_l; lra).
    assert (Q1 : Rabs (B2R d / rn - s) <= u * Rabs s). { unfold s. replace (B2R d / rn - L / rn) with ((B2R d - L) * / rn) by (unfold Rdiv; ring). fold s. rewrite Rabs_mult, (Rabs_pos_eq (/ rn)), SA by lra. rewrite <- Rmult_assoc. apply Rmult_le_compat_r; lra. }
    assert (Q2 : Rabs (B2R d / rn) <= Rabs s + u * Rabs s). { replace (B2R d / rn) with (s + (B2R d / rn - s)) by ring. eapply Rle_trans; [apply Rabs_triang|]. lra. }
    assert (US : u * Rabs s <= / 8 * Rabs s) by (apply Rmult_le_compat_r; lra). assert (US0 : 0 <= u * Rabs s) by (apply Rmult_le_pos; lra).
    destruct (div_ok prec emax Hp He H3 d c Df) as [Tv Tf]; [rewrite Nv; lra|rewrite Nv; lra|]. rewrite Nv in Tv. pose proof (rnd_err prec emax Hp (B2R d / rn)) as Te. rewrite <- Tv in Te. set (t := div d c) in *.
    assert (T1 : Rabs (B2R t - s) <= 9 / 4 * (u * Rabs s) + eta). { replace (B2R t - s) with ((B2R t - B2R d / rn) + (B2R d / rn - s)) by ring. eapply Rle_trans; [apply Rabs_triang|]. assert (u * Rabs (B2R d / rn) <= u * (Rabs s + u * Rabs s)) by (apply Rmult_le_compat_l; lra). assert (u * (u * Rabs s) <= / 8 * (u * Rabs s)) by (apply Rmult_le_compat_r; lra). lra. }
    assert (UI : u * (ri * Rabs s) <= u * Rabs L) by (apply Rmult_le_compat_l; lra). assert (UL : u * Rabs L <= / 8 * Rabs L) by (apply Rmult_le_compat_r; lra). assert (UL0 : 0 <= u * Rabs L) by (apply Rmult_le_pos; lra). assert (IE : 0 <= ri * eta) by (apply Rmult_le_pos; lra).
    assert (T2 : Rabs (ri * B2R t - ri * s) <= 9 / 4 * (u * Rabs L) + ri * eta). { rewrite <- Rmult_minus_distr_l, Rabs_mult, (Rabs_pos_eq ri) by exact I0. assert (ri * Rabs (B2R t - s) <= ri * (9 / 4 * (u * Rabs s) + eta)) by (apply Rmult_le_compat_l; assumption). lra. }
    assert (T3 : Rabs (ri * B2R t) <= Rabs L + (9 / 4 * (u * Rabs L) + ri * eta)). { replace (ri * B2R t) with (ri * s + (ri * B2R t - ri * s)) by ring. eapply Rle_trans; [apply Rabs_triang|]. rewrite Rabs_mult, (Rabs_pos_eq ri) by exact I0. lra. }
    assert (IE1 : ri * eta <= 1). { assert (RI : ri <= bpow radix2 (prec - 1)). { unfold ri. rewrite <- (IZR_Zpower radix2) by lia. apply IZR_le. change (radix_val radix2) with 2%Z. lia. } apply Rle_trans with (bpow radix2 (prec - 1) * eta); [apply Rmult_le_compat_r; lra|]. unfold DblProofs.eta. rewrite <- bpow_plus. change 1 with (bpow radix2 0). apply bpow_le. unfold SpecFloat.emin. lia. }
    destruct (mul_ok prec emax Hp He H3 m t If Tf) as [Pv Pf]; [rewrite Iv; lra|]. rewrite Iv in Pv. pose proof (rnd_err prec emax Hp (ri * B2R t)) as Pe. rewrite <- Pv in Pe. set (p := mul m t) in *.
    assert (UT : u * Rabs (ri * B2R t) <= u * (Rabs L + (9 / 4 * (u * Rabs L) + ri * eta))) by (apply Rmult_le_compat_l; lra). assert (UUL : u * (u * Rabs L) <= / 8 * (u * Rabs L)) by (apply Rmult_le_compat_r; lra). assert (UIE : u * (ri * eta) <= / 8 * (ri * eta)) by (apply Rmult_le_compat_r; lra). assert (UE : u * eta <= / 8 * eta) by (apply Rmult_le_compat_r; lra).
    assert (P2 : Rabs (B2R p - ri * s) <= 113 / 32 * (u * Rabs L) + 9 / 8 * (ri * eta) + eta). { replace (B2R p - ri * s) with ((B2R p - ri * B2R t) + (ri * B2R t - ri * s)) by ring. eapply Rle_trans; [apply Rabs_triang|]. lra. }
    assert (P3 : Rabs (B2R p) <= Rabs L + (113 / 32 * (u * Rabs L) + 9 / 8 * (ri * eta) + eta)). { replace (B2R p) with (ri * s + (B2R p - ri * s)) at 1 by ring. eapply Rle_trans; [apply Rabs_triang|]. rewrite Rabs_mult, (Rabs_pos_eq ri) by exact I0. lra. }
    assert (P4 : Rabs (B2R lo + B2R p) <= Rabs (B2R lo) + Rabs (B2R p)) by apply Rabs_triang. destruct (add_ok prec emax Hp He H3 lo p Fl Pf) as [Xv Xf]; [lra|]. split; [exact Xf|]. pose proof (sum_err prec emax Hp H3 lo p) as Xe. rewrite <- Xv in Xe.
    replace (B2R (add lo p) - (B2R lo + ri * s)) with ((B2R (add lo p) - (B2R lo + B2R p)) + (B2R p - ri * s)) by ring. eapply Rle_trans; [apply Rabs_triang|]. assert (X1 : u * Rabs (B2R lo + B2R p) <= u * (Rabs (B2R lo) + (Rabs L + (113 / 32 * (u * Rabs L) + 9 / 8 * (ri * eta) + eta)))) by (apply Rmult_le_compat_l; lra). lra.
  Qed.
  Lemma first_exact (lo hi : num) n : is_finite lo = true -> is_finite hi = true -> Rabs (B2R lo) <= bpow radix2 (emax - 6) -> Rabs (B2R hi) <= bpow radix2 (emax - 6) -> (2 <= n)%nat -> (Z.of_nat n <= 2 ^ (prec - 1))%Z ->
    B2R (add lo (mul (const (Z.of_nat 0) 0) (div (sub hi lo) (const (Z.of_nat n - 1) 0)))) = B2R lo.
  Proof.
    intros Fl Fh Bl Bh N NP. destruct (const_int (Z.of_nat n - 1) ltac:(lia)) as [Nv Nf]. destruct (const_0 prec emax Hp He H3) as [Zv Zf]. change (Z.of_nat 0) with 0%Z. assert (N1 : 1 <= IZR (Z.of_nat n - 1)) by (apply IZR_le; lia). set (rn := IZR (Z.of_nat n - 1)) in *.
    pose proof (pow_pos (emax - 6)) as P6. assert (B32 : 32 * bpow radix2 (emax - 6) = lim) by (change 32 with (bpow radix2 5); rewrite <- bpow_plus; unfold limit; f_equal; lia).
    assert (LB : Rabs (B2R hi - B2R lo) <= 2 * bpow radix2 (emax - 6)) by (apply Rabs_le_inv in Bl, Bh; apply Rabs_le; lra). destruct (sub_ok prec emax Hp He H3 hi lo Fh Fl) as [Dv Df]; [lra|]. pose proof (diff_err prec emax Hp H3 hi lo) as De. rewrite <- Dv in De. pose proof (u_pos prec H3) as U. set (L := B2R hi - B2R lo) in *. pose proof (Rabs_pos L) as L0.
    assert (DB : Rabs (B2R (sub hi lo)) <= 4 * bpow radix2 (emax - 6)). { replace (B2R (sub hi lo)) with (L + (B2R (sub hi lo) - L)) by ring. eapply Rle_trans; [apply Rabs_triang|]. assert (u * Rabs L <= / 8 * Rabs L) by (apply Rmult_le_compat_r; lra). lra. }
    destruct (div_ok prec emax Hp He H3 (sub hi lo) (const (Z.of_nat n - 1) 0) Df) as [Tv Tf]; [rewrite Nv; lra| |].
    { rewrite Nv. unfold Rdiv. rewrite Rabs_mult. assert (RN : 0 < / rn <= 1). { split; [apply Rinv_0_lt_compat; lra|]. rewrite <- Rinv_1. apply Rinv_le; lra. } rewrite (Rabs_pos_eq (/ rn)) by lra. pose proof (Rabs_pos (B2R (sub hi lo))). apply Rle_trans with (Rabs (B2R (sub hi lo)) * 1); [apply Rmult_le_compat_l; lra|lra]. }
    set (t := div (sub hi lo) (const (Z.of_nat n - 1) 0)) in *. destruct (mul_ok prec emax Hp He H3 (const 0 0) t Zf Tf) as [Pv Pf]; [rewrite Zv, Rmult_0_l, Rabs_R0; lra|]. rewrite Zv, Rmult_0_l, rnd_0 in Pv.
    destruct (add_ok prec emax Hp He H3 lo _ Fl Pf) as [Xv _]; [rewrite Pv, Rplus_0_r; lra|]. rewrite Xv, Pv, Rplus_0_r. apply rnd_exact, num_format.
  Qed.
End Samples.
