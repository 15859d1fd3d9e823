(** Lemmas about weighted averages in floating point. *)
From Coq Require Import List Arith Bool ZArith Reals Lra Lia.
From Flocq Require Import Core IEEE754.BinarySingleNaN.
From Verif Require Import Base BaseProofs DblSpec DblModel DblProofs WavSpec WavModel.
Import ListNotations.
Local Open Scope R_scope.

Section Weighted.
  Context (prec emax : Z) (Hp : Prec_gt_0 prec) (He : Prec_lt_emax prec emax) (H3 : (3 <= prec)%Z).
  Notation num := (binary_float prec emax).
  Notation add := (DblModel.add prec emax Hp He).
  Notation mul := (DblModel.mul prec emax Hp He).
  Notation div := (DblModel.div prec emax Hp He).
  Notation const := (DblModel.const prec emax Hp He).
  Notation rnd := (DblProofs.rnd prec emax).
  Notation u := (DblProofs.u prec).
  Notation eta := (DblProofs.eta prec emax).
  Notation lim := (limit emax).
  Notation fx := (SpecFloat.fexp prec emax).
  Notation W := (weights (@B2R prec emax)).
  Notation S := (weighted (@B2R prec emax)).
  Notation A := (weighted_abs (@B2R prec emax)).
  Notation state := (fold_left (fun a (p : num * num) => average_add prec emax Hp He a (fst p) (snd p))).
  Notation init := (average_init prec emax Hp He).

  (** the state is that of what was added since the last reset *)
  Lemma run_added os : forall acc, fold_left (average_step prec emax Hp He) os (state acc init) = state (added acc os) init.
  Proof.
    induction os as [|o r IH]; intros acc; [reflexivity|]. destruct o as [v w|]; cbn [fold_left added average_step].
    - rewrite <- IH. rewrite fold_left_app. reflexivity.
    - rewrite <- (IH []). reflexivity.
  Qed.
  Lemma sum_app (f : num * num -> R) l p : fold_right (fun p s => f p + s) 0 (l ++ [p]) = fold_right (fun p s => f p + s) 0 l + f p.
  Proof. induction l as [|x l IH]; cbn; [ring|]. rewrite IH. ring. Qed.
  Lemma W_app l p : W (l ++ [p]) = W l + B2R (snd p). Proof. apply (sum_app (fun p => B2R (snd p))). Qed.
  Lemma S_app l p : S (l ++ [p]) = S l + B2R (snd p) * B2R (fst p). Proof. apply (sum_app (fun p => B2R (snd p) * B2R (fst p))). Qed.
  Lemma A_app l p : A (l ++ [p]) = A l + B2R (snd p) * Rabs (B2R (fst p)). Proof. apply (sum_app (fun p => B2R (snd p) * Rabs (B2R (fst p)))). Qed.
  (** finite values, and weights that are not negative *)
  Definition fine (p : num * num) : Prop := is_finite (fst p) = true /\ is_finite (snd p) = true /\ 0 <= B2R (snd p).
  Lemma sums l : Forall fine l -> 0 <= W l /\ Rabs (S l) <= A l /\ 0 <= A l.
  Proof.
    induction l as [|p l IH] using rev_ind; intros F; [cbn; rewrite Rabs_R0; lra|]. apply Forall_app in F. destruct F as [F P]. destruct (IH F) as (I1 & I2 & I3). rewrite W_app, S_app, A_app. inversion P as [|? ? (P1 & P2 & P3) _]; subst. pose proof (Rabs_pos (B2R (fst p))) as V0.
    assert (X : 0 <= B2R (snd p) * Rabs (B2R (fst p))) by (apply Rmult_le_pos; assumption). split; [lra|]. split; [|lra]. eapply Rle_trans; [apply Rabs_triang|]. rewrite Rabs_mult, (Rabs_pos_eq (B2R (snd p))) by exact P3. lra.
  Qed.
  Lemma W_zero l : Forall fine l -> W l = 0 <-> Forall (fun p => B2R (snd p) = 0) l.
  Proof.
    induction l as [|p l IH]; intros F; [split; [constructor|reflexivity]|]. inversion F as [|? ? (P1 & P2 & P3) FL]; subst. destruct (sums l FL) as (I & _). cbn [weights fold_right]. change (fold_right (fun p s => B2R (snd p) + s) 0 l) with (W l). split.
    - intros E. constructor; [lra|]. apply (IH FL). lra.
    - intros Q. inversion Q as [|? ? Q1 Q2]; subst. apply (IH FL) in Q2. lra.
  Qed.
  Lemma eta_small : eta <= / 16.
  Proof. unfold DblProofs.eta. change (/ 16) with (bpow radix2 (-4)). apply bpow_le. unfold SpecFloat.emin. pose proof He as H. unfold Prec_lt_emax in H. lia. Qed.
  (** the sums are right up to relative errors, and the weights add up to zero only if all are zero *)
  Lemma state_ok l : Forall fine l -> (INR (length l) + 1) * u <= / 8 -> 4 * W l <= lim -> 4 * A l <= lim ->
    let s := state l init in is_finite (tot_v _ _ s) = true /\ is_finite (tot_w _ _ s) = true /\ 0 <= B2R (tot_w _ _ s) /\ (B2R (tot_w _ _ s) = 0 <-> W l = 0) /\
    Rabs (B2R (tot_w _ _ s) - W l) <= 2 * (INR (length l) * u) * W l /\ Rabs (B2R (tot_v _ _ s) - S l) <= 2 * ((INR (length l) + 1) * u) * A l + 2 * INR (length l) * eta.
  Proof.
    pose proof (u_pos prec H3) as U. pose proof (eta_pos prec emax) as ET. pose proof eta_small as E16. pose proof (DblProofs.limit_big prec emax He H3) as L4.
    induction l as [|p l IH] using rev_ind; intros F N HW HA s.
    - destruct (const_0 prec emax Hp He H3) as [Zv Zf]. unfold s, average_init. cbn [fold_left tot_v tot_w length INR weights weighted weighted_abs fold_right]. rewrite Zv, !Rmult_0_r, !Rmult_0_l, Rminus_0_r, Rabs_R0. split; [exact Zf|]. split; [exact Zf|]. split; [lra|]. split; [tauto|]. lra.
    - apply Forall_app in F. destruct F as [F P]. inversion P as [|? ? (P1 & P2 & P3) _]; subst. destruct (sums l F) as (I1 & I2 & I3). rewrite app_length, plus_INR in *. cbn [length INR] in *. rewrite W_app, S_app, A_app in *.
      set (n := INR (length l)) in *. assert (N0 : 0 <= n) by apply pos_INR. pose proof (Rabs_pos (B2R (fst p))) as V0. set (w := B2R (snd p)) in *. set (v := B2R (fst p)) in *. assert (X : 0 <= w * Rabs v) by (apply Rmult_le_pos; assumption).
      destruct (IH F ltac:(lra) ltac:(lra) ltac:(lra)) as (J1 & J2 & J3 & J4 & J5 & J6). clear IH. unfold s. rewrite fold_left_app. cbn [fold_left]. set (a := state l init) in *. unfold average_add. cbn [tot_v tot_w]. set (tw := B2R (tot_w _ _ a)) in *. set (tv := B2R (tot_v _ _ a)) in *.
      assert (NU : 0 <= n * u) by (apply Rmult_le_pos; lra). assert (NUW : 0 <= n * u * W l) by (apply Rmult_le_pos; lra). assert (NUW8 : n * u * W l <= / 8 * W l) by (apply Rmult_le_compat_r; lra).
      pose proof (Rabs_le_inv _ _ J5) as J5'. assert (TWL : tw <= 5 / 4 * W l) by lra. assert (L1 : Rabs (tw + w) <= lim) by (rewrite Rabs_pos_eq; lra).
      destruct (add_ok prec emax Hp He H3 (tot_w _ _ a) (snd p) J2 P2 L1) as [Wv Wf]. fold tw w in Wv. pose proof (sum_err prec emax Hp H3 (tot_w _ _ a) (snd p)) as We. fold tw w in We. rewrite <- Wv in We. rewrite (Rabs_pos_eq (tw + w)) in We by lra.
      assert (PV : Rabs (w * v) = w * Rabs v) by (rewrite Rabs_mult, (Rabs_pos_eq w); [reflexivity|exact P3]).
      destruct (mul_ok prec emax Hp He H3 (snd p) (fst p) P2 P1) as [Mv Mf]; [fold w v; rewrite PV; lra|]. fold w v in Mv. pose proof (rnd_err prec emax Hp (w * v)) as Me. rewrite <- Mv, PV in Me. set (m := mul (snd p) (fst p)) in *.
      assert (UX : u * (w * Rabs v) <= / 8 * (w * Rabs v)) by (apply Rmult_le_compat_r; lra). assert (UX0 : 0 <= u * (w * Rabs v)) by (apply Rmult_le_pos; lra). assert (NUA8 : (n + 1) * u * A l <= / 8 * A l) by (apply Rmult_le_compat_r; lra). assert (NUA : 0 <= (n + 1) * u * A l) by (apply Rmult_le_pos; lra).
      assert (NE : 0 <= n * eta) by (apply Rmult_le_pos; lra). assert (UNE : n * u * eta <= / 8 * eta) by (apply Rmult_le_compat_r; lra).
      assert (NB : n * eta <= / 8). { assert (eta <= u). { unfold DblProofs.eta, DblProofs.u. apply bpow_le. unfold SpecFloat.emin. pose proof He as H. unfold Prec_lt_emax in H. lia. } apply Rle_trans with (n * u); [apply Rmult_le_compat_l; lra|lra]. }
      assert (TB : Rabs (tv + B2R m) <= 5 / 4 * (A l + w * Rabs v) + (2 * n + 1) * eta).
      { replace (tv + B2R m) with ((tv - S l) + (S l) + (B2R m - w * v) + w * v) by ring. eapply Rle_trans; [apply Rabs_triang|]. eapply Rle_trans; [apply Rplus_le_compat_r, Rabs_triang|]. eapply Rle_trans; [apply Rplus_le_compat_r, Rplus_le_compat_r, Rabs_triang|]. rewrite PV. lra. }
      destruct (add_ok prec emax Hp He H3 (tot_v _ _ a) m J1 Mf) as [Tv Tf]; [fold tv; lra|]. fold tv in Tv. pose proof (sum_err prec emax Hp H3 (tot_v _ _ a) m) as Te. fold tv in Te. rewrite <- Tv in Te.
      split; [exact Tf|]. split; [exact Wf|]. assert (G : tw <= B2R (add (tot_w _ _ a) (snd p)) /\ w <= B2R (add (tot_w _ _ a) (snd p))). { rewrite Wv. split; apply (rnd_lb prec emax Hp); try apply num_format; fold tw w; lra. }
      split; [lra|]. split. { split; intros E. - assert (tw = 0) by lra. assert (w = 0) by lra. apply J4 in H. lra. - assert (W l = 0) by lra. assert (w = 0) by lra. apply J4 in H. rewrite Wv, H, H0, Rplus_0_r. apply rnd_0. }
      split.
      + set (x := B2R (add (tot_w _ _ a) (snd p))) in *. replace (x - (W l + w)) with ((x - (tw + w)) + (tw - W l)) by ring. eapply Rle_trans; [apply Rabs_triang|]. assert (u * (tw + w) <= u * (5 / 4 * W l + w)) by (apply Rmult_le_compat_l; lra). assert (0 <= u * W l) by (apply Rmult_le_pos; lra). assert (0 <= u * w) by (apply Rmult_le_pos; lra). assert (0 <= n * u * w) by (apply Rmult_le_pos; lra). lra.
      + set (x := B2R (add (tot_v _ _ a) m)) in *. replace (x - (S l + w * v)) with ((x - (tv + B2R m)) + (tv - S l) + (B2R m - w * v)) by ring. eapply Rle_trans; [apply Rabs_triang|]. eapply Rle_trans; [apply Rplus_le_compat_r, Rabs_triang|].
        assert (u * Rabs (tv + B2R m) <= u * (5 / 4 * (A l + w * Rabs v) + (2 * n + 1) * eta)) by (apply Rmult_le_compat_l; lra). assert (u * eta <= / 8 * eta) by (apply Rmult_le_compat_r; lra). assert (0 <= u * A l) by (apply Rmult_le_pos; lra). assert (0 <= n * u * (w * Rabs v)) by (apply Rmult_le_pos; lra). lra.
  Qed.
  Lemma A_bound b l : Forall fine l -> Forall (fun p => Rabs (B2R (fst p)) <= b) l -> A l <= b * W l.
  Proof.
    induction l as [|p l IH]; intros F V; [cbn; lra|]. inversion F as [|? ? (P1 & P2 & P3) FL]; subst. inversion V as [|? ? V1 VL]; subst. specialize (IH FL VL). cbn [weights weighted_abs fold_right]. change (fold_right (fun p s => B2R (snd p) + s) 0 l) with (W l). change (fold_right (fun p s => B2R (snd p) * Rabs (B2R (fst p)) + s) 0 l) with (A l).
    assert (B2R (snd p) * Rabs (B2R (fst p)) <= B2R (snd p) * b) by (apply Rmult_le_compat_l; assumption). lra.
  Qed.
  Lemma W_least l : Forall fine l -> 0 < W l -> 2 * eta <= W l.
  Proof.
    induction l as [|p l IH]; intros F H; [cbn in H; lra|]. inversion F as [|? ? (P1 & P2 & P3) FL]; subst. destruct (sums l FL) as (I & _). cbn [weights fold_right] in *. change (fold_right (fun p s => B2R (snd p) + s) 0 l) with (W l) in *.
    destruct (Rle_lt_or_eq_dec _ _ P3) as [P|P]; [|specialize (IH FL); lra]. assert (bpow radix2 (SpecFloat.emin prec emax) <= B2R (snd p)). { apply (generic_format_ge_bpow radix2 fx); [|exact P|apply num_format]. intros e. unfold SpecFloat.fexp. lia. }
    assert (2 * eta = bpow radix2 (SpecFloat.emin prec emax)) by (unfold DblProofs.eta; change 2 with (bpow radix2 1); rewrite <- bpow_plus; f_equal; lia). lra.
  Qed.
  Lemma get_ok l : Forall fine l -> (INR (length l) + 1) * u <= / 8 -> 4 * W l <= lim -> 4 * A l <= lim -> 4 * A l <= lim * W l -> 0 < W l ->
    let r := average_get prec emax Hp He (state l init) in is_finite r = true /\ Rabs (B2R r - S l / W l) <= (6 * INR (length l) + 5) * u * (A l / W l) + 4 * INR (length l) * eta / W l + eta.
  Proof.
    intros F N HW HA HV W0 r. destruct (state_ok l F N HW HA) as (J1 & J2 & J3 & J4 & J5 & J6). destruct (sums l F) as (I1 & I2 & I3). pose proof (W_least l F W0) as WL. pose proof (u_pos prec H3) as U. pose proof (eta_pos prec emax) as ET. pose proof (DblProofs.limit_big prec emax He H3) as L4.
    unfold r, average_get. set (a := state l init) in *. set (n := INR (length l)) in *. assert (N0 : 0 <= n) by apply pos_INR. set (tw := B2R (tot_w _ _ a)) in *. set (tv := B2R (tot_v _ _ a)) in *.
    assert (TW : 0 < tw). { destruct (Rle_lt_or_eq_dec _ _ J3) as [P|P]; [exact P|]. symmetry in P. apply J4 in P. lra. }
    destruct (const_0 prec emax Hp He H3) as [Zv Zf]. rewrite (lt_finite prec emax) by assumption. rewrite Zv. fold tw. rewrite Rlt_bool_true by exact TW.
    set (w := W l) in *. set (s := S l) in *. set (b := A l) in *. assert (NU : 0 <= n * u) by (apply Rmult_le_pos; lra). assert (NUW : n * u * w <= / 8 * w) by (apply Rmult_le_compat_r; lra). assert (TWB : 3 / 4 * w <= tw) by (apply Rabs_le_inv in J5; lra).
    assert (WI : 0 < / w) by (apply Rinv_0_lt_compat; exact W0). set (ab := b / w). assert (AB : ab * w = b) by (unfold ab; field; lra). assert (AB0 : 0 <= ab) by (apply Rmult_le_pos; lra). assert (ABL : 4 * ab <= lim). { apply (Rmult_le_reg_r w); [exact W0|]. rewrite Rmult_assoc, AB. exact HV. }
    set (e := n * eta / w). assert (EW : e * w = n * eta) by (unfold e; field; lra). assert (E0 : 0 <= e) by (apply Rmult_le_pos; [apply Rmult_le_pos; lra|lra]). assert (EN : 2 * e <= n). { apply (Rmult_le_reg_r w); [exact W0|]. rewrite Rmult_assoc, EW. assert (n * (2 * eta) <= n * w) by (apply Rmult_le_compat_l; assumption). lra. }
    assert (NL : 8 * n <= lim). { assert (X : n * u <= / 8) by lra. unfold DblProofs.u in X. assert (Y : bpow radix2 (- prec) * bpow radix2 prec = 1) by (rewrite <- bpow_plus; replace (- prec + prec)%Z with 0%Z by lia; reflexivity). assert (PP : 0 < bpow radix2 prec) by apply bpow_gt_0.
      assert (Z : n * bpow radix2 (- prec) * bpow radix2 prec <= / 8 * bpow radix2 prec) by (apply Rmult_le_compat_r; lra). rewrite Rmult_assoc, Y in Z. assert (bpow radix2 prec <= lim) by (apply bpow_le; pose proof He as H; unfold Prec_lt_emax in H; lia). lra. }
    assert (SB : Rabs s <= ab * w) by lra.
    set (q := tv / tw). assert (D : Rabs (q - s / w) <= (16 * n + 8) / 3 * u * ab + 8 / 3 * e).
    { apply (Rmult_le_reg_r tw); [exact TW|]. rewrite <- (Rabs_pos_eq tw) at 1 by lra. rewrite <- Rabs_mult. replace ((q - s / w) * tw) with ((tv - s) - s / w * (tw - w)) by (unfold q; field; lra). unfold Rminus at 1. eapply Rle_trans; [apply Rabs_triang|]. rewrite Rabs_Ropp, Rabs_mult.
      assert (SW : Rabs (s / w) <= ab). { unfold Rdiv. rewrite Rabs_mult, (Rabs_pos_eq (/ w)) by lra. apply (Rmult_le_reg_r w); [exact W0|]. rewrite Rmult_assoc, Rinv_l by lra. lra. }
      assert (X : Rabs (s / w) * Rabs (tw - w) <= ab * (2 * (n * u) * w)) by (apply Rmult_le_compat; [apply Rabs_pos|apply Rabs_pos|exact SW|exact J5]).
      assert (Y : ((16 * n + 8) / 3 * u * ab + 8 / 3 * e) * (3 / 4 * w) <= ((16 * n + 8) / 3 * u * ab + 8 / 3 * e) * tw). { apply Rmult_le_compat_l; [|exact TWB]. assert (0 <= n * u * ab) by (apply Rmult_le_pos; assumption). assert (0 <= u * ab) by (apply Rmult_le_pos; lra). lra. }
      replace (((16 * n + 8) / 3 * u * ab + 8 / 3 * e) * (3 / 4 * w)) with ((4 * n + 2) * u * (ab * w) + 2 * (e * w)) in Y by field. rewrite AB, EW in Y. replace (ab * (2 * (n * u) * w)) with (2 * (n * u) * (ab * w)) in X by ring. rewrite AB in X. lra. }
    assert (NUA : n * u * ab <= (/ 8 - u) * ab) by (apply Rmult_le_compat_r; lra). assert (UA : u * ab <= / 8 * ab) by (apply Rmult_le_compat_r; lra). assert (UA0 : 0 <= u * ab) by (apply Rmult_le_pos; lra). assert (NUA0 : 0 <= n * u * ab) by (apply Rmult_le_pos; lra).
    assert (SW : Rabs (s / w) <= ab). { unfold Rdiv. rewrite Rabs_mult, (Rabs_pos_eq (/ w)) by lra. apply (Rmult_le_reg_r w); [exact W0|]. rewrite Rmult_assoc, Rinv_l by lra. lra. }
    assert (Q : Rabs q <= 5 / 3 * ab + 8 / 3 * e). { replace q with (s / w + (q - s / w)) by ring. eapply Rle_trans; [apply Rabs_triang|]. lra. }
    destruct (div_ok prec emax Hp He H3 (tot_v _ _ a) (tot_w _ _ a) J1) as [Rv Rf]; [fold tw; lra|fold tv tw; fold q; lra|]. fold tv tw in Rv. fold q in Rv. split; [exact Rf|]. pose proof (rnd_err prec emax Hp q) as Re. rewrite <- Rv in Re. set (x := B2R (div (tot_v _ _ a) (tot_w _ _ a))) in *.
    replace (4 * n * eta / w) with (4 * e) by (unfold e; field; lra). replace (x - s / w) with ((x - q) + (q - s / w)) by ring. eapply Rle_trans; [apply Rabs_triang|]. assert (u * Rabs q <= u * (5 / 3 * ab + 8 / 3 * e)) by (apply Rmult_le_compat_l; lra). assert (u * e <= / 8 * e) by (apply Rmult_le_compat_r; lra). lra.
  Qed.
  Lemma get_none l : Forall fine l -> (INR (length l) + 1) * u <= / 8 -> 4 * W l <= lim -> 4 * A l <= lim -> W l = 0 -> B2R (average_get prec emax Hp He (state l init)) = 0.
  Proof.
    intros F N HW HA W0. destruct (state_ok l F N HW HA) as (J1 & J2 & J3 & J4 & _). apply J4 in W0. destruct (const_0 prec emax Hp He H3) as [Zv Zf]. unfold average_get. rewrite (lt_finite prec emax) by assumption. rewrite Zv, W0, Rlt_bool_false by lra. exact Zv.
  Qed.
  Lemma empty_ok l : Forall fine l -> (INR (length l) + 1) * u <= / 8 -> 4 * W l <= lim -> 4 * A l <= lim -> average_empty prec emax Hp He (state l init) = true <-> Forall (fun p => B2R (snd p) = 0) l.
  Proof.
    intros F N HW HA. destruct (state_ok l F N HW HA) as (J1 & J2 & J3 & J4 & _). destruct (const_0 prec emax Hp He H3) as [Zv Zf]. unfold average_empty. rewrite Beqb_correct by assumption. rewrite Zv, <- (W_zero l F), <- J4. destruct (Req_bool_spec (B2R (tot_w _ _ (state l init))) 0); split; intros; congruence.
  Qed.
End Weighted.
