(** Proofs about differences and first-order filters in floating point. *)
From Coq Require Import List Arith Bool ZArith Reals Lra Lia SpecFloat.
From Flocq Require Import Core IEEE754.BinarySingleNaN.
From Verif Require Import DblSpec HstSpec DblModel HstModel DblProofs MomProofs.
Import ListNotations.
Local Open Scope R_scope.

Section Numbers.
  Context (prec emax : Z) (Hp : Prec_gt_0 prec) (He : Prec_lt_emax prec emax) (H3 : (3 <= prec)%Z).
  Notation num := (binary_float prec emax).
  Notation add := (DblModel.add prec emax Hp He).
  Notation sub := (DblModel.sub prec emax Hp He).
  Notation mul := (DblModel.mul prec emax Hp He).
  Notation u := (unit_error prec).
  Notation eta := (tiny prec emax).
  Notation rnd := (DblProofs.rnd prec emax).
  Notation top := (bpow radix2 (emax - 5)).
  Lemma eta_u : 0 < eta /\ eta <= / 4 * u.
  Proof.
    split; [apply bpow_gt_0|]. unfold tiny, unit_error. replace (/ 4) with (bpow radix2 (-2)) by (cbn; lra). rewrite <- bpow_plus. apply bpow_le. pose proof (He : (prec < emax)%Z). lia.
  Qed.
  Lemma u_range : 0 < u <= / 8.
  Proof. exact (u_pos prec H3). Qed.
  Lemma top_limit : limit emax = 16 * top /\ 1 <= 2 * top.
  Proof.
    pose proof (He : (prec < emax)%Z). split; [unfold limit; replace (emax - 1)%Z with (4 + (emax - 5))%Z by lia; rewrite bpow_plus; reflexivity|].
    replace 2 with (bpow radix2 1) by reflexivity. rewrite <- bpow_plus. change 1 with (bpow radix2 0) at 1. apply bpow_le. lia.
  Qed.
  Lemma abs_prod a b A B : Rabs a <= A -> Rabs b <= B -> Rabs (a * b) <= A * B.
  Proof. intros. rewrite Rabs_mult. apply Rmult_le_compat; try apply Rabs_pos; assumption. Qed.
  Lemma abs_sum a b A B : Rabs a <= A -> Rabs b <= B -> Rabs (a + b) <= A + B.
  Proof. intros. eapply Rle_trans; [apply Rabs_triang|]. lra. Qed.
  Lemma abs_diff a b A B : Rabs a <= A -> Rabs b <= B -> Rabs (a - b) <= A + B.
  Proof. intros. unfold Rminus. apply abs_sum; [assumption|]. rewrite Rabs_Ropp. assumption. Qed.
  Lemma convex k a b M : 0 <= k <= 1 -> Rabs a <= M -> Rabs b <= M -> Rabs (a + k * (b - a)) <= M.
  Proof. intros K A B. apply Rabs_le. apply Rabs_le_inv in A, B. replace (a + k * (b - a)) with ((1 - k) * a + k * b) by ring. pose proof (Rmult_le_compat_l (1 - k) a M ltac:(lra) ltac:(lra)). pose proof (Rmult_le_compat_l k b M ltac:(lra) ltac:(lra)). pose proof (Rmult_le_compat_l (1 - k) (-M) a ltac:(lra) ltac:(lra)). pose proof (Rmult_le_compat_l k (-M) b ltac:(lra) ltac:(lra)). lra. Qed.

  (** one step of the fast update *)
  Lemma fast_step M (rate x v dt : num) : M <= top -> within (2 * M) x -> within M v -> is_finite rate = true -> is_finite dt = true -> 0 <= B2R dt * B2R rate <= 1 ->
    let x' := update_fast prec emax Hp He rate x v dt in is_finite x' = true /\ Rabs (B2R x' - (B2R x + B2R dt * B2R rate * (B2R v - B2R x))) <= fast_error prec emax M.
  Proof.
    intros MT [Fx X] [Fv V] Fr Fd K. set (k := B2R dt * B2R rate) in *. cbv zeta. destruct u_range as [U0 U8]. destruct eta_u as [E0 E4]. destruct top_limit as [TL T1]. assert (M0 : 0 <= M) by (eapply Rle_trans; [apply Rabs_pos|exact V]).
    assert (uM : 0 <= u * M <= / 8 * M) by (split; [apply Rmult_le_pos; lra|apply Rmult_le_compat_r; lra]). assert (eM : 0 <= eta * M <= / 32 * M) by (split; [apply Rmult_le_pos; lra|apply Rmult_le_compat_r; lra]).
    destruct (mul_ok prec emax Hp He H3 dt rate Fd Fr) as [Bk Fk]; [fold k; rewrite Rabs_pos_eq by lra; lra|]. fold k in Bk. set (kk := mul dt rate) in *. pose proof (rnd_err prec emax Hp k) as Ek. rewrite <- Bk, (Rabs_pos_eq k) in Ek by lra. change (DblProofs.u prec) with u in *. change (DblProofs.eta prec emax) with eta in *.
    assert (EK : Rabs (B2R kk - k) <= u + eta) by (assert (u * k <= u * 1) by (apply Rmult_le_compat_l; lra); lra).
    assert (W : Rabs (B2R v - B2R x) <= 3 * M) by (replace (3 * M) with (M + 2 * M) by ring; apply abs_diff; assumption).
    destruct (sub_ok prec emax Hp He H3 v x Fv Fx) as [Bd Fdd]; [lra|]. pose proof (diff_err prec emax Hp H3 v x) as Ed. rewrite <- Bd in Ed. set (d := sub v x) in *. change (DblProofs.u prec) with u in *. set (w := B2R v - B2R x) in *.
    assert (ED : Rabs (B2R d - w) <= 3 * (u * M)) by (assert (u * Rabs w <= u * (3 * M)) by (apply Rmult_le_compat_l; lra); lra).
    assert (D4 : Rabs (B2R d) <= 4 * M) by (replace (B2R d) with ((B2R d - w) + w) by ring; eapply Rle_trans; [apply (abs_sum _ _ _ _ ED W)|]; lra).
    assert (EP : Rabs (B2R kk * B2R d - k * w) <= 7 * (u * M) + 4 * (eta * M)).
    { replace (B2R kk * B2R d - k * w) with ((B2R kk - k) * B2R d + k * (B2R d - w)) by ring. pose proof (abs_prod _ _ _ _ EK D4) as P1. assert (K1 : Rabs k <= 1) by (rewrite Rabs_pos_eq; lra). pose proof (abs_prod _ _ _ _ K1 ED) as P2. eapply Rle_trans; [apply (abs_sum _ _ _ _ P1 P2)|]. lra. }
    assert (KW : Rabs (k * w) <= 3 * M) by (assert (K1 : Rabs k <= 1) by (rewrite Rabs_pos_eq; lra); pose proof (abs_prod _ _ _ _ K1 W); lra).
    assert (P4 : Rabs (B2R kk * B2R d) <= 4 * M) by (replace (B2R kk * B2R d) with ((B2R kk * B2R d - k * w) + k * w) by ring; eapply Rle_trans; [apply (abs_sum _ _ _ _ EP KW)|]; lra).
    destruct (mul_ok prec emax Hp He H3 kk d Fk Fdd) as [Bp Fp]; [lra|]. pose proof (rnd_err prec emax Hp (B2R kk * B2R d)) as Er. rewrite <- Bp in Er. set (p := mul kk d) in *. change (DblProofs.u prec) with u in *. change (DblProofs.eta prec emax) with eta in *.
    assert (ER : Rabs (B2R p - B2R kk * B2R d) <= 4 * (u * M) + eta) by (assert (u * Rabs (B2R kk * B2R d) <= u * (4 * M)) by (apply Rmult_le_compat_l; lra); lra).
    set (y := B2R x + k * w). assert (Y : Rabs y <= 2 * M) by (apply convex; [exact K|exact X|lra]).
    assert (ES : Rabs ((B2R x + B2R p) - y) <= 11 * (u * M) + 4 * (eta * M) + eta).
    { replace ((B2R x + B2R p) - y) with ((B2R p - B2R kk * B2R d) + (B2R kk * B2R d - k * w)) by (unfold y; ring). eapply Rle_trans; [apply (abs_sum _ _ _ _ ER EP)|]. lra. }
    assert (S : Rabs (B2R x + B2R p) <= 7 / 2 * M + eta) by (replace (B2R x + B2R p) with (((B2R x + B2R p) - y) + y) by ring; eapply Rle_trans; [apply (abs_sum _ _ _ _ ES Y)|]; lra).
    destruct (add_ok prec emax Hp He H3 x p Fx Fp) as [Bs Fs]; [lra|]. unfold update_fast. fold kk d p. split; [exact Fs|]. pose proof (sum_err prec emax Hp H3 x p) as Es. rewrite <- Bs in Es. change (DblProofs.u prec) with u in *.
    assert (u * Rabs (B2R x + B2R p) <= u * (7 / 2 * M + eta)) by (apply Rmult_le_compat_l; lra). assert (u * eta <= / 8 * eta) by (apply Rmult_le_compat_r; lra).
    fold y. replace (B2R (add x p) - y) with ((B2R (add x p) - (B2R x + B2R p)) + ((B2R x + B2R p) - y)) by ring. eapply Rle_trans; [apply (abs_sum _ _ _ _ Es ES)|]. unfold fast_error. lra.
  Qed.
  Lemma fast_run M kmin (rate : num) : 0 < kmin -> M <= top -> is_finite rate = true -> fast_error prec emax M <= kmin * M -> forall steps (x : num) r,
    (forall v dt, In (v, dt) steps -> within M v /\ is_finite dt = true /\ kmin <= B2R dt * B2R rate <= 1) -> is_finite x = true -> Rabs r <= M -> Rabs (B2R x - r) <= fast_error prec emax M / kmin ->
    let x' := run_fast prec emax Hp He rate x steps in is_finite x' = true /\ Rabs (euler (B2R rate) r (map step_value steps)) <= M /\ Rabs (B2R x' - euler (B2R rate) r (map step_value steps)) <= fast_error prec emax M / kmin.
  Proof.
    intros K0 MT Fr FE. set (E := fast_error prec emax M / kmin). assert (EM : E <= M) by (unfold E; apply Rmult_le_reg_r with kmin; [exact K0|]; unfold Rdiv; rewrite Rmult_assoc, Rinv_l, Rmult_1_r by lra; lra). assert (EK : fast_error prec emax M = kmin * E) by (unfold E; field; lra).
    induction steps as [|[v dt] steps IH]; intros x r S Fx R X; cbn [run_fast fold_left map euler step_value fst snd]; [repeat split; assumption|]. destruct (S v dt (or_introl eq_refl)) as (V & Fd & K).
    assert (X2 : Rabs (B2R x) <= 2 * M) by (replace (B2R x) with ((B2R x - r) + r) by ring; pose proof (abs_sum _ _ _ _ X R); lra). destruct (fast_step M rate x v dt MT (conj Fx X2) V Fr Fd) as [F' E']; [lra|]. set (k := B2R dt * B2R rate) in *.
    apply IH; [intros; apply S; right; assumption|exact F'|apply convex; [lra|exact R|apply V]|]. set (x' := update_fast _ _ _ _ _ _ _ _) in *. replace (B2R x' - (r + k * (B2R v - r))) with ((B2R x' - (B2R x + k * (B2R v - B2R x))) + (1 - k) * (B2R x - r)) by ring.
    assert (Q : Rabs ((1 - k) * (B2R x - r)) <= (1 - kmin) * E) by (apply abs_prod; [rewrite Rabs_pos_eq; lra|exact X]). eapply Rle_trans; [apply (abs_sum _ _ _ _ E' Q)|]. lra.
  Qed.
  (** one step of the accurate update *)
  Lemma exp_lipschitz a b : a <= 0 -> b <= 0 -> Rabs (exp a - exp b) <= Rabs (a - b).
  Proof.
    assert (G : forall a b, b <= a -> a <= 0 -> 0 <= exp a - exp b <= a - b).
    { intros x y L N. assert (exp y = exp x * exp (y - x)) as -> by (rewrite <- exp_plus; f_equal; ring). assert (X1 : exp x <= 1) by (rewrite <- exp_0; destruct N as [N| -> ]; [left; apply exp_increasing, N|right; reflexivity]). pose proof (exp_pos x) as X0. pose proof (exp_ineq1_le (y - x)) as I. pose proof (exp_pos (y - x)). assert (D1 : exp (y - x) <= 1) by (rewrite <- exp_0; destruct L as [L| -> ]; [left; apply exp_increasing; lra|rewrite Rminus_diag_eq by reflexivity; right; reflexivity]).
      replace (exp x - exp x * exp (y - x)) with (exp x * (1 - exp (y - x))) by ring. split; [apply Rmult_le_pos; lra|]. apply Rle_trans with (1 * (1 - exp (y - x))); [apply Rmult_le_compat_r; lra|lra]. }
    intros A B. destruct (Rle_or_lt b a) as [L|L].
    - specialize (G a b L A). rewrite !Rabs_pos_eq; lra.
    - specialize (G b a ltac:(lra) B). rewrite (Rabs_left1 (exp a - exp b)), (Rabs_left1 (a - b)); lra.
  Qed.
  Lemma accurate_step M err L (fexp : num -> num) (rate x v dt : num) : exp_works fexp err -> M <= top -> L <= top -> within (2 * M) x -> within M v -> is_finite rate = true -> is_finite dt = true -> 0 <= B2R rate * B2R dt <= L ->
    let x' := update_accurate prec emax Hp He fexp rate x v dt in is_finite x' = true /\ Rabs (B2R x' - (B2R v + (B2R x - B2R v) * exp (- (B2R rate * B2R dt)))) <= accurate_error prec emax M err L.
  Proof.
    intros XW MT LT [Fx X] [Fv V] Fr Fd K. set (a := B2R rate * B2R dt) in *. cbv zeta. destruct u_range as [U0 U8]. destruct eta_u as [E0 E4]. destruct top_limit as [TL T1]. assert (M0 : 0 <= M) by (eapply Rle_trans; [apply Rabs_pos|exact V]).
    assert (uM : 0 <= u * M <= / 8 * M) by (split; [apply Rmult_le_pos; lra|apply Rmult_le_compat_r; lra]).
    assert (NR : B2R (Bopp rate) * B2R dt = - a) by (rewrite B2R_Bopp; unfold a; ring). assert (NF : is_finite (Bopp rate) = true) by (rewrite is_finite_Bopp; exact Fr).
    destruct (mul_ok prec emax Hp He H3 (Bopp rate) dt NF Fd) as [Ba Fa]; [rewrite NR, Rabs_Ropp, Rabs_pos_eq by lra; lra|]. rewrite NR in Ba. set (aa := mul (Bopp rate) dt) in *. assert (A0 : B2R aa <= 0) by (rewrite Ba; apply rnd_ub; [exact Hp|apply generic_format_0|lra]).
    pose proof (rnd_err prec emax Hp (- a)) as Ea. rewrite <- Ba, Rabs_Ropp, (Rabs_pos_eq a) in Ea by lra. change (DblProofs.u prec) with u in *. change (DblProofs.eta prec emax) with eta in *. assert (u * a <= u * L) by (apply Rmult_le_compat_l; lra).
    destruct (XW aa Fa A0) as (Fg & G01 & Eg). set (g := fexp aa) in *. set (t := err + u * L + eta). assert (EG : Rabs (B2R g - exp (- a)) <= t).
    { replace (B2R g - exp (- a)) with ((B2R g - exp (B2R aa)) + (exp (B2R aa) - exp (- a))) by ring. pose proof (exp_lipschitz (B2R aa) (- a) A0 ltac:(lra)) as Lp. eapply Rle_trans; [apply (abs_sum _ _ _ _ Eg Lp)|]. unfold t. lra. }
    assert (W : Rabs (B2R x - B2R v) <= 3 * M) by (replace (3 * M) with (2 * M + M) by ring; apply abs_diff; assumption).
    destruct (sub_ok prec emax Hp He H3 x v Fx Fv) as [Bd Fdd]; [lra|]. pose proof (diff_err prec emax Hp H3 x v) as Ed. rewrite <- Bd in Ed. set (d := sub x v) in *. change (DblProofs.u prec) with u in *. set (w := B2R x - B2R v) in *.
    assert (ED : Rabs (B2R d - w) <= 3 * (u * M)) by (assert (u * Rabs w <= u * (3 * M)) by (apply Rmult_le_compat_l; lra); lra).
    assert (D4 : Rabs (B2R d) <= 4 * M) by (replace (B2R d) with ((B2R d - w) + w) by ring; eapply Rle_trans; [apply (abs_sum _ _ _ _ ED W)|]; lra).
    assert (X0 : 0 < exp (- a) <= 1) by (split; [apply exp_pos|rewrite <- exp_0; destruct (proj1 K) as [K0|K0]; [left; apply exp_increasing; lra|right; f_equal; lra]]).
    assert (EP : Rabs (B2R d * B2R g - w * exp (- a)) <= 4 * M * t + 3 * (u * M)).
    { replace (B2R d * B2R g - w * exp (- a)) with (B2R d * (B2R g - exp (- a)) + (B2R d - w) * exp (- a)) by ring. pose proof (abs_prod _ _ _ _ D4 EG) as P1. assert (K1 : Rabs (exp (- a)) <= 1) by (rewrite Rabs_pos_eq; lra). pose proof (abs_prod _ _ _ _ ED K1) as P2. eapply Rle_trans; [apply (abs_sum _ _ _ _ P1 P2)|]. lra. }
    assert (P4 : Rabs (B2R d * B2R g) <= 4 * M) by (assert (K1 : Rabs (B2R g) <= 1) by (rewrite Rabs_pos_eq; lra); pose proof (abs_prod _ _ _ _ D4 K1); lra).
    destruct (mul_ok prec emax Hp He H3 d g Fdd Fg) as [Bp Fp]; [lra|]. pose proof (rnd_err prec emax Hp (B2R d * B2R g)) as Er. rewrite <- Bp in Er. set (p := mul d g) in *. change (DblProofs.u prec) with u in *. change (DblProofs.eta prec emax) with eta in *.
    assert (ER : Rabs (B2R p - B2R d * B2R g) <= 4 * (u * M) + eta) by (assert (u * Rabs (B2R d * B2R g) <= u * (4 * M)) by (apply Rmult_le_compat_l; lra); lra).
    set (y := B2R v + w * exp (- a)). assert (ES : Rabs ((B2R v + B2R p) - y) <= 4 * M * t + 7 * (u * M) + eta).
    { replace ((B2R v + B2R p) - y) with ((B2R p - B2R d * B2R g) + (B2R d * B2R g - w * exp (- a))) by (unfold y; ring). eapply Rle_trans; [apply (abs_sum _ _ _ _ ER EP)|]. lra. }
    assert (P5 : Rabs (B2R p) <= 4 * M + (4 * (u * M) + eta)) by (replace (B2R p) with (B2R d * B2R g + (B2R p - B2R d * B2R g)) by ring; apply abs_sum; assumption). assert (S : Rabs (B2R v + B2R p) <= 11 / 2 * M + eta) by (pose proof (abs_sum _ _ _ _ V P5); lra).
    destruct (add_ok prec emax Hp He H3 v p Fv Fp) as [Bs Fs]; [lra|]. unfold update_accurate. fold aa g d p. split; [exact Fs|]. pose proof (sum_err prec emax Hp H3 v p) as Es. rewrite <- Bs in Es. change (DblProofs.u prec) with u in *.
    assert (u * Rabs (B2R v + B2R p) <= u * (11 / 2 * M + eta)) by (apply Rmult_le_compat_l; lra). assert (u * eta <= / 8 * eta) by (apply Rmult_le_compat_r; lra).
    fold y. replace (B2R (add v p) - y) with ((B2R (add v p) - (B2R v + B2R p)) + ((B2R v + B2R p) - y)) by ring. eapply Rle_trans; [apply (abs_sum _ _ _ _ Es ES)|]. unfold accurate_error. fold t. lra.
  Qed.
  Lemma accurate_run M err L kmin (fexp : num -> num) (rate : num) : exp_works fexp err -> 0 < kmin <= 1 -> M <= top -> L <= top -> is_finite rate = true -> accurate_error prec emax M err L <= kmin * M -> forall steps (x : num) r,
    (forall v dt, In (v, dt) steps -> within M v /\ is_finite dt = true /\ 0 <= B2R rate * B2R dt <= L /\ exp (- (B2R rate * B2R dt)) <= 1 - kmin) -> is_finite x = true -> Rabs r <= M -> Rabs (B2R x - r) <= accurate_error prec emax M err L / kmin ->
    let x' := run_accurate prec emax Hp He fexp rate x steps in is_finite x' = true /\ Rabs (decay (B2R rate) r (map step_value steps)) <= M /\ Rabs (B2R x' - decay (B2R rate) r (map step_value steps)) <= accurate_error prec emax M err L / kmin.
  Proof.
    intros XW K0 MT LT Fr FE. set (E := accurate_error prec emax M err L / kmin). assert (EM : E <= M) by (unfold E; apply Rmult_le_reg_r with kmin; [lra|]; unfold Rdiv; rewrite Rmult_assoc, Rinv_l, Rmult_1_r by lra; lra). assert (EK : accurate_error prec emax M err L = kmin * E) by (unfold E; field; lra).
    induction steps as [|[v dt] steps IH]; intros x r S Fx R X; cbn [run_accurate fold_left map decay step_value fst snd]; [repeat split; assumption|]. destruct (S v dt (or_introl eq_refl)) as (V & Fd & K & Kg).
    assert (X2 : Rabs (B2R x) <= 2 * M) by (replace (B2R x) with ((B2R x - r) + r) by ring; pose proof (abs_sum _ _ _ _ X R); lra). destruct (accurate_step M err L fexp rate x v dt XW MT LT (conj Fx X2) V Fr Fd K) as [F' E']. set (g := exp (- (B2R rate * B2R dt))) in *. assert (G0 : 0 < g) by apply exp_pos.
    apply IH; [intros; apply S; right; assumption|exact F'|replace (B2R v + (r - B2R v) * g) with (B2R v + g * (r - B2R v)) by ring; apply convex; [lra|apply V|exact R]|]. set (x' := update_accurate _ _ _ _ _ _ _ _ _) in *. replace (B2R x' - (B2R v + (r - B2R v) * g)) with ((B2R x' - (B2R v + (B2R x - B2R v) * g)) + g * (B2R x - r)) by ring.
    assert (Q : Rabs (g * (B2R x - r)) <= (1 - kmin) * E) by (apply abs_prod; [rewrite Rabs_pos_eq; lra|exact X]). eapply Rle_trans; [apply (abs_sum _ _ _ _ E' Q)|]. lra.
  Qed.
  (** a constant input *)
  Lemma euler_settles rate v kmin : 0 <= kmin -> forall dts r, Forall (fun dt => kmin <= dt * rate <= 1) dts -> Rabs (euler rate r (map (fun dt => (v, dt)) dts) - v) <= (1 - kmin) ^ length dts * Rabs (r - v).
  Proof.
    intros K0. induction dts as [|dt dts IH]; intros r F; cbn [map euler length pow]; [lra|]. inversion F as [|? ? K F']; subst. eapply Rle_trans; [apply IH, F'|]. replace (r + dt * rate * (v - r) - v) with ((1 - dt * rate) * (r - v)) by ring. rewrite Rabs_mult, (Rabs_pos_eq (1 - dt * rate)) by lra. assert (0 <= (1 - kmin) ^ length dts) by (apply pow_le; lra). pose proof (Rabs_pos (r - v)).
    rewrite (Rmult_comm (1 - kmin)), Rmult_assoc. apply Rmult_le_compat_l; [assumption|]. apply Rmult_le_compat_r; lra.
  Qed.
  Lemma decay_settles rate v kmin : 0 <= kmin <= 1 -> forall dts r, Forall (fun dt => exp (- (rate * dt)) <= 1 - kmin) dts -> Rabs (decay rate r (map (fun dt => (v, dt)) dts) - v) <= (1 - kmin) ^ length dts * Rabs (r - v).
  Proof.
    intros K0. induction dts as [|dt dts IH]; intros r F; cbn [map decay length pow]; [lra|]. inversion F as [|? ? K F']; subst. eapply Rle_trans; [apply IH, F'|]. replace (v + (r - v) * exp (- (rate * dt)) - v) with (exp (- (rate * dt)) * (r - v)) by ring. rewrite Rabs_mult, (Rabs_pos_eq (exp _)) by (left; apply exp_pos). assert (0 <= (1 - kmin) ^ length dts) by (apply pow_le; lra). pose proof (Rabs_pos (r - v)).
    rewrite (Rmult_comm (1 - kmin)), Rmult_assoc. apply Rmult_le_compat_l; [assumption|]. apply Rmult_le_compat_r; lra.
  Qed.
End Numbers.
