(** Errors of quaternion products and rotations of vectors in floating point. *)
From Coq Require Import Bool ZArith Reals Lra Lia SpecFloat.
From Flocq Require Import Core IEEE754.BinarySingleNaN Relative Plus_error Mult_error.
From Verif Require Import Base DblModel DblProofs VecSpec VecModel VecProofs.
Local Open Scope R_scope.

Section Rotations.
  Context (prec emax : Z) (Hp : Prec_gt_0 prec) (He : Prec_lt_emax prec emax) (H11 : (11 <= prec)%Z) (H4 : (4 * prec <= emax)%Z).
  Notation num := (binary_float prec emax).
  Notation fx := (fexp prec emax).
  Notation add := (DblModel.add prec emax Hp He).
  Notation sub := (DblModel.sub prec emax Hp He).
  Notation mul := (DblModel.mul prec emax Hp He).
  Notation div := (DblModel.div prec emax Hp He).
  Notation const := (DblModel.const prec emax Hp He).
  Notation lt := (DblModel.lt prec emax).
  Notation le := (DblModel.le prec emax).
  Notation rnd := (DblProofs.rnd prec emax).
  Notation u := (DblProofs.u prec).
  Notation eta := (DblProofs.eta prec emax).
  Notation limit := (DblProofs.limit emax).
  Notation quat := (VecModel.quat prec emax).
  Notation vec := (VecModel.vec prec emax).
  Notation norm2 := (VecProofs.norm2 prec emax).
  Notation norm2v := (VecProofs.norm2v prec emax).
  Let H3 : (3 <= prec)%Z. Proof. lia. Qed.

  (** * a finite result comes from finite arguments *)
  Lemma add_back (a b : num) : is_finite (add a b) = true -> is_finite a = true /\ is_finite b = true.
  Proof. unfold DblModel.add. destruct a as [|s| |], b as [|s'| |]; try (cbn; intros H; discriminate H); try (split; reflexivity). cbn. destruct (Bool.eqb s s'); discriminate. Qed.
  Lemma mul_back (a b : num) : is_finite (mul a b) = true -> is_finite a = true /\ is_finite b = true.
  Proof. unfold DblModel.mul. destruct a as [|s| |], b as [|s'| |]; try (cbn; intros H; discriminate H); split; reflexivity. Qed.
  Lemma add_value (a b : num) : is_finite (add a b) = true -> B2R (add a b) = rnd (B2R a + B2R b).
  Proof.
    intros F. destruct (add_back a b F) as [Fa Fb]. pose proof (Bplus_correct prec emax Hp He mode_NE a b Fa Fb) as C. destruct (Rlt_bool _ _) in C; [destruct C as (C & _); exact C|]. destruct C as [C _]. exfalso. revert F C. unfold DblModel.add. destruct (Bplus _ _ _); cbn; try discriminate; destruct (overflow_to_inf _ _); discriminate.
  Qed.
  Lemma mul_value (a b : num) : is_finite (mul a b) = true -> B2R (mul a b) = rnd (B2R a * B2R b).
  Proof.
    intros F. pose proof (Bmult_correct prec emax Hp He mode_NE a b) as C. destruct (Rlt_bool _ _) in C; [destruct C as (C & _); exact C|]. exfalso. revert F C. unfold DblModel.mul. destruct (Bmult _ _ _); cbn; try discriminate; destruct (overflow_to_inf _ _); discriminate.
  Qed.
  Lemma sum_above (a b : num) : is_finite (add a b) = true -> 0 <= B2R a -> 0 <= B2R b -> B2R a <= B2R (add a b) /\ B2R b <= B2R (add a b).
  Proof. intros F A B. rewrite (add_value a b F). split; apply (rnd_lb prec emax Hp); try apply num_format; lra. Qed.
  Lemma square_small (a : num) : is_finite (mul a a) = true -> 0 <= B2R (mul a a) /\ (B2R (mul a a) <= 2 -> B2R a * B2R a <= 4).
  Proof.
    intros F. rewrite (mul_value a a F). split.
    - apply (rnd_lb prec emax Hp); [apply generic_format_0|apply square_pos].
    - intros H. destruct (Rle_lt_dec (B2R a * B2R a) 4) as [X|X]; [exact X|]. exfalso. assert (4 <= rnd (B2R a * B2R a)); [|lra]. apply (rnd_lb prec emax Hp); [|lra]. change 4 with (bpow radix2 2). apply (bpow_format prec emax); [|unfold emin; lia]. exact He || lia.
  Qed.
  (** what a quaternion that passes as normalized is *)
  Lemma normalized_facts (q : quat) : quat_is_normalized prec emax Hp He q = true -> finite_q prec emax q /\ Rabs (norm2 q - 1) <= (21 + / 2) * u.
  Proof.
    intros H. unfold quat_is_normalized in H. apply (near_one_back prec emax Hp He H11 H4) in H. destruct H as [Fc C]. pose proof (u_small prec H11) as U. pose proof (eta_small prec emax H11 H4) as N. apply abs_in in C.
    unfold quat_squared_length in *. set (m1 := mul (qw _ _ q) (qw _ _ q)) in *. set (m2 := mul (qx _ _ q) (qx _ _ q)) in *. set (m3 := mul (qy _ _ q) (qy _ _ q)) in *. set (m4 := mul (qz _ _ q) (qz _ _ q)) in *.
    destruct (add_back _ _ Fc) as [Fc3 G4]. destruct (add_back _ _ Fc3) as [Fc2 G3]. destruct (add_back _ _ Fc2) as [G1 G2].
    destruct (square_small _ G1) as [P1 Q1]. destruct (square_small _ G2) as [P2 Q2]. destruct (square_small _ G3) as [P3 Q3]. destruct (square_small _ G4) as [P4 Q4]. fold m1 in P1, Q1. fold m2 in P2, Q2. fold m3 in P3, Q3. fold m4 in P4, Q4.
    destruct (sum_above _ _ Fc2 P1 P2) as [A1 A2]. destruct (sum_above _ _ Fc3 ltac:(lra) P3) as [A3 A4]. destruct (sum_above _ _ Fc ltac:(lra) P4) as [A5 A6].
    assert (F : finite_q prec emax q) by (repeat split; [apply (mul_back _ _ G1)|apply (mul_back _ _ G2)|apply (mul_back _ _ G3)|apply (mul_back _ _ G4)]). split; [exact F|].
    assert (S16 : norm2 q <= 16). { unfold VecProofs.norm2. specialize (Q1 ltac:(lra)). specialize (Q2 ltac:(lra)). specialize (Q3 ltac:(lra)). specialize (Q4 ltac:(lra)). lra. }
    assert (S0 : 0 <= norm2 q). { unfold VecProofs.norm2. pose proof (square_pos (B2R (qw _ _ q))). pose proof (square_pos (B2R (qx _ _ q))). pose proof (square_pos (B2R (qy _ _ q))). pose proof (square_pos (B2R (qz _ _ q))). lra. }
    assert (B16 : 16 <= bpow radix2 (emax - 3)) by (change 16 with (bpow radix2 4); apply bpow_le; lia). destruct (quat_sum prec emax Hp He H11 H4 q F ltac:(lra)) as [_ E]. unfold quat_squared_length in E. fold m1 m2 m3 m4 in E. apply abs_in in E.
    assert (US : u * norm2 q <= / 2048 * norm2 q) by (apply Rmult_le_compat_r; lra). assert (S2 : norm2 q <= 1 + / 50) by lra. assert (US2 : u * norm2 q <= u * (1 + / 50)) by (apply Rmult_le_compat_l; lra). apply in_abs. split; lra.
  Qed.
  (** two products *)
  Lemma cross_err (a b c d : num) b' d' A B D : is_finite a = true -> is_finite b = true -> is_finite c = true -> is_finite d = true -> Rabs (B2R b - b') <= D -> Rabs (B2R d - d') <= D -> Rabs (B2R a) + Rabs (B2R c) <= A -> Rabs (B2R b) <= B -> Rabs (B2R d) <= B -> A * B <= bpow radix2 (emax - 3) ->
    is_finite (sub (mul a b) (mul c d)) = true /\ Rabs (B2R (sub (mul a b) (mul c d)) - (B2R a * b' - B2R c * d')) <= u * (2 + / 2000) * (A * B) + 3 * eta + A * D.
  Proof.
    intros Fa Fb Fc Fd Hb Hd HA Bb Bd L. pose proof (u_small prec H11) as U. pose proof (uu prec H11) as UU. pose proof (eta_small prec emax H11 H4) as N. pose proof (limit_large prec emax H11 H4) as LL. assert (UN : u * eta <= / 2048 * eta) by (apply Rmult_le_compat_r; lra).
    pose proof (Rabs_pos (B2R a)) as a0. pose proof (Rabs_pos (B2R c)) as c0. pose proof (Rabs_pos (B2R b)) as b0. pose proof (Rabs_pos (B2R d)) as d0. pose proof (Rabs_pos (B2R b - b')) as D0.
    assert (LQ : 4 * bpow radix2 (emax - 3) = limit). { change 4 with (bpow radix2 2). rewrite <- bpow_plus. unfold DblProofs.limit. f_equal. lia. }
    assert (T1 : Rabs (B2R a * B2R b) <= Rabs (B2R a) * B) by (rewrite Rabs_mult; apply Rmult_le_compat_l; lra). assert (T2 : Rabs (B2R c * B2R d) <= Rabs (B2R c) * B) by (rewrite Rabs_mult; apply Rmult_le_compat_l; lra).
    assert (AB : (Rabs (B2R a) + Rabs (B2R c)) * B <= A * B) by (apply Rmult_le_compat_r; lra). pose proof (Rabs_pos (B2R a * B2R b)) as p0. pose proof (Rabs_pos (B2R c * B2R d)) as p1.
    destruct (mul_err prec emax Hp He H11 a b Fa Fb ltac:(lra)) as [M1 N1]. destruct (mul_err prec emax Hp He H11 c d Fc Fd ltac:(lra)) as [M2 N2].
    destruct (acc_step_sub prec emax Hp He H11 H4 (mul a b) (mul c d) (B2R a * B2R b) (B2R c * B2R d) (Rabs (B2R a * B2R b)) u eta (u * (2 + / 2000)) (3 * eta)) as (X1 & X2 & _); try assumption; try lra.
    split; [exact X1|]. replace (B2R (sub (mul a b) (mul c d)) - (B2R a * b' - B2R c * d')) with (B2R (sub (mul a b) (mul c d)) - (B2R a * B2R b - B2R c * B2R d) + (B2R a * (B2R b - b') - B2R c * (B2R d - d'))) by ring. eapply Rle_trans; [apply Rabs_triang|].
    assert (Y : Rabs (B2R a * (B2R b - b') - B2R c * (B2R d - d')) <= A * D).
    { unfold Rminus at 1. eapply Rle_trans; [apply Rabs_triang|]. rewrite Rabs_Ropp, !Rabs_mult. assert (Rabs (B2R a) * Rabs (B2R b - b') <= Rabs (B2R a) * D) by (apply Rmult_le_compat_l; lra). assert (Rabs (B2R c) * Rabs (B2R d - d') <= Rabs (B2R c) * D) by (apply Rmult_le_compat_l; lra). assert ((Rabs (B2R a) + Rabs (B2R c)) * D <= A * D) by (apply Rmult_le_compat_r; lra). lra. }
    assert (u * (2 + / 2000) * (Rabs (B2R a * B2R b) + Rabs (B2R c * B2R d)) <= u * (2 + / 2000) * (A * B)) by (apply Rmult_le_compat_l; lra). lra.
  Qed.
  Lemma two_abs a b s : a * a + b * b <= s -> s <= 1 + / 90 -> Rabs a + Rabs b <= 143 / 100.
  Proof. intros H S. destruct (Rle_lt_dec (Rabs a + Rabs b) (143 / 100)) as [X|X]; [exact X|]. exfalso. pose proof (Rabs_pos a). pose proof (Rabs_pos b). assert (a * a = Rabs a * Rabs a) by (rewrite <- Rabs_mult; symmetry; apply abs_square). assert (b * b = Rabs b * Rabs b) by (rewrite <- Rabs_mult; symmetry; apply abs_square). pose proof (square_pos (Rabs a - Rabs b)). assert (143 / 100 * (143 / 100) <= (Rabs a + Rabs b) * (Rabs a + Rabs b)) by (apply Rmult_le_compat; lra). lra. Qed.
  Lemma one_abs a s : a * a <= s -> s <= 1 + / 90 -> Rabs a <= 101 / 100.
  Proof. intros H S. destruct (Rle_lt_dec (Rabs a) (101 / 100)) as [X|X]; [exact X|]. exfalso. assert (a * a = Rabs a * Rabs a) by (rewrite <- Rabs_mult; symmetry; apply abs_square). assert (101 / 100 * (101 / 100) <= Rabs a * Rabs a) by (apply Rmult_le_compat; lra). lra. Qed.
  Lemma product_bound a c b d A B : Rabs a + Rabs c <= A -> Rabs b <= B -> Rabs d <= B -> Rabs (a * b - c * d) <= A * B.
  Proof.
    intros HA Hb Hd. unfold Rminus. eapply Rle_trans; [apply Rabs_triang|]. rewrite Rabs_Ropp, !Rabs_mult. pose proof (Rabs_pos a). pose proof (Rabs_pos c). pose proof (Rabs_pos b). assert (Rabs a * Rabs b <= Rabs a * B) by (apply Rmult_le_compat_l; lra). assert (Rabs c * Rabs d <= Rabs c * B) by (apply Rmult_le_compat_l; lra). assert ((Rabs a + Rabs c) * B <= A * B) by (apply Rmult_le_compat_r; lra). lra.
  Qed.
  (** the last steps of a rotation, by component *)
  Lemma rotated_component (v uv uuv w : num) X Y M : is_finite v = true -> is_finite uv = true -> is_finite uuv = true -> is_finite w = true -> Rabs (B2R v) <= M -> M <= bpow radix2 (emax - 10) -> Rabs (B2R w) <= 101 / 100 ->
    Rabs (B2R uv - X) <= 287 / 100 * (u * M) + 3 * eta -> Rabs X <= 143 / 100 * M -> Rabs (B2R uuv - Y) <= 83 / 10 * (u * M) + 8 * eta -> Rabs Y <= 205 / 100 * M ->
    let r := add (add v (mul uv (mul (const 2 0) w))) (mul uuv (const 2 0)) in is_finite r = true /\ Rabs (B2R r - (B2R v + 2 * B2R w * X + 2 * Y)) <= 38 * (u * M) + 24 * eta.
  Proof.
    intros Fv Fuv Fuuv Fw Hv HM Hw HX X0 HY Y0. cbv zeta. pose proof (u_small prec H11) as U. pose proof (eta_small prec emax H11 H4) as N. pose proof (limit_large prec emax H11 H4) as LL. assert (UN : u * eta <= / 2048 * eta) by (apply Rmult_le_compat_r; lra). destruct (const_2 prec emax Hp He H3) as [K1 K2].
    pose proof (Rabs_pos (B2R v)) as v0. assert (M0 : 0 <= M) by lra. assert (UM : 0 <= u * M <= / 2048 * M) by (split; [apply Rmult_le_pos; lra|apply Rmult_le_compat_r; lra]).
    assert (LQ : 512 * bpow radix2 (emax - 10) = limit). { change 512 with (bpow radix2 9). rewrite <- bpow_plus. unfold DblProofs.limit. f_equal. lia. }
    assert (LQ3 : 128 * bpow radix2 (emax - 10) = bpow radix2 (emax - 3)). { change 128 with (bpow radix2 7). rewrite <- bpow_plus. f_equal. lia. }
    assert (B1 : 4 <= bpow radix2 (emax - 3)) by (change 4 with (bpow radix2 2); apply bpow_le; lia).
    assert (B2 : 1 <= bpow radix2 (emax - 10)) by (change 1 with (bpow radix2 0); apply bpow_le; lia).
    pose proof (abs_between _ _ _ HX) as Auv. pose proof (abs_between _ _ _ HY) as Auuv.
    (* twice w *)
    assert (D1 : B2R (mul (const 2 0) w) = 2 * B2R w /\ is_finite (mul (const 2 0) w) = true).
    { destruct (mul_ok prec emax Hp He H3 (const 2 0) w K2 Fw) as [A B]; [rewrite K1, Rabs_mult, (Rabs_pos_eq 2) by lra; lra|]. split; [|exact B]. rewrite A, K1. apply (rnd_exact prec emax). apply (double_format prec emax). lra. }
    destruct D1 as [W1 W2]. set (w2 := mul (const 2 0) w) in *.
    assert (D2 : B2R (mul uuv (const 2 0)) = 2 * B2R uuv /\ is_finite (mul uuv (const 2 0)) = true).
    { destruct (mul_ok prec emax Hp He H3 uuv (const 2 0) Fuuv K2) as [A B]; [rewrite K1, Rabs_mult, (Rabs_pos_eq 2) by lra; lra|]. split; [|exact B]. rewrite A, K1, Rmult_comm. apply (rnd_exact prec emax). apply (double_format prec emax). lra. }
    destruct D2 as [Z1 Z2].
    (* the middle term *)
    assert (P : Rabs (B2R uv * B2R w2) <= 293 / 100 * M + 7 * eta). { rewrite W1, !Rabs_mult, (Rabs_pos_eq 2) by lra. assert (Rabs (B2R uv) * (2 * Rabs (B2R w)) <= (144 / 100 * M + 3 * eta) * (2 * (101 / 100))) by (apply Rmult_le_compat; try apply Rabs_pos; try lra; pose proof (Rabs_pos (B2R w)); lra). lra. }
    destruct (mul_err prec emax Hp He H11 uv w2 Fuv W2 ltac:(lra)) as [M1 M2]. assert (UP : u * Rabs (B2R uv * B2R w2) <= u * (293 / 100 * M + 7 * eta)) by (apply Rmult_le_compat_l; lra).
    assert (E1 : Rabs (B2R (mul uv w2) - 2 * B2R w * X) <= 88 / 10 * (u * M) + 72 / 10 * eta).
    { replace (B2R (mul uv w2) - 2 * B2R w * X) with (B2R (mul uv w2) - B2R uv * B2R w2 + 2 * B2R w * (B2R uv - X)) by (rewrite W1; ring). eapply Rle_trans; [apply Rabs_triang|]. rewrite !Rabs_mult, (Rabs_pos_eq 2) by lra. assert (2 * Rabs (B2R w) * Rabs (B2R uv - X) <= 202 / 100 * (287 / 100 * (u * M) + 3 * eta)) by (apply Rmult_le_compat; try apply Rabs_pos; try lra; pose proof (Rabs_pos (B2R w)); lra). lra. }
    assert (P' : Rabs (2 * B2R w * X) <= 289 / 100 * M). { rewrite !Rabs_mult, (Rabs_pos_eq 2) by lra. assert (2 * Rabs (B2R w) * Rabs X <= 202 / 100 * (143 / 100 * M)) by (apply Rmult_le_compat; try apply Rabs_pos; try lra; pose proof (Rabs_pos (B2R w)); lra). lra. }
    pose proof (abs_between _ _ _ E1) as Am.
    assert (S1 : Rabs (B2R v + B2R (mul uv w2)) <= 39 / 10 * M + 8 * eta) by (eapply Rle_trans; [apply Rabs_triang|]; lra).
    destruct (add_ok prec emax Hp He H3 v (mul uv w2) Fv M1 ltac:(lra)) as [A1 A2]. pose proof (sum_err prec emax Hp H3 v (mul uv w2)) as R1. rewrite <- A1 in R1. assert (US1 : u * Rabs (B2R v + B2R (mul uv w2)) <= u * (39 / 10 * M + 8 * eta)) by (apply Rmult_le_compat_l; lra).
    set (a := add v (mul uv w2)) in *. assert (E2 : Rabs (B2R a - (B2R v + 2 * B2R w * X)) <= 127 / 10 * (u * M) + 73 / 10 * eta).
    { replace (B2R a - (B2R v + 2 * B2R w * X)) with (B2R a - (B2R v + B2R (mul uv w2)) + (B2R (mul uv w2) - 2 * B2R w * X)) by ring. eapply Rle_trans; [apply Rabs_triang|]. lra. }
    assert (S2 : Rabs (B2R a + B2R (mul uuv (const 2 0))) <= 82 / 10 * M + 24 * eta).
    { eapply Rle_trans; [apply Rabs_triang|]. rewrite Z1, Rabs_mult, (Rabs_pos_eq 2) by lra. apply abs_between in E2. assert (Rabs (B2R v + 2 * B2R w * X) <= M + 289 / 100 * M) by (eapply Rle_trans; [apply Rabs_triang|]; lra). lra. }
    destruct (add_ok prec emax Hp He H3 a (mul uuv (const 2 0)) A2 Z2 ltac:(lra)) as [B3 B4]. split; [exact B4|]. pose proof (sum_err prec emax Hp H3 a (mul uuv (const 2 0))) as R2. rewrite <- B3 in R2. assert (US2 : u * Rabs (B2R a + B2R (mul uuv (const 2 0))) <= u * (82 / 10 * M + 24 * eta)) by (apply Rmult_le_compat_l; lra).
    replace (B2R (add a (mul uuv (const 2 0))) - (B2R v + 2 * B2R w * X + 2 * Y)) with (B2R (add a (mul uuv (const 2 0))) - (B2R a + B2R (mul uuv (const 2 0))) + (B2R a - (B2R v + 2 * B2R w * X)) + 2 * (B2R uuv - Y)) by (rewrite Z1; ring).
    eapply Rle_trans; [apply Rabs_triang|]. rewrite (Rabs_mult 2), (Rabs_pos_eq 2) by lra. assert (Rabs (B2R (add a (mul uuv (const 2 0))) - (B2R a + B2R (mul uuv (const 2 0))) + (B2R a - (B2R v + 2 * B2R w * X))) <= u * (82 / 10 * M + 24 * eta) + (127 / 10 * (u * M) + 73 / 10 * eta)) by (eapply Rle_trans; [apply Rabs_triang|]; lra). lra.
  Qed.
  Definition bounded_by (v : vec) (M : R) : Prop := Rabs (B2R (vx _ _ v)) <= M /\ Rabs (B2R (vy _ _ v)) <= M /\ Rabs (B2R (vz _ _ v)) <= M.
  Lemma rotate_err (q : quat) (v : vec) M : quat_is_normalized prec emax Hp He q = true -> finite_v prec emax v -> bounded_by v M -> M <= bpow radix2 (emax - 10) ->
    let r := rotate prec emax Hp He q v in let w := B2R (qw _ _ q) in let x := B2R (qx _ _ q) in let y := B2R (qy _ _ q) in let z := B2R (qz _ _ q) in let a := B2R (vx _ _ v) in let b := B2R (vy _ _ v) in let c := B2R (vz _ _ v) in
    finite_v prec emax r /\ Rabs (B2R (vx _ _ r) - rot_x w x y z a b c) <= 38 * (u * M) + 24 * eta /\ Rabs (B2R (vy _ _ r) - rot_y w x y z a b c) <= 38 * (u * M) + 24 * eta /\ Rabs (B2R (vz _ _ r) - rot_z w x y z a b c) <= 38 * (u * M) + 24 * eta.
  Proof.
    intros Hq (Fa & Fb & Fc) (Ba & Bb & Bc) HM. destruct (normalized_facts q Hq) as [(Fw & Fx & Fy & Fz) HS]. cbv zeta. pose proof (u_small prec H11) as U. pose proof (eta_small prec emax H11 H4) as N. apply abs_in in HS. assert (S1 : norm2 q <= 1 + / 90) by lra. assert (NE := eq_refl (norm2 q)). unfold VecProofs.norm2 at 2 in NE.
    set (w := B2R (qw _ _ q)) in *. set (x := B2R (qx _ _ q)) in *. set (y := B2R (qy _ _ q)) in *. set (z := B2R (qz _ _ q)) in *. set (a := B2R (vx _ _ v)) in *. set (b := B2R (vy _ _ v)) in *. set (c := B2R (vz _ _ v)) in *.
    pose proof (square_pos w) as w0. pose proof (square_pos x) as x0. pose proof (square_pos y) as y0. pose proof (square_pos z) as z0.
    assert (Ayz : Rabs y + Rabs z <= 143 / 100) by (apply (two_abs y z (norm2 q)); lra). assert (Azx : Rabs z + Rabs x <= 143 / 100) by (apply (two_abs z x (norm2 q)); lra). assert (Axy : Rabs x + Rabs y <= 143 / 100) by (apply (two_abs x y (norm2 q)); lra). assert (Aw : Rabs w <= 101 / 100) by (apply (one_abs w (norm2 q)); lra).
    pose proof (Rabs_pos a) as a0. assert (M0 : 0 <= M) by lra. assert (UM : 0 <= u * M <= / 2048 * M) by (split; [apply Rmult_le_pos; lra|apply Rmult_le_compat_r; lra]). assert (UN : u * eta <= / 2048 * eta) by (apply Rmult_le_compat_r; lra).
    assert (LQ3 : 128 * bpow radix2 (emax - 10) = bpow radix2 (emax - 3)). { change 128 with (bpow radix2 7). rewrite <- bpow_plus. f_equal. lia. }
    assert (B1 : 1 <= bpow radix2 (emax - 10)) by (change 1 with (bpow radix2 0); apply bpow_le; lia).
    assert (Z : forall t : num, Rabs (B2R t - B2R t) <= 0) by (intros t; replace (B2R t - B2R t) with 0 by ring; rewrite Rabs_R0; lra). assert (L1 : 143 / 100 * M <= bpow radix2 (emax - 3)) by lra.
    destruct (cross_err (qy _ _ q) (vz _ _ v) (qz _ _ q) (vy _ _ v) _ _ (143 / 100) M 0 Fy Fc Fz Fb (Z _) (Z _) Ayz Bc Bb L1) as [C1 D1].
    destruct (cross_err (qz _ _ q) (vx _ _ v) (qx _ _ q) (vz _ _ v) _ _ (143 / 100) M 0 Fz Fa Fx Fc (Z _) (Z _) Azx Ba Bc L1) as [C2 D2].
    destruct (cross_err (qx _ _ q) (vy _ _ v) (qy _ _ q) (vx _ _ v) _ _ (143 / 100) M 0 Fx Fb Fy Fa (Z _) (Z _) Axy Bb Ba L1) as [C3 D3].
    fold x y z a b c in D1, D2, D3. unfold rotate, cross, vec_add, vec_scale. cbn [VecModel.vx VecModel.vy VecModel.vz].
    set (u1 := sub (mul (qy _ _ q) (vz _ _ v)) (mul (qz _ _ q) (vy _ _ v))) in *. set (u2 := sub (mul (qz _ _ q) (vx _ _ v)) (mul (qx _ _ q) (vz _ _ v))) in *. set (u3 := sub (mul (qx _ _ q) (vy _ _ v)) (mul (qy _ _ q) (vx _ _ v))) in *.
    assert (EE : u * (2 + / 2000) * (143 / 100 * M) + 3 * eta + 143 / 100 * 0 <= 287 / 100 * (u * M) + 3 * eta) by lra.
    pose proof (Rle_trans _ _ _ D1 EE) as E1. pose proof (Rle_trans _ _ _ D2 EE) as E2. pose proof (Rle_trans _ _ _ D3 EE) as E3.
    pose proof (product_bound _ _ _ _ _ _ Ayz Bc Bb) as X1. pose proof (product_bound _ _ _ _ _ _ Azx Ba Bc) as X2. pose proof (product_bound _ _ _ _ _ _ Axy Bb Ba) as X3.
    set (t1 := y * c - z * b) in *. set (t2 := z * a - x * c) in *. set (t3 := x * b - y * a) in *.
    assert (V1 : Rabs (B2R u1) <= 144 / 100 * M + 3 * eta) by (apply abs_between in E1; lra). assert (V2 : Rabs (B2R u2) <= 144 / 100 * M + 3 * eta) by (apply abs_between in E2; lra). assert (V3 : Rabs (B2R u3) <= 144 / 100 * M + 3 * eta) by (apply abs_between in E3; lra).
    assert (L2 : 143 / 100 * (144 / 100 * M + 3 * eta) <= bpow radix2 (emax - 3)) by lra.
    destruct (cross_err (qy _ _ q) u3 (qz _ _ q) u2 _ _ _ _ _ Fy C3 Fz C2 E3 E2 Ayz V3 V2 L2) as [G1 I1].
    destruct (cross_err (qz _ _ q) u1 (qx _ _ q) u3 _ _ _ _ _ Fz C1 Fx C3 E1 E3 Azx V1 V3 L2) as [G2 I2].
    destruct (cross_err (qx _ _ q) u2 (qy _ _ q) u1 _ _ _ _ _ Fx C2 Fy C1 E2 E1 Axy V2 V1 L2) as [G3 I3].
    fold x y z in I1, I2, I3. set (w1 := sub (mul (qy _ _ q) u3) (mul (qz _ _ q) u2)) in *. set (w2 := sub (mul (qz _ _ q) u1) (mul (qx _ _ q) u3)) in *. set (w3 := sub (mul (qx _ _ q) u2) (mul (qy _ _ q) u1)) in *.
    assert (EF : u * (2 + / 2000) * (143 / 100 * (144 / 100 * M + 3 * eta)) + 3 * eta + 143 / 100 * (287 / 100 * (u * M) + 3 * eta) <= 83 / 10 * (u * M) + 8 * eta) by lra.
    pose proof (Rle_trans _ _ _ I1 EF) as J1. pose proof (Rle_trans _ _ _ I2 EF) as J2. pose proof (Rle_trans _ _ _ I3 EF) as J3.
    assert (Y1 : Rabs (y * t3 - z * t2) <= 205 / 100 * M) by (eapply Rle_trans; [apply (product_bound _ _ _ _ _ _ Ayz X3 X2)|lra]). assert (Y2 : Rabs (z * t1 - x * t3) <= 205 / 100 * M) by (eapply Rle_trans; [apply (product_bound _ _ _ _ _ _ Azx X1 X3)|lra]). assert (Y3 : Rabs (x * t2 - y * t1) <= 205 / 100 * M) by (eapply Rle_trans; [apply (product_bound _ _ _ _ _ _ Axy X2 X1)|lra]).
    destruct (rotated_component (vx _ _ v) u1 w1 (qw _ _ q) t1 (y * t3 - z * t2) M Fa C1 G1 Fw Ba HM Aw E1 X1 J1 Y1) as [R1 R1'].
    destruct (rotated_component (vy _ _ v) u2 w2 (qw _ _ q) t2 (z * t1 - x * t3) M Fb C2 G2 Fw Bb HM Aw E2 X2 J2 Y2) as [R2 R2'].
    destruct (rotated_component (vz _ _ v) u3 w3 (qw _ _ q) t3 (x * t2 - y * t1) M Fc C3 G3 Fw Bc HM Aw E3 X3 J3 Y3) as [R3 R3'].
    fold w a b c in R1', R2', R3'.
    split; [repeat split; assumption|]. split; [|split].
    - replace (rot_x w x y z a b c) with (a + 2 * w * t1 + 2 * (y * t3 - z * t2)) by (unfold rot_x, t1, t2, t3; ring). exact R1'.
    - replace (rot_y w x y z a b c) with (b + 2 * w * t2 + 2 * (z * t1 - x * t3)) by (unfold rot_y, t1, t2, t3; ring). exact R2'.
    - replace (rot_z w x y z a b c) with (c + 2 * w * t3 + 2 * (x * t2 - y * t1)) by (unfold rot_z, t1, t2, t3; ring). exact R3'.
  Qed.

  (** * against the rotation by the quaternion of length 1 *)
  Lemma unit_rotation w x y z a b c i : let n := i * i in
    rot_x (w * i) (x * i) (y * i) (z * i) a b c = a + n * (rot_x w x y z a b c - a) /\ rot_y (w * i) (x * i) (y * i) (z * i) a b c = b + n * (rot_y w x y z a b c - b) /\ rot_z (w * i) (x * i) (y * i) (z * i) a b c = c + n * (rot_z w x y z a b c - c).
  Proof. cbv zeta. unfold rot_x, rot_y, rot_z. repeat split; ring. Qed.
  Lemma unit_length w x y z a b c : sq4 w x y z = 1 -> sq3 (rot_x w x y z a b c) (rot_y w x y z a b c) (rot_z w x y z a b c) = sq3 a b c.
  Proof.
    intros H. assert (E : sq3 (rot_x w x y z a b c) (rot_y w x y z a b c) (rot_z w x y z a b c) = sq3 a b c + 4 * (sq4 w x y z - 1) * sq3 (y * c - z * b) (z * a - x * c) (x * b - y * a)) by (unfold sq3, sq4, rot_x, rot_y, rot_z; ring). rewrite E, H. ring.
  Qed.
  Lemma scaled_one w x y z : 0 < sq4 w x y z -> sq4 (w / R_sqrt.sqrt (sq4 w x y z)) (x / R_sqrt.sqrt (sq4 w x y z)) (y / R_sqrt.sqrt (sq4 w x y z)) (z / R_sqrt.sqrt (sq4 w x y z)) = 1.
  Proof.
    intros P. set (L := R_sqrt.sqrt (sq4 w x y z)). assert (L0 : 0 < L) by (apply sqrt_lt_R0, P). transitivity (sq4 w x y z / (L * L)); [unfold sq4; field; lra|]. unfold L. rewrite sqrt_sqrt by lra. field. lra.
  Qed.
  Lemma rotate_unit_err (q : quat) (v : vec) M : quat_is_normalized prec emax Hp He q = true -> finite_v prec emax v -> bounded_by v M -> M <= bpow radix2 (emax - 10) ->
    let r := rotate prec emax Hp He q v in let L := R_sqrt.sqrt (norm2 q) in let w := B2R (qw _ _ q) / L in let x := B2R (qx _ _ q) / L in let y := B2R (qy _ _ q) / L in let z := B2R (qz _ _ q) / L in let a := B2R (vx _ _ v) in let b := B2R (vy _ _ v) in let c := B2R (vz _ _ v) in
    finite_v prec emax r /\ Rabs (B2R (vx _ _ r) - rot_x w x y z a b c) <= 192 * (u * M) + 24 * eta /\ Rabs (B2R (vy _ _ r) - rot_y w x y z a b c) <= 192 * (u * M) + 24 * eta /\ Rabs (B2R (vz _ _ r) - rot_z w x y z a b c) <= 192 * (u * M) + 24 * eta.
  Proof.
    intros Hq Fv BM HM. destruct (rotate_err q v M Hq Fv BM HM) as (Fr & R1 & R2 & R3). cbv zeta in *. split; [exact Fr|]. destruct (normalized_facts q Hq) as [_ HS]. destruct BM as (Ba & Bb & Bc). pose proof (u_small prec H11) as U. pose proof (eta_small prec emax H11 H4) as N. apply abs_in in HS. set (S0 := norm2 q) in *. assert (SP : 0 < S0) by lra. set (L := R_sqrt.sqrt S0). assert (LL : L * L = S0) by (apply sqrt_sqrt; lra). assert (L0 : 0 < L) by (apply sqrt_lt_R0; lra).
    assert (NE : S0 = sq4 (B2R (qw _ _ q)) (B2R (qx _ _ q)) (B2R (qy _ _ q)) (B2R (qz _ _ q))) by reflexivity. unfold sq4 in NE.
    set (w := B2R (qw _ _ q)) in *. set (x := B2R (qx _ _ q)) in *. set (y := B2R (qy _ _ q)) in *. set (z := B2R (qz _ _ q)) in *. set (a := B2R (vx _ _ v)) in *. set (b := B2R (vy _ _ v)) in *. set (c := B2R (vz _ _ v)) in *.
    pose proof (square_pos w) as w0. pose proof (square_pos x) as x0. pose proof (square_pos y) as y0. pose proof (square_pos z) as z0. pose proof (Rabs_pos a) as a0. assert (M0 : 0 <= M) by lra.
    assert (Ayz : Rabs y + Rabs z <= 143 / 100) by (apply (two_abs y z S0); lra). assert (Azx : Rabs z + Rabs x <= 143 / 100) by (apply (two_abs z x S0); lra). assert (Axy : Rabs x + Rabs y <= 143 / 100) by (apply (two_abs x y S0); lra). assert (Aw : Rabs w <= 101 / 100) by (apply (one_abs w S0); lra).
    pose proof (product_bound _ _ _ _ _ _ Ayz Bc Bb) as X1. pose proof (product_bound _ _ _ _ _ _ Azx Ba Bc) as X2. pose proof (product_bound _ _ _ _ _ _ Axy Bb Ba) as X3. set (t1 := y * c - z * b) in *. set (t2 := z * a - x * c) in *. set (t3 := x * b - y * a) in *.
    pose proof (product_bound _ _ _ _ _ _ Ayz X3 X2) as Y1. pose proof (product_bound _ _ _ _ _ _ Azx X1 X3) as Y2. pose proof (product_bound _ _ _ _ _ _ Axy X2 X1) as Y3.
    assert (TW : forall t, Rabs t <= 143 / 100 * M -> Rabs (2 * w * t) <= 289 / 100 * M). { intros t Ht. rewrite !Rabs_mult, (Rabs_pos_eq 2) by lra. assert (2 * Rabs w * Rabs t <= 202 / 100 * (143 / 100 * M)) by (apply Rmult_le_compat; try apply Rabs_pos; try lra; pose proof (Rabs_pos w); lra). lra. }
    assert (Q : forall t t', Rabs t <= 143 / 100 * M -> Rabs t' <= 143 / 100 * (143 / 100 * M) -> Rabs (2 * w * t + 2 * t') <= 7 * M). { intros t t' Ht Ht'. eapply Rle_trans; [apply Rabs_triang|]. apply TW in Ht. rewrite (Rabs_mult 2 t'), (Rabs_pos_eq 2) by lra. lra. }
    assert (K : Rabs (/ S0 - 1) <= (22 - / 5) * u). { apply in_abs. assert (IS : S0 * / S0 = 1) by (field; lra). assert (I1 : / S0 <= 1012 / 1000). { apply (Rmult_le_reg_l S0 _ _ SP). rewrite IS. lra. } assert (I0 : 0 < / S0) by (apply Rinv_0_lt_compat; lra). assert (D : / S0 - 1 = (1 - S0) * / S0) by (field; lra). rewrite D. assert (B0 : 0 <= (21 + / 2) * u) by lra.
      assert ((1 - S0) * / S0 <= (21 + / 2) * u * / S0) by (apply Rmult_le_compat_r; lra). assert (- ((21 + / 2) * u) * / S0 <= (1 - S0) * / S0) by (apply Rmult_le_compat_r; lra). assert ((21 + / 2) * u * / S0 <= (21 + / 2) * u * (1012 / 1000)) by (apply Rmult_le_compat_l; lra). lra. }
    destruct (unit_rotation w x y z a b c (/ L)) as (V1 & V2 & V3). assert (LI : / L * / L = / S0) by (rewrite <- LL; field; lra). rewrite LI in V1, V2, V3.
    assert (Fin : forall r0 p t Q0, Rabs (r0 - p) <= 38 * (u * M) + 24 * eta -> p = t + Q0 -> Rabs Q0 <= 7 * M -> Rabs (r0 - (t + / S0 * (p - t))) <= 192 * (u * M) + 24 * eta).
    { intros r0 p t Q0 H1 H2 H5. replace (r0 - (t + / S0 * (p - t))) with (r0 - p + - ((/ S0 - 1) * Q0)) by (rewrite H2; ring). eapply Rle_trans; [apply Rabs_triang|]. rewrite Rabs_Ropp, Rabs_mult. assert (Rabs (/ S0 - 1) * Rabs Q0 <= (22 - / 5) * u * (7 * M)) by (apply Rmult_le_compat; try apply Rabs_pos; assumption). assert (0 <= u * M) by (apply Rmult_le_pos; lra). lra. }
    unfold Rdiv. rewrite V1, V2, V3. split; [|split].
    - apply (Fin _ _ _ (2 * w * t1 + 2 * (y * t3 - z * t2)) R1); [unfold rot_x, t1, t2, t3; ring|apply Q; assumption].
    - apply (Fin _ _ _ (2 * w * t2 + 2 * (z * t1 - x * t3)) R2); [unfold rot_y, t1, t2, t3; ring|apply Q; assumption].
    - apply (Fin _ _ _ (2 * w * t3 + 2 * (x * t2 - y * t1)) R3); [unfold rot_z, t1, t2, t3; ring|apply Q; assumption].
  Qed.
  Lemma length_shift a b c a' b' c' E : Rabs (a - a') <= E -> Rabs (b - b') <= E -> Rabs (c - c') <= E -> R_sqrt.sqrt (sq3 a b c) <= R_sqrt.sqrt (sq3 a' b' c') + 2 * E.
  Proof.
    intros A B C. pose proof (Rabs_pos (a - a')) as E0. set (T := R_sqrt.sqrt (sq3 a' b' c')). assert (S0 : 0 <= sq3 a' b' c') by (unfold sq3; pose proof (square_pos a'); pose proof (square_pos b'); pose proof (square_pos c'); lra). assert (T0 : 0 <= T) by apply sqrt_pos. assert (TT : T * T = sq3 a' b' c') by (apply sqrt_sqrt, S0).
    rewrite <- (sqrt_square (T + 2 * E)) by lra. apply sqrt_le_1_alt. set (d1 := a - a') in *. set (d2 := b - b') in *. set (d3 := c - c') in *. replace a with (a' + d1) by (unfold d1; ring). replace b with (b' + d2) by (unfold d2; ring). replace c with (c' + d3) by (unfold d3; ring).
    assert (SUM : Rabs a' + Rabs b' + Rabs c' <= 2 * T).
    { destruct (Rle_lt_dec (Rabs a' + Rabs b' + Rabs c') (2 * T)) as [X|X]; [exact X|]. exfalso. assert (2 * T * (2 * T) <= (Rabs a' + Rabs b' + Rabs c') * (Rabs a' + Rabs b' + Rabs c')) by (apply Rmult_le_compat; lra). pose proof (Rabs_pos a'). pose proof (Rabs_pos b'). pose proof (Rabs_pos c').
      assert (AA : a' * a' = Rabs a' * Rabs a') by (rewrite <- Rabs_mult; symmetry; apply abs_square). assert (BB : b' * b' = Rabs b' * Rabs b') by (rewrite <- Rabs_mult; symmetry; apply abs_square). assert (CC : c' * c' = Rabs c' * Rabs c') by (rewrite <- Rabs_mult; symmetry; apply abs_square).
      unfold sq3 in TT. pose proof (square_pos (Rabs a' - Rabs b')). pose proof (square_pos (Rabs b' - Rabs c')). pose proof (square_pos (Rabs a' - Rabs c')). assert (2 * T * (2 * T) = 4 * (T * T)) by ring. assert (0 < T * T \/ T * T = 0) as [P|P] by (pose proof (square_pos T); lra); [lra|]. assert (T = 0) by (apply Rsqr_0_uniq; exact P). assert (Rabs a' * Rabs a' <= 0) by (pose proof (square_pos (Rabs b')); pose proof (square_pos (Rabs c')); lra). assert (Rabs b' * Rabs b' <= 0) by (pose proof (square_pos (Rabs a')); pose proof (square_pos (Rabs c')); lra). assert (Rabs c' * Rabs c' <= 0) by (pose proof (square_pos (Rabs a')); pose proof (square_pos (Rabs b')); lra).
      assert (Z : forall t, 0 <= t -> t * t <= 0 -> t = 0) by (intros t Ht Ht2; apply Rsqr_0_uniq; unfold Rsqr; pose proof (square_pos t); lra). rewrite (Z (Rabs a')), (Z (Rabs b')), (Z (Rabs c')) in X by assumption. lra. }
    assert (P : forall p d, Rabs d <= E -> p * d <= Rabs p * E /\ d * d <= E * E). { intros p d D. split; [eapply Rle_trans; [apply Rle_abs|]; rewrite Rabs_mult; apply Rmult_le_compat_l; [apply Rabs_pos|exact D]|]. rewrite <- abs_square, Rabs_mult. apply Rmult_le_compat; try apply Rabs_pos; exact D. }
    destruct (P a' d1 A) as [P1 P2]. destruct (P b' d2 B) as [P3 P4]. destruct (P c' d3 C) as [P5 P6]. assert ((Rabs a' + Rabs b' + Rabs c') * E <= 2 * T * E) by (apply Rmult_le_compat_r; lra). pose proof (square_pos E). unfold sq3 in *. lra.
  Qed.
  Lemma rotate_length (q : quat) (v : vec) M : quat_is_normalized prec emax Hp He q = true -> finite_v prec emax v -> bounded_by v M -> M <= bpow radix2 (emax - 10) ->
    Rabs (R_sqrt.sqrt (norm2v (rotate prec emax Hp He q v)) - R_sqrt.sqrt (norm2v v)) <= 384 * (u * M) + 48 * eta.
  Proof.
    intros Hq Fv BM HM. destruct (rotate_unit_err q v M Hq Fv BM HM) as (_ & R1 & R2 & R3). cbv zeta in *. destruct (normalized_facts q Hq) as [_ HS]. pose proof (u_small prec H11) as U. apply abs_in in HS.
    change (norm2 q) with (sq4 (B2R (qw _ _ q)) (B2R (qx _ _ q)) (B2R (qy _ _ q)) (B2R (qz _ _ q))) in *. assert (SP : 0 < sq4 (B2R (qw _ _ q)) (B2R (qx _ _ q)) (B2R (qy _ _ q)) (B2R (qz _ _ q))) by lra. pose proof (scaled_one _ _ _ _ SP) as ONE.
    apply (unit_length _ _ _ _ (B2R (vx _ _ v)) (B2R (vy _ _ v)) (B2R (vz _ _ v))) in ONE. change (norm2v v) with (sq3 (B2R (vx _ _ v)) (B2R (vy _ _ v)) (B2R (vz _ _ v))). rewrite <- ONE.
    pose proof (length_shift _ _ _ _ _ _ _ R1 R2 R3) as A. rewrite Rabs_minus_sym in R1, R2, R3. pose proof (length_shift _ _ _ _ _ _ _ R1 R2 R3) as B. apply in_abs. unfold VecProofs.norm2v. unfold sq3 at 1 in A. unfold sq3 at 2 in B. split; lra.
  Qed.

  (** * products of quaternions *)
  Lemma abs_product a b : Rabs (a * b) <= / 2 * (a * a + b * b).
  Proof. apply in_abs. pose proof (square_pos (a - b)). pose proof (square_pos (a + b)). split; lra. Qed.
  Lemma quat_mul_err (p q : quat) : finite_q prec emax p -> finite_q prec emax q -> norm2 p + norm2 q <= bpow radix2 (emax - 3) ->
    let r := quat_mul prec emax Hp He p q in let E := u * (4 + / 200) * (/ 2 * (norm2 p + norm2 q)) + 6 * eta in
    let w := B2R (qw _ _ p) in let x := B2R (qx _ _ p) in let y := B2R (qy _ _ p) in let z := B2R (qz _ _ p) in let w' := B2R (qw _ _ q) in let x' := B2R (qx _ _ q) in let y' := B2R (qy _ _ q) in let z' := B2R (qz _ _ q) in
    finite_q prec emax r /\ Rabs (B2R (qw _ _ r) - ham_w w x y z w' x' y' z') <= E /\ Rabs (B2R (qx _ _ r) - ham_x w x y z w' x' y' z') <= E /\ Rabs (B2R (qy _ _ r) - ham_y w x y z w' x' y' z') <= E /\ Rabs (B2R (qz _ _ r) - ham_z w x y z w' x' y' z') <= E.
  Proof.
    intros (F1 & F2 & F3 & F4) (G1 & G2 & G3 & G4) L. cbv zeta. pose proof (u_small prec H11) as U. assert (N1 : norm2 p = sq4 (B2R (qw _ _ p)) (B2R (qx _ _ p)) (B2R (qy _ _ p)) (B2R (qz _ _ p))) by reflexivity. assert (N2 : norm2 q = sq4 (B2R (qw _ _ q)) (B2R (qx _ _ q)) (B2R (qy _ _ q)) (B2R (qz _ _ q))) by reflexivity. unfold sq4 in N1, N2. assert (B0 := bpow_ge_0 radix2 (emax - 3)).
    assert (W : forall T e0, T <= / 2 * (norm2 p + norm2 q) -> e0 <= u * (4 + / 200) * T + 6 * eta -> e0 <= u * (4 + / 200) * (/ 2 * (norm2 p + norm2 q)) + 6 * eta). { intros T e0 HT H. eapply Rle_trans; [exact H|]. apply Rplus_le_compat_r, Rmult_le_compat_l; lra. }
    set (w := B2R (qw _ _ p)) in *. set (x := B2R (qx _ _ p)) in *. set (y := B2R (qy _ _ p)) in *. set (z := B2R (qz _ _ p)) in *. set (w' := B2R (qw _ _ q)) in *. set (x' := B2R (qx _ _ q)) in *. set (y' := B2R (qy _ _ q)) in *. set (z' := B2R (qz _ _ q)) in *.
    assert (NP : 0 <= norm2 p) by (rewrite N1; pose proof (square_pos w); pose proof (square_pos x); pose proof (square_pos y); pose proof (square_pos z); lra). assert (NQ : 0 <= norm2 q) by (rewrite N2; pose proof (square_pos w'); pose proof (square_pos x'); pose proof (square_pos y'); pose proof (square_pos z'); lra).
    assert (T1 : Rabs (w * w') + Rabs (x * x') + Rabs (y * y') + Rabs (z * z') <= / 2 * (norm2 p + norm2 q)). { pose proof (abs_product w w'). pose proof (abs_product x x'). pose proof (abs_product y y'). pose proof (abs_product z z'). lra. }
    assert (T2 : Rabs (w * x') + Rabs (x * w') + Rabs (y * z') + Rabs (z * y') <= / 2 * (norm2 p + norm2 q)). { pose proof (abs_product w x'). pose proof (abs_product x w'). pose proof (abs_product y z'). pose proof (abs_product z y'). lra. }
    assert (T3 : Rabs (w * y') + Rabs (y * w') + Rabs (z * x') + Rabs (x * z') <= / 2 * (norm2 p + norm2 q)). { pose proof (abs_product w y'). pose proof (abs_product y w'). pose proof (abs_product z x'). pose proof (abs_product x z'). lra. }
    assert (T4 : Rabs (w * z') + Rabs (z * w') + Rabs (x * y') + Rabs (y * x') <= / 2 * (norm2 p + norm2 q)). { pose proof (abs_product w z'). pose proof (abs_product z w'). pose proof (abs_product x y'). pose proof (abs_product y x'). lra. }
    destruct (four_products prec emax Hp He H11 H4 (qw _ _ p) (qw _ _ q) (qx _ _ p) (qx _ _ q) (qy _ _ p) (qy _ _ q) (qz _ _ p) (qz _ _ q) false false false F1 G1 F2 G2 F3 G3 F4 G4 ltac:(fold w x y z w' x' y' z'; lra)) as [X1 Y1].
    destruct (four_products prec emax Hp He H11 H4 (qw _ _ p) (qx _ _ q) (qx _ _ p) (qw _ _ q) (qy _ _ p) (qz _ _ q) (qz _ _ p) (qy _ _ q) true true false F1 G2 F2 G1 F3 G4 F4 G3 ltac:(fold w x y z w' x' y' z'; lra)) as [X2 Y2].
    destruct (four_products prec emax Hp He H11 H4 (qw _ _ p) (qy _ _ q) (qy _ _ p) (qw _ _ q) (qz _ _ p) (qx _ _ q) (qx _ _ p) (qz _ _ q) true true false F1 G3 F3 G1 F4 G2 F2 G4 ltac:(fold w x y z w' x' y' z'; lra)) as [X3 Y3].
    destruct (four_products prec emax Hp He H11 H4 (qw _ _ p) (qz _ _ q) (qz _ _ p) (qw _ _ q) (qx _ _ p) (qy _ _ q) (qy _ _ p) (qx _ _ q) true true false F1 G4 F4 G1 F2 G3 F3 G2 ltac:(fold w x y z w' x' y' z'; lra)) as [X4 Y4].
    fold w x y z w' x' y' z' in Y1, Y2, Y3, Y4. apply (W _ _ T1) in Y1. apply (W _ _ T2) in Y2. apply (W _ _ T3) in Y3. apply (W _ _ T4) in Y4. unfold sgn in *.
    split; [repeat split; assumption|]. unfold ham_w, ham_x, ham_y, ham_z. split; [|split; [|split]].
    - exact Y1.
    - exact Y2.
    - replace (w * y' - x * z' + y * w' + z * x') with (w * y' + y * w' + z * x' + - (x * z')) by ring. exact Y3.
    - replace (w * z' + x * y' - y * x' + z * w') with (w * z' + z * w' + x * y' + - (y * x')) by ring. exact Y4.
  Qed.
  Lemma ham_length w x y z w' x' y' z' : sq4 (ham_w w x y z w' x' y' z') (ham_x w x y z w' x' y' z') (ham_y w x y z w' x' y' z') (ham_z w x y z w' x' y' z') = sq4 w x y z * sq4 w' x' y' z'.
  Proof. unfold sq4, ham_w, ham_x, ham_y, ham_z. ring. Qed.
  Lemma quat_mul_length (p q : quat) : quat_is_normalized prec emax Hp He p = true -> quat_is_normalized prec emax Hp He q = true -> Rabs (norm2 (quat_mul prec emax Hp He p q) - 1) <= 64 * u /\ finite_q prec emax (quat_mul prec emax Hp He p q).
  Proof.
    intros Np Nq. destruct (normalized_facts p Np) as [Fp Sp]. destruct (normalized_facts q Nq) as [Fq Sq]. pose proof (u_small prec H11) as U. pose proof (uu prec H11) as UU. pose proof (eta_small prec emax H11 H4) as N. apply abs_in in Sp, Sq. assert (B16 : 16 <= bpow radix2 (emax - 3)) by (change 16 with (bpow radix2 4); apply bpow_le; lia).
    destruct (quat_mul_err p q Fp Fq ltac:(lra)) as (Fr & E1 & E2 & E3 & E4). cbv zeta in *. split; [|exact Fr]. set (r := quat_mul prec emax Hp He p q) in *.
    assert (UP : u * (4 + / 200) * (/ 2 * (norm2 p + norm2 q)) <= u * (4 + / 200) * (1 + / 90)) by (apply Rmult_le_compat_l; lra). assert (EE : u * (4 + / 200) * (/ 2 * (norm2 p + norm2 q)) + 6 * eta <= (4 + / 10) * u) by lra.
    pose proof (Rle_trans _ _ _ E1 EE) as D1. pose proof (Rle_trans _ _ _ E2 EE) as D2. pose proof (Rle_trans _ _ _ E3 EE) as D3. pose proof (Rle_trans _ _ _ E4 EE) as D4. clear E1 E2 E3 E4.
    pose proof (ham_length (B2R (qw _ _ p)) (B2R (qx _ _ p)) (B2R (qy _ _ p)) (B2R (qz _ _ p)) (B2R (qw _ _ q)) (B2R (qx _ _ q)) (B2R (qy _ _ q)) (B2R (qz _ _ q))) as HH. change (sq4 (B2R (qw _ _ p)) (B2R (qx _ _ p)) (B2R (qy _ _ p)) (B2R (qz _ _ p))) with (norm2 p) in HH. change (sq4 (B2R (qw _ _ q)) (B2R (qx _ _ q)) (B2R (qy _ _ q)) (B2R (qz _ _ q))) with (norm2 q) in HH.
    set (h1 := ham_w _ _ _ _ _ _ _ _) in *. set (h2 := ham_x _ _ _ _ _ _ _ _) in *. set (h3 := ham_y _ _ _ _ _ _ _ _) in *. set (h4 := ham_z _ _ _ _ _ _ _ _) in *. change (norm2 r) with (sq4 (B2R (qw _ _ r)) (B2R (qx _ _ r)) (B2R (qy _ _ r)) (B2R (qz _ _ r))).
    set (s1 := norm2 p) in *. set (s2 := norm2 q) in *. assert (PR : Rabs (s1 * s2 - 1) <= (44 + / 2) * u). { replace (s1 * s2 - 1) with ((s1 - 1) * (s2 - 1) + (s1 - 1) + (s2 - 1)) by ring. assert (Q : Rabs ((s1 - 1) * (s2 - 1)) <= / 90 * ((21 + / 2) * u)). { rewrite Rabs_mult. apply Rmult_le_compat; try apply Rabs_pos; apply in_abs; lra. } apply abs_in in Q. apply in_abs. split; lra. }
    apply abs_in in PR. assert (HS : sq4 h1 h2 h3 h4 <= 1 + / 40) by lra. assert (HA : Rabs h1 + Rabs h2 + Rabs h3 + Rabs h4 <= 21 / 10).
    { destruct (Rle_lt_dec (Rabs h1 + Rabs h2 + Rabs h3 + Rabs h4) (21 / 10)) as [X|X]; [exact X|]. exfalso. assert (21 / 10 * (21 / 10) <= (Rabs h1 + Rabs h2 + Rabs h3 + Rabs h4) * (Rabs h1 + Rabs h2 + Rabs h3 + Rabs h4)) by (apply Rmult_le_compat; lra).
      assert (A : forall h, h * h = Rabs h * Rabs h) by (intros h; rewrite <- Rabs_mult; symmetry; apply abs_square). unfold sq4 in HS. rewrite (A h1), (A h2), (A h3), (A h4) in HS. pose proof (square_pos (Rabs h1 - Rabs h2)). pose proof (square_pos (Rabs h1 - Rabs h3)). pose proof (square_pos (Rabs h1 - Rabs h4)). pose proof (square_pos (Rabs h2 - Rabs h3)). pose proof (square_pos (Rabs h2 - Rabs h4)). pose proof (square_pos (Rabs h3 - Rabs h4)). lra. }
    assert (P : forall n h, Rabs (n - h) <= (4 + / 10) * u -> Rabs (n * n - h * h) <= 2 * ((4 + / 10) * u * Rabs h) + u * / 100).
    { intros n h D. replace (n * n - h * h) with (2 * ((n - h) * h) + (n - h) * (n - h)) by ring. eapply Rle_trans; [apply Rabs_triang|]. rewrite (Rabs_mult 2), (Rabs_pos_eq 2) by lra. assert (Rabs ((n - h) * h) <= (4 + / 10) * u * Rabs h) by (rewrite Rabs_mult; apply Rmult_le_compat_r; [apply Rabs_pos|exact D]). assert (Rabs ((n - h) * (n - h)) <= (4 + / 10) * u * ((4 + / 10) * u)) by (rewrite Rabs_mult; apply Rmult_le_compat; try apply Rabs_pos; exact D). lra. }
    pose proof (P _ _ D1) as P1. pose proof (P _ _ D2) as P2. pose proof (P _ _ D3) as P3. pose proof (P _ _ D4) as P4. apply abs_in in P1, P2, P3, P4. assert ((4 + / 10) * u * (Rabs h1 + Rabs h2 + Rabs h3 + Rabs h4) <= (4 + / 10) * u * (21 / 10)) by (apply Rmult_le_compat_l; lra). unfold sq4 in *. apply in_abs. split; lra.
  Qed.
End Rotations.
