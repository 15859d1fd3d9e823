(** Lengths, normalization, products and rotations in floating point of any precision of at least 11 bits, double and float among them. *)
From Coq Require Import List Bool ZArith Reals Lra Lia.
From Flocq Require Import Core IEEE754.BinarySingleNaN.
From Verif Require Import Base DblSpec DblModel DblProofs DblTheorems VecSpec VecModel VecProofs VecRot.
Import ListNotations.
Local Open Scope R_scope.

Section Any.
  Context (prec emax : Z) (Hp : Prec_gt_0 prec) (He : Prec_lt_emax prec emax) (H11 : (11 <= prec)%Z) (H4 : (4 * prec <= emax)%Z).
  Notation num := (binary_float prec emax).
  Notation eps := (unit_error prec).
  Notation eta := (tiny prec emax).
  Notation root := R_sqrt.sqrt.
  Notation vec := (VecModel.vec prec emax).
  Notation quat := (VecModel.quat prec emax).
  Notation x_of v := (B2R (vx prec emax v)).
  Notation y_of v := (B2R (vy prec emax v)).
  Notation z_of v := (B2R (vz prec emax v)).
  Notation w_at q := (B2R (qw prec emax q)).
  Notation x_at q := (B2R (qx prec emax q)).
  Notation y_at q := (B2R (qy prec emax q)).
  Notation z_at q := (B2R (qz prec emax q)).
  (** squared lengths, in real numbers *)
  Notation square v := (sq3 (x_of v) (y_of v) (z_of v)).
  Notation square_q q := (sq4 (w_at q) (x_at q) (y_at q) (z_at q)).
  Notation each_v P v := (P (vx prec emax v) /\ P (vy prec emax v) /\ P (vz prec emax v)).
  Notation each_q P q := (P (qw prec emax q) /\ P (qx prec emax q) /\ P (qy prec emax q) /\ P (qz prec emax q)).
  Definition finite (a : num) : Prop := is_finite a = true.
  (** [a] is [t] up to [k] rounding errors *)
  Definition within (k : R) (a : num) (t : R) : Prop := Rabs (B2R a - t) <= k * eps * Rabs t + eta.
  Let H3 : (3 <= prec)%Z. Proof. lia. Qed.
  Lemma within_weaken k k' a t : k <= k' -> Rabs (B2R a - t) <= DblProofs.u prec * k * Rabs t + DblProofs.eta prec emax -> within k' a t.
  Proof.
    intros K H. unfold within. eapply Rle_trans; [exact H|]. change (unit_error prec) with (DblProofs.u prec). change (tiny prec emax) with (DblProofs.eta prec emax). pose proof (u_small prec H11). pose proof (Rabs_pos t). assert (k * (DblProofs.u prec * Rabs t) <= k' * (DblProofs.u prec * Rabs t)) by (apply Rmult_le_compat_r; [apply Rmult_le_pos; lra|exact K]). lra.
  Qed.

  (** * C178 *)
  Theorem C178_length : forall v : vec, each_v moderate v -> not_tiny (emax := emax) (square v) ->
    finite (vec_length prec emax Hp He v) /\ Rabs (B2R (vec_length prec emax Hp He v) - root (square v)) <= (3 + / 50) * eps * root (square v).
  Proof.
    intros v M T. destruct (moderate_vec prec emax Hp He H11 H4 v M) as (F & Tp & Q). destruct (length_err prec emax Hp He H11 H4 _ _ Q T Tp) as [A B]. split; [exact A|]. change eps with (DblProofs.u prec). fold (norm2v prec emax v) in *. change (square v) with (norm2v prec emax v). unfold vec_length. lra.
  Qed.
  Lemma long_not_tiny s : 4 * eps <= root s -> not_tiny (emax := emax) s.
  Proof.
    intros H. unfold not_tiny. assert (E0 : 0 < eps) by apply bpow_gt_0. assert (S0 : 0 < s). { destruct (Rlt_le_dec 0 s) as [X|X]; [exact X|]. rewrite sqrt_neg_0 in H by exact X. lra. }
    assert (16 * (eps * eps) <= s). { rewrite <- (sqrt_sqrt s) by lra. replace (16 * (eps * eps)) with (4 * eps * (4 * eps)) by ring. apply Rmult_le_compat; lra. }
    eapply Rle_trans; [|exact H0]. unfold unit_error. change 16 with (bpow radix2 4). rewrite <- !bpow_plus. apply bpow_le. lia.
  Qed.
  (** a vector longer than twice the machine epsilon *)
  Theorem C178_normalize : forall v : vec, each_v moderate v -> 4 * eps <= root (square v) ->
    let n := vec_normalized prec emax Hp He v in
    within (5 + / 19) (vx _ _ n) (x_of v / root (square v)) /\ within (5 + / 19) (vy _ _ n) (y_of v / root (square v)) /\ within (5 + / 19) (vz _ _ n) (z_of v / root (square v)) /\
    Rabs (square n - 1) <= (10 + / 5) * eps /\ vec_is_normalized prec emax Hp He n = true /\ snd (vec_normalize prec emax Hp He v) = vec_length prec emax Hp He v.
  Proof.
    intros v M L. cbv zeta. pose proof (long_not_tiny _ L) as T. destruct (moderate_vec prec emax Hp He H11 H4 v M) as (F & Tp & Q). change (square v) with (norm2v prec emax v) in *. destruct (length_err prec emax Hp He H11 H4 _ _ Q T Tp) as [A B]. destruct (normalize_factor prec emax Hp He H11 H4 _ _ Q T Tp) as [C D]. destruct (epsilon_ok prec emax Hp He H11 H4) as [E1 E2]. pose proof (u_small prec H11) as U.
    change eps with (DblProofs.u prec) in *. unfold vec_normalized, vec_normalize. change (sqrt prec emax Hp He (vec_squared_length prec emax Hp He v)) with (vec_length prec emax Hp He v) in *.
    assert (G : lt prec emax (epsilon prec emax Hp He) (vec_length prec emax Hp He v) = true). { rewrite lt_finite by assumption. apply Rlt_bool_true. rewrite E1. apply abs_in in B. assert (DblProofs.u prec * root (norm2v prec emax v) <= / 2048 * root (norm2v prec emax v)) by (apply Rmult_le_compat_r; lra). lra. }
    rewrite G. cbn [fst snd]. assert (P : 0 < norm2v prec emax v) by (apply (not_tiny_pos emax), T). destruct (scaled_unit_v prec emax Hp He H11 H4 v _ (4 + / 25) F P C ltac:(lra) D) as (_ & (X1 & X2 & X3) & Y & Z). cbv zeta in *.
    split; [apply (within_weaken (4 + / 25 + 1 + / 90)); [lra|exact X1]|]. split; [apply (within_weaken (4 + / 25 + 1 + / 90)); [lra|exact X2]|]. split; [apply (within_weaken (4 + / 25 + 1 + / 90)); [lra|exact X3]|]. split; [|split; [exact Z|reflexivity]].
    eapply Rle_trans; [exact Y|]. lra.
  Qed.
  (** a vector shorter than half of the machine epsilon stays as it is *)
  Theorem C178_short : forall v : vec, each_v finite v -> root (square v) <= eps -> vec_normalize prec emax Hp He v = (v, vec_length prec emax Hp He v).
  Proof.
    intros v F L. pose proof (u_small prec H11) as U. pose proof (uu prec H11) as UU. change eps with (DblProofs.u prec) in *. change (square v) with (norm2v prec emax v) in *. set (s := norm2v prec emax v) in *. assert (S0 : 0 <= s) by (unfold s, norm2v; pose proof (square_pos (x_of v)); pose proof (square_pos (y_of v)); pose proof (square_pos (z_of v)); lra).
    assert (S1 : s <= DblProofs.u prec * DblProofs.u prec). { rewrite <- (sqrt_sqrt s) by exact S0. apply Rmult_le_compat; try apply sqrt_pos; exact L. }
    assert (B1 : 1 <= bpow radix2 (emax - 3)) by (change 1 with (bpow radix2 0); apply bpow_le; lia). destruct (vec_sum prec emax Hp He H11 H4 v F ltac:(fold s; lra)) as [[Fc _] C]. fold s in C. set (c := vec_squared_length prec emax Hp He v) in *. apply abs_in in C.
    assert (ET : DblProofs.eta prec emax <= / 1000 * (DblProofs.u prec * DblProofs.u prec)). { rewrite eta_u. replace (/ 1000 * (DblProofs.u prec * DblProofs.u prec)) with (DblProofs.u prec * (/ 1000 * DblProofs.u prec)) by ring. apply Rmult_le_compat_l; [lra|]. assert (bpow radix2 (2 - emax) <= / 1024 * DblProofs.u prec); [|lra]. unfold DblProofs.u. change (/ 1024) with (bpow radix2 (-10)). rewrite <- bpow_plus. apply bpow_le. lia. }
    assert (US : DblProofs.u prec * s <= / 2048 * s) by (apply Rmult_le_compat_r; lra). assert (C1 : B2R c <= 11 / 10 * (DblProofs.u prec * DblProofs.u prec)) by lra.
    assert (C0 : 0 <= B2R c).
    { unfold c, vec_squared_length in *. destruct (add_back prec emax Hp He _ _ Fc) as [Fc2 G3]. destruct (add_back prec emax Hp He _ _ Fc2) as [G1 G2]. destruct (square_small prec emax Hp He H11 H4 _ G1) as [P1 _]. destruct (square_small prec emax Hp He H11 H4 _ G2) as [P2 _]. destruct (square_small prec emax Hp He H11 H4 _ G3) as [P3 _]. pose proof (sum_above prec emax Hp He _ _ Fc2 P1 P2) as [A1 _]. pose proof (sum_above prec emax Hp He _ _ Fc ltac:(lra) P3) as [A2 _]. lra. }
    destruct (epsilon_ok prec emax Hp He H11 H4) as [E1 E2]. assert (FL : is_finite (vec_length prec emax Hp He v) = true /\ B2R (vec_length prec emax Hp He v) = rnd prec emax (root (B2R c))).
    { unfold vec_length. fold c. destruct (Bsqrt_correct prec emax Hp He mode_NE c) as (A & B & _). split; [|exact A]. unfold sqrt. rewrite B. destruct c as [z|[|]| |[|] m e Hb]; try discriminate Fc; try reflexivity. exfalso. apply (Rlt_not_le _ _ (F2R_lt_0 radix2 (Float radix2 (Zneg m) e) eq_refl)). exact C0. }
    destruct FL as [FL VL]. unfold vec_normalize. rewrite lt_finite by assumption. rewrite Rlt_bool_false; [reflexivity|]. rewrite VL, <- (rnd_exact prec emax (B2R (epsilon prec emax Hp He))) by apply num_format. apply (rnd_le prec emax Hp). rewrite E1. rewrite <- (sqrt_square (2 * DblProofs.u prec)) by lra. apply sqrt_le_1_alt. lra.
  Qed.

  (** * C179 *)
  Theorem C179_normalize : forall q : quat, each_q moderate q -> not_tiny (emax := emax) (square_q q) ->
    let n := quat_normalized prec emax Hp He q in let l := snd (quat_normalize prec emax Hp He q) in
    within (5 + / 19) (qw _ _ n) (w_at q / root (square_q q)) /\ within (5 + / 19) (qx _ _ n) (x_at q / root (square_q q)) /\ within (5 + / 19) (qy _ _ n) (y_at q / root (square_q q)) /\ within (5 + / 19) (qz _ _ n) (z_at q / root (square_q q)) /\
    Rabs (square_q n - 1) <= (10 + / 5) * eps /\ quat_is_normalized prec emax Hp He n = true /\ Rabs (B2R l - root (square_q q)) <= (3 + / 50) * eps * root (square_q q).
  Proof.
    intros q M T. cbv zeta. destruct (moderate_quat prec emax Hp He H11 H4 q M) as (F & Tp & Q). change (square_q q) with (norm2 prec emax q) in *. destruct (length_err prec emax Hp He H11 H4 _ _ Q T Tp) as [A B]. destruct (normalize_factor prec emax Hp He H11 H4 _ _ Q T Tp) as [C D]. pose proof (u_small prec H11) as U.
    change eps with (DblProofs.u prec) in *. unfold quat_normalized, quat_normalize. cbn [fst snd]. change (sqrt prec emax Hp He (quat_squared_length prec emax Hp He q)) with (quat_length prec emax Hp He q) in *.
    assert (P : 0 < norm2 prec emax q) by (apply (not_tiny_pos emax), T). destruct (scaled_unit prec emax Hp He H11 H4 q _ (4 + / 25) F P C ltac:(lra) D) as (_ & (X0 & X1 & X2 & X3) & Y & Z). cbv zeta in *.
    split; [apply (within_weaken (4 + / 25 + 1 + / 90)); [lra|exact X0]|]. split; [apply (within_weaken (4 + / 25 + 1 + / 90)); [lra|exact X1]|]. split; [apply (within_weaken (4 + / 25 + 1 + / 90)); [lra|exact X2]|]. split; [apply (within_weaken (4 + / 25 + 1 + / 90)); [lra|exact X3]|]. split; [|split; [exact Z|lra]].
    eapply Rle_trans; [exact Y|]. lra.
  Qed.
  (** the cheaper normalization, with a tolerance of up to the square root of 4.5 eps: still accepted as normalized *)
  Theorem C179_try_fast : forall (tolerance : num) (q : quat), finite tolerance -> B2R tolerance * B2R tolerance <= 9 / 2 * eps -> each_q moderate q -> not_tiny (emax := emax) (square_q q) ->
    let n := quat_normalize_try_fast prec emax Hp He tolerance q in
    within (5 + 3 / 4) (qw _ _ n) (w_at q / root (square_q q)) /\ within (5 + 3 / 4) (qx _ _ n) (x_at q / root (square_q q)) /\ within (5 + 3 / 4) (qy _ _ n) (y_at q / root (square_q q)) /\ within (5 + 3 / 4) (qz _ _ n) (z_at q / root (square_q q)) /\
    Rabs (square_q n - 1) <= (11 + / 2) * eps /\ quat_is_normalized prec emax Hp He n = true.
  Proof.
    intros tol q Ft Tol M T. cbv zeta. destruct (moderate_quat prec emax Hp He H11 H4 q M) as (F & Tp & Q). change (square_q q) with (norm2 prec emax q) in *. pose proof (u_small prec H11) as U. assert (P : 0 < norm2 prec emax q) by (apply (not_tiny_pos emax), T). change eps with (DblProofs.u prec) in *.
    assert (X : exists f, is_finite f = true /\ Rabs (B2R f - / root (norm2 prec emax q)) <= DblProofs.u prec * (47 / 10) * / root (norm2 prec emax q) /\ quat_normalize_try_fast prec emax Hp He tol q = quat_scale prec emax Hp He q f).
    { unfold quat_normalize_try_fast. destruct (lt prec emax _ tol) eqn:E.
      - destruct (fast_factor prec emax Hp He H11 H4 _ tol _ Q T Ft Tol E) as [A B]. eexists. split; [exact A|]. split; [exact B|reflexivity].
      - destruct (normalize_factor prec emax Hp He H11 H4 _ _ Q T Tp) as [A B]. eexists. split; [exact A|]. split; [|reflexivity]. eapply Rle_trans; [exact B|]. apply Rmult_le_compat_r; [apply Rlt_le, Rinv_0_lt_compat, sqrt_lt_R0, P|lra]. }
    destruct X as (f & Ff & Ef & ->). destruct (scaled_unit prec emax Hp He H11 H4 q f (47 / 10) F P Ff ltac:(lra) Ef) as (_ & (X0 & X1 & X2 & X3) & Y & Z). cbv zeta in *.
    split; [apply (within_weaken (47 / 10 + 1 + / 90)); [lra|exact X0]|]. split; [apply (within_weaken (47 / 10 + 1 + / 90)); [lra|exact X1]|]. split; [apply (within_weaken (47 / 10 + 1 + / 90)); [lra|exact X2]|]. split; [apply (within_weaken (47 / 10 + 1 + / 90)); [lra|exact X3]|]. split; [|exact Z].
    eapply Rle_trans; [exact Y|]. lra.
  Qed.
  (** what is_normalized accepts: finite components, and a length that is 1 up to 22 rounding errors in its square *)
  Theorem C179_accepted : forall q : quat, quat_is_normalized prec emax Hp He q = true -> each_q finite q /\ Rabs (square_q q - 1) <= (21 + / 2) * eps.
  Proof. intros q H. apply (normalized_facts prec emax Hp He H11 H4 q H). Qed.

  (** * C180 *)
  Theorem C180_product : forall p q : quat, each_q finite p -> each_q finite q -> square_q p + square_q q <= bpow radix2 (emax - 3) ->
    let r := quat_mul prec emax Hp He p q in let err := (4 + / 200) * eps * ((square_q p + square_q q) / 2) + 6 * eta in
    let H f := f (w_at p) (x_at p) (y_at p) (z_at p) (w_at q) (x_at q) (y_at q) (z_at q) in
    each_q finite r /\ Rabs (w_at r - H ham_w) <= err /\ Rabs (x_at r - H ham_x) <= err /\ Rabs (y_at r - H ham_y) <= err /\ Rabs (z_at r - H ham_z) <= err.
  Proof.
    intros p q Fp Fq L. cbv zeta. destruct (quat_mul_err prec emax Hp He H11 H4 p q Fp Fq L) as (A & B & C & D & E). cbv zeta in *. split; [exact A|].
    assert (X : (4 + / 200) * eps * ((square_q p + square_q q) / 2) + 6 * eta = DblProofs.u prec * (4 + / 200) * (/ 2 * (norm2 prec emax p + norm2 prec emax q)) + 6 * DblProofs.eta prec emax). { change eps with (DblProofs.u prec). change eta with (DblProofs.eta prec emax). change (square_q p) with (norm2 prec emax p). change (square_q q) with (norm2 prec emax q). unfold Rdiv. ring. }
    rewrite X. repeat split; assumption.
  Qed.
  (** the product of two quaternions that are accepted as normalized has length 1 up to 64 rounding errors in its square, and is accepted after normalizing it *)
  Theorem C180_chain : forall p q : quat, quat_is_normalized prec emax Hp He p = true -> quat_is_normalized prec emax Hp He q = true ->
    let r := quat_mul prec emax Hp He p q in each_q finite r /\ Rabs (square_q r - 1) <= 64 * eps /\ quat_is_normalized prec emax Hp He (quat_normalized prec emax Hp He r) = true.
  Proof.
    intros p q Np Nq. cbv zeta. destruct (quat_mul_length prec emax Hp He H11 H4 p q Np Nq) as [A F]. set (r := quat_mul prec emax Hp He p q) in *. split; [exact F|]. split; [exact A|]. pose proof (u_small prec H11) as U. apply abs_in in A. assert (NE : norm2 prec emax r = square_q r) by reflexivity. unfold sq4 in NE.
    pose proof (square_pos (w_at r)). pose proof (square_pos (x_at r)). pose proof (square_pos (y_at r)). pose proof (square_pos (z_at r)). assert (K : 2 <= bpow radix2 (emax / 2 - 3)) by (change 2 with (bpow radix2 1); apply bpow_le; assert (4 <= emax / 2)%Z by (apply Z.div_le_lower_bound; lia); lia).
    assert (M : forall x, x * x <= norm2 prec emax r -> Rabs x <= bpow radix2 (emax / 2 - 3)). { intros x X. destruct (Rle_lt_dec (Rabs x) 2) as [Y|Y]; [lra|]. exfalso. assert (2 * 2 <= Rabs x * Rabs x) by (apply Rmult_le_compat; lra). rewrite <- Rabs_mult, abs_square in *. lra. }
    apply C179_normalize; [destruct F as (F1 & F2 & F3 & F4); repeat split; try assumption; apply M; lra|]. unfold not_tiny. change (square_q r) with (norm2 prec emax r). assert (bpow radix2 (12 - emax) <= / 2) by (change (/ 2) with (bpow radix2 (-1)); apply bpow_le; lia). lra.
  Qed.

  (** * C181 *)
  (** rotating by a quaternion that is accepted as normalized: every component is that of the rotation by the quaternion of length 1, up to 192 rounding errors of the largest component *)
  Theorem C181_rotate : forall (q : quat) (v : vec) (m : R), quat_is_normalized prec emax Hp He q = true -> each_v finite v -> Rabs (x_of v) <= m -> Rabs (y_of v) <= m -> Rabs (z_of v) <= m -> m <= bpow radix2 (emax - 10) ->
    let r := rotate prec emax Hp He q v in let l := root (square_q q) in let err := 192 * (eps * m) + 24 * eta in
    let T f := f (w_at q / l) (x_at q / l) (y_at q / l) (z_at q / l) (x_of v) (y_of v) (z_of v) in
    each_v finite r /\ Rabs (x_of r - T rot_x) <= err /\ Rabs (y_of r - T rot_y) <= err /\ Rabs (z_of r - T rot_z) <= err.
  Proof. intros q v m N F A B C M. apply (rotate_unit_err prec emax Hp He H11 H4 q v m N F (conj A (conj B C)) M). Qed.
  (** the same without dividing by the length *)
  Theorem C181_formula : forall (q : quat) (v : vec) (m : R), quat_is_normalized prec emax Hp He q = true -> each_v finite v -> Rabs (x_of v) <= m -> Rabs (y_of v) <= m -> Rabs (z_of v) <= m -> m <= bpow radix2 (emax - 10) ->
    let r := rotate prec emax Hp He q v in let err := 38 * (eps * m) + 24 * eta in
    let T f := f (w_at q) (x_at q) (y_at q) (z_at q) (x_of v) (y_of v) (z_of v) in
    Rabs (x_of r - T rot_x) <= err /\ Rabs (y_of r - T rot_y) <= err /\ Rabs (z_of r - T rot_z) <= err.
  Proof. intros q v m N F A B C M. apply (rotate_err prec emax Hp He H11 H4 q v m N F (conj A (conj B C)) M). Qed.
  (** lengths are kept *)
  Theorem C181_length : forall (q : quat) (v : vec) (m : R), quat_is_normalized prec emax Hp He q = true -> each_v finite v -> Rabs (x_of v) <= m -> Rabs (y_of v) <= m -> Rabs (z_of v) <= m -> m <= bpow radix2 (emax - 10) ->
    Rabs (root (square (rotate prec emax Hp He q v)) - root (square v)) <= 384 * (eps * m) + 48 * eta.
  Proof. intros q v m N F A B C M. apply (rotate_length prec emax Hp He H11 H4 q v m N F (conj A (conj B C)) M). Qed.
  (** the rotations in question are rotations: they keep lengths *)
  Theorem C181_rotation : forall w x y z a b c : R, sq4 w x y z = 1 -> sq3 (rot_x w x y z a b c) (rot_y w x y z a b c) (rot_z w x y z a b c) = sq3 a b c.
  Proof. apply unit_length. Qed.

  (** * C182 *)
  Notation equal := (VecModel.equal prec emax Hp He).
  Lemma abs_ok (a : num) : is_finite a = true -> B2R (VecModel.abs prec emax Hp He a) = Rabs (B2R a) /\ is_finite (VecModel.abs prec emax Hp He a) = true.
  Proof.
    intros Fa. destruct (const_0 prec emax Hp He H3) as [Z1 Z2]. unfold VecModel.abs. rewrite lt_finite by assumption. rewrite Z1. case Rlt_bool_spec; intros Ha; [rewrite B2R_Bopp, is_finite_Bopp, Rabs_left by exact Ha; split; [reflexivity|exact Fa]|rewrite Rabs_pos_eq by exact Ha; split; [reflexivity|exact Fa]].
  Qed.
  (** every finite number equals itself *)
  Theorem C182_itself : forall a e : num, finite a -> finite e -> 0 <= B2R e -> equal a a e = true.
  Proof.
    intros a e Fa Fe E0. unfold VecModel.equal. destruct (sub_ok prec emax Hp He H3 a a Fa Fa) as [A B]; [replace (B2R a - B2R a) with 0 by ring; rewrite Rabs_R0; apply bpow_ge_0|]. replace (B2R a - B2R a) with 0 in A by ring. rewrite (rnd_0 prec emax) in A. destruct (abs_ok _ B) as [C D]. rewrite A, Rabs_R0 in C. destruct (abs_ok a Fa) as [G1 G2]. set (z := VecModel.abs prec emax Hp He (sub prec emax Hp He a a)) in *. set (p := VecModel.abs prec emax Hp He a) in *.
    pose proof (Bmult_correct prec emax Hp He mode_NE p e) as M. fold (mul prec emax Hp He) in M. destruct (Rlt_bool _ _) eqn:Bd in M.
    - destruct M as (M & F & _). rewrite G2, Fe in F. apply le_cases. right. right. split; [exact D|]. split; [exact F|]. rewrite C. unfold mul. rewrite M, G1. apply (rnd_lb prec emax Hp); [apply generic_format_0|]. apply Rmult_le_pos; [apply Rabs_pos|exact E0].
    - apply le_cases. right. left. split; [|destruct z; (reflexivity || discriminate D)]. assert (NZ : B2R p * B2R e <> 0). { intros Z. rewrite Z in Bd. rewrite round_0, Rabs_R0, Rlt_bool_true in Bd by (apply valid_rnd_N || apply bpow_gt_0). discriminate Bd. }
      assert (S1 : Bsign p = false). { destruct p as [s|s| |s mm ee Hb]; try discriminate G2; [exfalso; apply NZ; cbn; ring|]. destruct s; [|reflexivity]. exfalso. assert (B2R (B754_finite true mm ee Hb) < 0) by (apply F2R_lt_0; reflexivity). rewrite G1 in H. pose proof (Rabs_pos (B2R a)). lra. }
      assert (S2 : Bsign e = false). { destruct e as [s|s| |s mm ee Hb]; try discriminate Fe; [exfalso; apply NZ; cbn; ring|]. destruct s; [|reflexivity]. exfalso. assert (B2R (B754_finite true mm ee Hb) < 0) by (apply F2R_lt_0; reflexivity). lra. }
      rewrite S1, S2 in M. unfold mul. destruct (Bmult mode_NE p e) as [s|s| |s mm ee Hb]; cbn in M; try discriminate M. inversion M. reflexivity.
  Qed.
  (** the answer is that of comparing the difference with e times the first number, up to three rounding errors *)
  Theorem C182_equal : forall a b e : num, finite a -> finite b -> finite e -> 0 <= B2R e -> Rabs (B2R a - B2R b) <= bpow radix2 (emax - 1) -> Rabs (B2R a) * B2R e <= bpow radix2 (emax - 1) ->
    (Rabs (B2R a - B2R b) <= B2R e * Rabs (B2R a) -> equal a b e = true) /\ (equal a b e = true -> Rabs (B2R a - B2R b) <= (1 + 3 * eps) * (B2R e * Rabs (B2R a)) + 2 * eta).
  Proof.
    intros a b e Fa Fb Fe E0 L1 L2. destruct (sub_ok prec emax Hp He H3 a b Fa Fb L1) as [A B]. destruct (abs_ok _ B) as [C D]. destruct (abs_ok a Fa) as [G1 G2]. assert (X0 : 0 <= Rabs (B2R a) * B2R e) by (apply Rmult_le_pos; [apply Rabs_pos|exact E0]). destruct (mul_ok prec emax Hp He H3 (VecModel.abs prec emax Hp He a) e G2 Fe) as [M1 M2]; [rewrite G1, Rabs_pos_eq by exact X0; exact L2|].
    unfold VecModel.equal. rewrite le_finite by assumption. rewrite C, A, M1, G1. split.
    - intros H. apply Rle_bool_true. unfold rnd. rewrite <- round_NE_abs by apply (fexp_correct prec emax Hp). apply (rnd_le prec emax Hp). rewrite Rmult_comm. exact H.
    - case Rle_bool_spec; [intros H _|discriminate]. pose proof (diff_err prec emax Hp H3 a b) as E1. pose proof (rnd_err prec emax Hp (Rabs (B2R a) * B2R e)) as E2. rewrite (Rabs_pos_eq (Rabs (B2R a) * B2R e)) in E2 by exact X0. apply abs_in in E2. rewrite (Rmult_comm (B2R e)). set (x := Rabs (B2R a) * B2R e) in *. pose proof (u_small prec H11) as U. pose proof (uu prec H11) as UU. pose proof (eta_small prec emax H11 H4) as N.
      change eps with (DblProofs.u prec). change eta with (DblProofs.eta prec emax). set (d := Rabs (B2R a - B2R b)) in *. assert (D1 : d <= Rabs (rnd prec emax (B2R a - B2R b)) + DblProofs.u prec * d). { unfold d at 1. replace (B2R a - B2R b) with (rnd prec emax (B2R a - B2R b) + (B2R a - B2R b - rnd prec emax (B2R a - B2R b))) at 1 by ring. eapply Rle_trans; [apply Rabs_triang|]. rewrite (Rabs_minus_sym (B2R a - B2R b)). lra. }
      destruct (Rle_lt_dec d ((1 + 3 * DblProofs.u prec) * x + 2 * DblProofs.eta prec emax)) as [Y|Y]; [exact Y|]. exfalso. assert (Q : (1 - DblProofs.u prec) * ((1 + 3 * DblProofs.u prec) * x + 2 * DblProofs.eta prec emax) <= (1 - DblProofs.u prec) * d) by (apply Rmult_le_compat_l; lra). assert (0 <= (DblProofs.u prec - 3 * (DblProofs.u prec * DblProofs.u prec)) * x) by (apply Rmult_le_pos; lra). assert (DblProofs.u prec * DblProofs.eta prec emax <= / 2048 * DblProofs.eta prec emax) by (apply Rmult_le_compat_r; lra). lra.
  Qed.
End Any.

(** * double and float *)
Notation v64 := (Vec 53 1024).
Notation q64 := (Quat 53 1024).
Lemma dbl_value m e : (Z.abs m < 2 ^ 53)%Z -> (-1074 <= e <= 900)%Z -> B2R (dbl m e) = F2R (Float radix2 m e) /\ is_finite (dbl m e) = true.
Proof.
  intros M E. assert (B : Rabs (F2R (Float radix2 m e)) <= bpow radix2 (53 + e)). { rewrite <- F2R_Zabs. unfold F2R. cbn [Fnum Fexp]. rewrite bpow_plus. apply Rmult_le_compat_r; [apply bpow_ge_0|]. rewrite <- IZR_Zpower by lia. apply IZR_le. change (radix2 ^ 53)%Z with (2 ^ 53)%Z. lia. }
  apply const_ok; [lia|eapply Rle_trans; [exact B|]; apply bpow_le; lia|]. apply (generic_format_FLT radix2 (-1074) 53). exists (Float radix2 m e); [reflexivity|exact M|cbn; lia].
Qed.
Ltac value m e := let H := fresh "V" in assert (H : B2R (dbl m e) = F2R (Float radix2 m e)) by (apply dbl_value; vm_compute; (reflexivity || (split; discriminate))); unfold F2R in H; cbn [Fnum Fexp] in H; let b := eval cbn in (bpow radix2 e) in change (bpow radix2 e) with b in H.
Lemma moderate_dbl m e : (Z.abs m < 2 ^ 53)%Z -> (-1074 <= e <= 400)%Z -> moderate (dbl m e).
Proof.
  intros M E. destruct (dbl_value m e M ltac:(lia)) as [V F]. split; [exact F|]. rewrite V, <- F2R_Zabs. unfold F2R. cbn [Fnum Fexp]. eapply Rle_trans; [|apply (bpow_le radix2 (53 + e)); change (1024 / 2)%Z with 512%Z; lia]. rewrite bpow_plus. apply Rmult_le_compat_r; [apply bpow_ge_0|]. rewrite <- IZR_Zpower by lia. apply IZR_le. change (radix2 ^ 53)%Z with (2 ^ 53)%Z. lia.
Qed.
Ltac mod_dbl := apply moderate_dbl; vm_compute; (reflexivity || (split; discriminate)).
Lemma not_tiny_64 x : 1 <= x -> not_tiny (emax := 1024) x.
Proof. intros H. unfold not_tiny. eapply Rle_trans; [|exact H]. change 1 with (bpow radix2 0). apply bpow_le. lia. Qed.
Definition zero64 : binary_float 53 1024 := dbl 0 0.
Definition tolerance64 : binary_float 53 1024 := dbl 6369050386395830 (-78).
Definition v_ex := v64 (dbl 3 0) (dbl 4 0) (dbl 12 0).
Definition q_ex := q64 (dbl 1 0) (dbl 2 0) (dbl (-4) 0) (dbl 10 0).
Lemma square_ex : sq3 (B2R (vx _ _ v_ex)) (B2R (vy _ _ v_ex)) (B2R (vz _ _ v_ex)) = 169.
Proof. unfold v_ex. cbn [vx vy vz]. value 3%Z 0%Z. value 4%Z 0%Z. value 12%Z 0%Z. rewrite V, V0, V1. unfold sq3. lra. Qed.
Lemma square_q_ex : sq4 (B2R (qw _ _ q_ex)) (B2R (qx _ _ q_ex)) (B2R (qy _ _ q_ex)) (B2R (qz _ _ q_ex)) = 121.
Proof. unfold q_ex. cbn [qw qx qy qz]. value 1%Z 0%Z. value 2%Z 0%Z. value (-4)%Z 0%Z. value 10%Z 0%Z. rewrite V, V0, V1, V2. unfold sq4. lra. Qed.
Lemma root_169 : R_sqrt.sqrt 169 = 13. Proof. replace 169 with (13 * 13) by lra. apply sqrt_square. lra. Qed.
Lemma root_121 : R_sqrt.sqrt 121 = 11. Proof. replace 121 with (11 * 11) by lra. apply sqrt_square. lra. Qed.
Example C178_length_ex : moderate (vx _ _ v_ex) /\ moderate (vy _ _ v_ex) /\ moderate (vz _ _ v_ex) /\ not_tiny (emax := 1024) (sq3 (B2R (vx _ _ v_ex)) (B2R (vy _ _ v_ex)) (B2R (vz _ _ v_ex))) /\ same (vec_length 53 1024 p53 e1024 v_ex) (dbl 13 0).
Proof. split; [mod_dbl|]. split; [mod_dbl|]. split; [mod_dbl|]. split; [rewrite square_ex; apply not_tiny_64; lra|]. vm_compute. reflexivity. Qed.
Example C178_normalize_ex : 4 * unit_error 53 <= R_sqrt.sqrt (sq3 (B2R (vx _ _ v_ex)) (B2R (vy _ _ v_ex)) (B2R (vz _ _ v_ex))) /\ let n := vec_normalized 53 1024 p53 e1024 v_ex in same (vx _ _ n) (dbl 8314337773607070 (-55)) /\ vec_is_normalized 53 1024 p53 e1024 n = true.
Proof.
  split; [|vm_compute; split; reflexivity]. rewrite square_ex, root_169. assert (unit_error 53 <= 1) by (unfold unit_error; change 1 with (bpow radix2 0); apply bpow_le; lia). lra.
Qed.
Example C178_short_ex : let v := v64 (dbl 1 (-54)) zero64 zero64 in R_sqrt.sqrt (sq3 (B2R (vx _ _ v)) (B2R (vy _ _ v)) (B2R (vz _ _ v))) <= unit_error 53 /\ same (vx _ _ (vec_normalized 53 1024 p53 e1024 v)) (dbl 1 (-54)).
Proof.
  cbv zeta. split; [|vm_compute; reflexivity]. cbn [vx vy vz]. unfold zero64. destruct (dbl_value 1 (-54) eq_refl ltac:(split; discriminate)) as [V _]. destruct (dbl_value 0 0 eq_refl ltac:(split; discriminate)) as [V0 _]. rewrite V, V0, F2R_bpow, F2R_0. unfold sq3. replace (bpow radix2 (-54) * bpow radix2 (-54) + 0 * 0 + 0 * 0) with (bpow radix2 (-54) * bpow radix2 (-54)) by ring. rewrite sqrt_square by apply bpow_ge_0. apply bpow_le. lia.
Qed.
(** squares overflow and underflow long before lengths do: a vector of length 2^600 has infinite length and its normalized form is zero, one of length 2^-600 has length 0 *)
Theorem C178_overflow_refuted : let v := v64 (dbl 1 600) zero64 zero64 in let n := vec_normalized 53 1024 p53 e1024 v in
  same (vec_length 53 1024 p53 e1024 v) (B754_infinity false) /\ same (vx _ _ n) zero64 /\ same (vy _ _ n) zero64 /\ same (vz _ _ n) zero64 /\ vec_is_normalized 53 1024 p53 e1024 n = false.
Proof. vm_compute. repeat split; reflexivity. Qed.
Theorem C178_underflow_refuted : same (vec_length 53 1024 p53 e1024 (v64 (dbl 1 (-600)) zero64 zero64)) zero64.
Proof. vm_compute. reflexivity. Qed.
Example C179_normalize_ex : moderate (qw _ _ q_ex) /\ moderate (qx _ _ q_ex) /\ moderate (qy _ _ q_ex) /\ moderate (qz _ _ q_ex) /\ not_tiny (emax := 1024) (sq4 (B2R (qw _ _ q_ex)) (B2R (qx _ _ q_ex)) (B2R (qy _ _ q_ex)) (B2R (qz _ _ q_ex))) /\
  let (n, l) := quat_normalize 53 1024 p53 e1024 q_ex in same l (dbl 11 0) /\ quat_is_normalized 53 1024 p53 e1024 n = true /\ quat_is_normalized 53 1024 p53 e1024 q_ex = false.
Proof. split; [mod_dbl|]. split; [mod_dbl|]. split; [mod_dbl|]. split; [mod_dbl|]. split; [rewrite square_q_ex; apply not_tiny_64; lra|]. vm_compute. repeat split; reflexivity. Qed.
(** the default tolerance, as a double *)
Example C179_try_fast_ex : is_finite tolerance64 = true /\ B2R tolerance64 * B2R tolerance64 <= 9 / 2 * unit_error 53 /\
  let q := q64 (dbl 1 0) (dbl 1 (-27)) zero64 (dbl (-1) (-28)) in let n := quat_normalize_try_fast 53 1024 p53 e1024 tolerance64 q in quat_is_normalized 53 1024 p53 e1024 n = true /\ quat_is_normalized 53 1024 p53 e1024 q = true.
Proof.
  split; [vm_compute; reflexivity|]. split; [|vm_compute; split; reflexivity]. unfold tolerance64. destruct (dbl_value 6369050386395830 (-78) eq_refl ltac:(split; discriminate)) as [V _]. rewrite V. unfold F2R, unit_error. cbn [Fnum Fexp]. replace (bpow radix2 (Z.opp 53)) with (bpow radix2 (-78) * bpow radix2 25) by (rewrite <- bpow_plus; f_equal). set (b := bpow radix2 (-78)). assert (b0 : 0 < b) by apply bpow_gt_0.
  assert (6369050386395830 * 6369050386395830 * b <= 9 / 2 * bpow radix2 25); [|assert (6369050386395830 * 6369050386395830 * b * b <= 9 / 2 * bpow radix2 25 * b) by (apply Rmult_le_compat_r; lra); lra].
  assert (E1 : b * bpow radix2 78 = 1) by (unfold b; rewrite <- bpow_plus; reflexivity). assert (E2 : bpow radix2 25 * bpow radix2 78 = 10141204801825835211973625643008) by (rewrite <- bpow_plus; change (25 + 78)%Z with 103%Z; rewrite <- IZR_Zpower by lia; reflexivity).
  apply (Rmult_le_reg_r (bpow radix2 78)); [apply bpow_gt_0|]. rewrite (Rmult_assoc _ b), E1, (Rmult_assoc _ (bpow radix2 25)), E2. lra.
Qed.
(** nothing protects against the zero quaternion or against overflow *)
Theorem C179_zero_refuted : let n := quat_normalized 53 1024 p53 e1024 (q64 zero64 zero64 zero64 zero64) in is_nan (qw _ _ n) = true /\ is_nan (qx _ _ n) = true /\ is_nan (qy _ _ n) = true /\ is_nan (qz _ _ n) = true.
Proof. vm_compute. repeat split; reflexivity. Qed.
Theorem C179_overflow_refuted : let n := quat_normalized 53 1024 p53 e1024 (q64 (dbl 1 600) zero64 zero64 zero64) in same (qw _ _ n) zero64 /\ quat_is_normalized 53 1024 p53 e1024 n = false.
Proof. vm_compute. repeat split; reflexivity. Qed.
Example C179_single_ex : quat_is_normalized 24 128 p24 e128 (quat_normalized 24 128 p24 e128 (Quat 24 128 (flo 1 0) (flo 2 0) (flo (-3) 0) (flo 5 0))) = true /\ (11 <= 24)%Z /\ (4 * 24 <= 128)%Z /\ (4 * 53 <= 1024)%Z.
Proof. split; [vm_compute; reflexivity|lia]. Qed.
Definition unit_ex := quat_normalized 53 1024 p53 e1024 q_ex.
Example C180_product_ex : quat_is_normalized 53 1024 p53 e1024 unit_ex = true /\ quat_is_normalized 53 1024 p53 e1024 (quat_mul 53 1024 p53 e1024 unit_ex unit_ex) = true.
Proof. vm_compute. split; reflexivity. Qed.
(** a product of quaternions accepted as normalized may be refused *)
Theorem C180_product_refuted : let q := q64 (dbl 4503599627370499 (-52)) zero64 zero64 zero64 in quat_is_normalized 53 1024 p53 e1024 q = true /\ quat_is_normalized 53 1024 p53 e1024 (quat_mul 53 1024 p53 e1024 q q) = false.
Proof. vm_compute. split; reflexivity. Qed.
Example C181_rotate_ex : quat_is_normalized 53 1024 p53 e1024 unit_ex = true /\ is_finite (vx _ _ v_ex) = true /\ Rabs (B2R (vx _ _ v_ex)) <= 12 /\ Rabs (B2R (vy _ _ v_ex)) <= 12 /\ Rabs (B2R (vz _ _ v_ex)) <= 12 /\ 12 <= bpow radix2 (1024 - 10).
Proof.
  split; [vm_compute; reflexivity|]. split; [vm_compute; reflexivity|]. unfold v_ex. cbn [vx vy vz]. value 3%Z 0%Z. value 4%Z 0%Z. value 12%Z 0%Z. rewrite V, V0, V1. split; [rewrite Rabs_pos_eq by lra; lra|]. split; [rewrite Rabs_pos_eq by lra; lra|]. split; [rewrite Rabs_pos_eq by lra; lra|]. apply Rle_trans with (bpow radix2 4); [cbn; lra|apply bpow_le; discriminate].
Qed.
Notation equal64 := (VecModel.equal 53 1024 p53 e1024).
Notation ample64 := (ample_epsilon 53 1024 p53 e1024).
Example C182_equal_ex : equal64 (dbl 1 0) (dbl 9007199254740991 (-53)) ample64 = true /\ equal64 (dbl 1 0) (dbl 9007199254740900 (-53)) ample64 = false.
Proof. vm_compute. split; reflexivity. Qed.
(** the order of the arguments matters, infinity does not equal itself, and zero equals nothing but zero *)
Theorem C182_symmetric_refuted : let a := dbl 1 0 in let b := dbl 9007199254740976 (-53) in equal64 a b ample64 = true /\ equal64 b a ample64 = false.
Proof. vm_compute. split; reflexivity. Qed.
Theorem C182_infinity_refuted : equal64 (B754_infinity false) (B754_infinity false) ample64 = false.
Proof. vm_compute. reflexivity. Qed.
Theorem C182_zero_refuted : equal64 zero64 (dbl 1 (-1074)) ample64 = false /\ equal64 (dbl 1 (-1074)) zero64 (dbl 1 0) = true.
Proof. vm_compute. split; reflexivity. Qed.
Print Assumptions C178_length.
Print Assumptions C178_normalize.
Print Assumptions C178_short.
Print Assumptions C179_normalize.
Print Assumptions C179_try_fast.
Print Assumptions C179_accepted.
Print Assumptions C180_product.
Print Assumptions C180_chain.
Print Assumptions C181_rotate.
Print Assumptions C181_formula.
Print Assumptions C181_length.
Print Assumptions C181_rotation.
Print Assumptions C182_itself.
Print Assumptions C182_equal.
Print Assumptions C178_overflow_refuted.
Print Assumptions C178_underflow_refuted.
Print Assumptions C179_zero_refuted.
Print Assumptions C179_overflow_refuted.
Print Assumptions C180_product_refuted.
Print Assumptions C182_symmetric_refuted.
Print Assumptions C182_infinity_refuted.
Print Assumptions C182_zero_refuted.
