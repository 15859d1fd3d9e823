(** Differences and first-order filters of floating-point numbers of any precision, for every history of inputs. *)
From Coq Require Import List Arith Bool ZArith Reals Lra Lia.
From Flocq Require Import Core Sterbenz IEEE754.BinarySingleNaN.
From Verif Require Import DblSpec DblModel DblProofs DblTheorems VecTheorems MomSpec MomProofs MomPoly HstSpec HstModel HstProofs.
Import ListNotations.
Local Open Scope R_scope.

Section Any.
  Context (prec emax : Z) (Hp : Prec_gt_0 prec) (He : Prec_lt_emax prec emax) (H3 : (3 <= prec)%Z).
  Notation num := (binary_float prec emax).
  Notation eps := (unit_error prec).
  Notation eta := (tiny prec emax).
  Notation top := (bpow radix2 (emax - 5)).

  (** * C196 *)
  (** every result is the difference of the last two inputs, rounded; in particular it has the same sign, and it is 0 just if they are equal *)
  Theorem C196_delta : forall (l : list num) (initial : num), Forall ordinary (initial :: l) ->
    Forall2 (fun r d => is_finite r = true /\ Rabs (B2R r - d) <= eps * Rabs d /\ (B2R r = 0 <-> d = 0) /\ 0 <= B2R r * d) (delta_run prec emax Hp He initial l) (differences (B2R initial) (values l)).
  Proof.
    induction l as [|v l IH]; intros i F; cbn [delta_run delta_call differences values map]; [constructor|]. inversion F as [|? ? Oi F']; subst. inversion F' as [|? ? Ov Fl]; subst. constructor; [|apply IH, F'].
    destruct (small_sub prec emax Hp He H3 v i Ov Oi) as [B Fi]. pose proof (diff_err prec emax Hp H3 v i) as E. rewrite <- B in E. change (u prec) with eps in E. set (r := B2R (sub prec emax Hp He v i)) in *. set (d := B2R v - B2R i) in *. destruct (u_range prec H3) as [U0 U8]. split; [exact Fi|]. split; [exact E|].
    assert (ED : eps * Rabs d <= / 8 * Rabs d) by (apply Rmult_le_compat_r; [apply Rabs_pos|exact U8]). split.
    - split; intros Z; [|rewrite Z, Rabs_R0, Rmult_0_r in E; apply Rabs_def2_eq || (pose proof (Rabs_pos (r - 0)); destruct (Req_dec r 0) as [Q|Q]; [exact Q|]; pose proof (Rabs_pos_lt (r - 0) ltac:(lra)); lra)]. rewrite Z in E. replace (0 - d) with (- d) in E by ring. rewrite Rabs_Ropp in E. destruct (Req_dec d 0) as [Q|Q]; [exact Q|]. pose proof (Rabs_pos_lt d Q). lra.
    - apply Rabs_le_inv in E. destruct (Rle_or_lt 0 d) as [P|P]; [rewrite (Rabs_pos_eq d) in * by lra; apply Rmult_le_pos; lra|]. rewrite (Rabs_left d) in * by lra. replace (r * d) with (- r * - d) by ring. apply Rmult_le_pos; lra.
  Qed.
  (** without rounding if every input is between half and twice the one before it, or all are whole numbers below 2^(precision - 2) *)
  Theorem C196_exact : forall (l : list num) (initial : num), Forall ordinary (initial :: l) ->
    (forall k a b, nth_error (initial :: l) k = Some a -> nth_error (initial :: l) (S k) = Some b -> B2R a / 2 <= B2R b <= 2 * B2R a) \/ (integers (initial :: l) /\ Forall (fun v => Rabs (B2R v) <= bpow radix2 (prec - 2)) (initial :: l)) ->
    values (delta_run prec emax Hp He initial l) = differences (B2R initial) (values l).
  Proof.
    induction l as [|v l IH]; intros i F C; cbn [delta_run delta_call differences values map]; [reflexivity|]. inversion F as [|? ? Oi F']; subst. inversion F' as [|? ? Ov Fl]; subst. destruct (small_sub prec emax Hp He H3 v i Ov Oi) as [B Fi]. f_equal.
    - rewrite B. apply rnd_exact. destruct C as [C|[I W]].
      + apply sterbenz; [apply FLT_exp_valid; exact Hp|apply FLT_exp_monotone|apply num_format|apply num_format|apply (C 0%nat); reflexivity].
      + inversion I as [|? ? [zi Zi] I']; subst. inversion I' as [|? ? [zv Zv] _]; subst. inversion W as [|? ? Wi W']; subst. inversion W' as [|? ? Wv _]; subst. rewrite Zi, Zv in *. rewrite <- minus_IZR. apply (int_exact prec emax He H3). eapply (int_of_real prec H3); [|apply Rle_refl]. rewrite minus_IZR. eapply Rle_trans; [apply (abs_diff _ _ _ _ Wv Wi)|]. replace (prec - 1)%Z with (1 + (prec - 2))%Z by lia. rewrite bpow_plus. change (bpow radix2 1) with 2. lra.
    - apply IH; [exact F'|]. destruct C as [C|[I W]]; [left; intros k a b A1 A2; apply (C (S k)); assumption|right]. inversion I; inversion W; subst. split; assumption.
  Qed.
  (** whatever came before, the result depends on the last two inputs only; the first result of a new object is the input itself *)
  Theorem C196_history : forall (before after : list num) (initial last next : num), delta_run prec emax Hp He initial (before ++ last :: next :: after) = delta_run prec emax Hp He initial (before ++ [last]) ++ delta_run prec emax Hp He last (next :: after).
  Proof.
    induction before as [|b before IH]; intros after initial last next; [reflexivity|]. cbn [app delta_run delta_call]. f_equal. apply IH.
  Qed.
  Theorem C196_first : forall (v : num) l, is_finite v = true -> exists r, nth_error (delta_run prec emax Hp He (delta_init prec emax Hp He) (v :: l)) 0 = Some r /\ B2R r = B2R v /\ is_finite r = true.
  Proof.
    intros v l F. eexists. split; [reflexivity|]. unfold sub. destruct (const_0 prec emax Hp He H3) as [Z FZ]. pose proof (Bminus_correct prec emax Hp He mode_NE v (delta_init prec emax Hp He) F FZ) as G. unfold delta_init in *. rewrite Z, Rminus_0_r in G. cbn [round_mode] in G. rewrite round_generic in G by (try apply valid_rnd_N; apply generic_format_B2R). rewrite Rlt_bool_true in G by (apply abs_B2R_lt_emax). split; apply G.
  Qed.

  (** * C197 *)
  (** for every history of inputs up to M and time steps with k <= dt * rate <= 1: the value differs from the one of the same steps with real numbers by at most the error of one step over k *)
  Theorem C197_fast : forall M kmin (rate initial : num) steps, 0 < kmin -> M <= top -> is_finite rate = true -> fast_error prec emax M <= kmin * M -> within M initial ->
    (forall v dt, In (v, dt) steps -> within M v /\ is_finite dt = true /\ kmin <= B2R dt * B2R rate <= 1) ->
    let x := run_fast prec emax Hp He rate initial steps in is_finite x = true /\ Rabs (B2R x) <= M + fast_error prec emax M / kmin /\ Rabs (B2R x - euler (B2R rate) (B2R initial) (map step_value steps)) <= fast_error prec emax M / kmin.
  Proof.
    intros M kmin rate x0 steps K MT Fr FE [F0 X0] S. cbv zeta. assert (E0 : 0 <= fast_error prec emax M / kmin).
    { assert (M0 : 0 <= M) by (eapply Rle_trans; [apply Rabs_pos|exact X0]). unfold fast_error, Rdiv. destruct (u_range prec H3) as [U0 _]. destruct (eta_u prec emax He H3) as [T0 _]. apply Rmult_le_pos; [|left; apply Rinv_0_lt_compat, K]. apply Rplus_le_le_0_compat; [repeat apply Rmult_le_pos; lra|apply Rmult_le_pos; lra]. }
    destruct (fast_run prec emax Hp He H3 M kmin rate K MT Fr FE steps x0 (B2R x0) S F0 X0) as (A & B & C); [replace (B2R x0 - B2R x0) with 0 by ring; rewrite Rabs_R0; exact E0|]. split; [exact A|]. split; [|exact C]. set (x := B2R (run_fast _ _ _ _ _ _ _)) in *. set (r := euler _ _ _) in *. replace x with (r + (x - r)) by ring. apply abs_sum; assumption.
  Qed.
  (** an input that does not change is approached geometrically, up to the same error *)
  Theorem C197_fast_settles : forall M kmin (rate initial v : num) dts, 0 < kmin -> M <= top -> is_finite rate = true -> fast_error prec emax M <= kmin * M -> within M initial -> within M v ->
    (forall dt, In dt dts -> is_finite dt = true /\ kmin <= B2R dt * B2R rate <= 1) ->
    let x := run_fast prec emax Hp He rate initial (map (fun dt => (v, dt)) dts) in Rabs (B2R x - B2R v) <= (1 - kmin) ^ length dts * Rabs (B2R initial - B2R v) + fast_error prec emax M / kmin.
  Proof.
    intros M kmin rate x0 v dts K MT Fr FE X0 V S. cbv zeta. destruct (C197_fast M kmin rate x0 (map (fun dt => (v, dt)) dts) K MT Fr FE X0) as (_ & _ & C). { intros w dt I. apply in_map_iff in I. destruct I as (dt' & E & I). injection E as -> ->. split; [exact V|apply S, I]. }
    set (x := B2R (run_fast _ _ _ _ _ _ _)) in *. pose proof (euler_settles (B2R rate) (B2R v) kmin ltac:(lra) (map (fun dt : num => B2R dt) dts) (B2R x0)) as ST. rewrite map_length in ST. rewrite !map_map in *. change (fun x1 : num => step_value (v, x1)) with (fun x1 : num => (B2R v, B2R x1)) in C. set (r := euler _ _ _) in *.
    replace (x - B2R v) with ((r - B2R v) + (x - r)) by ring. apply abs_sum; [|exact C]. apply ST. apply Forall_forall. intros dt I. apply in_map_iff in I. destruct I as (d & <- & I). apply S, I.
  Qed.
  (** the value stays as it is once it is the input *)
  Theorem C197_fast_stays : forall (rate x v dt : num), ordinary x -> ordinary v -> B2R v = B2R x -> is_finite (mul prec emax Hp He dt rate) = true -> let x' := update_fast prec emax Hp He rate x v dt in is_finite x' = true /\ B2R x' = B2R x.
  Proof.
    intros rate x v dt Ox Ov E F. cbv zeta. unfold update_fast. destruct (small_sub prec emax Hp He H3 v x Ov Ox) as [B Fd]. rewrite Rminus_diag_eq in B by exact E. rewrite rnd_0 in B by exact Hp. set (d := sub prec emax Hp He v x) in *. destruct (mul_ok prec emax Hp He H3 _ d F Fd) as [P FP]; [rewrite B, Rmult_0_r, Rabs_R0; apply bpow_ge_0|]. rewrite B, Rmult_0_r, rnd_0 in P by exact Hp.
    set (p := mul prec emax Hp He _ d) in *. destruct Ox as [Fx Bx]. destruct (quarter emax) as [Q Q0]. destruct (add_ok prec emax Hp He H3 x p Fx FP) as [S FS]; [rewrite P, Rplus_0_r; lra|]. split; [exact FS|]. rewrite S, P, Rplus_0_r. apply rnd_exact, num_format.
  Qed.

  (** * C198 *)
  (** the same for the accurate update, given std::exp up to an error *)
  Theorem C198_accurate : forall M err L kmin fexp (rate initial : num) steps, exp_works fexp err -> 0 < kmin <= 1 -> M <= top -> L <= top -> is_finite rate = true -> accurate_error prec emax M err L <= kmin * M -> within M initial ->
    (forall v dt, In (v, dt) steps -> within M v /\ is_finite dt = true /\ 0 <= B2R rate * B2R dt <= L /\ exp (- (B2R rate * B2R dt)) <= 1 - kmin) ->
    let x := run_accurate prec emax Hp He fexp rate initial steps in is_finite x = true /\ Rabs (B2R x - decay (B2R rate) (B2R initial) (map step_value steps)) <= Rabs (accurate_error prec emax M err L) / kmin.
  Proof.
    intros M err L kmin fexp rate x0 steps XW K MT LT Fr FE [F0 X0] S. cbv zeta. destruct steps as [|s steps]; [cbn; split; [exact F0|]; replace (B2R x0 - B2R x0) with 0 by ring; rewrite Rabs_R0; apply Rmult_le_pos; [apply Rabs_pos|left; apply Rinv_0_lt_compat; lra]|].
    assert (E0 : 0 <= accurate_error prec emax M err L).
    { destruct s as [v dt]. destruct (S v dt (or_introl eq_refl)) as (_ & Fd & KL & _). assert (M0 : 0 <= M) by (eapply Rle_trans; [apply Rabs_pos|exact X0]). destruct (XW (const prec emax Hp He 0 0) (proj2 (const_0 prec emax Hp He H3))) as (_ & _ & EE); [rewrite (proj1 (const_0 prec emax Hp He H3)); lra|]. assert (0 <= err) by (eapply Rle_trans; [apply Rabs_pos|exact EE]). destruct (u_range prec H3) as [U0 _]. destruct (eta_u prec emax He H3) as [T0 _]. unfold accurate_error.
      assert (0 <= eps * L) by (apply Rmult_le_pos; lra). assert (0 <= 4 * M * (err + eps * L + eta)) by (apply Rmult_le_pos; lra). assert (0 <= 13 * eps * M) by (apply Rmult_le_pos; lra). lra. }
    rewrite (Rabs_pos_eq _ E0). destruct (accurate_run prec emax Hp He H3 M err L kmin fexp rate XW K MT LT Fr FE (s :: steps) x0 (B2R x0) S F0 X0) as (A & B & C); [replace (B2R x0 - B2R x0) with 0 by ring; rewrite Rabs_R0; apply Rmult_le_pos; [exact E0|left; apply Rinv_0_lt_compat; lra]|]. split; [exact A|exact C].
  Qed.
  Theorem C198_accurate_settles : forall M err L kmin fexp (rate initial v : num) dts, exp_works fexp err -> 0 < kmin <= 1 -> M <= top -> L <= top -> is_finite rate = true -> accurate_error prec emax M err L <= kmin * M -> within M initial -> within M v ->
    (forall dt, In dt dts -> is_finite dt = true /\ 0 <= B2R rate * B2R dt <= L /\ exp (- (B2R rate * B2R dt)) <= 1 - kmin) ->
    let x := run_accurate prec emax Hp He fexp rate initial (map (fun dt => (v, dt)) dts) in Rabs (B2R x - B2R v) <= (1 - kmin) ^ length dts * Rabs (B2R initial - B2R v) + Rabs (accurate_error prec emax M err L) / kmin.
  Proof.
    intros M err L kmin fexp rate x0 v dts XW K MT LT Fr FE X0 V S. cbv zeta. destruct (C198_accurate M err L kmin fexp rate x0 (map (fun dt => (v, dt)) dts) XW K MT LT Fr FE X0) as (_ & C). { intros w dt I. apply in_map_iff in I. destruct I as (dt' & E & I). injection E as -> ->. split; [exact V|apply S, I]. }
    set (x := B2R (run_accurate _ _ _ _ _ _ _ _)) in *. pose proof (decay_settles (B2R rate) (B2R v) kmin ltac:(lra) (map (fun dt : num => B2R dt) dts) (B2R x0)) as ST. rewrite map_length in ST. rewrite !map_map in *. change (fun x1 : num => step_value (v, x1)) with (fun x1 : num => (B2R v, B2R x1)) in C. set (r := decay _ _ _) in *.
    replace (x - B2R v) with ((r - B2R v) + (x - r)) by ring. apply abs_sum; [|exact C]. apply ST. apply Forall_forall. intros dt I. apply in_map_iff in I. destruct I as (d & <- & I). apply S, I.
  Qed.
  (** whatever the time step, the input is the new value if it was already *)
  Theorem C198_accurate_stays : forall err fexp (rate x v dt : num), exp_works fexp err -> ordinary x -> ordinary v -> B2R v = B2R x -> is_finite (mul prec emax Hp He (Bopp rate) dt) = true -> B2R (mul prec emax Hp He (Bopp rate) dt) <= 0 ->
    let x' := update_accurate prec emax Hp He fexp rate x v dt in is_finite x' = true /\ B2R x' = B2R x.
  Proof.
    intros err fexp rate x v dt XW Ox Ov E F N. cbv zeta. unfold update_accurate. destruct (XW _ F N) as (FG & _). destruct (small_sub prec emax Hp He H3 x v Ox Ov) as [B Fd]. rewrite Rminus_diag_eq in B by (symmetry; exact E). rewrite rnd_0 in B by exact Hp. set (d := sub prec emax Hp He x v) in *. destruct (mul_ok prec emax Hp He H3 d _ Fd FG) as [P FP]; [rewrite B, Rmult_0_l, Rabs_R0; apply bpow_ge_0|]. rewrite B, Rmult_0_l, rnd_0 in P by exact Hp.
    set (p := mul prec emax Hp He d _) in *. destruct Ov as [Fx Bx]. destruct (quarter emax) as [Q Q0]. destruct (add_ok prec emax Hp He H3 v p Fx FP) as [S FS]; [rewrite P, Rplus_0_r; lra|]. split; [exact FS|]. rewrite S, P, Rplus_0_r, E. apply rnd_exact, num_format.
  Qed.
  (** after so long a time that std::exp is 0, the value is the input itself *)
  Theorem C198_accurate_long : forall fexp (rate x v dt : num), ordinary x -> ordinary v -> is_finite (fexp (mul prec emax Hp He (Bopp rate) dt)) = true -> B2R (fexp (mul prec emax Hp He (Bopp rate) dt)) = 0 -> let x' := update_accurate prec emax Hp He fexp rate x v dt in is_finite x' = true /\ B2R x' = B2R v.
  Proof.
    intros fexp rate x v dt Ox Ov F Z. cbv zeta. unfold update_accurate. destruct (small_sub prec emax Hp He H3 x v Ox Ov) as [_ Fd]. set (g := fexp _) in *. set (d := sub prec emax Hp He x v) in *. destruct (mul_ok prec emax Hp He H3 d g Fd F) as [P FP]; [rewrite Z, Rmult_0_r, Rabs_R0; apply bpow_ge_0|]. rewrite Z, Rmult_0_r, rnd_0 in P by exact Hp.
    set (p := mul prec emax Hp He d g) in *. destruct Ov as [Fx Bx]. destruct (quarter emax) as [Q Q0]. destruct (add_ok prec emax Hp He H3 v p Fx FP) as [S FS]; [rewrite P, Rplus_0_r; lra|]. split; [exact FS|]. rewrite S, P, Rplus_0_r. apply rnd_exact, num_format.
  Qed.
End Any.

(** * Cases *)
Notation d := dbl.
Lemma numbers_64 : B2R (d 10 0) = 10 /\ B2R (d (-4) 0) = -4 /\ B2R (d 1 0) = 1 /\ B2R (d 1 (-2)) = / 4.
Proof. value 10%Z 0%Z. value (-4)%Z 0%Z. value 1%Z 0%Z. value 1%Z (-2)%Z. rewrite V, V0, V1, V2. repeat split; lra. Qed.
Lemma small_64 : 0 < unit_error 53 <= / 1024 /\ 0 < tiny 53 1024 <= / 1024.
Proof. change (/ 1024) with (bpow radix2 (-10)). repeat split; try apply bpow_gt_0; apply bpow_le; lia. Qed.
Lemma top_64 : 64 <= bpow radix2 (1024 - 5).
Proof. change 64 with (bpow radix2 6). apply bpow_le. lia. Qed.
Example C196_case : Forall ordinary [d 10 0; d (-4) 0; d 1 0; d 1 0] /\ integers [d 10 0; d (-4) 0; d 1 0; d 1 0] /\ Forall (fun v => Rabs (B2R v) <= bpow radix2 (53 - 2)) [d 10 0; d (-4) 0; d 1 0; d 1 0] /\
  Forall2 same (delta_run 53 1024 p53 e1024 (d 10 0) [d (-4) 0; d 1 0; d 1 0]) [d (-14) 0; d 5 0; d 0 0].
Proof.
  destruct numbers_64 as (A & B & C & _). split; [repeat (constructor; [ordinary|]); constructor|]. split; [repeat (constructor; [eexists; eassumption|]); constructor|]. assert (T : 64 <= bpow radix2 (53 - 2)) by (change 64 with (bpow radix2 6); apply bpow_le; lia). split.
  - repeat (constructor; [rewrite ?A, ?B, ?C; first [rewrite Rabs_pos_eq by lra; lra|rewrite Rabs_left by lra; lra]|]). constructor.
  - repeat (constructor; [vm_compute; reflexivity|]). constructor.
Qed.
(** the differences do not add up: from 2^60 to 1 and then to 0 they are -2^60 and -1 *)
Theorem C196_sum_refuted : Forall2 same (delta_run 53 1024 p53 e1024 (d 1 60) [d 1 0; d 0 0]) [d (-1) 60; d (-1) 0].
Proof. repeat (constructor; [vm_compute; reflexivity|]). constructor. Qed.

Example C197_case : let M := 10 in let kmin := / 4 in 0 < kmin /\ M <= bpow radix2 (1024 - 5) /\ fast_error 53 1024 M <= kmin * M /\ within M (d (-4) 0) /\
  (forall v dt, In (v, dt) [(d 10 0, d 1 (-2)); (d (-4) 0, d 1 0)] -> within M v /\ is_finite dt = true /\ kmin <= B2R dt * B2R (d 1 0) <= 1) /\ same (run_fast 53 1024 p53 e1024 (d 1 0) (d (-4) 0) [(d 10 0, d 1 (-2)); (d (-4) 0, d 1 (-2))]) (d (-11) (-3)).
Proof.
  cbv zeta. destruct numbers_64 as (A & B & C & D). pose proof small_64 as [U T]. pose proof top_64 as TP. split; [lra|]. split; [lra|]. split; [unfold fast_error; lra|]. split; [split; [vm_compute; reflexivity|rewrite B, Rabs_left; lra]|]. split; [|vm_compute; reflexivity].
  intros v dt [E|[E|[]]]; apply pair_equal_spec in E; destruct E as [<- <-]; (split; [split; [vm_compute; reflexivity|rewrite ?A, ?B; first [rewrite Rabs_pos_eq by lra; lra|rewrite Rabs_left by lra; lra]]|split; [vm_compute; reflexivity|rewrite ?C, ?D; lra]]).
Qed.
(** an input is not always reached: the value stops at the number below it, for ever *)
Definition below : binary_float 53 1024 := d 9007199254740991 (-53).
Theorem C197_reach_refuted : forall n, same (run_fast 53 1024 p53 e1024 (d 1 0) below (repeat (d 1 0, d 1 (-2)) n)) below /\ B2R below < B2R (d 1 0).
Proof.
  intros n. split; [|less]. assert (S : update_fast 53 1024 p53 e1024 (d 1 0) below (d 1 0) (d 1 (-2)) = below) by (apply B2SF_inj; vm_compute; reflexivity). induction n as [|n IH]; [reflexivity|]. cbn [repeat run_fast fold_left]. unfold run_fast in IH. cbn [fst snd]. rewrite S. exact IH.
Qed.
(** a value can go past the input: from -1 towards 3 * 2^-54 with dt * rate = 1 it goes to 2^-52 *)
Theorem C197_past_refuted : let v := d 3 (-54) in same (update_fast 53 1024 p53 e1024 (d 1 0) (d (-1) 0) v (d 1 0)) (d 1 (-52)) /\ B2R v < B2R (d 1 (-52)).
Proof. cbv zeta. split; [vm_compute; reflexivity|less]. Qed.
(** with dt * rate = 4 the value goes to infinity, and then is not a number any more *)
Theorem C197_unstable_refuted : same (run_fast 53 1024 p53 e1024 (d 4 0) (d 1 0) (repeat (d 0 0, d 1 0) 648)) B754_nan /\ is_finite (run_fast 53 1024 p53 e1024 (d 4 0) (d 1 0) (repeat (d 0 0, d 1 0) 640)) = true.
Proof. vm_compute. split; reflexivity. Qed.

(** std::exp with ten binary digits *)
Definition exp_1024 (a : binary_float 53 1024) : binary_float 53 1024 := d (Zfloor (exp (B2R a) * 1024)) (-10).
Lemma exp_1024_works : exp_works exp_1024 (/ 1024).
Proof.
  intros a F N. unfold exp_1024. pose proof (exp_pos (B2R a)) as P. assert (X1 : exp (B2R a) <= 1) by (rewrite <- exp_0; destruct N as [N|N]; [left; apply exp_increasing, N|right; f_equal; exact N]). set (m := Zfloor (exp (B2R a) * 1024)).
  assert (L : IZR m <= exp (B2R a) * 1024) by apply Zfloor_lb. assert (G : exp (B2R a) * 1024 < IZR m + 1) by apply Zfloor_ub. assert (M0 : (0 <= m)%Z) by (apply Zfloor_lub; cbn; lra). assert (M1 : (m <= 1024)%Z) by (apply le_IZR; lra). assert (R0 : 0 <= IZR m) by (apply IZR_le, M0).
  destruct (dbl_value m (-10)) as [V FV]; [lia|lia|]. rewrite V. unfold F2R. cbn [Fnum Fexp]. change (bpow radix2 (-10)) with (/ 1024). split; [exact FV|]. split; [lra|]. apply Rabs_le. lra.
Qed.
Example C198_case : let M := 10 in let kmin := / 2 in let L := 4 in exp_works exp_1024 (/ 1024) /\ 0 < kmin <= 1 /\ M <= bpow radix2 (1024 - 5) /\ L <= bpow radix2 (1024 - 5) /\ accurate_error 53 1024 M (/ 1024) L <= kmin * M /\ within M (d (-4) 0) /\
  (forall v dt, In (v, dt) [(d 10 0, d 1 0); (d (-4) 0, d 1 0)] -> within M v /\ is_finite dt = true /\ 0 <= B2R (d 1 0) * B2R dt <= L /\ exp (- (B2R (d 1 0) * B2R dt)) <= 1 - kmin).
Proof.
  cbv zeta. destruct numbers_64 as (A & B & C & D). pose proof small_64 as [U T]. pose proof top_64 as TP. split; [exact exp_1024_works|]. split; [lra|]. split; [lra|]. split; [lra|]. split; [unfold accurate_error; lra|]. split; [split; [vm_compute; reflexivity|rewrite B, Rabs_left; lra]|].
  assert (X : exp (- (1 * 1)) <= 1 - / 2). { rewrite exp_Ropp. pose proof (exp_ineq1_le (1 * 1)) as I. replace (1 - / 2) with (/ 2) by lra. apply Rinv_le_contravar; lra. }
  intros v dt [E|[E|[]]]; apply pair_equal_spec in E; destruct E as [<- <-]; (split; [split; [vm_compute; reflexivity|rewrite ?A, ?B; first [rewrite Rabs_pos_eq by lra; lra|rewrite Rabs_left by lra; lra]]|split; [vm_compute; reflexivity|rewrite C; split; [lra|exact X]]]).
Qed.
Print Assumptions C196_delta.
Print Assumptions C196_exact.
Print Assumptions C196_history.
Print Assumptions C196_first.
Print Assumptions C197_fast.
Print Assumptions C197_fast_settles.
Print Assumptions C197_fast_stays.
Print Assumptions C198_accurate.
Print Assumptions C198_accurate_settles.
Print Assumptions C198_accurate_stays.
Print Assumptions C196_sum_refuted.
Print Assumptions C197_reach_refuted.
Print Assumptions C197_past_refuted.
Print Assumptions C197_unstable_refuted.
Print Assumptions C198_accurate_long.
