(** The nearest frame and positions between samples in floating point. *)
From Coq Require Import List Arith Bool ZArith Reals Lra Lia SpecFloat.
From Flocq Require Import Core IEEE754.BinarySingleNaN Relative Plus_error Mult_error.
From Verif Require Import Base BaseProofs GridModel DblSpec DblModel DblProofs FrmSpec FrmModel.
Import ListNotations.
Local Open Scope R_scope.

Section Frames.
  Context (prec emax : Z) (Hp : Prec_gt_0 prec) (He : Prec_lt_emax prec emax) (H3 : (3 <= prec)%Z) {L : Type}.
  Notation num := (binary_float prec emax).
  Notation fx := (fexp prec emax).
  Notation add := (DblModel.add prec emax Hp He).
  Notation sub := (DblModel.sub prec emax Hp He).
  Notation mul := (DblModel.mul prec emax Hp He).
  Notation const := (DblModel.const prec emax Hp He).
  Notation lt := (DblModel.lt prec emax).
  Notation le := (DblModel.le prec emax).
  Notation rnd := (DblProofs.rnd prec emax).
  Notation u := (DblProofs.u prec).
  Notation eta := (DblProofs.eta prec emax).
  Notation storage := (sto num L).

  Lemma holds_data (s : storage) ch (xs : list num) : channel_is s ch xs -> xs <> [] -> st_data s <> [].
  Proof.
    intros [_ H] N E. destruct xs as [|x xs]; [congruence|]. specialize (H 0%nat x eq_refl). unfold st_get in H. rewrite E in H. unfold vec_get in H. destruct (0 * st_channels s + ch)%nat; discriminate H.
  Qed.
  Lemma search_partition (s : storage) ch (xs : list num) (v : num) n : channel_is s ch xs -> partitioned_at (fun x => lt x v) xs n ->
    forall fuel first count, (count <= fuel)%nat -> (first + count <= length xs)%nat -> (first <= n)%nat -> (n <= first + count)%nat -> frame_search prec emax s v ch fuel first count = Ok n.
  Proof.
    intros [_ H] [Hn HP]. induction fuel as [|f IH]; intros first count Hf Hl H1 H2; cbn [frame_search].
    - replace (count =? 0)%nat with true by (symmetry; apply Nat.eqb_eq; lia). f_equal. lia.
    - destruct (Nat.eqb_spec count 0) as [E0|E0]; [f_equal; lia|]. assert (Hh : (Nat.div2 count < count)%nat) by (apply Nat.lt_div2; lia).
      destruct (nth_error xs (first + Nat.div2 count)) as [x|] eqn:Hx; [|apply nth_error_None in Hx; lia]. rewrite (H _ _ Hx). cbn [obind]. pose proof (HP _ _ Hx) as Hq. cbn beta in Hq. rewrite Hq.
      destruct (Nat.ltb_spec (first + Nat.div2 count) n); apply IH; lia.
  Qed.
  Lemma ascending_mono (v : num) xs : ordinary v -> ascending xs -> mono_list (fun x => lt x v) xs.
  Proof.
    intros Hv. induction xs as [|x t IH]; intros [Ho Hs]; cbn; [exact I|]. pose proof (Forall_inv Ho) as Hx. pose proof (Forall_inv_tail Ho) as Ht. split.
    - intros E. apply Forall_forall. intros y Hy. pose proof (proj1 (Forall_forall _ _) Ht y Hy) as Oy. apply In_nth_error in Hy as [j Hj]. assert (B2R x <= B2R y) by (apply (Hs 0%nat (S j) x y); [lia|reflexivity|exact Hj]).
      rewrite lt_finite in E |- * by (apply Hv || apply Hx || apply Oy). destruct (Rlt_bool_spec (B2R x) (B2R v)); [discriminate|]. apply Rlt_bool_false. lra.
    - apply IH. split; [exact Ht|]. intros i j a b Hij Ha Hb. apply (Hs (S i) (S j)); [lia|exact Ha|exact Hb].
  Qed.
  (** where the search ends: everything before is below the value, nothing after *)
  Lemma found (s : storage) ch (xs : list num) (v : num) : ordinary v -> ascending xs -> channel_is s ch xs -> xs <> [] -> exists n, (n <= length xs)%nat /\
    (forall i x, nth_error xs i = Some x -> (i < n)%nat <-> B2R x < B2R v) /\
    find_frame prec emax Hp He s v ch = let first := Nat.min n (length xs - 1) in if (1 <? first)%nat then do p <- st_get s (first - 1) ch; do q <- st_get s first ch; if lt (sub v p) (sub q v) then Ok (Some (first - 1)%nat) else Ok (Some first) else Ok (Some first).
  Proof.
    intros Hv Ha Hh Hne. pose proof (prefix_len_partitioned _ _ (ascending_mono v xs Hv Ha)) as HP. set (n := prefix_len _ xs) in *. exists n. split; [apply HP|]. split.
    - intros i x Hx. pose proof (proj2 HP i x Hx) as Q. cbn beta in Q. assert (Ox : ordinary x) by (apply (proj1 (Forall_forall _ _) (proj1 Ha)), (nth_error_In _ _ Hx)).
      rewrite lt_finite in Q by (apply Hv || apply Ox). destruct (Rlt_bool_spec (B2R x) (B2R v)), (Nat.ltb_spec i n); try discriminate Q; split; intros; try lra; try lia; assumption.
    - unfold find_frame. pose proof (holds_data s ch xs Hh Hne) as D. destruct (st_data s) as [|d0 d]; [congruence|]. rewrite <- (proj1 Hh).
      rewrite (search_partition s ch xs v n Hh HP) by (try lia; apply HP). reflexivity.
  Qed.

  Lemma rnd_pos_less a b : rnd a < rnd b -> a < b.
  Proof. intros H. destruct (Rlt_le_dec a b) as [|K]; [assumption|]. pose proof (rnd_le prec emax Hp _ _ K). lra. Qed.
  Lemma choice (v p q : num) : ordinary v -> ordinary p -> ordinary q -> B2R p < B2R v -> B2R v <= B2R q ->
    if lt (sub v p) (sub q v) then B2R v - B2R p < B2R q - B2R v else B2R q - B2R v <= (1 + 3 * u) * (B2R v - B2R p).
  Proof.
    intros Ov Op Oq A B. destruct (small_sub prec emax Hp He H3 v p Ov Op) as [S1 F1]. destruct (small_sub prec emax Hp He H3 q v Oq Ov) as [S2 F2]. rewrite lt_finite, S1, S2 by assumption.
    destruct (Rlt_bool_spec (rnd (B2R v - B2R p)) (rnd (B2R q - B2R v))) as [K|K]; [apply rnd_pos_less, K|]. pose proof (diff_err prec emax Hp H3 v p) as E1. pose proof (diff_err prec emax Hp H3 q v) as E2.
    rewrite (Rabs_pos_eq (B2R v - B2R p)) in E1 by lra. rewrite (Rabs_pos_eq (B2R q - B2R v)) in E2 by lra. apply Rabs_le_inv in E1, E2. destruct (u_pos prec H3) as [U1 U2].
    set (x := B2R v - B2R p) in *. set (y := B2R q - B2R v) in *. assert (Y : y * (1 - u) <= x * (1 + u)) by lra. assert (X : 0 < x) by (unfold x; lra).
    apply Rmult_le_reg_r with (1 - u); [lra|]. eapply Rle_trans; [exact Y|]. assert (0 <= x * (u * (1 - 3 * u))) by (apply Rmult_le_pos; [lra|apply Rmult_le_pos; lra]). nra.
  Qed.
  Lemma nearest (s : storage) ch (xs : list num) (v : num) : ordinary v -> ascending xs -> channel_is s ch xs -> xs <> [] -> exists i x, find_frame prec emax Hp He s v ch = Ok (Some i) /\ nth_error xs i = Some x /\
    (forall j y, nth_error xs j = Some y -> (j = 0%nat -> B2R v <= B2R y \/ exists y1, nth_error xs 1 = Some y1 /\ B2R y1 < B2R v) -> distance x v <= (1 + 3 * u) * distance y v) /\
    (forall j y, nth_error xs j = Some y -> B2R y = B2R v -> B2R x = B2R v /\ (i <= j)%nat).
  Proof.
    intros Ov Ha Hh Hne. destruct (found s ch xs v Ov Ha Hh Hne) as (n & Hn & Hb & E). cbv zeta in E. assert (Hlen : (0 < length xs)%nat) by (destruct xs; [congruence|cbn; lia]).
    set (first := Nat.min n (length xs - 1)) in *. destruct (nth_error xs first) as [q|] eqn:Hq; [|apply nth_error_None in Hq; lia].
    assert (O : forall j y, nth_error xs j = Some y -> ordinary y) by (intros j y Hy; apply (proj1 (Forall_forall _ _) (proj1 Ha)), (nth_error_In _ _ Hy)).
    assert (In : forall j y, nth_error xs j = Some y -> (j < length xs)%nat) by (intros j y Hy; apply nth_error_Some; congruence). destruct (u_pos prec H3) as [U1 U2].
    assert (Far : forall d e, 0 <= d -> d <= e -> d <= (1 + 3 * u) * e) by (intros d e D1 D2; assert (0 <= 3 * u * e) by (apply Rmult_le_pos; lra); lra).
    assert (P : forall y, 0 <= distance y v) by (intros; apply Rabs_pos).
    assert (Dlow : forall y, B2R y <= B2R v -> distance y v = B2R v - B2R y) by (intros y Y; unfold distance; rewrite Rabs_left1 by lra; ring).
    assert (Dhigh : forall y, B2R v <= B2R y -> distance y v = B2R y - B2R v) by (intros y Y; unfold distance; rewrite Rabs_pos_eq by lra; ring).
    (* the first frame not below the value, or the last frame, is the nearest one among those after it and, if it is the last, among all *)
    assert (Last : n = length xs -> forall j y, nth_error xs j = Some y -> distance q v <= distance y v).
    { intros K j y Hy. pose proof (proj1 (Hb first q Hq) ltac:(specialize (In _ _ Hq); lia)) as Q. assert (B2R y <= B2R q) by (apply (proj2 Ha j first); [specialize (In _ _ Hy); lia|exact Hy|exact Hq]). rewrite !Dlow by lra. lra. }
    assert (Up : first = n -> B2R v <= B2R q). { intros K. destruct (Rle_lt_dec (B2R v) (B2R q)) as [|R]; [assumption|]. apply (Hb first q Hq) in R. lia. }
    assert (Above : first = n -> forall j y, nth_error xs j = Some y -> (first <= j)%nat -> distance q v <= distance y v).
    { intros K j y Hy J. pose proof (Up K). assert (B2R q <= B2R y) by (apply (proj2 Ha first j); assumption). rewrite !Dhigh by lra. lra. }
    assert (Case : first = n \/ n = length xs) by lia.
    destruct (Nat.ltb_spec 1 first) as [E1|E1].
    - destruct (nth_error xs (first - 1)) as [p|] eqn:Hpp; [|apply nth_error_None in Hpp; lia]. rewrite (proj2 Hh _ _ Hpp), (proj2 Hh _ _ Hq) in E. cbn [obind] in E.
      assert (Bp : B2R p < B2R v) by (apply (Hb _ _ Hpp); lia).
      assert (Below : forall j y, nth_error xs j = Some y -> (j < first)%nat -> distance p v <= distance y v).
      { intros j y Hy J. assert (B2R y <= B2R p) by (apply (proj2 Ha j (first - 1)%nat); [lia|exact Hy|exact Hpp]). rewrite !Dlow by lra. lra. }
      destruct Case as [K|K].
      + pose proof (Up K) as V. pose proof (choice v p q Ov (O _ _ Hpp) (O _ _ Hq) Bp V) as C. destruct (lt (sub v p) (sub q v)).
        * exists (first - 1)%nat, p. split; [exact E|]. split; [exact Hpp|]. split.
          { intros j y Hy _. apply Far; [apply P|]. destruct (Nat.lt_ge_cases j first) as [J|J]; [apply (Below _ _ Hy J)|]. eapply Rle_trans; [|apply (Above K _ _ Hy J)]. rewrite (Dlow p), (Dhigh q) by lra. lra. }
          { intros j y Hy Y. exfalso. destruct (Nat.lt_ge_cases j first) as [J|J]; [rewrite K in J; apply (Hb _ _ Hy) in J; lra|]. pose proof (proj2 Ha first j q y J Hq Hy). lra. }
        * exists first, q. split; [exact E|]. split; [exact Hq|]. split.
          { intros j y Hy _. destruct (Nat.lt_ge_cases j first) as [J|J]; [|apply Far; [apply P|apply (Above K _ _ Hy J)]]. pose proof (Below _ _ Hy J) as B. rewrite (Dlow p) in B by lra. rewrite (Dhigh q) by lra.
            eapply Rle_trans; [exact C|]. apply Rmult_le_compat_l; [lra|exact B]. }
          { intros j y Hy Y. destruct (Nat.lt_ge_cases j first) as [J|J]; [rewrite K in J; apply (Hb _ _ Hy) in J; lra|]. split; [|exact J]. pose proof (proj2 Ha first j q y J Hq Hy). lra. }
      + pose proof (proj1 (Hb first q Hq) ltac:(specialize (In _ _ Hq); lia)) as Q.
        replace (lt (sub v p) (sub q v)) with false in E.
        * exists first, q. split; [exact E|]. split; [exact Hq|]. split; [intros j y Hy _; apply Far; [apply P|apply (Last K _ _ Hy)]|].
          intros j y Hy Y. exfalso. pose proof (proj1 (Hb j y Hy) ltac:(specialize (In _ _ Hy); lia)). lra.
        * symmetry. destruct (small_sub prec emax Hp He H3 v p Ov (O _ _ Hpp)) as [S1 F1]. destruct (small_sub prec emax Hp He H3 q v (O _ _ Hq) Ov) as [S2 F2]. rewrite lt_finite, S1, S2 by assumption. apply Rlt_bool_false.
          destruct (diff_sign prec emax Hp H3 q v Q) as [D1 _]. destruct (diff_sign prec emax Hp H3 p v Bp) as [_ D2]. lra.
    - exists first, q. split; [exact E|]. split; [exact Hq|]. destruct Case as [K|K].
      + split.
        * intros j y Hy J0. destruct (Nat.lt_ge_cases j first) as [J|J]; [|apply Far; [apply P|apply (Above K _ _ Hy J)]]. assert (Z : j = 0%nat) by lia. subst j. exfalso. assert (F1 : first = 1%nat) by lia. destruct (J0 eq_refl) as [Y|(y1 & Y1 & Y)].
          { rewrite K in J. apply (Hb _ _ Hy) in J. lra. } { rewrite F1 in Hq. rewrite Hq in Y1. injection Y1 as <-. pose proof (Up K). lra. }
        * intros j y Hy Y. destruct (Nat.lt_ge_cases j first) as [J|J]; [rewrite K in J; apply (Hb _ _ Hy) in J; lra|]. split; [|exact J]. pose proof (proj2 Ha first j q y J Hq Hy). pose proof (Up K). lra.
      + split; [intros j y Hy _; apply Far; [apply P|apply (Last K _ _ Hy)]|]. intros j y Hy Y. exfalso. pose proof (proj1 (Hb j y Hy) ltac:(specialize (In _ _ Hy); lia)). lra.
  Qed.

  (** positions *)
  Lemma fix_round (f : R -> Z) x : round radix2 (FIX_exp 0) f x = IZR (f x).
  Proof. unfold round, F2R, scaled_mantissa, cexp, FIX_exp. cbn [Fnum Fexp bpow Z.opp]. rewrite !Rmult_1_r. reflexivity. Qed.
  Lemma floor_ok (x : num) : is_finite x = true -> B2R (floor prec emax He x) = IZR (Zfloor (B2R x)) /\ is_finite (floor prec emax He x) = true.
  Proof. intros F. unfold floor. destruct (Bnearbyint_correct prec emax He mode_DN x) as (A & B & _). rewrite A, B. split; [apply fix_round|exact F]. Qed.
  Lemma cast_ok lo hi (x : num) k : is_finite x = true -> B2R x = IZR k -> (lo <= k <= hi)%Z -> cast prec emax lo hi x = Ok k.
  Proof.
    intros F V K. assert (T : Btrunc x = k). { apply eq_IZR. rewrite (Btrunc_correct prec emax He x), fix_round, V, Ztrunc_IZR. reflexivity. }
    unfold cast. rewrite F, T. rewrite (proj2 (Z.leb_le lo k)), (proj2 (Z.leb_le k hi)) by lia. reflexivity.
  Qed.
  Lemma cast_bad lo hi (x : num) k : is_finite x = true -> B2R x = IZR k -> (k < lo \/ hi < k)%Z -> cast prec emax lo hi x = UB.
  Proof.
    intros F V K. assert (T : Btrunc x = k). { apply eq_IZR. rewrite (Btrunc_correct prec emax He x), fix_round, V, Ztrunc_IZR. reflexivity. }
    unfold cast. rewrite F, T. cbn [andb]. destruct (Z.leb_spec lo k); [|reflexivity]. destruct (Z.leb_spec k hi); [lia|reflexivity].
  Qed.
  Lemma part_ok (x : num) k : is_finite x = true -> (0 <= k)%Z -> IZR k <= B2R x < IZR k + 1 ->
    is_finite (floor prec emax He x) = true /\ B2R (floor prec emax He x) = IZR k /\ B2R (sub x (floor prec emax He x)) = B2R x - IZR k /\ is_finite (sub x (floor prec emax He x)) = true.
  Proof.
    intros F K0 X. assert (Z : Zfloor (B2R x) = k) by (apply Zfloor_imp; rewrite plus_IZR; exact X). destruct (floor_ok x F) as [V G]. rewrite Z in V. split; [exact G|]. split; [exact V|].
    assert (P : 0 <= IZR k) by (apply IZR_le; exact K0).
    destruct (sub_ok prec emax Hp He H3 x (floor prec emax He x) F G) as [S1 F1]. { rewrite V, Rabs_pos_eq by lra. pose proof (limit_big prec emax He H3). lra. }
    rewrite V in S1. split; [|exact F1]. rewrite S1. destruct (const_1 prec emax Hp He H3) as [C1 C2]. destruct (fmod_ok prec emax Hp He H3 x (const 1 0) F C2) as (n & M & _ & A & _ & B & _); [rewrite C1; lra|].
    rewrite C1 in M, A. rewrite Rmult_1_r in M. rewrite Rabs_R1 in A. apply Rabs_def2 in A. set (m := B2R (fmod prec emax Hp He x (const 1 0))) in *.
    destruct (Req_dec (B2R x) 0) as [E|E].
    - assert (IZR k = 0) by lra. rewrite E, H. rewrite Rminus_0_r. apply rnd_0.
    - assert (0 <= m) by (destruct (Rle_lt_dec 0 m) as [|W]; [assumption|]; assert (0 < B2R x * - m) by (apply Rmult_lt_0_compat; lra); lra).
      assert (N : n = k). { rewrite <- Z. symmetry. apply Zfloor_imp. rewrite plus_IZR. lra. } subst n. rewrite <- M. apply rnd_exact, num_format.
  Qed.

  Notation weighted a b w := (add (mul (sub (const 1 0) w) a) (mul w b)).
  Lemma quarter_format : generic_format radix2 fx (bpow radix2 (emax - 3)).
  Proof. apply bpow_format; try assumption. pose proof (emin_small prec emax He H3). lia. Qed.
  Lemma weighted_ok (a b w : num) : ordinary a -> ordinary b -> is_finite w = true -> 0 <= B2R w <= 1 ->
    is_finite (weighted a b w) = true /\
    Rabs (B2R (weighted a b w) - (B2R a + B2R w * (B2R b - B2R a))) <= 4 * u * ((1 - B2R w) * Rabs (B2R a) + B2R w * Rabs (B2R b)) + 3 * eta /\
    (B2R w = 0 -> B2R (weighted a b w) = B2R a).
  Proof.
    intros [Fa Oa] [Fb Ob] Fw W. destruct (const_1 prec emax Hp He H3) as [C1 C2]. destruct (quarter emax) as [Q1 Q2]. pose proof (limit_big prec emax He H3) as LB. destruct (u_pos prec H3) as [U1 U2]. pose proof (eta_pos prec emax) as Et.
    destruct (sub_ok prec emax Hp He H3 (const 1 0) w C2 Fw) as [S1 F1]; [rewrite C1, Rabs_pos_eq by lra; lra|]. rewrite C1 in S1.
    pose proof (diff_err prec emax Hp H3 (const 1 0) w) as E1. rewrite C1, (Rabs_pos_eq (1 - B2R w)) in E1 by lra. rewrite <- S1 in E1.
    assert (One : generic_format radix2 fx 1) by (rewrite <- C1; apply num_format). assert (Zero : generic_format radix2 fx 0) by apply generic_format_0.
    assert (Cb : 0 <= B2R (sub (const 1 0) w) <= 1). { rewrite S1. split; [apply rnd_lb; try assumption; lra|apply rnd_ub; try assumption; lra]. }
    set (c := sub (const 1 0) w) in *. pose proof (Rabs_pos (B2R a)) as Pa. pose proof (Rabs_pos (B2R b)) as Pb.
    assert (M1 : Rabs (B2R c * B2R a) <= bpow radix2 (emax - 3)). { rewrite Rabs_mult, (Rabs_pos_eq (B2R c)) by lra. assert (B2R c * Rabs (B2R a) <= 1 * Rabs (B2R a)) by (apply Rmult_le_compat_r; lra). lra. }
    assert (M2 : Rabs (B2R w * B2R b) <= bpow radix2 (emax - 3)). { rewrite Rabs_mult, (Rabs_pos_eq (B2R w)) by lra. assert (B2R w * Rabs (B2R b) <= 1 * Rabs (B2R b)) by (apply Rmult_le_compat_r; lra). lra. }
    destruct (mul_ok prec emax Hp He H3 c a F1 Fa ltac:(lra)) as [X1 G1]. destruct (mul_ok prec emax Hp He H3 w b Fw Fb ltac:(lra)) as [X2 G2].
    pose proof (rnd_err prec emax Hp (B2R c * B2R a)) as R1. pose proof (rnd_err prec emax Hp (B2R w * B2R b)) as R2.
    pose proof (rnd_abs prec emax Hp _ _ quarter_format M1) as N1. pose proof (rnd_abs prec emax Hp _ _ quarter_format M2) as N2. rewrite <- X1 in R1, N1. rewrite <- X2 in R2, N2.
    destruct (add_ok prec emax Hp He H3 (mul c a) (mul w b) G1 G2) as [Y G]; [eapply Rle_trans; [apply Rabs_triang|]; lra|]. split; [exact G|].
    pose proof (sum_err prec emax Hp H3 (mul c a) (mul w b)) as R3. rewrite <- Y in R3. split.
    - rewrite Rabs_mult, (Rabs_pos_eq (B2R c)) in R1 by lra. rewrite Rabs_mult, (Rabs_pos_eq (B2R w)) in R2 by lra.
      set (m1 := B2R (mul c a)) in *. set (m2 := B2R (mul w b)) in *. set (r := B2R (add (mul c a) (mul w b))) in *. set (A := (1 - B2R w) * Rabs (B2R a)). set (B := B2R w * Rabs (B2R b)) in *.
      assert (PA : 0 <= A) by (apply Rmult_le_pos; lra). assert (PB : 0 <= B) by (apply Rmult_le_pos; lra).
      assert (D1 : Rabs (B2R c * B2R a - (1 - B2R w) * B2R a) <= u * A). { replace (B2R c * B2R a - (1 - B2R w) * B2R a) with ((B2R c - (1 - B2R w)) * B2R a) by ring. rewrite Rabs_mult. unfold A. rewrite <- Rmult_assoc. apply Rmult_le_compat_r; assumption. }
      assert (D2 : B2R c * Rabs (B2R a) <= (1 + u) * A). { unfold A. rewrite <- Rmult_assoc. apply Rmult_le_compat_r; [assumption|]. apply Rabs_le_inv in E1. lra. }
      assert (D3 : Rabs (m1 - (1 - B2R w) * B2R a) <= (2 * u + u * u) * A + eta).
      { replace (m1 - (1 - B2R w) * B2R a) with ((m1 - B2R c * B2R a) + (B2R c * B2R a - (1 - B2R w) * B2R a)) by ring. eapply Rle_trans; [apply Rabs_triang|]. assert (u * (B2R c * Rabs (B2R a)) <= u * ((1 + u) * A)) by (apply Rmult_le_compat_l; lra). lra. }
      assert (T1 : Rabs ((1 - B2R w) * B2R a) = A) by (unfold A; rewrite Rabs_mult, (Rabs_pos_eq (1 - B2R w)) by lra; reflexivity).
      assert (T2 : Rabs (B2R w * B2R b) = B) by (unfold B; rewrite Rabs_mult, (Rabs_pos_eq (B2R w)) by lra; reflexivity).
      assert (D4 : Rabs (m1 + m2) <= (1 + 2 * u + u * u) * A + (1 + u) * B + 2 * eta).
      { replace (m1 + m2) with ((m1 - (1 - B2R w) * B2R a) + (m2 - B2R w * B2R b) + ((1 - B2R w) * B2R a + B2R w * B2R b)) by ring.
        eapply Rle_trans; [apply Rabs_triang|]. pose proof (Rabs_triang (m1 - (1 - B2R w) * B2R a) (m2 - B2R w * B2R b)). pose proof (Rabs_triang ((1 - B2R w) * B2R a) (B2R w * B2R b)). lra. }
      replace (r - (B2R a + B2R w * (B2R b - B2R a))) with ((r - (m1 + m2)) + ((m1 - (1 - B2R w) * B2R a) + (m2 - B2R w * B2R b))) by ring.
      eapply Rle_trans; [apply Rabs_triang|]. pose proof (Rabs_triang (m1 - (1 - B2R w) * B2R a) (m2 - B2R w * B2R b)) as T3.
      assert (D5 : u * Rabs (m1 + m2) <= u * ((1 + 2 * u + u * u) * A + (1 + u) * B + 2 * eta)) by (apply Rmult_le_compat_l; lra).
      assert (UU : u * u <= / 8 * u) by (apply Rmult_le_compat_r; lra). assert (UUU : u * u * u <= / 64 * u) by (apply Rle_trans with (/ 8 * u * u); [apply Rmult_le_compat_r; lra|lra]).
      assert (UA : (3 * (u * u) + u * u * u) * A <= u * A) by (apply Rmult_le_compat_r; lra). assert (UB : (u * u) * B <= 2 * u * B) by (apply Rmult_le_compat_r; lra). assert (UE : u * eta <= / 8 * eta) by (apply Rmult_le_compat_r; lra).
      lra.
    - intros W0. rewrite Y, X1, X2, S1, W0, Rminus_0_r, Rmult_0_l. rewrite (rnd_exact prec emax 1 One), Rmult_1_l, (rnd_0 prec emax), (rnd_exact prec emax (B2R a)) by apply num_format. rewrite Rplus_0_r. apply rnd_exact, num_format.
  Qed.

  Lemma interpolated (s : storage) ch (xs : list num) (k : nat) (a b x : num) : channel_is s ch xs -> (Z.of_nat (st_frames s) < 2 ^ 63)%Z -> nth_error xs k = Some a -> nth_error xs (k + 1) = Some b ->
    is_finite x = true -> IZR (Z.of_nat k) <= B2R x < IZR (Z.of_nat k) + 1 ->
    interpolated_value prec emax Hp He s x ch = Ok (weighted a b (sub x (floor prec emax He x))) /\ B2R (sub x (floor prec emax He x)) = B2R x - IZR (Z.of_nat k) /\ is_finite (sub x (floor prec emax He x)) = true.
  Proof.
    intros [Hl Hc] B Ha Hb F X. destruct (part_ok x (Z.of_nat k) F ltac:(lia) X) as (G & V & W & Fw). split; [|split; assumption].
    assert (K : (k + 1 < st_frames s)%nat) by (rewrite <- Hl; apply nth_error_Some; congruence). unfold interpolated_value.
    rewrite (cast_ok 0 (2 ^ 64 - 1) _ (Z.of_nat k) G V) by lia. cbn [obind]. rewrite Z.mod_small by lia. rewrite (proj2 (Z.ltb_lt _ _)) by lia. rewrite Nat2Z.id. cbv zeta.
    pose proof (Hc _ _ Ha) as A1. pose proof (Hc _ _ Hb) as B1. unfold st_get in A1, B1. rewrite A1. cbn [obind]. replace (k * st_channels s + ch + st_channels s)%nat with ((k + 1) * st_channels s + ch)%nat by ring. rewrite B1. reflexivity.
  Qed.
  Lemma interpolated_beyond (s : storage) ch (x : num) : is_finite x = true -> 0 <= B2R x -> B2R x < IZR (2 ^ 63) -> (Z.of_nat (st_frames s) <= Zfloor (B2R x) + 1)%Z -> interpolated_value prec emax Hp He s x ch = Throw.
  Proof.
    intros F X0 X1 K. destruct (floor_ok x F) as [V G]. pose proof (Zfloor_lb (B2R x)) as Z1. assert (Z0 : (0 <= Zfloor (B2R x))%Z) by (change 0%Z with (Zfloor (IZR 0)) at 1 || idtac; rewrite <- (Zfloor_IZR 0); apply Zfloor_le; exact X0).
    assert (Z2 : (Zfloor (B2R x) < 2 ^ 63)%Z) by (apply lt_IZR; lra). unfold interpolated_value. rewrite (cast_ok 0 (2 ^ 64 - 1) _ (Zfloor (B2R x)) G V) by lia. cbn [obind]. rewrite Z.mod_small by lia. rewrite (proj2 (Z.ltb_ge _ _)) by lia. reflexivity.
  Qed.
  Lemma interpolated_bad (s : storage) ch (x : num) : is_finite x = true -> B2R x < 0 \/ IZR (2 ^ 64) <= B2R x -> interpolated_value prec emax Hp He s x ch = UB.
  Proof.
    intros F X. destruct (floor_ok x F) as [V G]. unfold interpolated_value. rewrite (cast_bad 0 (2 ^ 64 - 1) _ (Zfloor (B2R x)) G V); [reflexivity|]. pose proof (Zfloor_lb (B2R x)) as Z1. destruct X as [X|X].
    - left. apply lt_IZR. lra.
    - right. pose proof (Zfloor_lub (2 ^ 64) (B2R x) X). lia.
  Qed.
  Lemma interpolated_none (s : storage) ch (x : num) : is_finite x = false -> interpolated_value prec emax Hp He s x ch = UB.
  Proof. intros F. unfold interpolated_value, cast, floor. destruct (Bnearbyint_correct prec emax He mode_DN x) as (_ & B & _). rewrite B, F. reflexivity. Qed.

  (** positions in a sequence *)
  Lemma span_between (xs : list num) (k : nat) (a b x : num) : (Z.of_nat (length xs) < 2 ^ 31)%Z -> nth_error xs k = Some a -> nth_error xs (k + 1) = Some b -> is_finite x = true -> 0 < B2R x -> IZR (Z.of_nat k) <= B2R x < IZR (Z.of_nat k) + 1 ->
    lerp_span prec emax Hp He xs x = Ok (lerp prec emax Hp He a b (sub x (floor prec emax He x))) /\ B2R (sub x (floor prec emax He x)) = B2R x - IZR (Z.of_nat k) /\ is_finite (sub x (floor prec emax He x)) = true.
  Proof.
    intros B Ha Hb F P X. destruct (part_ok x (Z.of_nat k) F ltac:(lia) X) as (G & V & W & Fw). split; [|split; assumption]. assert (K : (k + 1 < length xs)%nat) by (apply nth_error_Some; congruence).
    unfold lerp_span. destruct xs as [|x0 xr] eqn:Ex; [cbn in K; lia|]. rewrite <- Ex in *. destruct (const_0 prec emax Hp He H3) as [C1 C2]. rewrite le_finite, C1 by assumption. rewrite Rle_bool_false by exact P. cbv zeta.
    rewrite (cast_ok (- 2 ^ 31) (2 ^ 31 - 1) _ (Z.of_nat k) G V) by lia. cbn [obind]. rewrite (proj2 (Z.eqb_neq _ _)) by lia. rewrite (proj2 (Z.leb_gt _ _)) by lia. rewrite (proj2 (Z.ltb_ge _ _)) by lia. rewrite Nat2Z.id.
    unfold vec_get. rewrite Ha, Hb. reflexivity.
  Qed.
  Lemma span_before (xs : list num) (a x : num) : nth_error xs 0 = Some a -> le x (const 0 0) = true -> lerp_span prec emax Hp He xs x = Ok a.
  Proof. intros Ha P. destruct xs as [|x0 xr]; [discriminate|]. injection Ha as ->. unfold lerp_span. rewrite P. reflexivity. Qed.
  Lemma span_after (xs : list num) (x : num) : (Z.of_nat (length xs) < 2 ^ 31)%Z -> xs <> [] -> is_finite x = true -> 0 < B2R x -> B2R x < IZR (2 ^ 31 - 1) -> IZR (Z.of_nat (length xs) - 1) <= B2R x -> exists a, nth_error xs (length xs - 1) = Some a /\ lerp_span prec emax Hp He xs x = Ok a.
  Proof.
    intros B N F P X K. destruct (floor_ok x F) as [V G]. assert (LE : (0 < length xs)%nat) by (destruct xs; [congruence|cbn; lia]). destruct (nth_error xs (length xs - 1)) as [a|] eqn:Ea; [|apply nth_error_None in Ea; lia].
    exists a. split; [reflexivity|]. unfold lerp_span. destruct xs as [|x0 xr] eqn:Ex; [congruence|]. rewrite <- Ex in *. destruct (const_0 prec emax Hp He H3) as [C1 C2]. rewrite le_finite, C1 by assumption. rewrite Rle_bool_false by exact P. cbv zeta.
    pose proof (Zfloor_lb (B2R x)) as Z1. assert (Z0 : (Z.of_nat (length xs) - 1 <= Zfloor (B2R x))%Z) by (apply Zfloor_lub; exact K). assert (Z2 : (Zfloor (B2R x) < 2 ^ 31 - 1)%Z) by (apply lt_IZR; lra).
    rewrite (cast_ok (- 2 ^ 31) (2 ^ 31 - 1) _ (Zfloor (B2R x)) G V) by lia. cbn [obind]. rewrite (proj2 (Z.eqb_neq _ _)) by lia. rewrite (proj2 (Z.leb_le _ _)) by lia. unfold vec_get. rewrite Ea. reflexivity.
  Qed.
End Frames.
