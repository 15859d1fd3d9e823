(** Lemmas about the models of math.h, bounds.h and compare.h. *)
From Coq Require Import List Arith Bool NArith ZArith Reals Lra Lia Psatz ZifyBool ZifyNat ZifyN.
From Coq Require Import Zquot Floats.SpecFloat.
From Verif Require Import Base BaseProofs NumSpec NumModel.
Import ListNotations.

(** ** order *)
Section OrderProofs.
  Context {T : Type} (ok : T -> Prop) (ltb leb : T -> T -> bool) (O : ordered ok ltb leb).
  Local Notation le a b := (leb a b = true).
  Lemma le_iff a b : ok a -> ok b -> (le a b <-> ltb b a = false).
  Proof. intros Ha Hb. rewrite (or_le _ _ _ O a b Ha Hb). destruct (ltb b a); cbn; split; congruence. Qed.
  Lemma le_refl a : ok a -> le a a.
  Proof. intros Ha. apply le_iff; auto. apply (or_irrefl _ _ _ O); auto. Qed.
  Lemma le_trans a b c : ok a -> ok b -> ok c -> le a b -> le b c -> le a c.
  Proof. intros Ha Hb Hc H1 H2. apply le_iff; auto. apply (le_iff a b) in H1; auto. apply (le_iff b c) in H2; auto. exact (or_negtrans _ _ _ O c b a Hc Hb Ha H2 H1). Qed.
  Lemma lt_le a b : ok a -> ok b -> ltb a b = true -> le a b.
  Proof.
    intros Ha Hb H. apply le_iff; auto. destruct (ltb b a) eqn:E; [|reflexivity]. pose proof (or_trans _ _ _ O a b a Ha Hb Ha H E) as X. rewrite (or_irrefl _ _ _ O a Ha) in X. discriminate.
  Qed.
  Lemma nlt_le a b : ok a -> ok b -> ltb a b = false -> le b a.
  Proof. intros Ha Hb H. apply le_iff; auto. Qed.
  Lemma le_total a b : ok a -> ok b -> le a b \/ le b a.
  Proof. intros Ha Hb. destruct (ltb a b) eqn:E; [left; apply lt_le; auto|right; apply nlt_le; auto]. Qed.
  Lemma clamped_ok v lo hi : ok v -> ok lo -> ok hi -> ok (clamped ltb v lo hi).
  Proof. intros. unfold clamped. destruct (ltb v lo); [assumption|]. destruct (ltb hi v); assumption. Qed.
  Lemma clamp_assembled v lo hi : ok v -> ok lo -> ok hi -> le lo hi -> let r := clamped ltb v lo hi in
    le lo r /\ le r hi /\ (le lo v -> le v hi -> r = v) /\ (forall w, ok w -> le lo w -> le w hi -> between leb v r w) /\ clamped ltb r lo hi = r /\
    (forall w, ok w -> le v w -> le r (clamped ltb w lo hi)).
  Proof.
    intros Hv Hl Hh L r. unfold r, clamped. clear r.
    assert (F : forall a b, ok a -> ok b -> le a b -> ltb b a = false) by (intros; apply le_iff; auto).
    destruct (ltb v lo) eqn:E1.
    - split; [apply le_refl; auto|]. split; [exact L|]. split; [intros H _; apply F in H; auto; congruence|]. split; [intros w Hw H1 H2; left; split; [apply lt_le; auto|auto]|].
      split; [rewrite (or_irrefl _ _ _ O lo Hl); rewrite (F lo hi Hl Hh L); reflexivity|].
      intros w Hw H. destruct (ltb w lo) eqn:Ew; [apply le_refl; auto|]. destruct (ltb hi w); [exact L|apply nlt_le; auto].
    - destruct (ltb hi v) eqn:E2.
      + split; [exact L|]. split; [apply le_refl; auto|]. split; [intros _ H; apply F in H; auto; congruence|]. split; [intros w Hw H1 H2; right; split; [auto|apply lt_le; auto]|].
        split; [rewrite (F lo hi Hl Hh L), (or_irrefl _ _ _ O hi Hh); reflexivity|].
        intros w Hw H. destruct (ltb w lo) eqn:Ew; [|destruct (ltb hi w) eqn:Ew2; [apply le_refl; auto|]].
        * exfalso. assert (X : le lo v) by (apply nlt_le; auto). assert (le lo w) by (eapply (le_trans lo v w); auto). apply F in H0; auto. congruence.
        * assert (X : le w hi) by (apply nlt_le; auto). assert (Y : le v hi) by (eapply (le_trans v w hi); auto). apply F in Y; auto. congruence.
      + split; [apply nlt_le; auto|]. split; [apply nlt_le; auto|]. split; [reflexivity|].
        split; [intros w Hw H1 H2; destruct (le_total v w Hv Hw); [left|right]; split; auto; apply le_refl; auto|]. split; [rewrite E1, E2; reflexivity|].
        intros w Hw H. destruct (ltb w lo) eqn:Ew; [|destruct (ltb hi w) eqn:Ew2; [apply nlt_le; auto|exact H]].
        assert (X : le lo v) by (apply nlt_le; auto). assert (Y : le lo w) by (eapply (le_trans lo v w); auto). apply F in Y; auto. congruence.
  Qed.
  Lemma within_assembled b v : ok (b_lower b) -> ok (b_upper b) -> ok v -> le (b_lower b) (b_upper b) ->
    (is_within leb b v = true <-> le (b_lower b) v /\ le v (b_upper b)) /\ (is_within leb b v = true <-> bounds_clamped ltb b v = v) /\ is_between leb v (b_lower b) (b_upper b) = is_within leb b v /\
    is_within leb b (bounds_clamped ltb b v) = true.
  Proof.
    intros Hl Hu Hv L. unfold is_within, bounds_clamped. split; [apply andb_true_iff|]. destruct (clamp_assembled v _ _ Hv Hl Hu L) as (C1 & C2 & C3 & _). split; [|split; [reflexivity|rewrite C1, C2; reflexivity]].
    rewrite andb_true_iff. split; [intros [H1 H2]; auto|]. intros E. rewrite E in C1, C2. auto.
  Qed.
  Lemma min2_ok a b : ok a -> ok b -> ok (min2 ltb a b).
  Proof. unfold min2. destruct (ltb a b); auto. Qed.
  Lemma max2_ok a b : ok a -> ok b -> ok (max2 ltb a b).
  Proof. unfold max2. destruct (ltb a b); auto. Qed.
  Lemma min2_spec a b : ok a -> ok b -> le (min2 ltb a b) a /\ le (min2 ltb a b) b /\ (min2 ltb a b = a \/ min2 ltb a b = b).
  Proof. intros Ha Hb. unfold min2. destruct (ltb a b) eqn:E; (split; [|split; [|auto]]); auto using le_refl, lt_le, nlt_le. Qed.
  Lemma max2_spec a b : ok a -> ok b -> le a (max2 ltb a b) /\ le b (max2 ltb a b) /\ (max2 ltb a b = a \/ max2 ltb a b = b).
  Proof. intros Ha Hb. unfold max2. destruct (ltb a b) eqn:E; (split; [|split; [|auto]]); auto using le_refl, lt_le, nlt_le. Qed.
  Lemma min_max_assembled a b c : ok a -> ok b -> ok c ->
    (le (min2 ltb a b) a /\ le (min2 ltb a b) b /\ (min2 ltb a b = a \/ min2 ltb a b = b)) /\
    (le a (max2 ltb a b) /\ le b (max2 ltb a b) /\ (max2 ltb a b = a \/ max2 ltb a b = b)) /\
    ((forall x, In x [a; b; c] -> le (min3 ltb a b c) x) /\ In (min3 ltb a b c) [a; b; c]) /\
    ((forall x, In x [a; b; c] -> le x (max3 ltb a b c)) /\ In (max3 ltb a b c) [a; b; c]) /\
    (le (set_if_smaller ltb a b) a /\ le (set_if_smaller ltb a b) b /\ In (set_if_smaller ltb a b) [a; b]) /\
    (le a (set_if_bigger ltb a b) /\ le b (set_if_bigger ltb a b) /\ In (set_if_bigger ltb a b) [a; b]).
  Proof.
    intros Ha Hb Hc. destruct (min2_spec a b Ha Hb) as (A1 & A2 & A3). destruct (max2_spec a b Ha Hb) as (B1 & B2 & B3).
    pose proof (min2_ok b c Hb Hc) as Mo. pose proof (max2_ok b c Hb Hc) as Xo. destruct (min2_spec b c Hb Hc) as (D1 & D2 & D3). destruct (max2_spec b c Hb Hc) as (E1 & E2 & E3).
    destruct (min2_spec a (min2 ltb b c) Ha Mo) as (F1 & F2 & F3). destruct (max2_spec a (max2 ltb b c) Ha Xo) as (G1 & G2 & G3).
    split; [auto|]. split; [auto|]. split; [|split; [|split]].
    - unfold min3. split.
      + intros x [<-|[<-|[<-|[]]]]; [exact F1|..]; (eapply le_trans; [..|exact F2|]; auto using min2_ok).
      + destruct F3 as [->| ->]; [cbn; auto|]. destruct D3 as [->| ->]; cbn; auto.
    - unfold max3. split.
      + intros x [<-|[<-|[<-|[]]]]; [exact G1|..]; (eapply le_trans; [..|exact G2]; auto using max2_ok).
      + destruct G3 as [->| ->]; [cbn; auto|]. destruct E3 as [->| ->]; cbn; auto.
    - unfold set_if_smaller. destruct (ltb b a) eqn:E; cbn; auto 6 using le_refl, lt_le, nlt_le.
    - unfold set_if_bigger. destruct (ltb a b) eqn:E; cbn; auto 6 using le_refl, lt_le, nlt_le.
  Qed.
  Lemma extend_assembled b v : ok (b_lower b) -> ok (b_upper b) -> ok v -> let b' := bounds_extend ltb b v in
    is_within leb b' v = true /\ (forall w, ok w -> is_within leb b w = true -> is_within leb b' w = true) /\
    (forall c, ok (b_lower c) -> ok (b_upper c) -> is_within leb c v = true -> is_within leb c (b_lower b) = true -> is_within leb c (b_upper b) = true ->
       is_within leb c (b_lower b') = true /\ is_within leb c (b_upper b') = true).
  Proof.
    intros Hl Hu Hv. cbv zeta. unfold bounds_extend, is_within. cbn [b_lower b_upper]. destruct (min2_spec (b_lower b) v Hl Hv) as (A1 & A2 & A3). destruct (max2_spec (b_upper b) v Hu Hv) as (B1 & B2 & B3).
    pose proof (min2_ok _ _ Hl Hv) as Mo. pose proof (max2_ok _ _ Hu Hv) as Xo. split; [rewrite A2, B2; reflexivity|]. split.
    - intros w Hw H. apply andb_true_iff in H. destruct H as [H1 H2]. apply andb_true_iff. split; [apply (le_trans _ (b_lower b)); auto|apply (le_trans _ (b_upper b)); auto].
    - intros c Cl Cu H1 H2 H3. destruct A3 as [->| ->], B3 as [->| ->]; auto.
  Qed.
  Lemma extend_bounds_assembled b c : ok (b_lower b) -> ok (b_upper b) -> ok (b_lower c) -> ok (b_upper c) -> let b' := bounds_extend_bounds ltb b c in
    (forall w, ok w -> is_within leb b w = true \/ is_within leb c w = true -> is_within leb b' w = true) /\
    (forall d, is_within leb d (b_lower b) = true -> is_within leb d (b_upper b) = true -> is_within leb d (b_lower c) = true -> is_within leb d (b_upper c) = true ->
       is_within leb d (b_lower b') = true /\ is_within leb d (b_upper b') = true).
  Proof.
    intros Hl Hu Hl' Hu'. cbv zeta. unfold bounds_extend_bounds, is_within. cbn [b_lower b_upper]. destruct (min2_spec (b_lower b) _ Hl Hl') as (A1 & A2 & A3). destruct (max2_spec (b_upper b) _ Hu Hu') as (B1 & B2 & B3).
    pose proof (min2_ok _ _ Hl Hl') as Mo. pose proof (max2_ok _ _ Hu Hu') as Xo. split.
    - intros w Hw [H|H]; apply andb_true_iff in H; destruct H as [H1 H2]; apply andb_true_iff; split;
        [apply (le_trans _ (b_lower b))|apply (le_trans _ (b_upper b))|apply (le_trans _ (b_lower c))|apply (le_trans _ (b_upper c))]; auto.
    - intros d H1 H2 H3 H4. destruct A3 as [->| ->], B3 as [->| ->]; auto.
  Qed.
End OrderProofs.

(** doubles other than NaN are ordered *)
Definition key (x : double) : Z * Z * Z :=
  match x with
  | S754_zero _ => (0, 0, 0)%Z | S754_infinity s => ((if s then -2 else 2), 0, 0)%Z | S754_nan => (0, 0, 0)%Z
  | S754_finite s m e => if s then (-1, - e, - Z.pos m)%Z else (1, e, Z.pos m)%Z
  end.
Definition klt (a b : Z * Z * Z) : Prop := let '(a1, a2, a3) := a in let '(b1, b2, b3) := b in (a1 < b1 \/ a1 = b1 /\ (a2 < b2 \/ a2 = b2 /\ a3 < b3))%Z.
Lemma SFltb_key x y : not_nan x -> not_nan y -> (SFltb x y = true <-> klt (key x) (key y)).
Proof.
  intros Nx Ny. unfold SFltb, SFcompare. destruct x as [sx|sx| |sx mx ex]; [| |exfalso; apply Nx; reflexivity|]; (destruct y as [sy|sy| |sy my ey]; [| |exfalso; apply Ny; reflexivity|]); cbn [key klt];
    try (destruct sx); try (destruct sy); cbn [key klt]; try (split; [discriminate|lia]); try (split; [lia|reflexivity]).
  - destruct (Z.compare_spec ex ey); cbn; [|split; [discriminate|lia]|split; [lia|reflexivity]]. fold (Pos.compare mx my). destruct (Pos.compare_spec mx my); cbn; split; try discriminate; try reflexivity; try lia.
  - destruct (Z.compare_spec ex ey); cbn; [|split; [lia|reflexivity]|split; [discriminate|lia]]. fold (Pos.compare mx my). destruct (Pos.compare_spec mx my); cbn; split; try discriminate; try reflexivity; try lia.
Qed.
Lemma doubles_ordered : ordered not_nan SFltb SFleb.
Proof.
  assert (F : forall x y, not_nan x -> not_nan y -> SFltb x y = false <-> ~ klt (key x) (key y)).
  { intros x y Hx Hy. rewrite <- (SFltb_key x y Hx Hy). destruct (SFltb x y); split; congruence. }
  split.
  - intros a Ha. apply F; auto. destruct (key a) as [[? ?] ?]. cbn. lia.
  - intros a b c Ha Hb Hc. rewrite !SFltb_key by auto. destruct (key a) as [[? ?] ?], (key b) as [[? ?] ?], (key c) as [[? ?] ?]. cbn. lia.
  - intros a b c Ha Hb Hc. rewrite !F by auto. destruct (key a) as [[? ?] ?], (key b) as [[? ?] ?], (key c) as [[? ?] ?]. cbn. lia.
  - intros x y Nx Ny. unfold SFleb, SFltb, SFcompare. destruct x as [sx|sx| |sx mx ex]; [| |exfalso; apply Nx; reflexivity|]; (destruct y as [sy|sy| |sy my ey]; [| |exfalso; apply Ny; reflexivity|]);
      try (destruct sx); try (destruct sy); cbn; try reflexivity.
    + rewrite (Z.compare_antisym ex ey). change (Pos.compare_cont Eq my mx) with (Pos.compare my mx). change (Pos.compare_cont Eq mx my) with (Pos.compare mx my). rewrite (Pos.compare_antisym mx my). destruct (ex ?= ey)%Z; cbn; try reflexivity. destruct (Pos.compare mx my); reflexivity.
    + rewrite (Z.compare_antisym ex ey). change (Pos.compare_cont Eq my mx) with (Pos.compare my mx). change (Pos.compare_cont Eq mx my) with (Pos.compare mx my). rewrite (Pos.compare_antisym mx my). destruct (ex ?= ey)%Z; cbn; try reflexivity. destruct (Pos.compare mx my); reflexivity.
Qed.
Lemma reals_ordered : ordered (fun _ => True) Rltb Rleb.
Proof.
  unfold Rltb, Rleb. split; intros; repeat (destruct (Rlt_dec _ _)); repeat (destruct (Rle_dec _ _)); cbn in *; try congruence; lra.
Qed.
Lemma ints_ordered : ordered (fun _ => True) Z.ltb Z.leb.
Proof. split; intros; lia. Qed.

(** ** integers *)
Lemma power_of_two_assembled v : is_power_of_two v = true <-> exists k : nat, v = (2 ^ Z.of_nat k)%Z.
Proof.
  unfold is_power_of_two. rewrite andb_true_iff, negb_true_iff, Z.eqb_neq, Z.eqb_eq. split.
  - intros [Nz L]. assert (P : (0 < v)%Z). { destruct (Z.lt_trichotomy v 0) as [H|[H|H]]; [|congruence|exact H]. exfalso. assert (Z.land v (v - 1) < 0)%Z by (apply Z.land_neg; lia). lia. }
    exists (Z.to_nat (Z.log2 v)). rewrite Z2Nat.id by apply Z.log2_nonneg. destruct (Z.log2_spec v P) as [L1 L2]. destruct (Z.eq_dec v (2 ^ Z.log2 v)) as [E|E]; [exact E|]. exfalso.
    assert (Lg : Z.log2 (v - 1) = Z.log2 v). { apply Z.log2_unique; [apply Z.log2_nonneg|]. rewrite <- Z.add_1_r in *. lia. }
    assert (B : Z.testbit (Z.land v (v - 1)) (Z.log2 v) = true).
    { rewrite Z.land_spec, (Z.bit_log2 v P). cbn [andb]. rewrite <- Lg. apply Z.bit_log2. pose proof (Z.pow_pos_nonneg 2 (Z.log2 v) ltac:(lia) (Z.log2_nonneg v)). lia. }
    rewrite L, Z.testbit_0_l in B. discriminate.
  - intros (k & ->). pose proof (Z.pow_pos_nonneg 2 (Z.of_nat k) ltac:(lia) ltac:(lia)) as P. split; [lia|]. rewrite <- Z.sub_1_r || idtac.
    replace (2 ^ Z.of_nat k - 1)%Z with (Z.ones (Z.of_nat k)) by (rewrite Z.ones_equiv; lia). rewrite Z.land_ones by lia. apply Z.mod_same. lia.
Qed.
Lemma parity_assembled v : (is_even v = true <-> Z.Even v) /\ (is_odd v = true <-> Z.Odd v).
Proof.
  unfold is_even, is_odd. change 1%Z with (Z.ones 1). rewrite Z.land_ones by lia. change (2 ^ 1)%Z with 2%Z. rewrite !Z.eqb_eq. change (Z.ones 1) with 1%Z. split; split.
  - intros H. exists (v / 2)%Z. pose proof (Z.div_mod v 2). lia.
  - intros (k & ->). rewrite Z.mul_comm. apply Z.mod_mul. lia.
  - intros H. exists (v / 2)%Z. pose proof (Z.div_mod v 2). lia.
  - intros (k & ->). rewrite Z.add_comm, Z.mul_comm, Z.mod_add by lia. reflexivity.
Qed.
Lemma digits_step v d : (10 <= v)%N -> digits_in 10 (v / 10) d -> digits_in 10 v (S d).
Proof.
  intros V (D0 & D1 & D2). split; [lia|]. split.
  - rewrite Nat2N.inj_succ, N.pow_succ_r'. pose proof (N.div_mod v 10 ltac:(lia)). pose proof (N.mod_lt v 10 ltac:(lia)). lia.
  - right. replace (S d - 1)%nat with d by lia. destruct D2 as [->|D2]; [cbn; lia|]. destruct d as [|d]; [lia|]. replace (S d - 1)%nat with d in D2 by lia. rewrite Nat2N.inj_succ, N.pow_succ_r'.
    pose proof (N.div_mod v 10 ltac:(lia)). lia.
Qed.
Lemma count_digits_loop_ok fuel : forall v k, (v < 2 ^ N.of_nat fuel)%N -> exists d, count_digits_loop fuel v 10 k = Ok (k + d - 1)%nat /\ digits_in 10 v d.
Proof.
  induction fuel as [|fuel IH]; intros v k H; cbn [count_digits_loop]; destruct (N.leb_spec 10 v) as [L|L].
  - cbn in H. lia.
  - exists 1%nat. split; [f_equal; lia|]. split; [lia|]. split; [cbn; lia|auto].
  - rewrite Nat2N.inj_succ, N.pow_succ_r' in H. destruct (IH (v / 10)%N (S k)) as (d & E & D); [apply N.div_lt_upper_bound; lia|].
    exists (S d). split; [rewrite E; f_equal; lia|]. apply digits_step; assumption.
  - exists 1%nat. split; [f_equal; lia|]. split; [lia|]. split; [cbn; lia|auto].
Qed.
Lemma count_digits_assembled v : exists d, count_digits v 10 = Ok d /\ digits_in 10 v d.
Proof.
  unfold count_digits. destruct (count_digits_loop_ok (N.to_nat (N.size v) + 1) v 1) as (d & E & D).
  - rewrite Nat2N.inj_add, N2Nat.id, N.add_1_r, N.pow_succ_r'. pose proof (N.size_gt v). lia.
  - exists d. split; [rewrite E; f_equal; lia|exact D].
Qed.
Lemma count_digits_zero_base fuel : forall v k, count_digits_loop fuel v 0 k = UB.
Proof. induction fuel as [|fuel IH]; intros v k; cbn [count_digits_loop]; destruct (N.leb_spec 0 v); try lia; [reflexivity|apply IH]. Qed.
Lemma gcd_rem p q : (q <> 0)%Z -> Z.gcd q (Z.rem p q) = Z.gcd p q.
Proof. intros N. rewrite (Z.rem_eq p q N). replace (p - q * (p ÷ q))%Z with (p + (- (p ÷ q)) * q)%Z by ring. rewrite Z.gcd_add_mult_diag_r. apply Z.gcd_comm. Qed.
Lemma gcd_loop_ok fuel : forall p q, (Z.abs q < Z.of_nat fuel)%Z -> exists r, gcd_loop fuel p q = Ok r /\ Z.abs r = Z.gcd p q /\ (0 <= p -> 0 <= q -> 0 <= r)%Z.
Proof.
  induction fuel as [|fuel IH]; intros p q L; [lia|]. cbn [gcd_loop]. destruct (Z.eqb_spec q 0) as [->|N].
  - exists p. split; [reflexivity|]. split; [rewrite Z.gcd_0_r; reflexivity|auto].
  - pose proof (Z.rem_bound_abs p q N) as B. destruct (IH q (Z.rem p q)) as (r & E & A & P); [lia|]. exists r. split; [exact E|]. rewrite gcd_rem in A by exact N. split; [exact A|].
    intros Hp Hq. apply P; [exact Hq|]. apply Z.rem_nonneg; assumption.
Qed.
Lemma gcd_assembled p q : exists r, greatest_common_divisor p q = Ok r /\ (r | p)%Z /\ (r | q)%Z /\ (forall d, (d | p)%Z -> (d | q)%Z -> (d | r)%Z) /\ (0 <= p -> 0 <= q -> r = Z.gcd p q)%Z.
Proof.
  unfold greatest_common_divisor. destruct (gcd_loop_ok (S (Z.to_nat (Z.abs q))) p q ltac:(lia)) as (r & E & A & P). exists r. split; [exact E|].
  split; [apply Z.divide_abs_l; rewrite A; apply Z.gcd_divide_l|]. split; [apply Z.divide_abs_l; rewrite A; apply Z.gcd_divide_r|].
  split; [intros d D1 D2; apply Z.divide_abs_r; rewrite A; apply Z.gcd_greatest; assumption|]. intros Hp Hq. specialize (P Hp Hq). lia.
Qed.
Lemma midpoint_assembled bits a b : (1 <= bits)%Z -> in_signed bits a = true -> in_signed bits b = true -> in_signed bits (b - a) = true ->
  exists m, midpoint_signed bits a b = Ok m /\ (2 * m = a + b \/ 2 * m = a + b - Z.sgn (b - a))%Z.
Proof.
  intros B Ha Hb Hd. unfold midpoint_signed. rewrite Hd. unfold in_signed in *. set (P := (2 ^ (bits - 1))%Z) in *. clearbody P.
  assert (Q : (2 * ((b - a) ÷ 2) = b - a \/ 2 * ((b - a) ÷ 2) = b - a - Z.sgn (b - a))%Z).
  { pose proof (Z.quot_rem (b - a) 2 ltac:(lia)) as E. destruct (Z.lt_trichotomy (b - a) 0) as [N|[N|N]].
    - pose proof (Zquot.Zrem_lt_neg_pos (b - a) 2 ltac:(lia) ltac:(lia)). lia.
    - rewrite N. left. reflexivity.
    - pose proof (Z.rem_bound_pos (b - a) 2 ltac:(lia) ltac:(lia)). lia. }
  destruct ((- P <=? a + (b - a) ÷ 2)%Z && (a + (b - a) ÷ 2 <? P)%Z) eqn:E; [|exfalso; lia]. eexists. split; [reflexivity|]. lia.
Qed.
Lemma sign_assembled v w : (sign_Z v = if (v <? 0)%Z then (-1)%Z else 1%Z) /\ signum_Z v = Z.sgn v /\ (same_sign_Z v w = true <-> (0 < v /\ 0 < w \/ v < 0 /\ w < 0 \/ v = 0 /\ w = 0)%Z) /\
  (forall bits, in_signed bits v = true -> v <> (- 2 ^ (bits - 1))%Z -> abs_signed bits v = Ok (Z.abs v)).
Proof.
  unfold sign_Z, same_sign_Z, signum_Z, abs_signed, in_signed.
  split; [destruct (Z.leb_spec 0 v), (Z.ltb_spec v 0); lia|]. split; [destruct (Z.ltb_spec 0 v), (Z.ltb_spec v 0); lia|].
  split; [destruct (Z.ltb_spec 0 v), (Z.ltb_spec v 0), (Z.ltb_spec 0 w), (Z.ltb_spec w 0); cbn; lia|]. intros bits H N. destruct (Z.ltb_spec v 0); [|f_equal; lia].
  destruct ((- 2 ^ (bits - 1) <=? - v)%Z && (- v <? 2 ^ (bits - 1))%Z) eqn:E; [f_equal; lia|exfalso; lia].
Qed.

(** ** reals *)
Local Open Scope R_scope.
Lemma abs_R_Rabs v : abs_R v = Rabs v.
Proof. unfold abs_R, Rabs. destruct (Rlt_dec v 0), (Rcase_abs v); lra. Qed.
Lemma power_nat_pow e b : power_nat e b = b ^ e.
Proof. induction e as [|e IH]; [reflexivity|]. destruct e as [|e]; [cbn; ring|]. change (power_nat (S (S e)) b) with (b * power_nat (S e) b). rewrite IH. reflexivity. Qed.
Lemma power_assembled e b : (0 <= e)%Z \/ b <> 0 -> power e b = powerRZ b e.
Proof.
  intros H. unfold power. rewrite !power_nat_pow. destruct (Z.ltb_spec e 0) as [L|L].
  - destruct e as [|p|p]; [lia|lia|]. cbn [powerRZ Z.opp Z.to_nat]. field. apply pow_nonzero. destruct H; [lia|assumption].
  - destruct e as [|p|p]; [reflexivity|reflexivity|lia].
Qed.
Lemma violation_assembled (b : @bounds R) v : b_lower b <= b_upper b ->
  (get_violation b v = 0 <-> is_within Rleb b v = true) /\ (get_violation b v < 0 <-> v < b_lower b) /\ (0 < get_violation b v <-> b_upper b < v) /\
  v - get_violation b v = bounds_clamped Rltb b v /\ bounds_check b v = (is_within Rleb b v, get_violation b v).
Proof.
  intros L. unfold get_violation, is_within, bounds_clamped, clamped, bounds_check, Rltb, Rleb.
  destruct (Rlt_dec v (b_lower b)), (Rle_dec (b_lower b) v), (Rlt_dec (b_upper b) v), (Rle_dec v (b_upper b)); cbn; try lra; (repeat split); intros; try lra; try congruence.
Qed.
Lemma bounds_neg_assembled (b : @bounds R) v : is_within Rleb (bounds_neg b) (- v) = is_within Rleb b v /\ bounds_neg (bounds_neg b) = b /\ bounds_length (bounds_neg b) = bounds_length b /\
  (b_lower b <= b_upper b -> is_within Rleb b (bounds_center b) = true /\ bounds_center b - b_lower b = b_upper b - bounds_center b).
Proof.
  destruct b as [l u]. unfold is_within, bounds_neg, bounds_length, bounds_center, Rleb. cbn [b_lower b_upper]. split; [|split; [f_equal; lra|split; [lra|]]].
  - destruct (Rle_dec (- u) (- v)), (Rle_dec v u), (Rle_dec (- v) (- l)), (Rle_dec l v); cbn; try reflexivity; lra.
  - intros L. split; [|lra]. destruct (Rle_dec l (0.5 * (l + u))), (Rle_dec (0.5 * (l + u)) u); cbn; try reflexivity; lra.
Qed.
Lemma limit_transform_bounds x r : 0 < x -> 0 < r -> 0 < limit_transform x r < r /\ limit_transform x r <= x.
Proof.
  intros Hx Hr. unfold limit_transform. assert (E : r - r * r / (x + r) = r * x / (x + r)) by (field; lra). rewrite E. assert (P : 0 < x + r) by lra.
  split; [split|].
  - apply Rdiv_lt_0_compat; nra.
  - apply (Rmult_lt_reg_r (x + r)); [exact P|]. unfold Rdiv. rewrite Rmult_assoc, Rinv_l by lra. nra.
  - apply (Rmult_le_reg_r (x + r)); [exact P|]. unfold Rdiv. rewrite Rmult_assoc, Rinv_l by lra. nra.
Qed.
Lemma limit_transform_mono x y r : 0 < x -> x < y -> 0 < r -> limit_transform x r < limit_transform y r.
Proof.
  intros Hx Hy Hr. unfold limit_transform. apply Rplus_lt_compat_l, Ropp_lt_contravar. unfold Rdiv. apply Rmult_lt_compat_l; [nra|]. apply Rinv_lt_contravar; [nra|lra].
Qed.
Lemma soft_clamp_assembled mn mx bd : mn < mx -> 0 < bd <= 1 / 2 ->
  (forall v, mn < soft_clamped v mn mx bd < mx) /\ (forall v, mn + bd * (mx - mn) <= v <= mx - bd * (mx - mn) -> soft_clamped v mn mx bd = v) /\
  (forall v w, v < w -> soft_clamped v mn mx bd < soft_clamped w mn mx bd).
Proof.
  intros L B. unfold soft_clamped. set (r := bd * (mx - mn)). assert (R0 : 0 < r) by (unfold r; nra). assert (R1 : 2 * r <= mx - mn) by (unfold r; nra). clearbody r. split; [|split].
  - intros v. destruct (Rlt_dec (mx - r) v).
    + destruct (limit_transform_bounds (v - mx + r) r ltac:(lra) R0) as [[? ?] ?]. lra.
    + destruct (Rlt_dec v (mn + r)); [|lra]. destruct (limit_transform_bounds (mn + r - v) r ltac:(lra) R0) as [[? ?] ?]. lra.
  - intros v H. destruct (Rlt_dec (mx - r) v); [lra|]. destruct (Rlt_dec v (mn + r)); lra.
  - intros v w H. destruct (Rlt_dec (mx - r) v), (Rlt_dec (mx - r) w); try lra.
    + pose proof (limit_transform_mono (v - mx + r) (w - mx + r) r ltac:(lra) ltac:(lra) R0). lra.
    + destruct (limit_transform_bounds (w - mx + r) r ltac:(lra) R0) as [[? ?] ?]. destruct (Rlt_dec v (mn + r)); [|lra]. destruct (limit_transform_bounds (mn + r - v) r ltac:(lra) R0) as [[? ?] ?]. lra.
    + destruct (Rlt_dec v (mn + r)), (Rlt_dec w (mn + r)); try lra.
      * pose proof (limit_transform_mono (mn + r - w) (mn + r - v) r ltac:(lra) ltac:(lra) R0). lra.
      * destruct (limit_transform_bounds (mn + r - v) r ltac:(lra) R0) as [[? ?] ?]. lra.
Qed.
Lemma tanh_eq x : tanh x = (exp x - exp (- x)) / (exp x + exp (- x)).
Proof. unfold tanh, sinh, cosh. pose proof (exp_pos x). pose proof (exp_pos (- x)). field. lra. Qed.
Lemma tanh_mono x y : x < y -> tanh x < tanh y.
Proof.
  intros H. rewrite !tanh_eq. pose proof (exp_pos x). pose proof (exp_pos (- x)). pose proof (exp_pos y). pose proof (exp_pos (- y)).
  pose proof (exp_increasing x y H). pose proof (exp_increasing (- y) (- x) ltac:(lra)).
  apply (Rmult_lt_reg_r ((exp x + exp (- x)) * (exp y + exp (- y)))); [nra|].
  replace ((exp x - exp (- x)) / (exp x + exp (- x)) * ((exp x + exp (- x)) * (exp y + exp (- y)))) with ((exp x - exp (- x)) * (exp y + exp (- y))) by (field; lra).
  replace ((exp y - exp (- y)) / (exp y + exp (- y)) * ((exp x + exp (- x)) * (exp y + exp (- y)))) with ((exp y - exp (- y)) * (exp x + exp (- x))) by (field; lra). nra.
Qed.
Lemma tanh_0 : tanh 0 = 0.
Proof. rewrite tanh_eq, Ropp_0. unfold Rminus, Rdiv. rewrite Rplus_opp_r. ring. Qed.
Lemma tanh_bounds x : -1 < tanh x < 1.
Proof.
  rewrite tanh_eq. pose proof (exp_pos x). pose proof (exp_pos (- x)). split; apply (Rmult_lt_reg_r (exp x + exp (- x))); try lra; unfold Rdiv; rewrite ?Rmult_assoc, ?Rinv_l by lra; lra.
Qed.
Lemma tanh_neg x : x < 0 -> -1 < tanh x < 0.
Proof. intros H. pose proof (tanh_bounds x). pose proof (tanh_mono x 0 H). rewrite tanh_0 in *. lra. Qed.
Lemma tanh_pos x : 0 < x -> 0 < tanh x < 1.
Proof. intros H. pose proof (tanh_bounds x). pose proof (tanh_mono 0 x H). rewrite tanh_0 in *. lra. Qed.
Lemma div_neg a b : a < 0 -> 0 < b -> a / b < 0.
Proof. intros Ha Hb. unfold Rdiv. pose proof (Rinv_0_lt_compat b Hb). nra. Qed.
Lemma div_lt a b c : a < b -> 0 < c -> a / c < b / c.
Proof. intros H Hc. unfold Rdiv. pose proof (Rinv_0_lt_compat c Hc). nra. Qed.
Lemma smooth_clamp_assembled mn mx lb ub : mn < lb <= ub -> ub < mx ->
  (forall v, mn < smooth_clamped v mn mx lb ub < mx) /\ (forall v, lb <= v <= ub -> smooth_clamped v mn mx lb ub = v) /\ (forall v w, v < w -> smooth_clamped v mn mx lb ub < smooth_clamped w mn mx lb ub).
Proof.
  intros [L1 L2] L3. unfold smooth_clamped.
  assert (Lo : forall v, v < lb -> mn < (lb - mn) * tanh ((v - lb) / (lb - mn)) + lb < lb).
  { intros v H. pose proof (tanh_neg ((v - lb) / (lb - mn)) (div_neg (v - lb) (lb - mn) ltac:(lra) ltac:(lra))). nra. }
  assert (Hi : forall v, ub < v -> ub < (mx - ub) * tanh ((v - ub) / (mx - ub)) + ub < mx).
  { intros v H. pose proof (tanh_pos ((v - ub) / (mx - ub)) (Rdiv_lt_0_compat (v - ub) (mx - ub) ltac:(lra) ltac:(lra))). nra. }
  split; [|split].
  - intros v. destruct (Rlt_dec v lb) as [H|H]; [specialize (Lo v H); lra|]. destruct (Rlt_dec ub v) as [H'|H']; [specialize (Hi v H'); lra|lra].
  - intros v H. destruct (Rlt_dec v lb); [lra|]. destruct (Rlt_dec ub v); lra.
  - intros v w H. destruct (Rlt_dec v lb) as [A|A], (Rlt_dec w lb) as [B|B]; try lra.
    + pose proof (tanh_mono _ _ (div_lt (v - lb) (w - lb) (lb - mn) ltac:(lra) ltac:(lra))). nra.
    + specialize (Lo v A). destruct (Rlt_dec ub w) as [B'|B']; [specialize (Hi w B'); lra|lra].
    + destruct (Rlt_dec ub v) as [A'|A'], (Rlt_dec ub w) as [B'|B']; try lra.
      * pose proof (tanh_mono _ _ (div_lt (v - ub) (w - ub) (mx - ub) ltac:(lra) ltac:(lra))). nra.
      * specialize (Hi w B'). lra.
Qed.

(** ** periodic functions *)
Lemma floor_spec x : floor_R x <= x < floor_R x + 1.
Proof. unfold floor_R. pose proof (base_Int_part x). lra. Qed.
Lemma floor_unique x z : IZR z <= x < IZR z + 1 -> floor_R x = IZR z.
Proof.
  intros H. unfold floor_R. f_equal. pose proof (base_Int_part x) as B. assert (IZR (Int_part x) < IZR (z + 1)) by (rewrite plus_IZR; lra). assert (IZR z < IZR (Int_part x + 1)) by (rewrite plus_IZR; lra).
  apply lt_IZR in H0, H1. lia.
Qed.
Lemma floor_add x z : floor_R (x + IZR z) = floor_R x + IZR z.
Proof. unfold floor_R at 2. rewrite <- plus_IZR. apply floor_unique. rewrite plus_IZR. pose proof (floor_spec x) as F. unfold floor_R in F. lra. Qed.
Lemma fmod_nonneg x y : 0 < y -> 0 <= x -> 0 <= fmod x y < y /\ exists z, fmod x y = x + IZR z * y.
Proof.
  intros Hy Hx. unfold fmod, trunc_R. assert (P : 0 <= x / y) by (unfold Rdiv; pose proof (Rinv_0_lt_compat y Hy); nra). destruct (Rlt_dec (x / y) 0); [lra|].
  pose proof (floor_spec (x / y)) as F. assert (E : x = y * (x / y)) by (field; lra). split; [|exists (- Int_part (x / y))%Z; rewrite opp_IZR; unfold floor_R; ring].
  set (q := x / y) in *. set (k := floor_R q) in *. rewrite E. nra.
Qed.
Lemma fmod_neg x y : 0 < y -> x < 0 -> - y < fmod x y <= 0 /\ exists z, fmod x y = x + IZR z * y.
Proof.
  intros Hy Hx. unfold fmod, trunc_R. assert (P : x / y < 0) by (apply div_neg; lra). destruct (Rlt_dec (x / y) 0); [|lra].
  pose proof (floor_spec (- (x / y))) as F. assert (E : x = y * (x / y)) by (field; lra). split; [|exists (Int_part (- (x / y)))%Z; unfold floor_R; ring].
  set (q := x / y) in *. set (k := floor_R (- q)) in *. rewrite E. nra.
Qed.
Lemma fmod_neg_zero x y : 0 < y -> x < 0 -> fmod x y = 0 -> exists z, x = IZR z * y.
Proof. intros Hy Hx E. destruct (fmod_neg x y Hy Hx) as [_ (z & Hz)]. exists (- z)%Z. rewrite opp_IZR. lra. Qed.
Lemma fmod_neg_multiple y k : 0 < y -> (0 < k)%Z -> fmod (- IZR k * y) y = 0.
Proof.
  intros Hy Hk. unfold fmod, trunc_R. replace (- IZR k * y / y) with (- IZR k) by (field; lra). apply IZR_lt in Hk. destruct (Rlt_dec (- IZR k) 0); [|lra].
  rewrite Ropp_involutive, (floor_unique (IZR k) k) by lra. ring.
Qed.
Lemma wrap_assembled v lo hi : lo < hi -> same_phase (hi - lo) (wrapped v lo hi) v /\ lo <= wrapped v lo hi <= hi /\
  (wrapped v lo hi < hi <-> lo <= v \/ ~ same_phase (hi - lo) v lo).
Proof.
  intros L. unfold wrapped. destruct (Rle_dec 0 (v - lo)) as [P|P].
  - destruct (fmod_nonneg (v - lo) (hi - lo) ltac:(lra) P) as [B (z & E)]. split; [exists z; lra|]. split; [lra|]. split; [left; lra|lra].
  - destruct (fmod_neg (v - lo) (hi - lo) ltac:(lra) ltac:(lra)) as [B (z & E)]. split; [exists (z + 1)%Z; rewrite plus_IZR; lra|]. split; [lra|]. split.
    + intros H. right. intros (k & K). assert (Kn : (k < 0)%Z). { apply lt_IZR. destruct (Rlt_le_dec (IZR k) 0) as [X|X]; [exact X|]. exfalso. nra. }
      pose proof (fmod_neg_multiple (hi - lo) (- k)%Z ltac:(lra) ltac:(lia)) as F. rewrite opp_IZR, Ropp_involutive in F. replace (IZR k * (hi - lo)) with (v - lo) in F by lra. lra.
    + intros [H|H]; [lra|]. destruct (Rlt_le_dec (fmod (v - lo) (hi - lo)) 0) as [X|X]; [lra|]. exfalso. destruct (fmod_neg_zero (v - lo) (hi - lo) ltac:(lra) ltac:(lra) ltac:(lra)) as (k & K). apply H. exists k. lra.
Qed.
Lemma pos_mod_assembled x y : 0 < y -> same_phase y (pos_mod x y) x /\ 0 <= pos_mod x y <= y /\ (pos_mod x y < y <-> 0 <= x \/ ~ same_phase y x 0).
Proof.
  intros Hy. unfold pos_mod. destruct (Rlt_dec x 0) as [N|N].
  - destruct (fmod_neg x y Hy N) as [B (z & E)]. split; [exists (z + 1)%Z; rewrite plus_IZR; lra|]. split; [lra|]. split.
    + intros H. right. intros (k & K). assert (Kn : (k < 0)%Z). { apply lt_IZR. destruct (Rlt_le_dec (IZR k) 0) as [X|X]; [exact X|]. exfalso. nra. }
      pose proof (fmod_neg_multiple y (- k)%Z Hy ltac:(lia)) as F. rewrite opp_IZR, Ropp_involutive in F. replace (IZR k * y) with x in F by lra. lra.
    + intros [H|H]; [lra|]. destruct (Rlt_le_dec (fmod x y) 0) as [X|X]; [lra|]. exfalso. destruct (fmod_neg_zero x y Hy N ltac:(lra)) as (k & K). apply H. exists k. lra.
  - destruct (fmod_nonneg x y Hy ltac:(lra)) as [B (z & E)]. split; [exists z; lra|]. split; [lra|]. split; [left; lra|lra].
Qed.
Lemma same_rep p a b x : 0 < p -> 0 <= a < p -> 0 <= b < p -> same_phase p a x -> same_phase p b x -> a = b.
Proof.
  intros Hp Ha Hb (i & Ei) (j & Ej). assert (E : a - b = IZR (i - j) * p) by (rewrite minus_IZR; lra).
  assert (A : (-1 < i - j < 1)%Z). { split; apply lt_IZR; apply (Rmult_lt_reg_r p); auto; rewrite <- E; lra. }
  replace (i - j)%Z with 0%Z in E by lia. lra.
Qed.
Lemma square_wave_assembled v : (0 <= v -> exists k : Z, 2 * IZR k <= v < 2 * IZR k + 2 /\ (v < 2 * IZR k + 1 -> square_wave v = 1) /\ (2 * IZR k + 1 <= v -> square_wave v = 0)) /\ (v < 0 -> square_wave v = 1).
Proof.
  unfold square_wave. split; intros H.
  - destruct (fmod_nonneg v 2 ltac:(lra) H) as [B (z & E)]. exists (- z)%Z. rewrite opp_IZR. destruct (Rlt_dec (fmod v 2) 1); (split; [lra|]); split; intros; lra.
  - destruct (fmod_neg v 2 ltac:(lra) H) as [B _]. destruct (Rlt_dec (fmod v 2) 1); lra.
Qed.
Lemma triangle_wave_assembled v : exists k : Z, Rabs (v - 2 * IZR k) <= 1 /\ triangle_wave v = Rabs (v - 2 * IZR k).
Proof.
  exists (Int_part (0.5 * v + 0.5)). unfold triangle_wave. rewrite abs_R_Rabs. pose proof (floor_spec (0.5 * v + 0.5)) as F. unfold floor_R in *. set (k := IZR (Int_part (0.5 * v + 0.5))) in *.
  split; [apply Rabs_le; lra|]. replace (v - 2 * k) with (2 * (0.5 * v - k)) by lra. rewrite Rabs_mult, (Rabs_right 2) by lra. reflexivity.
Qed.
Lemma triangle_between_assembled v l u : l < u -> exists k : Z, Rabs (v - l - 2 * (u - l) * IZR k) <= u - l /\ triangle_wave_between v l u = l + Rabs (v - l - 2 * (u - l) * IZR k).
Proof.
  intros L. unfold triangle_wave_between. rewrite abs_R_Rabs. destruct (pos_mod_assembled (v - u) (2 * (u - l)) ltac:(lra)) as ((z & E) & B & _). exists (1 - z)%Z. rewrite minus_IZR.
  replace (v - l - 2 * (u - l) * (1 - IZR z)) with (pos_mod (v - u) (2 * (u - l)) - (u - l)) by lra. split; [apply Rabs_le; lra|lra].
Qed.
Lemma equal_assembled v1 v2 e : 0 <= e < 1 ->
  equal_R v1 v1 e = true /\ (equal_R v1 v2 e = true <-> Rabs (v1 - v2) <= Rabs v1 * e) /\ (equal_R v1 v2 e = true -> 0 < v1 /\ 0 < v2 \/ v1 < 0 /\ v2 < 0 \/ v1 = 0 /\ v2 = 0) /\
  greater_than_not_equal v1 v2 e = negb (less_than_or_equal v1 v2 e) /\ less_than_not_equal v1 v2 e = negb (greater_than_or_equal v1 v2 e).
Proof.
  intros He. assert (I : forall a b, equal_R a b e = true <-> Rabs (a - b) <= Rabs a * e).
  { intros a b. unfold equal_R, Rleb. rewrite !abs_R_Rabs. destruct (Rle_dec (Rabs (a - b)) (Rabs a * e)); split; intros; try congruence; lra. }
  assert (Rf : equal_R v1 v1 e = true). { apply I. replace (v1 - v1) with 0 by ring. rewrite Rabs_R0. pose proof (Rabs_pos v1). nra. }
  split; [exact Rf|]. split; [apply I|]. split.
  - rewrite I. intros H. unfold Rabs in H. destruct (Rcase_abs (v1 - v2)), (Rcase_abs v1); nra.
  - assert (E : v1 = v2 -> equal_R v1 v2 e = true) by (intros <-; exact Rf).
    unfold greater_than_not_equal, less_than_or_equal, less_than_not_equal, greater_than_or_equal, Rltb. destruct (equal_R v1 v2 e) eqn:Q; [rewrite !orb_true_r, !andb_false_r; auto|]. rewrite !orb_false_r, !andb_true_r.
    destruct (Rlt_dec v1 v2), (Rlt_dec v2 v1); cbn; try (split; reflexivity); exfalso; [lra|]. assert (v1 = v2) by lra. specialize (E H). discriminate.
Qed.
