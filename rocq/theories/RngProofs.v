(** Proofs about ranges and plots. *)
From Coq Require Import Ascii String List Arith Bool ZArith Reals Lra Lia ZifyBool.
From Flocq Require Import Core IEEE754.BinarySingleNaN.
From Flocq Require Import Relative.
From Verif Require Import Base BaseProofs Str NumModel NumProofs IplProofs UtilProofs ColModel ColProofs RngSpec RngModel.
Import ListNotations.

(** ** the loop, for any kind of numbers: steps are the images of 0, 1, ... *)
Section Visit.
  Context {T V : Type} (neq : T -> T -> bool) (inc : T -> T) (val : T -> T -> T -> T -> V) (r : frange T) (num : nat -> T) (n : nat).
  Context (Hinc : forall k, k < n -> inc (num k) = num (S k)) (Hneq : forall k, k <= n -> neq (num n) (num k) = negb (k =? n)).

  Lemma visit_ok k fuel : k <= n -> n - k < fuel -> visit neq inc val r fuel (num k) (num n) = Some (map (fun j => deref val r (num j)) (seq k (n - k))).
  Proof using Hinc Hneq.
    revert k. induction fuel as [|f IH]; intros k Hk Hf; [lia|]. cbn [visit]. rewrite Hneq by lia. destruct (Nat.eqb_spec k n) as [->|N].
    - rewrite Nat.sub_diag. reflexivity.
    - cbn [negb]. rewrite Hinc by lia. rewrite IH by lia. replace (n - k) with (S (n - S k)) by lia. reflexivity.
  Qed.
End Visit.

Open Scope R_scope.
Lemma neq_nat n k : neq_R (INR n) (INR k) = negb (k =? n)%nat.
Proof.
  unfold neq_R, Reqb. destruct (Req_EM_T (INR n) (INR k)) as [E|E], (Nat.eqb_spec k n) as [E'|E']; subst; try reflexivity; exfalso.
  - apply INR_eq in E. congruence.
  - apply E. reflexivity.
Qed.
Lemma elements_ok r n fuel : fr_max_step r = INR n -> (1 <= n)%nat -> (S n < fuel)%nat ->
  elements_R r fuel = Some (map (fun k => Some (fr_min r + INR k * (fr_max r - fr_min r) / INR n)) (seq 0 (S n))).
Proof.
  intros E N F. unfold elements_R, elements. rewrite E. replace (inc_R (INR n)) with (INR (S n)) by (unfold inc_R; rewrite S_INR; reflexivity).
  change 0 with (INR 0). rewrite (visit_ok neq_R inc_R val_R r INR (S n)); [| | |lia|lia].
  - rewrite Nat.sub_0_r. f_equal. apply map_ext. intros k. unfold deref, val_R. rewrite E. destruct (Req_EM_T (INR n) 0) as [Z|Z]; [|reflexivity].
    exfalso. apply (not_0_INR n); [lia|exact Z].
  - intros k _. unfold inc_R. rewrite S_INR. reflexivity.
  - intros k _. apply neq_nat.
Qed.
Definition points (lower upper : R) (n : nat) : list R := map (fun k => lower + INR k * (upper - lower) / INR n) (seq 0 (S n)).
Lemma points_evenly lower upper n : evenly lower upper n (points lower upper n).
Proof.
  unfold points, evenly. rewrite map_length, seq_length. split; [reflexivity|]. intros k K. rewrite nth_error_map. rewrite nth_error_nth' with (d := 0%nat) by (rewrite seq_length; lia).
  rewrite seq_nth by lia. cbn [option_map Nat.add]. f_equal. unfold Rdiv. ring.
Qed.

Lemma steps_assembled lower upper steps : (2 <= steps)%nat -> exists l, evenly lower upper (steps - 1) l /\
  forall fuel, (steps < fuel)%nat -> elements_R (range_steps lower upper (Z.of_nat steps)) fuel = Some (map Some l).
Proof.
  intros S2. exists (points lower upper (steps - 1)). split; [apply points_evenly|]. intros fuel F. rewrite (elements_ok _ (steps - 1)); [|cbn|lia|lia].
  - unfold points. rewrite map_map. reflexivity.
  - rewrite INR_IZR_INZ. f_equal. lia.
Qed.

(** first and last element, and order *)
Lemma evenly_facts lower upper n l : (1 <= n)%nat -> evenly lower upper n l ->
  nth_error l 0 = Some lower /\ nth_error l n = Some upper /\
  (lower <= upper -> forall x, In x l -> lower <= x <= upper) /\
  (lower < upper -> forall i j x y, (i < j)%nat -> nth_error l i = Some x -> nth_error l j = Some y -> x < y).
Proof.
  intros N [L E]. assert (P : 0 < INR n) by (apply lt_0_INR; lia). refine (conj _ (conj _ (conj _ _))).
  - rewrite E by lia. f_equal. cbn. ring.
  - rewrite E by lia. f_equal. field. lra.
  - intros LU x Hx. apply In_nth_error in Hx. destruct Hx as [k Hk]. assert (k < length l)%nat as K by (apply nth_error_Some; congruence).
    rewrite E in Hk by lia. injection Hk as <-. assert (0 <= INR k <= INR n) as [K1 K2] by (split; [apply pos_INR|apply le_INR; lia]).
    assert (D : 0 <= (upper - lower) / INR n) by (apply Rmult_le_pos; [lra|left; apply Rinv_0_lt_compat; exact P]).
    assert (M : INR k * ((upper - lower) / INR n) <= INR n * ((upper - lower) / INR n)) by (apply Rmult_le_compat_r; assumption).
    replace (INR n * ((upper - lower) / INR n)) with (upper - lower) in M by (field; lra).
    assert (M0 : 0 <= INR k * ((upper - lower) / INR n)) by (apply Rmult_le_pos; assumption). lra.
  - intros LU i j x y IJ Hi Hj. assert (j < length l)%nat as J by (apply nth_error_Some; congruence). rewrite E in Hi, Hj by lia. injection Hi as <-. injection Hj as <-.
    assert (D : 0 < (upper - lower) / INR n) by (apply Rmult_lt_0_compat; [lra|apply Rinv_0_lt_compat; exact P]).
    apply Rplus_lt_compat_l. apply Rmult_lt_compat_r; [exact D|]. apply lt_INR. exact IJ.
Qed.

Lemma round_nearest x : / 2 <= x -> exists n, (1 <= n)%nat /\ round_R x = INR n /\ nearest_nat x n.
Proof.
  intros X. unfold round_R. destruct (Rlt_dec x 0) as [N|N]; [lra|]. destruct (floor_spec (x + / 2)) as [F1 F2].
  assert (P : (1 <= Int_part (x + / 2))%Z).
  { unfold floor_R in F2. assert (0 < IZR (Int_part (x + / 2))) by lra. change 0 with (IZR 0) in H. apply lt_IZR in H. lia. }
  exists (Z.to_nat (Int_part (x + / 2))). split; [lia|]. assert (E : floor_R (x + / 2) = INR (Z.to_nat (Int_part (x + / 2)))).
  { unfold floor_R. rewrite INR_IZR_INZ, Z2Nat.id by lia. reflexivity. }
  split; [exact E|]. unfold nearest_nat. rewrite <- E. apply Rabs_le. lra.
Qed.
Lemma nearest_same m n : nearest_nat (INR m) n -> m = n.
Proof.
  unfold nearest_nat. intros H. apply INR_eq. rewrite !INR_IZR_INZ in *. rewrite <- minus_IZR, <- abs_IZR in H. f_equal.
  assert (IZR (Z.abs (Z.of_nat m - Z.of_nat n)) < 1) by lra. change 1 with (IZR 1) in H0. apply lt_IZR in H0. lia.
Qed.
Lemma by_assembled lower upper increment : increment <> 0 -> / 2 <= (upper - lower) / increment -> exists n l, (1 <= n)%nat /\ nearest_nat ((upper - lower) / increment) n /\ evenly lower upper n l /\
  (forall fuel, (S n < fuel)%nat -> elements_R (range_by lower upper increment) fuel = Some (map Some l)) /\
  (forall m, (upper - lower) / increment = INR m -> m = n /\ forall k, (k <= n)%nat -> nth_error l k = Some (lower + INR k * increment)).
Proof.
  intros I0 H. destruct (round_nearest _ H) as (n & N1 & E & NN). exists n, (points lower upper n). refine (conj N1 (conj NN (conj (points_evenly _ _ _) (conj _ _)))).
  - intros fuel F. rewrite (elements_ok _ n); [|exact E|exact N1|exact F]. unfold points. rewrite map_map. reflexivity.
  - intros m Hm. rewrite Hm in NN. apply nearest_same in NN. subst m. split; [reflexivity|]. intros k K. destruct (points_evenly lower upper n) as [_ P]. rewrite P by exact K. do 3 f_equal.
    rewrite <- Hm. field. split; [exact I0|]. intros Z. rewrite Z in Hm. unfold Rdiv in Hm. rewrite Rmult_0_l in Hm.
    assert (0 < INR n) by (apply lt_0_INR; lia). lra.
Qed.

Lemma one_step lower upper : forall fuel, (2 < fuel)%nat -> elements_R (range_steps lower upper 1) fuel = Some [None].
Proof.
  intros fuel F. destruct fuel as [|[|[|fuel]]]; try lia. unfold elements_R, elements, range_steps. cbn [visit fr_max_step deref fr_min fr_max]. unfold neq_R, inc_R, Reqb, val_R.
  cbn [Z.sub Z.pos_sub Z.add Z.opp]. destruct (Req_EM_T (0 + 1) 0); [lra|]. cbn [negb]. destruct (Req_EM_T (0 + 1) (0 + 1)); [|lra]. cbn [negb option_map].
  unfold deref. cbn [fr_max_step]. unfold val_R. destruct (Req_EM_T 0 0); [reflexivity|lra].
Qed.
Lemma no_steps lower upper : forall fuel, (0 < fuel)%nat -> elements_R (range_steps lower upper 0) fuel = Some [].
Proof.
  intros fuel F. destruct fuel as [|fuel]; try lia. unfold elements_R, elements, range_steps. cbn [visit fr_max_step Z.sub Z.opp Z.add]. unfold neq_R, inc_R, Reqb.
  destruct (Req_EM_T (-1 + 1) 0); [reflexivity|lra].
Qed.
Lemma wrong_way fuel lower upper k n : (n < 0)%Z -> visit neq_R inc_R val_R (FR lower upper (IZR n)) fuel (INR k) (IZR n + 1) = None \/ (n = -1)%Z.
Proof.
  intros N. destruct (Z.eq_dec n (-1)) as [->|N1]; [right; reflexivity|left]. revert k. induction fuel as [|f IH]; intros k; [reflexivity|]. cbn [visit].
  unfold neq_R at 1, Reqb. destruct (Req_EM_T (IZR n + 1) (INR k)) as [E|E].
  - exfalso. pose proof (pos_INR k). assert (IZR n <= IZR (-2)) by (apply IZR_le; lia). lra.
  - cbn [negb]. replace (inc_R (INR k)) with (INR (S k)) by (unfold inc_R; rewrite S_INR; reflexivity). rewrite IH. reflexivity.
Qed.
Lemma endless : exists lower upper increment, lower <> upper /\ increment <> 0 /\ forall fuel, elements_R (range_by lower upper increment) fuel = None.
Proof.
  exists 0, 3, (-1). refine (conj _ (conj _ _)); [lra|lra|]. intros fuel. unfold elements_R, elements, range_by. cbn [fr_max_step].
  replace (round_R ((3 - 0) / -1)) with (IZR (-3)).
  - change 0 with (INR 0) at 1. destruct (wrong_way fuel 0 3 0 (-3) ltac:(lia)) as [W|W]; [exact W|discriminate].
  - unfold round_R. replace ((3 - 0) / -1) with (-3) by field. destruct (Rlt_dec (-3) 0); [|lra]. rewrite (floor_unique (- -3 + / 2) 3) by lra. lra.
Qed.
Lemma size_short : exists r l n, (forall fuel, (10 < fuel)%nat -> elements_R r fuel = Some l) /\ range_size r = Ok n /\ n <> length l.
Proof.
  destruct (steps_assembled 0 1 5 ltac:(lia)) as (l & [L _] & E). exists (range_steps 0 1 (Z.of_nat 5)), (map Some l), 4%nat. refine (conj _ (conj _ _)).
  - intros fuel F. apply E. lia.
  - unfold range_size, range_steps. cbn [fr_max_step]. destruct (Rlt_dec (IZR (Z.of_nat 5 - 1)) 0) as [X|X]; [apply (lt_IZR _ 0) in X; lia|]. do 2 f_equal.
    destruct (floor_spec (IZR (Z.of_nat 5 - 1))) as [F1 F2]. pose proof (floor_unique (IZR (Z.of_nat 5 - 1)) 4) as U. unfold floor_R in U. cbn in *.
    assert (E4 : IZR (Int_part 4) = 4) by (apply U; lra). apply eq_IZR in E4. rewrite E4. reflexivity.
  - rewrite map_length, L. discriminate.
Qed.
Lemma post_increment_wrong : exists r step, snd (post_increment r step) <> step /\ fst (post_increment r step) = step + 1.
Proof. exists (range_steps 0 1 5), 0. cbn. split; [lra|reflexivity]. Qed.

Lemma evaluate_assembled (f : R -> R) lower upper increment : increment <> 0 -> / 2 <= (upper - lower) / increment -> exists n l, nearest_nat ((upper - lower) / increment) n /\ evenly lower upper n l /\
  forall fuel, (S n < fuel)%nat -> evaluate_function neq_R inc_R val_R (option_map f) 0 (range_by lower upper increment) fuel = Some (map (fun x => Some (f x)) l).
Proof.
  intros I0 H. destruct (by_assembled lower upper increment I0 H) as (n & l & N & NN & E & V & _). exists n, l. refine (conj NN (conj E _)). intros fuel F.
  unfold evaluate_function. unfold elements_R in V. rewrite V by exact F. cbn [option_map]. rewrite map_map. reflexivity.
Qed.
Close Scope R_scope.

(** ** floats *)
Lemma small_format n : (Z.abs n <= 2 ^ 24)%Z -> generic_format radix2 (FLT_exp (3 - 128 - 24) 24) (IZR n).
Proof.
  intros N. apply generic_format_FLT. destruct (Z.eq_dec (Z.abs n) (2 ^ 24)) as [E|E].
  - exists (Defs.Float radix2 (Z.sgn n) 24); cbn [Fnum Fexp]; [|destruct n; cbn; lia|lia]. unfold F2R. cbn [Fnum Fexp]. change (bpow radix2 24) with (IZR (2 ^ 24)).
    rewrite <- mult_IZR. f_equal. rewrite <- E. symmetry. rewrite Z.mul_comm. apply Z.abs_sgn.
  - exists (Defs.Float radix2 n 0); cbn [Fnum Fexp]; [|change (radix2 ^ 24)%Z with (2 ^ 24)%Z; lia|lia]. unfold F2R. cbn. lra.
Qed.
Lemma of_Z_exact n : (Z.abs n <= 2 ^ 24)%Z -> B2R (f32_of_Z n) = IZR n /\ is_finite (f32_of_Z n) = true.
Proof.
  intros N. unfold f32_of_Z. pose proof (@binary_normalize_correct 24 128 prec32 emax32 mode_NE n 0 false) as B. cbv zeta in B.
  replace (F2R {| Fnum := n; Fexp := 0 |}) with (IZR n) in B by (unfold F2R; cbn; lra).
  assert (R : round radix2 (SpecFloat.fexp 24 128) (round_mode mode_NE) (IZR n) = IZR n) by (apply round_generic; [typeclasses eauto|apply small_format; exact N]).
  rewrite R in B. rewrite Rlt_bool_true in B; [|].
  - destruct B as (B1 & B2 & _). split; assumption.
  - rewrite <- abs_IZR. apply Rle_lt_trans with (IZR (2 ^ 24)); [apply IZR_le; exact N|]. change (bpow radix2 128) with (IZR (2 ^ 128)). apply IZR_lt. reflexivity.
Qed.

Lemma step_exact k : (Z.of_nat k < 2 ^ 24)%Z -> inc_32 (f32_of_Z (Z.of_nat k)) = f32_of_Z (Z.of_nat (S k)).
Proof.
  intros K.
  destruct (of_Z_exact (Z.of_nat k)) as [V F]; [lia|]. destruct (of_Z_exact 1) as [V1 F1]; [lia|]. destruct (of_Z_exact (Z.of_nat (S k))) as [V2 F2]; [lia|].
  unfold inc_32, f32_add. pose proof (@Bplus_correct 24 128 prec32 emax32 mode_NE _ _ F F1) as B. rewrite V, V1 in B.
  replace (IZR (Z.of_nat k) + 1)%R with (IZR (Z.of_nat (S k))) in B by (rewrite Nat2Z.inj_succ, succ_IZR; reflexivity).
  assert (R : round radix2 (SpecFloat.fexp 24 128) (round_mode mode_NE) (IZR (Z.of_nat (S k))) = IZR (Z.of_nat (S k))) by (apply round_generic; [typeclasses eauto|apply small_format; lia]).
  rewrite R in B. rewrite Rlt_bool_true in B.
  - destruct B as (B1 & B2 & B3). apply B2R_inj.
    + destruct (Bplus _ _ _) eqn:E; try discriminate; [|reflexivity]. exfalso. cbn [B2R] in B1. assert (0 < IZR (Z.of_nat (S k)))%R by (apply IZR_lt; lia). lra.
    + destruct (f32_of_Z (Z.of_nat (S k))) eqn:E; try discriminate; [|reflexivity]. exfalso. cbn [B2R] in V2. assert (0 < IZR (Z.of_nat (S k)))%R by (apply IZR_lt; lia). lra.
    + rewrite B1, V2. reflexivity.
  - rewrite <- abs_IZR. apply Rle_lt_trans with (IZR (2 ^ 24)); [apply IZR_le; lia|]. change (bpow radix2 128) with (IZR (2 ^ 128)). apply IZR_lt. reflexivity.
Qed.
Lemma neq_exact a b : (Z.abs a <= 2 ^ 24)%Z -> (Z.abs b <= 2 ^ 24)%Z -> neq_32 (f32_of_Z a) (f32_of_Z b) = negb (Z.eqb b a).
Proof.
  intros A B. destruct (of_Z_exact a A) as [V F]. destruct (of_Z_exact b B) as [V' F']. unfold neq_32. rewrite Beqb_correct by assumption. rewrite V, V'. f_equal.
  destruct (Z.eqb_spec b a) as [->|N]; [apply Req_bool_true; reflexivity|apply Req_bool_false]. intros E. apply eq_IZR in E. congruence.
Qed.
Lemma float_assembled lower upper steps : (1 <= steps)%nat -> (Z.of_nat steps <= 2 ^ 24)%Z -> exists l, length l = steps /\
  (forall fuel, (steps < fuel)%nat -> elements_32 (range_steps_32 lower upper (Z.of_nat steps)) fuel = Some l) /\
  forall k, (k < steps)%nat -> nth_error l k = Some (f32_add lower (f32_div (f32_mul (f32_of_Z (Z.of_nat k)) (f32_sub upper lower)) (f32_of_Z (Z.of_nat steps - 1)))).
Proof.
  intros S1 S2'.
  exists (map (fun k => deref val_32 (range_steps_32 lower upper (Z.of_nat steps)) (f32_of_Z (Z.of_nat k))) (seq 0 steps)). refine (conj _ (conj _ _)).
  - rewrite map_length, seq_length. reflexivity.
  - intros fuel F. unfold elements_32, elements. cbn [fr_max_step range_steps_32]. replace (Z.of_nat steps - 1)%Z with (Z.of_nat (steps - 1)) by lia.
    rewrite step_exact by lia. replace (S (steps - 1)) with steps by lia. change (f32_of_Z 0) with (f32_of_Z (Z.of_nat 0)).
    rewrite (visit_ok neq_32 inc_32 val_32 _ (fun k => f32_of_Z (Z.of_nat k)) steps); [| | |lia|lia].
    + rewrite Nat.sub_0_r. unfold range_steps_32. replace (Z.of_nat (steps - 1)) with (Z.of_nat steps - 1)%Z by lia. reflexivity.
    + intros k K. apply step_exact. lia.
    + intros k K. rewrite neq_exact by lia. f_equal. destruct (Z.eqb_spec (Z.of_nat k) (Z.of_nat steps)), (Nat.eqb_spec k steps); try reflexivity; lia.
  - intros k K. rewrite nth_error_map. rewrite nth_error_nth' with (d := 0) by (rewrite seq_length; lia). rewrite seq_nth by lia. reflexivity.
Qed.
(** ** how far an element is from its ideal value *)
Open Scope R_scope.
Definition rnd (x : R) : R := round radix2 (FLT_exp (3 - 128 - 24) 24) (round_mode mode_NE) x.
Lemma rnd_error x : exists d e, Rabs d <= / 2 ^ 24 /\ Rabs e <= / 2 ^ 150 /\ rnd x = x * (1 + d) + e.
Proof.
  destruct (error_N_FLT radix2 (3 - 128 - 24) 24 eq_refl (fun x => negb (Z.even x)) x) as (d & e & D & E & _ & H). exists d, e. split; [|split; [|exact H]].
  - eapply Rle_trans; [exact D|]. cbn. lra.
  - eapply Rle_trans; [exact E|]. change (bpow radix2 (3 - 128 - 24)) with (/ IZR (2 ^ 149)). change (2 ^ 149)%Z with (Z.pow_pos 2 149). rewrite (pow_IZR 2 150). change (2 ^ Z.of_nat 150)%Z with (Z.pow_pos 2 150).
    rewrite <- Rinv_mult, <- mult_IZR. apply Req_le. reflexivity.
Qed.
Lemma rnd_bound x k : (0 <= k <= 126)%Z -> Rabs x <= bpow radix2 k -> Rabs (rnd x) <= bpow radix2 k.
Proof.
  intros K H. apply abs_round_le_generic; [apply FLT_exp_valid; reflexivity|apply valid_rnd_round_mode| |exact H]. apply generic_format_bpow'. apply FLT_exp_valid; reflexivity. unfold FLT_exp. lia.
Qed.
Lemma rnd_fits x k : (0 <= k <= 126)%Z -> Rabs x <= bpow radix2 k -> Rlt_bool (Rabs (rnd x)) (bpow radix2 128) = true.
Proof. intros K H. apply Rlt_bool_true. eapply Rle_lt_trans; [apply (rnd_bound x k K H)|]. apply bpow_lt. lia. Qed.
Definition near32 (x : f32) (r : R) (k : Z) : Prop := is_finite x = true /\ B2R x = rnd r /\ Rabs (B2R x) <= bpow radix2 k.
Lemma sub_ok a b k : (0 <= k <= 126)%Z -> is_finite a = true -> is_finite b = true -> Rabs (B2R a - B2R b) <= bpow radix2 k -> near32 (f32_sub a b) (B2R a - B2R b) k.
Proof.
  intros K Fa Fb H. pose proof (@Bminus_correct 24 128 prec32 emax32 mode_NE a b Fa Fb) as C. change (round radix2 (SpecFloat.fexp 24 128) (round_mode mode_NE)) with rnd in C. rewrite (rnd_fits _ k K H) in C. destruct C as (V & F & _).
  split; [exact F|]. split; [exact V|]. fold (f32_sub a b) in V. rewrite V. apply rnd_bound; assumption.
Qed.
Lemma add_ok a b k : (0 <= k <= 126)%Z -> is_finite a = true -> is_finite b = true -> Rabs (B2R a + B2R b) <= bpow radix2 k -> near32 (f32_add a b) (B2R a + B2R b) k.
Proof.
  intros K Fa Fb H. pose proof (@Bplus_correct 24 128 prec32 emax32 mode_NE a b Fa Fb) as C. change (round radix2 (SpecFloat.fexp 24 128) (round_mode mode_NE)) with rnd in C. rewrite (rnd_fits _ k K H) in C. destruct C as (V & F & _).
  split; [exact F|]. split; [exact V|]. fold (f32_add a b) in V. rewrite V. apply rnd_bound; assumption.
Qed.
Lemma mul_ok a b k : (0 <= k <= 126)%Z -> is_finite a = true -> is_finite b = true -> Rabs (B2R a * B2R b) <= bpow radix2 k -> near32 (f32_mul a b) (B2R a * B2R b) k.
Proof.
  intros K Fa Fb H. pose proof (@Bmult_correct 24 128 prec32 emax32 mode_NE a b) as C. change (round radix2 (SpecFloat.fexp 24 128) (round_mode mode_NE)) with rnd in C. rewrite (rnd_fits _ k K H) in C. destruct C as (V & F & _).
  rewrite Fa, Fb in F. split; [exact F|]. split; [exact V|]. fold (f32_mul a b) in V. rewrite V. apply rnd_bound; assumption.
Qed.
Lemma div_ok a b k : (0 <= k <= 126)%Z -> is_finite a = true -> B2R b <> 0 -> Rabs (B2R a / B2R b) <= bpow radix2 k -> near32 (f32_div a b) (B2R a / B2R b) k.
Proof.
  intros K Fa Fb H. pose proof (@Bdiv_correct 24 128 prec32 emax32 mode_NE a b Fb) as C. change (round radix2 (SpecFloat.fexp 24 128) (round_mode mode_NE)) with rnd in C. rewrite (rnd_fits _ k K H) in C. destruct C as (V & F & _).
  rewrite Fa in F. split; [exact F|]. split; [exact V|]. fold (f32_div a b) in V. rewrite V. apply rnd_bound; assumption.
Qed.
Lemma element_close lower upper n k : is_finite lower = true -> is_finite upper = true -> Rabs (B2R lower) <= 2 ^ 98 -> Rabs (B2R upper) <= 2 ^ 98 -> (1 <= n)%nat -> (k <= n)%nat -> (Z.of_nat n < 2 ^ 24)%Z ->
  let x := f32_add lower (f32_div (f32_mul (f32_of_Z (Z.of_nat k)) (f32_sub upper lower)) (f32_of_Z (Z.of_nat n))) in
  is_finite x = true /\ Rabs (B2R x - (B2R lower + INR k * ((B2R upper - B2R lower) / INR n))) <= (Rabs (B2R lower) + Rabs (B2R upper)) / 2 ^ 21 + / 2 ^ 147.
Proof.
  intros F1 F2 B1 B2 N1 K N2.
  destruct (of_Z_exact (Z.of_nat k)) as [Vk Fk]; [lia|]. destruct (of_Z_exact (Z.of_nat n)) as [Vn Fn]; [lia|].
  rewrite <- INR_IZR_INZ in Vk, Vn.
  assert (Hk0 : 0 <= INR k) by apply pos_INR. assert (Hkn : INR k <= INR n) by (apply le_INR; exact K). assert (Hn : 1 <= INR n) by (change 1 with (INR 1); apply le_INR; exact N1).
  assert (Hn2 : INR n <= 2 ^ 24). { rewrite INR_IZR_INZ. replace (2 ^ 24) with (IZR (2 ^ 24)) by (cbn; lra). apply IZR_le. lia. }
  set (lo := B2R lower) in *. set (hi := B2R upper) in *.
  assert (P : forall m, bpow radix2 (Z.of_nat m) = 2 ^ m) by (intros m; rewrite bpow_powerRZ; cbn [radix_val radix2]; rewrite pow_powerRZ; reflexivity).
  assert (P99 : 2 ^ 99 = 2 * 2 ^ 98) by (cbn; ring). assert (P123 : 2 ^ 123 = 2 ^ 24 * 2 ^ 99) by (rewrite <- pow_add; f_equal).
  assert (P124 : 2 ^ 124 = 2 * 2 ^ 123) by (cbn; ring).
  assert (Pos : 0 < 2 ^ 98) by (apply pow_lt; lra). assert (Pos2 : 2 ^ 98 <= 2 ^ 123) by (apply Rle_pow; [lra|lia]).
  destruct (sub_ok upper lower 99 ltac:(lia) F2 F1) as (Fs & Vs & Bs).
  { change 99%Z with (Z.of_nat 99). rewrite P. fold lo hi. apply Rabs_le. apply Rabs_le_inv in B1, B2. lra. }
  fold lo hi in Vs. change 99%Z with (Z.of_nat 99) in Bs. rewrite P in Bs. set (s := f32_sub upper lower) in *.
  assert (Bks : Rabs (INR k * B2R s) <= 2 ^ 123).
  { rewrite Rabs_mult, (Rabs_pos_eq (INR k)) by exact Hk0. rewrite P123. apply Rmult_le_compat; try apply Rabs_pos; lra. }
  destruct (mul_ok (f32_of_Z (Z.of_nat k)) s 123 ltac:(lia) Fk Fs) as (Fp & Vp & Bp).
  { rewrite Vk. change 123%Z with (Z.of_nat 123). rewrite P. exact Bks. }
  rewrite Vk in Vp. change 123%Z with (Z.of_nat 123) in Bp. rewrite P in Bp. set (p := f32_mul (f32_of_Z (Z.of_nat k)) s) in *.
  assert (Bpn : Rabs (B2R p / INR n) <= 2 ^ 123).
  { unfold Rdiv. rewrite Rabs_mult, Rabs_inv, (Rabs_pos_eq (INR n)) by lra. apply Rmult_le_reg_r with (INR n); [lra|]. rewrite Rmult_assoc, Rinv_l, Rmult_1_r by lra. nra. }
  destruct (div_ok p (f32_of_Z (Z.of_nat n)) 123 ltac:(lia) Fp) as (Fq & Vq & Bq).
  { rewrite Vn. lra. }
  { rewrite Vn. change 123%Z with (Z.of_nat 123). rewrite P. exact Bpn. }
  rewrite Vn in Vq. change 123%Z with (Z.of_nat 123) in Bq. rewrite P in Bq. set (q := f32_div p (f32_of_Z (Z.of_nat n))) in *.
  destruct (add_ok lower q 124 ltac:(lia) F1 Fq) as (Fx & Vx & _).
  { change 124%Z with (Z.of_nat 124). rewrite P. fold lo. eapply Rle_trans; [apply Rabs_triang|]. rewrite P124. lra. }
  fold lo in Vx. cbv zeta. split; [exact Fx|]. rewrite Vx. clear Vx Fx Bq Bpn Bp Bks Bs.
  destruct (rnd_error (hi - lo)) as (d1 & e1 & D1 & E1 & R1). rewrite <- Vs in R1.
  destruct (rnd_error (INR k * B2R s)) as (d2 & e2 & D2 & E2 & R2). rewrite <- Vp in R2.
  destruct (rnd_error (B2R p / INR n)) as (d3 & e3 & D3 & E3 & R3). rewrite <- Vq in R3.
  destruct (rnd_error (lo + B2R q)) as (d4 & e4 & D4 & E4 & R4). rewrite R4.
  set (M := Rabs lo + Rabs hi). set (t := INR k / INR n).
  assert (Ht : 0 <= t <= 1). { unfold t. split; [apply Rmult_le_pos; [exact Hk0|apply Rlt_le, Rinv_0_lt_compat; lra]|]. apply Rmult_le_reg_r with (INR n); [lra|]. unfold Rdiv. rewrite Rmult_assoc, Rinv_l by lra. lra. }
  set (ni := / INR n). assert (Hni : 0 < ni <= 1). { unfold ni. split; [apply Rinv_0_lt_compat; lra|]. rewrite <- Rinv_1. apply Rinv_le_contravar; lra. }
  assert (Et : INR k * ((hi - lo) / INR n) = t * (hi - lo)) by (unfold t, Rdiv; ring). rewrite Et.
  assert (Ep : B2R p / INR n = t * ((hi - lo) * (1 + d1) + e1) * (1 + d2) + ni * e2) by (rewrite R2, R1; unfold t, ni, Rdiv; ring).
  rewrite Ep in R3. 
  assert (HM : Rabs (hi - lo) <= M). { unfold M. eapply Rle_trans; [apply Rabs_triang|]. rewrite Rabs_Ropp. lra. }
  assert (HL : Rabs lo <= M) by (unfold M; pose proof (Rabs_pos hi); lra).
  set (D := hi - lo) in *.
  replace (/ 2 ^ 147) with (8 * / 2 ^ 150) by (replace (2 ^ 150) with (8 * 2 ^ 147) by (cbn; ring); field; apply pow_nonzero; lra).
  replace (M / 2 ^ 21) with (8 * / 2 ^ 24 * M) by (replace (2 ^ 24) with (8 * 2 ^ 21) by (cbn; ring); field).
  set (eta := / 2 ^ 150) in *. assert (0 < eta) by (apply Rinv_0_lt_compat, pow_lt; lra).
  set (u := / 2 ^ 24) in *. assert (Hu : 0 < u <= / 10000) by (unfold u; cbn; lra).
  assert (HM0 : 0 <= M) by (pose proof (Rabs_pos D); lra).
  clearbody eta u D M t ni. clear - D1 D2 D3 D4 E1 E2 E3 E4 R3 Ht Hni HM HL HM0 Hu H.
  set (w := (1 + d1) * (1 + d2) * (1 + d3) - 1).
  assert (T1 : forall a b, Rabs (a + b) <= Rabs a + Rabs b) by apply Rabs_triang.
  assert (Hw : Rabs w <= 4 * u).
  { replace w with (d1 + d2 + d3 + (d1 * d2 + d1 * d3 + d2 * d3 + d1 * d2 * d3)) by (unfold w; ring).
    apply Rabs_le_inv in D1, D2, D3. assert (-u * u <= d1 * d2 <= u * u) by nra. assert (-u * u <= d1 * d3 <= u * u) by nra. assert (-u * u <= d2 * d3 <= u * u) by nra.
    assert (- u * u <= d1 * d2 * d3 <= u * u) by nra. apply Rabs_le. nra. }
  set (c := t * e1 * (1 + d2) * (1 + d3) + ni * e2 * (1 + d3) + e3).
  assert (Hc : Rabs c <= 3.5 * eta).
  { apply Rabs_le_inv in D2, D3, E1, E2, E3. 
    assert (A1 : - eta <= t * e1 <= eta) by nra. assert (A2 : - eta <= ni * e2 <= eta) by nra.
    assert (A3 : Rabs (t * e1 * ((1 + d2) * (1 + d3))) <= 1.1 * eta).
    { rewrite Rabs_mult. assert (Rabs (t * e1) <= eta) by (apply Rabs_le; exact A1). assert (Rabs ((1 + d2) * (1 + d3)) <= 1.1). { apply Rabs_le. nra. }
      pose proof (Rabs_pos (t * e1)). pose proof (Rabs_pos ((1 + d2) * (1 + d3))). nra. }
    assert (A4 : - (1.1 * eta) <= ni * e2 * (1 + d3) <= 1.1 * eta) by nra.
    apply Rabs_le_inv in A3. unfold c. apply Rabs_le. lra. }
  assert (Q : B2R q = t * D * (1 + w) + c). { rewrite R3. unfold w, c. ring. }
  assert (HtD : Rabs (t * D) <= M). { rewrite Rabs_mult, (Rabs_pos_eq t) by lra. pose proof (Rabs_pos D). nra. }
  rewrite Q. clear Q R3. clearbody w c.
  replace ((lo + (t * D * (1 + w) + c)) * (1 + d4) + e4 - (lo + t * D)) with (t * D * w * (1 + d4) + (lo * d4 + t * D * d4) + (c * (1 + d4) + e4)) by ring.
  assert (B1 : Rabs (t * D * w * (1 + d4)) <= 4.1 * u * M).
  { rewrite !Rabs_mult. rewrite <- Rabs_mult. assert (Rabs (1 + d4) <= 1.01) by (apply Rabs_le_inv in D4; apply Rabs_le; lra).
    pose proof (Rabs_pos (t * D)). pose proof (Rabs_pos w). pose proof (Rabs_pos (1 + d4)).
    apply Rle_trans with (M * (4 * u) * 1.01); [|nra]. apply Rmult_le_compat; [apply Rmult_le_pos; assumption|assumption| |assumption]. apply Rmult_le_compat; assumption. }
  assert (B2 : Rabs (lo * d4 + t * D * d4) <= 2 * u * M).
  { eapply Rle_trans; [apply T1|]. rewrite (Rabs_mult lo), (Rabs_mult (t * D)). pose proof (Rabs_pos lo). pose proof (Rabs_pos (t * D)). pose proof (Rabs_pos d4). nra. }
  assert (B3 : Rabs (c * (1 + d4) + e4) <= 5 * eta).
  { eapply Rle_trans; [apply T1|]. rewrite Rabs_mult. assert (Rabs (1 + d4) <= 1.01) by (apply Rabs_le_inv in D4; apply Rabs_le; lra). pose proof (Rabs_pos c). pose proof (Rabs_pos (1 + d4)). nra. }
  eapply Rle_trans; [apply T1|]. eapply Rle_trans; [apply Rplus_le_compat_r, T1|]. assert (0 <= u * M) by nra. nra.
Qed.
Lemma float_close lower upper steps k : is_finite lower = true -> is_finite upper = true -> (Rabs (B2R lower) <= 2 ^ 98)%R -> (Rabs (B2R upper) <= 2 ^ 98)%R ->
  (2 <= steps)%nat -> (Z.of_nat steps <= 2 ^ 24)%Z -> (k < steps)%nat -> exists l x,
  (forall fuel, (steps < fuel)%nat -> elements_32 (range_steps_32 lower upper (Z.of_nat steps)) fuel = Some l) /\ nth_error l k = Some x /\ is_finite x = true /\
  (Rabs (B2R x - (B2R lower + INR k * ((B2R upper - B2R lower) / INR (steps - 1)))) <= (Rabs (B2R lower) + Rabs (B2R upper)) / 2 ^ 21 + / 2 ^ 147)%R.
Proof.
  intros F1 F2 B1 B2 S1 S2 K. destruct (float_assembled lower upper steps ltac:(lia) S2) as (l & L & V & E). exists l. eexists. split; [exact V|]. split; [apply E, K|].
  replace (Z.of_nat steps - 1)%Z with (Z.of_nat (steps - 1)) by lia. apply element_close; try assumption; lia.
Qed.
Close Scope R_scope.

Lemma float_endless : exists lower upper steps, (0 < steps < 2 ^ 31)%Z /\ forall fuel, elements_32 (range_steps_32 lower upper steps) fuel = None.
Proof.
  exists (f32_of_Z 0), (f32_of_Z 1), (2 ^ 24 + 3)%Z. split; [lia|]. intros fuel. unfold elements_32, elements.
  set (r := range_steps_32 _ _ _).
  assert (G : forall k, (Z.of_nat k <= 2 ^ 24)%Z -> visit neq_32 inc_32 val_32 r fuel (f32_of_Z (Z.of_nat k)) (inc_32 (fr_max_step r)) = None).
  { induction fuel as [|f IH]; intros k K; [reflexivity|]. cbn [visit].
    assert (E : neq_32 (inc_32 (fr_max_step r)) (f32_of_Z (Z.of_nat k)) = true).
    { unfold neq_32. assert (inc_32 (fr_max_step r) = f32_of_Z (2 ^ 24 + 4)) as -> by (apply B2SF_inj; vm_compute; reflexivity).
      destruct (of_Z_exact (Z.of_nat k) ltac:(lia)) as [V F]. rewrite Beqb_correct; [|vm_compute; reflexivity|exact F]. rewrite V. rewrite Req_bool_false; [reflexivity|].
      intros C. assert (B2R (f32_of_Z (2 ^ 24 + 4)) = IZR (2 ^ 24 + 4)) as W.
      { rewrite <- SF2R_B2SF. assert (B2SF (f32_of_Z (2 ^ 24 + 4)) = SpecFloat.S754_finite false 8388610 1) as -> by (vm_compute; reflexivity). cbn. unfold F2R. cbn. lra. }
      rewrite W in C. apply eq_IZR in C. lia. }
    rewrite E. destruct (Z.eq_dec (Z.of_nat k) (2 ^ 24)) as [Q|Q].
    - assert (inc_32 (f32_of_Z (Z.of_nat k)) = f32_of_Z (Z.of_nat k)) as -> by (rewrite Q; apply B2SF_inj; vm_compute; reflexivity). rewrite IH by exact K. reflexivity.
    - rewrite step_exact by lia. rewrite IH by lia. reflexivity. }
  apply (G 0). lia.
Qed.

(** ** plots *)
Definition pic (h w : nat) (lines : list str) (g : nat -> nat -> ascii) : Prop :=
  length lines = h /\ (forall s, In s lines -> length s = w) /\ forall r c, r < h -> c < w -> cell lines r c = Some (g r c).

Lemma pic_ext h w lines g g' : (forall r c, r < h -> c < w -> g r c = g' r c) -> pic h w lines g -> pic h w lines g'.
Proof. intros E (L & W & C). refine (conj L (conj W _)). intros r c R K. rewrite C by assumption. f_equal. apply E; assumption. Qed.
Lemma nth_repeat' {A} (a : A) n k : k < n -> nth_error (repeat a n) k = Some a.
Proof. revert k. induction n as [|n IH]; intros k K; [lia|]. destruct k as [|k]; cbn; [reflexivity|]. apply IH. lia. Qed.
Lemma pic_blank h w : pic h w (repeat (repeat " "%char w) h) (fun _ _ => " "%char).
Proof.
  refine (conj (repeat_length _ _) (conj _ _)).
  - intros s Hs. apply repeat_spec in Hs. subst s. apply repeat_length.
  - intros r c R C. unfold cell. rewrite nth_repeat' by exact R. apply nth_repeat'. exact C.
Qed.
Lemma in_list_set {A} (l : list A) i a x : In x (list_set l i a) -> In x l \/ x = a.
Proof.
  revert i. induction l as [|b l IH]; intros i; cbn; [auto|]. destruct i as [|i]; cbn; intros [H|H]; auto. destruct (IH i H); auto.
Qed.
Lemma set_row_ok h w lines g r s g' : pic h w lines g -> r < h -> length s = w -> (forall c, c < w -> nth_error s c = Some (g' c)) ->
  pic h w (list_set lines r s) (fun r' c' => if r' =? r then g' c' else g r' c').
Proof.
  intros (L & W & C) R S N. refine (conj _ (conj _ _)).
  - rewrite list_set_length. exact L.
  - intros x Hx. apply in_list_set in Hx. destruct Hx as [Hx| ->]; [exact (W x Hx)|exact S].
  - intros r' c' R' C'. unfold cell. destruct (Nat.eqb_spec r' r) as [->|Q].
    + rewrite nth_error_list_set_eq by lia. apply N. exact C'.
    + rewrite nth_error_list_set_neq by congruence. apply C; assumption.
Qed.
Lemma set_cell_ok h w lines g (r c : Z) a : pic h w lines g -> (0 <= r < Z.of_nat h)%Z -> (0 <= c < Z.of_nat w)%Z ->
  exists l, set_cell lines r c a = Ok l /\ pic h w l (fun r' c' => if (Z.of_nat r' =? r)%Z && (Z.of_nat c' =? c)%Z then a else g r' c').
Proof.
  intros P R C. pose proof P as (L & W & X). unfold set_cell. replace ((r <? 0) || (c <? 0))%Z with false by lia.
  destruct (nth_error lines (Z.to_nat r)) as [s|] eqn:E; [|apply nth_error_None in E; lia]. rewrite (vec_get_ok _ _ _ E). cbn [obind].
  assert (Ls : length s = w) by (apply W; eapply nth_error_In; exact E). rewrite vec_set_ok by lia. cbn [obind]. rewrite vec_set_ok by lia. eexists. split; [reflexivity|].
  eapply pic_ext; [|apply (set_row_ok h w lines g (Z.to_nat r) _ (fun c' => if (Z.of_nat c' =? c)%Z then a else g (Z.to_nat r) c') P); [lia|rewrite list_set_length; exact Ls|]].
  - intros r' c' R' C'. cbv beta. destruct (Nat.eqb_spec r' (Z.to_nat r)) as [->|Q].
    + replace (Z.of_nat (Z.to_nat r) =? r)%Z with true by lia. reflexivity.
    + replace (Z.of_nat r' =? r)%Z with false by lia. reflexivity.
  - intros c' C'. cbv beta. destruct (Z.eqb_spec (Z.of_nat c') c) as [Q|Q].
    + replace c' with (Z.to_nat c) by lia. apply nth_error_list_set_eq. lia.
    + rewrite nth_error_list_set_neq by lia. specialize (X (Z.to_nat r) c' ltac:(lia) C'). unfold cell in X. rewrite E in X. exact X.
Qed.
Lemma set_line_ok h w lines g (r : Z) a : pic h w lines g -> (0 <= r < Z.of_nat h)%Z ->
  exists l, set_line lines r (repeat a w) = Ok l /\ pic h w l (fun r' c' => if (Z.of_nat r' =? r)%Z then a else g r' c').
Proof.
  intros P R. pose proof P as (L & W & X). unfold set_line. replace (r <? 0)%Z with false by lia. rewrite vec_set_ok by lia. eexists. split; [reflexivity|].
  eapply pic_ext; [|apply (set_row_ok h w lines g (Z.to_nat r) _ (fun _ => a) P); [lia|apply repeat_length|intros c C; apply nth_repeat'; exact C]].
  intros r' c' _ _. cbv beta. destruct (Nat.eqb_spec r' (Z.to_nat r)), (Z.eqb_spec (Z.of_nat r') r); try reflexivity; lia.
Qed.
Lemma draw_axis_ok h w yi0 (xi0 : Z) rows : (0 <= xi0 < Z.of_nat w)%Z -> forall lines g, pic h w lines g -> (forall r, In r rows -> r < h) ->
  exists l, draw_axis h yi0 xi0 rows lines = Ok l /\ pic h w l (fun r c => if (Z.of_nat c =? xi0)%Z && existsb (Nat.eqb r) rows then axis_char h r yi0 else g r c).
Proof.
  intros X. induction rows as [|y rows IH]; intros lines g P R.
  - exists lines. split; [reflexivity|]. eapply pic_ext; [|exact P]. intros r c _ _. cbv beta. cbn [existsb]. rewrite andb_false_r. reflexivity.
  - cbn [draw_axis]. destruct (set_cell_ok h w lines g (Z.of_nat y) xi0 (axis_char h y yi0) P) as (l & E & P1); [pose proof (R y (or_introl eq_refl)); lia|exact X|].
    rewrite E. cbn [obind]. destruct (IH l _ P1 (fun r Hr => R r (or_intror Hr))) as (l' & E' & P2). exists l'. split; [exact E'|].
    eapply pic_ext; [|exact P2]. intros r c _ _. cbv beta. cbn [existsb]. destruct (Z.eqb_spec (Z.of_nat c) xi0); [|cbn; rewrite andb_false_r; reflexivity]. cbn [andb].
    destruct (existsb (Nat.eqb r) rows); [rewrite orb_true_r; reflexivity|]. rewrite orb_false_r, andb_true_r. destruct (Nat.eqb_spec r y) as [->|N].
    + rewrite Z.eqb_refl. reflexivity.
    + replace (Z.of_nat r =? Z.of_nat y)%Z with false by lia. reflexivity.
Qed.

Section Points.
  Context (h w : nat) (lo span : R) (row : R -> Z).
  (** a function's symbol in the cells of its rows *)
  Definition over1 (a : ascii) (ys : list R) (xi : nat) (g : nat -> nat -> ascii) (r c : nat) : ascii :=
    match nth_error ys (c - xi) with Some y => if (xi <=? c) && (Z.of_nat r =? row y)%Z then a else g r c | None => g r c end.
  Definition good (y : R) : Prop := grid_y h lo span y = Ok (row y) /\ (0 <= row y < Z.of_nat h)%Z.
  Lemma plot_points_ok a ys : (forall y, In y ys -> good y) -> forall xi lines g, pic h w lines g -> xi + length ys <= w ->
    exists l, plot_points h lo span a ys xi lines = Ok l /\ pic h w l (over1 a ys xi g).
  Proof using Type.
    intros G. induction ys as [|y ys IH]; intros xi lines g P L.
    - exists lines. split; [reflexivity|]. eapply pic_ext; [|exact P]. intros r c _ _. unfold over1. destruct (c - xi); reflexivity.
    - cbn [plot_points]. destruct (G y (or_introl eq_refl)) as [E B]. rewrite E. cbn [obind length] in *.
      destruct (set_cell_ok h w lines g (row y) (Z.of_nat xi) a P B ltac:(lia)) as (l & E1 & P1). rewrite E1. cbn [obind].
      destruct (IH (fun z Hz => G z (or_intror Hz)) (S xi) l _ P1 ltac:(lia)) as (l' & E2 & P2). exists l'. split; [exact E2|]. eapply pic_ext; [|exact P2].
      intros r c _ _. unfold over1. destruct (Nat.lt_trichotomy c xi) as [C|[->|C]].
      + replace (xi <=? c) with false by lia. replace (S xi <=? c) with false by lia. cbn [andb]. replace (Z.of_nat c =? Z.of_nat xi)%Z with false by lia. rewrite andb_false_r.
        destruct (nth_error ys (c - S xi)), (nth_error (y :: ys) (c - xi)); reflexivity.
      + replace (S xi <=? xi) with false by lia. cbn [andb]. replace (xi - xi) with 0 by lia. cbn [nth_error]. rewrite Nat.leb_refl, Z.eqb_refl, andb_true_r. cbn [andb].
        destruct (nth_error ys (xi - S xi)); reflexivity.
      + replace (c - xi) with (S (c - S xi)) by lia. cbn [nth_error]. replace (S xi <=? c) with true by lia. replace (xi <=? c) with true by lia.
        replace (Z.of_nat c =? Z.of_nat xi)%Z with false by lia. rewrite andb_false_r. reflexivity.
  Qed.
  Fixpoint overs (yss : list (list R)) (fni : nat) (g : nat -> nat -> ascii) : nat -> nat -> ascii :=
    match yss with [] => g | ys :: rest => overs rest (S fni) (over1 (plot_char fni) ys 0 g) end.
  Lemma plot_functions_ok yss : (forall ys, In ys yss -> length ys = w /\ forall y, In y ys -> good y) -> forall fni lines g, pic h w lines g ->
    exists l, plot_functions h lo span yss fni lines = Ok l /\ pic h w l (overs yss fni g).
  Proof using Type.
    intros G. induction yss as [|ys yss IH]; intros fni lines g P; [exists lines; split; [reflexivity|exact P]|]. cbn [plot_functions overs].
    destruct (G ys (or_introl eq_refl)) as [L B]. destruct (plot_points_ok (plot_char fni) ys B 0 lines g P ltac:(lia)) as (l & E & P1). rewrite E. cbn [obind].
    apply (IH (fun z Hz => G z (or_intror Hz)) (S fni) l _ P1).
  Qed.
  Lemma overs_none yss r c : (forall ys y, In ys yss -> nth_error ys c = Some y -> row y <> Z.of_nat r) -> forall fni g, overs yss fni g r c = g r c.
  Proof using Type.
    intros N. induction yss as [|ys yss IH]; intros fni g; [reflexivity|]. cbn [overs]. rewrite IH by (intros zs y Hz; apply (N zs y (or_intror Hz))). unfold over1.
    rewrite Nat.sub_0_r. destruct (nth_error ys c) as [y|] eqn:E; [|reflexivity]. pose proof (N ys y (or_introl eq_refl) E). replace (Z.of_nat r =? row y)%Z with false by lia. rewrite andb_false_r. reflexivity.
  Qed.
  Lemma overs_last yss r c : forall fni g i ys y, nth_error yss i = Some ys -> nth_error ys c = Some y -> row y = Z.of_nat r ->
    (forall j zs z, i < j -> nth_error yss j = Some zs -> nth_error zs c = Some z -> row z <> Z.of_nat r) -> overs yss fni g r c = plot_char (fni + i).
  Proof using Type.
    induction yss as [|ys0 yss IH]; intros fni g i ys y Hi Hy Hr N; [destruct i; discriminate|]. cbn [overs]. destruct i as [|i]; cbn [nth_error] in Hi.
    - injection Hi as ->. rewrite overs_none.
      + unfold over1. rewrite Nat.sub_0_r, Hy, Nat.leb_refl || idtac. rewrite Nat.sub_0_r, Hy. cbn [Nat.leb andb]. replace (Z.of_nat r =? row y)%Z with true by lia. f_equal. lia.
      + intros zs z Hz Ez. apply In_nth_error in Hz. destruct Hz as [j Hj]. apply (N (S j) zs z ltac:(lia) Hj Ez).
    - rewrite (IH (S fni) _ i ys y Hi Hy Hr); [f_equal; lia|]. intros j zs z J Hj Hz. apply (N (S j) zs z ltac:(lia) Hj Hz).
  Qed.
End Points.

Open Scope R_scope.
Lemma int_part_spec x : IZR (Int_part x) <= x < IZR (Int_part x) + 1.
Proof. destruct (floor_spec x) as [A B]. unfold floor_R in *. lra. Qed.
Lemma int_of_ok x : Rabs x <= 2 ^ 30 + 1 -> exists z, int_of x = Ok z /\ IZR z <= x < IZR z + 1 /\ (- 2 ^ 30 - 2 <= z <= 2 ^ 30 + 1)%Z.
Proof.
  intros B. pose proof (int_part_spec x) as [I1 I2]. assert (X : IZR (- 2 ^ 30 - 1) <= x <= IZR (2 ^ 30 + 1)).
  { assert (- (2 ^ 30 + 1) <= x <= 2 ^ 30 + 1) by (unfold Rabs in B; destruct (Rcase_abs x); lra).
    replace (IZR (- 2 ^ 30 - 1)) with (- (2 ^ 30 + 1)) by (rewrite minus_IZR, opp_IZR; cbn; lra). replace (IZR (2 ^ 30 + 1)) with (2 ^ 30 + 1) by (rewrite plus_IZR; cbn; lra). exact H. }
  assert (Z1 : (- 2 ^ 30 - 2 <= Int_part x)%Z) by (assert (IZR (- 2 ^ 30 - 1) < IZR (Int_part x + 1)) by (rewrite plus_IZR; lra); apply lt_IZR in H; lia).
  assert (Z2 : (Int_part x <= 2 ^ 30 + 1)%Z) by (apply le_IZR; lra).
  exists (Int_part x). unfold int_of. replace ((- 2 ^ 31 <=? Int_part x) && (Int_part x <? 2 ^ 31))%Z with true by lia. repeat split; try assumption; lia.
Qed.
Lemma int_nat h : (1 <= h)%nat -> (Z.of_nat h <= 2 ^ 30)%Z -> 0 <= INR h - 1 <= 2 ^ 30 - 1.
Proof.
  intros H1 H2. rewrite INR_IZR_INZ. split; [assert (1 <= IZR (Z.of_nat h)) by (change 1 with (IZR 1); apply IZR_le; lia); lra|].
  apply IZR_le in H2. replace (IZR (2 ^ 30)) with (2 ^ 30) in H2 by (cbn; lra). lra.
Qed.
Lemma grid_y_ok h lo hi y : (1 <= h)%nat -> (Z.of_nat h <= 2 ^ 30)%Z -> lo < hi -> Rabs ((INR h - 1) * (y - lo) / (hi - lo)) <= 2 ^ 30 ->
  exists z, grid_y h lo (hi - lo) y = Ok z /\ row_for h lo hi y z /\ (lo <= y <= hi -> (0 <= z < Z.of_nat h)%Z).
Proof.
  intros H1 H2 L B. unfold grid_y. destruct (Req_EM_T (hi - lo) 0) as [E|_]; [lra|]. set (q := (INR h - 1) * (y - lo) / (hi - lo)) in *.
  destruct (int_of_ok (/ 2 + q)) as (k & E & K & KB). { eapply Rle_trans; [apply Rabs_triang|]. rewrite (Rabs_pos_eq (/ 2)) by lra. lra. }
  assert (KL : (- 2 ^ 30 <= k)%Z).
  { assert (- 2 ^ 30 <= q) by (unfold Rabs in B; destruct (Rcase_abs q); lra). assert (IZR (- 2 ^ 30 - 1) < IZR k); [|apply lt_IZR in H0; lia].
    replace (IZR (- 2 ^ 30 - 1)) with (- 2 ^ 30 - 1) by (rewrite minus_IZR, opp_IZR; cbn; lra). lra. }
  rewrite E. cbn [obind]. replace (Z.of_nat h - 1 - k <? 2 ^ 31)%Z with true by lia. eexists. split; [reflexivity|].
  assert (Q : (INR h - 1) * (hi - y) / (hi - lo) = (INR h - 1) - q) by (unfold q; field; lra). split.
  - unfold row_for. rewrite Q. rewrite !minus_IZR, <- INR_IZR_INZ. apply Rabs_le. lra.
  - intros Y. destruct (int_nat h H1 H2) as [N _]. assert (F : 0 <= (y - lo) / (hi - lo) <= 1).
    { split; [apply Rmult_le_pos; [lra|left; apply Rinv_0_lt_compat; lra]|]. apply Rmult_le_reg_r with (hi - lo); [lra|]. unfold Rdiv. rewrite Rmult_assoc, Rinv_l by lra. lra. }
    assert (Q0 : 0 <= q <= INR h - 1).
    { unfold q, Rdiv. rewrite Rmult_assoc. change ((y - lo) * / (hi - lo)) with ((y - lo) / (hi - lo)). split; [apply Rmult_le_pos; lra|].
      rewrite <- (Rmult_1_r (INR h - 1)) at 2. apply Rmult_le_compat_l; lra. }
    assert (-1 < IZR k) by lra. assert (IZR k < INR h) by lra. rewrite INR_IZR_INZ in H0. apply lt_IZR in H0. apply (lt_IZR (-1)) in H. lia.
Qed.
Lemma grid_x_ok w x_min x_max x : (1 <= w)%nat -> (Z.of_nat w <= 2 ^ 30)%Z -> x_min < x_max -> Rabs ((INR w - 1) * (x - x_min) / (x_max - x_min)) <= 2 ^ 30 ->
  exists z, grid_x w x_min (x_max - x_min) x = Ok z /\ column_for w x_min x_max x z /\ (x_min <= x <= x_max -> (0 <= z < Z.of_nat w)%Z).
Proof.
  intros H1 H2 L B. unfold grid_x. set (q := (INR w - 1) * (x - x_min) / (x_max - x_min)) in *.
  destruct (int_of_ok (/ 2 + q)) as (k & E & K & KB). { eapply Rle_trans; [apply Rabs_triang|]. rewrite (Rabs_pos_eq (/ 2)) by lra. lra. }
  exists k. split; [exact E|]. split.
  - unfold column_for. fold q. apply Rabs_le. lra.
  - intros Y. destruct (int_nat w H1 H2) as [N _]. assert (F : 0 <= (x - x_min) / (x_max - x_min) <= 1).
    { split; [apply Rmult_le_pos; [lra|left; apply Rinv_0_lt_compat; lra]|]. apply Rmult_le_reg_r with (x_max - x_min); [lra|]. unfold Rdiv. rewrite Rmult_assoc, Rinv_l by lra. lra. }
    assert (Q0 : 0 <= q <= INR w - 1).
    { unfold q, Rdiv. rewrite Rmult_assoc. change ((x - x_min) * / (x_max - x_min)) with ((x - x_min) / (x_max - x_min)). split; [apply Rmult_le_pos; lra|].
      rewrite <- (Rmult_1_r (INR w - 1)) at 2. apply Rmult_le_compat_l; lra. }
    assert (-1 < IZR k) by lra. assert (IZR k < INR w) by lra. rewrite INR_IZR_INZ in H0. apply lt_IZR in H0. apply (lt_IZR (-1)) in H. lia.
Qed.
Lemma fold_min l : forall a, let m := fold_left std_min l a in (m = a \/ In m l) /\ m <= a /\ forall y, In y l -> m <= y.
Proof.
  induction l as [|b l IH]; intros a; cbn [fold_left]; [split; [auto|split; [lra|intros y []]]|]. cbv zeta. destruct (IH (std_min a b)) as (A & B & C). set (m := fold_left std_min l (std_min a b)) in *.
  assert (D : std_min a b <= a /\ std_min a b <= b /\ (std_min a b = a \/ std_min a b = b)) by (unfold std_min; destruct (Rlt_dec b a); lra). refine (conj _ (conj _ _)).
  - cbn [In]. destruct A as [A|A]; [|auto]. destruct D as (_ & _ & [D|D]); [left|right; left]; congruence.
  - lra.
  - intros y [<-|Hy]; [lra|exact (C y Hy)].
Qed.
Lemma fold_max l : forall a, let m := fold_left std_max l a in (m = a \/ In m l) /\ a <= m /\ forall y, In y l -> y <= m.
Proof.
  induction l as [|b l IH]; intros a; cbn [fold_left]; [split; [auto|split; [lra|intros y []]]|]. cbv zeta. destruct (IH (std_max a b)) as (A & B & C). set (m := fold_left std_max l (std_max a b)) in *.
  assert (D : a <= std_max a b /\ b <= std_max a b /\ (std_max a b = a \/ std_max a b = b)) by (unfold std_max; destruct (Rlt_dec a b); lra). refine (conj _ (conj _ _)).
  - cbn [In]. destruct A as [A|A]; [|auto]. destruct D as (_ & _ & [D|D]); [left|right; left]; congruence.
  - lra.
  - intros y [<-|Hy]; [lra|exact (C y Hy)].
Qed.

Lemma samples_values fns w x_min x_max : concat (map (fun f => samples f x_min (x_max - x_min) w) fns) = values_plotted fns w x_min x_max.
Proof.
  unfold values_plotted. f_equal. apply map_ext. intros f. unfold samples. apply map_ext. intros c. unfold sample, Rdiv. f_equal. ring.
Qed.
Lemma samples_nth f w x_min x_max c : (c < w)%nat -> nth_error (samples f x_min (x_max - x_min) w) c = Some (f (sample w x_min x_max c)).
Proof.
  intros C. unfold samples. rewrite nth_error_map. rewrite nth_error_nth' with (d := 0%nat) by (rewrite seq_length; lia). rewrite seq_nth by lia. cbn [option_map Nat.add].
  do 2 f_equal. unfold sample, Rdiv. ring.
Qed.
Lemma existsb_seq r h : existsb (Nat.eqb r) (seq 0 h) = (r <? h)%nat.
Proof.
  destruct (Nat.ltb_spec r h) as [L|L].
  - apply existsb_exists. exists r. split; [apply in_seq; lia|apply Nat.eqb_refl].
  - destruct (existsb (Nat.eqb r) (seq 0 h)) eqn:E; [|reflexivity]. apply existsb_exists in E. destruct E as (x & Hx & Ex). apply in_seq in Hx. apply Nat.eqb_eq in Ex. lia.
Qed.
Lemma plot_assembled huge tiny fns x_min x_max w h lo hi : fns <> [] -> (2 <= w)%nat -> (1 <= h)%nat -> (Z.of_nat w <= 2 ^ 30)%Z -> (Z.of_nat h <= 2 ^ 30)%Z -> x_min < x_max ->
  let values := values_plotted fns w x_min x_max in
  least values lo -> greatest (tiny :: values) hi -> lo < hi -> hi <= huge ->
  Rabs ((INR h - 1) * lo / (hi - lo)) <= 2 ^ 30 -> Rabs ((INR w - 1) * x_min / (x_max - x_min)) <= 2 ^ 30 ->
  exists lines zy zx row, console_plot huge tiny fns x_min x_max (Z.of_nat w) (Z.of_nat h) = Ok lines /\ length lines = h /\ (forall s, In s lines -> length s = w) /\
  row_for h lo hi 0 zy /\ column_for w x_min x_max 0 zx /\
  (forall y, In y values -> (row y < h)%nat /\ row_for h lo hi y (Z.of_nat (row y))) /\
  forall r c, (r < h)%nat -> (c < w)%nat ->
    (forall i f, nth_error fns i = Some f -> row (f (sample w x_min x_max c)) = r ->
      (forall j g, (i < j)%nat -> nth_error fns j = Some g -> row (g (sample w x_min x_max c)) <> r) -> cell lines r c = Some (symbol i)) /\
    ((forall f, In f fns -> row (f (sample w x_min x_max c)) <> r) -> cell lines r c = Some (background h zy zx (Rleb x_min 0 && Rleb 0 x_max) r c)).
Proof.
  intros FN W2 H1 WB HB XX values LO HI LH HH ZY ZX. unfold console_plot. replace ((Z.of_nat w <? 1) || (Z.of_nat h <? 1))%Z with false by lia.
  destruct (Rle_dec x_max x_min) as [C|_]; [lra|]. rewrite !Nat2Z.id. replace (w =? 1)%nat with false by lia. cbn [andb]. cbv zeta.
  set (ys := map (fun f => samples f x_min (x_max - x_min) w) fns). assert (YV : concat ys = values) by apply samples_values.
  assert (Elo : y_lowest huge ys = lo).
  { unfold y_lowest. rewrite YV. destruct (fold_min values huge) as (A & B & C). destruct LO as [L1 L2]. pose proof (C lo L1). destruct A as [A|A]; [|pose proof (L2 _ A); lra].
    assert (lo <= hi) by lra. rewrite A in *. assert (huge <= lo) by assumption. lra. }
  assert (Ehi : y_highest tiny ys = hi).
  { unfold y_highest. rewrite YV. destruct (fold_max values tiny) as (A & B & C). destruct HI as [L1 L2]. assert (fold_left std_max values tiny <= hi) by (apply L2; destruct A as [A|A]; [left; congruence|right; exact A]).
    assert (hi <= fold_left std_max values tiny) by (destruct L1 as [<-|L1]; [exact B|exact (C hi L1)]). lra. }
  rewrite Elo, Ehi. set (row := fun y => match grid_y h lo (hi - lo) y with Ok z => z | _ => 0%Z end).
  assert (RB : forall y, In y values -> good h lo (hi - lo) row y /\ row_for h lo hi y (row y)).
  { intros y Hy. destruct LO as [L1 L2], HI as [U1 U2]. pose proof (L2 y Hy). pose proof (U2 y (or_intror Hy)). destruct (grid_y_ok h lo hi y H1 HB LH) as (z & E & RF & IN).
    - destruct (int_nat h H1 HB) as [N0 N1]. assert (F : 0 <= (y - lo) / (hi - lo) <= 1).
      { split; [apply Rmult_le_pos; [lra|left; apply Rinv_0_lt_compat; lra]|]. apply Rmult_le_reg_r with (hi - lo); [lra|]. unfold Rdiv. rewrite Rmult_assoc, Rinv_l by lra. lra. }
      unfold Rdiv. rewrite Rmult_assoc. change ((y - lo) * / (hi - lo)) with ((y - lo) / (hi - lo)). rewrite Rabs_pos_eq by (apply Rmult_le_pos; lra).
      apply Rle_trans with ((INR h - 1) * 1); [apply Rmult_le_compat_l; lra|lra].
    - unfold good, row. rewrite E. split; [split; [reflexivity|apply IN; lra]|exact RF]. }
  destruct (grid_y_ok h lo hi 0 H1 HB LH) as (zy & Ezy & RFy & _).
  { replace ((INR h - 1) * (0 - lo) / (hi - lo)) with (- ((INR h - 1) * lo / (hi - lo))) by (field; lra). rewrite Rabs_Ropp. exact ZY. }
  destruct (grid_x_ok w x_min x_max 0 ltac:(lia) WB XX) as (zx & Ezx & CFx & INx).
  { replace ((INR w - 1) * (0 - x_min) / (x_max - x_min)) with (- ((INR w - 1) * x_min / (x_max - x_min))) by (field; lra). rewrite Rabs_Ropp. exact ZX. }
  rewrite Ezy. cbn [obind]. destruct (set_line_ok h w _ _ 0 (ascii_of_nat 196) (pic_blank h w) ltac:(lia)) as (l1 & E1 & P1). rewrite E1. cbn [obind].
  destruct (set_line_ok h w _ _ (Z.of_nat h - 1) (ascii_of_nat 196) P1 ltac:(lia)) as (l2 & E2 & P2). rewrite E2. cbn [obind].
  assert (S3 : exists l3, (if ((0 <=? zy) && (zy <? Z.of_nat h))%Z then set_line l2 zy (repeat (ascii_of_nat 196) w) else Ok l2) = Ok l3 /\
    pic h w l3 (fun r c => if ((r =? 0)%nat || (r =? h - 1)%nat || (Z.of_nat r =? zy)%Z) then h_line else " "%char)).
  { destruct ((0 <=? zy) && (zy <? Z.of_nat h))%Z eqn:IN.
    - destruct (set_line_ok h w _ _ zy (ascii_of_nat 196) P2 ltac:(lia)) as (l3 & E3 & P3). exists l3. split; [exact E3|]. eapply pic_ext; [|exact P3]. intros r c R C. cbv beta. unfold h_line.
      destruct (Z.eqb_spec (Z.of_nat r) zy), (Z.eqb_spec (Z.of_nat r) (Z.of_nat h - 1)), (Z.eqb_spec (Z.of_nat r) 0), (Nat.eqb_spec r 0), (Nat.eqb_spec r (h - 1)); try reflexivity; exfalso; lia.
    - exists l2. split; [reflexivity|]. eapply pic_ext; [|exact P2]. intros r c R C. cbv beta. unfold h_line.
      destruct (Z.eqb_spec (Z.of_nat r) zy), (Z.eqb_spec (Z.of_nat r) (Z.of_nat h - 1)), (Z.eqb_spec (Z.of_nat r) 0), (Nat.eqb_spec r 0), (Nat.eqb_spec r (h - 1)); try reflexivity; exfalso; lia. }
  destruct S3 as (l3 & E3 & P3). rewrite E3. cbn [obind]. rewrite Ezx. cbn [obind].
  assert (S4 : exists l4, (if Rle_dec x_min 0 then if Rle_dec 0 x_max then draw_axis h zy zx (seq 0 h) l3 else Ok l3 else Ok l3) = Ok l4 /\ pic h w l4 (background h zy zx (Rleb x_min 0 && Rleb 0 x_max))).
  { unfold Rleb. destruct (Rle_dec x_min 0) as [A|A]; [destruct (Rle_dec 0 x_max) as [B|B]|]; cbn [andb].
    - destruct (draw_axis_ok h w zy zx (seq 0 h) (INx ltac:(lra)) _ _ P3) as (l4 & E4 & P4); [intros r Hr; apply in_seq in Hr; lia|]. exists l4. split; [exact E4|].
      eapply pic_ext; [|exact P4]. intros r c R C. cbv beta. rewrite existsb_seq. replace (r <? h)%nat with true by lia. rewrite andb_true_r. unfold background. cbn [andb]. reflexivity.
    - exists l3. split; [reflexivity|]. eapply pic_ext; [|exact P3]. intros r c R C. reflexivity.
    - exists l3. split; [reflexivity|]. eapply pic_ext; [|exact P3]. intros r c R C. reflexivity. }
  destruct S4 as (l4 & E4 & P4). rewrite E4. cbn [obind].
  assert (YS : forall zs, In zs ys -> length zs = w /\ forall y, In y zs -> In y values).
  { intros zs Hz. split; [|intros y Hy; rewrite <- YV; apply in_concat; exists zs; auto]. unfold ys in Hz. apply in_map_iff in Hz. destruct Hz as (f & <- & _). unfold samples. rewrite map_length, seq_length. reflexivity. }
  destruct (plot_functions_ok h w lo (hi - lo) row ys) with (fni := 0%nat) (lines := l4) (g := background h zy zx (Rleb x_min 0 && Rleb 0 x_max)) as (lines & EL & (PL & PW & PC)); [|exact P4|].
  { intros zs Hz. destruct (YS zs Hz) as [A B]. split; [exact A|]. intros y Hy. apply RB. apply B. exact Hy. }
  assert (YN : forall i f c, nth_error fns i = Some f -> (c < w)%nat -> exists zs, nth_error ys i = Some zs /\ nth_error zs c = Some (f (sample w x_min x_max c))).
  { intros i f c Hi Hc. exists (samples f x_min (x_max - x_min) w). split; [unfold ys; rewrite nth_error_map, Hi; reflexivity|apply samples_nth; exact Hc]. }
  assert (NY : forall i zs c z, nth_error ys i = Some zs -> nth_error zs c = Some z -> (c < w)%nat -> exists f, nth_error fns i = Some f /\ z = f (sample w x_min x_max c)).
  { intros i zs c z Hi Hz Hc. unfold ys in Hi. rewrite nth_error_map in Hi. destruct (nth_error fns i) as [f|] eqn:E; [|discriminate]. injection Hi as <-. rewrite samples_nth in Hz by exact Hc. exists f. split; [reflexivity|congruence]. }
  assert (VF : forall i f c, nth_error fns i = Some f -> (c < w)%nat -> In (f (sample w x_min x_max c)) values).
  { intros i f c Hi Hc. destruct (YN i f c Hi Hc) as (zs & A & B). apply (YS zs); [eapply nth_error_In; exact A|eapply nth_error_In; exact B]. }
  exists lines, zy, zx, (fun y => Z.to_nat (row y)). refine (conj EL (conj PL (conj PW (conj RFy (conj CFx (conj _ _)))))).
  - intros y Hy. destruct (RB y Hy) as [[_ B] RF]. rewrite Z2Nat.id by lia. split; [lia|exact RF].
  - intros r c R C. split.
    + intros i f Hi Hr N. rewrite PC by assumption. f_equal. destruct (YN i f c Hi C) as (zs & A & B). destruct (RB _ (VF i f c Hi C)) as [[_ Bd] _].
      rewrite (overs_last row ys r c 0 _ i zs _ A B); [unfold plot_char, symbol; cbn [Nat.add]; change zero with (ascii_of_nat 0); rewrite map_nth; reflexivity|lia|].
      intros j ws z J Hj Hz. destruct (NY j ws c z Hj Hz C) as (g & Hg & ->). pose proof (N j g J Hg). destruct (RB _ (VF j g c Hg C)) as [[_ Bg] _]. lia.
    + intros N. rewrite PC by assumption. f_equal. apply overs_none. intros zs z Hz Ez. apply In_nth_error in Hz. destruct Hz as [j Hj]. destruct (NY j zs c z Hj Ez C) as (g & Hg & ->).
      pose proof (N g (nth_error_In _ _ Hg)). destruct (RB _ (VF j g c Hg C)) as [[_ Bg] _]. lia.
Qed.

Lemma plot_constant : exists f x_min x_max w h, x_min < x_max /\ (2 <= w)%Z /\ (2 <= h)%Z /\ forall huge tiny, tiny < 1 < huge -> console_plot huge tiny [f] x_min x_max w h = UB.
Proof.
  exists (fun _ => 1), 0, 1, 10%Z, 5%Z. refine (conj _ (conj _ (conj _ _))); [lra|lia|lia|]. intros huge tiny HT. unfold console_plot. cbn [Z.ltb Z.compare orb Pos.compare Pos.compare_cont].
  destruct (Rle_dec 1 0) as [C|_]; [lra|]. cbv zeta. change (Z.to_nat 10) with 10%nat. change (Z.to_nat 5) with 5%nat. cbn [Nat.eqb andb map].
  set (ys := samples _ _ _ _). assert (E : concat [ys] = repeat 1 10) by (unfold ys, samples; reflexivity). unfold y_lowest, y_highest. rewrite E. cbn [repeat fold_left].
  assert (M : std_min huge 1 = 1) by (unfold std_min; destruct (Rlt_dec 1 huge); lra). assert (M1 : std_min 1 1 = 1) by (unfold std_min; destruct (Rlt_dec 1 1); lra).
  assert (N : std_max tiny 1 = 1) by (unfold std_max; destruct (Rlt_dec tiny 1); lra). assert (N1 : std_max 1 1 = 1) by (unfold std_max; destruct (Rlt_dec 1 1); lra).
  rewrite M, N, !M1, !N1. unfold grid_y. destruct (Req_EM_T (1 - 1) 0); [reflexivity|lra].
Qed.
Lemma plot_far : exists f x_min x_max w h, x_min < x_max /\ (2 <= w)%Z /\ (2 <= h)%Z /\ (forall x y, x < y -> f x < f y) /\
  forall huge tiny, tiny < 1 -> 2000000000000 < huge -> console_plot huge tiny [f] x_min x_max w h = UB.
Proof.
  exists (fun x => 1000000000000 + x), 0, 1, 2%Z, 2%Z. refine (conj _ (conj _ (conj _ (conj _ _)))); [lra|lia|lia|intros; lra|]. intros huge tiny HT HH. unfold console_plot. cbn [Z.ltb Z.compare orb Pos.compare Pos.compare_cont].
  destruct (Rle_dec 1 0) as [C|_]; [lra|]. cbv zeta. change (Z.to_nat 2) with 2%nat. cbn [Nat.eqb andb map].
  set (ys := samples _ _ _ _). assert (E : concat [ys] = [1000000000000; 1000000000001]) by (unfold ys, samples; cbn; f_equal; [|f_equal]; lra). unfold y_lowest, y_highest. rewrite E. cbn [fold_left].
  assert (M : std_min (std_min huge 1000000000000) 1000000000001 = 1000000000000) by (unfold std_min; destruct (Rlt_dec 1000000000000 huge); destruct (Rlt_dec 1000000000001 _); lra).
  assert (N : std_max (std_max tiny 1000000000000) 1000000000001 = 1000000000001) by (unfold std_max; destruct (Rlt_dec tiny 1000000000000); destruct (Rlt_dec _ 1000000000001); lra).
  rewrite M, N. unfold grid_y. destruct (Req_EM_T (1000000000001 - 1000000000000) 0) as [Q|Q]; [lra|]. cbn [INR]. unfold int_of.
  replace (/ 2 + (1 + 1 - 1) * (0 - 1000000000000) / (1000000000001 - 1000000000000)) with (/ 2 - 1000000000000) by (field; lra).
  pose proof (int_part_spec (/ 2 - 1000000000000)) as [I _]. assert ((Int_part (/ 2 - 1000000000000) < - 2 ^ 31)%Z) by (apply lt_IZR; apply Rle_lt_trans with (/ 2 - 1000000000000); [exact I|cbn; lra]).
  replace ((- 2 ^ 31 <=? Int_part (/ 2 - 1000000000000)) && (Int_part (/ 2 - 1000000000000) <? 2 ^ 31))%Z with false by lia. reflexivity.
Qed.
Close Scope R_scope.
