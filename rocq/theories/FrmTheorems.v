(** Frames, positions between samples and waves in floating point of any precision, double and float among them. *)
From Coq Require Import List Arith Bool ZArith Reals Lra Lia.
From Flocq Require Import Core IEEE754.BinarySingleNaN.
From Verif Require Import Base AssocModel GridModel DblSpec DblModel DblProofs DblTheorems VecTheorems FrmSpec FrmModel FrmProofs FrmWave.
Import ListNotations.
Local Open Scope R_scope.

Section Any.
  Context (prec emax : Z) (Hp : Prec_gt_0 prec) (He : Prec_lt_emax prec emax) (H3 : (3 <= prec)%Z) (L : Type).
  Notation num := (binary_float prec emax).
  Notation eps := (unit_error prec).
  Notation eta := (tiny prec emax).

  (** * C183 *)
  (** the frame found is as near as every other one, up to the rounding of the two differences; only the first frame can be missed, by values between it and the second *)
  Theorem C183_nearest : forall (s : sto num L) (ch : nat) (xs : list num) (v : num), ordinary v -> ascending xs -> channel_is s ch xs -> xs <> [] ->
    exists i x, find_frame prec emax Hp He s v ch = Ok (Some i) /\ nth_error xs i = Some x /\
    forall j y, nth_error xs j = Some y -> (j = 0%nat -> B2R v <= B2R y \/ exists y1, nth_error xs 1 = Some y1 /\ B2R y1 < B2R v) -> distance x v <= (1 + 3 * eps) * distance y v.
  Proof. intros s ch xs v V A C N. destruct (nearest prec emax Hp He H3 s ch xs v V A C N) as (i & x & E & X & K & _). exists i, x. split; [exact E|]. split; [exact X|exact K]. Qed.
  (** a value that is in the channel is found at the first frame that has it *)
  Theorem C183_present : forall (s : sto num L) (ch : nat) (xs : list num) (v : num) (j : nat) (y : num), ordinary v -> ascending xs -> channel_is s ch xs -> nth_error xs j = Some y -> B2R y = B2R v ->
    exists i x, find_frame prec emax Hp He s v ch = Ok (Some i) /\ nth_error xs i = Some x /\ B2R x = B2R v /\ forall k z, nth_error xs k = Some z -> B2R z = B2R v -> (i <= k)%nat.
  Proof.
    intros s ch xs v j y V A C Y E. destruct (nearest prec emax Hp He H3 s ch xs v V A C) as (i & x & F & X & _ & K); [intros ->; destruct j; discriminate Y|].
    exists i, x. split; [exact F|]. split; [exact X|]. split; [apply (K j y Y E)|]. intros k z Z EZ. apply (K k z Z EZ).
  Qed.
  (** only a storage without samples has no frame *)
  Theorem C183_empty : forall (s : sto num L) (ch : nat) (v : num), st_data s = [] -> find_frame prec emax Hp He s v ch = Ok None.
  Proof. intros s ch v E. unfold find_frame. rewrite E. reflexivity. Qed.

  (** * C184 *)
  (** between two frames: the straight line, up to rounding *)
  Theorem C184_between : forall (s : sto num L) (ch : nat) (xs : list num) (k : nat) (a b x : num), channel_is s ch xs -> (Z.of_nat (st_frames s) < 2 ^ 63)%Z -> nth_error xs k = Some a -> nth_error xs (k + 1) = Some b ->
    ordinary a -> ordinary b -> is_finite x = true -> IZR (Z.of_nat k) <= B2R x < IZR (Z.of_nat k) + 1 ->
    exists r, interpolated_value prec emax Hp He s x ch = Ok r /\ is_finite r = true /\
      Rabs (B2R r - straight (Z.of_nat k) a b (B2R x)) <= 4 * eps * Rmax (Rabs (B2R a)) (Rabs (B2R b)) + 3 * eta /\
      (B2R x = IZR (Z.of_nat k) -> B2R r = B2R a).
  Proof.
    intros s ch xs k a b x C B A1 B1 OA OB F X. destruct (interpolated prec emax Hp He H3 s ch xs k a b x C B A1 B1 F X) as (E & W & Fw). eexists. split; [exact E|].
    destruct (weighted_ok prec emax Hp He H3 a b _ OA OB Fw ltac:(rewrite W; lra)) as (G & R & Z). split; [exact G|]. rewrite W in R, Z. split; [|intros K; apply Z; lra].
    unfold straight. eapply Rle_trans; [exact R|]. change (DblProofs.u prec) with eps. change (DblProofs.eta prec emax) with eta. apply Rplus_le_compat_r. apply Rmult_le_compat_l; [pose proof (u_pos prec H3); change (DblProofs.u prec) with eps in *; lra|].
    set (w := B2R x - IZR (Z.of_nat k)) in *. pose proof (Rmax_l (Rabs (B2R a)) (Rabs (B2R b))). pose proof (Rmax_r (Rabs (B2R a)) (Rabs (B2R b))). set (M := Rmax _ _) in *.
    assert ((1 - w) * Rabs (B2R a) <= (1 - w) * M) by (apply Rmult_le_compat_l; unfold w; lra). assert (w * Rabs (B2R b) <= w * M) by (apply Rmult_le_compat_l; unfold w; lra). lra.
  Qed.
  (** from the last frame on there is no value, and an index below zero, infinite or NaN is undefined *)
  Theorem C184_beyond : forall (s : sto num L) (ch : nat) (x : num), is_finite x = true -> 0 <= B2R x < IZR (2 ^ 63) -> IZR (Z.of_nat (st_frames s)) - 1 <= B2R x -> interpolated_value prec emax Hp He s x ch = Throw.
  Proof. intros s ch x F [X0 X1] K. apply (interpolated_beyond prec emax Hp He); try assumption. rewrite <- minus_IZR in K. pose proof (Zfloor_lub _ _ K). lia. Qed.
  Theorem C184_index_refuted : forall (s : sto num L) (ch : nat) (x : num), is_finite x = false \/ B2R x < 0 -> interpolated_value prec emax Hp He s x ch = UB.
  Proof. intros s ch x [N|N]; [apply interpolated_none, N|]. destruct (is_finite x) eqn:F; [apply interpolated_bad; auto|apply interpolated_none, F]. Qed.

  (** * C185 *)
  (** positions in a sequence: exact at the elements, on the straight line between them up to rounding, the same when both neighbours are the same *)
  Theorem C185_between : forall (xs : list num) (k : nat) (a b x : num), (Z.of_nat (length xs) < 2 ^ 31)%Z -> nth_error xs k = Some a -> nth_error xs (k + 1) = Some b -> ordinary a -> ordinary b ->
    is_finite x = true -> IZR (Z.of_nat k) <= B2R x < IZR (Z.of_nat k) + 1 ->
    exists r, lerp_span prec emax Hp He xs x = Ok r /\ is_finite r = true /\ (B2R x = IZR (Z.of_nat k) -> B2R r = B2R a) /\ (B2R a = B2R b -> B2R r = B2R a) /\
      Rabs (B2R r - straight (Z.of_nat k) a b (B2R x)) <= eps * (Rabs (B2R a) + 4 * Rabs (B2R b - B2R a)) + 2 * eta.
  Proof.
    intros xs k a b x B A1 B1 OA OB F X. destruct (Rle_lt_dec (B2R x) 0) as [Z|Z].
    - assert (K0 : 0 <= IZR (Z.of_nat k)) by (apply IZR_le; lia). assert (K : k = 0%nat) by (assert (Z.of_nat k <= 0)%Z by (apply le_IZR; lra); lia). subst k. cbn [Z.of_nat] in *. exists a. split.
      + apply (span_before prec emax Hp He xs a x A1). rewrite le_finite, (proj1 (const_0 prec emax Hp He H3)) by (assumption || apply (const_0 prec emax Hp He H3)). apply Rle_bool_true. exact Z.
      + split; [apply OA|]. split; [reflexivity|]. split; [reflexivity|]. unfold straight. assert (E : B2R x - 0 = 0) by lra. rewrite E, Rmult_0_l, Rplus_0_r. unfold Rminus at 1. rewrite Rplus_opp_r, Rabs_R0.
        pose proof (Rabs_pos (B2R a)). pose proof (Rabs_pos (B2R b - B2R a)). pose proof (u_pos prec H3) as U. change (DblProofs.u prec) with eps in U. pose proof (eta_pos prec emax) as Et. change (DblProofs.eta prec emax) with eta in Et. assert (0 <= eps * (Rabs (B2R a) + 4 * Rabs (B2R b - B2R a))) by (apply Rmult_le_pos; lra). lra.
    - destruct (span_between prec emax Hp He H3 xs k a b x B A1 B1 F Z X) as (E & W & Fw). eexists. split; [exact E|].
      destruct (C169_lerp prec emax Hp He H3 a b _ OA OB Fw ltac:(rewrite W; lra)) as (G & Z0 & Zs & R). rewrite W in R, Z0. split; [exact G|]. split; [intros K; apply Z0; lra|]. split; [exact Zs|exact R].
  Qed.
  (** moving between two neighbours moves the value in one direction *)
  Theorem C185_monotone : forall (xs : list num) (k : nat) (a b x y v w : num), (Z.of_nat (length xs) < 2 ^ 31)%Z -> nth_error xs k = Some a -> nth_error xs (k + 1) = Some b -> ordinary a -> ordinary b ->
    is_finite x = true -> is_finite y = true -> 0 < B2R x -> IZR (Z.of_nat k) <= B2R x -> B2R x <= B2R y -> B2R y < IZR (Z.of_nat k) + 1 ->
    lerp_span prec emax Hp He xs x = Ok v -> lerp_span prec emax Hp He xs y = Ok w -> (B2R a <= B2R b -> B2R v <= B2R w) /\ (B2R b <= B2R a -> B2R w <= B2R v).
  Proof.
    intros xs k a b x y v w B A1 B1 OA OB F G Z X1 X2 X3 V W. destruct (span_between prec emax Hp He H3 xs k a b x B A1 B1 F Z ltac:(lra)) as (E1 & W1 & F1). destruct (span_between prec emax Hp He H3 xs k a b y B A1 B1 G ltac:(lra) ltac:(lra)) as (E2 & W2 & F2).
    rewrite E1 in V. rewrite E2 in W. injection V as <-. injection W as <-. apply (C169_lerp_monotone prec emax Hp He H3 a b); try assumption; rewrite ?W1, ?W2; lra.
  Qed.
  (** before the first element and after the last one *)
  Theorem C185_outside : forall (xs : list num) (x first last : num), (Z.of_nat (length xs) < 2 ^ 31)%Z -> nth_error xs 0 = Some first -> nth_error xs (length xs - 1) = Some last ->
    (le prec emax x (const prec emax Hp He 0 0) = true -> lerp_span prec emax Hp He xs x = Ok first) /\
    (is_finite x = true -> 0 < B2R x < IZR (2 ^ 31 - 1) -> IZR (Z.of_nat (length xs) - 1) <= B2R x -> lerp_span prec emax Hp He xs x = Ok last).
  Proof.
    intros xs x f l B E1 E2. split; [apply span_before, E1|]. intros F X K. destruct (span_after prec emax Hp He H3 xs x B) as (a & A & R); try assumption; try apply X; [intros ->; discriminate E1|]. rewrite E2 in A. injection A as ->. exact R.
  Qed.

  (** * C186 *)
  (** the triangle wave is between 0 and 1 and right to half a unit in the last place of 1, for numbers that are not too large and not subnormal *)
  Theorem C186_triangle : forall v : num, (prec <= emax - 2)%Z -> is_finite v = true -> Rabs (B2R v) <= bpow radix2 (prec - 1) - 2 -> B2R v = 0 \/ bpow radix2 (3 - emax) <= Rabs (B2R v) ->
    let t := triangle_wave prec emax Hp He v in
    is_finite t = true /\ 0 <= B2R t <= 1 /\ exists k : Z, Rabs (B2R v - 2 * IZR k) <= 1 /\ Rabs (B2R t - Rabs (B2R v - 2 * IZR k)) <= eps.
  Proof. intros v PE F B N. apply (wave_ok prec emax Hp He H3 v F PE B N). Qed.
  (** the square wave is exact for all numbers that are not negative *)
  Theorem C186_square : forall v : num, is_finite v = true -> 0 <= B2R v -> exists k : Z, 2 * IZR k <= B2R v < 2 * IZR k + 2 /\
    (B2R v < 2 * IZR k + 1 -> square_wave prec emax Hp He v = const prec emax Hp He 1 0) /\ (2 * IZR k + 1 <= B2R v -> square_wave prec emax Hp He v = const prec emax Hp He 0 0).
  Proof. apply square_ok, H3. Qed.
  Theorem C186_whole : forall v : num, is_finite v = true -> (is_whole prec emax He v = true <-> exists k : Z, B2R v = IZR k).
  Proof. intros v F. apply whole_ok; assumption. Qed.
End Any.

(** double precision *)
Notation sto64 := (sto (binary_float 53 1024) nat).
Definition one_channel (xs : list (binary_float 53 1024)) : sto64 := {| st_frames := length xs; st_labels := {| lv_labels := [0%nat]; lv_index := [(0%nat, 0%nat)] |}; st_data := xs |}.
Lemma one_channel_is xs : channel_is (one_channel xs) 0 xs.
Proof. split; [reflexivity|]. intros i x E. unfold st_get, one_channel, st_channels. cbn. replace (i * 1 + 0)%nat with i by lia. unfold vec_get. rewrite E. reflexivity. Qed.
Notation find64 := (find_frame 53 1024 p53 e1024).
Notation value64 := (interpolated_value 53 1024 p53 e1024).
Notation span64 := (lerp_span 53 1024 p53 e1024).
Definition equals {prec emax} (o : outcome (binary_float prec emax)) (x : binary_float prec emax) : Prop := match o with Ok r => same r x | _ => False end.

Definition times := [dbl 0 0; dbl 1 (-1); dbl 1 0; dbl 4 0].
Lemma ordinary_dbl m e : (Z.abs m < 2 ^ 53)%Z -> (-1074 <= e <= 400)%Z -> ordinary (dbl m e).
Proof.
  intros M E. destruct (dbl_value m e M ltac:(lia)) as [V F]. split; [exact F|]. rewrite V, <- F2R_Zabs. unfold F2R. cbn [Fnum Fexp]. eapply Rle_trans; [|apply (bpow_le radix2 (53 + e)); lia]. rewrite bpow_plus. apply Rmult_le_compat_r; [apply bpow_ge_0|]. rewrite <- IZR_Zpower by lia. apply IZR_le. change (radix2 ^ 53)%Z with (2 ^ 53)%Z. lia.
Qed.
Lemma some_same {A} (x y : A) : Some x = Some y -> y = x.
Proof. congruence. Qed.
Ltac ord_dbl := apply ordinary_dbl; vm_compute; (reflexivity || (split; discriminate)).
Example C183_nearest_ex : ascending times /\ channel_is (one_channel times) 0 times /\ ordinary (dbl 9 (-2)) /\ find64 (one_channel times) (dbl 9 (-2)) 0 = Ok (Some 2%nat) /\ find64 (one_channel times) (dbl 11 (-2)) 0 = Ok (Some 3%nat) /\ find64 (one_channel times) (dbl 1 (-1)) 0 = Ok (Some 1%nat).
Proof.
  split; [|split; [apply one_channel_is|split; [ord_dbl|vm_compute; repeat split; reflexivity]]]. split; [unfold times; repeat (constructor; [ord_dbl|]); constructor|]. value 0%Z 0%Z. value 1%Z (-1)%Z. value 1%Z 0%Z. value 4%Z 0%Z.
  intros [|[|[|[|i]]]] [|[|[|[|j]]]] a b LE A B; unfold times in A, B; cbn [nth_error] in A, B; try lia; try (destruct i; discriminate A); try (destruct j; discriminate B); apply some_same in A; apply some_same in B; subst a b; rewrite ?V, ?V0, ?V1, ?V2; lra.
Qed.
(** rounding can make the search take the frame that is farther away: 1 is nearer to 1 - 2^53 than to 2^53 + 2 *)
Theorem C183_exact_refuted : let xs := [dbl (-1) 54; dbl (1 - 2 ^ 53) 0; dbl (2 ^ 52 + 1) 1] in let v := dbl 1 0 in
  find64 (one_channel xs) v 0 = Ok (Some 2%nat) /\ distance (dbl (1 - 2 ^ 53) 0) v < distance (dbl (2 ^ 52 + 1) 1) v.
Proof.
  cbv zeta. split; [vm_compute; reflexivity|]. unfold distance. value (1 - 2 ^ 53)%Z 0%Z. value (2 ^ 52 + 1)%Z 1%Z. value 1%Z 0%Z. rewrite V, V0, V1. change (1 - 2 ^ 53)%Z with (-9007199254740991)%Z. change (2 ^ 52 + 1)%Z with 4503599627370497%Z. rewrite Rabs_left1, Rabs_pos_eq by lra. lra.
Qed.
(** a value just above the first frame is given the second, however far away *)
Theorem C183_first_refuted : let xs := [dbl 0 0; dbl 1 100] in let v := dbl 1 (-100) in find64 (one_channel xs) v 0 = Ok (Some 1%nat).
Proof. vm_compute. reflexivity. Qed.
(** NaN is found at the first frame *)
Theorem C183_nan_refuted : find64 (one_channel times) B754_nan 0 = Ok (Some 0%nat).
Proof. vm_compute. reflexivity. Qed.

Example C184_between_ex : equals (value64 (one_channel times) (dbl 5 (-1)) 0) (dbl 5 (-1)) /\ equals (value64 (one_channel times) (dbl 1 0) 0) (dbl 1 (-1)) /\ value64 (one_channel times) (dbl 3 0) 0 = Throw /\ ordinary (dbl 1 0) /\ ordinary (dbl 4 0) /\ IZR (Z.of_nat 2) <= B2R (dbl 5 (-1)) < IZR (Z.of_nat 2) + 1.
Proof. split; [vm_compute; reflexivity|]. split; [vm_compute; reflexivity|]. split; [vm_compute; reflexivity|]. split; [ord_dbl|]. split; [ord_dbl|]. value 5%Z (-1)%Z. rewrite V. cbn [Z.of_nat Pos.of_succ_nat Pos.succ]. lra. Qed.
Definition d0_2' := dbl 3602879701896397 (-54).
Definition tenth := dbl 3602879701896397 (-55).
(** a channel that is always 0.1 is 0.10000000000000002 at 0.2, so values between two samples may be outside of them *)
Theorem C184_constant_refuted : equals (value64 (one_channel [tenth; tenth]) d0_2' 0) (dbl 7205759403792795 (-56)).
Proof. vm_compute. reflexivity. Qed.
(** moving on can make the value go back although the samples increase *)
Theorem C184_monotone_refuted : let s := one_channel [dbl 5348024557502464 (-48); dbl 5348024557502465 (-48)] in
  lt 53 1024 (dbl 5664671069560546 (-53)) (dbl 5664671069560548 (-53)) = true /\ equals (value64 s (dbl 5664671069560546 (-53)) 0) (dbl 5348024557502465 (-48)) /\ equals (value64 s (dbl 5664671069560548 (-53)) 0) (dbl 5348024557502464 (-48)).
Proof. vm_compute. repeat split; reflexivity. Qed.
(** an infinite sample spoils the frame before it *)
Theorem C184_infinite_refuted : equals (value64 (one_channel [dbl 1 0; B754_infinity false]) (dbl 0 0) 0) B754_nan.
Proof. vm_compute. reflexivity. Qed.

Example C185_between_ex : equals (span64 times (dbl 5 (-1))) (dbl 5 (-1)) /\ equals (span64 times (dbl 3 0)) (dbl 4 0) /\ equals (span64 times (dbl 1000 0)) (dbl 4 0) /\ equals (span64 times (dbl (-7) 0)) (dbl 0 0) /\ equals (span64 [tenth; tenth] d0_2') tenth.
Proof. vm_compute. repeat split; reflexivity. Qed.
(** far beyond the last element the position does not fit in an integer *)
Theorem C185_far_refuted : span64 times (dbl 1 31) = UB /\ span64 times B754_nan = UB.
Proof. vm_compute. split; reflexivity. Qed.

Notation triangle64 := (triangle_wave 53 1024 p53 e1024).
Example C186_triangle_ex : is_finite (dbl (-13) (-2)) = true /\ Rabs (B2R (dbl (-13) (-2))) <= bpow radix2 (53 - 1) - 2 /\ bpow radix2 (3 - 1024) <= Rabs (B2R (dbl (-13) (-2))) /\ same (triangle64 (dbl (-13) (-2))) (dbl 3 (-2)) /\ same (triangle64 (dbl 9007199254740991 (-53))) (dbl 1 0).
Proof.
  split; [vm_compute; reflexivity|]. value (-13)%Z (-2)%Z. rewrite V, Rabs_left1 by lra. split; [|split; [|vm_compute; split; reflexivity]].
  - assert (bpow radix2 3 <= bpow radix2 (53 - 1)) by (apply bpow_le; lia). change (bpow radix2 3) with 8 in H. lra.
  - apply Rle_trans with (bpow radix2 0); [apply bpow_le; lia|cbn; lra].
Qed.
(** for large numbers the wave leaves its range: it is 2 at 2^53 + 2 *)
Theorem C186_large_refuted : same (triangle64 (dbl (2 ^ 52 + 1) 1)) (dbl 2 0).
Proof. vm_compute. reflexivity. Qed.
(** the smallest positive number is given 0 *)
Theorem C186_tiny_refuted : same (triangle64 (dbl 1 (-1074))) (dbl 0 0).
Proof. vm_compute. reflexivity. Qed.
Example C186_square_ex : same (square_wave 53 1024 p53 e1024 (dbl 7 (-1))) (dbl 0 0) /\ same (square_wave 53 1024 p53 e1024 (dbl 5 600)) (dbl 1 0) /\ same (square_wave 53 1024 p53 e1024 (dbl (-1) (-1))) (dbl 1 0).
Proof. vm_compute. repeat split; reflexivity. Qed.
(** below zero the square wave is always 1 *)
Theorem C186_negative_refuted : same (square_wave 53 1024 p53 e1024 (dbl (-1) (-1))) (dbl 1 0) /\ same (square_wave 53 1024 p53 e1024 (dbl 3 (-1))) (dbl 0 0).
Proof. vm_compute. split; reflexivity. Qed.
Example C186_whole_ex : is_whole 53 1024 e1024 (dbl (-12) 0) = true /\ is_whole 53 1024 e1024 (dbl (-13) (-1)) = false /\ is_whole 53 1024 e1024 (dbl 4503599627370497 70) = true.
Proof. vm_compute. repeat split; reflexivity. Qed.
Print Assumptions C183_nearest.
Print Assumptions C183_present.
Print Assumptions C183_empty.
Print Assumptions C184_between.
Print Assumptions C184_beyond.
Print Assumptions C184_index_refuted.
Print Assumptions C185_between.
Print Assumptions C185_monotone.
Print Assumptions C185_outside.
Print Assumptions C186_triangle.
Print Assumptions C186_square.
Print Assumptions C186_whole.
Print Assumptions C183_exact_refuted.
Print Assumptions C183_first_refuted.
Print Assumptions C183_nan_refuted.
Print Assumptions C184_constant_refuted.
Print Assumptions C184_monotone_refuted.
Print Assumptions C184_infinite_refuted.
Print Assumptions C185_far_refuted.
Print Assumptions C186_large_refuted.
Print Assumptions C186_tiny_refuted.
Print Assumptions C186_negative_refuted.
