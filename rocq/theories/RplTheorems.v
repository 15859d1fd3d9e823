(** * C203 a function tabulated at regular points, in floating point *)
From Coq Require Import List Arith Bool ZArith Reals Lra Lia.
From Flocq Require Import Core IEEE754.BinarySingleNaN.
From Verif Require Import Base BaseProofs DblModel DblProofs FrmModel RplSpec RplModel RplProofs.
Import ListNotations.
Local Open Scope R_scope.

Notation u := (DblProofs.u).
Notation eta := (DblProofs.eta).
(** ** every point up to 2^30 steps away gives the line through two neighbouring samples at a position that is right to two roundings: the samples around it, or the first or last two beyond the ends *)
Theorem C203_value : forall (prec emax : Z) (Hp : Prec_gt_0 prec) (He : Prec_lt_emax prec emax), (3 <= prec)%Z -> (50 <= emax)%Z -> forall (f : regular prec emax) (x : binary_float prec emax), let base := x_base _ _ f in let step := x_step _ _ f in let n := length (samples _ _ f) in
  is_finite x = true /\ Rabs (B2R x) <= bpow radix2 (emax - 3) -> is_finite base = true /\ Rabs (B2R base) <= bpow radix2 (emax - 3) -> 0 < B2R step -> (2 <= n)%nat -> (Z.of_nat n <= 2 ^ 31)%Z -> (Z.of_nat n <= 2 ^ (prec - 1))%Z ->
  (forall v, In v (samples _ _ f) -> is_finite v = true /\ Rabs (B2R v) <= bpow radix2 (emax - 40)) ->
  let q := (B2R x - B2R base) / B2R step in Rabs q <= bpow radix2 30 ->
  exists r t a b, let k := left_sample n t in evaluate prec emax Hp He f x = Ok r /\ is_finite r = true /\ Rabs (t - q) <= (2 * u prec + u prec * u prec) * Rabs q + eta prec emax /\ nth_error (samples _ _ f) k = Some a /\ nth_error (samples _ _ f) (S k) = Some b /\
    Rabs (B2R r - on_line k (B2R a) (B2R b) t) <= 8 * u prec * (1 + Rabs (t - INR k)) * (Rabs (B2R a) + Rabs (B2R b)) + 3 * eta prec emax.
Proof. intros prec emax Hp He H3 H50 f x base step n X B S N N31 NP D q Q. apply (value_ok prec emax Hp He H3 H50); try assumption. apply Forall_forall. exact D. Qed.
Print Assumptions C203_value.

(** ** a point a whole number of steps from the first gives the sample itself, also the last, if the distance is a number *)
Theorem C203_knot : forall (prec emax : Z) (Hp : Prec_gt_0 prec) (He : Prec_lt_emax prec emax), (3 <= prec)%Z -> (50 <= emax)%Z -> forall (f : regular prec emax) (x : binary_float prec emax) j a, let base := x_base _ _ f in let step := x_step _ _ f in let n := length (samples _ _ f) in
  is_finite x = true /\ Rabs (B2R x) <= bpow radix2 (emax - 3) -> is_finite base = true /\ Rabs (B2R base) <= bpow radix2 (emax - 3) -> 0 < B2R step -> (2 <= n)%nat -> (Z.of_nat n <= 2 ^ 31)%Z -> (Z.of_nat n <= 2 ^ (prec - 1))%Z ->
  (forall v, In v (samples _ _ f) -> is_finite v = true /\ Rabs (B2R v) <= bpow radix2 (emax - 40)) ->
  nth_error (samples _ _ f) j = Some a -> B2R x = B2R base + INR j * B2R step -> (exists d : binary_float prec emax, B2R d = INR j * B2R step) -> exists r, evaluate prec emax Hp He f x = Ok r /\ B2R r = B2R a.
Proof.
  intros prec emax Hp He H3 H50 f x j a base step n X B S N N31 NP D A E [d G]. apply (knot_ok prec emax Hp He H3 H50 f x j a); try assumption; [apply Forall_forall; exact D|fold base step; lra|]. fold step. rewrite <- G. apply num_format.
Qed.
Print Assumptions C203_knot.

(** ** the samples are the values of the function at points that are regular up to rounding; the first one is exact *)
Theorem C203_samples : forall (prec emax : Z) (Hp : Prec_gt_0 prec) (He : Prec_lt_emax prec emax), (3 <= prec)%Z -> (50 <= emax)%Z -> forall (lo hi : binary_float prec emax) n (fn : binary_float prec emax -> binary_float prec emax),
  is_finite lo = true -> is_finite hi = true -> Rabs (B2R lo) <= bpow radix2 (emax - 6) -> Rabs (B2R hi) <= bpow radix2 (emax - 6) -> (2 <= n)%nat -> (Z.of_nat n <= 2 ^ (prec - 1))%Z ->
  let f := make_regular prec emax Hp He n lo hi fn in length (samples _ _ f) = n /\ x_base _ _ f = lo /\ forall i, (i < n)%nat -> exists x, nth_error (samples _ _ f) i = Some (fn x) /\ is_finite x = true /\ (i = 0%nat -> B2R x = B2R lo) /\
    Rabs (B2R x - (B2R lo + INR i * ((B2R hi - B2R lo) / INR (n - 1)))) <= u prec * Rabs (B2R lo) + 5 * u prec * Rabs (B2R hi - B2R lo) + 2 * (INR i + 1) * eta prec emax.
Proof.
  intros prec emax Hp He H3 H50 lo hi n fn Fl Fh Bl Bh N NP f. split; [unfold f; cbn; rewrite map_length, seq_length; reflexivity|]. split; [reflexivity|]. intros i I. eexists. split.
  { unfold f. cbn [samples make_regular]. rewrite nth_error_map. rewrite (nth_error_nth' _ 0%nat) by (rewrite seq_length; exact I). rewrite seq_nth by exact I. reflexivity. }
  destruct (abscissa_ok prec emax Hp He H3 H50 lo hi n i Fl Fh Bl Bh N NP I) as [A B]. split; [exact A|]. split; [|exact B]. intros ->. apply (first_exact prec emax Hp He H3 lo hi n Fl Fh Bl Bh N NP).
Qed.
Print Assumptions C203_samples.

(** ** but a sample is not always found again at the point where it was taken *)
Definition f24 : Prec_gt_0 24 := eq_refl.
Definition f128 : Prec_lt_emax 24 128 := eq_refl.
Notation int32 k := (const 24 128 f24 f128 k 0).
Definition squares : regular 24 128 := make_regular 24 128 f24 f128 11 (int32 1) (int32 2) (fun x => mul 24 128 f24 f128 x x).
Theorem C203_sample_refuted : exists x r a, nth_error (samples _ _ squares) 1 = Some a /\ a = mul 24 128 f24 f128 x x /\ evaluate 24 128 f24 f128 squares x = Ok r /\ B2R r <> B2R a.
Proof.
  set (x := add 24 128 f24 f128 (int32 1) (mul 24 128 f24 f128 (int32 1) (x_step _ _ squares))). destruct (evaluate 24 128 f24 f128 squares x) as [r| |] eqn:E; [|exfalso|exfalso].
  - exists x, r, (mul 24 128 f24 f128 x x). split; [reflexivity|]. split; [reflexivity|]. split; [exact E|].
    assert (R : B2SF r = SpecFloat.S754_finite false 10150217 (-23)). { transitivity (match evaluate 24 128 f24 f128 squares x with Ok r => B2SF r | _ => SpecFloat.S754_nan end); [rewrite E; reflexivity|]. clear E. vm_compute. reflexivity. }
    assert (A : B2SF (mul 24 128 f24 f128 x x) = SpecFloat.S754_finite false 10150216 (-23)) by (vm_compute; reflexivity). rewrite <- !SF2R_B2SF, R, A. cbn. unfold F2R. cbn. lra.
  - assert (H : match evaluate 24 128 f24 f128 squares x with Ok _ => true | _ => false end = true) by (clear E; vm_compute; reflexivity). rewrite E in H. discriminate.
  - assert (H : match evaluate 24 128 f24 f128 squares x with Ok _ => true | _ => false end = true) by (clear E; vm_compute; reflexivity). rewrite E in H. discriminate.
Qed.
Print Assumptions C203_sample_refuted.

(** ** extrapolating more than 2^32 steps away is undefined: the position does not fit an int *)
Theorem C203_far_refuted : forall (prec emax : Z) (Hp : Prec_gt_0 prec) (He : Prec_lt_emax prec emax), (3 <= prec)%Z -> (50 <= emax)%Z -> forall (f : regular prec emax) (x : binary_float prec emax), let base := x_base _ _ f in let step := x_step _ _ f in
  is_finite x = true /\ Rabs (B2R x) <= bpow radix2 (emax - 3) -> is_finite base = true /\ Rabs (B2R base) <= bpow radix2 (emax - 3) -> 0 < B2R step ->
  bpow radix2 32 * B2R step <= Rabs (B2R x - B2R base) <= bpow radix2 38 * B2R step -> evaluate prec emax Hp He f x = UB.
Proof. intros prec emax Hp He H3 H50 f x base step. apply (far_ok prec emax Hp He H3 H50). Qed.
Print Assumptions C203_far_refuted.

(** the function 3x at 0, 0.25, ..., 1: between samples, at one, beyond the ends and far away *)
Definition triple : regular 24 128 := make_regular 24 128 f24 f128 5 (int32 0) (int32 1) (fun x => mul 24 128 f24 f128 (int32 3) x).
Lemma float_value (x : binary_float 24 128) s : B2SF x = s -> B2R x = SF2R radix2 s. Proof. intros <-. symmetry. apply SF2R_B2SF. Qed.
Ltac value x := rewrite (float_value x _ ltac:(vm_compute; reflexivity)); cbn; unfold F2R; cbn.
Example C203_case : B2R (x_base _ _ triple) = 0 /\ B2R (x_step _ _ triple) = / 4 /\ length (samples _ _ triple) = 5%nat /\ (forall v, In v (samples _ _ triple) -> is_finite v = true /\ Rabs (B2R v) <= bpow radix2 (128 - 40)) /\
  Rabs ((B2R (const 24 128 f24 f128 3 (-3)) - 0) / / 4) <= bpow radix2 30 /\
  (exists r, evaluate 24 128 f24 f128 triple (const 24 128 f24 f128 3 (-3)) = Ok r /\ B2SF r = SpecFloat.S754_finite false 9437184 (-23)) /\
  (exists r, evaluate 24 128 f24 f128 triple (int32 1) = Ok r /\ B2SF r = SpecFloat.S754_finite false 12582912 (-22)) /\
  (exists r, evaluate 24 128 f24 f128 triple (int32 (-2)) = Ok r /\ B2SF r = SpecFloat.S754_finite true 12582912 (-21)) /\
  evaluate 24 128 f24 f128 triple (const 24 128 f24 f128 1 31) = UB.
Proof.
  split; [value (x_base 24 128 triple); reflexivity|]. split; [value (x_step 24 128 triple); lra|]. split; [reflexivity|].
  split. { intros v [<-|[<-|[<-|[<-|[<-|[]]]]]]; (split; [vm_compute; reflexivity|]); apply Rle_trans with (bpow radix2 2); try (apply bpow_le; lia); match goal with |- Rabs (B2R ?x) <= _ => value x end; apply Rabs_le; lra. }
  split. { value (const 24 128 f24 f128 3 (-3)). apply Rabs_le. lra. }
  split; [|split; [|split]]; [eexists; split; [reflexivity|vm_compute; reflexivity]..|]. vm_compute. reflexivity.
Qed.
Example C203_samples_case : is_finite (int32 1) = true /\ is_finite (int32 2) = true /\ Rabs (B2R (int32 1)) <= bpow radix2 (128 - 6) /\ Rabs (B2R (int32 2)) <= bpow radix2 (128 - 6) /\ length (samples _ _ squares) = 11%nat.
Proof.
  split; [reflexivity|]. split; [reflexivity|]. split; [|split; [|reflexivity]]; (apply Rle_trans with (bpow radix2 1); [|apply bpow_le; lia]); match goal with |- Rabs (B2R ?x) <= _ => value x end; apply Rabs_le; lra.
Qed.
