(** * C204 weighted averages in floating point *)
From Coq Require Import List Arith Bool ZArith Reals Lra Lia.
From Flocq Require Import Core IEEE754.BinarySingleNaN.
From Verif Require Import Base BaseProofs DblModel DblProofs WavSpec WavModel WavProofs.
Import ListNotations.
Local Open Scope R_scope.
Notation u := (DblProofs.u).
Notation eta := (DblProofs.eta).

(** ** after any history, the average is the weighted mean of what was added since the last reset, up to (6n+5) units of rounding of the mean size *)
Theorem C204_mean : forall (prec emax : Z) (Hp : Prec_gt_0 prec) (He : Prec_lt_emax prec emax), (3 <= prec)%Z -> forall os : list (average_call (binary_float prec emax)), let l := added [] os in let n := INR (length l) in
  let W := weights B2R l in let S := weighted B2R l in let A := weighted_abs B2R l in
  (forall v w, In (v, w) l -> is_finite v = true /\ is_finite w = true /\ 0 <= B2R w /\ Rabs (B2R v) <= bpow radix2 (emax - 3)) -> (n + 1) * u prec <= / 8 -> W <= bpow radix2 (emax - 3) -> A <= bpow radix2 (emax - 3) -> 0 < W ->
  let r := average_get prec emax Hp He (average_run prec emax Hp He os) in is_finite r = true /\ Rabs (B2R r - S / W) <= (6 * n + 5) * u prec * (A / W) + 4 * n * eta prec emax / W + eta prec emax.
Proof.
  intros prec emax Hp He H3 os l n W S A F N HW HA W0. unfold average_run. change (average_init prec emax Hp He) with (fold_left (fun a (p : binary_float prec emax * binary_float prec emax) => average_add prec emax Hp He a (fst p) (snd p)) [] (average_init prec emax Hp He)). rewrite (run_added prec emax Hp He os []). fold l.
  destruct (quarter emax) as [Q Q0]. assert (FF : Forall (fine prec emax) l) by (apply Forall_forall; intros [v w] I; destruct (F v w I) as (F1 & F2 & F3 & _); repeat split; assumption).
  apply (get_ok prec emax Hp He H3); try assumption; [fold W; lra|fold A; lra|]. fold A W. rewrite Q. rewrite Rmult_assoc. apply Rmult_le_compat_l; [lra|]. apply A_bound; [exact FF|]. apply Forall_forall. intros [v w] I. apply (F v w I).
Qed.
Print Assumptions C204_mean.
(** ** it is empty, and then zero, exactly if all weights since the last reset are zero *)
Theorem C204_empty : forall (prec emax : Z) (Hp : Prec_gt_0 prec) (He : Prec_lt_emax prec emax), (3 <= prec)%Z -> forall os : list (average_call (binary_float prec emax)), let l := added [] os in
  (forall v w, In (v, w) l -> is_finite v = true /\ is_finite w = true /\ 0 <= B2R w) -> (INR (length l) + 1) * u prec <= / 8 -> weights B2R l <= bpow radix2 (emax - 3) -> weighted_abs B2R l <= bpow radix2 (emax - 3) ->
  let a := average_run prec emax Hp He os in (average_empty prec emax Hp He a = true <-> forall v w, In (v, w) l -> B2R w = 0) /\ (average_empty prec emax Hp He a = true -> B2R (average_get prec emax Hp He a) = 0).
Proof.
  intros prec emax Hp He H3 os l F N HW HA. unfold average_run. change (average_init prec emax Hp He) with (fold_left (fun a (p : binary_float prec emax * binary_float prec emax) => average_add prec emax Hp He a (fst p) (snd p)) [] (average_init prec emax Hp He)). rewrite (run_added prec emax Hp He os []). fold l. cbv zeta.
  destruct (quarter emax) as [Q Q0]. assert (FF : Forall (fine prec emax) l) by (apply Forall_forall; intros [v w] I; exact (F v w I)). pose proof (empty_ok prec emax Hp He H3 l FF N ltac:(lra) ltac:(lra)) as E. split.
  - rewrite E, Forall_forall. split; [intros H v w I; exact (H (v, w) I)|intros H [v w] I; exact (H v w I)].
  - intros H. apply E in H. apply (get_none prec emax Hp He H3); try assumption; [lra|lra|]. apply W_zero; assumption.
Qed.
Print Assumptions C204_empty.
(** ** a negative weight is not refused; one value with a negative weight has the average zero, although it is not empty *)
Definition d53 : Prec_gt_0 53 := eq_refl.
Definition d1024 : Prec_lt_emax 53 1024 := eq_refl.
Notation int64 k := (const 53 1024 d53 d1024 k 0).
Theorem C204_negative_refuted : exists os, let l := added [] os in let a := average_run 53 1024 d53 d1024 os in weighted B2R l / weights B2R l = 5 /\ B2R (average_get 53 1024 d53 d1024 a) = 0 /\ average_empty 53 1024 d53 d1024 a = false.
Proof.
  exists [Add (int64 5) (int64 (-1))]. cbn [added app weighted weights fold_right fst snd]. assert (A : B2R (int64 5) = 5). { rewrite <- SF2R_B2SF. replace (B2SF (int64 5)) with (SpecFloat.S754_finite false 5629499534213120 (-50)) by (vm_compute; reflexivity). cbn. unfold F2R. cbn. lra. }
  assert (B : B2R (int64 (-1)) = -1). { rewrite <- SF2R_B2SF. replace (B2SF (int64 (-1))) with (SpecFloat.S754_finite true 4503599627370496 (-52)) by (vm_compute; reflexivity). cbn. unfold F2R. cbn. lra. }
  rewrite A, B. split; [field|]. split; [|vm_compute; reflexivity]. rewrite <- SF2R_B2SF. replace (B2SF _) with (SpecFloat.S754_zero false) by (vm_compute; reflexivity). reflexivity.
Qed.
Print Assumptions C204_negative_refuted.

(** two values after a reset: (2 * 1 + 6 * 3) / 4 *)
Example C204_case : let os := [Add (int64 7) (int64 1); Reset; Add (int64 2) (int64 1); Add (int64 6) (int64 3)] in added [] os = [(int64 2, int64 1); (int64 6, int64 3)] /\
  (forall v w, In (v, w) (added [] os) -> is_finite v = true /\ is_finite w = true /\ 0 <= B2R w /\ Rabs (B2R v) <= bpow radix2 (1024 - 3)) /\ (INR (length (added [] os)) + 1) * u 53 <= / 8 /\
  weights B2R (added [] os) = 4 /\ weighted_abs B2R (added [] os) = 20 /\ B2SF (average_get 53 1024 d53 d1024 (average_run 53 1024 d53 d1024 os)) = SpecFloat.S754_finite false 5629499534213120 (-50).
Proof.
  cbv zeta. split; [reflexivity|]. cbn [added app].
  assert (V : B2R (int64 1) = 1 /\ B2R (int64 2) = 2 /\ B2R (int64 3) = 3 /\ B2R (int64 6) = 6).
  { rewrite <- !SF2R_B2SF. replace (B2SF (int64 1)) with (SpecFloat.S754_finite false 4503599627370496 (-52)) by (vm_compute; reflexivity). replace (B2SF (int64 2)) with (SpecFloat.S754_finite false 4503599627370496 (-51)) by (vm_compute; reflexivity). replace (B2SF (int64 3)) with (SpecFloat.S754_finite false 6755399441055744 (-51)) by (vm_compute; reflexivity). replace (B2SF (int64 6)) with (SpecFloat.S754_finite false 6755399441055744 (-50)) by (vm_compute; reflexivity). cbn. unfold F2R. cbn. lra. }
  destruct V as (V1 & V2 & V3 & V6). split; [|split; [|split; [|split]]].
  - assert (B : 8 <= bpow radix2 (1024 - 3)) by (change 8 with (bpow radix2 3); apply bpow_le; lia). intros v w [E|[E|[]]]; apply pair_equal_spec in E; destruct E as [<- <-]; (split; [reflexivity|split; [reflexivity|]]); rewrite ?V1, ?V2, ?V3, ?V6; (split; [lra|apply Rabs_le; lra]).
  - assert (u 53 <= / 64) by (unfold DblProofs.u; change (/ 64) with (bpow radix2 (-6)); apply bpow_le; lia). cbn [length INR]. lra.
  - cbn [weights fold_right snd]. rewrite V1, V3. ring.
  - cbn [weighted_abs fold_right fst snd]. rewrite V1, V2, V3, V6, !Rabs_pos_eq by lra. ring.
  - vm_compute. reflexivity.
Qed.
