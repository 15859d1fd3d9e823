(** * C205 recursive filters in floating point *)
From Coq Require Import List Arith Bool ZArith Reals Lra Lia.
From Flocq Require Import Core IEEE754.BinarySingleNaN.
From Verif Require Import Base BaseProofs SigSpec SigModel SigProofs DblModel DblProofs IifSpec IifModel IifProofs.
Import ListNotations.
Local Open Scope R_scope.
Notation u := (DblProofs.u).
Notation eta := (DblProofs.eta).

(** ** every output of every run is what the recurrence gives from the inputs and outputs before it, up to 2(N+1) units of rounding of the size of its terms; no stability is needed *)
Theorem C205_step : forall (prec emax : Z) (Hp : Prec_gt_0 prec) (He : Prec_lt_emax prec emax), (3 <= prec)%Z -> forall (b0 : binary_float prec emax) (b a us : list (binary_float prec emax)), let N := length b in (0 < N)%nat -> length a = N -> (INR N + 1) * u prec <= / 16 ->
  Forall (fun v => is_finite v = true) (b0 :: b ++ a ++ us) -> exists ys, filter_run prec emax Hp He (make_filter prec emax Hp He b0 b a) us = Ok ys /\
  let size := recurrence_size (B2R b0) (map B2R b) (map B2R a) (map B2R us) (map B2R ys) in
  length ys = length us /\ forall n, (n < length us)%nat -> (forall j, (j <= n)%nat -> size j <= bpow radix2 (emax - 3)) -> let y := nth n ys (B754_zero false) in is_finite y = true /\
  Rabs (B2R y - recurrence (B2R b0) (map B2R b) (map B2R a) (map B2R us) (map B2R ys) n) <= 2 * ((INR N + 1) * u prec) * size n + 3 * (INR N + 1) * eta prec emax.
Proof.
  intros prec emax Hp He H3 b0 b a us N N0 La HN F. set (ys := p_filter_run prec emax Hp He (make_filter prec emax Hp He b0 b a) us). exists ys. split; [apply run_made; assumption|]. intros size. apply Forall_cons_iff in F. destruct F as [F0 F]. apply Forall_app in F. destruct F as [Fb F]. apply Forall_app in F. destruct F as [Fa Fu].
  assert (LR : forall l f, length (p_filter_run prec emax Hp He f l) = length l) by (induction l as [|x l IH]; intros f; [reflexivity|]; cbn [p_filter_run]; destruct (p_filter_step prec emax Hp He f x) as [f' y]; cbn [length]; rewrite IH; reflexivity). split; [apply LR|].
  intros n Hn HQ y. destruct (quarter emax) as [Q Q0]. destruct (steps_from_start prec emax Hp He H3 b0 b a F0 Fb Fa La N0 HN us n Fu Hn) as [A B]; [intros j J; specialize (HQ j J); fold ys size; lra|]. fold ys in A, B. unfold y. rewrite (nth_indep ys (B754_zero false) (const prec emax Hp He 0 0)) by (unfold ys; rewrite LR; exact Hn). split; [exact A|exact B].
Qed.
Print Assumptions C205_step.
(** ** for coefficients that do not amplify, the outputs of every run, however long, stay bounded and within one fixed distance of the exact outputs *)
Theorem C205_run : forall (prec emax : Z) (Hp : Prec_gt_0 prec) (He : Prec_lt_emax prec emax), (3 <= prec)%Z -> forall (b0 : binary_float prec emax) (b a us : list (binary_float prec emax)) (M Y E : R), let N := length b in (0 < N)%nat -> length a = N -> (INR N + 1) * u prec <= / 16 ->
  Forall (fun v => is_finite v = true) (b0 :: b ++ a ++ us) -> Forall (fun x => Rabs (B2R x) <= M) us -> 0 <= M -> 0 <= Y -> 0 <= E ->
  let k := 2 * ((INR N + 1) * u prec) in let t := 3 * (INR N + 1) * eta prec emax in let r := abs_sum (map B2R a) in let G := (Rabs (B2R b0) + abs_sum (map B2R b)) * M + r * Y in
  G <= bpow radix2 (emax - 3) -> (1 + k) * G + t <= Y -> r * E + k * G + t <= E -> forall zs, difference_equation (B2R b0) (map B2R b) (map B2R a) (map B2R us) zs ->
  exists ys, filter_run prec emax Hp He (make_filter prec emax Hp He b0 b a) us = Ok ys /\ Forall2 (fun y z => is_finite y = true /\ Rabs (B2R y) <= Y /\ Rabs (B2R y - z) <= E) ys zs.
Proof.
  intros prec emax Hp He H3 b0 b a us M Y E N N0 La HN F HM M0 Y0 E0 k t r G HG GY GE zs D. apply Forall_cons_iff in F. destruct F as [F0 F]. apply Forall_app in F. destruct F as [Fb F]. apply Forall_app in F. destruct F as [Fa Fu]. destruct (quarter emax) as [Q Q0].
  eexists. split; [apply run_made; assumption|]. apply (run_near prec emax Hp He H3 b0 b a M Y E F0 Fb Fa La N0 M0 Y0 E0 HN); try assumption; [fold r G; lra|]. rewrite Forall_forall in *. intros x I. split; [apply Fu, I|apply HM, I].
Qed.
Print Assumptions C205_run.
Definition d53 : Prec_gt_0 53 := eq_refl.
Definition d1024 : Prec_lt_emax 53 1024 := eq_refl.
Notation num64 m e := (const 53 1024 d53 d1024 m e).
Lemma val64 m e s p q : B2SF (num64 m e) = SpecFloat.S754_finite s p q -> B2R (num64 m e) = F2R (Defs.Float radix2 (cond_Zopp s (Zpos p)) q).
Proof. intros H. rewrite <- SF2R_B2SF, H. reflexivity. Qed.
Lemma rings k : forall w, w = num64 1 (-1074) \/ w = num64 0 0 -> p_filter_run 53 1024 d53 d1024 (Filter 53 1024 (num64 1 0) [w] [num64 1 (-1074)] [num64 0 0] [num64 3 (-2)]) (repeat (num64 0 0) k) = repeat (num64 1 (-1074)) k.
Proof.
  induction k as [|k IH]; intros w W; [reflexivity|]. cbn [repeat p_filter_run]. unfold p_filter_step. cbv zeta. cbn [c_b0 c_x c_y c_b c_a].
  assert (O : p_output 53 1024 d53 d1024 (Filter 53 1024 (num64 1 0) [w] [num64 1 (-1074)] [num64 0 0] [num64 3 (-2)]) (num64 0 0) = num64 1 (-1074)) by (apply B2SF_inj; destruct W as [-> | ->]; vm_compute; reflexivity).
  rewrite O. f_equal. apply (IH (num64 0 0)). right. reflexivity.
Qed.
Lemma first_out : p_output 53 1024 d53 d1024 (Filter 53 1024 (num64 1 0) [num64 0 0] [num64 0 0] [num64 0 0] [num64 3 (-2)]) (num64 1 (-1074)) = num64 1 (-1074).
Proof. apply B2SF_inj. vm_compute. reflexivity. Qed.
Lemma nth_repeat_in {A} (v d : A) k m : (k < m)%nat -> nth k (repeat v m) d = v.
Proof. revert k. induction m as [|m IH]; intros [|k] H; cbn; try lia; [reflexivity|apply IH; lia]. Qed.
(** ** that distance is not an artefact: the output of a stable filter need not die out after an impulse, although the exact one does *)
Theorem C205_dies_out_refuted : exists b0 b a x : binary_float 53 1024, B2R b = 0 /\ B2R a = 3 / 4 /\ forall k zs, let us := x :: repeat (num64 0 0) k in difference_equation (B2R b0) [B2R b] [B2R a] (map B2R us) zs ->
  nth k zs 0 = B2R x * (3 / 4) ^ k /\ (exists ys, filter_run 53 1024 d53 d1024 (make_filter 53 1024 d53 d1024 b0 [b] [a]) us = Ok ys /\ nth k ys b = x) /\ 0 < B2R x.
Proof.
  assert (Z0 : B2R (num64 0 0) = 0) by (rewrite <- SF2R_B2SF; replace (B2SF (num64 0 0)) with (SpecFloat.S754_zero false) by (vm_compute; reflexivity); reflexivity).
  assert (V1 : B2R (num64 1 0) = 1). { rewrite (val64 _ _ false 4503599627370496 (-52)) by (vm_compute; reflexivity). cbn. unfold F2R. cbn. lra. }
  assert (V3 : B2R (num64 3 (-2)) = 3 / 4). { rewrite (val64 _ _ false 6755399441055744 (-53)) by (vm_compute; reflexivity). cbn. unfold F2R. cbn. lra. }
  assert (VT : 0 < B2R (num64 1 (-1074))). { rewrite (val64 _ _ false 1 (-1074)) by (vm_compute; reflexivity). apply F2R_gt_0. reflexivity. }
  exists (num64 1 0), (num64 0 0), (num64 3 (-2)), (num64 1 (-1074)). split; [exact Z0|]. split; [exact V3|]. intros k zs us D. split; [|split; [|exact VT]].
  - destruct D as [L D]. unfold us in L, D. rewrite map_length in L, D. cbn [length] in L, D. rewrite repeat_length in L, D. rewrite Z0, V1, V3 in D. cbn [map] in D. assert (MR : map B2R (repeat (num64 0 0) k) = repeat 0 k) by (clear - Z0; induction k as [|k IH]; cbn [repeat map]; [reflexivity|rewrite IH, Z0; reflexivity]). rewrite MR in D. clear MR. clear Z0 V1 V3 VT us. set (x := B2R (num64 1 (-1074))) in *. clearbody x.
    assert (G : forall n, (n <= k)%nat -> nth n zs 0 = x * (3 / 4) ^ n); [|apply G; lia]. induction n as [|n IH]; intros Hn.
    + rewrite (D 0%nat) by lia. cbn [length seq map SigSpec.total fold_right nth]. unfold before. cbn [Nat.leb nth]. cbn [pow]. ring.
    + rewrite (D (S n)) by lia. cbn [length seq map SigSpec.total fold_right nth]. unfold before at 2. cbn [Nat.leb]. replace (S n - 1)%nat with n by lia. rewrite IH by lia. rewrite nth_repeat. cbn [pow]. ring.
  - eexists. split; [apply run_made; [cbn; lia|reflexivity]|]. unfold us. cbn [p_filter_run]. unfold p_filter_step, make_filter. cbn [c_b0 c_x c_y c_b c_a length repeat]. rewrite first_out. cbv zeta beta iota. rewrite !shifted_set by discriminate. cbn [length Nat.sub firstn].
    destruct k as [|k]; [reflexivity|]. cbn [nth]. rewrite (rings (S k) (num64 1 (-1074)) (or_introl eq_refl)). apply nth_repeat_in. lia.
Qed.
Print Assumptions C205_dies_out_refuted.

Lemma v1 : B2R (num64 1 0) = 1. Proof. rewrite (val64 _ _ false 4503599627370496 (-52)) by (vm_compute; reflexivity). cbn. unfold F2R. cbn. lra. Qed.
Lemma vm1 : B2R (num64 (-1) 0) = -1. Proof. rewrite (val64 _ _ true 4503599627370496 (-52)) by (vm_compute; reflexivity). cbn. unfold F2R. cbn. lra. Qed.
Lemma v2 : B2R (num64 1 (-1)) = 1 / 2. Proof. rewrite (val64 _ _ false 4503599627370496 (-53)) by (vm_compute; reflexivity). cbn. unfold F2R. cbn. lra. Qed.
Lemma v3 : B2R (num64 3 (-1)) = 3 / 2. Proof. rewrite (val64 _ _ false 6755399441055744 (-52)) by (vm_compute; reflexivity). cbn. unfold F2R. cbn. lra. Qed.
Lemma v9 : B2R (num64 9 (-2)) = 9 / 4. Proof. rewrite (val64 _ _ false 5066549580791808 (-51)) by (vm_compute; reflexivity). cbn. unfold F2R. cbn. lra. Qed.
Lemma v0 : B2R (num64 0 0) = 0. Proof. rewrite <- SF2R_B2SF. replace (B2SF (num64 0 0)) with (SpecFloat.S754_zero false) by (vm_compute; reflexivity). reflexivity. Qed.
Lemma u53 : u 53 <= / 64. Proof. unfold DblProofs.u. change (/ 64) with (bpow radix2 (-6)). apply bpow_le. lia. Qed.
(** an unstable filter: the outputs 1/2 and 9/4, with terms of those sizes *)
Example C205_step_case : let b0 := num64 1 (-1) in let b := [num64 1 0] in let a := [num64 3 (-1)] in let us := [num64 1 0; num64 1 0] in let ys := [num64 1 (-1); num64 9 (-2)] in
  filter_run 53 1024 d53 d1024 (make_filter 53 1024 d53 d1024 b0 b a) us = Ok ys /\ Forall (fun v => is_finite v = true) (b0 :: b ++ a ++ us) /\ (INR (length b) + 1) * u 53 <= / 16 /\ forall j, (j <= 1)%nat -> recurrence_size (B2R b0) (map B2R b) (map B2R a) (map B2R us) (map B2R ys) j <= bpow radix2 (1024 - 3).
Proof.
  cbv zeta. rewrite run_made by (cbn; auto).
  assert (E : map B2SF (p_filter_run 53 1024 d53 d1024 (make_filter 53 1024 d53 d1024 (num64 1 (-1)) [num64 1 0] [num64 3 (-1)]) [num64 1 0; num64 1 0]) = map B2SF [num64 1 (-1); num64 9 (-2)]) by (vm_compute; reflexivity).
  assert (I : forall l m : list (binary_float 53 1024), map B2SF l = map B2SF m -> l = m). { induction l as [|x l IH]; intros [|y m] H; try discriminate H; [reflexivity|]. cbn [map] in H. apply (f_equal (fun l => (hd SpecFloat.S754_nan l, tl l))) in H. cbn [hd tl] in H. apply pair_equal_spec in H. destruct H as [H1 H2]. f_equal; [apply B2SF_inj, H1|apply IH, H2]. }
  apply I in E. rewrite E. clear E I. split; [reflexivity|]. split; [repeat constructor|]. split; [pose proof u53; cbn [length INR]; lra|].
  assert (B : 8 <= bpow radix2 (1024 - 3)) by (change 8 with (bpow radix2 3); apply bpow_le; lia). cbn [map]. rewrite v1, v2, v3, v9. set (T := bpow radix2 (1024 - 3)) in *. clearbody T. intros [|[|j]] J; [| |lia]; unfold recurrence_size, before, SigSpec.total; cbn [length seq map fold_right nth Nat.leb Nat.sub]; rewrite ?Rmult_0_r, ?Rabs_R0; rewrite ?Rabs_pos_eq by lra; lra.
Qed.
(** a stable filter: M = 1, Y = 2, E = 16 units of rounding *)
Example C205_run_case : let b0 := num64 1 (-1) in let b := [num64 0 0] in let a := [num64 1 (-1)] in let us := [num64 1 0; num64 (-1) 0; num64 1 0] in let k := 2 * ((INR (length b) + 1) * u 53) in let t := 3 * (INR (length b) + 1) * eta 53 1024 in
  let r := abs_sum (map B2R a) in let G := (Rabs (B2R b0) + abs_sum (map B2R b)) * 1 + r * 2 in Forall (fun v => is_finite v = true) (b0 :: b ++ a ++ us) /\ Forall (fun x => Rabs (B2R x) <= 1) us /\
  G <= bpow radix2 (1024 - 3) /\ (1 + k) * G + t <= 2 /\ r * (16 * u 53) + k * G + t <= 16 * u 53 /\ difference_equation (B2R b0) (map B2R b) (map B2R a) (map B2R us) [1 / 2; -1 / 4; 3 / 8].
Proof.
  cbv zeta. cbn [map abs_sum fold_right length]. rewrite v0, v1, vm1, v2, Rabs_R0. rewrite !(Rabs_pos_eq (1 / 2)) by lra. pose proof u53 as U. pose proof (u_pos 53 ltac:(lia)) as U0. assert (B : 8 <= bpow radix2 (1024 - 3)) by (change 8 with (bpow radix2 3); apply bpow_le; lia).
  assert (ET : eta 53 1024 <= / 8 * u 53). { unfold DblProofs.eta, DblProofs.u. change (/ 8) with (bpow radix2 (-3)). rewrite <- bpow_plus. apply bpow_le. unfold SpecFloat.emin. lia. }
  replace (INR 1) with 1 by reflexivity. split; [repeat constructor|]. split; [repeat (apply Forall_cons; [rewrite ?v1, ?vm1; apply Rabs_le; lra|]); apply Forall_nil|]. split; [lra|]. split; [lra|]. split; [lra|].
  split; [reflexivity|]. intros [|[|[|n]]] H; cbn [length] in H; try lia; unfold before, SigSpec.total; cbn [length seq map fold_right nth Nat.leb Nat.sub]; lra.
Qed.
