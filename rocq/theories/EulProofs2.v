(** The constants that convert between degrees and radians: bounds on PI by the Machin series of the standard library, summed in exact rationals. *)
From Coq Require Import List Arith Bool ZArith QArith Qreals Reals Lra Lia.
From Verif Require Import Base EulModel.
Local Open Scope R_scope.

Definition pos_of (n : nat) : positive := Pos.of_succ_nat (2 * n).
Definition termQ (n : nat) : Q := (((-1) ^ Z.of_nat n) # 1) * ((2 # (3 ^ pos_of n * pos_of n)) + (1 # (7 ^ pos_of n * pos_of n))).
Fixpoint sumQ (n : nat) : Q := match n with O => termQ O | S m => Qred (sumQ m + termQ (S m)) end.
Lemma pos_of_nat n : Pos.to_nat (pos_of n) = (2 * n + 1)%nat.
Proof. unfold pos_of. rewrite SuccNat2Pos.id_succ. lia. Qed.
Lemma IZR_pos p : IZR (Zpos p) = INR (Pos.to_nat p).
Proof. rewrite INR_IZR_INZ, positive_nat_Z. reflexivity. Qed.
Lemma term_one b n : Q2R (1 # (b ^ pos_of n * pos_of n)) = (/ IZR (Zpos b)) ^ (2 * n + 1) / INR (2 * n + 1).
Proof.
  unfold Q2R. cbn [Qnum Qden]. rewrite <- pos_of_nat. rewrite <- IZR_pos. rewrite Pos2Z.inj_mul, mult_IZR, Pos2Z.inj_pow. rewrite pow_inv by (apply not_0_IZR; lia). rewrite (pow_IZR (Z.pos b)), positive_nat_Z.
  assert (A : IZR (Z.pos b ^ Z.pos (pos_of n)) <> 0) by (apply not_0_IZR, Z.pow_nonzero; lia). assert (B : IZR (Z.pos (pos_of n)) <> 0) by (apply not_0_IZR; lia). field. split; assumption.
Qed.
Lemma sign_ok n : Q2R (((-1) ^ Z.of_nat n)%Z # 1) = (-1) ^ n.
Proof. unfold Q2R. cbn [Qnum Qden]. rewrite <- pow_IZR. field. Qed.
Lemma termQ_ok n : Q2R (termQ n) = tg_alt PI_2_3_7_tg n.
Proof.
  unfold termQ, tg_alt, PI_2_3_7_tg, Ratan_seq. rewrite Q2R_mult, Q2R_plus, sign_ok. f_equal. rewrite <- (term_one 3), <- (term_one 7). f_equal. unfold Q2R. cbn [Qnum Qden]. ring.
Qed.
Lemma sumQ_ok n : Q2R (sumQ n) = sum_f_R0 (tg_alt PI_2_3_7_tg) n.
Proof. induction n as [|n IH]; cbn [sumQ sum_f_R0]; [apply termQ_ok|]. rewrite (Qeq_eqR _ _ (Qred_correct _)), Q2R_plus, IH, termQ_ok. reflexivity. Qed.
Lemma PI_close : 3.1415926535897932384 < PI < 3.1415926535897932385.
Proof.
  pose proof (PI_2_3_7_ineq 11) as H. rewrite <- !sumQ_ok in H. change (S (2 * 11)) with 23%nat in H. change (2 * 11)%nat with 22%nat in H. destruct H as (L & U).
  assert (A : (7853981633974483096 # 10000000000000000000 < sumQ 23)%Q) by (vm_compute; reflexivity). assert (B : (sumQ 22 < 785398163397448309616 # 1000000000000000000000)%Q) by (vm_compute; reflexivity). apply Qlt_Rlt in A, B. unfold Q2R in A at 1. unfold Q2R in B at 2. cbn [Qnum Qden] in A, B. lra.
Qed.
Lemma degrees_assembled v : Rabs (deg_to_rad v - v * (PI / 180)) <= Rabs v / 10 ^ 20 /\ Rabs (rad_to_deg v - v * (180 / PI)) <= Rabs v / 10 ^ 16 /\ Rabs (rad_to_deg (deg_to_rad v) - v) <= Rabs v / 10 ^ 18 /\ Rabs (deg_to_rad (rad_to_deg v) - v) <= Rabs v / 10 ^ 18.
Proof.
  pose proof PI_close as P. unfold deg_to_rad, rad_to_deg. assert (K : forall c e, Rabs c <= e -> Rabs (c * v) <= Rabs v * e) by (intros c e H; rewrite Rabs_mult, Rmult_comm; apply Rmult_le_compat_l; [apply Rabs_pos|exact H]).
  split; [|split; [|split]].
  - replace (_ - _) with ((0.017453292519943295769 - PI / 180) * v) by ring. apply K. apply Rabs_le. cbn [pow]. lra.
  - replace (_ - _) with ((57.295779513082320877 - 180 / PI) * v) by ring. apply K. apply Rabs_le. cbn [pow]. assert (Hp : 0 < PI) by lra. assert (E : 57.295779513082320877 - 180 / PI = (57.295779513082320877 * PI - 180) / PI) by (field; lra). rewrite E. assert (I : 0 < / PI < 1) by (split; [apply Rinv_0_lt_compat, Hp|rewrite <- Rinv_1; apply Rinv_lt_contravar; lra]). unfold Rdiv. 
    assert (B : - (/ 10 ^ 16) <= 57.295779513082320877 * PI - 180 <= / 10 ^ 16) by (cbn [pow]; lra). cbn [pow] in B. split; nra.
  - replace (_ - _) with ((57.295779513082320877 * 0.017453292519943295769 - 1) * v) by ring. apply K. apply Rabs_le. cbn [pow]. lra.
  - replace (_ - _) with ((57.295779513082320877 * 0.017453292519943295769 - 1) * v) by ring. apply K. apply Rabs_le. cbn [pow]. lra.
Qed.
