(** Proofs about sums, means, variances, covariances and medians in floating point. *)
From Coq Require Import Sorting.Sorted Permutation List Arith Bool ZArith Reals Lra Lia ZifyBool SpecFloat.
From Flocq Require Import Core IEEE754.BinarySingleNaN.
From Verif Require Import Base DblSpec MomSpec DblModel VecModel MomModel DblProofs.
Import ListNotations.
Local Open Scope R_scope.

Lemma abs_tri x y : Rabs x <= Rabs y + Rabs (x - y).
Proof. replace x with (y + (x - y)) at 1 by ring. apply Rabs_triang. Qed.
Lemma real_sum_mult {A} (f : A -> R) k l : real_sum (map (fun v => k * f v) l) = k * real_sum (map f l).
Proof. unfold real_sum. induction l as [|v l IH]; cbn [map fold_right]; [ring|]. rewrite IH. ring. Qed.
Lemma real_sum_plus {A} (f g : A -> R) l : real_sum (map (fun v => f v + g v) l) = real_sum (map f l) + real_sum (map g l).
Proof. unfold real_sum. induction l as [|v l IH]; cbn [map fold_right]; [ring|]. rewrite IH. ring. Qed.
Lemma real_sum_const {A} c (l : list A) : real_sum (map (fun _ => c) l) = INR (length l) * c.
Proof. unfold real_sum. induction l as [|v l IH]; [cbn; ring|]. cbn [map fold_right]. rewrite IH. change (length (v :: l)) with (S (length l)). rewrite S_INR. ring. Qed.
Lemma real_sum_le {A} (f g : A -> R) l : (forall v, In v l -> f v <= g v) -> real_sum (map f l) <= real_sum (map g l).
Proof. unfold real_sum. induction l as [|v l IH]; intros H; cbn [map fold_right]; [lra|]. pose proof (H v (or_introl eq_refl)). specialize (IH (fun w I => H w (or_intror I))). lra. Qed.
Lemma real_sum_abs {A} (f : A -> R) l : Rabs (real_sum (map f l)) <= real_sum (map (fun v => Rabs (f v)) l).
Proof. unfold real_sum. induction l as [|v l IH]; cbn [map fold_right]; [rewrite Rabs_R0; lra|]. eapply Rle_trans; [apply Rabs_triang|]. lra. Qed.
Lemma real_sum_ext {A} (f g : A -> R) l : (forall v, In v l -> f v = g v) -> real_sum (map f l) = real_sum (map g l).
Proof. intros H. apply Rle_antisym; apply real_sum_le; intros v I; rewrite (H v I); apply Rle_refl. Qed.
Lemma real_sum_nonneg {A} (f : A -> R) l : (forall v, In v l -> 0 <= f v) -> 0 <= real_sum (map f l).
Proof. unfold real_sum. induction l as [|v l IH]; intros H; cbn [map fold_right]; [lra|]. pose proof (H v (or_introl eq_refl)). specialize (IH (fun w I => H w (or_intror I))). lra. Qed.
Lemma real_sum_in {A} (f : A -> R) l v : (forall v, In v l -> 0 <= f v) -> In v l -> f v <= real_sum (map f l).
Proof.
  intros H I. apply in_split in I. destruct I as (a & b & ->). unfold real_sum. induction a as [|w a IH]; cbn [List.app map fold_right].
  - pose proof (real_sum_nonneg f b (fun w I => H w (in_cons _ _ _ I))) as G. unfold real_sum in G. lra.
  - pose proof (H w (or_introl eq_refl)). specialize (IH (fun x J => H x (or_intror J))). lra.
Qed.
(** a sum of products is at most the product of the sums *)
Lemma real_sum_product {A} (f g : A -> R) l : (forall v, In v l -> 0 <= f v /\ 0 <= g v) -> real_sum (map (fun v => f v * g v) l) <= real_sum (map f l) * real_sum (map g l).
Proof.
  intros H. pose proof (real_sum_nonneg f l (fun v I => proj1 (H v I))) as F. eapply Rle_trans; [apply (real_sum_le _ (fun v => real_sum (map f l) * g v))|rewrite real_sum_mult; apply Rle_refl].
  intros v I. apply Rmult_le_compat_r; [apply H, I|]. apply real_sum_in; [intros w J; apply H, J|exact I].
Qed.

Section Numbers.
  Context (prec emax : Z) (Hp : Prec_gt_0 prec) (He : Prec_lt_emax prec emax) (H3 : (3 <= prec)%Z).
  Notation num := (binary_float prec emax).
  Notation fx := (fexp prec emax).
  Notation add := (DblModel.add prec emax Hp He).
  Notation sub := (DblModel.sub prec emax Hp He).
  Notation mul := (DblModel.mul prec emax Hp He).
  Notation div := (DblModel.div prec emax Hp He).
  Notation const := (DblModel.const prec emax Hp He).
  Notation rnd := (DblProofs.rnd prec emax).
  Notation u := (DblProofs.u prec).
  Notation eta := (DblProofs.eta prec emax).
  Notation limit := (DblProofs.limit emax).
  Notation accumulate := (MomModel.accumulate prec emax Hp He).
  Notation count := (MomModel.count prec emax Hp He).
  Notation total := (DblProofs.total prec emax).
  Notation weight := (DblProofs.weight prec emax).
  Lemma sum_total (vs : list num) : sum vs = total vs.
  Proof. unfold sum. induction vs as [|v r IH]; cbn [map fold_right]; [reflexivity|]. rewrite IH. reflexivity. Qed.
  Lemma sum_weight (vs : list num) : sum_abs vs = weight vs.
  Proof. unfold sum_abs. induction vs as [|v r IH]; cbn [map fold_right]; [reflexivity|]. rewrite IH. reflexivity. Qed.
  Lemma total_real {A} (f : A -> num) l : total (map f l) = real_sum (map (fun v => B2R (f v)) l).
  Proof. unfold real_sum. induction l as [|v l IH]; cbn [map DblProofs.total fold_right]; [reflexivity|]. fold (DblProofs.total prec emax (map f l)). rewrite IH. reflexivity. Qed.
  Lemma weight_real {A} (f : A -> num) l : weight (map f l) = real_sum (map (fun v => Rabs (B2R (f v))) l).
  Proof. unfold real_sum. induction l as [|v l IH]; cbn [map DblProofs.weight fold_right]; [reflexivity|]. fold (DblProofs.weight prec emax (map f l)). rewrite IH. reflexivity. Qed.
  Lemma weight_pos vs : 0 <= weight vs.
  Proof. rewrite <- (map_id vs), weight_real. apply real_sum_nonneg. intros v _. apply Rabs_pos. Qed.
  Lemma few_u {A} (vs : list A) : few prec vs -> 2 * INR (length vs) * u <= 1.
  Proof.
    intros N. rewrite INR_IZR_INZ. pose proof (u_pos prec H3) as U. assert (IZR (Z.of_nat (length vs)) <= bpow radix2 (prec - 1)); [rewrite <- IZR_Zpower by lia; apply IZR_le; exact N|].
    assert (2 * bpow radix2 (prec - 1) * u = 1); [|nra]. unfold DblProofs.u. change 2 with (bpow radix2 1). rewrite <- !bpow_plus. replace (1 + (prec - 1) + - prec)%Z with 0%Z by lia. reflexivity.
  Qed.
  Lemma few_app {A} (a b : list A) : few prec (a ++ b) -> few prec a.
  Proof. unfold few. rewrite app_length. lia. Qed.
  (** adding up *)
  Lemma accumulate_ok (l : list num) (init : num) : is_finite init = true -> all_finite l -> Rabs (B2R init) + weight l <= bpow radix2 (emax - 3) -> few prec l ->
    is_finite (accumulate l init) = true /\ Rabs (B2R (accumulate l init) - (B2R init + total l)) <= 2 * INR (length l) * u * (Rabs (B2R init) + weight l).
  Proof.
    intros F0. induction l as [|v l IH] using rev_ind; intros F W N.
    - cbn [MomModel.accumulate fold_left length INR DblProofs.total fold_right]. split; [exact F0|]. rewrite Rplus_0_r, Rminus_diag_eq, Rabs_R0 by reflexivity. lra.
    - apply Forall_app in F. destruct F as [F Fv]. inversion Fv as [|? ? Fv' _]; subst. rewrite weight_app in *. rewrite total_app. pose proof (few_u _ N) as NU. apply few_app in N. rewrite app_length in *. cbn [length] in *. rewrite Nat.add_1_r, S_INR in *. pose proof (Rabs_pos (B2R v)) as V0.
      destruct (IH F ltac:(lra) N) as [A1 A2]. unfold MomModel.accumulate in *. rewrite fold_left_app. cbn [fold_left]. set (a := fold_left _ l init) in *. set (I := Rabs (B2R init)) in *. assert (I0 : 0 <= I) by apply Rabs_pos.
      pose proof (weight_total prec emax l) as WT. pose proof (weight_pos l) as T0. destruct (quarter emax) as [Q Q0]. pose proof (u_pos prec H3) as U. pose proof (pos_INR (length l)) as NN.
      assert (K : 2 * INR (length l) * u * (I + weight l) <= I + weight l) by (replace (I + weight l) with (1 * (I + weight l)) at 2 by ring; apply Rmult_le_compat_r; lra).
      assert (SB : Rabs (B2R a + B2R v) <= 2 * (I + weight l + Rabs (B2R v))).
      { replace (B2R a + B2R v) with ((B2R a - (B2R init + total l)) + (B2R init + total l) + B2R v) by ring. eapply Rle_trans; [apply Rabs_triang|]. pose proof (Rabs_triang (B2R a - (B2R init + total l)) (B2R init + total l)). pose proof (Rabs_triang (B2R init) (total l)). fold I in H0. lra. }
      destruct (add_ok prec emax Hp He H3 a v A1 Fv') as [R FR]; [lra|]. split; [exact FR|]. rewrite R. pose proof (sum_err prec emax Hp H3 a v) as E.
      replace (rnd (B2R a + B2R v) - (B2R init + (total l + B2R v))) with ((rnd (B2R a + B2R v) - (B2R a + B2R v)) + (B2R a - (B2R init + total l))) by ring. eapply Rle_trans; [apply Rabs_triang|].
      assert (u * Rabs (B2R a + B2R v) <= u * (2 * (I + weight l + Rabs (B2R v)))) by (apply Rmult_le_compat_l; lra). assert (0 <= INR (length l) * u * Rabs (B2R v)) by (apply Rmult_le_pos; [apply Rmult_le_pos|]; lra). lra.
  Qed.
  Lemma count_ok {A} (l : list A) : few prec l -> B2R (count (length l)) = INR (length l) /\ is_finite (count (length l)) = true.
  Proof.
    intros N. unfold MomModel.count. assert (E : F2R (Float radix2 (Z.of_nat (length l)) 0) = INR (length l)) by (rewrite INR_IZR_INZ; unfold F2R; cbn; ring). rewrite <- E. apply const_ok; try assumption.
    - rewrite E, Rabs_pos_eq by apply pos_INR. rewrite INR_IZR_INZ. apply Rle_trans with (bpow radix2 (prec - 1)); [rewrite <- IZR_Zpower by lia; apply IZR_le; exact N|]. apply bpow_le. pose proof (He : (prec < emax)%Z). lia.
    - rewrite E, INR_IZR_INZ. apply (integer_format prec emax He H3). unfold few in N. lia.
  Qed.
  Lemma inverse_count {A} (l : list A) : l <> [] -> 1 <= INR (length l) /\ 0 < / INR (length l) <= 1.
  Proof.
    intros NE. assert (N1 : 1 <= INR (length l)) by (change 1 with (INR 1); apply le_INR; destruct l; [contradiction|cbn; lia]). split; [exact N1|]. split; [apply Rinv_0_lt_compat; lra|rewrite <- Rinv_1; apply Rinv_le; lra].
  Qed.
  (** a sum divided by the number of elements *)
  Lemma divided_ok {A} (l : list A) (a : num) : l <> [] -> few prec l -> is_finite a = true -> Rabs (B2R a) <= limit ->
    is_finite (div a (count (length l))) = true /\ B2R (div a (count (length l))) = rnd (B2R a / INR (length l)) /\ Rabs (B2R (div a (count (length l))) - B2R a / INR (length l)) <= u * (Rabs (B2R a) / INR (length l)) + eta.
  Proof.
    intros NE N F L. destruct (count_ok l N) as [C FC]. destruct (inverse_count l NE) as [N1 I]. assert (AD : Rabs (B2R a / INR (length l)) = Rabs (B2R a) / INR (length l)) by (unfold Rdiv; rewrite Rabs_mult, (Rabs_pos_eq (/ _)) by lra; reflexivity).
    destruct (div_ok prec emax Hp He H3 a (count (length l)) F) as [R FR]; [lra| |].
    - rewrite C, AD. pose proof (Rabs_pos (B2R a)). unfold Rdiv. replace limit with (limit * 1) by ring. apply Rmult_le_compat; lra.
    - split; [exact FR|]. rewrite R, C. split; [reflexivity|]. rewrite <- AD. apply rnd_err; assumption.
  Qed.
  Lemma average_ok (l : list num) (init : num) : l <> [] -> is_finite init = true -> all_finite l -> Rabs (B2R init) + weight l <= bpow radix2 (emax - 3) -> few prec l ->
    exists m, average prec emax Hp He l init = Ok m /\ is_finite m = true /\
      Rabs (B2R m - (B2R init + total l) / INR (length l)) <= (2 * INR (length l) + 2) * u * ((Rabs (B2R init) + weight l) / INR (length l)) + eta.
  Proof.
    intros NE F0 F W N. destruct (accumulate_ok l init F0 F W N) as [A1 A2]. pose proof (few_u l N) as NU. set (T := Rabs (B2R init) + weight l) in *. pose proof (weight_pos l) as W0. pose proof (Rabs_pos (B2R init)) as I0. assert (T0 : 0 <= T) by (unfold T; lra). pose proof (weight_total prec emax l) as WT. destruct (quarter emax) as [Q Q0]. pose proof (u_pos prec H3) as U. destruct (inverse_count l NE) as [N1 I].
    set (n := INR (length l)) in *. assert (K : 2 * n * u * T <= T) by (replace T with (1 * T) at 2 by ring; apply Rmult_le_compat_r; lra).
    assert (SB : Rabs (B2R (accumulate l init)) <= 2 * T). { eapply Rle_trans; [apply (abs_tri _ (B2R init + total l))|]. pose proof (Rabs_triang (B2R init) (total l)). unfold T in *. lra. }
    destruct (divided_ok l (accumulate l init) NE N A1) as (FR & _ & E); [lra|]. exists (div (accumulate l init) (count (length l))). split; [unfold average; destruct l; [contradiction|reflexivity]|]. split; [exact FR|].
    fold n in E. set (a := B2R (accumulate l init)) in *. set (d := B2R (div _ _)) in *. replace (d - (B2R init + total l) / n) with ((d - a / n) + (a - (B2R init + total l)) * / n) by (unfold Rdiv; ring). eapply Rle_trans; [apply Rabs_triang|].
    rewrite (Rabs_mult _ (/ n)), (Rabs_pos_eq (/ n)) by lra. assert (Rabs (a - (B2R init + total l)) * / n <= 2 * n * u * T * / n) by (apply Rmult_le_compat_r; lra). assert (Rabs a / n <= 2 * T * / n) by (unfold Rdiv; apply Rmult_le_compat_r; lra). assert (u * (Rabs a / n) <= u * (2 * T * / n)) by (apply Rmult_le_compat_l; lra). unfold Rdiv in *. lra.
  Qed.

  (** * sums of products of distances *)
  Lemma fold_map {A} (f : A -> num) l init : fold_left (fun acc v => add acc (f v)) l init = accumulate (map f l) init.
  Proof. unfold MomModel.accumulate. revert init. induction l as [|v l IH]; intros init; cbn [fold_left map]; [reflexivity|apply IH]. Qed.
  Lemma product_term (x y mx my : num) : is_finite x = true -> is_finite y = true -> is_finite mx = true -> is_finite my = true -> Rabs (B2R x - B2R mx) <= limit -> Rabs (B2R y - B2R my) <= limit ->
    Rabs (B2R x - B2R mx) * Rabs (B2R y - B2R my) <= bpow radix2 (emax - 3) ->
    is_finite (mul (sub x mx) (sub y my)) = true /\ Rabs (B2R (mul (sub x mx) (sub y my)) - (B2R x - B2R mx) * (B2R y - B2R my)) <= 4 * u * (Rabs (B2R x - B2R mx) * Rabs (B2R y - B2R my)) + eta.
  Proof.
    intros F1 F2 F3 F4 L1 L2 L. destruct (sub_ok prec emax Hp He H3 x mx F1 F3 L1) as [A FA]. destruct (sub_ok prec emax Hp He H3 y my F2 F4 L2) as [B FB].
    pose proof (diff_err prec emax Hp H3 x mx) as EA. pose proof (diff_err prec emax Hp H3 y my) as EB. rewrite <- A in EA. rewrite <- B in EB. clear A B. pose proof (u_pos prec H3) as U. destruct (quarter emax) as [Q Q0].
    set (a := B2R (sub x mx)) in *. set (b := B2R (sub y my)) in *. set (p := B2R x - B2R mx) in *. set (q := B2R y - B2R my) in *. set (P := Rabs p) in *. set (S := Rabs q) in *. assert (P0 : 0 <= P) by apply Rabs_pos. assert (S0 : 0 <= S) by apply Rabs_pos. assert (PS : 0 <= P * S) by (apply Rmult_le_pos; assumption).
    assert (EP : Rabs (a * b - p * q) <= (2 * u + u * u) * (P * S)).
    { replace (a * b - p * q) with ((a - p) * (b - q) + (a - p) * q + p * (b - q)) by ring. eapply Rle_trans; [apply Rabs_triang|]. eapply Rle_trans; [apply Rplus_le_compat_r, Rabs_triang|]. rewrite !Rabs_mult. fold P S.
      assert (Rabs (a - p) * Rabs (b - q) <= (u * P) * (u * S)) by (apply Rmult_le_compat; try apply Rabs_pos; assumption). assert (Rabs (a - p) * S <= u * P * S) by (apply Rmult_le_compat_r; assumption). assert (P * Rabs (b - q) <= P * (u * S)) by (apply Rmult_le_compat_l; assumption). lra. }
    assert (PP : Rabs (p * q) = P * S) by apply Rabs_mult. assert (UU : u * u <= u * / 8) by (apply Rmult_le_compat_l; lra).
    assert (UUP : u * u * (P * S) <= u * / 8 * (P * S)) by (apply Rmult_le_compat_r; assumption). assert (UP : u * (P * S) <= / 8 * (P * S)) by (apply Rmult_le_compat_r; lra).
    assert (AB : Rabs (a * b) <= (1 + 2 * u + u * u) * (P * S)) by (eapply Rle_trans; [apply (abs_tri _ (p * q))|]; lra).
    destruct (mul_ok prec emax Hp He H3 _ _ FA FB) as [M FM]; [fold a b; lra|]. fold a b in M. split; [exact FM|]. rewrite M. pose proof (rnd_err prec emax Hp (a * b)) as E.
    replace (rnd (a * b) - p * q) with ((rnd (a * b) - a * b) + (a * b - p * q)) by ring. eapply Rle_trans; [apply Rabs_triang|]. assert (UAB : u * Rabs (a * b) <= u * ((1 + 2 * u + u * u) * (P * S))) by (apply Rmult_le_compat_l; lra).
    assert (W0 : 0 <= u * (P * S)) by (apply Rmult_le_pos; lra). assert (u * (u * u * (P * S)) <= u * (u * / 8 * (P * S))) by (apply Rmult_le_compat_l; lra). lra.
  Qed.
  Lemma few_eta {A} (l : list A) : few prec l -> INR (length l) * eta <= bpow radix2 (1 - emax).
  Proof.
    intros N. assert (IZR (Z.of_nat (length l)) <= bpow radix2 (prec - 1)); [rewrite <- IZR_Zpower by lia; apply IZR_le; exact N|]. rewrite INR_IZR_INZ. pose proof (eta_pos prec emax). apply Rle_trans with (bpow radix2 (prec - 1) * eta); [apply Rmult_le_compat_r; lra|].
    unfold DblProofs.eta. rewrite <- bpow_plus. apply bpow_le. unfold emin. lia.
  Qed.
  Lemma deviations {A} (f g : A -> num) (mx my : num) (l : list A) : l <> [] -> few prec l -> (forall v, In v l -> is_finite (f v) = true /\ is_finite (g v) = true) -> is_finite mx = true -> is_finite my = true ->
    (forall v, In v l -> Rabs (B2R (f v) - B2R mx) <= limit /\ Rabs (B2R (g v) - B2R my) <= limit) ->
    let P := real_sum (map (fun v => Rabs (B2R (f v) - B2R mx) * Rabs (B2R (g v) - B2R my)) l) in
    let D := real_sum (map (fun v => (B2R (f v) - B2R mx) * (B2R (g v) - B2R my)) l) in
    let c := div (fold_left (fun acc v => add acc (mul (sub (f v) mx) (sub (g v) my))) l (const 0 0)) (count (length l)) in
    P <= bpow radix2 (emax - 4) -> is_finite c = true /\ Rabs (B2R c - D / INR (length l)) <= (3 * INR (length l) + 7) * u * (P / INR (length l)) + 4 * eta.
  Proof.
    intros NE N F Fx Fy L P D c HP. subst c. rewrite fold_map. destruct (const_0 prec emax Hp He H3) as [Z FZ]. pose proof (u_pos prec H3) as U. pose proof (eta_pos prec emax) as H0. destruct (quarter emax) as [Q Q0]. pose proof (few_u l N) as NU. pose proof (few_eta l N) as NE0. destruct (inverse_count l NE) as [N1 I].
    assert (B4 : bpow radix2 (emax - 3) = 2 * bpow radix2 (emax - 4)) by (change 2 with (bpow radix2 1); rewrite <- bpow_plus; f_equal; lia).
    assert (B5 : bpow radix2 (1 - emax) <= / 2 * bpow radix2 (emax - 4)). { change (/ 2) with (bpow radix2 (-1)). rewrite <- bpow_plus. apply bpow_le. pose proof (He : (prec < emax)%Z). lia. }
    pose proof (bpow_gt_0 radix2 (emax - 4)) as B0. set (n := INR (length l)) in *. set (t := fun v => mul (sub (f v) mx) (sub (g v) my)) in *. set (w := fun v => Rabs (B2R (f v) - B2R mx) * Rabs (B2R (g v) - B2R my)) in *. set (d := fun v => (B2R (f v) - B2R mx) * (B2R (g v) - B2R my)) in *.
    assert (W0 : forall v, 0 <= w v) by (intros v; apply Rmult_le_pos; apply Rabs_pos). assert (P0 : 0 <= P) by (apply real_sum_nonneg; intros v _; apply W0).
    assert (T : forall v, In v l -> is_finite (t v) = true /\ Rabs (B2R (t v) - d v) <= 4 * u * w v + eta).
    { intros v Iv. destruct (F v Iv) as [F1 F2]. destruct (L v Iv) as [L1 L2]. apply product_term; try assumption. eapply Rle_trans; [apply (real_sum_in w l v (fun v _ => W0 v) Iv)|]. fold P. lra. }
    assert (FT : all_finite (map t l)) by (apply Forall_map, Forall_forall; intros v Iv; apply T, Iv).
    assert (WT : weight (map t l) <= (1 + 4 * u) * P + n * eta).
    { rewrite weight_real. apply Rle_trans with (real_sum (map (fun v => (1 + 4 * u) * w v + eta) l)); [|rewrite real_sum_plus, real_sum_mult, real_sum_const; apply Rle_refl]. apply real_sum_le. intros v Iv. destruct (T v Iv) as [_ E]. eapply Rle_trans; [apply (abs_tri _ (d v))|]. unfold d at 1. rewrite Rabs_mult. fold (w v). lra. }
    assert (TD : Rabs (total (map t l) - D) <= 4 * u * P + n * eta).
    { rewrite total_real. unfold D. fold d. replace (real_sum (map d l)) with (- (-1 * real_sum (map d l))) by ring. rewrite <- real_sum_mult. unfold Rminus. rewrite Ropp_involutive, <- real_sum_plus. eapply Rle_trans; [apply real_sum_abs|].
      apply Rle_trans with (real_sum (map (fun v => 4 * u * w v + eta) l)); [|rewrite real_sum_plus, real_sum_mult, real_sum_const; apply Rle_refl]. apply real_sum_le. intros v Iv. destruct (T v Iv) as [_ E]. replace (B2R (t v) + -1 * d v) with (B2R (t v) - d v) by ring. exact E. }
    assert (UP : u * P <= / 8 * P) by (apply Rmult_le_compat_r; lra). set (W := weight (map t l)) in *. assert (Wp : 0 <= W) by apply weight_pos.
    destruct (accumulate_ok (map t l) (const 0 0) FZ FT) as [FA EA]; [rewrite Z, Rabs_R0; fold W; lra|unfold few; rewrite map_length; exact N|]. rewrite Z, Rabs_R0, !Rplus_0_l, map_length in EA. fold n W in EA.
    set (a := accumulate (map t l) (const 0 0)) in *. assert (K : 2 * n * u * W <= W) by (replace W with (1 * W) at 2 by ring; apply Rmult_le_compat_r; lra).
    assert (AA : Rabs (B2R a) <= 2 * W). { eapply Rle_trans; [apply (abs_tri _ (total (map t l)))|]. pose proof (weight_total prec emax (map t l)) as X. fold W in X. lra. }
    destruct (divided_ok l a NE N FA) as (FR & _ & E); [lra|]. split; [exact FR|]. fold n in E. set (r := B2R (div a (count (length l)))) in *.
    replace (r - D / n) with ((r - B2R a / n) + ((B2R a - total (map t l)) + (total (map t l) - D)) * / n) by (unfold Rdiv; ring). eapply Rle_trans; [apply Rabs_triang|]. rewrite Rabs_mult, (Rabs_pos_eq (/ n)) by lra.
    assert (S1 : Rabs (B2R a - total (map t l) + (total (map t l) - D)) * / n <= (2 * n * u * W + (4 * u * P + n * eta)) * / n) by (apply Rmult_le_compat_r; [lra|]; eapply Rle_trans; [apply Rabs_triang|]; lra).
    assert (S2 : u * (Rabs (B2R a) / n) <= u * (2 * W * / n)) by (apply Rmult_le_compat_l; [lra|]; unfold Rdiv; apply Rmult_le_compat_r; lra).
    assert (NU0 : 0 <= n * u) by (apply Rmult_le_pos; lra).
    assert (S3 : (2 * u + 2 * n * u) * (W * / n) <= (2 * u + 2 * n * u) * ((3 / 2 * P + n * eta) * / n)) by (apply Rmult_le_compat_l; [lra|]; apply Rmult_le_compat_r; lra).
    assert (S4 : (2 * u + 2 * n * u) * eta <= 5 / 4 * eta) by (apply Rmult_le_compat_r; lra). assert (NI : n * / n = 1) by (apply Rinv_r; lra).
    replace ((2 * u + 2 * n * u) * ((3 / 2 * P + n * eta) * / n)) with ((3 + 3 * n) * u * (P * / n) + (2 * u + 2 * n * u) * eta * (n * / n)) in S3 by (unfold Rdiv; field; lra). rewrite NI in S3.
    replace ((2 * n * u * W + (4 * u * P + n * eta)) * / n) with (2 * n * u * (W * / n) + 4 * u * (P * / n) + eta * (n * / n)) in S1 by ring. rewrite NI in S1. unfold Rdiv in *. lra.
  Qed.
End Numbers.
