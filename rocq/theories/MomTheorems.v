(** Sums, means, variances, covariances, medians and polynomials of floating-point numbers of any precision, double and float among them. *)
From Coq Require Import List Arith Bool ZArith Reals Lra Lia Permutation Sorting.Sorted.
From Flocq Require Import Core IEEE754.BinarySingleNaN.
From Verif Require Import Base StatSpec DblSpec MomSpec DblModel VecModel MomModel DblProofs MomProofs MomMean MomPoly MomMed DblTheorems VecTheorems.
Import ListNotations.
Local Open Scope R_scope.

Section Any.
  Context (prec emax : Z) (Hp : Prec_gt_0 prec) (He : Prec_lt_emax prec emax) (H3 : (3 <= prec)%Z).
  Notation num := (binary_float prec emax).
  Notation eps := (unit_error prec).
  Notation eta := (tiny prec emax).
  Notation zero := (const prec emax Hp He 0 0).
  Notation nearest := (round radix2 (FLT_exp (3 - emax - prec) prec) ZnearestE).

  (** * C191 *)
  (** the error of a sum grows with the number of elements *)
  Theorem C191_sum : forall (l : list num) (init : num), all_finite (init :: l) -> sum_abs (init :: l) <= bpow radix2 (emax - 3) -> few prec l ->
    let s := accumulate prec emax Hp He l init in is_finite s = true /\ Rabs (B2R s - sum (init :: l)) <= 2 * INR (length l) * eps * sum_abs (init :: l).
  Proof.
    intros l init F W N. inversion F as [|? ? F0 Fl]; subst. cbv zeta. unfold sum, sum_abs in *. cbn [map fold_right] in *. fold (sum l) in *. fold (sum_abs l) in *. rewrite sum_weight, sum_total in *. apply (accumulate_ok prec emax Hp He H3 l init F0 Fl W N).
  Qed.
  Theorem C191_average : forall l : list num, l <> [] -> all_finite l -> sum_abs l <= bpow radix2 (emax - 3) -> few prec l ->
    exists m, average prec emax Hp He l zero = Ok m /\ is_finite m = true /\ Rabs (B2R m - mean l) <= mean_error l.
  Proof.
    intros l NE F W N. destruct (const_0 prec emax Hp He H3) as [Z FZ]. rewrite sum_weight in W. destruct (average_ok prec emax Hp He H3 l zero NE FZ F) as (m & A & B & C); [rewrite Z, Rabs_R0, Rplus_0_l; exact W|exact N|].
    exists m. split; [exact A|]. split; [exact B|]. unfold mean, mean_error. rewrite sum_weight, sum_total. rewrite Z, Rabs_R0, !Rplus_0_l in C. exact C.
  Qed.
  (** whole numbers are added without error, and their mean is rounded once *)
  Theorem C191_integers : forall (l : list num), all_finite l -> integers l -> sum_abs l <= bpow radix2 (prec - 1) -> few prec l ->
    B2R (accumulate prec emax Hp He l zero) = sum l /\ is_finite (accumulate prec emax Hp He l zero) = true /\ (l <> [] -> exists m, average prec emax Hp He l zero = Ok m /\ B2R m = nearest (mean l) /\ is_finite m = true).
  Proof.
    intros l F I W N. destruct (const_0 prec emax Hp He H3) as [Z FZ]. rewrite sum_weight in W. destruct (accumulate_exact prec emax Hp He H3 l zero FZ F) as [A B]; [constructor; [exists 0%Z; rewrite Z; reflexivity|exact I]|rewrite Z, Rabs_R0, Rplus_0_l; exact W|]. rewrite Z, Rplus_0_l, <- sum_total in B. split; [exact B|]. split; [exact A|]. intros NE.
    assert (L : Rabs (B2R (accumulate prec emax Hp He l zero)) <= limit emax). { rewrite B, sum_total. eapply Rle_trans; [apply weight_total|]. eapply Rle_trans; [exact W|]. apply bpow_le. pose proof (He : (prec < emax)%Z). lia. }
    destruct (divided_ok prec emax Hp He H3 l _ NE N A L) as (D1 & D2 & _). eexists. split; [unfold average; destruct l; [contradiction|reflexivity]|]. split; [|exact D1]. rewrite D2, B. reflexivity.
  Qed.
  Theorem C191_none : forall init, average prec emax Hp He [] init = Throw /\ mean_var prec emax Hp He [] = Throw /\ mean_std prec emax Hp He [] = Throw /\ forall ne ps, median prec emax Hp He ne [] = Throw /\ median_slow prec emax Hp He ps [] = Throw.
  Proof. intros init. repeat split. Qed.

  (** * C192 *)
  Lemma mean_var_products (l : list num) m : average prec emax Hp He l zero = Ok m -> mean_var prec emax Hp He l = Ok (m, products prec emax Hp He (fun v => v) (fun v => v) m m l) /\ mean_std prec emax Hp He l = Ok (m, VecModel.sqrt prec emax Hp He (products prec emax Hp He (fun v => v) (fun v => v) m m l)).
  Proof. intros E. unfold mean_var, mean_std. rewrite E. destruct l; [discriminate E|]. split; reflexivity. Qed.
  Theorem C192_variance : forall l : list num, l <> [] -> squarable l -> few prec l ->
    exists m v, mean_var prec emax Hp He l = Ok (m, v) /\ average prec emax Hp He l zero = Ok m /\ Rabs (B2R m - mean l) <= mean_error l /\ is_finite v = true /\ 0 <= B2R v /\
      Rabs (B2R v - variance l) <= (3 * INR (length l) + 7) * eps * variance l + 4 * (mean_error l * mean_error l) + 4 * eta.
  Proof.
    intros l NE Q N. destruct (mean_ok prec emax Hp He H3 (fun v => v) l NE N) as (m & A1 & A2 & A3 & _); [rewrite map_id; exact Q|]. rewrite map_id in A1, A3. destruct (variance_ok prec emax Hp He H3 (fun v => v) l m NE N) as (V1 & V2 & V3); [rewrite map_id; exact Q|rewrite map_id; exact A1|]. rewrite map_id in V3.
    exists m, (products prec emax Hp He (fun v => v) (fun v => v) m m l). split; [apply mean_var_products, A1|]. split; [exact A1|]. split; [exact A3|]. split; [exact V1|]. split; [exact V2|]. exact V3.
  Qed.
  (** of whatever numbers: a variance is never negative, and a deviation is not a number only if the variance is not *)
  Theorem C192_not_negative : forall (l : list num) m v, mean_var prec emax Hp He l = Ok (m, v) -> lt prec emax v zero = false /\ exists s, mean_std prec emax Hp He l = Ok (m, s) /\ is_nan s = is_nan v /\ lt prec emax s zero = false.
  Proof.
    intros l m v E. destruct (average prec emax Hp He l zero) as [m'| |] eqn:A; [|unfold mean_var in E; rewrite A in E; destruct l; discriminate|unfold mean_var in E; rewrite A in E; destruct l; discriminate]. destruct (mean_var_products l m' A) as [B1 B2]. rewrite B1 in E. injection E as -> <-.
    pose proof (products_sign prec emax Hp He (fun v => v) m l) as P. set (v := products _ _ _ _ _ _ _ _ _) in *. split; [apply sign_lt, P|]. eexists. split; [exact B2|]. unfold VecModel.sqrt. destruct (Bsqrt_correct prec emax Hp He mode_NE v) as (_ & S2 & S3). destruct v as [sv|sv| |sv mm e Hb]; cbn in P; try subst sv; try (split; reflexivity).
    set (r := Bsqrt _ _) in *. destruct r as [sr|sr| |sr mr er Hr]; try discriminate S2; (split; [reflexivity|]; apply sign_lt; apply S3; reflexivity).
  Qed.
  (** the deviation is the root of the variance, rounded *)
  Theorem C192_deviation : forall l : list num, l <> [] -> squarable l -> few prec l ->
    exists m v s, mean_var prec emax Hp He l = Ok (m, v) /\ mean_std prec emax Hp He l = Ok (m, s) /\ is_finite s = true /\ B2R s = nearest (R_sqrt.sqrt (B2R v)).
  Proof.
    intros l NE Q N. destruct (C192_variance l NE Q N) as (m & v & E & A & _ & F & P & _). destruct (mean_var_products l m A) as [B1 B2]. rewrite B1 in E. injection E as <-. eexists m, _, _. split; [exact B1|]. split; [exact B2|].
    set (v := products _ _ _ _ _ _ _ _ _) in *. destruct (Bsqrt_correct prec emax Hp He mode_NE v) as (S1 & S2 & _). split; [|exact S1]. unfold VecModel.sqrt. rewrite S2. destruct v as [|[]| |[] mm e Hb]; try discriminate F; try reflexivity. exfalso. apply (Rle_not_lt _ _ P). apply F2R_lt_0. reflexivity.
  Qed.

  (** * C193 *)
  Definition channel (frames : list (list num)) (c : nat) : list num := map (fun fr => nth c fr zero) frames.
  Lemma means_nth channels (frames : list (list num)) c : (c < channels)%nat -> frames <> [] -> Ok (nth c (compute_channel_means prec emax Hp He channels frames) zero) = average prec emax Hp He (channel frames c) zero.
  Proof.
    intros C NE. unfold compute_channel_means. set (step := fun means fr => _). assert (G : forall fs means, length means = channels -> length (fold_left step fs means) = channels /\ nth c (fold_left step fs means) zero = accumulate prec emax Hp He (channel fs c) (nth c means zero)).
    { unfold accumulate. induction fs as [|fr fs IH]; intros means L; [split; [exact L|reflexivity]|]. cbn [fold_left channel map]. destruct (IH (step means fr)) as [I1 I2]; [unfold step; rewrite map_length, seq_length; reflexivity|]. split; [exact I1|]. rewrite I2. unfold channel. f_equal. unfold step. rewrite (nth_indep _ zero (add prec emax Hp He (nth 0 means zero) (nth 0 fr zero))) by (rewrite map_length, seq_length; exact C). rewrite (map_nth (fun col => add prec emax Hp He (nth col means zero) (nth col fr zero)) (seq 0 channels) 0%nat c). rewrite seq_nth by exact C. reflexivity. }
    destruct (G frames (repeat zero channels) (repeat_length _ _)) as [G1 G2]. rewrite (nth_indep _ zero (div prec emax Hp He zero (count prec emax Hp He (length frames)))) by (rewrite map_length, G1; exact C). rewrite (map_nth (fun m => div prec emax Hp He m (count prec emax Hp He (length frames)))). rewrite G2.
    assert (R : nth c (repeat zero channels) zero = zero) by (clear; revert c; induction channels as [|k IH]; intros [|c]; cbn [repeat nth]; auto). rewrite R. unfold average, channel. destruct frames as [|fr frames]; [contradiction|]. rewrite map_length. reflexivity.
  Qed.
  Theorem C193_means : forall channels (frames : list (list num)) c, (c < channels)%nat -> frames <> [] -> average prec emax Hp He (channel frames c) zero = Ok (nth c (compute_channel_means prec emax Hp He channels frames) zero).
  Proof. intros channels frames c C NE. symmetry. apply means_nth; assumption. Qed.
  Lemma mul_comm (a b : num) : mul prec emax Hp He a b = mul prec emax Hp He b a.
  Proof.
    unfold mul. apply B2SF_inj. destruct a as [sa|sa| |sa ma ea Ha], b as [sb|sb| |sb mb eb Hb]; cbn [Bmult B2SF]; try reflexivity; try (f_equal; apply xorb_comm). unfold Bmult. rewrite !B2SF_SF2B. rewrite xorb_comm, Pos.mul_comm, Z.add_comm. reflexivity.
  Qed.
  Lemma fold_same {A B} (f g : A -> B -> A) (l : list B) : (forall z b, f z b = g z b) -> forall z, fold_left f l z = fold_left g l z.
  Proof. intros E. induction l as [|b l IH]; intros z; cbn [fold_left]; [reflexivity|]. rewrite E. apply IH. Qed.
  (** exactly symmetric, for whatever numbers *)
  Theorem C193_symmetric : forall channels (frames : list (list num)) r c, compute_covariance prec emax Hp He channels frames r c = compute_covariance prec emax Hp He channels frames c r.
  Proof.
    intros channels frames r c. unfold compute_covariance. f_equal. apply fold_same. intros z fr. f_equal. apply mul_comm.
  Qed.
  Lemma covariance_products channels (frames : list (list num)) r c : compute_covariance prec emax Hp He channels frames r c = products prec emax Hp He (fun fr => nth r fr zero) (fun fr => nth c fr zero) (nth r (compute_channel_means prec emax Hp He channels frames) zero) (nth c (compute_channel_means prec emax Hp He channels frames) zero) frames.
  Proof. reflexivity. Qed.
  Lemma fold_over_map {A B C} (f : A -> B -> A) (g : C -> B) l : forall z, fold_left f (map g l) z = fold_left (fun a c => f a (g c)) l z.
  Proof. induction l as [|c l IH]; intros z; cbn [fold_left map]; [reflexivity|apply IH]. Qed.
  Theorem C193_diagonal : forall channels (frames : list (list num)) c, (c < channels)%nat -> frames <> [] ->
    mean_var prec emax Hp He (channel frames c) = Ok (nth c (compute_channel_means prec emax Hp He channels frames) zero, compute_covariance prec emax Hp He channels frames c c).
  Proof.
    intros channels frames c C NE. destruct (mean_var_products _ _ (C193_means channels frames c C NE)) as [A _]. rewrite A. do 2 f_equal. rewrite covariance_products. unfold products, channel. rewrite map_length. f_equal. apply (fold_over_map (fun a v => add prec emax Hp He a (mul prec emax Hp He (sub prec emax Hp He v _) (sub prec emax Hp He v _))) (fun fr => nth c fr zero)).
  Qed.
  Theorem C193_error : forall channels (frames : list (list num)) r c, (r < channels)%nat -> (c < channels)%nat -> frames <> [] -> few prec frames -> squarable (channel frames r) -> squarable (channel frames c) ->
    let v := compute_covariance prec emax Hp He channels frames r c in let xs := channel frames r in let ys := channel frames c in
    is_finite v = true /\ Rabs (B2R v - covariance xs ys) <= (3 * INR (length frames) + 7) * eps * joint_spread xs ys (mean_error xs) (mean_error ys) + mean_error xs * mean_error ys + 4 * eta.
  Proof.
    intros channels frames r c R C NE N Q1 Q2. cbv zeta. rewrite covariance_products. apply (covariance_ok prec emax Hp He H3 (fun fr => nth r fr zero) (fun fr => nth c fr zero) frames _ _ NE N Q1 Q2); [apply (C193_means channels frames r R NE)|apply (C193_means channels frames c C NE)].
  Qed.

  (** * C194 *)
  Theorem C194_extremes : forall l : list num, l <> [] -> all_finite l ->
    (exists v, nth_error l (min_element prec emax l) = Some v /\ min_value prec emax l = Ok v /\ (forall k w, nth_error l k = Some w -> B2R v <= B2R w) /\ (forall k w, (k < min_element prec emax l)%nat -> nth_error l k = Some w -> B2R v < B2R w)) /\
    (exists v, nth_error l (max_element prec emax l) = Some v /\ max_value prec emax l = Ok v /\ (forall k w, nth_error l k = Some w -> B2R w <= B2R v) /\ (forall k w, (k < max_element prec emax l)%nat -> nth_error l k = Some w -> B2R w < B2R v)).
  Proof. exact (extremes_ok prec emax). Qed.
  (** an odd number of elements: the middle one itself; an even number: the mean of the middle ones, rounded; in between the others in any case. Both ways to compute it give the same number. *)
  Theorem C194_median : forall nth_element partial_sort_copy (l : list num), nth_element_works nth_element -> partial_sort_works partial_sort_copy -> l <> [] -> Forall ordinary l ->
    exists m k q, median prec emax Hp He nth_element l = Ok m /\ median_slow prec emax Hp He partial_sort_copy l = Ok k /\ B2R m = B2R k /\ is_median (values l) q /\
      is_finite m = true /\ (Nat.odd (length l) = true -> In m l /\ B2R m = q) /\ Rabs (B2R m - q) <= 3 * eps * Rabs q + eta /\ (forall lo hi, (forall w, In w l -> lo <= B2R w <= hi) -> lo <= B2R m <= hi).
  Proof.
    intros ne ps l N P NE O. assert (F : all_finite l) by (eapply Forall_impl; [|exact O]; intros a [A _]; exact A). destruct (median_middle prec emax Hp He ne l N NE F) as (m & M1 & M2). destruct (slow_middle prec emax Hp He ps l P NE F) as (k & K1 & K2).
    destruct (from_middle_ok prec emax Hp He H3 l m O M2) as (q & Q). exists m, k, q. split; [exact M1|]. split; [exact K1|]. split; [apply (from_middle_same prec emax Hp He H3 l m k O M2 K2)|]. exact Q.
  Qed.

  (** * C195 *)
  Theorem C195_error : forall (c0 : num) (cs : list num) (x : num), all_finite (c0 :: cs) -> is_finite x = true -> few prec (c0 :: cs) -> Rabs (B2R x) ^ length cs <= bpow radix2 (emax - 3) ->
    let size := poly (map Rabs (values (c0 :: cs))) (Rabs (B2R x)) in let K := sum_abs cs in let d := INR (length cs) in
    size <= bpow radix2 (emax - 5) -> K <= bpow radix2 (emax - 5) ->
    let r := polynomial_eval prec emax Hp He c0 cs x in is_finite r = true /\ Rabs (B2R r - poly (values (c0 :: cs)) (B2R x)) <= (6 * d + 2) * eps * size + (4 * d + 2) * (K + 1) * eta.
  Proof.
    intros c0 cs x F Fx N L. cbv zeta. assert (KE : sum_abs cs = real_sum (abs_values prec emax cs)) by (unfold sum_abs, real_sum, abs_values, values; rewrite map_map; reflexivity). rewrite KE. inversion F as [|? ? F0 FC]; subst. intros S K. apply (poly_ok prec emax Hp He H3 c0 cs x F0 FC Fx N L S K).
  Qed.
  Theorem C195_zero : forall (c0 : num) (cs : list num) (x : num), all_finite (c0 :: cs) -> is_finite x = true -> B2R x = 0 -> let r := polynomial_eval prec emax Hp He c0 cs x in is_finite r = true /\ B2R r = B2R c0.
  Proof. intros c0 cs x F Fx Z. inversion F as [|? ? F0 FC]; subst. apply (poly_zero prec emax Hp He H3 c0 cs x F0 FC Fx Z). Qed.
  Theorem C195_integers : forall (c0 : num) (cs : list num) (x : num), all_finite (x :: c0 :: cs) -> integers (x :: c0 :: cs) -> Rabs (B2R x) ^ length cs <= bpow radix2 (prec - 1) ->
    poly (map Rabs (values (c0 :: cs))) (Rabs (B2R x)) <= bpow radix2 (prec - 1) -> let r := polynomial_eval prec emax Hp He c0 cs x in is_finite r = true /\ B2R r = poly (values (c0 :: cs)) (B2R x).
  Proof. intros c0 cs x F I L S. inversion F as [|? ? Fx F']; subst. inversion F' as [|? ? F0 FC]; subst. apply (poly_integers prec emax Hp He H3 c0 cs x F0 FC Fx I L S). Qed.
  (** where a line has a given height *)
  Theorem C195_intersect : forall offset slope y : num, ordinary offset -> ordinary y -> is_finite slope = true -> 0 < Rabs (B2R slope) -> let x := (B2R y - B2R offset) / B2R slope in Rabs x <= bpow radix2 (emax - 3) ->
    let r := intersect_y prec emax Hp He offset slope y in is_finite r = true /\ Rabs (B2R r - x) <= 3 * eps * Rabs x + eta.
  Proof.
    intros o s y O Y Fs S. cbv zeta. set (x := (B2R y - B2R o) / B2R s). intros X. assert (NS : B2R s <> 0) by (intros Z; rewrite Z, Rabs_R0 in S; lra). destruct (small_sub prec emax Hp He H3 y o Y O) as [D FD]. pose proof (diff_err prec emax Hp H3 y o) as E. rewrite <- D in E. set (d := B2R (sub prec emax Hp He y o)) in *. pose proof (u_pos prec H3) as U. destruct (quarter emax) as [Q Q0]. pose proof (Rabs_pos x) as x0.
    assert (EX : Rabs (d / B2R s - x) <= unit_error prec * Rabs x).
    { replace (d / B2R s - x) with ((d - (B2R y - B2R o)) * / B2R s) by (unfold x; field; exact NS). unfold x, Rdiv. rewrite !Rabs_mult. rewrite <- Rmult_assoc. apply Rmult_le_compat_r; [apply Rabs_pos|]. exact E. }
    change (unit_error prec) with (u prec) in *. assert (UX : u prec * Rabs x <= / 8 * Rabs x) by (apply Rmult_le_compat_r; lra). assert (DX : Rabs (d / B2R s) <= 2 * Rabs x) by (eapply Rle_trans; [apply (abs_tri _ x)|]; lra).
    destruct (div_ok prec emax Hp He H3 (sub prec emax Hp He y o) s FD NS) as [A FA]; [fold d; lra|]. split; [exact FA|]. unfold intersect_y. rewrite A. fold d. pose proof (rnd_err prec emax Hp (d / B2R s)) as R. replace (rnd prec emax (d / B2R s) - x) with ((rnd prec emax (d / B2R s) - d / B2R s) + (d / B2R s - x)) by ring. eapply Rle_trans; [apply Rabs_triang|].
    assert (u prec * Rabs (d / B2R s) <= u prec * (2 * Rabs x)) by (apply Rmult_le_compat_l; lra). change (tiny prec emax) with (DblProofs.eta prec emax). lra.
  Qed.
End Any.

(** * Cases *)
Notation d := dbl.
Definition few_numbers : list (binary_float 53 1024) := [d 3 0; d 1 0; d (-4) 0; d 10 0].
Lemma few_numbers_values : B2R (d 3 0) = 3 /\ B2R (d 1 0) = 1 /\ B2R (d (-4) 0) = -4 /\ B2R (d 10 0) = 10.
Proof. value 3%Z 0%Z. value 1%Z 0%Z. value (-4)%Z 0%Z. value 10%Z 0%Z. rewrite V, V0, V1, V2. repeat split; lra. Qed.
Lemma few_numbers_sum : sum_abs few_numbers = 18 /\ sum few_numbers = 10.
Proof. destruct few_numbers_values as (A & B & C & D). unfold few_numbers, sum_abs, sum. cbn [map fold_right]. rewrite A, B, C, D. rewrite (Rabs_pos_eq 3), (Rabs_pos_eq 1), (Rabs_pos_eq 10), (Rabs_left (-4)) by lra. split; lra. Qed.
Lemma few_numbers_finite : all_finite few_numbers.
Proof. repeat (constructor; [vm_compute; reflexivity|]). constructor. Qed.
Lemma few_numbers_integers : integers few_numbers.
Proof. destruct few_numbers_values as (A & B & C & D). unfold integers, few_numbers. constructor; [exists 3%Z; exact A|]. constructor; [exists 1%Z; exact B|]. constructor; [exists (-4)%Z; exact C|]. constructor; [exists 10%Z; exact D|constructor]. Qed.
Lemma large_enough k : (5 <= k)%Z -> 18 <= bpow radix2 k.
Proof. intros K. eapply Rle_trans; [|apply (bpow_le radix2 5 k K)]. change (bpow radix2 5) with 32. lra. Qed.
Example C191_case : few_numbers <> [] /\ all_finite few_numbers /\ integers few_numbers /\ few 53 few_numbers /\ sum_abs few_numbers <= bpow radix2 (53 - 1) /\ sum_abs few_numbers <= bpow radix2 (1024 - 3) /\
  match average 53 1024 p53 e1024 few_numbers (d 0 0) with Ok m => same m (d 5 (-1)) | _ => False end.
Proof.
  split; [discriminate|]. split; [exact few_numbers_finite|]. split; [exact few_numbers_integers|]. split; [unfold few; cbn; lia|]. rewrite (proj1 few_numbers_sum). split; [apply large_enough; lia|]. split; [apply large_enough; lia|]. vm_compute. reflexivity.
Qed.
(** the mean of three numbers 0.1 is more than 0.1, more than the largest of them *)
Theorem C191_between_refuted : match average 53 1024 p53 e1024 [d0_1; d0_1; d0_1] (d 0 0) with Ok m => B2R d0_1 < B2R m | _ => False end.
Proof.
  assert (E : match average 53 1024 p53 e1024 [d0_1; d0_1; d0_1] (d 0 0) with Ok m => is_finite m && lt 53 1024 d0_1 m | _ => false end = true) by (vm_compute; reflexivity).
  destruct (average _ _ _ _ _ _) as [m| |]; try discriminate E. apply andb_prop in E. apply less_by_computing; [vm_compute; reflexivity|apply E|apply E].
Qed.
(** the mean of two large numbers is infinite although no mean can be larger than the largest of the numbers *)
Theorem C191_large_refuted : match average 53 1024 p53 e1024 [large; large] (d 0 0) with Ok m => same m (B754_infinity false) | _ => False end /\ is_finite large = true.
Proof. vm_compute. split; reflexivity. Qed.
(** a small number next to a large one gets lost *)
Theorem C191_lost_refuted : same (accumulate 53 1024 p53 e1024 [d 1 60; d 1 0; d (-1) 60] (d 0 0)) (d 0 0).
Proof. vm_compute. reflexivity. Qed.

Example C192_case : few_numbers <> [] /\ squarable few_numbers /\ few 53 few_numbers /\ match mean_var 53 1024 p53 e1024 few_numbers with Ok (m, v) => same m (d 5 (-1)) /\ same v (d 101 (-2)) | _ => False end.
Proof.
  split; [discriminate|]. split; [split; [exact few_numbers_finite|rewrite (proj1 few_numbers_sum); apply large_enough; vm_compute; discriminate]|]. split; [unfold few; cbn; lia|]. vm_compute. split; reflexivity.
Qed.
(** three equal numbers have a variance *)
Theorem C192_constant_refuted : match mean_var 53 1024 p53 e1024 [d0_1; d0_1; d0_1] with Ok (m, v) => B2R (d 0 0) < B2R v | _ => False end.
Proof.
  assert (E : match mean_var 53 1024 p53 e1024 [d0_1; d0_1; d0_1] with Ok (_, v) => is_finite v && lt 53 1024 (d 0 0) v | _ => false end = true) by (vm_compute; reflexivity).
  destruct (mean_var _ _ _ _ _) as [[m v]| |]; try discriminate E. apply andb_prop in E. apply less_by_computing; [vm_compute; reflexivity|apply E|apply E].
Qed.
(** squares are infinite although the variance is not the problem: of one large number it is 0, of two apart by 2^600 it is infinite *)
Theorem C192_large_refuted : match mean_var 53 1024 p53 e1024 [d 1 600; d 0 0] with Ok (m, v) => same m (d 1 599) /\ same v (B754_infinity false) | _ => False end.
Proof. vm_compute. split; reflexivity. Qed.

Definition few_frames : list (list (binary_float 53 1024)) := [[d 3 0; d 1 0]; [d 1 0; d 3 0]; [d (-4) 0; d 10 0]; [d 10 0; d (-4) 0]].
Example C193_case : few_frames <> [] /\ few 53 few_frames /\ squarable (channel 53 1024 p53 e1024 few_frames 0) /\ squarable (channel 53 1024 p53 e1024 few_frames 1) /\ same (compute_covariance 53 1024 p53 e1024 2 few_frames 0 1) (d (-99) (-2)).
Proof.
  split; [discriminate|]. split; [unfold few; cbn; lia|]. split; [split; [exact few_numbers_finite|change (channel 53 1024 p53 e1024 few_frames 0) with few_numbers; rewrite (proj1 few_numbers_sum); apply large_enough; vm_compute; discriminate]|]. split.
  - split; [repeat (constructor; [vm_compute; reflexivity|]); constructor|]. destruct few_numbers_values as (A & B & C & D). unfold channel, few_frames, sum_abs, sum. cbn [map nth fold_right]. rewrite A, B, C, D. rewrite (Rabs_pos_eq 3), (Rabs_pos_eq 1), (Rabs_pos_eq 10), (Rabs_left (-4)) by lra. eapply Rle_trans; [|apply large_enough; vm_compute; discriminate]. lra.
  - vm_compute. reflexivity.
Qed.

(** sorting does what is asked of std::nth_element and of std::partial_sort_copy *)
Section Sorting.
  Context (prec emax : Z).
  Notation num := (binary_float prec emax).
  Fixpoint put (a : num) (l : list num) : list num := match l with [] => [a] | b :: r => if Bltb b a then b :: put a r else a :: l end.
  Fixpoint put_all (l : list num) : list num := match l with [] => [] | a :: r => put a (put_all r) end.
  Lemma put_perm a l : Permutation (put a l) (a :: l).
  Proof. induction l as [|b r IH]; cbn [put]; [reflexivity|]. destruct (Bltb b a); [|reflexivity]. rewrite IH. apply perm_swap. Qed.
  Lemma put_all_perm l : Permutation (put_all l) l.
  Proof. induction l as [|a r IH]; cbn [put_all]; [reflexivity|]. rewrite put_perm, IH. reflexivity. Qed.
  Lemma put_sorted a l : is_finite a = true -> all_finite l -> StronglySorted (fun a b : num => B2R a <= B2R b) l -> StronglySorted (fun a b : num => B2R a <= B2R b) (put a l).
  Proof.
    intros F. induction l as [|b r IH]; intros L S; cbn [put]; [repeat constructor|]. inversion L as [|? ? Fb Fr]; subst. inversion S as [|? ? Sr Sb]; subst. pose proof (lt_finite prec emax b a Fb F) as E. unfold lt in E. rewrite E. destruct (Rlt_bool_spec (B2R b) (B2R a)) as [H|H].
    - constructor; [apply IH; assumption|]. apply Forall_forall. intros w W. apply (Permutation_in _ (put_perm a r)) in W. destruct W as [<-|W]; [lra|]. rewrite Forall_forall in Sb. apply Sb, W.
    - constructor; [exact S|]. constructor; [exact H|]. rewrite Forall_forall in *. intros w W. specialize (Sb w W). cbv beta in Sb. lra.
  Qed.
  Lemma put_all_sorted l : all_finite l -> StronglySorted (fun a b : num => B2R a <= B2R b) (put_all l).
  Proof.
    induction l as [|a r IH]; intros L; cbn [put_all]; [constructor|]. inversion L; subst. apply put_sorted; [assumption| |apply IH; assumption]. unfold all_finite. rewrite Forall_forall in *. intros w W. apply (Permutation_in _ (put_all_perm r)) in W. auto.
  Qed.
  Lemma sorted_split (l : list num) n v : StronglySorted (fun a b : num => B2R a <= B2R b) l -> nth_error l n = Some v -> (forall w, In w (firstn n l) -> B2R w <= B2R v) /\ (forall w, In w (skipn (S n) l) -> B2R v <= B2R w).
  Proof.
    revert n. induction l as [|a r IH]; intros n S E; [destruct n; discriminate|]. inversion S as [|? ? Sr Sa]; subst. rewrite Forall_forall in Sa. destruct n as [|n]; cbn [nth_error firstn skipn] in *.
    - injection E as <-. split; [intros w []|exact Sa].
    - destruct (IH n Sr E) as [I1 I2]. split; [|exact I2]. intros w [<-|W]; [|apply I1, W]. apply Sa. apply nth_error_In in E. exact E.
  Qed.
  Lemma sorting_nth_element : nth_element_works (fun (l : list num) _ => put_all l).
  Proof.
    intros l n F H. split; [apply put_all_perm|]. destruct (nth_error (put_all l) n) as [v|] eqn:E; [|apply nth_error_None in E; rewrite (Permutation_length (put_all_perm l)) in E; lia]. exists v. split; [reflexivity|]. apply sorted_split; [apply put_all_sorted, F|exact E].
  Qed.
  Lemma sorting_partial_sort : partial_sort_works (fun (l out : list num) => firstn (length out) (put_all l) ++ skipn (length l) out).
  Proof. intros l out F. exists (put_all l). split; [apply put_all_perm|]. split; [apply put_all_sorted, F|reflexivity]. Qed.
End Sorting.
Example C194_case : nth_element_works (fun (l : list (binary_float 53 1024)) _ => put_all 53 1024 l) /\ partial_sort_works (fun (l out : list (binary_float 53 1024)) => firstn (length out) (put_all 53 1024 l) ++ skipn (length l) out) /\ few_numbers <> [] /\ Forall ordinary few_numbers /\
  match median 53 1024 p53 e1024 (fun l _ => put_all 53 1024 l) few_numbers with Ok m => same m (d 2 0) | _ => False end /\ min_element 53 1024 few_numbers = 2%nat /\ max_element 53 1024 few_numbers = 3%nat.
Proof. split; [apply sorting_nth_element|]. split; [apply sorting_partial_sort|]. split; [discriminate|]. split; [repeat (constructor; [ordinary|]); constructor|]. vm_compute. repeat split; reflexivity. Qed.
(** the median of two large numbers is infinite *)
Theorem C194_large_refuted : match median 53 1024 p53 e1024 (fun l _ => put_all 53 1024 l) [large; large] with Ok m => same m (B754_infinity false) | _ => False end.
Proof. vm_compute. reflexivity. Qed.
(** with NaN first, NaN is both the smallest and the largest; with NaN anywhere else it is neither *)
Theorem C194_nan_refuted : let nan : binary_float 53 1024 := B754_nan in max_element 53 1024 [nan; d 1 0] = 0%nat /\ min_element 53 1024 [nan; d 1 0] = 0%nat /\ max_element 53 1024 [d 1 0; nan; d 2 0] = 2%nat /\ min_element 53 1024 [d 2 0; nan; d 1 0] = 2%nat.
Proof. vm_compute. repeat split; reflexivity. Qed.

(** 3 + x - 4 x^2 + 10 x^3 at -4 *)
Example C195_case : all_finite (d (-4) 0 :: few_numbers) /\ integers (d (-4) 0 :: few_numbers) /\ few 53 few_numbers /\ Rabs (B2R (d (-4) 0)) ^ 3 <= bpow radix2 (53 - 1) /\ poly (map Rabs (values few_numbers)) (Rabs (B2R (d (-4) 0))) <= bpow radix2 (53 - 1) /\
  sum_abs [d 1 0; d (-4) 0; d 10 0] <= bpow radix2 (1024 - 5) /\ same (polynomial_eval 53 1024 p53 e1024 (d 3 0) [d 1 0; d (-4) 0; d 10 0] (d (-4) 0)) (d (-705) 0).
Proof.
  destruct few_numbers_values as (A & B & C & D). split; [constructor; [vm_compute; reflexivity|exact few_numbers_finite]|]. split; [constructor; [exists (-4)%Z; exact C|exact few_numbers_integers]|]. split; [unfold few; cbn; lia|].
  assert (T : 1024 <= bpow radix2 (53 - 1)) by (eapply Rle_trans; [|apply (bpow_le radix2 10); lia]; change (bpow radix2 10) with 1024; lra). unfold few_numbers, sum_abs, sum, values. cbn [map fold_right poly]. rewrite A, B, C, D. rewrite (Rabs_pos_eq 3), (Rabs_pos_eq 1), (Rabs_pos_eq 10), (Rabs_left (-4)) by lra. split; [lra|]. split; [lra|]. split; [eapply Rle_trans; [|apply large_enough; lia]; lra|]. vm_compute. reflexivity.
Qed.
Example C195_intersect_case : ordinary (d 1 0) /\ ordinary (d 10 0) /\ is_finite (d 3 0) = true /\ 0 < Rabs (B2R (d 3 0)) /\ Rabs ((B2R (d 10 0) - B2R (d 1 0)) / B2R (d 3 0)) <= bpow radix2 (1024 - 3) /\ same (intersect_y 53 1024 p53 e1024 (d 1 0) (d 3 0) (d 10 0)) (d 3 0).
Proof.
  destruct few_numbers_values as (A & B & C & D). split; [ordinary|]. split; [ordinary|]. split; [vm_compute; reflexivity|]. rewrite A, B, D. replace ((10 - 1) / 3) with 3 by lra. rewrite (Rabs_pos_eq 3) by lra. split; [lra|]. split; [eapply Rle_trans; [|apply large_enough; lia]; lra|]. vm_compute. reflexivity.
Qed.
(** powers overflow before they are multiplied by a coefficient: the constant 1, written with more coefficients that are 0, is not a number at 2^600 *)
Theorem C195_large_refuted : same (polynomial_eval 53 1024 p53 e1024 (d 1 0) [d 0 0; d 0 0] (d 1 600)) B754_nan.
Proof. vm_compute. reflexivity. Qed.
(** 1 - 3 x + 3 x^2 - x^3 = (1 - x)^3 is negative just below 1 *)
Theorem C195_cancel_refuted : let x := d 9007199254740991 (-53) in same (polynomial_eval 53 1024 p53 e1024 (d 1 0) [d (-3) 0; d 3 0; d (-1) 0] x) (d (-1) (-53)) /\ B2R x < B2R (d 1 0).
Proof. cbv zeta. split; [vm_compute; reflexivity|less]. Qed.

Print Assumptions C191_sum.
Print Assumptions C191_average.
Print Assumptions C191_integers.
Print Assumptions C191_none.
Print Assumptions C192_variance.
Print Assumptions C192_not_negative.
Print Assumptions C192_deviation.
Print Assumptions C193_means.
Print Assumptions C193_symmetric.
Print Assumptions C193_diagonal.
Print Assumptions C193_error.
Print Assumptions C194_extremes.
Print Assumptions C194_median.
Print Assumptions C195_error.
Print Assumptions C195_zero.
Print Assumptions C195_integers.
Print Assumptions C195_intersect.
Print Assumptions C191_between_refuted.
Print Assumptions C191_large_refuted.
Print Assumptions C191_lost_refuted.
Print Assumptions C192_constant_refuted.
Print Assumptions C192_large_refuted.
Print Assumptions C194_large_refuted.
Print Assumptions C194_nan_refuted.
Print Assumptions C195_large_refuted.
Print Assumptions C195_cancel_refuted.
