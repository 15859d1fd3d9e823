(** Proofs about extremes and medians in floating point. *)
From Coq Require Import Sorting.Sorted Permutation List Arith Bool ZArith Reals Lra Lia ZifyBool SpecFloat.
From Flocq Require Import Core IEEE754.BinarySingleNaN.
From Verif Require Import Base SigSpec StatSpec StatModel StatProofs DblSpec MomSpec DblModel VecModel MomModel DblProofs MomProofs.
Import ListNotations.
Local Open Scope R_scope.

Section Numbers.
  Context (prec emax : Z) (Hp : Prec_gt_0 prec) (He : Prec_lt_emax prec emax) (H3 : (3 <= prec)%Z).
  Notation num := (binary_float prec emax).
  Notation fx := (fexp prec emax).
  Notation add := (DblModel.add prec emax Hp He).
  Notation div := (DblModel.div prec emax Hp He).
  Notation const := (DblModel.const prec emax Hp He).
  Notation rnd := (DblProofs.rnd prec emax).
  Notation u := (DblProofs.u prec).
  Notation eta := (DblProofs.eta prec emax).
  Notation limit := (DblProofs.limit emax).
  Lemma max_from_values (l : list num) : all_finite l -> forall best bv i, is_finite bv = true -> MomModel.max_from prec emax best bv i l = StatModel.max_from best (B2R bv) i (values l).
  Proof.
    induction l as [|v l IH]; intros F best bv i Fb; [reflexivity|]. inversion F as [|? ? Fv Fl]; subst. cbn [MomModel.max_from values map StatModel.max_from]. rewrite lt_finite by assumption.
    destruct (Rlt_dec (B2R bv) (B2R v)) as [L|L]; [rewrite Rlt_bool_true by exact L|rewrite Rlt_bool_false by lra]; apply IH; assumption.
  Qed.
  Lemma min_from_values (l : list num) : all_finite l -> forall best bv i, is_finite bv = true -> MomModel.min_from prec emax best bv i l = StatModel.min_from best (B2R bv) i (values l).
  Proof.
    induction l as [|v l IH]; intros F best bv i Fb; [reflexivity|]. inversion F as [|? ? Fv Fl]; subst. cbn [MomModel.min_from values map StatModel.min_from]. rewrite lt_finite by assumption.
    destruct (Rlt_dec (B2R v) (B2R bv)) as [L|L]; [rewrite Rlt_bool_true by exact L|rewrite Rlt_bool_false by lra]; apply IH; assumption.
  Qed.
  Lemma max_values (l : list num) : all_finite l -> MomModel.max_element prec emax l = StatModel.max_element (values l).
  Proof. intros F. destruct l as [|v l]; [reflexivity|]. inversion F; subst. apply max_from_values; assumption. Qed.
  Lemma min_values (l : list num) : all_finite l -> MomModel.min_element prec emax l = StatModel.min_element (values l).
  Proof. intros F. destruct l as [|v l]; [reflexivity|]. inversion F; subst. apply min_from_values; assumption. Qed.
  Lemma values_nth (l : list num) k : nth_error (values l) k = option_map (fun v => B2R v) (nth_error l k).
  Proof. unfold values. apply nth_error_map. Qed.
  Lemma extremes_ok (l : list num) : l <> [] -> all_finite l ->
    (exists v, nth_error l (MomModel.min_element prec emax l) = Some v /\ MomModel.min_value prec emax l = Ok v /\ (forall k w, nth_error l k = Some w -> B2R v <= B2R w) /\ (forall k w, (k < MomModel.min_element prec emax l)%nat -> nth_error l k = Some w -> B2R v < B2R w)) /\
    (exists v, nth_error l (MomModel.max_element prec emax l) = Some v /\ MomModel.max_value prec emax l = Ok v /\ (forall k w, nth_error l k = Some w -> B2R w <= B2R v) /\ (forall k w, (k < MomModel.max_element prec emax l)%nat -> nth_error l k = Some w -> B2R w < B2R v)).
  Proof.
    intros NE F. unfold MomModel.min_value, MomModel.max_value. rewrite max_values, min_values by exact F. destruct (extremes_assembled (values l)) as [(v & A1 & _ & A3 & A4) (w & B1 & _ & B3 & B4)]; [destruct l; [contradiction|discriminate]|].
    assert (G : forall k x, nth_error l k = Some x -> nth_error (values l) k = Some (B2R x)) by (intros k x E; rewrite values_nth, E; reflexivity).
    rewrite values_nth in A1, B1. destruct (nth_error l (StatModel.min_element (values l))) as [v'|] eqn:E1; [|discriminate]. destruct (nth_error l (StatModel.max_element (values l))) as [w'|] eqn:E2; [|discriminate]. cbn in A1, B1. injection A1 as <-. injection B1 as <-. unfold vec_get. rewrite E1, E2.
    split; [exists v'|exists w']; (split; [reflexivity|]; split; [reflexivity|]; split; [intros k x E; eauto|intros k x K E; eauto]).
  Qed.

  (** * the two middle values *)
  Definition middle (vs : list R) (a b : R) : Prop :=
    exists s, Permutation s vs /\ ascending s /\ nth_error s (length vs / 2) = Some b /\ (if Nat.odd (length vs) then a = b else nth_error s (length vs / 2 - 1) = Some a).
  Lemma middle_unique vs a b c d : middle vs a b -> middle vs c d -> a = c /\ b = d.
  Proof.
    intros (s & Ps & As & Hs & Ks) (t & Pt & At & Ht & Kt). assert (s = t) as <- by (apply asc_unique; [exact As|exact At|rewrite Ps; symmetry; exact Pt]). assert (b = d) by congruence. subst d. split; [|reflexivity]. destruct (Nat.odd (length vs)); congruence.
  Qed.
  Lemma middle_median vs a b : middle vs a b -> is_median vs ((a + b) / 2).
  Proof. intros (s & Ps & As & Hs & Ks). exists s. split; [exact Ps|]. split; [exact As|]. destruct (Nat.odd (length vs)); [rewrite Hs, Ks; f_equal; lra|exists a, b; auto]. Qed.
  Lemma middle_order vs a b : middle vs a b -> a <= b /\ In a vs /\ In b vs.
  Proof.
    intros (s & Ps & As & Hs & Ks). assert (Ib : In b vs) by (apply (Permutation_in _ Ps), (nth_error_In _ _ Hs)). destruct (Nat.odd (length vs)); [subst a; split; [lra|split; exact Ib]|]. split; [apply (asc_nth s As (length vs / 2 - 1) (length vs / 2)); [lia|exact Ks|exact Hs]|]. split; [apply (Permutation_in _ Ps), (nth_error_In _ _ Ks)|exact Ib].
  Qed.
  (** what is computed from them *)
  Definition from_middle (l : list num) (m : num) : Prop := exists a b : num, In a l /\ In b l /\ middle (values l) (B2R a) (B2R b) /\ (if Nat.odd (length l) then m = b else m = div (add b a) (const 2 0)).
  Lemma values_perm (l k : list num) : Permutation l k -> Permutation (values l) (values k).
  Proof. apply Permutation_map. Qed.
  Lemma median_middle ne (l : list num) : nth_element_works ne -> l <> [] -> all_finite l -> exists m, MomModel.median prec emax Hp He ne l = Ok m /\ from_middle l m.
  Proof.
    intros C NE F. assert (L : (0 < length l)%nat) by (destruct l; [congruence|cbn; lia]). assert (Hh : (length l / 2 < length l)%nat) by (apply Nat.div_lt; lia). unfold MomModel.median. destruct l as [|x l0] eqn:E; [congruence|]. rewrite <- E in *. clear E x l0. cbv zeta. set (h := (length l / 2)%nat) in *.
    destruct (C l h F Hh) as (P & v & Ev & Lo & Up). set (l' := ne l h) in *. rewrite odd_mod. unfold vec_get at 1 2. rewrite Ev. assert (Iv : In v l) by (apply (Permutation_in _ P), (nth_error_In _ _ Ev)).
    assert (Vl : length (values l) = length l) by apply map_length. assert (Ll : length l' = length l) by (apply Permutation_length, P).
    set (f := fun (w : list R) (n : nat) => if list_eq_dec Req_EM_T w (values l) then if Nat.eq_dec n h then values l' else isort w else isort w).
    assert (CF : nth_element_contract f).
    { intros w n Hn. unfold f. destruct (list_eq_dec _ w _) as [->|]; [|apply (isort_nth_element w n Hn)]. destruct (Nat.eq_dec n h) as [->|]; [|apply (isort_nth_element (values l) n Hn)]. split; [apply values_perm, P|]. exists (B2R v). split; [rewrite values_nth, Ev; reflexivity|].
      unfold values. rewrite firstn_map, skipn_map. split; intros w Hw; apply in_map_iff in Hw; destruct Hw as (y & <- & Hy); [apply Lo, Hy|apply Up, Hy]. }
    destruct (nth_element_split f (values l) h CF ltac:(lia)) as (v' & s & E1 & Ps & As & Es & Pf & Lf). assert (EF : f (values l) h = values l') by (unfold f; destruct (list_eq_dec _ (values l) _); [|congruence]; destruct (Nat.eq_dec h h); congruence). rewrite EF in *. rewrite values_nth, Ev in E1. injection E1 as <-.
    destruct (Nat.odd (length l)) eqn:O.
    - exists v. split; [reflexivity|]. exists v, v. split; [exact Iv|]. split; [exact Iv|]. rewrite O. split; [|reflexivity]. exists s. rewrite Vl, O. repeat split; assumption.
    - cbn [obind]. assert (Hpos : (1 <= h)%nat). { assert (length l <> 1%nat) by (intros Z; rewrite Z in O; discriminate). apply Nat.div_le_lower_bound; lia. }
      assert (Nf : firstn h l' <> []) by (intros Z; apply (f_equal (@length num)) in Z; rewrite firstn_length in Z; cbn [length] in Z; lia).
      assert (Ff : all_finite (firstn h l')). { apply Forall_forall. intros y Hy. apply (proj1 (Forall_forall _ _) F). apply (Permutation_in _ P). rewrite <- (firstn_skipn h l'). apply in_or_app. left. exact Hy. }
      destruct (extremes_ok _ Nf Ff) as [_ (mx & Em1 & Em2 & Em3 & _)]. rewrite Em2. cbn [obind]. eexists. split; [reflexivity|]. exists mx, v. assert (Imx : In mx (firstn h l')) by apply (nth_error_In _ _ Em1).
      split; [apply (Permutation_in _ P); rewrite <- (firstn_skipn h l'); apply in_or_app; left; exact Imx|]. split; [exact Iv|]. rewrite O. split; [|reflexivity]. exists s. rewrite Vl, O. split; [exact Ps|]. split; [exact As|]. split; [exact Es|]. fold h.
      assert (Ls : length s = length l) by (rewrite (Permutation_length Ps); exact Vl). destruct (nth_error s (h - 1)) as [w|] eqn:Ew; [|apply nth_error_None in Ew; lia]. f_equal.
      assert (Iw : In w (firstn h s)) by (apply (nth_error_In _ (h - 1)); rewrite nth_first by lia; exact Ew). assert (VF : firstn h (values l') = values (firstn h l')) by (unfold values; apply firstn_map). rewrite VF in Pf.
      apply Rle_antisym.
      + apply (Permutation_in _ Pf) in Iw. unfold values in Iw. apply in_map_iff in Iw. destruct Iw as (y & <- & Hy). apply In_nth_error in Hy. destruct Hy as [k Hk]. apply (Em3 k y Hk).
      + assert (Imx' : In (B2R mx) (firstn h s)) by (apply (Permutation_in _ (Permutation_sym Pf)); unfold values; apply (in_map (fun v => B2R v)); exact Imx).
        apply In_nth_error in Imx'. destruct Imx' as [k Hk]. assert (Kh : (k < h)%nat). { assert (k < length (firstn h s))%nat by (apply nth_error_Some; congruence). rewrite firstn_length in *. lia. }
        rewrite nth_first in Hk by exact Kh. apply (asc_nth s As k (h - 1)); [lia|exact Hk|exact Ew].
  Qed.
  Lemma slow_middle ps (l : list num) : partial_sort_works ps -> l <> [] -> all_finite l -> exists m, MomModel.median_slow prec emax Hp He ps l = Ok m /\ from_middle l m.
  Proof.
    intros C NE F. assert (L : (0 < length l)%nat) by (destruct l; [congruence|cbn; lia]). assert (Hh : (length l / 2 < length l)%nat) by (apply Nat.div_lt; lia). unfold MomModel.median_slow. cbv zeta. destruct (Nat.ltb_spec 0 (length l)) as [_|]; [|lia]. rewrite odd_mod. set (h := (length l / 2)%nat) in *.
    destruct (C l (repeat (const 0 0) (h + 1)) F) as (s & P & A & E). rewrite repeat_length in E. rewrite E. assert (Ls : length s = length l) by (apply Permutation_length, P). assert (Vl : length (values l) = length l) by apply map_length.
    assert (G : forall i, (i <= h)%nat -> exists v, nth_error s i = Some v /\ vec_get (firstn (h + 1) s ++ skipn (length l) (repeat (const 0 0) (h + 1))) i = Ok v).
    { intros i Hi. destruct (nth_error s i) as [v|] eqn:Ev; [|apply nth_error_None in Ev; lia]. exists v. split; [reflexivity|]. unfold vec_get. rewrite nth_app_first by lia. rewrite Ev. reflexivity. }
    assert (As : ascending (values s)). { unfold ascending, values. clear - A. induction A as [|x s A IH Fx]; cbn [map]; constructor; [exact IH|]. apply Forall_map. exact Fx. }
    assert (I : forall i v, nth_error s i = Some v -> In v l) by (intros i v Ei; apply (Permutation_in _ P), (nth_error_In _ _ Ei)).
    destruct (Nat.odd (length l)) eqn:O.
    - destruct (G h (le_n _)) as (v & Ev & Eg). rewrite Eg. exists v. split; [reflexivity|]. exists v, v. split; [eauto|]. split; [eauto|]. rewrite O. split; [|reflexivity]. exists (values s). rewrite Vl, O. split; [apply values_perm, P|]. split; [exact As|]. fold h. rewrite values_nth, Ev. split; reflexivity.
    - destruct (G h (le_n _)) as (b & Eb & Eg). destruct (G (h - 1)%nat ltac:(lia)) as (a & Ea & Eg'). rewrite Eg, Eg'. cbn [obind]. eexists. split; [reflexivity|]. exists a, b. split; [eauto|]. split; [eauto|]. rewrite O. split; [|reflexivity]. exists (values s). rewrite Vl, O. split; [apply values_perm, P|]. split; [exact As|]. fold h. rewrite !values_nth, Ea, Eb. split; reflexivity.
  Qed.
  Lemma from_middle_same (l : list num) m k : Forall ordinary l -> from_middle l m -> from_middle l k -> is_finite m = true /\ B2R m = B2R k.
  Proof.
    intros F (a & b & Ia & Ib & M1 & E1) (c & d & Ic & Id & M2 & E2). destruct (middle_unique _ _ _ _ _ M1 M2) as [X Y]. rewrite Forall_forall in F. destruct (Nat.odd (length l)); subst m k; [split; [apply F, Ib|exact Y]|].
    destruct (small_add prec emax Hp He H3 b a (F _ Ib) (F _ Ia)) as [S1 F1]. destruct (small_add prec emax Hp He H3 d c (F _ Id) (F _ Ic)) as [S2 F2]. destruct (const_2 prec emax Hp He H3) as [C FC]. destruct (quarter emax) as [Q Q0].
    assert (SL : forall x y : num, ordinary x -> ordinary y -> Rabs (rnd (B2R x + B2R y)) <= 2 * bpow radix2 (emax - 3)). { intros x y [_ Hx] [_ Hy]. apply (rnd_abs prec emax Hp); [apply (twice_format prec emax He H3)|]. eapply Rle_trans; [apply Rabs_triang|]. lra. }
    assert (D : forall z : num, is_finite z = true -> Rabs (B2R z) <= 2 * bpow radix2 (emax - 3) -> is_finite (div z (const 2 0)) = true /\ B2R (div z (const 2 0)) = rnd (B2R z / 2)).
    { intros z Fz Lz. destruct (div_ok prec emax Hp He H3 z (const 2 0) Fz) as [A B]; [lra|rewrite C; unfold Rdiv; rewrite Rabs_mult, (Rabs_pos_eq (/ 2)) by lra; lra|]. rewrite C in A. split; assumption. }
    destruct (D (add b a) F1) as [D1 D2]; [rewrite S1; apply SL; apply F; assumption|]. destruct (D (add d c) F2) as [D3 D4]; [rewrite S2; apply SL; apply F; assumption|]. split; [exact D1|]. rewrite D2, D4, S1, S2, X, Y. reflexivity.
  Qed.
  Lemma from_middle_ok (l : list num) m : Forall ordinary l -> from_middle l m -> exists q, is_median (values l) q /\ is_finite m = true /\ (Nat.odd (length l) = true -> In m l /\ B2R m = q) /\ Rabs (B2R m - q) <= 3 * u * Rabs q + eta /\
    (forall lo hi, (forall w, In w l -> lo <= B2R w <= hi) -> lo <= B2R m <= hi).
  Proof.
    intros F M. pose proof (from_middle_same l m m F M M) as [FM _]. destruct M as (a & b & Ia & Ib & M1 & E1). exists ((B2R a + B2R b) / 2). split; [apply middle_median, M1|]. split; [exact FM|]. rewrite Forall_forall in F. destruct (middle_order _ _ _ M1) as [AB _]. pose proof (u_pos prec H3) as U. pose proof (eta_pos prec emax) as E0.
    destruct (Nat.odd (length l)) eqn:O.
    - subst m. destruct M1 as (s & _ & _ & _ & K). rewrite (map_length (fun v => B2R v) l : length (values l) = length l), O in K. assert (Q : B2R b = (B2R a + B2R b) / 2) by lra. split; [intros _; split; [exact Ib|exact Q]|]. rewrite <- Q. split; [rewrite Rminus_diag_eq, Rabs_R0 by reflexivity; pose proof (Rabs_pos (B2R b)); assert (0 <= 3 * u * Rabs (B2R b)) by (apply Rmult_le_pos; lra); lra|]. intros lo hi W. apply W, Ib.
    - split; [discriminate|]. subst m. destruct (small_add prec emax Hp He H3 b a (F _ Ib) (F _ Ia)) as [S1 F1]. destruct (const_2 prec emax Hp He H3) as [C FC]. destruct (quarter emax) as [Q Q0]. destruct (F _ Ia) as [Fa La]. destruct (F _ Ib) as [Fb Lb].
      assert (B : 2 * B2R a <= rnd (B2R b + B2R a) <= 2 * B2R b) by (split; [apply (rnd_lb prec emax Hp); [apply (double_format prec emax), La|lra]|apply (rnd_ub prec emax Hp); [apply (double_format prec emax), Lb|lra]]). apply Rabs_le_inv in La, Lb.
      destruct (div_ok prec emax Hp He H3 (add b a) (const 2 0) F1) as [A _]; [lra|rewrite C, S1; apply Rabs_le; lra|]. rewrite C, S1 in A. pose proof (rnd_err prec emax Hp (rnd (B2R b + B2R a) / 2)) as E. pose proof (sum_err prec emax Hp H3 b a) as E'. rewrite A. set (s := rnd (B2R b + B2R a)) in *. set (q := (B2R a + B2R b) / 2) in *. replace (B2R b + B2R a) with (2 * q) in E' by (unfold q; lra).
      split.
      + assert (A1 : Rabs (s / 2 - q) <= u * Rabs q). { replace (s / 2 - q) with (/ 2 * (s - 2 * q)) by field. rewrite Rabs_mult, (Rabs_pos_eq (/ 2)) by lra. rewrite Rabs_mult, (Rabs_pos_eq 2) in E' by lra. lra. }
        pose proof (Rabs_pos q) as q0. assert (A2 : Rabs (s / 2) <= 2 * Rabs q) by (eapply Rle_trans; [apply (abs_tri _ q)|]; assert (u * Rabs q <= / 8 * Rabs q) by (apply Rmult_le_compat_r; lra); lra).
        replace (rnd (s / 2) - q) with ((rnd (s / 2) - s / 2) + (s / 2 - q)) by ring. eapply Rle_trans; [apply Rabs_triang|]. assert (u * Rabs (s / 2) <= u * (2 * Rabs q)) by (apply Rmult_le_compat_l; lra). lra.
      + intros lo hi W. pose proof (W a Ia) as Wa. pose proof (W b Ib) as Wb. assert (B2R a <= rnd (s / 2)) by (apply (rnd_lb prec emax Hp); [apply num_format|lra]). assert (rnd (s / 2) <= B2R b) by (apply (rnd_ub prec emax Hp); [apply num_format|lra]). lra.
  Qed.
End Numbers.
