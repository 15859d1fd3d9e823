(** Proofs about clamping, wrapping, interpolation and averages in floating point. *)
From Coq Require Import Sorting.Sorted List Arith Bool ZArith Reals Lra Lia ZifyBool SpecFloat.
From Flocq Require Import Core IEEE754.BinarySingleNaN Relative Plus_error Mult_error.
From Verif Require Import Base DblModel.
Import ListNotations.
Local Open Scope R_scope.

Section Numbers.
  Context (prec emax : Z) (Hp : Prec_gt_0 prec) (He : Prec_lt_emax prec emax) (H3 : (3 <= prec)%Z).
  Notation num := (binary_float prec emax).
  Notation fx := (fexp prec emax).
  Notation add := (DblModel.add prec emax Hp He).
  Notation sub := (DblModel.sub prec emax Hp He).
  Notation mul := (DblModel.mul prec emax Hp He).
  Notation div := (DblModel.div prec emax Hp He).
  Notation const := (DblModel.const prec emax Hp He).
  Notation fmod := (DblModel.fmod prec emax Hp He).
  Notation lt := (DblModel.lt prec emax).
  Notation le := (DblModel.le prec emax).
  Definition rnd (x : R) : R := round radix2 fx ZnearestE x.
  (** half a unit in the last place of 1; half the smallest number *)
  Definition u : R := bpow radix2 (- prec).
  Definition eta : R := bpow radix2 (emin prec emax - 1).
  Local Instance fx_valid : Valid_exp fx.
  Proof. apply (fexp_correct prec emax Hp). Qed.
  Local Instance fx_mono : Monotone_exp fx.
  Proof. apply (fexp_monotone prec emax). Qed.

  Lemma rnd_le x y : x <= y -> rnd x <= rnd y.
  Proof. apply round_le; [exact fx_valid|apply valid_rnd_N]. Qed.
  Lemma rnd_exact x : generic_format radix2 fx x -> rnd x = x.
  Proof. intros H. apply round_generic; [apply valid_rnd_N|exact H]. Qed.
  Lemma rnd_ub x b : generic_format radix2 fx b -> x <= b -> rnd x <= b.
  Proof. intros Hb H. rewrite <- (rnd_exact b Hb). apply rnd_le, H. Qed.
  Lemma rnd_lb x b : generic_format radix2 fx b -> b <= x -> b <= rnd x.
  Proof. intros Hb H. rewrite <- (rnd_exact b Hb). apply rnd_le, H. Qed.
  Lemma rnd_abs x b : generic_format radix2 fx b -> Rabs x <= b -> Rabs (rnd x) <= b.
  Proof. intros Hb H. apply abs_round_le_generic; [exact fx_valid|apply valid_rnd_N|exact Hb|exact H]. Qed.
  Lemma emin_small : (emin prec emax < 0 /\ emin prec emax <= emax - prec - 3 /\ 3 <= emax)%Z.
  Proof. unfold emin. unfold Prec_gt_0 in Hp. unfold Prec_lt_emax in He. lia. Qed.
  Lemma bpow_format e : (emin prec emax <= e)%Z -> generic_format radix2 fx (bpow radix2 e).
  Proof. intros H. apply generic_format_bpow. unfold fexp, emin in *. unfold Prec_gt_0 in Hp. lia. Qed.
  Lemma num_format (a : num) : generic_format radix2 fx (B2R a).
  Proof. apply generic_format_B2R. Qed.
  Definition limit : R := bpow radix2 (emax - 1).
  Lemma limit_format : generic_format radix2 fx limit.
  Proof. apply bpow_format. pose proof emin_small. lia. Qed.
  Lemma small_finite x : Rabs x <= limit -> Rlt_bool (Rabs (rnd x)) (bpow radix2 emax) = true.
  Proof. intros H. apply Rlt_bool_true. eapply Rle_lt_trans; [apply (rnd_abs _ _ limit_format H)|apply bpow_lt; lia]. Qed.

  Lemma add_ok (a b : num) : is_finite a = true -> is_finite b = true -> Rabs (B2R a + B2R b) <= limit -> B2R (add a b) = rnd (B2R a + B2R b) /\ is_finite (add a b) = true.
  Proof. intros Fa Fb H. pose proof (Bplus_correct prec emax Hp He mode_NE a b Fa Fb) as G. cbn [round_mode] in G. fold (rnd (B2R a + B2R b)) in G. rewrite (small_finite _ H) in G. split; apply G. Qed.
  Lemma sub_ok (a b : num) : is_finite a = true -> is_finite b = true -> Rabs (B2R a - B2R b) <= limit -> B2R (sub a b) = rnd (B2R a - B2R b) /\ is_finite (sub a b) = true.
  Proof. intros Fa Fb H. pose proof (Bminus_correct prec emax Hp He mode_NE a b Fa Fb) as G. cbn [round_mode] in G. fold (rnd (B2R a - B2R b)) in G. rewrite (small_finite _ H) in G. split; apply G. Qed.
  Lemma mul_ok (a b : num) : is_finite a = true -> is_finite b = true -> Rabs (B2R a * B2R b) <= limit -> B2R (mul a b) = rnd (B2R a * B2R b) /\ is_finite (mul a b) = true.
  Proof. intros Fa Fb H. pose proof (Bmult_correct prec emax Hp He mode_NE a b) as G. cbn [round_mode] in G. fold (rnd (B2R a * B2R b)) in G. rewrite (small_finite _ H), Fa, Fb in G. split; apply G. Qed.
  Lemma div_ok (a b : num) : is_finite a = true -> B2R b <> 0 -> Rabs (B2R a / B2R b) <= limit -> B2R (div a b) = rnd (B2R a / B2R b) /\ is_finite (div a b) = true.
  Proof. intros Fa Nb H. pose proof (Bdiv_correct prec emax Hp He mode_NE a b Nb) as G. cbn [round_mode] in G. fold (rnd (B2R a / B2R b)) in G. rewrite (small_finite _ H), Fa in G. split; apply G. Qed.
  Lemma const_ok m e : Rabs (F2R (Float radix2 m e)) <= limit -> generic_format radix2 fx (F2R (Float radix2 m e)) -> B2R (const m e) = F2R (Float radix2 m e) /\ is_finite (const m e) = true.
  Proof.
    intros H G. pose proof (binary_normalize_correct prec emax Hp He mode_NE m e false) as C. cbn [round_mode] in C. fold (rnd (F2R (Float radix2 m e))) in C. rewrite (small_finite _ H) in C.
    rewrite (rnd_exact _ G) in C. split; apply C.
  Qed.
  Lemma limit_big : 4 <= limit.
  Proof. change 4 with (bpow radix2 2). apply bpow_le. pose proof emin_small. lia. Qed.
  Lemma const_0 : B2R (const 0 0) = 0 /\ is_finite (const 0 0) = true.
  Proof. rewrite <- (F2R_0 radix2 0). apply const_ok; [rewrite F2R_0, Rabs_R0; apply bpow_ge_0|rewrite F2R_0; apply generic_format_0]. Qed.
  Lemma pow_const e m : (-1 <= e <= 1)%Z -> F2R (Float radix2 m 0) = bpow radix2 e \/ F2R (Float radix2 1 e) = bpow radix2 e.
  Proof. intros _. right. apply F2R_bpow. Qed.
  Lemma const_1 : B2R (const 1 0) = 1 /\ is_finite (const 1 0) = true.
  Proof.
    pose proof limit_big as L. pose proof emin_small. assert (E : F2R (Float radix2 1 0) = 1) by (unfold F2R; cbn; lra). rewrite <- E. apply const_ok; rewrite E; [rewrite Rabs_R1; lra|]. change 1 with (bpow radix2 0). apply bpow_format. lia.
  Qed.
  Lemma const_2 : B2R (const 2 0) = 2 /\ is_finite (const 2 0) = true.
  Proof.
    pose proof limit_big as L. pose proof emin_small. assert (E : F2R (Float radix2 2 0) = 2) by (unfold F2R; cbn; lra). rewrite <- E. apply const_ok; rewrite E; [rewrite Rabs_pos_eq; lra|]. change 2 with (bpow radix2 1). apply bpow_format. lia.
  Qed.
  Lemma const_half : B2R (const 1 (-1)) = / 2 /\ is_finite (const 1 (-1)) = true.
  Proof.
    pose proof limit_big as L. pose proof emin_small. assert (E : F2R (Float radix2 1 (-1)) = / 2) by (unfold F2R; cbn; lra). rewrite <- E. apply const_ok; rewrite E; [rewrite Rabs_pos_eq; lra|]. change (/ 2) with (bpow radix2 (-1)). apply bpow_format. lia.
  Qed.
  (** errors *)
  Lemma eta_pos : 0 < eta. Proof. apply bpow_gt_0. Qed.
  Lemma u_pos : 0 < u <= / 8.
  Proof. split; [apply bpow_gt_0|]. change (/ 8) with (bpow radix2 (-3)). apply bpow_le. lia. Qed.
  Lemma u_eq : / 2 * bpow radix2 (- prec + 1) = u.
  Proof. unfold u. rewrite bpow_plus. change (bpow radix2 1) with 2. lra. Qed.
  Lemma rnd_err x : Rabs (rnd x - x) <= u * Rabs x + eta.
  Proof.
    destruct (error_N_FLT radix2 (emin prec emax) prec Hp (fun z => negb (Z.even z)) x) as (e & n & E1 & E2 & _ & E4). change (rnd x) with (round radix2 (FLT_exp (emin prec emax) prec) ZnearestE x). rewrite E4.
    replace (x * (1 + e) + n - x) with (x * e + n) by ring. eapply Rle_trans; [apply Rabs_triang|]. apply Rplus_le_compat.
    - rewrite Rabs_mult, Rmult_comm. apply Rmult_le_compat_r; [apply Rabs_pos|]. rewrite <- u_eq. exact E1.
    - eapply Rle_trans; [exact E2|]. unfold eta, Z.sub. rewrite bpow_plus. change (bpow radix2 (-(1))) with (/ 2). lra.
  Qed.
  Lemma sum_err (a b : num) : Rabs (rnd (B2R a + B2R b) - (B2R a + B2R b)) <= u * Rabs (B2R a + B2R b).
  Proof.
    destruct (FLT_plus_error_N_ex radix2 (emin prec emax) prec (fun z => negb (Z.even z)) (B2R a) (B2R b)) as (e & E1 & E2); [apply num_format|apply num_format|].
    change (rnd (B2R a + B2R b)) with (round radix2 (FLT_exp (emin prec emax) prec) ZnearestE (B2R a + B2R b)). rewrite E2. set (x := B2R a + B2R b). replace (x * (1 + e) - x) with (e * x) by ring. rewrite Rabs_mult. apply Rmult_le_compat_r; [apply Rabs_pos|].
    eapply Rle_trans; [exact E1|]. unfold u_ro. rewrite u_eq.
    apply Rle_trans with (u / 1); [|lra]. unfold Rdiv. apply Rmult_le_compat_l; [pose proof u_pos; lra|]. apply Rinv_le; [lra|]. pose proof u_pos. lra.
  Qed.
  Lemma diff_err (a b : num) : Rabs (rnd (B2R a - B2R b) - (B2R a - B2R b)) <= u * Rabs (B2R a - B2R b).
  Proof. pose proof (sum_err a (Bopp b)) as G. rewrite B2R_Bopp in G. exact G. Qed.

  (** * order, also of infinities *)
  Lemma le_cases (a b : num) : le a b = true <-> (a = B754_infinity true /\ is_nan b = false) \/ (b = B754_infinity false /\ is_nan a = false) \/ (is_finite a = true /\ is_finite b = true /\ B2R a <= B2R b).
  Proof.
    destruct (is_finite a && is_finite b) eqn:F.
    - apply andb_prop in F. destruct F as [Fa Fb]. unfold DblModel.le. rewrite (Bleb_correct prec emax a b Fa Fb). split.
      + intros H. right. right. split; [exact Fa|split; [exact Fb|]]. apply Rle_bool_true_iff' in H || (destruct (Rle_bool_spec (B2R a) (B2R b)); [assumption|discriminate]).
      + intros [[-> _]|[[-> _]|(_ & _ & H)]]; try discriminate. apply Rle_bool_true, H.
    - split; [|intros [[-> Hb]|[[-> Ha]|(Fa & Fb & _)]]; [| |rewrite Fa, Fb in F; discriminate]].
      + intros H. destruct a as [[|]|[|]| |sa ma ea Ba], b as [[|]|[|]| |sb mb eb Bb]; cbn in F; try discriminate F; unfold DblModel.le, Bleb in H; cbn in H; try discriminate H; try (destruct sa; discriminate H); try (destruct sb; discriminate H); auto.
      + destruct b as [[|]|[|]| |[|] mb eb Bb]; try discriminate Hb; reflexivity.
      + destruct a as [[|]|[|]| |[|] mb eb Bb]; try discriminate Ha; reflexivity.
  Qed.
  Lemma le_refl (a : num) : is_nan a = false -> le a a = true.
  Proof. intros H. apply le_cases. destruct a as [|[|]| |]; try discriminate H; [right; right|left|right; left|right; right]; auto; repeat split; lra. Qed.
  Lemma le_nan (a b : num) : le a b = true -> is_nan a = false /\ is_nan b = false.
  Proof. intros H. apply le_cases in H. destruct H as [[-> H]|[[-> H]|(A & B & _)]]; [split; [reflexivity|exact H]|split; [exact H|reflexivity]|]. destruct a, b; try discriminate; split; reflexivity. Qed.
  Lemma le_trans (a b c : num) : le a b = true -> le b c = true -> le a c = true.
  Proof.
    intros H1 H2. pose proof (le_nan _ _ H1) as [Na Nb]. pose proof (le_nan _ _ H2) as [_ Nc]. apply le_cases in H1, H2. apply le_cases.
    destruct H1 as [[-> _]|[[-> _]|(Fa & Fb & L1)]]; [left; split; [reflexivity|exact Nc]| |].
    - destruct H2 as [[H _]|[[-> _]|(F & _)]]; [discriminate|right; left; split; [reflexivity|exact Na]|discriminate].
    - destruct H2 as [[-> _]|[[-> _]|(_ & Fc & L2)]]; [discriminate|right; left; split; [reflexivity|exact Na]|]. right. right. split; [exact Fa|split; [exact Fc|lra]].
  Qed.
  Lemma compare_some (a b : num) : is_nan a = false -> is_nan b = false -> SFcompare (B2SF a) (B2SF b) <> None.
  Proof.
    intros Na Nb E. destruct a as [sa|sa| |sa ma ea Ba], b as [sb|sb| |sb mb eb Bb]; try discriminate Na; try discriminate Nb; cbn [B2SF SFcompare] in E; try (destruct sa; discriminate E); try (destruct sb; discriminate E); try discriminate E; try (destruct sa, sb; discriminate E).

  Qed.
  Lemma lt_le (a b : num) : is_nan a = false -> is_nan b = false -> lt a b = negb (le b a).
  Proof.
    intros Na Nb. unfold DblModel.lt, DblModel.le, Bltb, Bleb, SFltb, SFleb. pose proof (Bcompare_swap prec emax a b) as S. unfold Bcompare in S.
    rewrite S. pose proof (compare_some a b Na Nb) as E. destruct (SFcompare (B2SF a) (B2SF b)) as [[| |]|]; try reflexivity. contradiction.
  Qed.
  Lemma lt_weak (a b : num) : lt a b = true -> le a b = true /\ le b a = false.
  Proof.
    intros H. assert (N : is_nan a = false /\ is_nan b = false).
    { unfold DblModel.lt, Bltb in H. destruct a as [[|]|[|]| |[|] ma ea Ba], b as [[|]|[|]| |[|] mb eb Bb]; try discriminate H; split; reflexivity. }
    destruct N as [Na Nb]. rewrite (lt_le a b Na Nb) in H. apply negb_true_iff in H. split; [|exact H]. destruct (le a b) eqn:E; [reflexivity|exfalso].
    assert (G : lt b a = true) by (rewrite (lt_le b a Nb Na), E; reflexivity). unfold DblModel.lt, DblModel.le, Bltb, Bleb, SFltb, SFleb in *. destruct (SFcompare (B2SF b) (B2SF a)) as [[| |]|]; discriminate.
  Qed.
  Lemma lt_finite (a b : num) : is_finite a = true -> is_finite b = true -> lt a b = Rlt_bool (B2R a) (B2R b).
  Proof. intros Fa Fb. apply Bltb_correct; assumption. Qed.
  Lemma le_finite (a b : num) : is_finite a = true -> is_finite b = true -> le a b = Rle_bool (B2R a) (B2R b).
  Proof. intros Fa Fb. apply Bleb_correct; assumption. Qed.

  Notation clamped := (DblModel.clamped prec emax).
  Lemma clamp_ok (v l h : num) : is_nan v = false -> le l h = true -> let r := clamped v l h in
    le l r = true /\ le r h = true /\ (le l v = true -> le v h = true -> r = v) /\ (lt v l = true -> r = l) /\ (lt h v = true -> r = h).
  Proof.
    intros Nv L. cbn zeta. destruct (le_nan _ _ L) as [Nl Nh]. unfold DblModel.clamped. destruct (lt v l) eqn:A.
    - destruct (lt_weak _ _ A) as [A1 A2]. split; [apply le_refl, Nl|]. split; [exact L|]. split; [intros X; rewrite X in A2; discriminate|]. split; [reflexivity|]. intros B. destruct (lt_weak _ _ B) as [B1 _]. rewrite (le_trans l h v L B1) in A2. discriminate.
    - destruct (lt h v) eqn:B.
      + destruct (lt_weak _ _ B) as [B1 B2]. split; [exact L|]. split; [apply le_refl, Nh|]. split; [intros _ X; rewrite X in B2; discriminate|]. split; [discriminate|reflexivity].
      + rewrite (lt_le v l Nv Nl) in A. apply negb_false_iff in A. rewrite (lt_le h v Nh Nv) in B. apply negb_false_iff in B. split; [exact A|split; [exact B|]]. split; [reflexivity|split; discriminate].
  Qed.
  Notation min := (DblModel.min prec emax).
  Notation max := (DblModel.max prec emax).
  Lemma min_ok (a b : num) : is_nan a = false -> is_nan b = false -> le (min a b) a = true /\ le (min a b) b = true /\ (min a b = a \/ min a b = b).
  Proof.
    intros Na Nb. unfold DblModel.min. destruct (lt a b) eqn:A.
    - split; [apply le_refl, Na|]. split; [apply lt_weak, A|left; reflexivity].
    - rewrite (lt_le a b Na Nb) in A. apply negb_false_iff in A. split; [exact A|]. split; [apply le_refl, Nb|right; reflexivity].
  Qed.
  Lemma max_ok (a b : num) : is_nan a = false -> is_nan b = false -> le a (max a b) = true /\ le b (max a b) = true /\ (max a b = a \/ max a b = b).
  Proof.
    intros Na Nb. unfold DblModel.max. destruct (lt a b) eqn:A.
    - split; [apply lt_weak, A|]. split; [apply le_refl, Nb|right; reflexivity].
    - rewrite (lt_le a b Na Nb) in A. apply negb_false_iff in A. split; [apply le_refl, Na|]. split; [exact A|left; reflexivity].
  Qed.
  (** * bounds *)
  Definition small (a : num) : Prop := is_finite a = true /\ Rabs (B2R a) <= bpow radix2 (emax - 3).
  Lemma quarter : limit = 4 * bpow radix2 (emax - 3) /\ 0 < bpow radix2 (emax - 3).
  Proof. split; [|apply bpow_gt_0]. unfold limit. replace (emax - 1)%Z with (2 + (emax - 3))%Z by lia. rewrite bpow_plus. reflexivity. Qed.
  Lemma small_sub (a b : num) : small a -> small b -> B2R (sub a b) = rnd (B2R a - B2R b) /\ is_finite (sub a b) = true.
  Proof. intros [Fa Ba] [Fb Bb]. apply sub_ok; [exact Fa|exact Fb|]. destruct quarter as [Q Q0]. apply Rabs_le. apply Rabs_le_inv in Ba, Bb. lra. Qed.
  Lemma small_add (a b : num) : small a -> small b -> B2R (add a b) = rnd (B2R a + B2R b) /\ is_finite (add a b) = true.
  Proof. intros [Fa Ba] [Fb Bb]. apply add_ok; [exact Fa|exact Fb|]. destruct quarter as [Q Q0]. apply Rabs_le. apply Rabs_le_inv in Ba, Bb. lra. Qed.
  Lemma diff_sign (a b : num) : B2R a < B2R b -> rnd (B2R a - B2R b) < 0 /\ 0 < rnd (B2R b - B2R a).
  Proof.
    intros H. pose proof u_pos as U. pose proof (diff_err a b) as E1. pose proof (diff_err b a) as E2. rewrite (Rabs_left (B2R a - B2R b)) in E1 by lra. rewrite (Rabs_pos_eq (B2R b - B2R a)) in E2 by lra.
    apply Rabs_le_inv in E1, E2. split; nra.
  Qed.
  Notation get_violation := (DblModel.get_violation prec emax Hp He).
  Lemma violation_ok (b : bounds prec emax) (v : num) : small v -> small (lower _ _ b) -> small (upper _ _ b) -> B2R (lower _ _ b) <= B2R (upper _ _ b) ->
    let r := B2R (get_violation b v) in let l := B2R (lower _ _ b) in let h := B2R (upper _ _ b) in
    is_finite (get_violation b v) = true /\
    (B2R v < l -> r < 0 /\ Rabs (r - (B2R v - l)) <= u * Rabs (B2R v - l)) /\ (h < B2R v -> 0 < r /\ Rabs (r - (B2R v - h)) <= u * Rabs (B2R v - h)) /\ (l <= B2R v <= h -> r = 0).
  Proof.
    intros Sv Sl Sh L. cbn zeta. unfold DblModel.get_violation. rewrite (lt_finite v _ (proj1 Sv) (proj1 Sl)), (lt_finite _ v (proj1 Sh) (proj1 Sv)).
    destruct (Rlt_bool_spec (B2R v) (B2R (lower _ _ b))) as [A|A].
    - destruct (small_sub v _ Sv Sl) as [E F]. rewrite E. split; [exact F|]. split; [intros _; split; [apply diff_sign, A|apply diff_err]|split; intros X; lra].
    - destruct (Rlt_bool_spec (B2R (upper _ _ b)) (B2R v)) as [B|B].
      + destruct (small_sub v _ Sv Sh) as [E F]. rewrite E. split; [exact F|]. split; [intros X; lra|]. split; [intros _; split; [apply diff_sign, B|apply diff_err]|intros X; lra].
      + destruct const_0 as [E F]. rewrite E. split; [exact F|]. split; [intros X; lra|]. split; intros X; [lra|reflexivity].
  Qed.
  Lemma double_format (a : num) : Rabs (B2R a) <= bpow radix2 (emax - 3) -> generic_format radix2 fx (2 * B2R a).
  Proof.
    intros _. destruct (Req_dec (B2R a) 0) as [Z|N]; [rewrite Z, Rmult_0_r; apply generic_format_0|].
    replace (2 * B2R a) with (B2R a * bpow radix2 1) by (cbn; lra). apply (mult_bpow_pos_exact_FLT radix2 (emin prec emax) prec); [apply num_format|lia].
  Qed.
  Notation center := (DblModel.center prec emax Hp He).
  Lemma center_ok (b : bounds prec emax) : small (lower _ _ b) -> small (upper _ _ b) -> B2R (lower _ _ b) <= B2R (upper _ _ b) ->
    is_finite (center b) = true /\ B2R (lower _ _ b) <= B2R (center b) <= B2R (upper _ _ b).
  Proof.
    intros Sl Sh L. unfold DblModel.center. set (l := lower _ _ b) in *. set (h := upper _ _ b) in *. destruct (small_add l h Sl Sh) as [E F]. destruct const_half as [C FC]. destruct quarter as [Q Q0].
    assert (B : 2 * B2R l <= rnd (B2R l + B2R h) <= 2 * B2R h) by (split; [apply rnd_lb; [apply double_format, Sl|lra]|apply rnd_ub; [apply double_format, Sh|lra]]).
    destruct Sl as [Fl Bl], Sh as [Fh Bh]. apply Rabs_le_inv in Bl, Bh.
    destruct (mul_ok (const 1 (-1)) (add l h) FC F) as [M FM]; [rewrite C, E; apply Rabs_le; lra|]. split; [exact FM|]. rewrite M, C, E. split; [apply rnd_lb; [apply num_format|lra]|apply rnd_ub; [apply num_format|lra]].
  Qed.
  (** exact differences of small numbers *)
  Lemma diff_exact (a b : num) : Rabs (B2R a - B2R b) <= bpow radix2 (prec + emin prec emax) -> generic_format radix2 fx (B2R a - B2R b).
  Proof.
    intros H. pose proof (FLT_format_plus_small radix2 (emin prec emax) prec (B2R a) (B2R (Bopp b))) as G. rewrite B2R_Bopp in G. apply G; [apply num_format|apply generic_format_opp, num_format|exact H].
  Qed.
  Lemma rnd_format x : generic_format radix2 fx (rnd x).
  Proof. apply generic_format_round; [exact fx_valid|apply valid_rnd_N]. Qed.
  Lemma rnd_opp x : rnd (- x) = - rnd x.
  Proof. apply round_NE_opp. Qed.
  Lemma rnd_0 : rnd 0 = 0.
  Proof. apply rnd_exact, generic_format_0. Qed.
  Lemma half_step (a b : num) : B2R a <= B2R b -> 0 <= rnd (rnd (B2R b - B2R a) / 2) <= B2R b - B2R a.
  Proof.
    intros L. pose proof u_pos as U. pose proof eta_pos as ET. set (d := rnd (B2R b - B2R a)). assert (D0 : 0 <= d) by (apply rnd_lb; [apply generic_format_0|lra]). split; [apply rnd_lb; [apply generic_format_0|lra]|].
    destruct (Rle_or_lt (Rabs (B2R b - B2R a)) (bpow radix2 (prec + emin prec emax))) as [S|S].
    - assert (E : d = B2R b - B2R a) by (apply rnd_exact, diff_exact, S). rewrite <- E. apply rnd_ub; [apply rnd_format|lra].
    - rewrite Rabs_pos_eq in S by lra. pose proof (diff_err b a) as D. fold d in D. rewrite (Rabs_pos_eq (B2R b - B2R a)) in D by lra. apply Rabs_le_inv in D. pose proof (rnd_err (d / 2)) as E. rewrite (Rabs_pos_eq (d / 2)) in E by lra. apply Rabs_le_inv in E.
      assert (X : 16 * eta <= B2R b - B2R a).
      { left. eapply Rle_lt_trans; [|exact S]. unfold eta. change 16 with (bpow radix2 4). rewrite <- bpow_plus. apply bpow_le. lia. }
      nra.
  Qed.
  Notation midpoint := (DblModel.midpoint prec emax Hp He).
  Lemma midpoint_ok (a b : num) : small a -> small b -> is_finite (midpoint a b) = true /\ Rmin (B2R a) (B2R b) <= B2R (midpoint a b) <= Rmax (B2R a) (B2R b).
  Proof.
    intros Sa Sb. unfold DblModel.midpoint. destruct (small_sub b a Sb Sa) as [E F]. destruct const_2 as [C FC]. destruct quarter as [Q Q0].
    pose proof (proj2 Sa) as Ba. pose proof (proj2 Sb) as Bb. apply Rabs_le_inv in Ba, Bb.
    assert (DB : Rabs (rnd (B2R b - B2R a)) <= 2 * bpow radix2 (emax - 3)).
    { apply rnd_abs; [|apply Rabs_le; lra]. replace (2 * bpow radix2 (emax - 3)) with (bpow radix2 (emax - 2)); [apply bpow_format; pose proof emin_small; lia|]. replace (emax - 2)%Z with (1 + (emax - 3))%Z by lia. rewrite bpow_plus. cbn. lra. }
    apply Rabs_le_inv in DB.
    destruct (div_ok (sub b a) (const 2 0) F) as [G FG]; [rewrite C; lra|rewrite E, C; apply Rabs_le; lra|]. rewrite E, C in G.
    assert (HB : Rmin (B2R a) (B2R b) <= B2R a + rnd (rnd (B2R b - B2R a) / 2) <= Rmax (B2R a) (B2R b)).
    { destruct (Rle_or_lt (B2R a) (B2R b)) as [L|L].
      - rewrite Rmin_left, Rmax_right by lra. pose proof (half_step a b L). lra.
      - rewrite Rmin_right, Rmax_left by lra. pose proof (half_step b a ltac:(lra)) as H. replace (B2R b - B2R a) with (- (B2R a - B2R b)) by ring. rewrite rnd_opp. unfold Rdiv in *. rewrite Ropp_mult_distr_l_reverse, rnd_opp. lra. }
    assert (MM : Rabs (Rmin (B2R a) (B2R b)) <= bpow radix2 (emax - 3) /\ Rabs (Rmax (B2R a) (B2R b)) <= bpow radix2 (emax - 3)).
    { split; [apply Rmin_case; [apply Sa|apply Sb]|apply Rmax_case; [apply Sa|apply Sb]]. }
    destruct MM as [M1 M2]. apply Rabs_le_inv in M1, M2.
    destruct (add_ok a (div (sub b a) (const 2 0)) (proj1 Sa) FG) as [R FR]; [rewrite G; apply Rabs_le; lra|]. split; [exact FR|]. rewrite R, G.
    split; [apply rnd_lb; [apply Rmin_case; apply num_format|apply HB]|apply rnd_ub; [apply Rmax_case; apply num_format|apply HB]].
  Qed.

  (** * remainders and wrapping *)
  Lemma bounded_facts m e : SpecFloat.bounded prec emax m e = true -> (emin prec emax <= e /\ Zpos m < 2 ^ prec)%Z.
  Proof.
    intros B. pose proof (canonical_bounded prec emax false m e B) as C. unfold canonical, cexp in C. cbn [Fexp cond_Zopp] in C. rewrite mag_F2R in C by discriminate. cbn [cond_Zopp] in C.
    split; [rewrite C; unfold fexp; lia|]. pose proof (mag_le_bpow radix2 (IZR (Zpos m)) prec) as _. destruct (mag radix2 (IZR (Zpos m))) as [g G]. cbn [mag_val] in *. specialize (G ltac:(apply IZR_neq; discriminate)).
    assert (g <= prec)%Z by (unfold fexp in C; lia). apply lt_IZR. change 2%Z with (radix_val radix2). rewrite IZR_Zpower by lia. rewrite <- (Rabs_pos_eq (IZR (Zpos m))) by (apply IZR_le; lia). eapply Rlt_le_trans; [apply G|]. apply bpow_le. lia.
  Qed.
  Lemma shift_F2R m ex e : (e <= ex)%Z -> F2R (Float radix2 m ex) = IZR (m * 2 ^ (ex - e)) * bpow radix2 e.
  Proof. intros H. unfold F2R. cbn [Fnum Fexp]. rewrite mult_IZR. change 2%Z with (radix_val radix2). rewrite IZR_Zpower by lia. rewrite Rmult_assoc, <- bpow_plus. f_equal. f_equal. lia. Qed.
  Lemma fmod_ok (x y : num) : is_finite x = true -> is_finite y = true -> B2R y <> 0 -> exists n : Z,
    B2R (fmod x y) = B2R x - IZR n * B2R y /\ is_finite (fmod x y) = true /\ Rabs (B2R (fmod x y)) < Rabs (B2R y) /\ Rabs (B2R (fmod x y)) <= Rabs (B2R x) /\ 0 <= B2R x * B2R (fmod x y) /\ 0 <= IZR n * (B2R x * B2R y).
  Proof.
    intros Fx Fy Ny. destruct y as [sy|sy| |sy my ey By]; try discriminate Fy; [exfalso; apply Ny; reflexivity|]. destruct x as [sx|sx| |sx mx ex Bx]; try discriminate Fx.
    - exists 0%Z. change (DblModel.fmod prec emax Hp He (B754_zero sx) (B754_finite sy my ey By)) with (B754_zero sx : num). cbn [B2R]. split; [ring|]. split; [reflexivity|]. rewrite Rabs_R0. split; [apply Rabs_pos_lt, Ny|]. split; [lra|split; lra].
    - destruct (bounded_facts mx ex Bx) as [Ex Mx]. destruct (bounded_facts my ey By) as [Ey My]. set (e := Z.min ex ey).
      set (a := (Zpos mx * 2 ^ (ex - e))%Z). set (b := (Zpos my * 2 ^ (ey - e))%Z). set (r := (a mod b)%Z).
      assert (P1 : (0 < 2 ^ (ex - e))%Z) by (apply Z.pow_pos_nonneg; lia). assert (P2 : (0 < 2 ^ (ey - e))%Z) by (apply Z.pow_pos_nonneg; lia). assert (A0 : (0 < a)%Z) by (unfold a; lia). assert (B0 : (0 < b)%Z) by (unfold b; lia).
      pose proof (Z.mod_pos_bound a b B0) as RB. fold r in RB. pose proof (Z.div_mod a b ltac:(lia)) as DM. fold r in DM. pose proof (Z.div_pos a b ltac:(lia) B0) as Q0. assert (RA : (r <= a)%Z) by nia.
      assert (R2 : (r < 2 ^ prec)%Z).
      { destruct (Z.le_ge_cases ex ey) as [L|L]; [assert (e = ex) by (unfold e; lia); assert (a = Zpos mx) by (unfold a; rewrite H, Z.sub_diag, Z.pow_0_r; lia); lia|assert (e = ey) by (unfold e; lia); assert (b = Zpos my) by (unfold b; rewrite H, Z.sub_diag, Z.pow_0_r; lia); lia]. }
      assert (VX : B2R (B754_finite sx mx ex Bx) = IZR (if sx then - a else a) * bpow radix2 e).
      { cbn [B2R]. rewrite (shift_F2R _ ex e) by (unfold e; lia). f_equal. f_equal. unfold a. destruct sx; cbn [cond_Zopp]; lia. }
      assert (VY : B2R (B754_finite sy my ey By) = IZR (if sy then - b else b) * bpow radix2 e).
      { cbn [B2R]. rewrite (shift_F2R _ ey e) by (unfold e; lia). f_equal. f_equal. unfold b. destruct sy; cbn [cond_Zopp]; lia. }
      set (w := (if sx then - r else r)%Z). assert (AW : (Z.abs w = r)%Z) by (unfold w; destruct sx; lia).
      assert (G : generic_format radix2 fx (F2R (Float radix2 w e))).
      { apply generic_format_F2R. intros NW. unfold cexp, fexp. rewrite mag_F2R by exact NW. assert (M : (mag radix2 (IZR w) <= prec)%Z); [|unfold e in *; lia].
        apply mag_le_bpow; [apply IZR_neq, NW|]. rewrite <- abs_IZR, AW. change 2%Z with (radix_val radix2) in R2. rewrite <- IZR_Zpower by lia. apply IZR_lt, R2. }
      assert (VW : F2R (Float radix2 w e) = IZR w * bpow radix2 e) by reflexivity. pose proof (bpow_gt_0 radix2 e) as E0.
      assert (LX : Rabs (IZR w * bpow radix2 e) <= Rabs (B2R (B754_finite sx mx ex Bx))).
      { rewrite VX, !Rabs_mult. apply Rmult_le_compat_r; [apply Rabs_pos|]. rewrite <- !abs_IZR. apply IZR_le. destruct sx; lia. }
      pose proof (binary_normalize_correct prec emax Hp He mode_NE w e sx) as C. cbn [round_mode] in C. fold (rnd (F2R (Float radix2 w e))) in C. rewrite (rnd_exact _ G) in C.
      rewrite Rlt_bool_true in C by (rewrite VW; eapply Rle_lt_trans; [exact LX|apply abs_B2R_lt_emax]). destruct C as (C1 & C2 & _).
      change (DblModel.fmod prec emax Hp He (B754_finite sx mx ex Bx) (B754_finite sy my ey By)) with (binary_normalize prec emax Hp He mode_NE w e sx).
      exists (if xorb sx sy then - (a / b) else a / b)%Z. rewrite C1, VW. split.
      { rewrite VX, VY. unfold w. replace (IZR (if sx then (- a)%Z else a) * bpow radix2 e - IZR (if xorb sx sy then (- (a / b))%Z else (a / b)%Z) * (IZR (if sy then (- b)%Z else b) * bpow radix2 e)) with
          (IZR ((if sx then - a else a) - (if xorb sx sy then - (a / b) else a / b) * (if sy then - b else b)) * bpow radix2 e) by (rewrite minus_IZR, mult_IZR; ring).
        f_equal. f_equal. destruct sx, sy; cbn [xorb]; lia. }
      split; [exact C2|]. split.
      { rewrite VY, !Rabs_mult. apply Rmult_lt_compat_r; [apply Rabs_pos_lt; lra|]. rewrite <- !abs_IZR. apply IZR_lt. destruct sy; lia. }
      split; [exact LX|]. rewrite VX, VY. split.
      { replace (IZR (if sx then (- a)%Z else a) * bpow radix2 e * (IZR w * bpow radix2 e)) with (IZR ((if sx then - a else a) * w) * (bpow radix2 e * bpow radix2 e)) by (rewrite mult_IZR; ring). apply Rmult_le_pos; [apply IZR_le; unfold w; destruct sx; nia|nra]. }
      { replace (IZR (if xorb sx sy then (- (a / b))%Z else (a / b)%Z) * (IZR (if sx then (- a)%Z else a) * bpow radix2 e * (IZR (if sy then (- b)%Z else b) * bpow radix2 e))) with
          (IZR ((if xorb sx sy then - (a / b) else a / b) * ((if sx then - a else a) * (if sy then - b else b))) * (bpow radix2 e * bpow radix2 e)) by (rewrite !mult_IZR; ring).
        apply Rmult_le_pos; [|nra]. apply IZR_le. destruct sx, sy; cbn [xorb]; nia. }
  Qed.
  Lemma below_rnd f z : generic_format radix2 fx f -> f < rnd z -> f <= z.
  Proof. intros F H. destruct (Rle_or_lt f z) as [L|L]; [exact L|]. pose proof (rnd_ub z f F ltac:(lra)). lra. Qed.
  Notation wrapped := (DblModel.wrapped prec emax Hp He).
  Lemma wrap_ok (v l h : num) : small v -> small l -> small h -> B2R l < B2R h ->
    is_finite (wrapped v l h) = true /\ B2R l <= B2R (wrapped v l h) <= B2R h /\
    exists n : Z, Rabs (B2R (wrapped v l h) - (B2R v - IZR n * (B2R h - B2R l))) <= u * (Rabs (B2R v - B2R l) + Rabs (IZR n) * (B2R h - B2R l) + Rmax (Rabs (B2R l)) (Rabs (B2R h))).
  Proof.
    intros Sv Sl Sh L. destruct (small_sub v l Sv Sl) as [X FX]. destruct (small_sub h l Sh Sl) as [Y FY]. pose proof (proj2 (diff_sign l h L)) as Y0.
    destruct (fmod_ok (sub v l) (sub h l) FX FY ltac:(rewrite Y; lra)) as (n & M1 & M2 & M3 & M4 & M5 & M6). unfold DblModel.wrapped. destruct const_0 as [C FC]. rewrite (le_finite _ _ FC FX), C.
    pose proof (num_format (fmod (sub v l) (sub h l))) as GF. set (f := fmod (sub v l) (sub h l)) in *. rewrite X, Y in *. set (x := rnd (B2R v - B2R l)) in *. set (y := rnd (B2R h - B2R l)) in *.
    rewrite (Rabs_pos_eq y) in M3 by lra. pose proof (diff_err v l) as EX. fold x in EX. pose proof (diff_err h l) as EY. fold y in EY. rewrite (Rabs_pos_eq (B2R h - B2R l)) in EY by lra. pose proof u_pos as U.
    pose proof (proj2 Sl) as Bl. pose proof (proj2 Sh) as Bh. apply Rabs_le_inv in Bl, Bh. destruct quarter as [Q Q0].
    destruct (Rle_bool_spec 0 x) as [P|P].
    - assert (F0 : 0 <= B2R f) by (destruct (Req_dec x 0) as [Z|Z]; [rewrite Z, Rabs_R0 in M4; pose proof (Rabs_pos (B2R f)); unfold Rabs in M4; destruct (Rcase_abs (B2R f)); lra|apply Rmult_le_reg_l with x; lra]).
      rewrite (Rabs_pos_eq (B2R f)) in M3 by exact F0. pose proof (below_rnd (B2R f) (B2R h - B2R l) GF M3) as FU.
      destruct (add_ok f l M2 (proj1 Sl)) as [R FR]; [apply Rabs_le; lra|]. rewrite R. split; [exact FR|]. split; [split; [apply rnd_lb; [apply num_format|lra]|apply rnd_ub; [apply num_format|lra]]|].
      exists n. pose proof (sum_err f l) as ER. assert (T : Rabs (B2R f + B2R l) <= Rmax (Rabs (B2R l)) (Rabs (B2R h))).
      { apply Rabs_le. pose proof (Rmax_l (Rabs (B2R l)) (Rabs (B2R h))). pose proof (Rmax_r (Rabs (B2R l)) (Rabs (B2R h))). pose proof (Rle_abs (B2R h)). pose proof (Rle_abs (- B2R l)) as NL. rewrite Rabs_Ropp in NL. lra. }
      replace (rnd (B2R f + B2R l) - (B2R v - IZR n * (B2R h - B2R l))) with ((rnd (B2R f + B2R l) - (B2R f + B2R l)) + (x - (B2R v - B2R l)) + (- IZR n * (y - (B2R h - B2R l)))) by (rewrite M1; ring).
      eapply Rle_trans; [apply Rabs_triang|]. rewrite !Rmult_plus_distr_l. assert (E3 : Rabs (- IZR n * (y - (B2R h - B2R l))) <= u * (Rabs (IZR n) * (B2R h - B2R l))).
      { rewrite Rabs_mult, Rabs_Ropp. pose proof (Rabs_pos (IZR n)). nra. }
      pose proof (Rabs_triang (rnd (B2R f + B2R l) - (B2R f + B2R l)) (x - (B2R v - B2R l))) as TR. assert (u * Rabs (B2R f + B2R l) <= u * Rmax (Rabs (B2R l)) (Rabs (B2R h))) by (apply Rmult_le_compat_l; lra). lra.
    - assert (F0 : B2R f <= 0) by (apply Rmult_le_reg_l with (- x); lra). rewrite (Rabs_left1 (B2R f)) in M3 by exact F0. pose proof (below_rnd (- B2R f) (B2R h - B2R l) (generic_format_opp _ _ _ GF) M3) as FU.
      destruct (add_ok f h M2 (proj1 Sh)) as [R FR]; [apply Rabs_le; lra|]. rewrite R. split; [exact FR|]. split; [split; [apply rnd_lb; [apply num_format|lra]|apply rnd_ub; [apply num_format|lra]]|].
      exists (n - 1)%Z. pose proof (sum_err f h) as ER. assert (T : Rabs (B2R f + B2R h) <= Rmax (Rabs (B2R l)) (Rabs (B2R h))).
      { apply Rabs_le. pose proof (Rmax_l (Rabs (B2R l)) (Rabs (B2R h))). pose proof (Rmax_r (Rabs (B2R l)) (Rabs (B2R h))). pose proof (Rle_abs (B2R h)). pose proof (Rle_abs (- B2R l)) as NL. rewrite Rabs_Ropp in NL. lra. }
      assert (N0 : IZR n <= 0) by (destruct (Rle_or_lt (IZR n) 0) as [Z|Z]; [exact Z|exfalso]; assert (x * y < 0) by nra; nra).
      replace (rnd (B2R f + B2R h) - (B2R v - IZR (n - 1) * (B2R h - B2R l))) with ((rnd (B2R f + B2R h) - (B2R f + B2R h)) + (x - (B2R v - B2R l)) + (- IZR n * (y - (B2R h - B2R l)))) by (rewrite M1, minus_IZR; ring).
      eapply Rle_trans; [apply Rabs_triang|]. rewrite !Rmult_plus_distr_l. assert (E3 : Rabs (- IZR n * (y - (B2R h - B2R l))) <= u * (Rabs (IZR (n - 1)) * (B2R h - B2R l))).
      { rewrite Rabs_mult, Rabs_Ropp. rewrite minus_IZR, (Rabs_left1 (IZR n)), (Rabs_left1 (IZR n - 1)) by lra. apply Rle_trans with (- IZR n * (u * (B2R h - B2R l))); [apply Rmult_le_compat_l; lra|]. assert (0 <= u * (B2R h - B2R l)) by (apply Rmult_le_pos; lra). nra. }
      pose proof (Rabs_triang (rnd (B2R f + B2R h) - (B2R f + B2R h)) (x - (B2R v - B2R l))) as TR. assert (u * Rabs (B2R f + B2R h) <= u * Rmax (Rabs (B2R l)) (Rabs (B2R h))) by (apply Rmult_le_compat_l; lra). lra.
  Qed.

  (** * interpolation *)
  Notation lerp := (DblModel.lerp prec emax Hp He).
  Lemma twice_format : generic_format radix2 fx (2 * bpow radix2 (emax - 3)).
  Proof. replace (2 * bpow radix2 (emax - 3)) with (bpow radix2 (emax - 2)); [apply bpow_format; pose proof emin_small; lia|]. replace (emax - 2)%Z with (1 + (emax - 3))%Z by lia. rewrite bpow_plus. reflexivity. Qed.
  Lemma lerp_value (a b t : num) : small a -> small b -> is_finite t = true -> 0 <= B2R t <= 1 ->
    B2R (lerp a b t) = rnd (B2R a + rnd (B2R t * rnd (B2R b - B2R a))) /\ is_finite (lerp a b t) = true /\ B2R (mul t (sub b a)) = rnd (B2R t * rnd (B2R b - B2R a)).
  Proof.
    intros Sa Sb Ft T. unfold DblModel.lerp. destruct (small_sub b a Sb Sa) as [D FD]. destruct quarter as [Q Q0]. pose proof (proj2 Sa) as A. pose proof (proj2 Sb) as B.
    assert (DB : Rabs (rnd (B2R b - B2R a)) <= 2 * bpow radix2 (emax - 3)).
    { apply rnd_abs; [apply twice_format|]. apply Rabs_le. apply Rabs_le_inv in A, B. lra. }
    assert (MB : Rabs (B2R t * rnd (B2R b - B2R a)) <= 2 * bpow radix2 (emax - 3)) by (rewrite Rabs_mult, (Rabs_pos_eq (B2R t)) by lra; pose proof (Rabs_pos (rnd (B2R b - B2R a))); nra).
    destruct (mul_ok t (sub b a) Ft FD) as [M FM]; [rewrite D; lra|]. rewrite D in M.
    assert (MB' : Rabs (rnd (B2R t * rnd (B2R b - B2R a))) <= 2 * bpow radix2 (emax - 3)) by (apply rnd_abs; [apply twice_format|exact MB]).
    destruct (add_ok a (mul t (sub b a)) (proj1 Sa) FM) as [R FR]; [rewrite M; eapply Rle_trans; [apply Rabs_triang|]; lra|]. rewrite R, M. auto.
  Qed.
  Lemma lerp_err (a b t : num) : small a -> small b -> is_finite t = true -> 0 <= B2R t <= 1 -> Rabs (B2R (lerp a b t) - (B2R a + B2R t * (B2R b - B2R a))) <= u * (Rabs (B2R a) + 4 * Rabs (B2R b - B2R a)) + 2 * eta.
  Proof.
    intros Sa Sb Ft T. destruct (lerp_value a b t Sa Sb Ft T) as (V & _ & M). rewrite V. pose proof (sum_err a (mul t (sub b a))) as E3. rewrite M in E3. pose proof (diff_err b a) as E1. pose proof (rnd_err (B2R t * rnd (B2R b - B2R a))) as E2.
    set (d := B2R b - B2R a) in *. set (d' := rnd d) in *. set (m := rnd (B2R t * d')) in *. pose proof u_pos as U. pose proof eta_pos as ET.
    assert (D' : Rabs d' <= (1 + u) * Rabs d) by (replace d' with (d + (d' - d)) by ring; eapply Rle_trans; [apply Rabs_triang|]; lra).
    assert (TD : Rabs (B2R t * d') <= (1 + u) * Rabs d) by (rewrite Rabs_mult, (Rabs_pos_eq (B2R t)) by lra; pose proof (Rabs_pos d'); nra).
    assert (TE : Rabs (B2R t * (d' - d)) <= u * Rabs d) by (rewrite Rabs_mult, (Rabs_pos_eq (B2R t)) by lra; pose proof (Rabs_pos (d' - d)); nra).
    assert (UD : 0 <= u * Rabs d) by (apply Rmult_le_pos; [lra|apply Rabs_pos]). pose proof (Rabs_pos d) as AD.
    assert (E2' : Rabs (m - B2R t * d') <= u * (1 + u) * Rabs d + eta) by nra.
    assert (MM : Rabs m <= (1 + u) * (1 + u) * Rabs d + eta) by (replace m with (B2R t * d' + (m - B2R t * d')) by ring; eapply Rle_trans; [apply Rabs_triang|]; nra).
    assert (AM : Rabs (B2R a + m) <= Rabs (B2R a) + (1 + u) * (1 + u) * Rabs d + eta) by (eapply Rle_trans; [apply Rabs_triang|]; lra).
    replace (rnd (B2R a + m) - (B2R a + B2R t * d)) with ((rnd (B2R a + m) - (B2R a + m)) + (m - B2R t * d') + B2R t * (d' - d)) by ring.
    eapply Rle_trans; [apply Rabs_triang|]. pose proof (Rabs_triang (rnd (B2R a + m) - (B2R a + m)) (m - B2R t * d')) as TR.
    assert (E3' : Rabs (rnd (B2R a + m) - (B2R a + m)) <= u * Rabs (B2R a) + u * ((1 + u) * (1 + u) * Rabs d) + u * eta) by (eapply Rle_trans; [exact E3|]; nra).
    assert (UU : (1 + u) * (1 + u) <= 3 / 2) by nra. assert (u * ((1 + u) * (1 + u) * Rabs d) <= (3 / 2) * (u * Rabs d)) by (replace (u * ((1 + u) * (1 + u) * Rabs d)) with ((1 + u) * (1 + u) * (u * Rabs d)) by ring; apply Rmult_le_compat_r; assumption). assert (u * (1 + u) * Rabs d <= (5 / 4) * (u * Rabs d)) by (replace (u * (1 + u) * Rabs d) with ((1 + u) * (u * Rabs d)) by ring; apply Rmult_le_compat_r; [assumption|lra]). assert (u * eta <= eta) by nra. lra.
  Qed.
  Lemma lerp_mono (a b s t : num) : small a -> small b -> is_finite s = true -> is_finite t = true -> 0 <= B2R s -> B2R s <= B2R t -> B2R t <= 1 ->
    (B2R a <= B2R b -> B2R (lerp a b s) <= B2R (lerp a b t)) /\ (B2R b <= B2R a -> B2R (lerp a b t) <= B2R (lerp a b s)).
  Proof.
    intros Sa Sb Fs Ft S0 ST T1. destruct (lerp_value a b s Sa Sb Fs ltac:(lra)) as (V & _). destruct (lerp_value a b t Sa Sb Ft ltac:(lra)) as (W & _). rewrite V, W.
    split; intros L; apply rnd_le, Rplus_le_compat_l, rnd_le; [apply Rmult_le_compat_r; [apply rnd_lb; [apply generic_format_0|lra]|lra]|].
    assert (rnd (B2R b - B2R a) <= 0) by (apply rnd_ub; [apply generic_format_0|lra]). nra.
  Qed.
  Lemma lerp_0 (a b t : num) : small a -> small b -> is_finite t = true -> B2R t = 0 -> B2R (lerp a b t) = B2R a.
  Proof. intros Sa Sb Ft T. destruct (lerp_value a b t Sa Sb Ft ltac:(lra)) as (V & _). rewrite V, T, Rmult_0_l, rnd_0, Rplus_0_r. apply rnd_exact, num_format. Qed.
  Lemma lerp_same (a b t : num) : small a -> small b -> is_finite t = true -> 0 <= B2R t <= 1 -> B2R a = B2R b -> B2R (lerp a b t) = B2R a.
  Proof. intros Sa Sb Ft T E. destruct (lerp_value a b t Sa Sb Ft T) as (V & _). rewrite V, E. replace (B2R b - B2R b) with 0 by ring. rewrite rnd_0, Rmult_0_r, rnd_0, Rplus_0_r. apply rnd_exact, num_format. Qed.

  (** the fraction of the way from one key to the next *)
  Definition fraction (k1 k2 x : num) : num := div (sub x k1) (sub k2 k1).
  Lemma fraction_ok (k1 k2 x : num) : small k1 -> small k2 -> small x -> B2R k1 < B2R k2 -> B2R k1 <= B2R x <= B2R k2 ->
    B2R (fraction k1 k2 x) = rnd (rnd (B2R x - B2R k1) / rnd (B2R k2 - B2R k1)) /\ is_finite (fraction k1 k2 x) = true /\ 0 <= B2R (fraction k1 k2 x) <= 1 /\ (B2R x = B2R k1 -> B2R (fraction k1 k2 x) = 0) /\ (B2R x = B2R k2 -> B2R (fraction k1 k2 x) = 1).
  Proof.
    intros S1 S2 Sx L X. unfold fraction. destruct (small_sub x k1 Sx S1) as [N FN]. destruct (small_sub k2 k1 S2 S1) as [D FD]. pose proof (proj2 (diff_sign k1 k2 L)) as P. assert (N0 : 0 <= rnd (B2R x - B2R k1)) by (apply rnd_lb; [apply generic_format_0|lra]).
    assert (ND : rnd (B2R x - B2R k1) <= rnd (B2R k2 - B2R k1)) by (apply rnd_le; lra). assert (Q : 0 <= rnd (B2R x - B2R k1) / rnd (B2R k2 - B2R k1) <= 1).
    { split; [apply Rmult_le_pos; [lra|left; apply Rinv_0_lt_compat, P]|apply (Rmult_le_reg_r (rnd (B2R k2 - B2R k1))); [exact P|]]. unfold Rdiv. rewrite Rmult_assoc, Rinv_l by lra. lra. }
    destruct (div_ok (sub x k1) (sub k2 k1) FN) as [V F]; [rewrite D; lra|rewrite N, D; pose proof limit_big; rewrite Rabs_pos_eq by lra; lra|]. rewrite N, D in V. rewrite V. split; [reflexivity|]. split; [exact F|].
    assert (G1 : generic_format radix2 fx 1) by (rewrite <- (proj1 const_1); apply num_format). split; [split; [apply rnd_lb; [apply generic_format_0|lra]|apply rnd_ub; [exact G1|lra]]|].
    split; intros E; rewrite E; [replace (B2R k1 - B2R k1) with 0 by ring; rewrite rnd_0; unfold Rdiv; rewrite Rmult_0_l; apply rnd_0|]. unfold Rdiv. rewrite Rinv_r by lra. apply rnd_exact, G1.
  Qed.
  Lemma fraction_mono (k1 k2 x y : num) : small k1 -> small k2 -> small x -> small y -> B2R k1 < B2R k2 -> B2R k1 <= B2R x -> B2R x <= B2R y -> B2R y <= B2R k2 -> B2R (fraction k1 k2 x) <= B2R (fraction k1 k2 y).
  Proof.
    intros S1 S2 Sx Sy L X XY Y. rewrite (proj1 (fraction_ok k1 k2 x S1 S2 Sx L ltac:(lra))), (proj1 (fraction_ok k1 k2 y S1 S2 Sy L ltac:(lra))). pose proof (proj2 (diff_sign k1 k2 L)) as P.
    apply rnd_le. apply Rmult_le_compat_r; [left; apply Rinv_0_lt_compat, P|]. apply rnd_le. lra.
  Qed.
  Lemma fraction_err (k1 k2 x : num) : small k1 -> small k2 -> small x -> B2R k1 < B2R k2 -> B2R k1 <= B2R x <= B2R k2 ->
    Rabs (B2R (fraction k1 k2 x) - (B2R x - B2R k1) / (B2R k2 - B2R k1)) <= 4 * u + eta.
  Proof.
    intros S1 S2 Sx L X. rewrite (proj1 (fraction_ok k1 k2 x S1 S2 Sx L X)). pose proof (diff_err x k1) as E1. pose proof (diff_err k2 k1) as E2. pose proof (proj2 (diff_sign k1 k2 L)) as P. rewrite (Rabs_pos_eq (B2R x - B2R k1)) in E1 by lra. rewrite (Rabs_pos_eq (B2R k2 - B2R k1)) in E2 by lra.
    pose proof (rnd_err (rnd (B2R x - B2R k1) / rnd (B2R k2 - B2R k1))) as E3. assert (N0 : 0 <= rnd (B2R x - B2R k1)) by (apply rnd_lb; [apply generic_format_0|lra]). assert (ND : rnd (B2R x - B2R k1) <= rnd (B2R k2 - B2R k1)) by (apply rnd_le; lra).
    set (n := B2R x - B2R k1) in *. set (d := B2R k2 - B2R k1) in *. set (n' := rnd n) in *. set (d' := rnd d) in *. pose proof u_pos as U. assert (D0 : 0 < d) by (unfold d; lra).
    assert (ND' : n <= d) by (unfold n, d; lra). assert (N00 : 0 <= n) by (unfold n; lra). clearbody n d n' d'. apply Rabs_le_inv in E1, E2.
    assert (Q1 : Rabs (n' / d') <= 1). { rewrite Rabs_pos_eq by (apply Rmult_le_pos; [lra|left; apply Rinv_0_lt_compat, P]). apply (Rmult_le_reg_r d'); [exact P|]. unfold Rdiv. rewrite Rmult_assoc, Rinv_l by lra. lra. }
    assert (Q2 : Rabs (n' / d' - n / d) <= 3 * u).
    { replace (n' / d' - n / d) with ((n' * d - n * d') / (d * d')) by (field; lra). unfold Rdiv. rewrite Rabs_mult, (Rabs_pos_eq (/ (d * d'))) by (left; apply Rinv_0_lt_compat, Rmult_lt_0_compat; lra). apply (Rmult_le_reg_r (d * d')); [apply Rmult_lt_0_compat; lra|]. rewrite Rmult_assoc, Rinv_l, Rmult_1_r by nra.
      replace (n' * d - n * d') with ((n' - n) * d - n * (d' - d)) by ring. assert (B1 : Rabs ((n' - n) * d) <= u * n * d) by (rewrite Rabs_mult, (Rabs_pos_eq d) by lra; apply Rmult_le_compat_r; [lra|apply Rabs_le; lra]).
      assert (B2 : Rabs (n * (d' - d)) <= n * (u * d)) by (rewrite Rabs_mult, (Rabs_pos_eq n) by lra; apply Rmult_le_compat_l; [lra|apply Rabs_le; lra]).
      assert (T : Rabs ((n' - n) * d - n * (d' - d)) <= u * n * d + n * (u * d)) by (unfold Rminus at 1; eapply Rle_trans; [apply Rabs_triang|]; rewrite Rabs_Ropp; lra). eapply Rle_trans; [exact T|].
      assert (DD : (1 - u) * d <= d') by lra. apply Rle_trans with (2 * u * (d * d)); [assert (0 <= u * d) by nra; nra|]. assert (0 <= u * d) by nra. assert (u * d * (2 * d) <= u * d * (3 * d')) by (apply Rmult_le_compat_l; nra). lra. }
    replace (rnd (n' / d') - n / d) with ((rnd (n' / d') - n' / d') + (n' / d' - n / d)) by ring. eapply Rle_trans; [apply Rabs_triang|]. nra.
  Qed.
  Notation between := (DblModel.between prec emax Hp He).
  Lemma between_lerp p q x : between p q x = lerp (snd p) (snd q) (fraction (fst p) (fst q) x).
  Proof. reflexivity. Qed.
  Definition goodp (p : num * num) : Prop := small (fst p) /\ small (snd p).
  Lemma between_ok p q x : goodp p -> goodp q -> small x -> B2R (fst p) < B2R (fst q) -> B2R (fst p) <= B2R x <= B2R (fst q) ->
    is_finite (between p q x) = true /\ (B2R x = B2R (fst p) -> B2R (between p q x) = B2R (snd p)) /\
    Rabs (B2R (between p q x) - (B2R (snd p) + (B2R x - B2R (fst p)) / (B2R (fst q) - B2R (fst p)) * (B2R (snd q) - B2R (snd p)))) <= u * (Rabs (B2R (snd p)) + 8 * Rabs (B2R (snd q) - B2R (snd p))) + eta * (2 + Rabs (B2R (snd q) - B2R (snd p))).
  Proof.
    intros [P1 P2] [Q1 Q2] Sx L X. rewrite between_lerp. destruct (fraction_ok _ _ _ P1 Q1 Sx L X) as (_ & F & T & Z & _). split; [apply (lerp_value _ _ _ P2 Q2 F T)|]. split; [intros E; apply lerp_0; auto|].
    pose proof (lerp_err _ _ _ P2 Q2 F T) as E1. pose proof (fraction_err _ _ _ P1 Q1 Sx L X) as E2. set (t := B2R (fraction (fst p) (fst q) x)) in *. set (tau := (B2R x - B2R (fst p)) / (B2R (fst q) - B2R (fst p))) in *. set (d := B2R (snd q) - B2R (snd p)) in *.
    replace (B2R (lerp (snd p) (snd q) (fraction (fst p) (fst q) x)) - (B2R (snd p) + tau * d)) with ((B2R (lerp (snd p) (snd q) (fraction (fst p) (fst q) x)) - (B2R (snd p) + t * d)) + (t - tau) * d) by ring.
    eapply Rle_trans; [apply Rabs_triang|]. rewrite (Rabs_mult (t - tau)). pose proof (Rabs_pos d). nra.
  Qed.
  Lemma between_mono p q x y : goodp p -> goodp q -> small x -> small y -> B2R (fst p) < B2R (fst q) -> B2R (fst p) <= B2R x -> B2R x <= B2R y -> B2R y <= B2R (fst q) ->
    (B2R (snd p) <= B2R (snd q) -> B2R (between p q x) <= B2R (between p q y)) /\ (B2R (snd q) <= B2R (snd p) -> B2R (between p q y) <= B2R (between p q x)).
  Proof.
    intros [P1 P2] [Q1 Q2] Sx Sy L X XY Y. rewrite !between_lerp. destruct (fraction_ok _ _ _ P1 Q1 Sx L ltac:(lra)) as (_ & F & T & _). destruct (fraction_ok _ _ _ P1 Q1 Sy L ltac:(lra)) as (_ & G & V & _).
    apply lerp_mono; auto; [apply T|apply fraction_mono; auto|apply V].
  Qed.

  (** ** maps *)
  Notation lerp_after := (DblModel.lerp_after prec emax Hp He).
  Notation lerp_map := (DblModel.lerp_map prec emax Hp He).
  Notation piece := (DblModel.piece prec emax Hp He).
  Notation piecewise := (DblModel.piecewise prec emax Hp He).
  Definition increasing (points : list (num * num)) : Prop := Forall goodp points /\ StronglySorted (fun p q => B2R (fst p) < B2R (fst q)) points.
  Lemma increasing_app l p q r : increasing (l ++ p :: q :: r) -> goodp p /\ goodp q /\ B2R (fst p) < B2R (fst q) /\ (forall o, In o l -> B2R (fst o) < B2R (fst p)) /\ (forall o, In o r -> B2R (fst q) < B2R (fst o)) /\ Forall goodp l /\ Forall goodp r.
  Proof.
    intros [F S]. apply Forall_app in F. destruct F as [Fl F]. inversion F as [|? ? Gp F' E1]; subst. inversion F' as [|? ? Gq F'' E2]; subst. split; [exact Gp|]. split; [exact Gq|].
    assert (K : StronglySorted (fun p q => B2R (fst p) < B2R (fst q)) (p :: q :: r) /\ forall o, In o l -> B2R (fst o) < B2R (fst p)).
    { clear F F' F'' Fl. induction l as [|o l IH]; [split; [exact S|intros o []]|]. cbn [List.app] in S. inversion S as [|? ? S' A]; subst. destruct (IH S') as [K1 K2]. split; [exact K1|]. intros o' [<-|I]; [|apply K2, I]. rewrite Forall_forall in A. apply A, in_or_app. right. left. reflexivity. }
    destruct K as [K1 K2]. inversion K1 as [|? ? K3 A]; subst. inversion K3 as [|? ? K4 B]; subst. rewrite Forall_forall in A, B. split; [apply A; left; reflexivity|]. split; [exact K2|]. split; [apply B|]. auto.
  Qed.
  Lemma lt_false (x k : num) : small x -> small k -> B2R k <= B2R x -> lt x k = false.
  Proof. intros A B L. rewrite lt_finite by (apply A || apply B). apply Rlt_bool_false, L. Qed.
  Lemma lt_true (x k : num) : small x -> small k -> B2R x < B2R k -> lt x k = true.
  Proof. intros A B L. rewrite lt_finite by (apply A || apply B). apply Rlt_bool_true, L. Qed.
  Lemma after_at o l p q r x : small x -> Forall goodp l -> goodp p -> goodp q -> (forall i, In i l -> B2R (fst i) <= B2R x) -> B2R (fst p) <= B2R x < B2R (fst q) -> lerp_after o (l ++ p :: q :: r) x = between p q x.
  Proof.
    intros Sx F Gp Gq A B. revert o. induction l as [|i l IH]; intros o; cbn [List.app DblModel.lerp_after].
    - rewrite lt_false by (auto; apply Gp || apply B). rewrite lt_true; [reflexivity|exact Sx|apply Gq|apply B].
    - inversion F; subst. rewrite lt_false; [apply IH; [assumption|intros; apply A; right; assumption]|exact Sx|apply H1|apply A; left; reflexivity].
  Qed.
  Lemma map_between l p q r x : increasing (l ++ p :: q :: r) -> small x -> B2R (fst p) <= B2R x < B2R (fst q) -> lerp_map (l ++ p :: q :: r) x = Ok (between p q x).
  Proof.
    intros I Sx B. destruct (increasing_app _ _ _ _ I) as (Gp & Gq & L & A & _ & F & _). destruct l as [|o l]; cbn [List.app DblModel.lerp_map].
    - rewrite lt_false by (auto; apply Gp || apply B). cbn [DblModel.lerp_after]. rewrite lt_true; [reflexivity|exact Sx|apply Gq|apply B].
    - inversion F; subst. rewrite lt_false; [|exact Sx|apply H1|pose proof (A o (or_introl eq_refl)); lra]. f_equal. apply after_at; auto. intros i Ii. pose proof (A i (or_intror Ii)). lra.
  Qed.
  Lemma map_first p r x : goodp p -> small x -> B2R x < B2R (fst p) -> lerp_map (p :: r) x = Ok (snd p).
  Proof. intros G Sx L. cbn [DblModel.lerp_map]. rewrite lt_true; [reflexivity|exact Sx|apply G|exact L]. Qed.
  Lemma after_last o l p x : small x -> Forall goodp (l ++ [p]) -> (forall i, In i (l ++ [p]) -> B2R (fst i) <= B2R x) -> lerp_after o (l ++ [p]) x = snd p.
  Proof.
    intros Sx. revert o. induction l as [|i l IH]; intros o F A; cbn [List.app DblModel.lerp_after] in *; inversion F; subst.
    - rewrite lt_false; [reflexivity|exact Sx|apply H1|apply A; left; reflexivity].
    - rewrite lt_false; [apply IH; [assumption|intros j J; apply A; right; exact J]|exact Sx|apply H1|apply A; left; reflexivity].
  Qed.
  Lemma sorted_last (l : list (num * num)) p : StronglySorted (fun p q => B2R (fst p) < B2R (fst q)) (l ++ [p]) -> forall i, In i (l ++ [p]) -> B2R (fst i) <= B2R (fst p).
  Proof.
    induction l as [|o l IH]; cbn [List.app]; intros S i I; [destruct I as [<-|[]]; lra|]. inversion S as [|? ? S' A]; subst. destruct I as [<-|I]; [|apply IH; assumption]. rewrite Forall_forall in A. left. apply A, in_or_app. right. left. reflexivity.
  Qed.
  Lemma map_last l p x : increasing (l ++ [p]) -> small x -> B2R (fst p) <= B2R x -> lerp_map (l ++ [p]) x = Ok (snd p).
  Proof.
    intros [F S] Sx L. pose proof (sorted_last l p S) as A. destruct l as [|o l]; cbn [List.app DblModel.lerp_map] in *; inversion F; subst.
    - rewrite lt_false; [reflexivity|exact Sx|apply H1|exact L].
    - rewrite lt_false; [|exact Sx|apply H1|pose proof (A o (or_introl eq_refl)); lra]. f_equal. apply after_last; [exact Sx|assumption|]. intros i I. pose proof (A i (or_intror I)). lra.
  Qed.
  Lemma map_key (points : list (num * num)) p : increasing points -> In p points -> exists v, lerp_map points (fst p) = Ok v /\ B2R v = B2R (snd p) /\ is_finite v = true.
  Proof.
    intros I J. destruct (in_split _ _ J) as (l & r & ->). destruct r as [|q r].
    - exists (snd p). assert (G : goodp p) by (destruct I as [F _]; rewrite Forall_forall in F; apply F, J). split; [apply map_last; [exact I|apply G|lra]|]. split; [reflexivity|apply G].
    - destruct (increasing_app _ _ _ _ I) as (Gp & Gq & L & _). exists (between p q (fst p)). destruct (between_ok p q (fst p) Gp Gq (proj1 Gp) L ltac:(lra)) as (B1 & B2 & _). split; [apply map_between; [exact I|apply Gp|lra]|]. auto.
  Qed.
  (** ** piecewise linear functions *)
  Lemma piece_at o o' l p q r x : small x -> Forall goodp (o' :: l) -> goodp p -> goodp q -> (forall i, In i (o' :: l) -> B2R (fst i) < B2R x) -> B2R (fst p) < B2R x <= B2R (fst q) -> piece o o' (l ++ p :: q :: r) x = between p q x.
  Proof.
    intros Sx. revert o o'. induction l as [|i l IH]; intros o o' F Gp Gq A B; inversion F; subst; cbn [List.app DblModel.piece].
    - rewrite lt_true; [|apply H1|exact Sx|apply A; left; reflexivity]. rewrite lt_true; [|apply Gp|exact Sx|apply B]. destruct r; cbn [DblModel.piece]; rewrite lt_false; try reflexivity; try exact Sx; try apply Gq; apply B.
    - rewrite lt_true; [|apply H1|exact Sx|apply A; left; reflexivity]. apply IH; auto. intros j J. apply A. right. exact J.
  Qed.
  Lemma piecewise_between l p q r x : increasing (l ++ p :: q :: r) -> small x -> B2R (fst p) < B2R x <= B2R (fst q) -> piecewise (l ++ p :: q :: r) x = Ok (between p q x).
  Proof.
    intros I Sx B. destruct (increasing_app _ _ _ _ I) as (Gp & Gq & L & A & _ & F & _). destruct l as [|o l]; [|destruct l as [|o' l]]; cbn [List.app DblModel.piecewise]; f_equal.
    - destruct r; cbn [DblModel.piece]; (rewrite lt_false; [reflexivity|apply Gq|exact Sx|apply B]).
    - cbn [DblModel.piece]. rewrite lt_true; [|apply Gp|exact Sx|apply B]. destruct r; cbn [DblModel.piece]; (rewrite lt_false; [reflexivity|apply Gq|exact Sx|apply B]).
    - inversion F; subst. apply piece_at; auto. intros i Ii. pose proof (A i (or_intror Ii)). lra.
  Qed.
  Lemma piecewise_first p q r x : goodp q -> small x -> B2R x <= B2R (fst q) -> piecewise (p :: q :: r) x = Ok (between p q x).
  Proof. intros G Sx L. cbn [DblModel.piecewise]. f_equal. destruct r; cbn [DblModel.piece]; (rewrite lt_false; [reflexivity|apply G|exact Sx|exact L]). Qed.
  Lemma between_end p q x : goodp p -> goodp q -> small x -> B2R (fst p) < B2R (fst q) -> B2R x = B2R (fst q) -> Rabs (B2R (between p q x) - B2R (snd q)) <= u * (Rabs (B2R (snd p)) + 4 * Rabs (B2R (snd q) - B2R (snd p))) + 2 * eta.
  Proof.
    intros [P1 P2] [Q1 Q2] Sx L E. rewrite between_lerp. destruct (fraction_ok _ _ _ P1 Q1 Sx L ltac:(lra)) as (_ & F & T & _ & O). pose proof (lerp_err _ _ _ P2 Q2 F T) as R. rewrite (O E) in R.
    replace (B2R (snd p) + 1 * (B2R (snd q) - B2R (snd p))) with (B2R (snd q)) in R by ring. exact R.
  Qed.

  (** * averages *)
  Notation average_of := (DblModel.average_of prec emax Hp He).
  Notation average_get := (DblModel.average_get prec emax Hp He).
  Notation average_add := (DblModel.average_add prec emax Hp He).
  Definition total (vs : list num) : R := fold_right (fun v s => B2R v + s) 0 vs.
  Definition weight (vs : list num) : R := fold_right (fun v s => Rabs (B2R v) + s) 0 vs.
  Lemma total_app l v : total (l ++ [v]) = total l + B2R v.
  Proof. induction l as [|w l IH]; cbn [List.app total fold_right]; [ring|]. fold (total (l ++ [v])). rewrite IH. fold (total l). ring. Qed.
  Lemma weight_app l v : weight (l ++ [v]) = weight l + Rabs (B2R v).
  Proof. induction l as [|w l IH]; cbn [List.app weight fold_right]; [ring|]. fold (weight (l ++ [v])). rewrite IH. fold (weight l). ring. Qed.
  Lemma weight_total l : Rabs (total l) <= weight l.
  Proof. induction l as [|w l IH]; cbn [total weight fold_right]; [rewrite Rabs_R0; lra|]. fold (total l) (weight l). eapply Rle_trans; [apply Rabs_triang|]. lra. Qed.
  Lemma integer_format n : (0 <= n <= 2 ^ (prec - 1))%Z -> generic_format radix2 fx (IZR n).
  Proof.
    intros B. pose proof emin_small as E. destruct (Z.eq_dec n 0) as [->|N]; [apply generic_format_0|]. replace (IZR n) with (F2R (Float radix2 n 0)) by (unfold F2R; cbn; ring). apply generic_format_F2R. intros _. unfold cexp, fexp. rewrite mag_F2R by exact N.
    assert (mag radix2 (IZR n) <= prec)%Z; [|lia]. apply mag_le_bpow; [apply IZR_neq, N|]. rewrite Rabs_pos_eq by (apply IZR_le; lia). change 2%Z with (radix_val radix2) in B. eapply Rle_lt_trans; [apply IZR_le, B|]. rewrite IZR_Zpower by lia. apply bpow_lt. lia.
  Qed.
  Lemma average_sum (vs : list num) : Forall (fun v => is_finite v = true) vs -> weight vs <= bpow radix2 (emax - 3) -> (Z.of_nat (length vs) <= 2 ^ (prec - 1))%Z ->
    let a := average_of vs in is_finite (tot_v _ _ a) = true /\ is_finite (tot_w _ _ a) = true /\ B2R (tot_w _ _ a) = INR (length vs) /\ Rabs (B2R (tot_v _ _ a) - total vs) <= 2 * INR (length vs) * u * weight vs.
  Proof.
    cbv zeta. induction vs as [|v vs IH] using rev_ind; intros F W N.
    - destruct const_0 as [C FC]. cbn [DblModel.average_of fold_left DblModel.average_init tot_v tot_w length INR total weight fold_right]. rewrite C. split; [exact FC|]. split; [exact FC|]. split; [reflexivity|]. rewrite Rminus_0_r, Rabs_R0. lra.
    - apply Forall_app in F. destruct F as [F Fv]. inversion Fv as [|? ? Fv' _]; subst. rewrite weight_app in *. rewrite total_app. rewrite app_length in *. cbn [length] in *. rewrite Nat.add_1_r in *. pose proof (Rabs_pos (B2R v)) as V0.
      destruct (IH F ltac:(lra) ltac:(lia)) as (A1 & A2 & A3 & A4). unfold DblModel.average_of in *. rewrite fold_left_app. cbn [fold_left]. set (a := fold_left _ vs _) in *. unfold DblModel.average_add. cbn [tot_v tot_w]. destruct const_1 as [C FC].
      pose proof (weight_total vs) as WT. pose proof (Rabs_pos (total vs)) as T0. destruct quarter as [Q Q0]. pose proof u_pos as U. rewrite S_INR.
      assert (NU : 2 * (INR (length vs) + 1) * u <= 1).
      { rewrite <- S_INR, INR_IZR_INZ. assert (IZR (Z.of_nat (S (length vs))) <= bpow radix2 (prec - 1)); [rewrite <- IZR_Zpower by lia; apply IZR_le; exact N|]. assert (2 * bpow radix2 (prec - 1) * u = 1); [|assert (0 <= u) by lra; nra]. unfold u. change 2 with (bpow radix2 1). rewrite <- !bpow_plus. replace (1 + (prec - 1) + - prec)%Z with 0%Z by lia. reflexivity. }
      destruct (mul_ok (const 1 0) v FC Fv') as [M FM]; [rewrite C, Rmult_1_l; lra|]. rewrite C, Rmult_1_l, (rnd_exact _ (num_format v)) in M.
      assert (SB : Rabs (B2R (tot_v _ _ a) + B2R v) <= 2 * (weight vs + Rabs (B2R v))).
      { replace (B2R (tot_v _ _ a) + B2R v) with ((B2R (tot_v _ _ a) - total vs) + total vs + B2R v) by ring. eapply Rle_trans; [apply Rabs_triang|]. pose proof (Rabs_triang (B2R (tot_v _ _ a) - total vs) (total vs)). assert (2 * INR (length vs) * u * weight vs <= weight vs) by nra. lra. }
      destruct (add_ok (tot_v _ _ a) (mul (const 1 0) v) A1 FM) as [R FR]; [rewrite M; lra|]. rewrite M in R.
      assert (WN : rnd (B2R (tot_w _ _ a) + B2R (const 1 0)) = INR (length vs) + 1). { rewrite A3, C, <- S_INR, INR_IZR_INZ. apply rnd_exact, integer_format. lia. }
      destruct (add_ok (tot_w _ _ a) (const 1 0) A2 FC) as [R' FR'].
      { rewrite A3, C, <- S_INR, INR_IZR_INZ, Rabs_pos_eq by (apply IZR_le; lia). apply Rle_trans with (bpow radix2 (prec - 1)); [rewrite <- IZR_Zpower by lia; apply IZR_le; exact N|]. apply bpow_le. pose proof (He : (prec < emax)%Z). lia. }
      split; [exact FR|]. split; [exact FR'|]. split; [rewrite R'; exact WN|]. rewrite R. pose proof (sum_err (tot_v _ _ a) v) as E.
      replace (rnd (B2R (tot_v _ _ a) + B2R v) - (total vs + B2R v)) with ((rnd (B2R (tot_v _ _ a) + B2R v) - (B2R (tot_v _ _ a) + B2R v)) + (B2R (tot_v _ _ a) - total vs)) by ring. eapply Rle_trans; [apply Rabs_triang|].
      assert (0 <= u * Rabs (B2R v)) by (apply Rmult_le_pos; lra). pose proof (pos_INR (length vs)) as NN. assert (0 <= INR (length vs) * (u * Rabs (B2R v))) by (apply Rmult_le_pos; lra).
      assert (u * Rabs (B2R (tot_v _ _ a) + B2R v) <= u * (2 * (weight vs + Rabs (B2R v)))) by (apply Rmult_le_compat_l; lra). nra.
  Qed.
  Lemma average_mean (vs : list num) : vs <> [] -> Forall (fun v => is_finite v = true) vs -> weight vs <= bpow radix2 (emax - 3) -> (Z.of_nat (length vs) <= 2 ^ (prec - 1))%Z ->
    let m := average_get (average_of vs) in is_finite m = true /\ Rabs (B2R m - total vs / INR (length vs)) <= (2 * INR (length vs) + 2) * u * (weight vs / INR (length vs)) + eta.
  Proof.
    intros NE F W N. destruct (average_sum vs F W N) as (A1 & A2 & A3 & A4). cbv zeta. unfold DblModel.average_get. destruct const_0 as [C FC]. set (a := average_of vs) in *. set (n := INR (length vs)) in *.
    assert (N1 : 1 <= n) by (unfold n; change 1 with (INR 1); apply le_INR; destruct vs; [contradiction|cbn; lia]). rewrite lt_finite by assumption. rewrite C, A3, Rlt_bool_true by lra. pose proof u_pos as U. pose proof (weight_total vs) as WT. destruct quarter as [Q Q0].
    assert (NU : 2 * n * u <= 1).
    { unfold n. rewrite INR_IZR_INZ. assert (IZR (Z.of_nat (length vs)) <= bpow radix2 (prec - 1)); [rewrite <- IZR_Zpower by lia; apply IZR_le; exact N|]. assert (2 * bpow radix2 (prec - 1) * u = 1); [|assert (0 <= u) by lra; nra]. unfold u. change 2 with (bpow radix2 1). rewrite <- !bpow_plus. replace (1 + (prec - 1) + - prec)%Z with 0%Z by lia. reflexivity. }
    assert (W0 : 0 <= weight vs) by (pose proof (Rabs_pos (total vs)); lra).
    assert (SB : Rabs (B2R (tot_v _ _ a)) <= 2 * weight vs).
    { replace (B2R (tot_v _ _ a)) with ((B2R (tot_v _ _ a) - total vs) + total vs) by ring. eapply Rle_trans; [apply Rabs_triang|]. assert (2 * n * u * weight vs <= weight vs) by nra. lra. }
    assert (I0 : 0 < / n <= 1) by (split; [apply Rinv_0_lt_compat; lra|rewrite <- Rinv_1; apply Rinv_le; lra]).
    assert (DB : Rabs (B2R (tot_v _ _ a) / n) <= 2 * weight vs * / n) by (unfold Rdiv; rewrite Rabs_mult, (Rabs_pos_eq (/ n)) by lra; apply Rmult_le_compat_r; lra).
    destruct (div_ok (tot_v _ _ a) (tot_w _ _ a) A1) as [R FR]; [lra|rewrite A3; eapply Rle_trans; [exact DB|]; nra|]. split; [exact FR|]. rewrite R, A3. pose proof (rnd_err (B2R (tot_v _ _ a) / n)) as E.
    replace (rnd (B2R (tot_v _ _ a) / n) - total vs / n) with ((rnd (B2R (tot_v _ _ a) / n) - B2R (tot_v _ _ a) / n) + (B2R (tot_v _ _ a) - total vs) * / n) by (unfold Rdiv; ring). eapply Rle_trans; [apply Rabs_triang|].
    rewrite (Rabs_mult _ (/ n)), (Rabs_pos_eq (/ n)) by lra. assert (Rabs (B2R (tot_v _ _ a) - total vs) * / n <= 2 * n * u * weight vs * / n) by (apply Rmult_le_compat_r; lra). assert (u * Rabs (B2R (tot_v _ _ a) / n) <= u * (2 * weight vs * / n)) by (apply Rmult_le_compat_l; lra). unfold Rdiv. lra.
  Qed.
End Numbers.
