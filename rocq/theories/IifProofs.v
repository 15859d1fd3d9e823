(** Lemmas about recursive filters in floating point. *)
From Coq Require Import List Arith Bool ZArith Reals Lra Lia.
From Flocq Require Import Core IEEE754.BinarySingleNaN.
From Verif Require Import Base BaseProofs SigSpec SigModel SigProofs DblSpec DblModel DblProofs IifSpec IifModel.
Import ListNotations.
Local Open Scope R_scope.

Fixpoint sumto (g : nat -> R) (m : nat) : R := match m with O => 0 | S k => sumto g k + g k end.
Lemma sumto_le g h m : (forall i, (i < m)%nat -> g i <= h i) -> sumto g m <= sumto h m.
Proof. induction m as [|m IH]; intros H; cbn; [lra|]. assert (sumto g m <= sumto h m) by (apply IH; intros; apply H; lia). specialize (H m ltac:(lia)). lra. Qed.
Lemma sumto_ext g h m : (forall i, (i < m)%nat -> g i = h i) -> sumto g m = sumto h m.
Proof. induction m as [|m IH]; intros H; cbn; [reflexivity|]. rewrite IH, (H m) by (try intros; try apply H; lia). reflexivity. Qed.
Lemma sumto_nonneg g m : (forall i, 0 <= g i) -> 0 <= sumto g m.
Proof. intros H. induction m as [|m IH]; cbn; [lra|]. specialize (H m). lra. Qed.
Lemma sumto_scale c g m : sumto (fun i => c * g i) m = c * sumto g m.
Proof. induction m as [|m IH]; cbn; [ring|]. rewrite IH. ring. Qed.
Lemma sumto_plus g h m : sumto (fun i => g i + h i) m = sumto g m + sumto h m.
Proof. induction m as [|m IH]; cbn; [ring|]. rewrite IH. ring. Qed.
Lemma sumto_abs g m : Rabs (sumto g m) <= sumto (fun i => Rabs (g i)) m.
Proof. induction m as [|m IH]; cbn; [rewrite Rabs_R0; lra|]. eapply Rle_trans; [apply Rabs_triang|]. lra. Qed.
Lemma sumto_first g m : sumto g (S m) = g 0%nat + sumto (fun i => g (S i)) m.
Proof. induction m as [|m IH]; cbn [sumto] in *; [ring|]. rewrite IH. ring. Qed.
Lemma sumto_list l : sumto (fun i => Rabs (nth i l 0)) (length l) = abs_sum l.
Proof. induction l as [|v l IH]; [reflexivity|]. cbn [length]. rewrite sumto_first. cbn [nth abs_sum fold_right]. rewrite IH. reflexivity. Qed.
Lemma sumto_total g m : SigSpec.total (map g (seq 0 m)) = sumto g m.
Proof.
  assert (T : forall l x, SigSpec.total (l ++ [x]) = SigSpec.total l + x) by (intros l x; unfold SigSpec.total; induction l as [|y l IH]; cbn; [ring|rewrite IH; ring]).
  induction m as [|m IH]; [reflexivity|]. rewrite seq_S, map_app. cbn [map sumto Nat.add]. rewrite T, IH. reflexivity.
Qed.

Section Pure.
  Context (prec emax : Z) (Hp : Prec_gt_0 prec) (He : Prec_lt_emax prec emax).
  Notation num := (binary_float prec emax).
  Notation filter := (filter prec emax).
  Notation Filter := (Filter prec emax).
  Notation c_b0 := (c_b0 prec emax). Notation c_x := (c_x prec emax). Notation c_y := (c_y prec emax). Notation c_b := (c_b prec emax). Notation c_a := (c_a prec emax).
  Notation add := (DblModel.add prec emax Hp He).
  Notation mul := (DblModel.mul prec emax Hp He).
  Notation zero := (DblModel.const prec emax Hp He 0 0).
    Definition p_shifted (l : list num) : list num := fold_left (fun l i => list_set l i (nth (i - 1) l zero)) (rev (seq 1 (length l - 1))) l.
    Definition p_output (f : filter) (x : num) : num :=
    fold_left (fun y i => add y (add (mul (nth i (c_b f) zero) (nth i (c_x f) zero)) (mul (nth i (c_a f) zero) (nth i (c_y f) zero)))) (seq 0 (length (c_b f))) (mul (c_b0 f) x).
    Definition p_filter_step (f : filter) (x : num) : filter * num :=
    let y := p_output f x in (Filter (c_b0 f) (list_set (p_shifted (c_x f)) 0 x) (list_set (p_shifted (c_y f)) 0 y) (c_b f) (c_a f), y).
    Fixpoint p_filter_run (f : filter) (us : list num) : list num := match us with [] => [] | x :: r => let (f', y) := p_filter_step f x in y :: p_filter_run f' r end.
  Lemma get_in (l : list num) i : (i < length l)%nat -> vec_get l i = Ok (nth i l zero).
  Proof. intros H. unfold vec_get. rewrite (nth_error_nth' l zero H). reflexivity. Qed.
  Lemma set_in (l : list num) i v : (i < length l)%nat -> vec_set l i v = Ok (list_set l i v).
  Proof. intros H. unfold vec_set. apply Nat.ltb_lt in H. rewrite H. reflexivity. Qed.
  Lemma up_fold {A} (body : nat -> A -> outcome A) (g : A -> nat -> A) n : forall first s, (forall i s, (first <= i < first + n)%nat -> body i s = Ok (g s i)) -> ofor_up n first body s = Ok (fold_left g (seq first n) s).
  Proof. induction n as [|n IH]; intros first s H; [reflexivity|]. cbn [ofor_up seq fold_left]. rewrite H by lia. cbn [obind]. apply IH. intros i t I. apply H. lia. Qed.
  Lemma output_pure f x : length (c_x f) = length (c_b f) -> length (c_y f) = length (c_b f) -> length (c_a f) = length (c_b f) -> output prec emax Hp He f x = Ok (p_output f x).
  Proof. intros Lx Ly La. unfold output, p_output. apply up_fold. intros i s I. rewrite !get_in by lia. reflexivity. Qed.
  Lemma down_fold m : forall x y : list num, (m < length x)%nat -> (m < length y)%nat -> ofor_down m (fun m s => do v <- vec_get (fst s) m; do x <- vec_set (fst s) (m + 1) v; do w <- vec_get (snd s) m; do y <- vec_set (snd s) (m + 1) w; Ok (x, y)) (x, y) =
    Ok (fold_left (fun l i => list_set l i (nth (i - 1) l zero)) (rev (seq 1 m)) x, fold_left (fun l i => list_set l i (nth (i - 1) l zero)) (rev (seq 1 m)) y).
  Proof.
    induction m as [|m IH]; intros x y Hx Hy; [reflexivity|]. cbn [ofor_down fst snd]. rewrite !get_in by lia. cbn [obind]. rewrite set_in by lia. cbn [obind]. rewrite set_in by lia. cbn [obind]. rewrite IH by (rewrite list_set_length; lia).
    rewrite seq_S, rev_app_distr. cbn [rev app fold_left]. replace (1 + m - 1)%nat with m by lia. replace (1 + m)%nat with (m + 1)%nat by lia. reflexivity.
  Qed.
  Lemma p_shifted_length l : length (p_shifted l) = length l.
  Proof. unfold p_shifted. generalize (rev (seq 1 (length l - 1))) as r. intros r. revert l. induction r as [|i r IH]; intros l; [reflexivity|]. cbn [fold_left]. rewrite IH. apply list_set_length. Qed.
  Lemma step_pure f x : (0 < length (c_b f))%nat -> length (c_x f) = length (c_b f) -> length (c_y f) = length (c_b f) -> length (c_a f) = length (c_b f) -> filter_step prec emax Hp He f x = Ok (p_filter_step f x).
  Proof.
    intros N0 Lx Ly La. unfold filter_step, shift_loop, p_filter_step. rewrite output_pure by assumption. cbn [obind]. rewrite down_fold by lia. cbn [obind fst snd]. 
    assert (EX : forall l : list num, length l = length (c_b f) -> fold_left (fun l i => list_set l i (nth (i - 1) l zero)) (rev (seq 1 (length (c_b f) - 1))) l = p_shifted l) by (intros l L; unfold p_shifted; rewrite L; reflexivity). rewrite !EX by assumption.
    rewrite !set_in by (rewrite p_shifted_length; lia). cbn [obind]. rewrite get_in by (rewrite list_set_length, p_shifted_length; lia). cbn [obind]. do 3 f_equal. pose proof (p_shifted_length (c_y f)) as L. destruct (p_shifted (c_y f)); [cbn in L; lia|]. reflexivity.
  Qed.
  Lemma run_pure us : forall f, (0 < length (c_b f))%nat -> length (c_x f) = length (c_b f) -> length (c_y f) = length (c_b f) -> length (c_a f) = length (c_b f) -> filter_run prec emax Hp He f us = Ok (p_filter_run f us).
  Proof.
    induction us as [|x us IH]; intros f N0 Lx Ly La; [reflexivity|]. cbn [filter_run p_filter_run]. rewrite step_pure by assumption. unfold p_filter_step. cbn [obind fst snd]. rewrite IH; cbn [IifModel.c_b IifModel.c_x IifModel.c_y IifModel.c_a]; rewrite ?list_set_length, ?p_shifted_length; try assumption. reflexivity.
  Qed.
  Lemma run_made us b0 b a : (0 < length b)%nat -> length a = length b -> filter_run prec emax Hp He (make_filter prec emax Hp He b0 b a) us = Ok (p_filter_run (make_filter prec emax Hp He b0 b a) us).
  Proof. intros N0 La. apply run_pure; unfold make_filter; cbn [IifModel.c_b IifModel.c_x IifModel.c_y IifModel.c_a]; rewrite ?repeat_length; auto. Qed.
End Pure.

Section Filters.
  Context (prec emax : Z) (Hp : Prec_gt_0 prec) (He : Prec_lt_emax prec emax) (H3 : (3 <= prec)%Z).
  Notation num := (binary_float prec emax).
  Notation add := (DblModel.add prec emax Hp He).
  Notation mul := (DblModel.mul prec emax Hp He).
  Notation zero := (DblModel.const prec emax Hp He 0 0).
  Notation u := (DblProofs.u prec).
  Notation eta := (DblProofs.eta prec emax).
  Notation lim := (limit emax).

  Lemma shifted_loop (l : list num) m : (m < length l)%nat -> fold_left (fun l i => list_set l i (nth (i - 1) l zero)) (rev (seq 1 m)) l = nth 0 l zero :: firstn m l ++ skipn (S m) l.
  Proof.
    revert l. induction m as [|m IH]; intros l H.
    - cbn. destruct l as [|a l]; [cbn in H; lia|]. reflexivity.
    - rewrite seq_S, rev_app_distr. cbn [rev app fold_left]. replace (1 + m - 1)%nat with m by lia. change (1 + m)%nat with (S m). rewrite IH by (rewrite list_set_length; lia).
      assert (D : exists a1 v w a2, l = a1 ++ v :: w :: a2 /\ length a1 = m).
      { destruct (nth_split l zero (n := m)) as (l1 & l2 & E & L1); [lia|]. destruct l2 as [|w a2]; [rewrite E, app_length in H; cbn in H; lia|]. exists l1, (nth m l zero), w, a2. split; [exact E|exact L1]. }
      destruct D as (a1 & v & w & a2 & -> & L1).
      assert (E : list_set (a1 ++ v :: w :: a2) (S m) (nth m (a1 ++ v :: w :: a2) zero) = a1 ++ v :: v :: a2).
      { rewrite app_nth2 by lia. replace (m - length a1)%nat with 0%nat by lia. cbn [nth]. rewrite list_set_app2 by lia. replace (S m - length a1)%nat with 1%nat by lia. reflexivity. }
      rewrite E. subst m. assert (F1 : firstn (length a1) (a1 ++ v :: v :: a2) = a1) by (rewrite firstn_app, Nat.sub_diag, firstn_all; apply app_nil_r).
      assert (F2 : firstn (S (length a1)) (a1 ++ v :: w :: a2) = a1 ++ [v]). { rewrite firstn_app, firstn_all2 by lia. replace (S (length a1) - length a1)%nat with 1%nat by lia. reflexivity. }
      assert (F3 : skipn (S (length a1)) (a1 ++ v :: v :: a2) = v :: a2). { rewrite skipn_app, skipn_all2 by lia. replace (S (length a1) - length a1)%nat with 1%nat by lia. reflexivity. }
      assert (F4 : skipn (S (S (length a1))) (a1 ++ v :: w :: a2) = a2). { rewrite skipn_app, skipn_all2 by lia. replace (S (S (length a1)) - length a1)%nat with 2%nat by lia. reflexivity. }
      rewrite F1, F2, F3, F4, <- app_assoc. cbn [app]. f_equal. destruct a1; reflexivity.
  Qed.
  Lemma shifted_set l x : l <> [] -> list_set (p_shifted prec emax Hp He l) 0 x = x :: firstn (length l - 1) l.
  Proof. intros H. assert (L : (0 < length l)%nat) by (destruct l; [congruence|cbn; lia]). unfold p_shifted. rewrite shifted_loop by lia. rewrite skipn_all2 by lia. rewrite app_nil_r. reflexivity. Qed.
  Lemma eta_u : eta <= u. Proof. unfold DblProofs.eta, DblProofs.u. apply bpow_le. unfold SpecFloat.emin. pose proof He as H. unfold Prec_lt_emax in H. lia. Qed.

  (** one p_output, with one rounding for each operation *)
  Lemma local_err (b0 x : num) (B X C Y : nat -> num) m : is_finite b0 = true -> is_finite x = true -> (forall i, (i < m)%nat -> is_finite (B i) = true /\ is_finite (X i) = true /\ is_finite (C i) = true /\ is_finite (Y i) = true) ->
    let c i := Rabs (B2R (B i) * B2R (X i)) + Rabs (B2R (C i) * B2R (Y i)) in let Q := Rabs (B2R b0 * B2R x) + sumto c m in 4 * Q <= lim -> (INR m + 1) * u <= / 16 ->
    let y := fold_left (fun y i => add y (add (mul (B i) (X i)) (mul (C i) (Y i)))) (seq 0 m) (mul b0 x) in
    is_finite y = true /\ Rabs (B2R y - (B2R b0 * B2R x + sumto (fun i => B2R (B i) * B2R (X i) + B2R (C i) * B2R (Y i)) m)) <= 2 * ((INR m + 1) * u) * Q + 3 * (INR m + 1) * eta.
  Proof.
    intros F0 Fx F c Q HQ HN. pose proof (u_pos prec H3) as U. pose proof (eta_pos prec emax) as ET. pose proof eta_u as EU. pose proof (DblProofs.limit_big prec emax He H3) as L4. pose proof (Rabs_pos (B2R b0 * B2R x)) as P0.
    assert (C0 : forall i, 0 <= c i) by (intros i; unfold c; pose proof (Rabs_pos (B2R (B i) * B2R (X i))); pose proof (Rabs_pos (B2R (C i) * B2R (Y i))); lra).
    induction m as [|m IH].
    - cbn [seq fold_left sumto INR] in *. destruct (mul_ok prec emax Hp He H3 b0 x F0 Fx) as [V Fv]; [unfold Q in HQ; lra|]. split; [exact Fv|]. pose proof (rnd_err prec emax Hp (B2R b0 * B2R x)) as E. rewrite <- V in E. unfold Q. rewrite !Rplus_0_r. assert (0 <= u * Rabs (B2R b0 * B2R x)) by (apply Rmult_le_pos; lra). lra.
    - rewrite S_INR in *. cbn [sumto] in *. set (n := INR m) in *. assert (N0 : 0 <= n) by apply pos_INR. set (Qm := Rabs (B2R b0 * B2R x) + sumto c m) in *. assert (QE : Q = Qm + c m) by (unfold Q, Qm; ring). pose proof (sumto_nonneg c m C0) as SN. pose proof (C0 m) as Cm. assert (Qm0 : 0 <= Qm) by (unfold Qm; lra).
      destruct (IH ltac:(intros i I; apply F; lia) ltac:(lra) ltac:(lra)) as [J1 J2]. clear IH. rewrite seq_S, fold_left_app. cbn [fold_left Nat.add]. set (y := fold_left (fun y i => add y (add (mul (B i) (X i)) (mul (C i) (Y i)))) (seq 0 m) (mul b0 x)) in *.
      set (e := B2R b0 * B2R x + sumto (fun i => B2R (B i) * B2R (X i) + B2R (C i) * B2R (Y i)) m) in *. destruct (F m ltac:(lia)) as (G1 & G2 & G3 & G4). set (p := B2R (B m) * B2R (X m)) in *. set (q := B2R (C m) * B2R (Y m)) in *. assert (CE : c m = Rabs p + Rabs q) by reflexivity. pose proof (Rabs_pos p) as PP. pose proof (Rabs_pos q) as QQ.
      destruct (mul_ok prec emax Hp He H3 (B m) (X m) G1 G2) as [Pv Pf]; [fold p; lra|]. destruct (mul_ok prec emax Hp He H3 (C m) (Y m) G3 G4) as [Qv Qf]; [fold q; lra|]. fold p in Pv. fold q in Qv. pose proof (rnd_err prec emax Hp p) as Pe. rewrite <- Pv in Pe. pose proof (rnd_err prec emax Hp q) as Qe. rewrite <- Qv in Qe. set (pm := mul (B m) (X m)) in *. set (qm := mul (C m) (Y m)) in *.
      assert (UP : u * Rabs p <= / 8 * Rabs p) by (apply Rmult_le_compat_r; lra). assert (UQ : u * Rabs q <= / 8 * Rabs q) by (apply Rmult_le_compat_r; lra). assert (UP0 : 0 <= u * Rabs p) by (apply Rmult_le_pos; lra). assert (UQ0 : 0 <= u * Rabs q) by (apply Rmult_le_pos; lra). assert (UE : u * eta <= / 8 * eta) by (apply Rmult_le_compat_r; lra).
      assert (TB : Rabs (B2R pm + B2R qm) <= (Rabs p + Rabs q) + u * (Rabs p + Rabs q) + 2 * eta). { replace (B2R pm + B2R qm) with ((B2R pm - p) + p + (B2R qm - q) + q) by ring. eapply Rle_trans; [apply Rabs_triang|]. eapply Rle_trans; [apply Rplus_le_compat_r, Rabs_triang|]. eapply Rle_trans; [apply Rplus_le_compat_r, Rplus_le_compat_r, Rabs_triang|]. lra. }
      assert (E8 : eta <= / 8) by lra. destruct (add_ok prec emax Hp He H3 pm qm Pf Qf) as [Tv Tf]; [lra|]. pose proof (sum_err prec emax Hp H3 pm qm) as Te. rewrite <- Tv in Te. set (t := add pm qm) in *.
      assert (T1 : Rabs (B2R t - (p + q)) <= 17 / 8 * (u * c m) + 9 / 4 * eta).
      { replace (B2R t - (p + q)) with ((B2R t - (B2R pm + B2R qm)) + (B2R pm - p) + (B2R qm - q)) by ring. eapply Rle_trans; [apply Rabs_triang|]. eapply Rle_trans; [apply Rplus_le_compat_r, Rabs_triang|]. assert (u * Rabs (B2R pm + B2R qm) <= u * ((Rabs p + Rabs q) + u * (Rabs p + Rabs q) + 2 * eta)) by (apply Rmult_le_compat_l; lra).
        assert (u * (u * (Rabs p + Rabs q)) <= / 8 * (u * (Rabs p + Rabs q))) by (apply Rmult_le_compat_r; [rewrite Rmult_plus_distr_l|]; lra). rewrite CE. lra. }
      assert (EB : Rabs e <= Qm). { unfold e, Qm. eapply Rle_trans; [apply Rabs_triang|]. apply Rplus_le_compat_l. eapply Rle_trans; [apply sumto_abs|]. apply sumto_le. intros i _. unfold c. apply Rabs_triang. }
      assert (NU : 0 <= n * u) by (apply Rmult_le_pos; lra). assert (NUQ : (n + 1) * u * Qm <= / 16 * Qm) by (apply Rmult_le_compat_r; lra). assert (NUQ0 : 0 <= (n + 1) * u * Qm) by (apply Rmult_le_pos; lra). assert (NE : (n + 1) * eta <= / 16). { apply Rle_trans with ((n + 1) * u); [apply Rmult_le_compat_l; lra|lra]. } assert (NE0 : 0 <= (n + 1) * eta) by (apply Rmult_le_pos; lra).
      assert (PQ : Rabs (p + q) <= c m) by (rewrite CE; apply Rabs_triang). assert (UC : u * c m <= / 8 * c m) by (apply Rmult_le_compat_r; lra). assert (UC0 : 0 <= u * c m) by (apply Rmult_le_pos; lra). assert (UQm : u * Qm <= / 8 * Qm) by (apply Rmult_le_compat_r; lra). assert (UQm0 : 0 <= u * Qm) by (apply Rmult_le_pos; lra).
      assert (YT : Rabs (B2R y + B2R t) <= Qm + c m + (2 * ((n + 1) * u) * Qm + 3 * (n + 1) * eta) + (17 / 8 * (u * c m) + 9 / 4 * eta)).
      { replace (B2R y + B2R t) with ((B2R y - e) + e + (B2R t - (p + q)) + (p + q)) by ring. eapply Rle_trans; [apply Rabs_triang|]. eapply Rle_trans; [apply Rplus_le_compat_r, Rabs_triang|]. eapply Rle_trans; [apply Rplus_le_compat_r, Rplus_le_compat_r, Rabs_triang|]. lra. }
      destruct (add_ok prec emax Hp He H3 y t J1 Tf) as [Zv Zf]; [lra|]. split; [exact Zf|]. pose proof (sum_err prec emax Hp H3 y t) as Ze. rewrite <- Zv in Ze. set (z := B2R (add y t)) in *.
      assert (NC0 : 0 <= n * u * c m) by (apply Rmult_le_pos; lra).
      assert (W1 : u * Rabs (B2R y + B2R t) <= u * (Qm + c m + (2 * ((n + 1) * u) * Qm + 3 * (n + 1) * eta) + (17 / 8 * (u * c m) + 9 / 4 * eta))) by (apply Rmult_le_compat_l; lra).
      assert (W2 : u * ((n + 1) * u * Qm) <= / 16 * (u * Qm)). { replace (u * ((n + 1) * u * Qm)) with ((n + 1) * u * (u * Qm)) by ring. apply Rmult_le_compat_r; lra. }
      assert (W3 : u * ((n + 1) * eta) <= / 16 * eta). { replace (u * ((n + 1) * eta)) with ((n + 1) * u * eta) by ring. apply Rmult_le_compat_r; lra. }
      assert (W4 : u * (u * c m) <= / 8 * (u * c m)) by (apply Rmult_le_compat_r; lra).
      replace (z - (B2R b0 * B2R x + (sumto (fun i => B2R (B i) * B2R (X i) + B2R (C i) * B2R (Y i)) m + (p + q)))) with ((z - (B2R y + B2R t)) + (B2R y - e) + (B2R t - (p + q))) by (unfold e; ring).
      eapply Rle_trans; [apply Rabs_triang|]. eapply Rle_trans; [apply Rplus_le_compat_r, Rabs_triang|]. rewrite QE. lra.
  Qed.

  Lemma zero_val : is_finite zero = true /\ B2R zero = 0.
  Proof. split; [|apply (const_0 prec emax Hp He H3)]. apply (const_0 prec emax Hp He H3). Qed.
  Lemma fold_sum (g : nat -> R) m : forall s, fold_left (fun y i => y + g i) (seq 0 m) s = s + sumto g m.
  Proof. induction m as [|m IH]; intros s; [cbn; ring|]. rewrite seq_S, fold_left_app, IH. cbn. ring. Qed.
  Lemma nth_map_R (l : list num) i : nth i (map B2R l) 0 = B2R (nth i l zero).
  Proof. rewrite <- (proj2 zero_val). apply (map_nth B2R). Qed.
  Lemma abs_sum_map (l : list num) : sumto (fun i => Rabs (B2R (nth i l zero))) (length l) = abs_sum (map B2R l).
  Proof. rewrite <- sumto_list, map_length. apply sumto_ext. intros i _. rewrite nth_map_R. reflexivity. Qed.
  Lemma firstn_forall2 {A B} (P : A -> B -> Prop) l m : Forall2 P l m -> forall n, Forall2 P (firstn n l) (firstn n m).
  Proof. induction 1 as [|x y l m H _ IH]; intros [|n]; cbn; constructor; auto. Qed.
  Lemma forall2_nth {A B} (P : A -> B -> Prop) l m d e : Forall2 P l m -> forall i, (i < length l)%nat -> P (nth i l d) (nth i m e).
  Proof. induction 1 as [|x y l m H _ IH]; intros [|i] I; cbn in *; try lia; [exact H|apply IH; lia]. Qed.

  Lemma forall2_length {A B} (P : A -> B -> Prop) l m : Forall2 P l m -> length l = length m.
  Proof. induction 1; cbn; congruence. Qed.

  (** one call, from the state of a filter in real numbers nearby *)
  Section Run.
    Context (b0 : num) (b a : list num) (M Y E : R).
    Let N := length b.
    Let k := 2 * ((INR N + 1) * u).
    Let tau := 3 * (INR N + 1) * eta.
    Let G := (Rabs (B2R b0) + abs_sum (map B2R b)) * M + abs_sum (map B2R a) * Y.
    Context (Fb0 : is_finite b0 = true) (Fb : Forall (fun v => is_finite v = true) b) (Fa : Forall (fun v => is_finite v = true) a) (La : length a = N) (N0 : (0 < N)%nat) (HM : 0 <= M) (HY : 0 <= Y) (HE : 0 <= E) (HN : (INR N + 1) * u <= / 16)
      (HG : 4 * G <= lim) (GY : (1 + k) * G + tau <= Y) (GE : abs_sum (map B2R a) * E + k * G + tau <= E).
    Definition near (y : num) (z : R) : Prop := is_finite y = true /\ Rabs (B2R y) <= Y /\ Rabs (B2R y - z) <= E.
    Definition same (x : num) (z : R) : Prop := is_finite x = true /\ Rabs (B2R x) <= M /\ B2R x = z.
    Definition inv (f : filter prec emax) (g : iir) : Prop := c_b0 _ _ f = b0 /\ c_b _ _ f = b /\ c_a _ _ f = a /\ f_b0 g = B2R b0 /\ f_b g = map B2R b /\ f_a g = map B2R a /\ length (c_x _ _ f) = N /\ length (c_y _ _ f) = N /\
      Forall2 same (c_x _ _ f) (f_x g) /\ Forall2 near (c_y _ _ f) (f_y g).
    Lemma inv_step f g x : inv f g -> is_finite x = true -> Rabs (B2R x) <= M -> let (f', y) := p_filter_step prec emax Hp He f x in let (g', z) := iir_step g (B2R x) in near y z /\ inv f' g'.
    Proof.
      intros (I1 & I2 & I3 & I4 & I5 & I6 & I7 & I8 & I9 & I10) Fx Hx. unfold p_filter_step, iir_step. cbv zeta. rewrite I5, map_length, I4, I6. fold N. rewrite (fold_sum (fun i => nth i (map B2R b) 0 * nth i (f_x g) 0 + nth i (map B2R a) 0 * nth i (f_y g) 0)). unfold p_output. rewrite I1, I2, I3. fold N.
      set (X := fun i => nth i (c_x _ _ f) zero). set (V := fun i => nth i (c_y _ _ f) zero). set (B := fun i => nth i b zero). set (A := fun i => nth i a zero).
      assert (SX : forall i, (i < N)%nat -> same (X i) (nth i (f_x g) 0)) by (intros i I; apply forall2_nth; [exact I9|rewrite I7; exact I]). assert (SY : forall i, (i < N)%nat -> near (V i) (nth i (f_y g) 0)) by (intros i I; apply forall2_nth; [exact I10|rewrite I8; exact I]).
      assert (FB : forall i, (i < N)%nat -> is_finite (B i) = true) by (intros i I; rewrite Forall_forall in Fb; apply Fb, nth_In; exact I). assert (FA : forall i, (i < N)%nat -> is_finite (A i) = true) by (intros i I; rewrite Forall_forall in Fa; apply Fa, nth_In; rewrite La; exact I).
      assert (Q : Rabs (B2R b0 * B2R x) + sumto (fun i => Rabs (B2R (B i) * B2R (X i)) + Rabs (B2R (A i) * B2R (V i))) N <= G).
      { unfold G. rewrite Rmult_plus_distr_r, Rplus_assoc. apply Rplus_le_compat; [rewrite Rabs_mult; apply Rmult_le_compat_l; [apply Rabs_pos|exact Hx]|]. rewrite sumto_plus. apply Rplus_le_compat.
        - rewrite <- abs_sum_map. fold N. rewrite Rmult_comm, <- sumto_scale. apply sumto_le. intros i I. rewrite Rabs_mult, Rmult_comm. apply Rmult_le_compat_r; [apply Rabs_pos|]. apply SX, I.
        - rewrite <- abs_sum_map, La. rewrite (Rmult_comm _ Y), <- sumto_scale. apply sumto_le. intros i I. rewrite Rabs_mult, Rmult_comm. apply Rmult_le_compat_r; [apply Rabs_pos|]. apply SY, I. }
      destruct (local_err b0 x B X A V N Fb0 Fx) as [Ff Ee]; [intros i I; repeat split; [apply FB, I|apply SX, I|apply FA, I|apply SY, I]|lra|exact HN|]. unfold X, V, B, A in Ff, Ee. cbv beta in Ff, Ee. set (y := fold_left _ _ _) in *. fold k tau in Ee.
      set (e := B2R b0 * B2R x + sumto _ N) in Ee. set (q := Rabs (B2R b0 * B2R x) + sumto _ N) in Ee. assert (Q' : q <= G) by exact Q. clear Q. assert (k0 : 0 <= k). { unfold k. pose proof (u_pos prec H3). pose proof (pos_INR N). apply Rmult_le_pos; [lra|apply Rmult_le_pos; lra]. }
      assert (Ee' : Rabs (B2R y - e) <= k * G + tau) by (eapply Rle_trans; [exact Ee|apply Rplus_le_compat_r, Rmult_le_compat_l; assumption]).
      assert (EB : Rabs e <= G). { apply Rle_trans with q; [|exact Q']. unfold e, q. eapply Rle_trans; [apply Rabs_triang|]. apply Rplus_le_compat_l. eapply Rle_trans; [apply sumto_abs|]. apply sumto_le. intros i _. apply Rabs_triang. }
      set (z := B2R b0 * B2R x + sumto (fun i => nth i (map B2R b) 0 * nth i (f_x g) 0 + nth i (map B2R a) 0 * nth i (f_y g) 0) N).
      assert (EZ : Rabs (e - z) <= abs_sum (map B2R a) * E).
      { unfold e, z. match goal with |- Rabs (_ + sumto ?s N - (_ + sumto ?t N)) <= _ => replace (B2R b0 * B2R x + sumto s N - (B2R b0 * B2R x + sumto t N)) with (sumto (fun i => s i + -1 * t i) N) by (rewrite sumto_plus, sumto_scale; ring) end.
        eapply Rle_trans; [apply sumto_abs|]. rewrite <- abs_sum_map, La, (Rmult_comm _ E), <- sumto_scale. apply sumto_le. intros i I. destruct (SX i I) as (_ & _ & Sx). destruct (SY i I) as (_ & _ & Sy). unfold X in Sx. unfold V in Sy. rewrite !nth_map_R, <- Sx.
        match goal with |- Rabs ?w <= _ => replace w with (B2R (nth i a zero) * (B2R (nth i (c_y _ _ f) zero) - nth i (f_y g) 0)) by ring end. rewrite Rabs_mult, Rmult_comm. apply Rmult_le_compat_r; [apply Rabs_pos|exact Sy]. }
      assert (NY : near y z). { split; [exact Ff|]. split; [replace (B2R y) with ((B2R y - e) + e) by ring|replace (B2R y - z) with ((B2R y - e) + (e - z)) by ring]; (eapply Rle_trans; [apply Rabs_triang|]); lra. }
      split; [exact NY|]. assert (LX : length (f_x g) = N) by (rewrite <- (forall2_length _ _ _ I9); exact I7). assert (LY : length (f_y g) = N) by (rewrite <- (forall2_length _ _ _ I10); exact I8).
      unfold inv. cbn [c_b0 c_b c_a c_x c_y f_b0 f_b f_a f_x f_y]. rewrite !shifted_set by (intros Z; rewrite Z in *; cbn in *; lia). rewrite !shift_set by (intros Z; rewrite Z in *; cbn in *; lia). rewrite I7, I8, LX, LY.
      repeat split; try assumption; try reflexivity; try (cbn [length]; rewrite firstn_length; lia); (constructor; [|apply firstn_forall2; assumption]); [|exact NY]. split; [exact Fx|split; [exact Hx|reflexivity]].
    Qed.
    Lemma inv_run us : forall f g, inv f g -> Forall (fun x => is_finite x = true /\ Rabs (B2R x) <= M) us -> Forall2 near (p_filter_run prec emax Hp He f us) (iir_run g (map B2R us)).
    Proof.
      induction us as [|x us IH]; intros f g I H; cbn [p_filter_run iir_run map]; [constructor|]. apply Forall_cons_iff in H. destruct H as [[Fx Hx] H]. pose proof (inv_step f g x I Fx Hx) as S1. destruct (p_filter_step prec emax Hp He f x) as [f' y]. destruct (iir_step g (B2R x)) as [g' z]. destruct S1 as [NY I']. constructor; [exact NY|apply IH; assumption].
    Qed.
    Lemma inv_make : inv (make_filter prec emax Hp He b0 b a) (make_iir (B2R b0) (map B2R b) (map B2R a)).
    Proof.
      destruct zero_val as [Zf Zv]. unfold inv, make_filter, make_iir. cbn [c_b0 c_b c_a c_x c_y f_b0 f_b f_a f_x f_y]. rewrite map_length, !repeat_length. fold N. repeat split; try reflexivity.
      - clear - Zf Zv HM. induction N as [|n IH]; cbn [repeat]; constructor; [|exact IH]. split; [exact Zf|]. rewrite Zv, Rabs_R0. split; [exact HM|reflexivity].
      - clear - Zf Zv HY HE. induction N as [|n IH]; cbn [repeat]; constructor; [|exact IH]. split; [exact Zf|]. rewrite Zv, Rminus_0_r, Rabs_R0. split; assumption.
    Qed.
    Lemma run_near us zs : Forall (fun x => is_finite x = true /\ Rabs (B2R x) <= M) us -> difference_equation (B2R b0) (map B2R b) (map B2R a) (map B2R us) zs -> Forall2 near (p_filter_run prec emax Hp He (make_filter prec emax Hp He b0 b a) us) zs.
    Proof.
      intros H D. replace zs with (iir_run (make_iir (B2R b0) (map B2R b) (map B2R a)) (map B2R us)); [apply inv_run; [apply inv_make|exact H]|].
      apply (equation_unique (B2R b0) (map B2R b) (map B2R a) (map B2R us)); [|exact D]. apply filter_equation. intros Z. apply (f_equal (@length R)) in Z. rewrite map_length in Z. cbn in Z. fold N in Z. lia.
    Qed.
  End Run.

  Section Steps.
    Context (b0 : num) (b a : list num).
    Let N := length b.
    Context (Fb0 : is_finite b0 = true) (Fb : Forall (fun v => is_finite v = true) b) (Fa : Forall (fun v => is_finite v = true) a) (La : length a = N) (N0 : (0 < N)%nat) (HN : (INR N + 1) * u <= / 16).
    Notation fin := (fun v : num => is_finite v = true).
    Notation size us ys := (recurrence_size (B2R b0) (map B2R b) (map B2R a) (map B2R us) (map B2R ys)).
    Notation value us ys := (recurrence (B2R b0) (map B2R b) (map B2R a) (map B2R us) (map B2R ys)).
    Notation good us ys n := (is_finite (nth n ys zero) = true /\ Rabs (B2R (nth n ys zero) - value us ys n) <= 2 * ((INR N + 1) * u) * size us ys n + 3 * (INR N + 1) * eta).
    Lemma size_now (du dy : list num) (x : num) (us r X Y : list num) : length dy = length du -> history N (map B2R du) (map B2R X) -> history N (map B2R dy) (map B2R Y) ->
      size (du ++ x :: us) (dy ++ r) (length du) = Rabs (B2R b0 * B2R x) + sumto (fun i => Rabs (B2R (nth i b zero) * B2R (nth i X zero)) + Rabs (B2R (nth i a zero) * B2R (nth i Y zero))) N /\
      value (du ++ x :: us) (dy ++ r) (length du) = B2R b0 * B2R x + sumto (fun i => B2R (nth i b zero) * B2R (nth i X zero) + B2R (nth i a zero) * B2R (nth i Y zero)) N.
    Proof.
      intros L [L1 H1] [L2 H2]. unfold recurrence, recurrence_size. rewrite !sumto_total, map_length. fold N. assert (E : nth (length du) (map B2R (du ++ x :: us)) 0 = B2R x) by (rewrite nth_map_R, app_nth2, Nat.sub_diag by lia; reflexivity). rewrite E.
      assert (BX : forall i, (i < N)%nat -> before (map B2R (du ++ x :: us)) (length du) i = B2R (nth i X zero)) by (intros i I; rewrite map_app, before_app by (rewrite map_length; lia); rewrite <- nth_map_R, H1 by exact I; rewrite map_length; reflexivity).
      assert (BY : forall i, (i < N)%nat -> before (map B2R (dy ++ r)) (length du) i = B2R (nth i Y zero)) by (intros i I; rewrite map_app, before_app by (rewrite map_length; lia); rewrite <- nth_map_R, H2 by exact I; rewrite map_length, L; reflexivity).
      split; f_equal; apply sumto_ext; intros i I; rewrite BX, BY, !nth_map_R by exact I; reflexivity.
    Qed.
    Lemma steps us : forall f (du dy : list num), c_b0 _ _ f = b0 -> c_b _ _ f = b -> c_a _ _ f = a -> history N (map B2R du) (map B2R (c_x _ _ f)) -> history N (map B2R dy) (map B2R (c_y _ _ f)) -> Forall fin (c_x _ _ f) -> Forall fin (c_y _ _ f) -> length dy = length du -> Forall fin us ->
      let xs := du ++ us in let ys := dy ++ p_filter_run prec emax Hp He f us in forall n, (length du <= n < length xs)%nat -> (forall j, (length du <= j <= n)%nat -> 4 * size xs ys j <= lim) -> good xs ys n.
    Proof.
      induction us as [|x us IH]; intros f du dy E0 Eb Ea Hx Hy Fx Fy LL Fu xs ys n Hn HQ; [unfold xs in Hn; rewrite app_nil_r in Hn; lia|]. apply Forall_cons_iff in Fu. destruct Fu as [Fx1 Fu].
      unfold xs, ys in *. cbn [p_filter_run] in *. unfold p_filter_step in *. cbv beta iota zeta in *. set (y := p_output prec emax Hp He f x) in *. set (f' := Filter _ _ _ _ _ _ _) in *. set (r := p_filter_run prec emax Hp He f' us) in *. clear xs ys.
      pose proof Hx as [Lx _]. pose proof Hy as [Ly _]. rewrite map_length in Lx, Ly.
      destruct (size_now du dy x us (y :: r) (c_x _ _ f) (c_y _ _ f) LL Hx Hy) as [S1 S2]. pose proof (HQ (length du) ltac:(lia)) as Q. rewrite S1 in Q.
      destruct (local_err b0 x (fun i => nth i b zero) (fun i => nth i (c_x _ _ f) zero) (fun i => nth i a zero) (fun i => nth i (c_y _ _ f) zero) N Fb0 Fx1) as [Ff Ee]; [|exact Q|exact HN|].
      { intros i I. rewrite Forall_forall in Fb, Fa, Fx, Fy. repeat split; [apply Fb|apply Fx|apply Fa|apply Fy]; apply nth_In; unfold N in *; lia. }
      assert (EY : y = fold_left (fun y i => add y (add (mul (nth i b zero) (nth i (c_x _ _ f) zero)) (mul (nth i a zero) (nth i (c_y _ _ f) zero)))) (seq 0 N) (mul b0 x)) by (unfold y, p_output; rewrite E0, Eb, Ea; reflexivity). rewrite <- EY in Ff, Ee.
      destruct (Nat.eq_dec n (length du)) as [->|Nn].
      - assert (EN : nth (length du) (dy ++ y :: r) zero = y) by (rewrite <- LL, app_nth2, Nat.sub_diag by lia; reflexivity). rewrite EN, S1, S2. split; [exact Ff|exact Ee].
      - specialize (IH f' (du ++ [x]) (dy ++ [y])). cbv zeta in IH. fold r in IH. rewrite <- !app_assoc in IH. cbn [app] in IH. rewrite !(app_length du) in IH. cbn [length] in IH. assert (NX : c_x _ _ f <> []) by (intros Z; rewrite Z in Lx; cbn in Lx; lia). assert (NY : c_y _ _ f <> []) by (intros Z; rewrite Z in Ly; cbn in Ly; lia).
        rewrite app_length in Hn. cbn [length] in Hn. apply IH; unfold f'; cbn [c_b0 c_b c_a c_x c_y]; try assumption.
        + rewrite shifted_set by exact NX. rewrite map_app. cbn [map]. rewrite <- firstn_map. replace (length (c_x _ _ f)) with (length (map B2R (c_x _ _ f))) by apply map_length. apply history_push; assumption.
        + rewrite shifted_set by exact NY. rewrite map_app. cbn [map]. rewrite <- firstn_map. replace (length (c_y _ _ f)) with (length (map B2R (c_y _ _ f))) by apply map_length. apply history_push; assumption.
        + rewrite shifted_set by exact NX. constructor; [exact Fx1|]. rewrite Forall_forall in Fx |- *. intros v I. apply Fx. rewrite <- (firstn_skipn (length (c_x _ _ f) - 1) (c_x _ _ f)). apply in_or_app. left. exact I.
        + rewrite shifted_set by exact NY. constructor; [exact Ff|]. rewrite Forall_forall in Fy |- *. intros v I. apply Fy. rewrite <- (firstn_skipn (length (c_y _ _ f) - 1) (c_y _ _ f)). apply in_or_app. left. exact I.
        + rewrite app_length. cbn [length]. lia.
        + lia.
        + intros j Hj. apply HQ. lia.
    Qed.
    Lemma steps_from_start us n : Forall fin us -> let ys := p_filter_run prec emax Hp He (make_filter prec emax Hp He b0 b a) us in (n < length us)%nat -> (forall j, (j <= n)%nat -> 4 * size us ys j <= lim) -> good us ys n.
    Proof.
      intros Fu ys Hn HQ. destruct zero_val as [Zf Zv]. assert (R0 : forall k, map B2R (repeat zero k) = repeat 0 k) by (intros k; induction k as [|k IHk]; cbn [repeat map]; [reflexivity|rewrite IHk, Zv; reflexivity]).
      apply (steps us (make_filter prec emax Hp He b0 b a) [] []); unfold make_filter; cbn [c_b0 c_b c_a c_x c_y length]; try reflexivity; try assumption; try (fold N; rewrite R0; apply history_zero); try (apply Forall_forall; intros v I; apply repeat_spec in I; subst v; exact Zf); [cbn [app]; lia|]. intros j Hj. apply HQ. lia.
    Qed.
  End Steps.
End Filters.
