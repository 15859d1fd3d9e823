(** Lemmas about the models of delays, filters and accumulators. *)
From Coq Require Import List Arith Bool ZArith Reals Lra Lia Psatz.
From Verif Require Import Base BaseProofs UtilProofs NumSpec SigSpec SigModel.
Import ListNotations.
Local Open Scope R_scope.

(** ** delayer *)
Section Delayer.
  Context (N : nat) (W dt init : R) (x : nat -> R).
  Context (HN : (2 <= N)%nat) (HW : 0 < dt <= W).
  Notation sampled := (sampled W dt init x).
  Lemma nearest_unique t i i' : nearest dt t i -> nearest dt t i' -> i = i'.
  Proof.
    unfold nearest. intros [H1 H2] [H3 H4]. assert (A : INR i < INR i' + 1) by nra. assert (B : INR i' < INR i + 1) by nra.
    rewrite <- S_INR in A, B. apply INR_lt in A. apply INR_lt in B. lia.
  Qed.
  Definition delayer_inv (n q : nat) (d : delayer) : Prop :=
    d_window d = W /\ d_time d = INR n * dt - INR q * W /\ INR q * W < (INR n + 1 / 2) * dt <= INR (S q) * W /\ d_idx d = (q mod N)%nat /\ length (d_data d) = N /\
    forall j v, (j <= q)%nat -> (q < j + N)%nat -> sampled j v -> nth_error (d_data d) (j mod N) = Some v.
  Lemma delayer_inv_init delay : 0 < delay -> delay / INR (N - 1) = W -> exists d, make_delayer N delay init = Ok d /\ delayer_inv 0 0 d.
  Proof.
    intros Hd EW. unfold make_delayer. destruct (Rlt_dec 0 delay); [|contradiction]. eexists. split; [reflexivity|]. unfold delayer_inv. cbn [d_window d_time d_idx d_data].
    split; [exact EW|]. split; [cbn; ring|]. split; [cbn; lra|]. split; [symmetry; apply Nat.mod_0_l; lia|]. split; [cbn; rewrite repeat_length; lia|].
    intros j v Hj _ [[-> ->]|[H _]]; [|lia]. rewrite Nat.mod_0_l by lia. reflexivity.
  Qed.
  Lemma delayer_inv_step n q d : delayer_inv n q d -> exists d' q', delayer_add d (x (S n)) dt = Ok d' /\ delayer_inv (S n) q' d'.
  Proof.
    intros (Ew & Et & Hq & Ei & EL & HS). unfold delayer_add. rewrite Ew, Et. rewrite S_INR in Hq. destruct (Rlt_dec W _) as [C|C].
    - rewrite EL, Ei. assert (Em : ((q mod N + 1) mod N = S q mod N)%nat) by (rewrite Nat.add_mod_idemp_l by lia; f_equal; lia). rewrite Em.
      assert (Lm : (S q mod N < N)%nat) by (apply Nat.mod_upper_bound; lia).
      rewrite (vec_set_ok (d_data d) _ (x (S n))) by lia. cbn [obind]. eexists _, (S q). split; [reflexivity|]. unfold delayer_inv. cbn [d_window d_time d_idx d_data].
      split; [reflexivity|]. split; [rewrite !S_INR; ring|]. split; [rewrite !S_INR; lra|]. split; [reflexivity|]. split; [rewrite list_set_length; exact EL|].
      intros j v Hj1 Hj2 Sj. destruct (Nat.eq_dec j (S q)) as [->|Nj].
      + rewrite nth_error_list_set_eq by lia. destruct Sj as [[H _]|(_ & i & Ni & ->)]; [lia|]. f_equal. f_equal.
        apply (nearest_unique (INR (S q) * W)); [|exact Ni]. unfold nearest. rewrite !S_INR. lra.
      + rewrite nth_error_list_set_neq; [apply HS; [lia|lia|exact Sj]|]. intros E.
        pose proof (Nat.div_mod_eq j N) as D1. pose proof (Nat.div_mod_eq (S q) N) as D2. assert (j / N <> S q / N)%nat by (intros E2; rewrite E2, E in *; lia).
        assert (j / N < S q / N \/ S q / N < j / N)%nat as [K|K] by lia; nia.
    - eexists _, q. split; [reflexivity|]. unfold delayer_inv. cbn [d_window d_time d_idx d_data].
      split; [reflexivity|]. split; [rewrite !S_INR; ring|]. split; [rewrite !S_INR; nra|]. split; [exact Ei|]. split; [exact EL|exact HS].
  Qed.
  Lemma delayer_inv_run m : forall n q d, delayer_inv n q d -> exists d' q', delayer_adds d (map (fun i => (x i, dt)) (seq (S n) m)) = Ok d' /\ delayer_inv (n + m) q' d'.
  Proof.
    induction m as [|m IH]; intros n q d I.
    - exists d, q. split; [reflexivity|]. rewrite Nat.add_0_r. exact I.
    - cbn [seq map delayer_adds]. destruct (delayer_inv_step n q d I) as (d1 & q1 & E1 & I1). rewrite E1. cbn [obind]. destruct (IH (S n) q1 d1 I1) as (d2 & q2 & E2 & I2).
      exists d2, q2. split; [exact E2|]. replace (n + S m)%nat with (S n + m)%nat by lia. exact I2.
  Qed.
  Lemma delayer_inv_value n q d : delayer_inv n q d -> exists y, delayed_value d = Ok y /\
    forall j v1 v2, (j + (N - 1) = q)%nat -> sampled j v1 -> sampled (S j) v2 -> y = (d_time d / W) * v2 + (1 - d_time d / W) * v1.
  Proof.
    intros (Ew & Et & Hq & Ei & EL & HS). unfold delayed_value. rewrite Ew, EL.
    assert (G : forall k, exists v, vec_get (d_data d) ((d_idx d + N + k) mod N) = Ok v).
    { intros k. assert (L : ((d_idx d + N + k) mod N < length (d_data d))%nat) by (rewrite EL; apply Nat.mod_upper_bound; lia).
      unfold vec_get. destruct (nth_error (d_data d) _) as [v|] eqn:E; [exists v; reflexivity|]. apply nth_error_None in E. lia. }
    destruct (G 2%nat) as [a2 E2]. destruct (G 1%nat) as [a1 E1]. rewrite E2. cbn [obind]. rewrite E1. cbn [obind]. eexists. split; [reflexivity|].
    intros j v1 v2 Hj S1 S2. assert (M1 : ((d_idx d + N + 1) mod N = j mod N)%nat).
    { rewrite Ei. replace (q mod N + N + 1)%nat with (q mod N + (1 + 1 * N))%nat by lia. rewrite Nat.add_mod_idemp_l by lia. replace (q + (1 + 1 * N))%nat with (j + 2 * N)%nat by lia. apply Nat.mod_add. lia. }
    assert (M2 : ((d_idx d + N + 2) mod N = S j mod N)%nat).
    { rewrite Ei. replace (q mod N + N + 2)%nat with (q mod N + (2 + 1 * N))%nat by lia. rewrite Nat.add_mod_idemp_l by lia. replace (q + (2 + 1 * N))%nat with (S j + 2 * N)%nat by lia. apply Nat.mod_add. lia. }
    rewrite M1 in E1. rewrite M2 in E2. unfold vec_get in E1, E2. rewrite (HS j v1) in E1 by (try lia; exact S1). rewrite (HS (S j) v2) in E2 by (try lia; exact S2).
    injection E1 as ->. injection E2 as ->. reflexivity.
  Qed.
End Delayer.
Lemma delayer_assembled N delay init dt x n j v1 v2 : let W := delay / INR (N - 1) in let T := INR n * dt in
  (2 <= N)%nat -> 0 < delay -> 0 < dt <= W -> INR j * W < T - delay + dt / 2 <= INR (S j) * W ->
  sampled W dt init x j v1 -> sampled W dt init x (S j) v2 ->
  exists d d' y, make_delayer N delay init = Ok d /\ delayer_adds d (map (fun i => (x i, dt)) (seq 1 n)) = Ok d' /\ delayed_value d' = Ok y /\
    on_line (INR j * W) v1 (INR (S j) * W) v2 (T - delay) y.
Proof.
  intros W T HN Hd HW Hj S1 S2. assert (HI : 0 < INR (N - 1)) by (apply lt_0_INR; lia). assert (ED : delay = INR (N - 1) * W) by (unfold W; field; lra).
  destruct (delayer_inv_init N W dt init x HN HW delay Hd eq_refl) as (d & Ed & I0).
  destruct (delayer_inv_run N W dt init x HN HW n 0 0 d I0) as (d' & q & E' & I). cbn [Nat.add] in I.
  destruct (delayer_inv_value N W dt init x HN n q d' I) as (y & Ey & V).
  exists d, d', y. split; [exact Ed|]. split; [exact E'|]. split; [exact Ey|].
  destruct I as (_ & Et & Hq & _). assert (Q : (j + (N - 1) = q)%nat).
  { assert (A : INR (j + (N - 1)) < INR (S q)) by (rewrite plus_INR; apply (Rmult_lt_reg_r W); [lra|]; unfold T in Hj; lra).
    assert (B : INR q < INR (S (j + (N - 1)))) by (rewrite S_INR, plus_INR; apply (Rmult_lt_reg_r W); [lra|]; unfold T in Hj; rewrite S_INR in Hj; lra).
    apply INR_lt in A. apply INR_lt in B. lia. }
  rewrite (V j v1 v2 Q S1 S2), Et. unfold on_line. rewrite <- Q, plus_INR, S_INR. unfold T. rewrite ED at 1. field. lra.
Qed.

(** ** smooth_delayer *)
Lemma total_app l m : total (l ++ m) = total l + total m.
Proof. unfold total. induction l as [|a l IH]; cbn; [ring|]. rewrite IH. ring. Qed.
Lemma total_nonneg l : (forall v, In v l -> 0 <= v) -> 0 <= total l.
Proof. unfold total. induction l as [|a l IH]; cbn; intros H; [lra|]. specialize (IH (fun v Hv => H v (or_intror Hv))). specialize (H a (or_introl eq_refl)). lra. Qed.
Lemma area_snoc_before steps v dt t : (forall d, In d (map snd steps) -> 0 <= d) -> t <= total (map snd steps) -> 0 <= t -> area (steps ++ [(v, dt)]) t = area steps t \/ steps = [].
Proof.
  revert t. induction steps as [|[v0 d0] r IH]; intros t H0 Ht H; [right; reflexivity|left]. cbn [app area]. destruct (Rle_dec t d0) as [C|C]; [reflexivity|]. f_equal.
  cbn [map snd] in *. unfold total in Ht. cbn [fold_right] in Ht. fold (total (map snd r)) in Ht. destruct (IH (t - d0)) as [E| ->]; [intros d Hd; apply H0; right; exact Hd|lra|lra|exact E|].
  cbn in Ht. lra.
Qed.
Lemma area_before steps v dt t : 0 <= dt -> (forall d, In d (map snd steps) -> 0 <= d) -> 0 <= t <= total (map snd steps) -> area (steps ++ [(v, dt)]) t = area steps t.
Proof.
  intros Hd H0 Ht. destruct (area_snoc_before steps v dt t) as [E| ->]; [exact H0|lra|lra|exact E|]. cbn in Ht. assert (t = 0) as -> by lra. cbn. destruct (Rle_dec 0 dt); [ring|contradiction].
Qed.
Lemma area_after steps v dt t : (forall d, In d (map snd steps) -> 0 <= d) -> total (map snd steps) <= t <= total (map snd steps) + dt -> area (steps ++ [(v, dt)]) t = area steps (total (map snd steps)) + v * (t - total (map snd steps)).
Proof.
  revert t. induction steps as [|[v0 d0] r IH]; intros t H0 Ht.
  - cbn in *. destruct (Rle_dec t dt); [ring|lra].
  - cbn [map snd] in *. unfold total in *. cbn [fold_right] in *. fold (total (map snd r)) in *. assert (P : 0 <= total (map snd r)) by (apply total_nonneg; intros d Hd; apply H0; right; exact Hd).
    cbn [app area]. destruct (Rle_dec t d0) as [C|C].
    + assert (Ez : total (map snd r) = 0) by lra. rewrite Ez in *. assert (t = d0) as -> by lra. destruct (Rle_dec (d0 + 0) d0); [|lra]. ring.
    + rewrite (IH (t - d0)); [|intros d Hd; apply H0; right; exact Hd|lra]. destruct (Rle_dec (d0 + total (map snd r)) d0) as [C2|C2].
      * assert (Ez : total (map snd r) = 0) by lra. rewrite Ez. assert (A0 : area r 0 = 0).
        { clear - H0. destruct r as [|[v1 d1] r]; [reflexivity|]. cbn. destruct (Rle_dec 0 d1) as [_|C]; [ring|]. exfalso. apply C, H0. right. left. reflexivity. }
        rewrite A0. ring.
      * replace (d0 + total (map snd r) - d0) with (total (map snd r)) by ring. ring.
Qed.
Section Smooth.
  Context (N : nat) (W init : R).
  Context (HN : (2 <= N)%nat) (HW : 0 < W).
  Definition good_step (p : R * R) : Prop := 0 <= snd p <= W.
  Definition smooth_inv (steps : list (R * R)) (k : nat) (d : smooth_delayer) : Prop :=
    let T := total (map snd steps) in
    s_window d = W /\ s_time d = T - INR k * W /\ 0 <= s_time d < W /\ s_inter d = area steps T - area steps (INR k * W) /\ s_idx d = (k mod N)%nat /\ length (s_data d) = N /\
    forall j, (1 <= j <= k)%nat -> (k < j + N)%nat -> nth_error (s_data d) (j mod N) = Some (window_mean steps W j).
  Lemma smooth_inv_init delay : 0 < delay -> delay / (INR N - 0.5) = W -> exists d, make_smooth N delay init = Ok d /\ smooth_inv [] 0 d.
  Proof.
    intros Hd EW. unfold make_smooth. destruct (Rlt_dec 0 delay); [|contradiction]. eexists. split; [reflexivity|]. unfold smooth_inv. cbn [s_window s_time s_inter s_idx s_data map total fold_right area INR].
    split; [exact EW|]. split; [cbn; ring|]. split; [lra|]. split; [ring|]. split; [symmetry; apply Nat.mod_0_l; lia|]. split; [cbn; rewrite repeat_length; lia|]. intros j Hj. lia.
  Qed.
  Lemma steps_nonneg steps : Forall good_step steps -> forall d, In d (map snd steps) -> 0 <= d.
  Proof. intros F d Hd. apply in_map_iff in Hd. destruct Hd as (p & <- & Hp). rewrite Forall_forall in F. apply (F p Hp). Qed.
  Lemma smooth_inv_step steps k d v dt : Forall good_step steps -> good_step (v, dt) -> smooth_inv steps k d -> exists d' k', smooth_add d v dt = Ok d' /\ smooth_inv (steps ++ [(v, dt)]) k' d'.
  Proof.
    intros F G (Ew & Et & Hr & Ein & Ei & EL & HS). pose proof (steps_nonneg steps F) as NN. unfold good_step in G. cbn [snd] in G.
    set (T := total (map snd steps)) in *. assert (ET : total (map snd (steps ++ [(v, dt)])) = T + dt) by (rewrite map_app, total_app; fold T; cbn; ring).
    pose proof (pos_INR k) as Pk.
    assert (MJ : forall j, (1 <= j <= k)%nat -> window_mean (steps ++ [(v, dt)]) W j = window_mean steps W j).
    { intros j Hj. assert (Lj : INR j <= INR k) by (apply le_INR; lia). assert (L1 : 1 <= INR j) by (change 1 with (INR 1); apply le_INR; lia). unfold window_mean. rewrite !area_before; try lra; try exact NN.
      - split; [nra|]. fold T. nra.
      - split; [nra|]. fold T. nra. }
    assert (AT : area (steps ++ [(v, dt)]) (T + dt) = area steps T + v * dt). { rewrite area_after; [fold T; ring|exact NN|fold T; lra]. }
    assert (AK : area (steps ++ [(v, dt)]) (INR k * W) = area steps (INR k * W)). { apply area_before; [lra|exact NN|]. fold T. nra. }
    unfold smooth_add. rewrite Ew, Et, EL, Ei. destruct (Rle_dec W _) as [C|C].
    - assert (Em : ((k mod N + 1) mod N = S k mod N)%nat) by (rewrite Nat.add_mod_idemp_l by lia; f_equal; lia). rewrite Em.
      assert (Lm : (S k mod N < N)%nat) by (apply Nat.mod_upper_bound; lia).
      rewrite vec_set_ok by lia. cbn [obind]. eexists _, (S k). split; [reflexivity|]. unfold smooth_inv. cbn [s_window s_time s_inter s_idx s_data]. rewrite ET, S_INR.
      assert (AK1 : area (steps ++ [(v, dt)]) ((INR k + 1) * W) = area steps T + v * ((INR k + 1) * W - T)). { rewrite area_after; [reflexivity|exact NN|]. fold T. lra. }
      split; [reflexivity|]. split; [ring|]. split; [lra|]. split; [rewrite AT, AK1; ring|]. split; [reflexivity|]. split; [rewrite list_set_length; exact EL|].
      intros j Hj1 Hj2. destruct (Nat.eq_dec j (S k)) as [->|Nj].
      + rewrite nth_error_list_set_eq by lia. f_equal. unfold window_mean. rewrite S_INR, AK1. replace (INR k + 1 - 1) with (INR k) by ring. rewrite AK, Ein. f_equal. ring.
      + rewrite nth_error_list_set_neq; [rewrite MJ by lia; apply HS; lia|]. intros E.
        pose proof (Nat.div_mod_eq j N) as D1. pose proof (Nat.div_mod_eq (S k) N) as D2. assert (j / N <> S k / N)%nat by (intros E2; rewrite E2, E in *; lia).
        assert (j / N < S k / N \/ S k / N < j / N)%nat as [K|K] by lia; nia.
    - eexists _, k. split; [reflexivity|]. unfold smooth_inv. cbn [s_window s_time s_inter s_idx s_data]. rewrite ET.
      split; [reflexivity|]. split; [ring|]. split; [lra|]. split; [rewrite AT, AK, Ein; ring|]. split; [reflexivity|]. split; [exact EL|].
      intros j Hj1 Hj2. rewrite MJ by lia. apply HS; lia.
  Qed.
  Lemma smooth_inv_run more : forall steps k d, Forall good_step steps -> Forall good_step more -> smooth_inv steps k d -> exists d' k', smooth_adds d more = Ok d' /\ smooth_inv (steps ++ more) k' d'.
  Proof.
    induction more as [|[v dt] more IH]; intros steps k d F1 F2 I.
    - exists d, k. split; [reflexivity|]. rewrite app_nil_r. exact I.
    - inversion F2 as [|? ? G F2']; subst. cbn [smooth_adds]. destruct (smooth_inv_step steps k d v dt F1 G I) as (d1 & k1 & E1 & I1). rewrite E1. cbn [obind].
      destruct (IH (steps ++ [(v, dt)]) k1 d1) as (d2 & k2 & E2 & I2); [apply Forall_app; split; [exact F1|constructor; [exact G|constructor]]|exact F2'|exact I1|].
      exists d2, k2. split; [exact E2|]. rewrite <- app_assoc in I2. exact I2.
  Qed.
  Lemma smooth_inv_value steps k d : smooth_inv steps k d -> exists y, smooth_value d = Ok y /\
    forall j, (1 <= j)%nat -> (j + (N - 1) = k)%nat -> y = (s_time d / W) * window_mean steps W (S j) + (1 - s_time d / W) * window_mean steps W j.
  Proof.
    intros (Ew & Et & Hr & Ein & Ei & EL & HS). unfold smooth_value. rewrite Ew, EL.
    assert (G : forall m, exists v, vec_get (s_data d) ((s_idx d + N + m) mod N) = Ok v).
    { intros m. assert (L : ((s_idx d + N + m) mod N < length (s_data d))%nat) by (rewrite EL; apply Nat.mod_upper_bound; lia).
      unfold vec_get. destruct (nth_error (s_data d) _) as [v|] eqn:E; [exists v; reflexivity|]. apply nth_error_None in E. lia. }
    destruct (G 2%nat) as [a2 E2]. destruct (G 1%nat) as [a1 E1]. rewrite E2. cbn [obind]. rewrite E1. cbn [obind]. eexists. split; [reflexivity|].
    intros j Hj1 Hj. assert (M1 : ((s_idx d + N + 1) mod N = j mod N)%nat).
    { rewrite Ei. replace (k mod N + N + 1)%nat with (k mod N + (1 + 1 * N))%nat by lia. rewrite Nat.add_mod_idemp_l by lia. replace (k + (1 + 1 * N))%nat with (j + 2 * N)%nat by lia. apply Nat.mod_add. lia. }
    assert (M2 : ((s_idx d + N + 2) mod N = S j mod N)%nat).
    { rewrite Ei. replace (k mod N + N + 2)%nat with (k mod N + (2 + 1 * N))%nat by lia. rewrite Nat.add_mod_idemp_l by lia. replace (k + (2 + 1 * N))%nat with (S j + 2 * N)%nat by lia. apply Nat.mod_add. lia. }
    rewrite M1 in E1. rewrite M2 in E2. unfold vec_get in E1, E2. rewrite (HS j) in E1 by lia. rewrite (HS (S j)) in E2 by lia.
    injection E1 as <-. injection E2 as <-. reflexivity.
  Qed.
End Smooth.
Lemma smooth_assembled N delay init steps j : let W := delay / (INR N - 1 / 2) in let T := total (map snd steps) in
  (2 <= N)%nat -> 0 < delay -> (forall v dt, In (v, dt) steps -> 0 <= dt <= W) -> (1 <= j)%nat -> (INR j - 1 / 2) * W <= T - delay < (INR j + 1 / 2) * W ->
  exists d d' y, make_smooth N delay init = Ok d /\ smooth_adds d steps = Ok d' /\ smooth_value d' = Ok y /\
    on_line ((INR j - 1 / 2) * W) (window_mean steps W j) ((INR j + 1 / 2) * W) (window_mean steps W (S j)) (T - delay) y.
Proof.
  intros W T HN Hd HS H1 Hj. assert (HI : 2 <= INR N) by (change 2 with (INR 2); apply le_INR; lia). assert (HW : 0 < W) by (unfold W; apply Rdiv_lt_0_compat; lra).
  assert (ED : delay = (INR N - 1 / 2) * W) by (unfold W; field; lra).
  assert (F : Forall (good_step W) steps). { apply Forall_forall. intros [v dt] Hp. apply (HS v dt Hp). }
  destruct (smooth_inv_init N W init HN HW delay Hd) as (d & Ed & I0); [unfold W; f_equal; lra|].
  destruct (smooth_inv_run N W HN HW steps [] 0 d (Forall_nil _) F I0) as (d' & k & E' & I). cbn [app] in I.
  destruct (smooth_inv_value N W HN steps k d' I) as (y & Ey & V).
  exists d, d', y. split; [exact Ed|]. split; [exact E'|]. split; [exact Ey|].
  destruct I as (_ & Et & Hr & _). fold T in Et. assert (EN : INR (N - 1) = INR N - 1) by (rewrite minus_INR by lia; reflexivity). assert (Q : (j + (N - 1) = k)%nat).
  { assert (A : INR (j + (N - 1)) < INR (S k)) by (rewrite S_INR, plus_INR, EN; apply (Rmult_lt_reg_r W); [lra|]; nra).
    assert (B : INR k < INR (S (j + (N - 1)))) by (rewrite S_INR, plus_INR, EN; apply (Rmult_lt_reg_r W); [lra|]; nra).
    apply INR_lt in A. apply INR_lt in B. lia. }
  rewrite (V j H1 Q), Et. unfold on_line. rewrite <- Q, plus_INR, EN. rewrite ED at 1. field. lra.
Qed.

(** ** recursive filters *)
Lemma shift_loop (l : list R) m : (m < length l)%nat -> fold_left (fun l i => list_set l i (nth (i - 1) l 0)) (rev (seq 1 m)) l = nth 0 l 0 :: firstn m l ++ skipn (S m) l.
Proof.
  revert l. induction m as [|m IH]; intros l H.
  - cbn. destruct l as [|a l]; [cbn in H; lia|]. reflexivity.
  - rewrite seq_S, rev_app_distr. cbn [rev app fold_left]. replace (1 + m - 1)%nat with m by lia. change (1 + m)%nat with (S m). rewrite IH by (rewrite list_set_length; lia).
    assert (D : exists a1 v w a2, l = a1 ++ v :: w :: a2 /\ length a1 = m).
    { destruct (nth_split l 0 (n := m)) as (l1 & l2 & E & L1); [lia|]. destruct l2 as [|w a2]; [rewrite E, app_length in H; cbn in H; lia|]. exists l1, (nth m l 0), w, a2. split; [exact E|exact L1]. }
    destruct D as (a1 & v & w & a2 & -> & L1).
    assert (E : list_set (a1 ++ v :: w :: a2) (S m) (nth m (a1 ++ v :: w :: a2) 0) = a1 ++ v :: v :: a2).
    { rewrite app_nth2 by lia. replace (m - length a1)%nat with 0%nat by lia. cbn [nth]. rewrite list_set_app2 by lia. replace (S m - length a1)%nat with 1%nat by lia. reflexivity. }
    rewrite E. subst m. assert (F1 : firstn (length a1) (a1 ++ v :: v :: a2) = a1) by (rewrite firstn_app, Nat.sub_diag, firstn_all; apply app_nil_r).
    assert (F2 : firstn (S (length a1)) (a1 ++ v :: w :: a2) = a1 ++ [v]). { rewrite firstn_app, firstn_all2 by lia. replace (S (length a1) - length a1)%nat with 1%nat by lia. reflexivity. }
    assert (F3 : skipn (S (length a1)) (a1 ++ v :: v :: a2) = v :: a2). { rewrite skipn_app, skipn_all2 by lia. replace (S (length a1) - length a1)%nat with 1%nat by lia. reflexivity. }
    assert (F4 : skipn (S (S (length a1))) (a1 ++ v :: w :: a2) = a2). { rewrite skipn_app, skipn_all2 by lia. replace (S (S (length a1)) - length a1)%nat with 2%nat by lia. reflexivity. }
    rewrite F1, F2, F3, F4, <- app_assoc. cbn [app]. f_equal. destruct a1; reflexivity.
Qed.
Lemma shift_set l x : l <> [] -> list_set (shift_values l) 0 x = x :: firstn (length l - 1) l.
Proof.
  intros H. assert (L : (0 < length l)%nat) by (destruct l; [congruence|cbn; lia]). unfold shift_values. rewrite shift_loop by lia. rewrite skipn_all2 by lia. rewrite app_nil_r. reflexivity.
Qed.
Lemma sum_loop (f : nat -> R) l c : fold_left (fun y i => y + f i) l c = c + total (map f l).
Proof. revert c. induction l as [|i l IH]; intros c; cbn; [ring|]. rewrite IH. unfold total. ring. Qed.
Definition taps (b a x y : list R) : R := total (map (fun i => nth i b 0 * nth i x 0 + nth i a 0 * nth i y 0) (seq 0 (length b))).
Lemma iir_step_eq f x : f_x f <> [] -> f_y f <> [] -> iir_step f x =
  let y := f_b0 f * x + taps (f_b f) (f_a f) (f_x f) (f_y f) in
  (Iir (f_b0 f) (x :: firstn (length (f_x f) - 1) (f_x f)) (y :: firstn (length (f_y f) - 1) (f_y f)) (f_b f) (f_a f), y).
Proof.
  intros Hx Hy. unfold iir_step. rewrite (sum_loop (fun i => nth i (f_b f) 0 * nth i (f_x f) 0 + nth i (f_a f) 0 * nth i (f_y f) 0)). fold (taps (f_b f) (f_a f) (f_x f) (f_y f)).
  rewrite !shift_set by assumption. reflexivity.
Qed.
Lemma total_ext {A} (f g : A -> R) l : (forall i, In i l -> f i = g i) -> total (map f l) = total (map g l).
Proof. intros H. f_equal. apply map_ext_in. exact H. Qed.
(** the state after [done]: the last values, newest first *)
Definition history (n : nat) (done : list R) (h : list R) : Prop := length h = n /\ forall i, (i < n)%nat -> nth i h 0 = before done (length done) i.
Lemma nth_firstn (l : list R) k i : (i < k)%nat -> nth i (firstn k l) 0 = nth i l 0.
Proof. revert k l. induction i as [|i IH]; intros k l H; destruct k; try lia; destruct l; cbn; try reflexivity. apply IH. lia. Qed.
Lemma history_push n done h v : (0 < n)%nat -> history n done h -> history n (done ++ [v]) (v :: firstn (length h - 1) h).
Proof.
  intros Hn [L H]. split; [cbn; rewrite firstn_length; lia|]. intros i Hi. unfold before. rewrite app_length. cbn [length]. destruct i as [|i].
  - cbn [nth]. replace (1 <=? length done + 1)%nat with true by (symmetry; apply Nat.leb_le; lia). replace (length done + 1 - 1)%nat with (length done) by lia. rewrite app_nth2, Nat.sub_diag by lia. reflexivity.
  - cbn [nth]. assert (E : nth i (firstn (length h - 1) h) 0 = nth i h 0). { apply nth_firstn. lia. }
    rewrite E, (H i) by lia. unfold before. destruct (Nat.leb_spec (S i) (length done)) as [C|C].
    + replace (S (S i) <=? length done + 1)%nat with true by (symmetry; apply Nat.leb_le; lia). replace (length done + 1 - S (S i))%nat with (length done - S i)%nat by lia. rewrite app_nth1 by lia. reflexivity.
    + replace (S (S i) <=? length done + 1)%nat with false by (symmetry; apply Nat.leb_gt; lia). reflexivity.
Qed.
Lemma before_app l r n i : (n <= length l)%nat -> before (l ++ r) n i = before l n i.
Proof. intros H. unfold before. destruct (Nat.leb_spec (S i) n); [|reflexivity]. apply app_nth1. lia. Qed.
Lemma iir_run_eq b0 b a n : length b = n -> (0 < n)%nat -> forall u du dy f, f_b0 f = b0 -> f_b f = b -> f_a f = a -> history n du (f_x f) -> history n dy (f_y f) -> length dy = length du ->
  difference_equation b0 b a du dy -> difference_equation b0 b a (du ++ u) (dy ++ iir_run f u).
Proof.
  intros Lb Hn. induction u as [|x u IH]; intros du dy f E0 Eb Ea Hx Hy LL D.
  - cbn [iir_run]. rewrite !app_nil_r. exact D.
  - cbn [iir_run]. pose proof Hx as [Lx Hx']. pose proof Hy as [Ly Hy']. rewrite iir_step_eq; [|intros E; rewrite E in Lx; cbn in Lx; lia|intros E; rewrite E in Ly; cbn in Ly; lia].
    cbv beta iota zeta. set (y := f_b0 f * x + taps (f_b f) (f_a f) (f_x f) (f_y f)).
    match goal with |- difference_equation _ _ _ _ (dy ++ y :: ?r) => change (difference_equation b0 b a (du ++ [x] ++ u) (dy ++ [y] ++ r)) end. rewrite !app_assoc. apply IH; cbn [f_b0 f_b f_a f_x f_y]; try assumption.
    + apply history_push; [exact Hn|exact Hx].
    + apply history_push; [exact Hn|exact Hy].
    + rewrite !app_length. cbn. lia.
    + destruct D as [_ D]. split; [rewrite !app_length; cbn; lia|]. intros k Hk. rewrite app_length in Hk. cbn [length] in Hk.
      assert (Bk : forall i, before (du ++ [x]) k i = before du k i) by (intros i; apply before_app; lia). assert (Bk' : forall i, before (dy ++ [y]) k i = before dy k i) by (intros i; apply before_app; lia).
      destruct (Nat.eq_dec k (length du)) as [->|Nk].
      * rewrite <- LL at 1. rewrite !app_nth2 by lia. rewrite !Nat.sub_diag. cbn [nth]. unfold y, taps. rewrite E0, Eb, Ea. f_equal. apply total_ext. intros i Hi. apply in_seq in Hi.
        rewrite !before_app, (Hx' i), (Hy' i) by lia. rewrite LL. reflexivity.
      * rewrite !app_nth1 by lia. rewrite (D k) by lia. f_equal. apply total_ext. intros i Hi. rewrite Bk, Bk'. reflexivity.
Qed.
Lemma history_zero n : history n [] (repeat 0 n).
Proof. split; [apply repeat_length|]. intros i Hi. unfold before. cbn. apply nth_repeat. Qed.
Lemma filter_equation b0 b a u : b <> [] -> difference_equation b0 b a u (iir_run (make_iir b0 b a) u).
Proof.
  intros Hb. apply (iir_run_eq b0 b a (length b) eq_refl) with (du := []) (dy := []); cbn [make_iir f_b0 f_b f_a f_x f_y]; try reflexivity; try apply history_zero.
  - destruct b; [congruence|cbn; lia].
  - split; [reflexivity|]. cbn. lia.
Qed.
(** a difference equation has one solution *)
Lemma equation_unique b0 b a u y y' : difference_equation b0 b a u y -> difference_equation b0 b a u y' -> y = y'.
Proof.
  intros [L D] [L' D']. apply (nth_ext _ _ 0 0); [lia|]. intros n Hn. rewrite L in Hn. revert n Hn. apply (well_founded_ind lt_wf (fun n => (n < length u)%nat -> nth n y 0 = nth n y' 0)). intros n IH Hn.
  rewrite D, D' by exact Hn. f_equal. apply total_ext. intros i Hi. f_equal. f_equal. unfold before. destruct (Nat.leb_spec (S i) n); [|reflexivity]. apply IH; lia.
Qed.
Lemma total_lin {A} p q (f g : A -> R) l : p * total (map f l) + q * total (map g l) = total (map (fun i => p * f i + q * g i) l).
Proof. induction l as [|i l IH]; cbn; [ring|]. unfold total in IH. cbn in IH. unfold total. rewrite <- IH. ring. Qed.
Lemma combine_signals_length p q u v : length u = length v -> length (combine_signals p q u v) = length u.
Proof. intros H. unfold combine_signals. rewrite map_length, combine_length. lia. Qed.
Lemma combine_signals_nth p q u v n : length u = length v -> nth n (combine_signals p q u v) 0 = p * nth n u 0 + q * nth n v 0.
Proof.
  intros H. unfold combine_signals. destruct (Nat.lt_ge_cases n (length u)) as [C|C].
  - rewrite (nth_indep _ 0 (p * fst (0, 0) + q * snd (0, 0))) by (rewrite map_length, combine_length; lia). rewrite (map_nth (fun uv => p * fst uv + q * snd uv)). rewrite combine_nth by exact H. reflexivity.
  - rewrite !nth_overflow; try lia; [ring|]. rewrite map_length, combine_length. lia.
Qed.
Lemma linear_assembled b0 b a p q u v : b <> [] -> length u = length v ->
  iir_run (make_iir b0 b a) (combine_signals p q u v) = combine_signals p q (iir_run (make_iir b0 b a) u) (iir_run (make_iir b0 b a) v).
Proof.
  intros Hb L. apply (equation_unique b0 b a (combine_signals p q u v)); [apply filter_equation, Hb|]. destruct (filter_equation b0 b a u Hb) as [Lu Du]. destruct (filter_equation b0 b a v Hb) as [Lv Dv].
  set (yu := iir_run _ u) in *. set (yv := iir_run _ v) in *. split; [rewrite !combine_signals_length; lia|]. intros n Hn. rewrite combine_signals_length in Hn by exact L.
  rewrite !combine_signals_nth by lia. rewrite Du, Dv by lia. rewrite !Rmult_plus_distr_l.
  replace (p * (b0 * nth n u 0) + p * total (map (fun i => nth i b 0 * before u n i + nth i a 0 * before yu n i) (seq 0 (length b))) + (q * (b0 * nth n v 0) + q * total (map (fun i => nth i b 0 * before v n i + nth i a 0 * before yv n i) (seq 0 (length b)))))
    with (b0 * (p * nth n u 0) + b0 * (q * nth n v 0) + (p * total (map (fun i => nth i b 0 * before u n i + nth i a 0 * before yu n i) (seq 0 (length b))) + q * total (map (fun i => nth i b 0 * before v n i + nth i a 0 * before yv n i) (seq 0 (length b))))) by ring.
  rewrite total_lin. f_equal. apply total_ext. intros i _. unfold before. destruct (S i <=? n)%nat; [|ring]. rewrite !combine_signals_nth by lia. ring.
Qed.
Lemma shift_assembled b0 b a k u : b <> [] -> iir_run (make_iir b0 b a) (repeat 0 k ++ u) = repeat 0 k ++ iir_run (make_iir b0 b a) u.
Proof.
  intros Hb. apply (equation_unique b0 b a (repeat 0 k ++ u)); [apply filter_equation, Hb|]. destruct (filter_equation b0 b a u Hb) as [Lu Du]. set (y := iir_run _ u) in *.
  split; [rewrite !app_length; lia|]. intros n Hn. rewrite app_length, repeat_length in Hn.
  assert (B : forall (l : list R) i, before (repeat 0 k ++ l) n i = if (k <=? n)%nat then before l (n - k) i else 0).
  { intros l i. unfold before. destruct (Nat.leb_spec k n) as [C|C].
    - destruct (Nat.leb_spec (S i) n) as [C1|C1]; destruct (Nat.leb_spec (S i) (n - k)) as [C2|C2]; try lia; try reflexivity.
      + rewrite app_nth2 by (rewrite repeat_length; lia). rewrite repeat_length. f_equal. lia.
      + rewrite app_nth1 by (rewrite repeat_length; lia). apply nth_repeat.
    - destruct (Nat.leb_spec (S i) n) as [C1|C1]; [|reflexivity]. rewrite app_nth1 by (rewrite repeat_length; lia). apply nth_repeat. }
  rewrite (total_ext _ (fun i => if (k <=? n)%nat then nth i b 0 * before u (n - k) i + nth i a 0 * before y (n - k) i else 0)) by (intros i _; rewrite !B; destruct (k <=? n)%nat; ring).
  destruct (Nat.leb_spec k n) as [C|C].
  - rewrite !app_nth2 by (rewrite repeat_length; lia). rewrite repeat_length. apply Du. lia.
  - rewrite !app_nth1 by (rewrite repeat_length; lia). rewrite !nth_repeat. rewrite (total_ext _ (fun i => 0 * 0)) by (intros; ring). clear. induction (seq 0 (length b)); cbn in *; [ring|]. unfold total in *. lra.
Qed.

(** ** Butterworth *)
Section Butterworth.
  Context (ita : R) (Hi : 0 < ita).
  Let q := sqrt 2.
  Let b0 := 1 / (1 + q * ita + ita * ita).
  Let a0 := 2 * (ita * ita - 1) * b0.
  Let a1 := - (1 - q * ita + ita * ita) * b0.
  Lemma q_sq : q * q = 2.
  Proof. unfold q. apply sqrt_sqrt. lra. Qed.
  Lemma q_pos : 0 < q.
  Proof. unfold q. apply sqrt_lt_R0. lra. Qed.
  Lemma den_pos : 0 < 1 + q * ita + ita * ita.
  Proof. pose proof q_pos. nra. Qed.
  Lemma b0_pos : 0 < b0.
  Proof. unfold b0. apply Rdiv_lt_0_compat; [lra|apply den_pos]. Qed.
  Lemma a1_bounds : 0 < - a1 < 1.
  Proof.
    pose proof q_pos. pose proof q_sq. pose proof den_pos as D. pose proof b0_pos as B. assert (E : b0 * (1 + q * ita + ita * ita) = 1) by (unfold b0; field; lra).
    assert (M : 0 < 1 - q * ita + ita * ita) by nra. unfold a1. split; [nra|]. assert (0 < q * ita) by (apply Rmult_lt_0_compat; lra). assert (0 < b0 * (2 * (q * ita))) by (apply Rmult_lt_0_compat; lra). lra.
  Qed.
  Lemma disc_pos : 0 < 4 * - a1 - a0 * a0.
  Proof.
    pose proof q_pos. pose proof q_sq as Q. pose proof den_pos as D. pose proof b0_pos as B. assert (E : b0 * (1 + q * ita + ita * ita) = 1) by (unfold b0; field; lra).
    assert (F : 4 * - a1 - a0 * a0 = 4 * (b0 * b0) * (2 * (ita * ita))).
    { unfold a1, a0. replace (4 * - (- (1 - q * ita + ita * ita) * b0)) with (4 * (1 - q * ita + ita * ita) * b0 * (b0 * (1 + q * ita + ita * ita))) by (rewrite E; ring).
      replace (4 * (1 - q * ita + ita * ita) * b0 * (b0 * (1 + q * ita + ita * ita))) with (4 * (b0 * b0) * ((1 + ita * ita) * (1 + ita * ita) - (q * q) * (ita * ita))) by ring. rewrite Q. ring. }
    rewrite F. assert (0 < b0 * b0) by (apply Rmult_lt_0_compat; exact B). assert (0 < ita * ita) by (apply Rmult_lt_0_compat; exact Hi). apply Rmult_lt_0_compat; lra.
  Qed.
  Lemma energy_step x y : let n := a0 * x + a1 * y in n * n - a0 * n * x - a1 * (x * x) = - a1 * (x * x - a0 * x * y - a1 * (y * y)).
  Proof. cbv zeta. ring. Qed.
  Lemma energy_lower x y : (1 - a0 * a0 / (4 * - a1)) * (x * x) <= x * x - a0 * x * y - a1 * (y * y).
  Proof.
    destruct a1_bounds as [A _]. assert (E : x * x - a0 * x * y - a1 * (y * y) - (1 - a0 * a0 / (4 * - a1)) * (x * x) = - a1 * Rsqr (y - a0 * x / (2 * - a1))) by (unfold Rsqr; field; lra).
    pose proof (Rle_0_sqr (y - a0 * x / (2 * - a1))). assert (0 <= - a1 * Rsqr (y - a0 * x / (2 * - a1))) by (apply Rmult_le_pos; lra). lra.
  Qed.
  Lemma butter_converges u s : (forall n, s (S (S n)) = b0 * u (S (S n)) + 2 * b0 * u (S n) + b0 * u n + a0 * s (S n) + a1 * s n) ->
    forall eps, 0 < eps -> exists n0, forall n L, (n0 <= n < L)%nat -> Rabs (nth n (iir_run (make_iir b0 [2 * b0; b0] [a0; a1]) (map u (seq 0 L))) 0 - s n) < eps.
  Proof.
    intros HS eps He. destruct a1_bounds as [A1 A2]. set (dl := 1 - a0 * a0 / (4 * - a1)). assert (Hd : 0 < dl).
    { unfold dl. pose proof disc_pos. assert (a0 * a0 / (4 * - a1) < 1); [|lra]. apply (Rmult_lt_reg_r (4 * - a1)); [lra|]. unfold Rdiv. rewrite Rmult_assoc, Rinv_l by lra. lra. }
    set (e0 := b0 * u 0%nat - s 0%nat). set (e1 := b0 * u 1%nat + (2 * b0 * u 0%nat + a0 * (b0 * u 0%nat)) - s 1%nat).
    set (Q := fun x y => x * x - a0 * x * y - a1 * (y * y)).
    destruct (pow_lt_1_zero (- a1)) with (y := eps * eps * dl / (Rabs (Q e1 e0) + 1)) as [n0 Hn0].
    { rewrite Rabs_right; lra. }
    { pose proof (Rabs_pos (Q e1 e0)). apply Rdiv_lt_0_compat; [|lra]. apply Rmult_lt_0_compat; [|exact Hd]. apply Rmult_lt_0_compat; lra. }
    exists (S n0). intros n L Hn. destruct n as [|n]; [lia|].
    destruct (filter_equation b0 [2 * b0; b0] [a0; a1] (map u (seq 0 L))) as [LL D]; [discriminate|]. set (y := iir_run _ _) in *. rewrite map_length, seq_length in *.
    assert (U : forall k, (k < L)%nat -> nth k (map u (seq 0 L)) 0 = u k). { intros k Hk. rewrite (nth_indep _ 0 (u 0%nat)) by (rewrite map_length, seq_length; exact Hk). rewrite map_nth, seq_nth by exact Hk. reflexivity. }
    set (e := fun k => nth k y 0 - s k).
    assert (EE : forall k, (S (S k) < L)%nat -> e (S (S k)) = a0 * e (S k) + a1 * e k).
    { intros k Hk. unfold e. rewrite (D (S (S k)) Hk), HS. cbn [length seq map total fold_right before nth Nat.leb]. unfold before. cbn [Nat.leb].
      replace (S (S k) - 1)%nat with (S k) by lia. replace (S (S k) - 2)%nat with k by lia. rewrite !U by lia. ring. }
    assert (E0 : e 0%nat = e0). { unfold e, e0. rewrite (D 0%nat) by lia. rewrite U by lia. cbn. ring. }
    assert (E1 : e 1%nat = e1). { unfold e, e1. rewrite (D 1%nat) by lia. unfold before. cbn [length seq map total fold_right nth Nat.leb Nat.sub]. rewrite (D 0%nat) by lia. rewrite !U by lia. cbn. ring. }
    assert (EQ : forall k, (S k < L)%nat -> Q (e (S k)) (e k) = (- a1) ^ k * Q e1 e0).
    { induction k as [|k IH]; intros Hk.
      - rewrite E1, E0. cbn. ring.
      - rewrite EE by exact Hk. unfold Q at 1. rewrite energy_step. fold (Q (e (S k)) (e k)). rewrite IH by lia. cbn. ring. }
    pose proof (energy_lower (e (S n)) (e n)) as LO. fold dl in LO. fold (Q (e (S n)) (e n)) in LO. rewrite (EQ n) in LO by lia.
    specialize (Hn0 n ltac:(lia)). assert (P : 0 < (- a1) ^ n) by (apply pow_lt; lra). rewrite Rabs_right in Hn0 by lra.
    pose proof (Rabs_pos (Q e1 e0)) as RP. pose proof (Rle_abs (Q e1 e0)) as RA.
    assert (B : (- a1) ^ n * Q e1 e0 < eps * eps * dl).
    { apply Rle_lt_trans with ((- a1) ^ n * Rabs (Q e1 e0)); [apply Rmult_le_compat_l; lra|]. apply Rle_lt_trans with ((- a1) ^ n * (Rabs (Q e1 e0) + 1)); [apply Rmult_le_compat_l; lra|].
      apply (Rmult_lt_compat_r (Rabs (Q e1 e0) + 1)) in Hn0; [|lra]. unfold Rdiv in Hn0. rewrite Rmult_assoc, Rinv_l in Hn0 by lra. lra. }
    assert (SQ : e (S n) * e (S n) < eps * eps) by (apply (Rmult_lt_reg_l dl); lra). fold (e (S n)). clear - SQ He. unfold Rabs. destruct (Rcase_abs (e (S n))); nra.
  Qed.
  (** the steady state for a sinusoid; [t] is the tangent of half its angle per sample *)
  Lemma steady_state th t w : t = sin (th / 2) / cos (th / 2) -> cos (th / 2) <> 0 -> w = ita * t ->
    let s := fun n : nat => ((1 - w * w) * cos (th * INR n) + q * w * sin (th * INR n)) / (1 + w * w * (w * w)) in
    forall n, s (S (S n)) = b0 * cos (th * INR (S (S n))) + 2 * b0 * cos (th * INR (S n)) + b0 * cos (th * INR n) + a0 * s (S n) + a1 * s n.
  Proof.
    intros Ht Hc Hw s n. unfold s. rewrite !S_INR. set (ph := th * (INR n + 1)). replace (th * (INR n + 1 + 1)) with (ph + th) by (unfold ph; ring). replace (th * INR n) with (ph - th) by (unfold ph; ring).
    rewrite cos_plus, cos_minus, sin_plus, sin_minus. pose proof q_sq as Q. pose proof den_pos as D. assert (W : 0 < 1 + w * w * (w * w)) by (pose proof (Rle_0_sqr (w * w)); unfold Rsqr in *; lra).
    set (c := cos (th / 2)) in *. set (sn := sin (th / 2)) in *. assert (CS : sn * sn + c * c = 1) by (pose proof (sin2_cos2 (th / 2)) as Z; unfold Rsqr in Z; exact Z).
    assert (ES : sn = t * c) by (rewrite Ht; field; exact Hc).
    assert (T2 : c * c * (1 + t * t) = 1) by (rewrite ES in CS; lra).
    assert (Cth : cos th = (1 - t * t) * (c * c)). { replace th with (2 * (th / 2)) by field. rewrite cos_2a. fold c sn. rewrite ES. ring. }
    assert (Sth : sin th = 2 * t * (c * c)). { replace th with (2 * (th / 2)) by field. rewrite sin_2a. fold c sn. rewrite ES. ring. }
    rewrite Cth, Sth. set (C := cos ph). set (S := sin ph). set (k := c * c) in *.
    assert (Eb : b0 * (1 + q * ita + ita * ita) = 1) by (unfold b0; field; lra).
    apply (Rmult_eq_reg_r (1 + w * w * (w * w))); [|lra].
    (* clear the denominators *)
    set (X1 := (1 - w * w) * (C * ((1 - t * t) * k) - S * (2 * t * k)) + q * w * (S * ((1 - t * t) * k) + C * (2 * t * k))).
    set (X0 := (1 - w * w) * C + q * w * S).
    set (X2 := (1 - w * w) * (C * ((1 - t * t) * k) + S * (2 * t * k)) + q * w * (S * ((1 - t * t) * k) - C * (2 * t * k))).
    replace (X1 / (1 + w * w * (w * w)) * (1 + w * w * (w * w))) with X1 by (field; lra).
    replace ((b0 * (C * ((1 - t * t) * k) - S * (2 * t * k)) + 2 * b0 * C + b0 * (C * ((1 - t * t) * k) + S * (2 * t * k)) + a0 * (X0 / (1 + w * w * (w * w))) + a1 * (X2 / (1 + w * w * (w * w)))) * (1 + w * w * (w * w)))
      with (b0 * (C * ((1 - t * t) * k) * 2 + 2 * C) * (1 + w * w * (w * w)) + a0 * X0 + a1 * X2) by (field; lra).
    replace X1 with (b0 * (1 + q * ita + ita * ita) * X1) by (rewrite Eb; ring). unfold a0, a1.
    apply (Rminus_diag_uniq). set (bb := b0).
    assert (G : (1 + q * ita + ita * ita) * X1 - ((C * ((1 - t * t) * k) * 2 + 2 * C) * (1 + w * w * (w * w)) + 2 * (ita * ita - 1) * X0 - (1 - q * ita + ita * ita) * X2) = 0).
    { replace ((1 + q * ita + ita * ita) * X1 - ((C * ((1 - t * t) * k) * 2 + 2 * C) * (1 + w * w * (w * w)) + 2 * (ita * ita - 1) * X0 - (1 - q * ita + ita * ita) * X2))
        with ((1 + ita * ita) * (X1 + X2) + q * ita * (X1 - X2) - 2 * (ita * ita - 1) * X0 - (C * ((1 - t * t) * k) * 2 + 2 * C) * (1 + w * w * (w * w))) by ring.
      replace (X1 + X2) with (2 * ((1 - t * t) * k) * X0) by (unfold X1, X2, X0; ring).
      replace (X1 - X2) with (2 * (2 * t * k) * (q * w * C - (1 - w * w) * S)) by (unfold X1, X2; ring).
      assert (K : forall z, z = z * (k * (1 + t * t))) by (intros z; rewrite T2; ring).
      rewrite (K (2 * (ita * ita - 1) * X0)). replace (2 * C) with (2 * C * (k * (1 + t * t))) by (rewrite T2; ring).
      replace ((1 + ita * ita) * (2 * ((1 - t * t) * k) * X0) + q * ita * (2 * (2 * t * k) * (q * w * C - (1 - w * w) * S)) - 2 * (ita * ita - 1) * X0 * (k * (1 + t * t)) - (C * ((1 - t * t) * k) * 2 + 2 * C * (k * (1 + t * t))) * (1 + w * w * (w * w)))
        with (4 * k * ((1 - (ita * t) * (ita * t)) * X0 + q * (ita * t) * (q * w * C - (1 - w * w) * S) - C * (1 + w * w * (w * w)))) by ring.
      rewrite <- Hw. unfold X0. replace ((1 - w * w) * ((1 - w * w) * C + q * w * S) + q * w * (q * w * C - (1 - w * w) * S) - C * (1 + w * w * (w * w))) with (C * ((q * q) * (w * w) - 2 * (w * w))) by ring. rewrite Q. ring. }
    transitivity (bb * ((1 + q * ita + ita * ita) * X1 - ((C * ((1 - t * t) * k) * 2 + 2 * C) * (1 + w * w * (w * w)) + 2 * (ita * ita - 1) * X0 - (1 - q * ita + ita * ita) * X2))); [unfold bb; ring|]. rewrite G. ring.
  Qed.
End Butterworth.
Lemma tan_half_pos f : 0 < f < 1 / 2 -> 0 < tan (PI * f).
Proof. intros H. apply tan_gt_0; pose proof PI_RGT_0; nra. Qed.
Lemma butterworth_assembled c f : 0 < c < 1 / 2 -> 0 <= f < 1 / 2 -> exists A B, A * A + B * B = 1 / (1 + (tan (PI * f) / tan (PI * c)) ^ 4) /\
  forall eps, 0 < eps -> exists n0, forall n L, (n0 <= n < L)%nat ->
    Rabs (nth n (iir_run (butterworth c) (map (fun k => cos (2 * PI * f * INR k)) (seq 0 L))) 0 - (A * cos (2 * PI * f * INR n) + B * sin (2 * PI * f * INR n))) < eps.
Proof.
  intros Hc Hf. set (ita := 1 / tan (PI * c)). assert (Tp : 0 < tan (PI * c)) by (apply tan_half_pos, Hc). assert (Hi : 0 < ita) by (unfold ita; apply Rdiv_lt_0_compat; lra).
  set (t := tan (PI * f)). set (w := ita * t). pose proof (q_sq) as Q. assert (W : 0 < 1 + w * w * (w * w)) by (pose proof (Rle_0_sqr (w * w)); unfold Rsqr in *; lra).
  exists ((1 - w * w) / (1 + w * w * (w * w))), (sqrt 2 * w / (1 + w * w * (w * w))). split.
  - replace (t / tan (PI * c)) with w by (unfold w, ita; field; lra). replace (1 + w ^ 4) with (1 + w * w * (w * w)) by ring.
    transitivity (((1 - w * w) * (1 - w * w) + (sqrt 2 * sqrt 2) * (w * w)) / ((1 + w * w * (w * w)) * (1 + w * w * (w * w)))); [field; lra|]. rewrite Q. field. lra.
  - intros eps He. destruct (butter_converges ita Hi (fun k => cos (2 * PI * f * INR k)) (fun n : nat => ((1 - w * w) * cos (2 * PI * f * INR n) + sqrt 2 * w * sin (2 * PI * f * INR n)) / (1 + w * w * (w * w)))) with (eps := eps) as [n0 H0]; [|exact He|].
    + apply (steady_state ita Hi (2 * PI * f) t w); [|  |reflexivity].
      * unfold t, tan. f_equal; f_equal; field.
      * replace (2 * PI * f / 2) with (PI * f) by field. assert (0 < cos (PI * f)); [|lra]. apply cos_gt_0; pose proof PI_RGT_0; nra.
    + exists n0. intros n L Hn. specialize (H0 n L Hn). cbv beta in H0.
      replace ((1 - w * w) / (1 + w * w * (w * w)) * cos (2 * PI * f * INR n) + sqrt 2 * w / (1 + w * w * (w * w)) * sin (2 * PI * f * INR n)) with (((1 - w * w) * cos (2 * PI * f * INR n) + sqrt 2 * w * sin (2 * PI * f * INR n)) / (1 + w * w * (w * w))) by (field; lra).
      exact H0.
Qed.
Lemma butterworth_constant c v : 0 < c < 1 / 2 -> forall eps, 0 < eps -> exists n0, forall n L, (n0 <= n < L)%nat -> Rabs (nth n (iir_run (butterworth c) (repeat v L)) 0 - v) < eps.
Proof.
  intros Hc eps He. set (ita := 1 / tan (PI * c)). assert (Tp : 0 < tan (PI * c)) by (apply tan_half_pos, Hc). assert (Hi : 0 < ita) by (unfold ita; apply Rdiv_lt_0_compat; lra).
  destruct (butter_converges ita Hi (fun _ => v) (fun _ => v)) with (eps := eps) as [n0 H0]; [|exact He|].
  - intros _. pose proof (den_pos ita Hi). field. lra.
  - exists n0. intros n L Hn. specialize (H0 n L Hn). cbv beta in H0. replace (repeat v L) with (map (fun _ : nat => v) (seq 0 L)); [exact H0|]. clear. generalize 0%nat. induction L as [|L IH]; intros k; cbn; [reflexivity|]. rewrite IH. reflexivity.
Qed.

(** ** first order filter *)
Lemma accurate_assembled rate v old : (forall d1 d2, update_accurate rate (update_accurate rate old v d1) v d2 = update_accurate rate old v (d1 + d2)) /\
  (forall dts, fold_left (fun s dt => update_accurate rate s v dt) dts old = v + (old - v) * exp (- rate * total dts)) /\
  (forall dt, 0 <= rate -> 0 <= dt -> Rmin old v <= update_accurate rate old v dt <= Rmax old v) /\ (forall dt, update_accurate rate v v dt = v).
Proof.
  assert (A : forall o d1 d2, update_accurate rate (update_accurate rate o v d1) v d2 = update_accurate rate o v (d1 + d2)).
  { intros o d1 d2. unfold update_accurate. replace (- rate * (d1 + d2)) with (- rate * d1 + - rate * d2) by ring. rewrite exp_plus. ring. }
  split; [apply A|]. split; [|split].
  - intros dts. transitivity (update_accurate rate old v (total dts)); [|reflexivity]. revert old. induction dts as [|d dts IH]; intros old.
    + cbn. unfold update_accurate. rewrite Rmult_0_r, exp_0. ring.
    + cbn [fold_left]. rewrite IH, A. reflexivity.
  - intros dt Hr Hd. unfold update_accurate. assert (E1 : 0 < exp (- rate * dt)) by apply exp_pos. assert (E2 : exp (- rate * dt) <= 1).
    { rewrite <- exp_0. destruct (Req_dec (- rate * dt) 0) as [->|N]; [lra|]. apply Rlt_le, exp_increasing. nra. }
    unfold Rmin, Rmax. destruct (Rle_dec old v); nra.
  - intros dt. unfold update_accurate. ring.
Qed.
Lemma fast_assembled rate v old dt : (0 <= dt * rate <= 1 -> Rmin old v <= update_fast rate old v dt <= Rmax old v) /\ update_fast rate v v dt = v /\
  update_fast rate old v dt - v = (1 - dt * rate) * (old - v).
Proof. unfold update_fast. split; [|split; ring]. intros H. unfold Rmin, Rmax. destruct (Rle_dec old v); nra. Qed.

Lemma iir_run_app u : forall f v, iir_run f (u ++ v) = iir_run f u ++ iir_run (iir_after f u) v.
Proof. induction u as [|x u IH]; intros f v; [reflexivity|]. cbn [app iir_run iir_after fold_left]. destruct (iir_step f x) as [f' y] eqn:E. cbn [fst app]. f_equal. apply IH. Qed.
Lemma iir_run_length u : forall f, length (iir_run f u) = length u.
Proof. induction u as [|x u IH]; intros f; [reflexivity|]. cbn [iir_run]. destruct (iir_step f x) as [f' y]. cbn [length]. f_equal. apply IH. Qed.
Lemma iir_step_y f x : f_y f <> [] -> f_y (fst (iir_step f x)) = snd (iir_step f x) :: firstn (length (f_y f) - 1) (f_y f).
Proof. intros H. unfold iir_step. cbn [fst snd f_y]. apply shift_set, H. Qed.
Lemma iir_after_y u : forall f, f_y f <> [] -> length (f_y (iir_after f u)) = length (f_y f).
Proof.
  induction u as [|x u IH]; intros f H; [reflexivity|]. cbn [iir_after fold_left]. change (length (f_y (iir_after (fst (iir_step f x)) u)) = length (f_y f)).
  pose proof (iir_step_y f x H) as E. rewrite IH by (rewrite E; discriminate). rewrite E. cbn [length]. rewrite firstn_length. destruct (f_y f) as [|a l]; [congruence|]. cbn [length]. lia.
Qed.
Lemma velocity_assembled b0 b a u : (2 <= length b)%nat -> (2 <= length u)%nat -> let y := iir_run (make_iir b0 b a) u in
  iir_velocity (iir_after (make_iir b0 b a) u) = nth (length u - 1) y 0 - nth (length u - 2) y 0.
Proof.
  intros Hb Hu. assert (exists v x1 x2, u = v ++ [x1; x2]) as (v & x1 & x2 & ->).
  { destruct (@exists_last _ u) as (u1 & x2 & ->); [intros ->; cbn in Hu; lia|]. rewrite app_length in Hu. cbn in Hu. destruct (@exists_last _ u1) as (v & x1 & ->); [intros ->; cbn in Hu; lia|]. exists v, x1, x2. rewrite <- app_assoc. reflexivity. }
  cbv zeta. rewrite app_length. cbn [length]. rewrite iir_run_app. set (f := iir_after (make_iir b0 b a) v).
  assert (Lf : (2 <= length (f_y f))%nat). { unfold f. rewrite iir_after_y; cbn [make_iir f_y]; [rewrite repeat_length; exact Hb|]. destruct b; [cbn in Hb; lia|discriminate]. }
  assert (EA : iir_after (make_iir b0 b a) (v ++ [x1; x2]) = fst (iir_step (fst (iir_step f x1)) x2)). { unfold iir_after at 1. rewrite fold_left_app. reflexivity. }
  assert (Hf : f_y f <> []) by (intros E; rewrite E in Lf; cbn in Lf; lia).
  pose proof (iir_step_y f x1 Hf) as E1. assert (N1 : f_y (fst (iir_step f x1)) <> []) by (rewrite E1; discriminate). pose proof (iir_step_y _ x2 N1) as E2.
  assert (ER : iir_run f [x1; x2] = [snd (iir_step f x1); snd (iir_step (fst (iir_step f x1)) x2)]).
  { cbn [iir_run]. destruct (iir_step f x1) as [f1 y1]. cbn [fst snd]. destruct (iir_step f1 x2) as [f2 y2]. reflexivity. }
  rewrite EA, ER. unfold iir_velocity. rewrite E2, E1. cbn [length]. rewrite firstn_length. replace (S (Nat.min (length (f_y f) - 1) (length (f_y f))) - 1)%nat with (S (length (f_y f) - 2)) by lia. cbn [firstn nth].
  rewrite !app_nth2; rewrite !iir_run_length; try lia. replace (length v + 2 - 1 - length v)%nat with 1%nat by lia. replace (length v + 2 - 2 - length v)%nat with 0%nat by lia. reflexivity.
Qed.

(** ** delta, average, polynomials *)
Lemma delta_assembled l : forall p, length (delta_run p l) = length l /\ (forall k, (k <= length l)%nat -> p + total (firstn k (delta_run p l)) = last (firstn k l) p).
Proof.
  induction l as [|v l IH]; intros p.
  - split; [reflexivity|]. intros k _. rewrite !firstn_nil. cbn. ring.
  - cbn [delta_run delta_step length]. destruct (IH v) as [L S]. split; [rewrite L; reflexivity|]. intros k Hk. destruct k as [|k]; [cbn; ring|].
    cbn [firstn]. unfold total. cbn [fold_right]. fold (total (firstn k (delta_run v l))). replace (p + (v - p + total (firstn k (delta_run v l)))) with (v + total (firstn k (delta_run v l))) by ring.
    rewrite S by lia. destruct (firstn k l) as [|w r]; [reflexivity|]. cbn [last]. clear. revert w. induction r as [|x r IH]; intros w; [reflexivity|]. cbn [last]. apply IH.
Qed.
Lemma avg_tot l : forall a, tot_v (fold_left (fun a p => avg_add a (fst p) (snd p)) l a) = tot_v a + total (map (fun p => snd p * fst p) l) /\ tot_w (fold_left (fun a p => avg_add a (fst p) (snd p)) l a) = tot_w a + total (map snd l).
Proof. induction l as [|p l IH]; intros a; [cbn; split; ring|]. cbn [fold_left]. destruct (IH (avg_add a (fst p) (snd p))) as [-> ->]. unfold avg_add, total. cbn. split; ring. Qed.
Lemma average_assembled l : let a := fold_left (fun a p => avg_add a (fst p) (snd p)) l avg_empty in let tw := total (map snd l) in
  (0 < tw -> avg_get a = total (map (fun p => snd p * fst p) l) / tw) /\ (tw <= 0 -> avg_get a = 0) /\ (avg_is_empty a = true <-> tw = 0) /\
  (forall lo hi, (forall v w, In (v, w) l -> lo <= v <= hi /\ 0 <= w) -> 0 < tw -> lo <= avg_get a <= hi).
Proof.
  intros a tw. destruct (avg_tot l avg_empty) as [Ev Ew]. fold a in Ev, Ew. cbn [avg_empty tot_v tot_w] in Ev, Ew. rewrite Rplus_0_l in Ev, Ew. fold tw in Ew.
  assert (G : 0 < tw -> avg_get a = total (map (fun p => snd p * fst p) l) / tw). { intros H. unfold avg_get. rewrite Ew, Ev. destruct (Rlt_dec 0 tw); [reflexivity|contradiction]. }
  split; [exact G|]. split; [intros H; unfold avg_get; rewrite Ew; destruct (Rlt_dec 0 tw); [lra|reflexivity]|]. split.
  - unfold avg_is_empty. rewrite Ew. destruct (Req_EM_T tw 0); split; intros; congruence.
  - intros lo hi B H. rewrite (G H). assert (P : lo * tw <= total (map (fun p => snd p * fst p) l) <= hi * tw).
    { unfold tw. clear - B. induction l as [|[v w] l IH]; [cbn; lra|]. destruct (B v w (or_introl eq_refl)) as [B1 B2]. specialize (IH (fun v w H => B v w (or_intror H))). unfold total in *. cbn. nra. }
    split; [apply (Rmult_le_reg_r tw)|apply (Rmult_le_reg_r tw)]; try exact H; unfold Rdiv; rewrite Rmult_assoc, Rinv_l by lra; lra.
Qed.
Lemma poly_loop v l : forall r f, fst (fold_left (fun '(result, factor) c => (result + factor * c, factor * v)) l (r, f)) = r + f * total (map (fun i => nth i l 0 * v ^ i) (seq 0 (length l))).
Proof.
  induction l as [|c l IH]; intros r f; [cbn; ring|]. cbn [fold_left]. rewrite IH. cbn [length seq map]. unfold total. cbn [fold_right nth pow]. rewrite <- seq_shift, map_map. cbn [nth].
  fold (total (map (fun x => nth x l 0 * v ^ S x) (seq 0 (length l)))). fold (total (map (fun i => nth i l 0 * v ^ i) (seq 0 (length l)))).
  replace (total (map (fun x => nth x l 0 * v ^ S x) (seq 0 (length l)))) with (v * total (map (fun i => nth i l 0 * v ^ i) (seq 0 (length l)))); [ring|].
  rewrite (total_ext (fun x => nth x l 0 * v ^ S x) (fun i => v * (nth i l 0 * v ^ i))) by (intros; cbn; ring). generalize (seq 0 (length l)). clear. intros s. induction s as [|i s IH]; [cbn; ring|]. unfold total in *. cbn. rewrite <- IH. ring.
Qed.
Lemma polynomial_assembled coeff v : coeff <> [] -> polynomial_eval coeff v = power_sum coeff v.
Proof.
  intros H. destruct coeff as [|c0 l]; [congruence|]. unfold polynomial_eval, power_sum. cbn [tl hd]. rewrite poly_loop. cbn [length seq map]. unfold total. cbn [fold_right nth pow]. rewrite <- seq_shift, map_map. cbn [nth].
  rewrite Rmult_1_r. f_equal. fold (total (map (fun x => nth x l 0 * v ^ S x) (seq 0 (length l)))). fold (total (map (fun i => nth i l 0 * v ^ i) (seq 0 (length l)))).
  rewrite (total_ext (fun x => nth x l 0 * v ^ S x) (fun i => v * (nth i l 0 * v ^ i))) by (intros; cbn; ring). generalize (seq 0 (length l)). clear. intros s. induction s as [|i s IH]; [cbn; ring|]. unfold total in *. cbn. rewrite <- IH. ring.
Qed.
Lemma intersect_assembled o s y x : s <> 0 -> (polynomial_eval [o; s] x = y <-> x = intersect_y o s y).
Proof.
  intros H. unfold polynomial_eval, intersect_y. cbn. split.
  - intros <-. field. exact H.
  - intros ->. field. exact H.
Qed.
Lemma jerk_factor x y : minimum_jerk y - minimum_jerk x = (y - x) * (6 * (y^4 + y^3 * x + y^2 * x^2 + y * x^3 + x^4) - 15 * (y^3 + y^2 * x + y * x^2 + x^3) + 10 * (y^2 + y * x + x^2)).
Proof. unfold minimum_jerk. ring. Qed.
Lemma derivable_jerk x : derivable_pt_lim minimum_jerk x (30 * (x * x) * ((1 - x) * (1 - x))).
Proof.
  assert (E : minimum_jerk = (fun x => 6 * x ^ 5 - 15 * x ^ 4 + 10 * x ^ 3)) by (apply FunctionalExtensionality.functional_extensionality; intros z; unfold minimum_jerk; ring). rewrite E.
  replace (30 * (x * x) * ((1 - x) * (1 - x))) with (6 * (INR 5 * x ^ 4) - 15 * (INR 4 * x ^ 3) + 10 * (INR 3 * x ^ 2)) by (cbn [INR]; ring).
  apply (derivable_pt_lim_plus (fun x => 6 * x ^ 5 - 15 * x ^ 4) (fun x => 10 * x ^ 3)); [apply (derivable_pt_lim_minus (fun x => 6 * x ^ 5) (fun x => 15 * x ^ 4))|].
  - apply (derivable_pt_lim_scal (fun x => x ^ 5)). apply (derivable_pt_lim_pow x 5).
  - apply (derivable_pt_lim_scal (fun x => x ^ 4)). apply (derivable_pt_lim_pow x 4).
  - apply (derivable_pt_lim_scal (fun x => x ^ 3)). apply (derivable_pt_lim_pow x 3).
Qed.
Lemma jerk_assembled : minimum_jerk 0 = 0 /\ minimum_jerk 1 = 1 /\ (forall x, minimum_jerk (1 - x) = 1 - minimum_jerk x) /\ (forall x y, x < y -> minimum_jerk x < minimum_jerk y) /\
  (forall x, derivable_pt_lim minimum_jerk x (30 * (x * x) * ((1 - x) * (1 - x)))) /\ (forall x, derivable_pt_lim (fun x => 30 * (x * x) * ((1 - x) * (1 - x))) x (60 * x * (1 - x) * (1 - 2 * x))).
Proof.
  split; [unfold minimum_jerk; ring|]. split; [unfold minimum_jerk; ring|]. split; [intros x; unfold minimum_jerk; ring|]. split; [|split; [exact derivable_jerk|]].
  - intros x y H. pose proof (jerk_factor x y) as F.
    (* with m the midpoint and d half the difference *)
    set (m := (x + y) / 2) in *. set (d := (y - x) / 2) in *. assert (Ex : x = m - d) by (unfold m, d; field). assert (Ey : y = m + d) by (unfold m, d; field). assert (Hd : 0 < d) by (unfold d; lra).
    replace (6 * (y^4 + y^3 * x + y^2 * x^2 + y * x^3 + x^4) - 15 * (y^3 + y^2 * x + y * x^2 + x^3) + 10 * (y^2 + y * x + x^2)) with (30 * Rsqr (m * m - m) + d * d * (60 * Rsqr (m - 1 / 2) - 5) + 6 * (d * d) * (d * d)) in F by (rewrite Ex, Ey; unfold Rsqr; field).
    set (p := Rsqr (m - 1 / 2)) in *. replace (Rsqr (m * m - m)) with (Rsqr (p - 1 / 4)) in F by (unfold p, Rsqr; field). set (e := d * d) in *. assert (He : 0 < e) by (unfold e; nra).
    assert (K : 0 < 30 * Rsqr (p - 1 / 4) + e * (60 * p - 5) + 6 * e * e).
    { pose proof (Rle_0_sqr (m - 1 / 2)) as Hp. fold p in Hp. pose proof (Rle_0_sqr (p - 1 / 4)) as Z1. assert (Z2 : 0 < e * e) by nra.
      destruct (Rle_dec 0 (60 * p - 5)) as [C|C]; [assert (0 <= e * (60 * p - 5)) by (apply Rmult_le_pos; lra); lra|].
      assert (Z3 : 0 <= p * (1 - 12 * p)) by (apply Rmult_le_pos; lra). pose proof (Rle_0_sqr (12 * e + (60 * p - 5))) as Z4. unfold Rsqr in *. lra. }
    assert (0 < y - x) by lra. nra.
  - intros x. assert (E : (fun x => 30 * (x * x) * ((1 - x) * (1 - x))) = (fun x => 30 * x ^ 4 - 60 * x ^ 3 + 30 * x ^ 2)) by (apply FunctionalExtensionality.functional_extensionality; intros z; ring). rewrite E.
    replace (60 * x * (1 - x) * (1 - 2 * x)) with (30 * (INR 4 * x ^ 3) - 60 * (INR 3 * x ^ 2) + 30 * (INR 2 * x ^ 1)) by (cbn [INR]; ring).
    apply (derivable_pt_lim_plus (fun x => 30 * x ^ 4 - 60 * x ^ 3) (fun x => 30 * x ^ 2)); [apply (derivable_pt_lim_minus (fun x => 30 * x ^ 4) (fun x => 60 * x ^ 3))|].
    + apply (derivable_pt_lim_scal (fun x => x ^ 4)). apply (derivable_pt_lim_pow x 4).
    + apply (derivable_pt_lim_scal (fun x => x ^ 3)). apply (derivable_pt_lim_pow x 3).
    + apply (derivable_pt_lim_scal (fun x => x ^ 2)). apply (derivable_pt_lim_pow x 2).
Qed.

(** ** before the delay has passed *)
Lemma fresh_delayer N delay init : (2 <= N)%nat -> 0 < delay -> exists d y, make_delayer N delay init = Ok d /\ delayed_value d = Ok y /\ y = 0.
Proof.
  intros HN Hd. unfold make_delayer. destruct (Rlt_dec 0 delay); [|contradiction]. destruct N as [|[|m]]; try lia. eexists _, 0. split; [reflexivity|]. unfold delayed_value. cbn [d_data d_idx d_time d_window].
  assert (L : length (init :: repeat 0 (S (S m) - 1)) = S (S m)) by (cbn [length]; rewrite repeat_length; lia). rewrite L.
  replace ((0 + S (S m) + 1) mod S (S m))%nat with 1%nat by (replace (0 + S (S m) + 1)%nat with (1 + 1 * S (S m))%nat by lia; rewrite Nat.mod_add by lia; symmetry; apply Nat.mod_small; lia).
  destruct (vec_get (init :: repeat 0 (S (S m) - 1)) ((0 + S (S m) + 2) mod S (S m))) as [v| |] eqn:E.
  - cbn [obind]. change (S (S m) - 1)%nat with (S m). cbn [repeat vec_get nth_error obind]. split; [|reflexivity]. f_equal. unfold Rdiv. ring.
  - exfalso. unfold vec_get in E. destruct (nth_error _ _); discriminate.
  - exfalso. unfold vec_get in E. destruct (nth_error _ _) eqn:E2; [discriminate|]. apply nth_error_None in E2. rewrite L in E2. pose proof (Nat.mod_upper_bound (0 + S (S m) + 2) (S (S m))). lia.
Qed.
Lemma fresh_smooth N delay init : (2 <= N)%nat -> 0 < delay -> exists d y, make_smooth N delay init = Ok d /\ smooth_value d = Ok y /\ y = 0.
Proof.
  intros HN Hd. unfold make_smooth. destruct (Rlt_dec 0 delay); [|contradiction]. destruct N as [|[|m]]; try lia. eexists _, 0. split; [reflexivity|]. unfold smooth_value. cbn [s_data s_idx s_time s_window].
  assert (L : length (init :: repeat 0 (S (S m) - 1)) = S (S m)) by (cbn [length]; rewrite repeat_length; lia). rewrite L.
  replace ((0 + S (S m) + 1) mod S (S m))%nat with 1%nat by (replace (0 + S (S m) + 1)%nat with (1 + 1 * S (S m))%nat by lia; rewrite Nat.mod_add by lia; symmetry; apply Nat.mod_small; lia).
  destruct (vec_get (init :: repeat 0 (S (S m) - 1)) ((0 + S (S m) + 2) mod S (S m))) as [v| |] eqn:E.
  - cbn [obind]. change (S (S m) - 1)%nat with (S m). cbn [repeat vec_get nth_error obind]. split; [|reflexivity]. f_equal. unfold Rdiv. ring.
  - exfalso. unfold vec_get in E. destruct (nth_error _ _); discriminate.
  - exfalso. unfold vec_get in E. destruct (nth_error _ _) eqn:E2; [discriminate|]. apply nth_error_None in E2. rewrite L in E2. pose proof (Nat.mod_upper_bound (0 + S (S m) + 2) (S (S m))). lia.
Qed.
