(** Lemmas about timer, stopwatch, interval_checker, cached_var and time. *)
From Coq Require Import List ZArith Bool Lia ZifyBool.
From Verif Require Import Base BaseProofs TimeSpec TimeModel.
Import ListNotations.
Local Open Scope Z_scope.

(** timer *)
Definition same (e : Z) (w : watch) (c : Z) : Prop :=
  w_at w <= c /\ 0 <= elapsed w c < c /\ if w_running w then e = w_at w - w_collected w else e = - w_collected w.
Lemma same_later e w c c' : same e w c -> c <= c' -> same e w c'.
Proof. unfold same, elapsed. destruct (w_running w); lia. Qed.
Lemma step_same e w c op : same e w c -> proper_call w c op ->
  let (e', o) := timer_step e c op in o = shown w c op /\ same e' (watch_after w c op) c.
Proof.
  unfold same. intros (A & B & C) P. destruct op; cbn [timer_step timer_pause timer_restart proper_call shown watch_after] in *.
  - split; [|tauto]. f_equal. unfold timer_read, elapsed in *. destruct (w_running w); destruct (0 <? e) eqn:E; lia.
  - rewrite P in *. unfold elapsed in *. rewrite P in *. cbn. split; [f_equal; lia|]. lia.
  - rewrite P in *. unfold elapsed in *. rewrite P in *. unfold timer_resume. cbn. split; [reflexivity|]. lia.
  - rewrite P in *. unfold elapsed in *. rewrite P in *. cbn. split; [f_equal; lia|]. lia.
  - split; [reflexivity|]. unfold timer_set, is_running, elapsed in *. cbn. destruct (w_running w); destruct (0 <? e) eqn:E; lia.
Qed.
Lemma run_same h : forall e w c, same e w c -> monotone c h -> proper w h ->
  fst (timer_run e h) = fst (watch_run w h) /\ exists c', same (snd (timer_run e h)) (snd (watch_run w h)) c' /\ c <= c' /\ (forall x, In x (map fst h) -> x <= c') /\ (c' = c \/ In c' (map fst h)).
Proof.
  induction h as [|[c1 op] h IH]; intros e w c S M P; cbn.
  - split; [reflexivity|]. exists c. split; [exact S|]. split; [lia|]. split; [contradiction|auto].
  - destruct M as [M1 M2], P as [P1 P2]. apply (same_later _ _ _ c1) in S; [|exact M1].
    pose proof (step_same e w c1 op S P1) as Q. destruct (timer_step e c1 op) as [e1 o]. destruct Q as [Q1 Q2].
    specialize (IH e1 (watch_after w c1 op) c1 Q2 M2 P2). destruct IH as [H1 (c' & H2 & H3 & H4 & H5)].
    destruct (timer_run e1 h) as [os e'], (watch_run (watch_after w c1 op) h) as [os' w']. cbn in *. subst os' o.
    split; [reflexivity|]. exists c'. split; [exact H2|]. split; [lia|]. split; [|destruct H5; auto].
    intros x [<-|Hx]; [exact H3|apply H4; exact Hx].
Qed.
Lemma timer_assembled c0 start h : 0 < c0 -> monotone c0 h -> proper (Watch start 0 c0) h ->
  fst (timer_run (timer_init c0 start) h) = fst (watch_run (Watch start 0 c0) h) /\
  is_running (snd (timer_run (timer_init c0 start) h)) = w_running (snd (watch_run (Watch start 0 c0) h)) /\
  exists c, In c (c0 :: map fst h) /\ Z.abs (snd (timer_run (timer_init c0 start) h)) <= c.
Proof.
  intros C M P. destruct (run_same h (timer_init c0 start) (Watch start 0 c0) c0) as (H1 & c' & H2 & H3 & H4 & H5); auto.
  - unfold same, elapsed, timer_init. cbn. destruct start; lia.
  - split; [exact H1|]. unfold same, elapsed in H2. split.
    + unfold is_running. destruct (w_running (snd (watch_run (Watch start 0 c0) h))); lia.
    + exists c'. split; [cbn; destruct H5; auto|]. destruct (w_running (snd (watch_run (Watch start 0 c0) h))); lia.
Qed.

(** stopwatch *)
Definition wf (w : stopwatch) : Prop := length (sw_names w) = length (sw_times w) /\ (sw_current w <= length (sw_times w))%nat.

Lemma set_nth (l : list Z) k v : (k < length l)%nat -> forall j, nth j (list_set l k v) 0 = if (j =? k)%nat then v else nth j l 0.
Proof.
  revert k. induction l as [|x l IH]; intros [|k]; cbn; intros H j; try lia; destruct j; cbn; try reflexivity. apply IH. lia.
Qed.
Lemma nth_snoc (l : list Z) v j : nth j (l ++ [v]) 0 = if (j =? length l)%nat then v else nth j l 0.
Proof.
  destruct (Nat.ltb_spec j (length l)); [rewrite app_nth1 by exact H; assert ((j =? length l)%nat = false) as -> by lia; reflexivity|].
  rewrite app_nth2 by lia. destruct (Nat.eqb_spec j (length l)) as [->|N]; [rewrite Nat.sub_diag; reflexivity|].
  rewrite (nth_overflow l) by lia. destruct (j - length l)%nat as [|[|k]] eqn:E; cbn; try reflexivity. lia.
Qed.

Lemma splits_ok l : forall w, wf w -> exists w', sw_splits w l = Ok w' /\ wf w' /\ sw_current w' = (sw_current w + length l)%nat /\
  length (sw_times w') = Nat.max (length (sw_times w)) (sw_current w + length l) /\
  (forall j, nth j (sw_times w') 0 = nth j (sw_times w) 0 + if (sw_current w <=? j)%nat then nth (j - sw_current w) (durations (sw_timer w) l) 0 else 0) /\
  sw_names w' = sw_names w ++ skipn (length (sw_times w) - sw_current w) (map fst l).
Proof.
  induction l as [|[n c] l IH]; intros w [W1 W2].
  - exists w. cbn. repeat split; auto; try lia.
    + intros j. destruct (sw_current w <=? j)%nat; [|lia]. destruct (j - sw_current w)%nat; cbn; lia.
    + rewrite skipn_nil, app_nil_r. reflexivity.
  - cbn [sw_splits sw_split timer_restart]. destruct (length (sw_times w) <=? sw_current w)%nat eqn:E.
    + assert (Ek : sw_current w = length (sw_times w)) by lia. cbn [obind].
      destruct (IH (SW c (S (sw_current w)) (sw_times w ++ [c - sw_timer w]) (sw_names w ++ [n]))) as (w' & H1 & H2 & H3 & H4 & H5 & H6).
      { split; cbn; rewrite !app_length; cbn; lia. }
      cbn [sw_current sw_times sw_names sw_timer] in *. rewrite app_length in H4, H6. cbn [length] in H4, H6.
      exists w'. split; [exact H1|]. split; [exact H2|]. split; [cbn; lia|]. split; [cbn [length]; lia|]. split.
      * intros j. rewrite H5, nth_snoc. cbn [durations].
        destruct (Nat.eqb_spec j (length (sw_times w))) as [->|N].
        -- rewrite (nth_overflow (sw_times w)) by lia. assert ((S (sw_current w) <=? length (sw_times w))%nat = false) as -> by lia.
           assert ((sw_current w <=? length (sw_times w))%nat = true) as -> by lia. rewrite Ek, Nat.sub_diag. cbn. lia.
        -- destruct (sw_current w <=? j)%nat eqn:Q.
           ++ assert ((S (sw_current w) <=? j)%nat = true) as -> by lia. replace (j - sw_current w)%nat with (S (j - S (sw_current w))) by lia. cbn. lia.
           ++ assert ((S (sw_current w) <=? j)%nat = false) as -> by lia. lia.
      * rewrite H6. rewrite Ek, Nat.sub_diag. replace (length (sw_times w) + 1 - S (length (sw_times w)))%nat with 0%nat by lia. cbn. rewrite <- app_assoc. reflexivity.
    + assert (L : (sw_current w < length (sw_times w))%nat) by lia.
      unfold vec_get. destruct (nth_error (sw_times w) (sw_current w)) as [old|] eqn:Eo; [|apply nth_error_None in Eo; lia]. cbn [obind].
      unfold vec_set. assert ((sw_current w <? length (sw_times w))%nat = true) as -> by lia. cbn [obind].
      destruct (IH (SW c (S (sw_current w)) (list_set (sw_times w) (sw_current w) (old + (c - sw_timer w))) (sw_names w))) as (w' & H1 & H2 & H3 & H4 & H5 & H6).
      { split; cbn; rewrite !list_set_length; lia. }
      cbn [sw_current sw_times sw_names sw_timer] in *. rewrite list_set_length in H4, H6.
      exists w'. split; [exact H1|]. split; [exact H2|]. split; [cbn; lia|]. split; [cbn [length]; lia|]. split.
      * intros j. rewrite H5, set_nth by exact L. cbn [durations]. destruct (Nat.eqb_spec j (sw_current w)) as [->|N].
        -- assert ((S (sw_current w) <=? sw_current w)%nat = false) as -> by lia. rewrite Nat.leb_refl, Nat.sub_diag. cbn.
           rewrite (nth_error_nth _ _ _ Eo). lia.
        -- destruct (sw_current w <=? j)%nat eqn:Q.
           ++ assert ((S (sw_current w) <=? j)%nat = true) as -> by lia. replace (j - sw_current w)%nat with (S (j - S (sw_current w))) by lia. cbn. lia.
           ++ assert ((S (sw_current w) <=? j)%nat = false) as -> by lia. lia.
      * rewrite H6. replace (length (sw_times w) - sw_current w)%nat with (S (length (sw_times w) - S (sw_current w))) by lia. reflexivity.
Qed.

Definition longest (rs : list round) : nat := fold_right (fun r m => Nat.max (length (snd r)) m) 0%nat rs.
(** the names of the splits: those of the first round, then those of later rounds that go further *)
Fixpoint split_names (have : list nat) (rs : list round) : list nat :=
  match rs with [] => have | r :: rs' => split_names (have ++ skipn (length have) (map fst (snd r))) rs' end.

Lemma rounds_ok rs : forall w, wf w -> exists w', sw_rounds w rs = Ok w' /\ wf w' /\
  length (sw_times w') = Nat.max (length (sw_times w)) (longest rs) /\
  (forall j, nth j (sw_times w') 0 = nth j (sw_times w) 0 + split_total rs j) /\
  sw_names w' = split_names (sw_names w) rs.
Proof.
  induction rs as [|[c l] rs IH]; intros w W.
  - exists w. cbn. split; [reflexivity|]. split; [exact W|]. split; [lia|]. split; [|reflexivity]. intros j. unfold split_total. cbn. lia.
  - cbn [sw_rounds]. destruct (splits_ok l (sw_restart w c)) as (w1 & H1 & H2 & H3 & H4 & H5 & H6).
    { destruct W. split; cbn; lia. }
    cbn [sw_restart sw_current sw_times sw_names sw_timer timer_restart fst] in *. rewrite H1. cbn [obind].
    destruct (IH w1 H2) as (w' & G1 & G2 & G3 & G4 & G5). exists w'. split; [exact G1|]. split; [exact G2|]. split.
    + change (longest ((c, l) :: rs)) with (Nat.max (length l) (longest rs)). lia.
    + split.
      * intros j. rewrite G4, H5, Nat.sub_0_r. assert ((0 <=? j)%nat = true) as -> by lia.
        change (split_total ((c, l) :: rs) j) with (nth j (durations c l) 0 + split_total rs j). lia.
      * rewrite G5, H6. cbn [split_names snd]. destruct W as [W1 W2]. rewrite W1, Nat.sub_0_r. reflexivity.
Qed.

Definition zsum (l : list Z) : Z := fold_right Z.add 0 l.
Lemma zsum_app a b : zsum (a ++ b) = zsum a + zsum b.
Proof. induction a; cbn; unfold zsum in *; cbn; lia. Qed.
Lemma durations_length c l : length (durations c l) = length l.
Proof. revert c. induction l as [|[n x] l IH]; cbn; intros c; [reflexivity|]. rewrite IH. reflexivity. Qed.
Lemma durations_sum l : forall c, zsum (durations c l) = last (map snd l) c - c.
Proof.
  induction l as [|[n x] l IH]; intros c; [cbn; lia|]. change (zsum (durations c ((n, x) :: l))) with ((x - c) + zsum (durations x l)). rewrite IH.
  cbn [map snd]. destruct (map snd l) as [|y m] eqn:E; [cbn; lia|]. change (last (x :: y :: m) c) with (last (y :: m) c).
  assert (forall d d', last (y :: m) d = last (y :: m) d') as Q.
  { clear. revert y. induction m as [|z m IH]; intros y d d'; [reflexivity|]. change (last (y :: z :: m) d) with (last (z :: m) d). change (last (y :: z :: m) d') with (last (z :: m) d'). apply IH. }
  rewrite (Q x c). lia.
Qed.
(** a list is determined by its entries *)
Lemma sum_nth l n : (length l <= n)%nat -> zsum l = fold_right (fun k s => nth k l 0 + s) 0 (seq 0 n).
Proof.
  revert n. induction l as [|x l IH]; intros n H.
  - cbn. generalize (seq 0 n). induction l as [|k l IH]; [reflexivity|]. cbn. destruct k; lia.
  - destruct n as [|n]; [cbn in H; lia|]. cbn [seq fold_right nth]. change (zsum (x :: l)) with (x + zsum l). rewrite (IH n) by (cbn in H; lia).
    f_equal. rewrite <- seq_shift. clear. generalize (seq 0 n). induction l0 as [|k m IH]; [reflexivity|]. cbn. rewrite IH. reflexivity.
Qed.
Lemma sum_split_total rs n : (longest rs <= n)%nat -> fold_right (fun k s => split_total rs k + s) 0 (seq 0 n) = total (fun r => round_end r - fst r) rs.
Proof.
  induction rs as [|r rs IH]; cbn [longest fold_right]; intros H.
  - unfold split_total. cbn. generalize (seq 0 n). induction l; cbn; lia.
  - unfold split_total. cbn [total fold_right].
    assert (forall ks, fold_right (fun k s => nth k (round_durations r) 0 + fold_right (fun a s0 => nth k (round_durations a) 0 + s0) 0 rs + s) 0 ks =
      fold_right (fun k s => nth k (round_durations r) 0 + s) 0 ks + fold_right (fun k s => split_total rs k + s) 0 ks) as Q.
    { unfold split_total, total. induction ks as [|k ks IHk]; cbn; [lia|]. rewrite IHk. lia. }
    rewrite Q, IH by (unfold longest; lia). rewrite <- sum_nth.
    + unfold round_durations, round_end. rewrite durations_sum. reflexivity.
    + unfold round_durations. rewrite durations_length. lia.
Qed.

Lemma stopwatch_assembled c0 rs : exists w, sw_rounds (sw_init c0) rs = Ok w /\
  length (sw_times w) = longest rs /\
  (forall k, nth k (sw_times w) 0 = split_total rs k) /\
  zsum (sw_times w) = total (fun r => round_end r - fst r) rs.
Proof.
  destruct (rounds_ok rs (sw_init c0)) as (w & H1 & H2 & H3 & H4 & H5); [split; cbn; lia|]. cbn in H3.
  exists w. split; [exact H1|]. split; [exact H3|].
  assert (H4' : forall k, nth k (sw_times w) 0 = split_total rs k) by (intros k; rewrite H4; cbn; destruct k; reflexivity).
  split; [exact H4'|]. rewrite (sum_nth _ (longest rs)) by lia. rewrite <- (sum_split_total rs (longest rs)) by lia.
  clear - H4'. generalize (seq 0 (longest rs)). induction l as [|k l IH]; [reflexivity|]. cbn. rewrite IH, H4'. reflexivity.
Qed.

Lemma names_ok ns rs : (forall r, In r rs -> exists k, map fst (snd r) = firstn k ns) -> forall k, (k <= length ns)%nat ->
  split_names (firstn k ns) rs = firstn (Nat.max k (longest rs)) ns.
Proof.
  induction rs as [|r rs IH]; intros H k Hk; cbn [split_names longest fold_right]; [f_equal; lia|].
  destruct (H r (or_introl eq_refl)) as [m Hm]. pose proof (f_equal (@length nat) Hm) as L. rewrite map_length, firstn_length in L.
  rewrite Hm, firstn_length, skipn_firstn_comm.
  assert (firstn k ns ++ firstn (m - Nat.min k (length ns)) (skipn (Nat.min k (length ns)) ns) = firstn (Nat.max k (length (snd r))) ns) as ->.
  { rewrite Nat.min_l by lia. rewrite <- (firstn_skipn k ns) at 3. rewrite firstn_app, firstn_firstn, firstn_length, (Nat.min_l k (length ns)) by lia.
    f_equal; [f_equal; lia|]. rewrite L. destruct (Nat.leb_spec (length ns) m).
    - rewrite Nat.min_r by lia. rewrite !firstn_all2; [reflexivity| |]; rewrite skipn_length; lia.
    - rewrite Nat.min_l by lia. f_equal. lia. }
  rewrite IH; [f_equal; unfold longest; lia|intros r' Hr'; apply H; right; exact Hr'|lia].
Qed.
Lemma stopwatch_names_assembled c0 rs ns w : sw_rounds (sw_init c0) rs = Ok w ->
  (forall r, In r rs -> exists k, map fst (snd r) = firstn k ns) -> sw_names w = firstn (length (sw_times w)) ns.
Proof.
  intros E H. destruct (rounds_ok rs (sw_init c0)) as (w' & H1 & H2 & H3 & H4 & H5); [split; cbn; lia|]. assert (w' = w) as -> by congruence.
  rewrite H5. cbn in H3. rewrite H3. cbn. exact (names_ok ns rs H 0 ltac:(lia)).
Qed.

Lemma assign_new k v l : ~ In k (map fst l) -> assign k v l = l ++ [(k, v)].
Proof.
  induction l as [|[q x] l IH]; cbn; intros H; [reflexivity|]. destruct (Nat.eqb_spec q k) as [->|N]; [exfalso; auto|]. rewrite IH by auto. reflexivity.
Qed.
Lemma report_loop ts : forall ns acc t key, length ns = length ts ->
  (fix go (ts : list Z) (ns : list nat) (acc : list (nat * Z)) (t : Z) : outcome (list (nat * Z)) :=
    match ts, ns with
    | [], _ => Ok (assign key t acc)
    | x :: ts', n :: ns' => go ts' ns' (acc ++ [(n, x)]) (t + x)
    | _ :: _, [] => UB
    end) ts ns acc t = Ok (assign key (t + zsum ts) (acc ++ combine ns ts)).
Proof.
  induction ts as [|x ts IH]; intros [|n ns] acc t key L; try discriminate.
  - cbn. rewrite app_nil_r, Z.add_0_r. reflexivity.
  - cbn [combine]. rewrite IH by (cbn in L; lia). do 2 f_equal; [unfold zsum; cbn; lia|]. rewrite <- app_assoc. reflexivity.
Qed.
Lemma combine_names (ns : list nat) (ts : list Z) : length ns = length ts -> map fst (combine ns ts) = ns.
Proof. revert ts. induction ns as [|n ns IH]; intros [|t ts]; cbn; try discriminate; [reflexivity|]. intros [= L]. rewrite IH by exact L. reflexivity. Qed.
Lemma report_assembled c0 rs key w : sw_rounds (sw_init c0) rs = Ok w -> ~ In key (sw_names w) ->
  sw_report key w = Ok (combine (sw_names w) (sw_times w) ++ [(key, total (fun r => round_end r - fst r) rs)]).
Proof.
  intros E N. destruct (stopwatch_assembled c0 rs) as (w0 & H1 & H2 & H3 & H4). assert (w0 = w) as -> by congruence.
  destruct (rounds_ok rs (sw_init c0)) as (w' & G1 & [G2 _] & _); [split; cbn; lia|]. assert (w' = w) as -> by congruence.
  unfold sw_report. rewrite report_loop by exact G2. rewrite Z.add_0_l, H4. cbn [app]. rewrite assign_new; [reflexivity|].
  rewrite combine_names by exact G2. exact N.
Qed.

(** interval_checker *)
Lemma interval_assembled d ts : check_all d 0 ts = spaced d 0 ts.
Proof.
  generalize 0. induction ts as [|t ts IH]; intros p; cbn; [reflexivity|]. unfold check_interval.
  destruct (d <=? t - p) eqn:E; destruct (p + d <=? t) eqn:E2; try lia; rewrite IH; reflexivity.
Qed.
Fixpoint successes (ts : list Z) (bs : list bool) : list Z :=
  match ts, bs with t :: ts', b :: bs' => if b then t :: successes ts' bs' else successes ts' bs' | _, _ => [] end.
Lemma spaced_count d : 0 < d -> forall ts p T, (forall t, In t ts -> t <= T) -> p <= T -> Z.of_nat (length (successes ts (spaced d p ts))) * d <= T - p.
Proof.
  intros D. induction ts as [|t ts IH]; intros p T H P; cbn; [lia|]. destruct (p + d <=? t) eqn:E; cbn [successes].
  - assert (t <= T) by (apply H; left; reflexivity). specialize (IH t T (fun x Hx => H x (or_intror Hx)) H0). cbn [length]. lia.
  - apply IH; [|exact P]. intros x Hx. apply H. right. exact Hx.
Qed.
Lemma interval_count_assembled d ts T : 0 < d -> 0 <= T -> (forall t, In t ts -> t <= T) -> Z.of_nat (length (successes ts (check_all d 0 ts))) * d <= T.
Proof. intros D P H. rewrite interval_assembled. pose proof (spaced_count d D ts 0 T H P). lia. Qed.

(** cached_var *)
Section Cached.
  Context {V T : Type} (teqb : T -> T -> bool) (ok : forall a b, teqb a b = true <-> a = b).
  Lemma cached_assembled (v0 : V) (t0 : T) qs i t v : nth_error qs i = Some (t, v) ->
    exists x b, nth_error (cached_run teqb (v0, t0) qs) i = Some (x, b) /\
    (b = true <-> t <> match i with O => t0 | S j => match nth_error qs j with Some q => fst q | None => t0 end end) /\
    (b = true -> x = v) /\
    (b = false -> x = match i with O => v0 | S j => match nth_error (cached_run teqb (v0, t0) qs) j with Some q => fst q | None => v0 end end).
  Proof.
    revert v0 t0 i. induction qs as [|[t1 v1] qs IH]; intros v0 t0 [|i] H; cbn in H; try discriminate.
    - injection H as -> ->. cbn [cached_run cached_get snd fst]. unfold cached_get. cbn [snd fst].
      destruct (teqb t t0) eqn:E; cbn [negb].
      + apply ok in E. exists v0, false. split; [reflexivity|]. split; [split; [discriminate|congruence]|]. split; [discriminate|reflexivity].
      + exists v, true. split; [reflexivity|]. split; [split; [intros _ ->|auto]|split; [reflexivity|discriminate]]. assert (teqb t0 t0 = true) by (apply ok; reflexivity). congruence.
    - assert (Q : exists v', cached_run teqb (v0, t0) ((t1, v1) :: qs) = (v', negb (teqb t1 t0)) :: cached_run teqb (v', t1) qs).
      { cbn. unfold cached_get. cbn. destruct (teqb t1 t0) eqn:E; cbn; [apply ok in E; subst; eauto|eauto]. }
      destruct Q as [v' Q]. rewrite Q. destruct (IH v' t1 i H) as (x & b & H1 & H2 & H3 & H4). exists x, b. cbn [nth_error]. split; [exact H1|].
      split; [|split; [exact H3|]].
      + destruct i as [|j]; cbn [nth_error]; [exact H2|]. rewrite H2.
        destruct (nth_error qs j) as [q|] eqn:Ej; [tauto|]. exfalso. apply nth_error_None in Ej. assert (S j < length qs)%nat by (apply nth_error_Some; congruence). lia.
      + intros B. rewrite (H4 B). destruct i as [|j]; cbn [nth_error]; [reflexivity|].
        assert (L : forall (st : V * T) l, length (cached_run teqb st l) = length l).
        { intros st qs'. revert st. induction qs' as [|[t2 v2] qs' IH2]; intros st; [reflexivity|]. cbn. destruct (cached_get teqb st t2 (fun _ => v2)) as [[x2 b2] st2]. cbn. rewrite IH2. reflexivity. }
        destruct (nth_error (cached_run teqb (v', t1) qs) j) as [q|] eqn:Ej; [reflexivity|]. exfalso. apply nth_error_None in Ej. rewrite L in Ej. assert (S j < length qs)%nat by (apply nth_error_Some; congruence). lia.
  Qed.
End Cached.

(** time *)
Lemma time_div_assembled t n : 0 <= t < 2 ^ 63 -> 0 < n -> time_div t n = Ok (t / n).
Proof.
  intros T N. unfold time_div. assert (n =? 0 = false) as -> by lia. f_equal. unfold to_signed, two64.
  assert (0 <= t / n) by (apply Z.div_pos; lia). assert (t / n <= t) by (apply Z.div_le_upper_bound; nia).
  rewrite (Z.mod_small t) by lia. rewrite (Z.mod_small (t / n)) by lia. assert (t / n <? 2 ^ 63 = true) as -> by lia. reflexivity.
Qed.
Lemma from_seconds_assembled s : 0 <= s -> time_from_seconds s = s * 10 ^ 9.
Proof. intros S. unfold time_from_seconds. rewrite Z.quot_div_nonneg by lia. symmetry. apply (Z.div_unique _ _ _ 1); lia. Qed.
Lemma distance_assembled a b : time_distance a b = Z.abs (a - b).
Proof. unfold time_distance. destruct (b <? a) eqn:E; lia. Qed.
