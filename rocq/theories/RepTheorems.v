(** C175-C177: the report of a profiler: which lines it has, what they say, and how they are logged. *)
From Coq Require Import Ascii String List Arith Bool ZArith Reals Lra Lia Sorting.Sorted Permutation SpecFloat.
From Flocq Require Import Core IEEE754.BinarySingleNaN.
From Verif Require Import Base Str CastSpec PnSpec ProfSpec ProfModel ProfProofs FltModel FltProofs DurSpec DurModel DurProofs TxtSpec TxtModel TxtTheorems RepSpec RepModel RepProofs RepNum.
Import ListNotations.
Local Open Scope Z_scope.

(** the key of a line: the name of what was called last, behind a tag for its level when asked for *)
Definition key_line (t0 t1 : Z) (acts : list act) (names : nat -> str) (label : nat) (tag : bool) (q : list nat) (key v : str) : Prop :=
  if tag then exists x d, percentage t0 t1 (own_at t0 t1 acts q) x /\ level_of x d /\ key = "@"%char :: ascii_of_nat (48 + Z.to_nat d) :: names (last q label)
  else key = names (last q label).
(** the text of a line, from the figures of a call path *)
Definition text_line (t0 t1 : Z) (acts : list act) (estimate : Z) (q : list nat) (key v : str) : Prop :=
  Z.of_nat (count_at acts q) < 2 ^ 31 -> estimate * activations_at acts q <= 2 ^ 63 -> 0 < total_at t0 t1 acts q \/ 0 < estimate ->
  section_text (t1 - t0) (total_at t0 t1 acts q) (own_at t0 t1 acts q) (count_at acts q) (estimate * activations_at acts q) v.

Lemma share_percentage t0 t1 acts q t : t0 < t1 -> t1 - t0 <= 2 ^ 63 -> in_order t0 acts t1 -> t = total_at t0 t1 acts q \/ t = own_at t0 t1 acts q -> percentage t0 t1 t (B2R (share t (t1 - t0))) /\ is_finite (share t (t1 - t0)) = true.
Proof.
  intros L W O T. pose proof (figures_bound t0 t1 acts q O) as [B1 B2]. pose proof (near_share t (t1 - t0) ltac:(lia) ltac:(lia)) as N. split; [|apply N]. unfold percentage. pose proof (near_dist _ _ _ N) as D. eapply Rle_trans; [exact D|]. destruct N as (_ & _ & X & _).
  rewrite Rmult_comm. apply Rmult_le_compat_l; [exact X|]. change u53 with (/ 9007199254740992)%R. lra.
Qed.

(** * C175: the lines *)
Theorem C175_lines order names estimate minimum tag P label t0 acts t1 t : sorts order -> p_enabled P = false -> p_current P = None ->
  in_order t0 acts t1 -> t0 < t1 -> t1 - t0 <= 2 ^ 63 -> is_finite minimum = true ->
  exists P' kc p, prof_session P label t0 (flat_map calls acts) t1 = Ok P' /\ prof_report order names estimate P' minimum tag t = Ok (PN [] [kc] false, P') /\
  (forall q, percentage t0 t1 (total_at t0 t1 acts q) (p q)) /\ (forall q q', total_at t0 t1 acts q <= total_at t0 t1 acts q' -> (p q <= p q')%R) /\
  reported t0 t1 acts (fun q => (B2R minimum <= p q)%R) (key_line t0 t1 acts names label tag) [] kc.
Proof.
  intros So En Cu O L W Fm. destruct (sections_assembled P label t0 acts t1 (conj En Cu)) as (P' & E & _). destruct (report_structure order names estimate minimum tag P label t0 acts t1 t P' So En Cu E) as (kc & R1 & R2).
  exists P', kc, (fun q => B2R (share (total_at t0 t1 acts q) (t1 - t0))). split; [exact E|]. split; [exact R1|]. split; [|split].
  - intros q. apply (share_percentage t0 t1 acts q _ L W O). left. reflexivity.
  - intros q q' H. pose proof (figures_bound t0 t1 acts q O). pose proof (figures_bound t0 t1 acts q' O). apply share_mono; lia.
  - destruct kc as [k c]. revert R2. apply reported_weaken; [| |intros q k' v _ [K _]|left; reflexivity].
    + intros q _. unfold is_expanded. rewrite Bleb_correct; [|exact Fm|apply (share_percentage t0 t1 acts q _ L W O); left; reflexivity]. split; [intros H; apply Rle_bool_true_iff, H|intros H; apply Rle_bool_true_iff, H] || (destruct (Rle_bool_spec (B2R minimum) (B2R (share (total_at t0 t1 acts q) (t1 - t0)))); split; intros; try lra; try reflexivity; discriminate).
    + intros q. unfold is_expanded. destruct (Bleb _ _); [left; reflexivity|right; discriminate].
    + unfold key_line. destruct tag; [|exact K]. destruct (share_percentage t0 t1 acts q (own_at t0 t1 acts q) L W O (or_intror eq_refl)) as [S1 S2]. destruct (tag_level _ S2) as (d & D1 & D2). exists (B2R (share (own_at t0 t1 acts q) (t1 - t0))), d. split; [exact S1|]. split; [exact D2|]. rewrite K, D1. reflexivity.
Qed.
(** a report of a measurement that was not stopped stops it at the time of the report *)
Theorem C175_stops order names estimate minimum tag P label t0 acts t1 t : p_enabled P = false -> p_current P = None ->
  (do P0 <- prof_start P label t0; do P1 <- prof_run P0 (flat_map calls acts); prof_report order names estimate P1 minimum tag t1) =
  (do P' <- prof_session P label t0 (flat_map calls acts) t1; prof_report order names estimate P' minimum tag t).
Proof.
  intros En Cu. destruct (sections_assembled P label t0 acts t1 (conj En Cu)) as (P' & E & (En' & _) & _). rewrite E. unfold prof_session in E. destruct (prof_start P label t0) as [P0| |]; try discriminate E. cbn [obind] in *. destruct (prof_run P0 (flat_map calls acts)) as [P1| |]; try discriminate E. cbn [obind] in *.
  unfold prof_report. rewrite En'. destruct (p_enabled P1) eqn:E1; [rewrite E; reflexivity|]. exfalso. unfold prof_stop in E. rewrite E1 in E. destruct (p_sections P1); discriminate E.
Qed.
(** with a measurement of no duration, nothing but the whole is reported, whatever was called *)
Theorem C175_instant_refuted order names estimate minimum tag P label t0 acts t : sorts order -> p_enabled P = false -> p_current P = None ->
  exists P' key v, prof_session P label t0 (flat_map calls acts) t0 = Ok P' /\ prof_report order names estimate P' minimum tag t = Ok (PN [] [(key, PN v [] false)] false, P').
Proof.
  intros So En Cu. destruct (sections_assembled P label t0 acts t0 (conj En Cu)) as (P' & E & _). destruct (report_structure order names estimate minimum tag P label t0 acts t0 t P' So En Cu E) as (kc & R1 & R2). exists P'.
  inversion R2 as [q key v ns cs Hl H1 H2 Hc Eq Ek]. subst. exists key, v. split; [exact E|]. rewrite R1. assert (N : ns = []).
  { apply H2. unfold is_expanded, total_at. rewrite Z.sub_diag. intros B. assert (S0 : share 0 0 = B754_nan).
    { unfold share. assert (Z0 : milliseconds 0 = B754_zero false) by (vm_compute; reflexivity). rewrite Z0. destruct near_100 as (F & _). destruct (literal 100 0); try discriminate F; reflexivity. }
    rewrite S0 in B. destruct minimum; discriminate B. }
  rewrite N in Hc. inversion Hc. reflexivity.
Qed.

(** * C176: the text of a line *)
Theorem C176_text order names estimate minimum tag P label t0 acts t1 t : sorts order -> p_enabled P = false -> p_current P = None ->
  in_order t0 acts t1 -> t0 < t1 -> t1 - t0 <= 2 ^ 63 -> 0 <= estimate ->
  exists P' kc expanded, prof_session P label t0 (flat_map calls acts) t1 = Ok P' /\ prof_report order names estimate P' minimum tag t = Ok (PN [] [kc] false, P') /\
  reported t0 t1 acts expanded (text_line t0 t1 acts estimate) [] kc.
Proof.
  intros So En Cu O L W Es. destruct (sections_assembled P label t0 acts t1 (conj En Cu)) as (P' & E & _). destruct (report_structure order names estimate minimum tag P label t0 acts t1 t P' So En Cu E) as (kc & R1 & R2).
  exists P', kc, (is_expanded t0 t1 acts minimum). split; [exact E|]. split; [exact R1|]. destruct kc as [k c]. revert R2. apply reported_weaken; [tauto| |intros q k' v Q [_ V]|left; reflexivity].
  - intros q. unfold is_expanded. destruct (Bleb _ _); [left; reflexivity|right; discriminate].
  - intros C1 C2 C3. rewrite V. pose proof (figures_bound t0 t1 acts q O) as [B1 B2]. destruct (activations_positive acts q Q) as [A1 A2]. assert (0 <= estimate * activations_at acts q) by (apply Z.mul_nonneg_nonneg; lia).
    apply value_text; try lia.
Qed.

(** * C177: log_results *)
Theorem C177_messages order names estimate minimum P label t0 acts t1 t : sorts order -> p_enabled P = false -> p_current P = None ->
  in_order t0 acts t1 -> t0 < t1 -> t1 - t0 <= 2 ^ 63 -> is_finite minimum = true ->
  exists P' kc column ms, prof_session P label t0 (flat_map calls acts) t1 = Ok P' /\
  prof_report order names estimate P' minimum true t = Ok (PN [] [kc] false, P') /\ log_results order names estimate P' minimum t = Ok (ms, P') /\
  Forall2 (fun e m => exists d name, 2 <= d <= 5 /\ snd (fst e) = "@"%char :: ascii_of_nat (48 + Z.to_nat d) :: name /\ fst m = d /\ line_shows column (fst (fst e)) name (snd e) (snd m))
    (outline 0 (PN [] [kc] false)) ms.
Proof.
  intros So En Cu O L W Fm. destruct (C175_lines order names estimate minimum true P label t0 acts t1 t So En Cu O L W Fm) as (P' & kc & p & E & R1 & _ & _ & R2).
  destruct (C173_messages (PN [] [kc] false) 0) as (column & ms & M1 & M2 & _). exists P', kc, column, ms. split; [exact E|]. split; [exact R1|]. split; [unfold log_results; rewrite R1; cbn [obind fst]; rewrite M1; reflexivity|].
  set (G := fun k : str => exists d name, 2 <= d <= 5 /\ k = "@"%char :: ascii_of_nat (48 + Z.to_nat d) :: name).
  assert (K : Forall (fun e => G (snd (fst e))) (outline 0 (PN [] [kc] false))).
  { destruct kc as [k c]. assert (KL : forall q k' v, key_line t0 t1 acts names label true q k' v -> G k').
    { intros q k' v (x & d & _ & Lv & ->). exists d, (names (last q label)). split; [|reflexivity]. unfold level_of in Lv. intuition lia. }
    destruct (reported_keys t0 t1 acts _ _ G KL c [] k R2) as [K1 K2].
    cbn [outline flat_map fst snd]. rewrite app_nil_r. constructor; [exact K1|apply K2]. }
  clear M1. induction M2 as [|e m es ms' H _ IH]; [constructor|]. inversion K as [|? ? K1 K2]; subst. constructor; [|apply IH, K2]. destruct K1 as (d & name & D & Ek). exists d, name. split; [exact D|]. split; [exact Ek|].
  specialize (H (Z.of_nat (Z.to_nat d)) name (asks_level _ (Z.to_nat d) name ltac:(lia) Ek)). rewrite Z2Nat.id in H by lia. exact H.
Qed.

(** * a measurement: 99 ms, with section 5 called twice and section 6 from inside and from outside *)
Definition ms_acts : list act := [Act 5 10000000 [Act 6 13000000 [] 13400000; Act 6 19000000 [] 20000000] 25000000; Act 6 26000000 [] 29000000; Act 5 30000000 [] 31000000].
Definition ms_names (n : nat) : str := match n with 5%nat => lit "outer" | 6%nat => lit "inner" | _ => lit "whole" end.
Definition insert_by (key : nat -> Z) (x : nat) : list nat -> list nat := fix ins l := match l with [] => [x] | y :: r => if key y <=? key x then x :: l else y :: ins r end.
Definition sort_by (key : nat -> Z) (l : list nat) : list nat := fold_right (insert_by key) [] l.
Example C175_sorts_ex : sorts sort_by.
Proof.
  intros key l. induction l as [|x l [IP IS]]; [split; constructor|]. cbn [sort_by fold_right]. fold (sort_by key l). split.
  - apply Permutation_trans with (x :: sort_by key l); [|apply perm_skip, IP]. clear. induction (sort_by key l) as [|y r IH]; [constructor; constructor|]. cbn [insert_by]. destruct (key y <=? key x); [reflexivity|]. fold (insert_by key x r). eapply Permutation_trans; [apply perm_skip, IH|apply perm_swap].
  - clear IP. induction IS as [|y r Sr IH F]; [constructor; constructor|]. cbn [insert_by]. fold (insert_by key x r). destruct (Z.leb_spec (key y) (key x)) as [H|H].
    + constructor; [constructor; assumption|]. constructor; [exact H|]. apply (Forall_impl _ (fun z (Hz : key z <= key y) => Z.le_trans _ _ _ Hz H) F).
    + constructor; [exact IH|]. assert (I : forall z, In z (insert_by key x r) -> z = x \/ In z r).
      { clear. induction r as [|w r IH]; intros z I; [left; destruct I as [->|[]]; reflexivity|]. cbn [insert_by] in I. fold (insert_by key x r) in I. destruct (key w <=? key x); [destruct I as [->|I]; [left; reflexivity|right; exact I]|]. destruct I as [->|I]; [right; left; reflexivity|]. destruct (IH z I) as [->|J]; [left; reflexivity|right; right; exact J]. }
      apply Forall_forall. intros z Hz. destruct (I z Hz) as [->|J]; [lia|]. rewrite Forall_forall in F. apply F, J.
Qed.
Example C175_lines_ex : p_enabled prof_init = false /\ p_current prof_init = None /\ in_order 1000000 ms_acts 100000000 /\ is_finite (literal 5 (-1)) = true.
Proof. split; [reflexivity|]. split; [reflexivity|]. split; [repeat (constructor; try (intros H; discriminate H))|vm_compute; reflexivity]. Qed.
Definition ms_report (minimum : f64) : list (nat * string * string) :=
  match (do P' <- prof_session prof_init 9 1000000 (flat_map calls ms_acts) 100000000; prof_report sort_by ms_names 40 P' minimum true 0) with
  | Ok (t, _) => map (fun e => (fst (fst e), string_of_list_ascii (snd (fst e)), string_of_list_ascii (pn_value (snd e)))) (outline 0 t)
  | _ => []
  end.
Example C175_report_ex : ms_report (literal 5 (-1)) = [
  (0%nat, "@5whole", "    99ms 100.00% (80.81%)      1 999999ns ~ 0% OH");
  (1%nat, "@4outer", "    16ms  16.16% (14.75%)      2 999999ns ~ 0% OH");
  (2%nat, "@3inner", "     1ms   1.41% ( 1.41%)      2 700000ns ~ 0% OH");
  (1%nat, "@3inner", "     3ms   3.03% ( 3.03%)      1 999999ns ~ 0% OH")]%string.
Proof. vm_compute. reflexivity. Qed.
Example C175_minimum_ex : map (fun e => fst (fst e)) (ms_report (literal 50 0)) = [0; 1; 1]%nat.
Proof. vm_compute. reflexivity. Qed.
Example C176_text_ex : string_of_list_ascii (section_value 1000000000 2600 1300 400 2000) = "     0ms   0.00% ( 0.00%)    400      3ns ~77% OH"%string /\ section_text 1000000000 2600 1300 400 2000 (section_value 1000000000 2600 1300 400 2000).
Proof. split; [vm_compute; reflexivity|apply value_text; lia]. Qed.
Example C177_messages_ex : match (do P' <- prof_session prof_init 9 1000000 (flat_map calls ms_acts) 100000000; log_results sort_by ms_names 40 P' (literal 50 0) 0) with
  | Ok (ms, _) => map (fun m => (fst m, string_of_list_ascii (snd m))) ms
  | _ => []
  end = [(5, "whole     =     99ms 100.00% (80.81%)      1 999999ns ~ 0% OH"); (4, "  outer   =     16ms  16.16% (14.75%)      2 999999ns ~ 0% OH"); (3, "  inner   =      3ms   3.03% ( 3.03%)      1 999999ns ~ 0% OH")]%string.
Proof. vm_compute. reflexivity. Qed.

Print Assumptions C175_lines.
Print Assumptions C175_stops.
Print Assumptions C175_instant_refuted.
Print Assumptions C176_text.
Print Assumptions C177_messages.
