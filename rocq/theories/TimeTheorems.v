(** C34, C35, C60, C74: timer, stopwatch, cached_var, interval_checker, time. *)
From Coq Require Import List ZArith Bool Lia.
From Verif Require Import Base TimeSpec TimeModel TimeProofs.
Import ListNotations.
Local Open Scope Z_scope.

(** every call returns what an ideal stop watch shows, whether the timer is running is reported correctly, and no number
    stored is larger than a clock reading *)
Theorem C34_elapsed_partial : forall c0 start h, 0 < c0 -> monotone c0 h -> proper (Watch start 0 c0) h ->
  fst (timer_run (timer_init c0 start) h) = fst (watch_run (Watch start 0 c0) h) /\
  is_running (snd (timer_run (timer_init c0 start) h)) = w_running (snd (watch_run (Watch start 0 c0) h)) /\
  exists c, In c (c0 :: map fst h) /\ Z.abs (snd (timer_run (timer_init c0 start) h)) <= c.
Proof. exact timer_assembled. Qed.
Print Assumptions C34_elapsed_partial.

Definition timer_example : timeline :=
  [(105, Read); (110, Pause); (150, Read); (160, Resume); (165, Read); (170, SetTo 2); (171, Pause); (180, SetTo 50); (190, Resume); (200, Restart); (201, Read)].
Example C34_elapsed_ex : monotone 100 timer_example /\ proper (Watch true 0 100) timer_example /\
  fst (timer_run (timer_init 100 true) timer_example) =
    [Some 5; Some 10; Some 10; None; Some 15; None; Some 3; None; None; Some 60; Some 1].
Proof. vm_compute. intuition congruence. Qed.

(** pausing a paused timer, resuming a running one, restarting a paused one, setting a running one to more than the clock shows *)
Theorem C34_pause_twice_refuted : exists c0 h, 0 < c0 /\ monotone c0 h /\ h = [(110, Pause); (120, Pause); (130, Read)] /\
  fst (timer_run (timer_init c0 true) h) <> fst (watch_run (Watch true 0 c0) h).
Proof. exists 100, [(110, Pause); (120, Pause); (130, Read)]. vm_compute. intuition congruence. Qed.
Print Assumptions C34_pause_twice_refuted.
Theorem C34_resume_twice_refuted : exists c0 h, 0 < c0 /\ monotone c0 h /\ h = [(110, Resume); (120, Read)] /\
  fst (timer_run (timer_init c0 true) h) <> fst (watch_run (Watch true 0 c0) h).
Proof. exists 100, [(110, Resume); (120, Read)]. vm_compute. intuition congruence. Qed.
Print Assumptions C34_resume_twice_refuted.
Theorem C34_restart_paused_refuted : exists c0 h, 0 < c0 /\ monotone c0 h /\ h = [(110, Pause); (120, Restart)] /\
  fst (timer_run (timer_init c0 true) h) <> fst (watch_run (Watch true 0 c0) h).
Proof. exists 100, [(110, Pause); (120, Restart)]. vm_compute. intuition congruence. Qed.
Print Assumptions C34_restart_paused_refuted.
Theorem C34_set_late_refuted : exists c0 h, 0 < c0 /\ monotone c0 h /\ h = [(110, SetTo 110); (120, Read)] /\
  fst (timer_run (timer_init c0 true) h) <> fst (watch_run (Watch true 0 c0) h).
Proof. exists 100, [(110, SetTo 110); (120, Read)]. vm_compute. intuition congruence. Qed.
Print Assumptions C34_set_late_refuted.

(** after any rounds of splits: one entry per position, holding the sum of the times of the splits made at that position;
    all entries together are the time from each restart to the last split of its round *)
Theorem C35_splits : forall c0 rs, exists w, sw_rounds (sw_init c0) rs = Ok w /\
  length (sw_times w) = fold_right (fun r m => Nat.max (length (snd r)) m) 0%nat rs /\
  (forall k, nth k (sw_times w) 0 = split_total rs k) /\
  fold_right Z.add 0 (sw_times w) = total (fun r => round_end r - fst r) rs.
Proof. exact stopwatch_assembled. Qed.
Print Assumptions C35_splits.
(** if all rounds make their splits in the same order, the names are those *)
Theorem C35_names : forall c0 rs ns w, sw_rounds (sw_init c0) rs = Ok w ->
  (forall r, In r rs -> exists k, map fst (snd r) = firstn k ns) -> sw_names w = firstn (length (sw_times w)) ns.
Proof. exact stopwatch_names_assembled. Qed.
Print Assumptions C35_names.
(** the report lists each split and the total, unless a split has the name of the total *)
Theorem C35_report : forall c0 rs key w, sw_rounds (sw_init c0) rs = Ok w -> ~ In key (sw_names w) ->
  sw_report key w = Ok (combine (sw_names w) (sw_times w) ++ [(key, total (fun r => round_end r - fst r) rs)]).
Proof. exact report_assembled. Qed.
Print Assumptions C35_report.
Definition rounds_example : list round := [(5, [(1%nat, 7); (2%nat, 10)]); (20, [(1%nat, 21); (2%nat, 25); (3%nat, 26)]); (30, [(1%nat, 31)])].
Example C35_splits_ex : exists w, sw_rounds (sw_init 0) rounds_example = Ok w /\ sw_times w = [4; 7; 1] /\ sw_names w = [1; 2; 3]%nat /\
  (forall r, In r rounds_example -> exists k, map fst (snd r) = firstn k [1; 2; 3; 4]%nat) /\
  sw_report 0%nat w = Ok [(1%nat, 4); (2%nat, 7); (3%nat, 1); (0%nat, 12)].
Proof.
  eexists. split; [reflexivity|]. split; [reflexivity|]. split; [reflexivity|]. split; [|reflexivity].
  intros r [<-|[<-|[<-|[]]]]; [exists 2%nat|exists 3%nat|exists 1%nat]; reflexivity.
Qed.
(** a split with the name of the total loses its own time *)
Theorem C35_total_name_refuted : exists c0 rs key w rep, sw_rounds (sw_init c0) rs = Ok w /\ sw_report key w = Ok rep /\
  sw_names w = [key; 2%nat] /\ rep <> combine (sw_names w) (sw_times w) ++ [(key, total (fun r => round_end r - fst r) rs)] /\ ~ In (key, split_total rs 0) rep.
Proof.
  exists 0, [(0, [(9%nat, 5); (2%nat, 7)])], 9%nat. do 2 eexists. split; [reflexivity|]. split; [reflexivity|]. split; [reflexivity|].
  split; [vm_compute; discriminate|]. vm_compute. intuition discriminate.
Qed.
Print Assumptions C35_total_name_refuted.
(** splits made in a different order are added to the entry of another name *)
Theorem C35_order_refuted : exists c0 rs w k, sw_rounds (sw_init c0) rs = Ok w /\ nth_error (sw_names w) k = Some 1%nat /\
  (forall r, In r rs -> forall n c, In (n, c) (snd r) -> n = 1%nat \/ n = 2%nat) /\ nth k (sw_times w) 0 = 12 /\
  rs = [(0, [(1%nat, 1); (2%nat, 11)]); (20, [(2%nat, 31); (1%nat, 32)])].
Proof.
  exists 0, [(0, [(1%nat, 1); (2%nat, 11)]); (20, [(2%nat, 31); (1%nat, 32)])]. eexists. exists 0%nat. split; [reflexivity|]. split; [reflexivity|]. split; [|split; reflexivity].
  intros r [<-|[<-|[]]] n c H; cbn in H; intuition congruence.
Qed.
Print Assumptions C35_order_refuted.

(** the function is evaluated exactly when the time stamp differs from that of the previous query; otherwise the previous result is returned *)
Theorem C60_cached : forall (V T : Type) (teqb : T -> T -> bool), (forall a b, teqb a b = true <-> a = b) ->
  forall (v0 : V) (t0 : T) qs i t v, nth_error qs i = Some (t, v) ->
  exists x evaluated, nth_error (cached_run teqb (v0, t0) qs) i = Some (x, evaluated) /\
  (evaluated = true <-> t <> match i with O => t0 | S j => match nth_error qs j with Some q => fst q | None => t0 end end) /\
  (evaluated = true -> x = v) /\
  (evaluated = false -> x = match i with O => v0 | S j => match nth_error (cached_run teqb (v0, t0) qs) j with Some q => fst q | None => v0 end end).
Proof. exact (fun V T => @cached_assembled V T). Qed.
Print Assumptions C60_cached.
Example C60_cached_ex : cached_run Z.eqb (7, 0) [(0, 1); (3, 2); (3, 4); (5, 6); (3, 8)] = [(7, false); (2, true); (2, false); (6, true); (8, true)].
Proof. reflexivity. Qed.

(** interval_checker says yes exactly if the interval has passed since it last said yes (or since 0) *)
Theorem C60_interval : forall d ts, check_all d 0 ts = spaced d 0 ts.
Proof. exact interval_assembled. Qed.
Print Assumptions C60_interval.
(** so it says yes at most once per interval *)
Theorem C60_interval_count : forall d ts T, 0 < d -> 0 <= T -> (forall t, In t ts -> t <= T) ->
  Z.of_nat (length (successes ts (check_all d 0 ts))) * d <= T.
Proof. exact interval_count_assembled. Qed.
Print Assumptions C60_interval_count.
Example C60_interval_ex : check_all 10 0 [3; 12; 15; 21; 22; 40] = [false; true; false; false; true; true].
Proof. reflexivity. Qed.

(** times that are not negative: division by a count, whole seconds, distance *)
Theorem C74_division_partial : forall t n, 0 <= t < 2 ^ 63 -> 0 < n -> time_div t n = Ok (t / n).
Proof. exact time_div_assembled. Qed.
Print Assumptions C74_division_partial.
Theorem C74_seconds_partial : forall s, 0 <= s -> time_from_seconds s = s * 10 ^ 9.
Proof. exact from_seconds_assembled. Qed.
Print Assumptions C74_seconds_partial.
Theorem C74_distance : forall a b, time_distance a b = Z.abs (a - b).
Proof. exact distance_assembled. Qed.
Print Assumptions C74_distance.
Example C74_ex : time_div (7 * 10 ^ 9) 2 = Ok 3500000000 /\ time_from_seconds 86400 = 86400000000000.
Proof. split; reflexivity. Qed.
(** negative times: minus one second divided by 2, and minus one second *)
Theorem C74_division_refuted : exists t n, 0 < n /\ t = - 10 ^ 9 /\ n = 2 /\ time_div t n = Ok 9223372036354775808.
Proof. exists (- 10 ^ 9), 2. split; [reflexivity|]. split; [reflexivity|]. split; reflexivity. Qed.
Print Assumptions C74_division_refuted.
Theorem C74_seconds_refuted : exists s, s = -1 /\ time_from_seconds s = -999999999.
Proof. exists (-1). split; reflexivity. Qed.
Print Assumptions C74_seconds_refuted.
(** splits made without a restart count from the moment the stopwatch was made; after clear it is as if it had been made anew *)
Theorem C35_clear : forall (w : stopwatch) (c : Z) (l : list (nat * Z)),
  sw_splits (sw_clear w c) l = sw_rounds (sw_init c) [(c, l)] /\ sw_splits (sw_init c) l = sw_rounds (sw_init c) [(c, l)] /\
  sw_times (sw_clear w c) = [] /\ sw_names (sw_clear w c) = [].
Proof.
  intros w c l. cbn [sw_rounds]. change (sw_restart (sw_init c) c) with (sw_init c). change (sw_clear w c) with (sw_init c).
  destruct (sw_splits (sw_init c) l); repeat split.
Qed.
Print Assumptions C35_clear.
Example C35_clear_ex : sw_splits (sw_clear (SW 3 7 [1; 2] [1%nat; 2%nat]) 10) [(5%nat, 14)] = Ok (SW 14 1 [4] [5%nat]).
Proof. reflexivity. Qed.
