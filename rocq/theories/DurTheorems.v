(** Theorems: times in double precision and their texts. *)
From Coq Require Import Ascii String List Arith Bool ZArith Reals Lra Lia SpecFloat.
From Flocq Require Import Core IEEE754.BinarySingleNaN.
From Verif Require Import Base Str StrModel CastSpec CastModel UtilModel FltSpec FltModel DurSpec DurModel DurProofs.
Import ListNotations.
Local Open Scope Z_scope.

(** C164: any time from zero up to 2^50 nanoseconds, some 13 days, is kept when turned into seconds in double precision and back, to the nanosecond *)
Theorem C164_seconds_kept t : 0 <= t < 2 ^ 50 -> time_from_seconds (seconds t) = Ok t.
Proof. apply (round_trip (literal 1 (-9)) (literal 1 9) c9 (10 ^ 9)); [apply lit_e9|apply lit_e9|apply lit_9|apply lit_9|lia|exact e0_9]. Qed.
Theorem C164_milliseconds_kept t : 0 <= t < 2 ^ 50 -> time_from_milliseconds (milliseconds t) = Ok t.
Proof. apply (round_trip (literal 1 (-6)) (literal 1 6) c6 (10 ^ 6)); [apply lit_e6|apply lit_e6|apply lit_6|apply lit_6|lia|exact e0_6]. Qed.
Example C164_kept_ex : time_from_seconds (seconds 1123456789012345) = Ok 1123456789012345 /\ time_from_milliseconds (milliseconds 999999999999999) = Ok 999999999999999.
Proof. split; vm_compute; reflexivity. Qed.
(** the numbers of seconds and milliseconds of any time: never more than one part in 2^51 from the exact quotient, and in the order of the times *)
Theorem C164_accurate t : Z.abs t <= 2 ^ 63 ->
  (Rabs (B2R (seconds t) - IZR t / 10 ^ 9) <= / 2 ^ 51 * (Rabs (IZR t) / 10 ^ 9))%R /\ (Rabs (B2R (milliseconds t) - IZR t / 10 ^ 6) <= / 2 ^ 51 * (Rabs (IZR t) / 10 ^ 6))%R.
Proof.
  intros H. split.
  - assert (C := conv_close (literal 1 (-9)) (literal 1 (-9)) c9 (10 ^ 9) (proj1 lit_e9) (proj2 lit_e9) ltac:(lia) e0_9 t H). change (conv (literal 1 (-9)) t) with (seconds t) in C.
    change (bpow radix2 (-51)) with (/ 2251799813685248)%R in C. change (IZR (10 ^ 9)) with 1000000000%R in C. replace (10 ^ 9)%R with 1000000000%R by lra. replace (2 ^ 51)%R with 2251799813685248%R by lra. exact C.
  - assert (C := conv_close (literal 1 (-6)) (literal 1 (-6)) c6 (10 ^ 6) (proj1 lit_e6) (proj2 lit_e6) ltac:(lia) e0_6 t H). change (conv (literal 1 (-6)) t) with (milliseconds t) in C.
    change (bpow radix2 (-51)) with (/ 2251799813685248)%R in C. change (IZR (10 ^ 6)) with 1000000%R in C. replace (10 ^ 6)%R with 1000000%R by lra. replace (2 ^ 51)%R with 2251799813685248%R by lra. exact C.
Qed.
Theorem C164_ordered a b : - 2 ^ 63 <= a -> a <= b -> b <= 2 ^ 63 -> (B2R (seconds a) <= B2R (seconds b))%R /\ (B2R (milliseconds a) <= B2R (milliseconds b))%R.
Proof.
  intros A L B. split.
  - apply (conv_mono (literal 1 (-9)) (literal 1 (-9)) c9 (10 ^ 9) (proj1 lit_e9) (proj2 lit_e9) ltac:(lia) e0_9 a b A L B).
  - apply (conv_mono (literal 1 (-6)) (literal 1 (-6)) c6 (10 ^ 6) (proj1 lit_e6) (proj2 lit_e6) ltac:(lia) e0_6 a b A L B).
Qed.
Example C164_accurate_ex : B2SF (seconds 1500000000) = S754_finite false 6755399441055744 (-52).
Proof. vm_compute. reflexivity. Qed.
(** a number of seconds (milliseconds) that is not negative, up to 2^50 nanoseconds, becomes a time less than one nanosecond away; whole numbers, up to 2^52 nanoseconds, become exactly that time *)
Theorem C164_from_seconds (s : f64) : is_finite s = true -> (0 <= B2R s)%R ->
  ((B2R s * 10 ^ 9 <= 2 ^ 50)%R -> exists t, time_from_seconds s = Ok t /\ (Rabs (IZR t - B2R s * 10 ^ 9) < 1)%R) /\
  ((B2R s * 10 ^ 6 <= 2 ^ 50)%R -> exists t, time_from_milliseconds s = Ok t /\ (Rabs (IZR t - B2R s * 10 ^ 6) < 1)%R).
Proof.
  intros F P. replace (10 ^ 9)%R with (IZR (10 ^ 9)) by (cbn; lra). replace (10 ^ 6)%R with (IZR (10 ^ 6)) by (cbn; lra). replace (2 ^ 50)%R with 1125899906842624%R by lra. split; intros B.
  - exact (back_close (literal 1 9) (literal 1 9) (10 ^ 9) (proj1 lit_9) (proj2 lit_9) ltac:(lia) s F P B).
  - exact (back_close (literal 1 6) (literal 1 6) (10 ^ 6) (proj1 lit_6) (proj2 lit_6) ltac:(lia) s F P B).
Qed.
Theorem C164_whole (s : f64) n : is_finite s = true -> B2R s = IZR n -> 0 <= n ->
  (n * 10 ^ 9 < 2 ^ 52 -> time_from_seconds s = Ok (n * 10 ^ 9)) /\ (n * 10 ^ 6 < 2 ^ 52 -> time_from_milliseconds s = Ok (n * 10 ^ 6)).
Proof.
  intros F E P. split; intros B.
  - exact (back_whole (literal 1 9) (literal 1 9) (10 ^ 9) (proj1 lit_9) (proj2 lit_9) ltac:(lia) s n F E P B).
  - exact (back_whole (literal 1 6) (literal 1 6) (10 ^ 6) (proj1 lit_6) (proj2 lit_6) ltac:(lia) s n F E P B).
Qed.
Example C164_from_seconds_ex : time_from_seconds (literal 1 (-1)) = Ok 100000000 /\ time_from_seconds (f64_of_Z 4500000) = Ok 4500000000000000.
Proof. split; vm_compute; reflexivity. Qed.
(** not beyond: after 26 days a nanosecond is lost, and one nanosecond before zero becomes zero *)
Theorem C164_seconds_kept_refuted : (exists t, 2 ^ 50 <= t < 2 ^ 52 /\ time_from_seconds (seconds t) <> Ok t) /\ time_from_seconds (seconds (-1)) = Ok 0.
Proof. split; [exists 2251836459181837; split; [lia|vm_compute; discriminate]|vm_compute; reflexivity]. Qed.
(** numbers of seconds too large for a long long are undefined *)
Theorem C164_too_large_refuted : time_from_seconds (f64_of_Z (10 ^ 10)) = UB.
Proof. vm_compute. reflexivity. Qed.

(** C165: the text of a time from zero up to 2^22 seconds. From one minute on, or when no decimals are asked for, or from the given number of seconds on, it is a clock that shows the whole seconds that have passed.
    Otherwise it is the number of seconds with the decimals asked for that is nearest to the time. *)
Theorem C165_clock t decimals (hide : f64) h : 0 <= t < 2 ^ 22 * 10 ^ 9 -> is_finite hide = true -> B2R hide = IZR h ->
  60 * 10 ^ 9 <= t \/ decimals <= 0 \/ h * 10 ^ 9 <= t -> exists s, time_to_str t decimals hide = Ok s /\ clock_text (t / 10 ^ 9) s.
Proof. apply text_clock. Qed.
Theorem C165_decimals t d (hide : f64) h : 0 <= t < 60 * 10 ^ 9 -> is_finite hide = true -> B2R hide = IZR h -> (0 < d <= 9)%nat -> t < h * 10 ^ 9 ->
  exists s k, time_to_str t (Z.of_nat d) hide = Ok s /\ 0 <= k /\ fixed_text k d s /\ decimal_near t k d.
Proof. apply text_fixed. Qed.
Example C165_clock_ex : time_to_str_default 3725999999999 = Ok (lit "1:02:05") /\ time_to_str_default 59999999999 = Ok (lit "0:59") /\ time_to_str_default 119999999999 = Ok (lit "1:59") /\ time_to_str 7000000000 0 (literal 10 0) = Ok (lit "0:07").
Proof. repeat split; vm_compute; reflexivity. Qed.
Example C165_decimals_ex : time_to_str_default 1234567890 = Ok (lit "1.235") /\ time_to_str 50 9 (literal 10 0) = Ok (lit "0.000000050").
Proof. split; vm_compute; reflexivity. Qed.
(** a text with decimals is read back as exactly the number it shows, so the default text of a time below ten seconds gives the nearest millisecond, and nine decimals give the time itself *)
Theorem C165_read k d s v : fixed_text k d s -> 0 <= k -> (d <= 9)%nat -> k * 10 ^ (9 - Z.of_nat d) < 2 ^ 50 -> time_from_str s v = Ok (k * 10 ^ (9 - Z.of_nat d), true).
Proof. apply read_fixed. Qed.
Theorem C165_millisecond t v : 0 <= t < 10 * 10 ^ 9 -> exists s t', time_to_str_default t = Ok s /\ time_from_str s v = Ok (t', true) /\ t' mod 10 ^ 6 = 0 /\ 2 * Z.abs (t' - t) <= 10 ^ 6.
Proof.
  intros H. destruct (text_fixed t 3 (literal 10 0) 10) as (s & k & A & K & B & C); [lia|apply lit_10|apply lit_10|lia|lia|]. unfold decimal_near in C. change (9 - Z.of_nat 3) with 6 in C.
  exists s, (k * 10 ^ 6). split; [exact A|]. split; [apply (read_fixed k 3 s v B K); [lia|change (9 - Z.of_nat 3) with 6; lia]|]. split; [apply Z.mod_mul; lia|exact C].
Qed.
Theorem C165_nanosecond t (hide : f64) h v : 0 <= t < 60 * 10 ^ 9 -> is_finite hide = true -> B2R hide = IZR h -> t < h * 10 ^ 9 -> exists s, time_to_str t 9 hide = Ok s /\ time_from_str s v = Ok (t, true).
Proof.
  intros H F E G. destruct (text_fixed t 9 hide h) as (s & k & A & K & B & C); [exact H|exact F|exact E|lia|exact G|]. unfold decimal_near in C. change (9 - Z.of_nat 9) with 0 in C.
  exists s. split; [exact A|]. assert (k = t) by lia. subst k. rewrite (read_fixed t 9 s v B K); [|lia|change (9 - Z.of_nat 9) with 0; lia]. change (9 - Z.of_nat 9) with 0. rewrite Z.mul_1_r. reflexivity.
Qed.
Example C165_read_ex : time_from_str (lit "1.235") 7 = Ok (1235000000, true) /\ fixed_text 1235 3 (lit "1.235").
Proof.
  split; [vm_compute; reflexivity|]. exists (lit "1"), (lit "235"). repeat split; try (repeat constructor; cbn; lia); try discriminate. right. discriminate.
Qed.
(** a clock text is not read back: the minutes are taken for the seconds, and without complaint; just below ten seconds the text says ten; times before zero give strange texts *)
Theorem C165_clock_read_refuted : time_to_str_default 65000000000 = Ok (lit "1:05") /\ time_from_str (lit "1:05") 0 = Ok (1000000000, true) /\
  time_to_str_default 12000000000 = Ok (lit "0:12") /\ time_from_str (lit "0:12") 0 = Ok (0, true).
Proof. repeat split; vm_compute; reflexivity. Qed.
Theorem C165_hide_refuted : time_to_str_default 9999600000 = Ok (lit "10.000") /\ time_to_str (-90000000000) 0 (literal 10 0) = Ok (lit "0:-90").
Proof. split; vm_compute; reflexivity. Qed.

(** C166: the report of a stopwatch shows every interval, and then their sum, with three decimals below ten seconds; the number of decimals asked for changes nothing *)
Theorem C166_report decimals ts : Forall (fun t => 0 <= t) ts -> fold_left Z.add ts 0 < 10 * 10 ^ 9 ->
  exists ss, report_times decimals ts = Ok ss /\ Forall2 (fun t s => exists k, 0 <= k /\ fixed_text k 3 s /\ decimal_near t k 3) (ts ++ [fold_left Z.add ts 0]) ss.
Proof.
  intros P B. unfold report_times. assert (G : forall ts total, Forall (fun t => 0 <= t) ts -> 0 <= total -> total <= fold_left Z.add ts total).
  { induction ts0 as [|t r IH]; intros total F T; cbn; [lia|]. inversion F; subst. specialize (IH (total + t) ltac:(assumption) ltac:(lia)). lia. }
  assert (One : forall t, 0 <= t < 10 * 10 ^ 9 -> exists s, time_to_str_default t = Ok s /\ exists k, 0 <= k /\ fixed_text k 3 s /\ decimal_near t k 3).
  { intros t H. destruct (text_fixed t 3 (literal 10 0) 10) as (s & k & A & K & X & C); [lia|apply lit_10|apply lit_10|lia|lia|]. exists s. split; [exact A|]. exists k. repeat split; assumption. }
  assert (Main : forall ts total, Forall (fun t => 0 <= t) ts -> 0 <= total -> fold_left Z.add ts total < 10 * 10 ^ 9 ->
    exists ss, report_from ts total = Ok ss /\ Forall2 (fun t s => exists k, 0 <= k /\ fixed_text k 3 s /\ decimal_near t k 3) (ts ++ [fold_left Z.add ts total]) ss); [|apply (Main ts 0 P ltac:(lia) B)].
  clear ts P B. induction ts as [|t r IH]; intros total P T0 B.
  - cbn [fold_left] in *. destruct (One total ltac:(lia)) as (s & E & K). exists [s]. cbn [report_from List.app]. rewrite E. split; [reflexivity|]. constructor; [exact K|constructor].
  - inversion P as [|? ? P1 P2]; subst. cbn [fold_left] in *. pose proof (G r (total + t) P2 ltac:(lia)) as M. destruct (One t ltac:(lia)) as (s & E & K). destruct (IH (total + t) P2 ltac:(lia) B) as (ss & E2 & K2).
    exists (s :: ss). cbn [report_from List.app]. rewrite E, E2. split; [reflexivity|]. constructor; [exact K|exact K2].
Qed.
Example C166_report_ex : report_times 3 [1234567890; 20000000] = Ok [lit "1.235"; lit "0.020"; lit "1.255"].
Proof. vm_compute. reflexivity. Qed.
Theorem C166_decimals_refuted : forall decimals, report_times decimals [1234567890] = Ok [lit "1.235"; lit "1.235"].
Proof. intros decimals. vm_compute. reflexivity. Qed.

Print Assumptions C164_seconds_kept.
Print Assumptions C164_milliseconds_kept.
Print Assumptions C164_accurate.
Print Assumptions C164_ordered.
Print Assumptions C164_from_seconds.
Print Assumptions C164_whole.
Print Assumptions C164_seconds_kept_refuted.
Print Assumptions C164_too_large_refuted.
Print Assumptions C165_clock.
Print Assumptions C165_decimals.
Print Assumptions C165_read.
Print Assumptions C165_millisecond.
Print Assumptions C165_nanosecond.
Print Assumptions C165_clock_read_refuted.
Print Assumptions C165_hide_refuted.
Print Assumptions C166_report.
Print Assumptions C166_decimals_refuted.
