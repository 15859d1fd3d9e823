(** Properties of the test framework. *)
From Coq Require Import String List Arith ZArith Permutation Lia.
From Verif Require Import Base Conc TstSpec TstModel TstProofs.
Import ListNotations.
Open Scope string_scope.

(** C125: the counts of a test are those of its executed checks, it succeeds exactly when all checks hold and no exception leaves the test
    function, and run_tests returns the number of tests for which that is not so. *)
Theorem C125_run : forall name f, contained f -> exists r l, run name f no_result = Ok (r, l) /\
  checks_ r = (passed_ r + failed_ r)%Z /\ passed_ r = how_many holds_check f /\ failed_ r = how_many broken_check f /\
  (forall w, In (Raise w) (executed f) -> error_ r = w /\ In (LException name w) l) /\ ((forall w, ~ In (Raise w) (executed f)) -> error_ r = "") /\
  (telling f -> success r = clean f) /\ ((exists n, In (LPassed name n) l) <-> clean f = true /\ executed f <> []).
Proof. exact run_assembled. Qed.
Print Assumptions C125_run.
Definition sample : list event := [CheckTrue "a"; CheckRaises "b" "bad"; CheckFalse "c"; Raise "oops"; CheckFalse "d"].
Example C125_run_ex : contained sample /\ telling sample /\ clean sample = false /\
  run "t" sample no_result = Ok (Result "oops" 3 1 2, [LStarting "t"; LCheckFailed "t" "bad"; LCheckFailed "t" "c"; LException "t" "oops"]).
Proof.
  split; [intros e [<-|[<-|[<-|[<-|[]]]]]; exact I|]. split; [intros w [H|[H|[H|[H|[]]]]]; try discriminate; injection H as <-; discriminate|]. split; reflexivity.
Qed.

Theorem C125_tests : forall tests, (forall t, In t tests -> result_ t = no_result /\ contained (func_ t) /\ telling (func_ t)) ->
  exists n ts l, run_tests tests = Ok (n, ts, l) /\ n = sum_over (fun t => if clean (func_ t) then 0%Z else 1%Z) tests /\
  (n = 0%Z <-> forall t, In t tests -> clean (func_ t) = true) /\
  (forall k m, In (LAllClear k m) l <-> n = 0%Z /\ k = length tests /\ m = sum_over (fun t => how_many holds_check (func_ t)) tests) /\
  Forall2 (fun t t' => exists l0, run (name_ t) (func_ t) no_result = Ok (result_ t', l0)) tests ts.
Proof. exact tests_assembled. Qed.
Print Assumptions C125_tests.
Example C125_tests_ex : let tests := fst (add_test_case (fst (add_test_case [] "t" sample)) "u" [CheckTrue "x"; CheckTrue "y"]) in
  exists ts l, run_tests tests = Ok (1%Z, ts, l) /\ map success (map result_ ts) = [false; true] /\ last l (LTrying "") = LWarning 1 2.
Proof. eexists _, _. split; [reflexivity|]. split; reflexivity. Qed.

(** an exception whose description is empty goes unnoticed *)
Theorem C125_silent_exception_refuted : exists name f r l, contained f /\ run name f no_result = Ok (r, l) /\ clean f = false /\ success r = true.
Proof. exact silent_case. Qed.
Print Assumptions C125_silent_exception_refuted.

(** a second run of a test keeps the failures of the first *)
Theorem C125_rerun_refuted : exists name f1 f2 r1 l1 r2 l2,
  run name f1 no_result = Ok (r1, l1) /\ run name f2 r1 = Ok (r2, l2) /\ clean f2 = true /\ success r2 = false.
Proof. exact rerun_case. Qed.
Print Assumptions C125_rerun_refuted.

(** anything thrown that is not a std::exception leaves run() *)
Theorem C125_escape : forall name f r, ~ contained f -> run name f r = Throw.
Proof. exact escape_assembled. Qed.
Print Assumptions C125_escape.
Example C125_escape_ex : ~ contained [CheckTrue "a"; CheckEscapes "b"] /\ contained [Raise "x"; Escape].
Proof. split; [intros H; apply (H (CheckEscapes "b")); right; left; reflexivity|intros e [<-|[]]; exact I]. Qed.

(** C126: running the tests in threads always ends, and ends with the same results, count and totals as running them one by one; the log has
    the same lines in some order (without the lines announcing each test). *)
Theorem C126_async : forall tests, (forall t, In t tests -> contained (func_ t)) ->
  exists n ts log tot, run_tests tests = Ok (n, ts, (log ++ [conclude n (length tests) tot])%list) /\
  (exists bound, forall k l threads, async_steps k (async_start tests) (l, threads) -> (k <= bound)%nat) /\
  (forall k l threads, async_steps k (async_start tests) (l, threads) ->
    (exists l' threads', async_steps (S k) (async_start tests) (l', threads')) \/
    async_count threads 0 no_result = Some (n, tot) /\ threads = map (fun t => TDone (result_ t)) ts /\
    Permutation l (filter (fun x => match x with LTrying _ => false | _ => true end) log)).
Proof. exact async_assembled. Qed.
Print Assumptions C126_async.
Example C126_async_ex : let tests := [Case "t" [CheckFalse "a"] no_result; Case "u" [Raise "e"] no_result] in
  (forall t, In t tests -> contained (func_ t)) /\
  exists ts log tot, run_loop tests 0 no_result = Ok (ts, log, 2%Z, tot) /\
    log = [LTrying "t"; LStarting "t"; LCheckFailed "t" "a"; LTrying "u"; LStarting "u"; LException "u" "e"] /\ tot = Result "e" 1 0 1.
Proof. cbn zeta. split; [intros t [<-|[<-|[]]]; intros e [<-|[]]; exact I|]. eexists _, _, _. split; [reflexivity|]. split; reflexivity. Qed.
