(** Models of /repo/xo/system/test_case.h and test_case.cpp. A test function is given by the events it produces on a test case; it does not
    touch other test cases. Counters are unbounded integers (int in the source). Log messages are kept as structured lines. *)
From Coq Require Import String List Arith Bool ZArith.
From Verif Require Import Base Conc TstSpec.
Import ListNotations.
Open Scope Z_scope.

Inductive line :=
| LTrying (name : string) | LStarting (name : string) | LCheckFailed (name message : string) | LPassed (name : string) (checks : Z)
| LEmpty (name : string) | LFailed (name : string) (failed checks : Z) | LException (name error : string)
| LAllClear (tests : nat) (checks : Z) | LWarning (failed : Z) (tests : nat).

(** test_case.h 33-45 *)
Record test_result := Result { error_ : string; checks_ : Z; passed_ : Z; failed_ : Z }.
Definition no_result : test_result := Result "" 0 0 0.
Definition success (r : test_result) : bool := (failed_ r =? 0) && (error_ r =? "")%string.
Definition add_result (a b : test_result) : test_result :=
  Result (error_ a ++ (if (error_ a =? "")%string then error_ b else "; " ++ error_ b))
    (checks_ a + checks_ b) (passed_ a + passed_ b) (failed_ a + failed_ b).

(** test_case.cpp 34-47 *)
Definition check (name : string) (r : test_result) (result : bool) (message : string) : test_result * list line :=
  let r1 := Result (error_ r) (checks_ r + 1) (passed_ r) (failed_ r) in
  if result then (Result (error_ r1) (checks_ r1) (passed_ r1 + 1) (failed_ r1), [])
  else (Result (error_ r1) (checks_ r1) (passed_ r1) (failed_ r1 + 1), [LCheckFailed name message]).

(** what leaves the test function: nothing, a std::exception, something else *)
Inductive ending := Returned | Threw (what : string) | Escaped.
(** test_case.h 17-23 in a test function *)
Fixpoint call_func (name : string) (f : list event) (r : test_result) : test_result * list line * ending :=
  match f with
  | [] => (r, [], Returned)
  | CheckTrue text :: f' => let '(r1, l1) := check name r true text in let '(r2, l2, e) := call_func name f' r1 in (r2, l1 ++ l2, e)
  | CheckFalse text :: f' => let '(r1, l1) := check name r false text in let '(r2, l2, e) := call_func name f' r1 in (r2, l1 ++ l2, e)
  | CheckRaises text what :: f' => let '(r1, l1) := check name r false what in let '(r2, l2, e) := call_func name f' r1 in (r2, l1 ++ l2, e)
  | CheckEscapes text :: _ => (r, [], Escaped)
  | Raise what :: _ => (r, [], Threw what)
  | Escape :: _ => (r, [], Escaped)
  end.

(** 67-77, 82: the line at the end of a run *)
Definition report (name : string) (returned : bool) (r : test_result) : list line :=
  if returned then
    if success r then (if 0 <? passed_ r then [LPassed name (passed_ r)] else [LEmpty name])
    else if 1 <? checks_ r then [LFailed name (failed_ r) (checks_ r)] else []
  else [LException name (error_ r)].
Definition set_error (r : test_result) (e : string) : test_result := Result e (checks_ r) (passed_ r) (failed_ r).
(** 49-61 and 63-86; other exceptions leave run() *)
Definition run (name : string) (f : list event) (r : test_result) : outcome (test_result * list line) :=
  let '(r1, l, e) := call_func name f r in
  match e with
  | Returned => Ok (r1, LStarting name :: l ++ report name true r1)
  | Threw what => let r2 := set_error r1 what in Ok (r2, LStarting name :: l ++ report name false r2)
  | Escaped => Throw
  end.

Record test_case := Case { name_ : string; func_ : list event; result_ : test_result }.
(** 23-27 *)
Definition add_test_case (tests : list test_case) (name : string) (f : list event) : list test_case * nat :=
  let t := tests ++ [Case name f no_result] in (t, length t).

(** 90-98: the loop; it yields the test cases after the run, the log, the number of failed tests and the total *)
Fixpoint run_loop (tests : list test_case) (failed : Z) (total : test_result) : outcome (list test_case * list line * Z * test_result) :=
  match tests with
  | [] => Ok ([], [], failed, total)
  | t :: rest =>
      do x <- run (name_ t) (func_ t) (result_ t);
      let '(r, l) := x in
      do y <- run_loop rest (failed + if success r then 0 else 1) (add_result total r);
      let '(ts, l', n, tot) := y in Ok (Case (name_ t) (func_ t) r :: ts, LTrying (name_ t) :: l ++ l', n, tot)
  end.
(** 100-103, 128-131 *)
Definition conclude (n : Z) (size : nat) (total : test_result) : line := if n =? 0 then LAllClear size (passed_ total) else LWarning n size.
(** 88-106 *)
Definition run_tests (tests : list test_case) : outcome (Z * list test_case * list line) :=
  do y <- run_loop tests 0 no_result;
  let '(ts, l, n, tot) := y in Ok (n, ts, l ++ [conclude n (length tests) tot]).

(** ** 108-134: each test case runs in a thread; g_log_mutex is taken for the lines written by check and run. The log itself is
    thread safe (see LogConcModel), so a line is appended in one step. *)
Inductive thread :=
| TStart (name : string) (f : list event) (r : test_result)
| TCall (name : string) (f : list event) (r : test_result)
| TCheck (name : string) (f : list event) (r : test_result) (message : string)
| TEnd (name : string) (returned : bool) (r : test_result)
| TReport (name : string) (returned : bool) (r : test_result)
| TDone (r : test_result)
| TEscaped.
Definition thold (t : thread) : hold := match t with TCheck _ _ _ _ | TReport _ _ _ => Exclusive | _ => Free end.
Definition count_check (r : test_result) : test_result := Result (error_ r) (checks_ r + 1) (passed_ r) (failed_ r).
Inductive tlocal : list line -> thread -> list line -> thread -> Prop :=
| t_start l n f r : tlocal l (TStart n f r) (l ++ [LStarting n]) (TCall n f r)
| t_true l n text f r : tlocal l (TCall n (CheckTrue text :: f) r) l (TCall n f (fst (check n r true text)))
| t_false l n text f r : tlocal l (TCall n (CheckFalse text :: f) r) l (TCheck n f (count_check r) text)
| t_raises l n text what f r : tlocal l (TCall n (CheckRaises text what :: f) r) l (TCheck n f (count_check r) what)
| t_check l n f r m : tlocal l (TCheck n f r m) (l ++ [LCheckFailed n m]) (TCall n f (Result (error_ r) (checks_ r) (passed_ r) (failed_ r + 1)))
| t_escapes l n text f r : tlocal l (TCall n (CheckEscapes text :: f) r) l TEscaped
| t_escape l n f r : tlocal l (TCall n (Escape :: f) r) l TEscaped
| t_raise l n what f r : tlocal l (TCall n (Raise what :: f) r) l (TEnd n false (set_error r what))
| t_return l n r : tlocal l (TCall n [] r) l (TEnd n true r)
| t_end l n b r : tlocal l (TEnd n b r) l (TReport n b r)
| t_report l n b r : tlocal l (TReport n b r) (l ++ report n b r) (TDone r).
Definition async_start (tests : list test_case) : list line * list thread := ([], map (fun t => TStart (name_ t) (func_ t) (result_ t)) tests).
Definition async_steps : nat -> list line * list thread -> list line * list thread -> Prop := tsteps thold tlocal (fun _ _ => False).
(** 118-124 *)
Fixpoint async_count (ts : list thread) (failed : Z) (total : test_result) : option (Z * test_result) :=
  match ts with
  | [] => Some (failed, total)
  | TDone r :: rest => async_count rest (failed + if success r then 0 else 1) (add_result total r)
  | _ => None
  end.
