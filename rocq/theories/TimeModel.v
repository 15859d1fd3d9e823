(** Model of /repo/xo/time/timer.cpp, stopwatch.h, stopwatch.cpp, interval_checker.h, time.h and of /repo/xo/utility/cached_var.h.
    A tick is a nanosecond (timer.cpp 67-76 with a clock of that resolution); the width of long long is not modelled, except in [time_div]. *)
From Coq Require Import List ZArith Bool.
From Verif Require Import Base TimeSpec.
Import ListNotations.
Local Open Scope Z_scope.

(** timer.h 18-24: epoch_; [now] is what get_tick_count() returns *)
Definition timer_init (now : Z) (start : bool) : Z := if start then now else 0.
Definition is_running (epoch : Z) : bool := 0 <? epoch.
(** timer.cpp 83-87 *)
Definition timer_read (epoch now : Z) : Z := if 0 <? epoch then now - epoch else - epoch.
(** 89-94: new epoch_ and result *)
Definition timer_restart (epoch now : Z) : Z * Z := (now, now - epoch).
(** 96-102 *)
Definition timer_set (epoch now t : Z) : Z := if is_running epoch then now - t else - t.
(** 109-114 *)
Definition timer_pause (epoch now : Z) : Z * Z := let e := - (now - epoch) in (e, - e).
(** 116-119 *)
Definition timer_resume (epoch now : Z) : Z := now + epoch.

Definition timer_step (epoch now : Z) (op : timer_op) : Z * option Z :=
  match op with
  | Read => (epoch, Some (timer_read epoch now))
  | Pause => let (e, r) := timer_pause epoch now in (e, Some r)
  | Resume => (timer_resume epoch now, None)
  | Restart => let (e, r) := timer_restart epoch now in (e, Some r)
  | SetTo t => (timer_set epoch now t, None)
  end.
Fixpoint timer_run (epoch : Z) (h : timeline) : list (option Z) * Z :=
  match h with
  | [] => ([], epoch)
  | (c, op) :: r => let (e, o) := timer_step epoch c op in let (os, e') := timer_run e r in (o :: os, e')
  end.

(** stopwatch.h 49-52; names are numbers *)
Record stopwatch := SW { sw_timer : Z; sw_current : nat; sw_times : list Z; sw_names : list nat }.
(** 13; the timer starts running *)
Definition sw_init (now : Z) : stopwatch := SW (timer_init now true) 0 [] [].
(** 16 *)
Definition sw_restart (w : stopwatch) (now : Z) : stopwatch := SW (fst (timer_restart (sw_timer w) now)) 0 (sw_times w) (sw_names w).
(** 19-26 *)
Definition sw_split (w : stopwatch) (name : nat) (now : Z) : outcome stopwatch :=
  let (e, t) := timer_restart (sw_timer w) now in
  if (length (sw_times w) <=? sw_current w)%nat
  then Ok (SW e (S (sw_current w)) (sw_times w ++ [t]) (sw_names w ++ [name]))
  else
    do old <- vec_get (sw_times w) (sw_current w);
    do ts <- vec_set (sw_times w) (sw_current w) (old + t);
    Ok (SW e (S (sw_current w)) ts (sw_names w)).
(** 38-43 *)
Definition sw_clear (w : stopwatch) (now : Z) : stopwatch := SW (fst (timer_restart (sw_timer w) now)) 0 [] [].
(** the calls of one round: restart, then splits *)
Fixpoint sw_splits (w : stopwatch) (l : list (nat * Z)) : outcome stopwatch :=
  match l with [] => Ok w | (n, c) :: r => do w' <- sw_split w n c; sw_splits w' r end.
Fixpoint sw_rounds (w : stopwatch) (rs : list round) : outcome stopwatch :=
  match rs with [] => Ok w | (c, l) :: r => do w' <- sw_splits (sw_restart w c) l; sw_rounds w' r end.

(** stopwatch.cpp 8-22: the children of the result; the times are not turned into text.
    pn[key] refers to the first child with that key, or to a new one *)
Fixpoint assign (k : nat) (v : Z) (l : list (nat * Z)) : list (nat * Z) :=
  match l with [] => [(k, v)] | (q, x) :: r => if (q =? k)%nat then (q, v) :: r else (q, x) :: assign k v r end.
Definition sw_report (total_key : nat) (w : stopwatch) : outcome (list (nat * Z)) :=
  (fix go (ts : list Z) (ns : list nat) (acc : list (nat * Z)) (t : Z) : outcome (list (nat * Z)) :=
    match ts, ns with
    | [], _ => Ok (assign total_key t acc)
    | x :: ts', n :: ns' => go ts' ns' (acc ++ [(n, x)]) (t + x)
    | _ :: _, [] => UB
    end) (sw_times w) (sw_names w) [] 0.

(** interval_checker.h 10-16 *)
Definition check_interval (interval prev t : Z) : bool * Z := if interval <=? t - prev then (true, t) else (false, prev).
Fixpoint check_all (interval prev : Z) (ts : list Z) : list bool :=
  match ts with [] => [] | t :: r => let (b, p) := check_interval interval prev t in b :: check_all interval p r end.

(** cached_var.h 10-17: value_ and time_, how often the function ran *)
Section Cached.
  Context {V T : Type} (teqb : T -> T -> bool).
  Definition cached_get (st : V * T) (t : T) (f : unit -> V) : V * bool * (V * T) :=
    if negb (teqb t (snd st)) then let v := f tt in (v, true, (v, t)) else (fst st, false, st).
  (** queries with the value the function would return: results, and whether it was evaluated *)
  Fixpoint cached_run (st : V * T) (qs : list (T * V)) : list (V * bool) :=
    match qs with [] => [] | (t, v) :: r => let '(x, b, st') := cached_get st t (fun _ => v) in (x, b) :: cached_run st' r end.
End Cached.

(** time.h 33: internal_ is converted to an unsigned number before it is divided by a size_t, and the result converted back *)
Definition two64 : Z := 2 ^ 64.
Definition to_signed (x : Z) : Z := if x mod two64 <? 2 ^ 63 then x mod two64 else x mod two64 - two64.
Definition time_div (t n : Z) : outcome Z := if n =? 0 then UB else Ok (to_signed ((t mod two64) / n)).
(** time.h 52, for a whole number of seconds below 2^53 / 10^9 in size, where the product and the sum are exact:
    1e9 * s + 0.5 truncated *)
Definition time_from_seconds (s : Z) : Z := Z.quot (2 * (s * 10 ^ 9) + 1) 2.
(** time.h 56 *)
Definition time_distance (a b : Z) : Z := if b <? a then a - b else b - a.
