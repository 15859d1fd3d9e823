(** What measuring time means; independent of the models of timer, stopwatch, interval_checker and cached_var.
    All times are whole nanoseconds, counted by a clock that never runs backwards. *)
From Coq Require Import List ZArith Bool.
From Verif Require Import Base.
Import ListNotations.
Local Open Scope Z_scope.

(** calls on a timer *)
Inductive timer_op := Read | Pause | Resume | Restart | SetTo (t : Z).
(** calls with the clock reading they see *)
Definition timeline := list (Z * timer_op).
Fixpoint monotone {A} (c : Z) (h : list (Z * A)) : Prop :=
  match h with [] => True | (c', _) :: r => c <= c' /\ monotone c' r end.

(** an ideal stop watch: running or not, time collected until clock reading [at] *)
Record watch := Watch { w_running : bool; w_collected : Z; w_at : Z }.
Definition elapsed (w : watch) (c : Z) : Z := if w_running w then w_collected w + (c - w_at w) else w_collected w.
Definition watch_after (w : watch) (c : Z) (op : timer_op) : watch :=
  match op with
  | Read => w
  | Pause => Watch false (elapsed w c) c
  | Resume => Watch true (elapsed w c) c
  | Restart => Watch true 0 c
  | SetTo t => Watch (w_running w) t c
  end.
(** what each call returns, if anything: the time collected so far *)
Definition shown (w : watch) (c : Z) (op : timer_op) : option Z :=
  match op with Read | Pause | Restart => Some (elapsed w c) | _ => None end.
Fixpoint watch_run (w : watch) (h : timeline) : list (option Z) * watch :=
  match h with
  | [] => ([], w)
  | (c, op) :: r => let (os, w') := watch_run (watch_after w c op) r in (shown w c op :: os, w')
  end.
(** pause and restart a running timer only, resume a paused one only, set it to a time the clock has already passed *)
Definition proper_call (w : watch) (c : Z) (op : timer_op) : Prop :=
  match op with
  | Read => True
  | Pause | Restart => w_running w = true
  | Resume => w_running w = false
  | SetTo t => 0 <= t < c
  end.
Fixpoint proper (w : watch) (h : timeline) : Prop :=
  match h with [] => True | (c, op) :: r => proper_call w c op /\ proper (watch_after w c op) r end.

(** stopwatch: rounds of splits.  A round: clock reading at its start, then name and clock reading of each split *)
Definition round := (Z * list (nat * Z))%type.
Fixpoint durations (c : Z) (l : list (nat * Z)) : list Z :=
  match l with [] => [] | (_, c') :: r => (c' - c) :: durations c' r end.
Definition round_durations (r : round) : list Z := durations (fst r) (snd r).
(** clock reading at the end of a round's last split *)
Definition round_end (r : round) : Z := last (map snd (snd r)) (fst r).
Definition total {A} (f : A -> Z) (l : list A) : Z := fold_right (fun a s => f a + s) 0 l.
(** time of the k-th split, over all rounds *)
Definition split_total (rs : list round) (k : nat) : Z := total (fun r => nth k (round_durations r) 0) rs.

(** interval_checker: a query at time [t] succeeds exactly if at least [d] has passed since the last success *)
Fixpoint spaced (d prev : Z) (ts : list Z) : list bool :=
  match ts with
  | [] => []
  | t :: r => if prev + d <=? t then true :: spaced d t r else false :: spaced d prev r
  end.
