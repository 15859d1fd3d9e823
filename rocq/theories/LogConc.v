(** Model of /repo/xo/system/log.cpp with threads: every lock operation, every read or write of the shared variables
    global_sinks, global_lowest_log_level and log_level_, and every message handed to a sink is a step.
    The sinks exist all the time; they are registered, removed and changed. *)
From Coq Require Import Ascii List Arith Bool.
From Verif Require Import Base Conc LogSpec LogModel.
Import ListNotations.

(** calls a thread makes *)
Inductive tcall :=
| TAdd (s : nat)               (* add_sink *)
| TRemove (s : nat)            (* remove_sink *)
| TLevel (s : nat) (l : level) (* set_log_level *)
| TMode (s : nat) (m : sink_mode) (* set_sink_mode *)
| TMessage (l : level) (t : text) (* message *)
| TString (l : level) (t : text)  (* log_string *).

(** shared state; [lg_asked] is for the record: call (thread, number), level, sink, its data at that moment, whether it got the message *)
Record lglobal := LG {
  lg_data : nat -> sink_data;
  lg_sinks : list nat;
  lg_lowest : level;
  lg_asked : list ((nat * nat) * level * nat * sink_data * bool);
  lg_finished : list ((nat * nat) * list nat) (* for the record: calls of log_string that are done, and global_sinks at the end *) }.

Inductive lpc :=
| PIdle
| PRead (l : level) (t : text)                   (* message: before log.cpp 71, unlocked *)
| PWantTest (l : level) (t : text)               (* before 74 *)
| PTest (l : level) (t : text) (rest : list nat) (* 75-77, shared *)
| PWantSend (l : level) (t : text)               (* before 22 *)
| PSend (l : level) (t : text) (rest : list nat) (* 23-24, shared *)
| PWantAdd (s : nat)                             (* before 54 *)
| PAdd (s : nat)                                 (* 55-56, exclusive *)
| PWantRemove (s : nat) (again : bool)           (* before 62; [again]: add_sink follows *)
| PRemove (s : nat) (again : bool)               (* 63-65, exclusive *)
| PReset (again : option nat)                    (* 46, exclusive *)
| PUpdate (rest : list nat) (again : option nat) (* 47-48, exclusive *).
(** the thread's id and number of calls begun, calls still to make *)
Record lthread := LT { lt_id : nat; lt_count : nat; lt_pc : lpc; lt_todo : list tcall }.
Definition lholds (t : lthread) : hold :=
  match lt_pc t with
  | PTest _ _ _ | PSend _ _ _ => Shared
  | PAdd _ | PRemove _ _ | PReset _ | PUpdate _ _ => Exclusive
  | _ => Free
  end.

Definition set_data (g : lglobal) (s : nat) (d : sink_data) : lglobal :=
  LG (fun q => if q =? s then d else lg_data g q) (lg_sinks g) (lg_lowest g) (lg_asked g) (lg_finished g).
Definition set_sinks (g : lglobal) (ss : list nat) : lglobal := LG (lg_data g) ss (lg_lowest g) (lg_asked g) (lg_finished g).
Definition set_lowest (g : lglobal) (l : level) : lglobal := LG (lg_data g) (lg_sinks g) l (lg_asked g) (lg_finished g).
Definition ask (g : lglobal) (c : nat * nat) (l : level) (s : nat) (got : bool) : lglobal :=
  LG (lg_data g) (lg_sinks g) (lg_lowest g) (lg_asked g ++ [(c, l, s, lg_data g s, got)]) (lg_finished g).
Definition finish (g : lglobal) (c : nat * nat) : lglobal :=
  LG (lg_data g) (lg_sinks g) (lg_lowest g) (lg_asked g) (lg_finished g ++ [(c, lg_sinks g)]).

Definition begin_call (me : nat) (g : lglobal) (c : tcall) : lglobal * lpc :=
  match c with
  | TAdd s => (g, PWantAdd s)
  | TRemove s => (g, PWantRemove s false)
  (* log_sink.cpp 52: the level is written without the lock *)
  | TLevel s l => (set_data g s (Sink l (sink_mode_ (lg_data g s)) (thread_id_ (lg_data g s))), PWantRemove s true)
  | TMode s m => (set_data g s (Sink (log_level_ (lg_data g s)) m me), PIdle)
  | TMessage l t => (g, PRead l t)
  | TString l t => (g, PWantSend l t)
  end.

Inductive llocal : lglobal -> lthread -> lglobal -> lthread -> Prop :=
| l_start g me n c r : llocal g (LT me n PIdle (c :: r)) (fst (begin_call me g c)) (LT me (S n) (snd (begin_call me g c)) r)
(* 71-72, read without the lock *)
| l_below g me n l t r : l < lg_lowest g -> llocal g (LT me n (PRead l t) r) g (LT me n PIdle r)
| l_above g me n l t r : lg_lowest g <= l -> llocal g (LT me n (PRead l t) r) g (LT me n (PWantTest l t) r)
(* 74-78 *)
| l_lock_test g me n l t r : llocal g (LT me n (PWantTest l t) r) g (LT me n (PTest l t (lg_sinks g)) r)
| l_test_none g me n l t r : llocal g (LT me n (PTest l t []) r) g (LT me n PIdle r)
| l_test_no g me n l t s ss r : sink_test (lg_data g s) me l = false -> llocal g (LT me n (PTest l t (s :: ss)) r) g (LT me n (PTest l t ss) r)
| l_test_yes g me n l t s ss r : sink_test (lg_data g s) me l = true -> llocal g (LT me n (PTest l t (s :: ss)) r) g (LT me n (PWantSend l t) r)
(* 22-24 *)
| l_lock_send g me n l t r : llocal g (LT me n (PWantSend l t) r) g (LT me n (PSend l t (lg_sinks g)) r)
| l_send g me n l t s ss r : llocal g (LT me n (PSend l t (s :: ss)) r) (ask g (me, n) l s (sink_test (lg_data g s) me l)) (LT me n (PSend l t ss) r)
| l_sent g me n l t r : llocal g (LT me n (PSend l t []) r) (finish g (me, n)) (LT me n PIdle r)
(* 51-58 *)
| l_lock_add g me n s r : llocal g (LT me n (PWantAdd s) r) g (LT me n (PAdd s) r)
| l_add g me n s r : llocal g (LT me n (PAdd s) r)
    (set_sinks g (if existsb (Nat.eqb s) (lg_sinks g) then lg_sinks g else lg_sinks g ++ [s])) (LT me n (PReset None) r)
(* 60-67 *)
| l_lock_remove g me n s a r : llocal g (LT me n (PWantRemove s a) r) g (LT me n (PRemove s a) r)
| l_remove g me n s a r : llocal g (LT me n (PRemove s a) r)
    (set_sinks g (erase_first s (lg_sinks g))) (LT me n (PReset (if a then Some s else None)) r)
(* 44-49 *)
| l_reset g me n a r : llocal g (LT me n (PReset a) r) (set_lowest g never) (LT me n (PUpdate (lg_sinks g) a) r)
| l_update g me n s ss a r : llocal g (LT me n (PUpdate (s :: ss) a) r)
    (set_lowest g (if log_level_ (lg_data g s) <? lg_lowest g then log_level_ (lg_data g s) else lg_lowest g)) (LT me n (PUpdate ss a) r)
| l_updated g me n a r : llocal g (LT me n (PUpdate [] a) r) g
    (LT me n (match a with Some s => PWantAdd s | None => PIdle end) r).

(** threads 0, 1, ... with their calls *)
Definition log_threads (calls : list (list tcall)) : list lthread :=
  map (fun p => LT (fst p) 0 PIdle (snd p)) (combine (seq 0 (length calls)) calls).
Definition log_reach (data : nat -> sink_data) (ss : list nat) (low : level) (calls : list (list tcall)) (g : lglobal) (ts : list lthread) : Prop :=
  csteps lholds llocal (fun _ _ => False) (LG data ss low [] [], log_threads calls) (g, ts).
(** the sinks asked during call number [n] of thread [i], in order *)
Definition asked_in (g : lglobal) (c : nat * nat) : list nat :=
  map (fun e => snd (fst (fst e))) (filter (fun e => match e with ((i, n), _, _, _, _) => (i =? fst c) && (n =? snd c) end) (lg_asked g)).
(** a thread is inside add_sink, remove_sink or set_log_level *)
Definition registering (t : lthread) : Prop :=
  match lt_pc t with
  | PWantAdd _ | PAdd _ | PWantRemove _ _ | PRemove _ _ | PReset _ | PUpdate _ _ => True
  | _ => False
  end.
