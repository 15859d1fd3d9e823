(** Model of /repo/xo/system/log.h, log.cpp and of class sink in log_sink.cpp. *)
From Coq Require Import Ascii List Arith Bool.
From Verif Require Import Base LogSpec.
Import ListNotations.

(** log_sink.h 42-45, the members of class sink *)
Record sink_data := Sink { log_level_ : level; sink_mode_ : sink_mode; thread_id_ : nat }.

(** log.cpp 15-17: global_sinks, global_lowest_log_level; the sink objects that exist; what they were told so far, latest last *)
Record log_state := LS {
  objects : list (nat * sink_data);
  global_sinks : list nat;
  global_lowest_log_level : level;
  events : list (nat * event) }.
Definition log_init : log_state := LS [] [] never [].

Definition object (st : log_state) (s : nat) : option sink_data :=
  match List.find (fun x => fst x =? s) (objects st) with Some x => Some (snd x) | None => None end.
(** a member function of a sink; undefined for a sink that does not exist *)
Definition with_object {A} (st : log_state) (s : nat) (f : sink_data -> outcome A) : outcome A :=
  match object st s with Some d => f d | None => UB end.
Definition set_object (st : log_state) (s : nat) (d : sink_data) : log_state :=
  LS ((s, d) :: filter (fun x => negb (fst x =? s)) (objects st)) (global_sinks st) (global_lowest_log_level st) (events st).
Definition drop_object (st : log_state) (s : nat) : log_state :=
  LS (filter (fun x => negb (fst x =? s)) (objects st)) (global_sinks st) (global_lowest_log_level st) (events st).
Definition emit (st : log_state) (e : nat * event) : log_state :=
  LS (objects st) (global_sinks st) (global_lowest_log_level st) (events st ++ [e]).

(** log_sink.cpp 37-42 sink::test_log_level, called by thread [me] *)
Definition sink_test (d : sink_data) (me : nat) (l : level) : bool :=
  match sink_mode_ d with
  | AllThreads => log_level_ d <=? l
  | CurrentThread => (log_level_ d <=? l) && (me =? thread_id_ d)
  end.

(** log.cpp 44-49 update_global_log_level_thread_unsafe *)
Fixpoint lowest_loop (st : log_state) (ss : list nat) (low : level) : outcome level :=
  match ss with
  | [] => Ok low
  | s :: r => with_object st s (fun d => lowest_loop st r (if log_level_ d <? low then log_level_ d else low))
  end.
Definition update_lowest (st : log_state) : outcome log_state :=
  do low <- lowest_loop st (global_sinks st) never;
  Ok (LS (objects st) (global_sinks st) low (events st)).

(** log.cpp 51-58 add_sink; the null pointer is not modelled (it throws) *)
Definition add_sink (st : log_state) (s : nat) : outcome log_state :=
  update_lowest (if existsb (Nat.eqb s) (global_sinks st) then st
    else LS (objects st) (global_sinks st ++ [s]) (global_lowest_log_level st) (events st)).
(** std::find and erase *)
Fixpoint erase_first (s : nat) (ss : list nat) : list nat :=
  match ss with [] => [] | x :: r => if x =? s then r else x :: erase_first s r end.
(** log.cpp 60-67 remove_sink *)
Definition remove_sink (st : log_state) (s : nat) : outcome log_state :=
  update_lowest (LS (objects st) (erase_first s (global_sinks st)) (global_lowest_log_level st) (events st)).

(** log.cpp 69-79 test_log_level *)
Fixpoint test_loop (st : log_state) (me : nat) (l : level) (ss : list nat) : outcome bool :=
  match ss with
  | [] => Ok false
  | s :: r => with_object st s (fun d => if sink_test d me l then Ok true else test_loop st me l r)
  end.
Definition test_log_level (st : log_state) (me : nat) (l : level) : outcome bool :=
  if l <? global_lowest_log_level st then Ok false else test_loop st me l (global_sinks st).

(** log.cpp 19-25 log_string, log_sink.cpp 44-48 submit_log_message *)
Fixpoint submit_loop (st : log_state) (me : nat) (l : level) (t : text) (ss : list nat) : outcome log_state :=
  match ss with
  | [] => Ok st
  | s :: r => with_object st s (fun d => submit_loop (if sink_test d me l then emit st (s, Received l t) else st) me l t r)
  end.
Definition log_string (st : log_state) (me : nat) (l : level) (t : text) : outcome log_state :=
  submit_loop st me l t (global_sinks st).
(** log.h 42-48 message; [t] is the concatenation of the arguments' to_str *)
Definition message (st : log_state) (me : nat) (l : level) (t : text) : outcome log_state :=
  do b <- test_log_level st me l; if b then log_string st me l t else Ok st.
(** log.cpp 27-35 log_vstring; [t] is the formatted text: vsnprintf keeps 1023 bytes.  Texts with a zero byte are not modelled *)
Definition log_vstring (st : log_state) (me : nat) (l : level) (t : text) : outcome log_state :=
  do b <- test_log_level st me l; if b then log_string st me l (firstn (1024 - 1) t) else Ok st.
(** log.cpp 37-42 flush *)
Fixpoint flush_loop (st : log_state) (ss : list nat) : outcome log_state :=
  match ss with
  | [] => Ok st
  | s :: r => with_object st s (fun _ => flush_loop (emit st (s, Flushed)) r)
  end.
Definition flush (st : log_state) : outcome log_state := flush_loop st (global_sinks st).

(** log.h 51-89, log.cpp 86-128: trace .. critical and tracef .. criticalf; error and critical flush *)
Definition flushes (l : level) : bool := 5 <=? l.
Definition log_call (static : level) (st : log_state) (me : nat) (l : level) (t : text) : outcome log_state :=
  if static <=? l then do st' <- message st me l t; if flushes l then flush st' else Ok st' else Ok st.
Definition log_callf (static : level) (st : log_state) (me : nat) (l : level) (t : text) : outcome log_state :=
  if static <=? l then do st' <- log_vstring st me l t; if flushes l then flush st' else Ok st' else Ok st.

(** log_sink.cpp 23-66 *)
Definition log_step (static : level) (st : log_state) (me : nat) (op : log_op) : outcome log_state :=
  match op with
  | Construct s l m => match object st s with Some _ => UB | None => add_sink (set_object st s (Sink l m me)) s end
  | Destroy s => with_object st s (fun _ => do st' <- remove_sink st s; Ok (drop_object st' s))
  | SetLevel s l => with_object st s (fun d =>
      do st' <- remove_sink (set_object st s (Sink l (sink_mode_ d) (thread_id_ d))) s; add_sink st' s)
  | SetMode s m => with_object st s (fun d => Ok (set_object st s (Sink (log_level_ d) m me)))
  | AddSink s => with_object st s (fun _ => add_sink st s)
  | RemoveSink s => remove_sink st s
  | Message l t => message st me l t
  | Messagef l t => log_vstring st me l t
  | Log l t => log_call static st me l t
  | Logf l t => log_callf static st me l t
  | FlushAll => flush st
  end.
Fixpoint log_run (static : level) (st : log_state) (h : history) : outcome log_state :=
  match h with [] => Ok st | (me, op) :: r => do st' <- log_step static st me op; log_run static st' r end.
(** what sink [s] was told *)
Definition told (st : log_state) (s : nat) : list event := map snd (filter (fun e => fst e =? s) (events st)).
