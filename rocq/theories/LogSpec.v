(** What logging promises, seen from one sink; independent of the model of log.cpp. *)
From Coq Require Import Ascii List Arith Bool.
From Verif Require Import Base.
Import ListNotations.

(** levels, log_level.h 7-16: always 0, trace 1, debug 2, info 3, warning 4, error 5, critical 6, never 7 *)
Definition level := nat.
Definition never : level := 7.
Inductive sink_mode := AllThreads | CurrentThread.
Definition text := list ascii.

(** calls, made by a thread: constructing and destroying a sink, its members, add_sink, remove_sink,
    message(l, ...), messagef(l, ...), and error(...) etc. with or without format string *)
Inductive log_op :=
| Construct (s : nat) (l : level) (m : sink_mode)
| Destroy (s : nat)
| SetLevel (s : nat) (l : level)
| SetMode (s : nat) (m : sink_mode)
| AddSink (s : nat)
| RemoveSink (s : nat)
| Message (l : level) (t : text)
| Messagef (l : level) (t : text)
| Log (l : level) (t : text)
| Logf (l : level) (t : text)
| FlushAll.
Definition history := list (nat * log_op).

(** what a sink gets to see *)
Inductive event := Received (l : level) (t : text) | Flushed.

(** one sink, as long as it exists: level, mode, owner, registered *)
Definition view := option (level * sink_mode * nat * bool).
(** the text of a formatted message fits a buffer of 1024 bytes *)
Definition fits (t : text) : text := firstn 1023 t.

Definition interested (v : view) (me : nat) (l : level) : bool :=
  match v with
  | Some (sl, m, owner, true) => (sl <=? l) && match m with AllThreads => true | CurrentThread => owner =? me end
  | _ => false
  end.
Definition registered (v : view) : bool := match v with Some (_, _, _, r) => r | None => false end.

(** how a call changes the sink [s]; [None]: not allowed *)
Definition view_after (s : nat) (v : view) (me : nat) (op : log_op) : option view :=
  match op with
  | Construct s' l m => if s' =? s then match v with None => Some (Some (l, m, me, true)) | Some _ => None end else Some v
  | Destroy s' => if s' =? s then match v with None => None | Some _ => Some None end else Some v
  | SetLevel s' l => if s' =? s then match v with None => None | Some (_, m, o, _) => Some (Some (l, m, o, true)) end else Some v
  | SetMode s' m => if s' =? s then match v with None => None | Some (l, _, _, r) => Some (Some (l, m, me, r)) end else Some v
  | AddSink s' => if s' =? s then match v with None => None | Some (l, m, o, _) => Some (Some (l, m, o, true)) end else Some v
  | RemoveSink s' => if s' =? s then match v with None => Some None | Some (l, m, o, _) => Some (Some (l, m, o, false)) end else Some v
  | _ => Some v
  end.
(** what the sink sees during a call; functions below the level compiled in ([static]) do nothing *)
Definition seen (static : level) (v : view) (me : nat) (op : log_op) : list event :=
  let message l t := if interested v me l then [Received l t] else [] in
  let flushed l := if (5 <=? l) && registered v then [Flushed] else [] in
  match op with
  | Message l t => message l t
  | Messagef l t => message l (fits t)
  | Log l t => if static <=? l then message l t ++ flushed l else []
  | Logf l t => if static <=? l then message l (fits t) ++ flushed l else []
  | FlushAll => if registered v then [Flushed] else []
  | _ => []
  end.

(** calls allowed for all sinks: only existing sinks are used *)
Fixpoint allowed (s : nat) (v : view) (h : history) : Prop :=
  match h with [] => True | (me, op) :: r => exists v', view_after s v me op = Some v' /\ allowed s v' r end.
(** everything the sink sees *)
Fixpoint expected (static : level) (s : nat) (v : view) (h : history) : list event :=
  match h with
  | [] => []
  | (me, op) :: r => seen static v me op ++ match view_after s v me op with Some v' => expected static s v' r | None => [] end
  end.
