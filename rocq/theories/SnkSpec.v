(** What log sinks write; independent of log_sink.cpp. *)
From Coq Require Import Ascii String List Arith Bool.
From Verif Require Import Base Str StrSpec LogSpec.
Import ListNotations.

(** a time as text, a level and a message *)
Definition entry : Type := (str * level * text)%type.

(** stream and file sinks: the time, the message and a newline *)
Definition stream_line (e : entry) : str := match e with (now, _, msg) => now ++ msg ++ [lf] end.

(** console sinks: every non-empty line of the message on its own line, after the prefix *)
Definition breaks (c : ascii) : Prop := c = cr \/ c = lf.
Definition level_tag (l : level) : str :=
  match l with 1 => lit "TRC" | 2 => lit "DBG" | 3 => lit "INF" | 4 => lit "WRN" | 5 => lit "ERR" | 6 => lit "CRT" | _ => [] end.
Definition prefix_of (time tag : bool) (now : str) (l : level) : str :=
  (if time then now else []) ++ (if tag then level_tag l ++ lit " " else []).
Inductive console_lines (time tag : bool) : entry -> str -> Prop :=
| console_lines_intro now l msg ls : pieces breaks msg ls ->
    console_lines time tag (now, l, msg) (concat (map (fun line => prefix_of time tag now l ++ line ++ [lf]) ls)).
(** several messages, one after the other *)
Inductive console_text (time tag : bool) : list entry -> str -> Prop :=
| console_none : console_text time tag [] []
| console_next e r a b : console_lines time tag e a -> console_text time tag r b -> console_text time tag (e :: r) (a ++ b).

(** the messages a sink received, with the time at which each was written *)
Definition entry_of (x : str * event) : list entry :=
  match snd x with Received l t => [(fst x, l, t)] | Flushed => [] end.
Definition entries (xs : list (str * event)) : list entry := flat_map entry_of xs.

(** what thread [i] contributed to a history of (thread, item) *)
Definition by_thread {A} (i : nat) (h : list (nat * A)) : list A := map snd (filter (fun x => fst x =? i) h).
