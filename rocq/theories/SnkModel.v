(** Model of the sinks in /repo/xo/system/log_sink.cpp and of /repo/xo/system/log_format.h: what is written to the stream.
    A stream is the text it has taken, the number of bytes it can still take (None: any number) and its state; when
    there is no room the rest of the text is dropped and the stream is no longer good.  Buffering and the colours of
    the Windows console are not modelled. *)
From Coq Require Import Ascii String List Arith Bool.
From Verif Require Import Base Str StrModel LogSpec LogModel Conc.
Import ListNotations.

Record os := OS { os_text : str; os_room : option nat; os_good : bool }.
(** operator<< of a std::ostream: nothing when the stream is not good *)
Definition insert (o : os) (t : str) : os :=
  if os_good o then
    match os_room o with
    | None => OS (os_text o ++ t) None true
    | Some n => OS (os_text o ++ firstn n t) (Some (n - length t)) (length t <=? n)
    end
  else o.

(** log_format.h 12-16; flag_set with these two flags *)
Record format_flags := FF { show_time : bool; show_level : bool }.
(** log_level.h 19-21 *)
Definition level_names_short : list str :=
  [[]; lit "TRC"; lit "DBG"; lit "INF"; lit "WRN"; lit "ERR"; lit "CRT"; []].
(** log_format.h 18-25; [now] is the result of get_date_time_str( "%H:%M:%S " ) *)
Definition get_log_prefix (fmt : format_flags) (l : level) (now : str) : outcome str :=
  let s := if show_time fmt then now else [] in
  if show_level fmt then
    match nth_error level_names_short l with
    | Some n => Ok ((s ++ n) ++ lit " ")
    | None => UB
    end
  else Ok s.

Inductive kind := KStream | KConsole | KFile.
(** 73-78: the texts handed to operator<<; std::endl is a newline (and a flush) *)
Definition stream_chunks (now msg : str) : list str := [now; msg; [lf]].
(** 88-132 *)
Definition console_chunks (fmt : format_flags) (l : level) (now msg : str) : outcome (list str) :=
  do prefix <- get_log_prefix fmt l now;
  do msg_lines <- split_str msg [cr; lf];
  Ok (flat_map (fun line => [prefix; line; [lf]]) msg_lines).
(** hande_log_message: 73-78, 88-132, 142-146 *)
Definition handle (k : kind) (fmt : format_flags) (l : level) (now msg : str) (o : os) : outcome os :=
  match k with
  | KStream => Ok (fold_left insert (stream_chunks now msg) o)
  | KConsole => do cs <- console_chunks fmt l now msg; Ok (fold_left insert cs o)
  | KFile => if os_good o then Ok (fold_left insert (stream_chunks now msg) o) else Ok o
  end.
(** what the sink was told (LogModel), with the time at each message; flushing changes nothing here *)
Fixpoint sink_run (k : kind) (fmt : format_flags) (xs : list (str * event)) (o : os) : outcome os :=
  match xs with
  | [] => Ok o
  | (now, Received l t) :: r => do o' <- handle k fmt l now t o; sink_run k fmt r o'
  | (_, Flushed) :: r => sink_run k fmt r o
  end.
(** a stream that has taken nothing yet; 134-140: a file that could not be opened is not good *)
Definition fresh_stream (room : option nat) (good : bool) : os := OS [] room good.

(** * several threads, 73-78 and 88-132: [locked] is true for console sinks, which hold g_console_mutex while they write;
    log_string holds global_sink_mutex only shared (log.cpp 22), so it does not keep the threads apart.  A message is the
    list of texts it hands to operator<<; each of these calls is one step *)
Inductive spc := SIdle | SWant (b : list str) | SWrite (rest : list str).
Record sthread := ST { s_pc : spc; s_todo : list (list str) }.
Definition sholds (locked : bool) (t : sthread) : hold :=
  match s_pc t with SWrite _ => if locked then Exclusive else Free | _ => Free end.
Inductive slocal : str -> sthread -> str -> sthread -> Prop :=
| s_begin g b r : slocal g (ST SIdle (b :: r)) g (ST (SWant b) r)
| s_lock g b r : slocal g (ST (SWant b) r) g (ST (SWrite b) r)          (* 93 *)
| s_write g c cs r : slocal g (ST (SWrite (c :: cs)) r) (g ++ c) (ST (SWrite cs) r) (* 96, 125; 77 *)
| s_end g r : slocal g (ST (SWrite []) r) g (ST SIdle r).
Definition sink_threads (calls : list (list (list str))) : list sthread := map (ST SIdle) calls.
Definition sink_reach (locked : bool) (calls : list (list (list str))) (out : str) (ts : list sthread) : Prop :=
  csteps (sholds locked) slocal (fun _ _ => False) ([], sink_threads calls) (out, ts).
Definition s_finished (t : sthread) : Prop := s_pc t = SIdle /\ s_todo t = [].
