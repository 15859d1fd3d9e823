(** C158-C160: what log sinks write. *)
From Coq Require Import Ascii String List Arith Bool Lia.
From Verif Require Import Base BaseProofs Str StrSpec StrModel StrBase StrProofs Conc LogSpec LogModel LogProofs SnkSpec SnkModel SnkProofs.
Import ListNotations.

(** ** C158: stream and file sinks write the time, the message and a newline for every message they receive, in order, and nothing else *)
Theorem C158_stream (k : kind) (fmt : format_flags) (xs : list (str * event)) : k <> KConsole ->
  exists o, sink_run k fmt xs (fresh_stream None true) = Ok o /\ os_good o = true /\ os_text o = concat (map stream_line (entries xs)).
Proof. intros H. eexists. split; [exact (stream_run k fmt xs H [])|]. split; reflexivity. Qed.
Print Assumptions C158_stream.

(** console sinks write every non-empty line of every message on a line of its own, after a prefix with the time, the level, both or none *)
Theorem C158_console (fmt : format_flags) (xs : list (str * event)) :
  (show_level fmt = true -> Forall (fun e => snd (fst e) <= never) (entries xs)) ->
  exists o, sink_run KConsole fmt xs (fresh_stream None true) = Ok o /\ os_good o = true /\
    console_text (show_time fmt) (show_level fmt) (entries xs) (os_text o).
Proof. intros H. destruct (console_run fmt xs H []) as (w & E & T). eexists. split; [exact E|]. split; [reflexivity|exact T]. Qed.
Print Assumptions C158_console.
(** the lines of a message are all its characters except the line breaks *)
Theorem C158_console_lines (msg : str) (ls : list str) : pieces breaks msg ls ->
  concat ls = filter (fun c => negb (Ascii.eqb c cr || Ascii.eqb c lf)) msg /\ Forall (fun l => l <> [] /\ ~ In cr l /\ ~ In lf l) ls.
Proof.
  intros H. split.
  - apply (pieces_kept breaks); [|exact H]. intros c. rewrite negb_false_iff, orb_true_iff, !Ascii.eqb_eq. reflexivity.
  - assert (N : forall p : str, Forall (fun c => ~ breaks c) p -> ~ In cr p /\ ~ In lf p).
    { intros p F. rewrite Forall_forall in F. split; intros Hi; apply (F _ Hi); [left|right]; reflexivity. }
    induction H; repeat constructor; auto; apply N; assumption.
Qed.
Print Assumptions C158_console_lines.
Example C158_case :
  let xs := [(lit "10:00:00 ", Received 3 (lit "a" ++ [cr; lf; lf] ++ lit "b")); (lit "10:00:01 ", Flushed); (lit "10:00:02 ", Received 5 (lit "c"))] in
  omap os_text (sink_run KFile (FF true false) xs (fresh_stream None true)) =
    Ok (lit "10:00:00 a" ++ [cr; lf; lf] ++ lit "b" ++ [lf] ++ lit "10:00:02 c" ++ [lf]) /\
  omap os_text (sink_run KConsole (FF true false) xs (fresh_stream None true)) =
    Ok (lit "10:00:00 a" ++ [lf] ++ lit "10:00:00 b" ++ [lf] ++ lit "10:00:02 c" ++ [lf]) /\
  omap os_text (sink_run KConsole (FF false true) xs (fresh_stream None true)) =
    Ok (lit "INF a" ++ [lf] ++ lit "INF b" ++ [lf] ++ lit "ERR c" ++ [lf]).
Proof. vm_compute. auto. Qed.
(** the format set for a stream or file sink is ignored, and a message without text leaves no trace on the console *)
Theorem C158_refuted : (forall fmt now l msg o, handle KStream fmt l now msg o = handle KStream (FF true false) l now msg o) /\
  (exists now l msg, omap os_text (handle KFile (FF false false) l now msg (fresh_stream None true)) <> Ok (msg ++ [lf])) /\
  forall fmt now l msg o, l <= never -> Forall breaks msg -> handle KConsole fmt l now msg o = Ok o.
Proof.
  split; [reflexivity|]. split; [exists (lit "t"), 3, []; vm_compute; discriminate|]. intros fmt now l msg o Hl H. cbn [handle].
  destruct (console_ok fmt l now msg (fun _ => Hl)) as (cs & E & L). unfold console_chunks in *. rewrite (prefix_ok fmt l now (fun _ => Hl)) in *. cbn [obind] in *.
  replace (split_str msg [cr; lf]) with (@Ok (list str) []); [reflexivity|]. symmetry. apply split_str_iff; [vm_compute; intuition discriminate|].
  constructor. eapply Forall_impl; [|exact H]. intros a. apply breaks_iff.
Qed.
Print Assumptions C158_refuted.

(** together with the log: a file sink of level [l], constructed first, ends up with exactly the messages of level [l] or more, of all threads, in order *)
Theorem C158_log_file (static : level) (me s : nat) (l : level) (ms : list (nat * (level * text))) (times : list str) (fmt : format_flags) :
  let sent := filter (fun x => l <=? fst (snd x)) ms in
  length times = length sent ->
  exists st o, log_run static log_init ((me, Construct s l AllThreads) :: map message_call ms) = Ok st /\
    sink_run KFile fmt (combine times (told st s)) (fresh_stream None true) = Ok o /\
    os_text o = concat (map (fun x => fst x ++ snd (snd (snd x)) ++ [lf]) (combine times sent)).
Proof.
  intros sent Hl.
  destruct (log_assembled static ((me, Construct s l AllThreads) :: map message_call ms)) as (st & E & T).
  { intros s'. cbn [allowed view_after]. destruct (s =? s'); eexists; (split; [reflexivity|]); apply messages_allowed. }
  exists st. specialize (T s). cbn [expected seen view_after] in T. rewrite Nat.eqb_refl in T. cbn [app] in T. rewrite messages_seen in T. fold sent in T.
  rewrite T. eexists. split; [exact E|]. split; [exact (stream_run KFile fmt _ ltac:(discriminate) [])|]. cbn [os_text app].
  clear -Hl. clearbody sent. revert times Hl. induction sent as [|[i [lv t]] sent IH]; intros [|now times] Hl; try discriminate; [reflexivity|].
  cbn [map combine]. unfold entries in *. cbn [flat_map entry_of fst snd app map concat]. rewrite IH by (cbn in Hl; lia). reflexivity.
Qed.
Print Assumptions C158_log_file.
Example C158_log_file_case :
  let ms := [(0, (2, lit "x")); (1, (4, lit "y")); (0, (3, lit "z"))] in
  length [lit "1 "; lit "2 "] = length (filter (fun x => 3 <=? fst (snd x)) ms) /\
  concat (map (fun x => fst x ++ snd (snd (snd x)) ++ [lf]) (combine [lit "1 "; lit "2 "] (filter (fun x => 3 <=? fst (snd x)) ms))) =
    lit "1 y" ++ [lf] ++ lit "2 z" ++ [lf].
Proof. vm_compute. auto. Qed.

(** ** C159: when the device takes only [n] bytes, what is kept are the first [n] bytes; no sink throws, and no later message is written *)
Theorem C159_full_device (k : kind) (fmt : format_flags) (n : nat) (xs : list (str * event)) :
  (k = KConsole -> show_level fmt = true -> Forall (fun e => snd (fst e) <= never) (entries xs)) ->
  exists o o', sink_run k fmt xs (fresh_stream None true) = Ok o /\ sink_run k fmt xs (fresh_stream (Some n) true) = Ok o' /\
    os_text o' = firstn n (os_text o) /\ (os_good o' = true <-> length (os_text o) <= n).
Proof.
  intros H. destruct (run_ok k fmt xs H (fresh_stream None true)) as [o E]. destruct (run_ok k fmt xs H (fresh_stream (Some n) true)) as [o' E'].
  exists o, o'. split; [exact E|]. split; [exact E'|].
  assert (F : filled n (os_text o) o').
  { refine (filled_run k fmt n xs [] _ _ _ _ E E'). split; [destruct n; reflexivity|]. split; [intros _; cbn; split; [f_equal|]; lia|discriminate]. }
  destruct F as (F1 & F2 & F3). split; [exact F1|]. destruct (os_good o') eqn:G; split; intros Q; try reflexivity; try discriminate.
  - apply F2. reflexivity.
  - specialize (F3 eq_refl). lia.
Qed.
Print Assumptions C159_full_device.
Example C159_case :
  let xs := [(lit "1 ", Received 3 (lit "abc")); (lit "2 ", Received 3 (lit "d"))] in
  omap os_text (sink_run KFile (FF true false) xs (fresh_stream (Some 4) true)) = Ok (lit "1 ab").
Proof. reflexivity. Qed.
(** a file that cannot be opened takes no message, and nobody is told *)
Theorem C159_not_opened (k : kind) (fmt : format_flags) (room : option nat) (xs : list (str * event)) : k <> KConsole ->
  exists o, sink_run k fmt xs (fresh_stream room false) = Ok o /\ os_text o = [].
Proof.
  intros H. destruct (run_ok k fmt xs (fun E => False_ind _ (H E)) (fresh_stream room false)) as [o E]. exists o. split; [exact E|].
  exact (unopened k fmt xs room o H E).
Qed.
Print Assumptions C159_not_opened.

(** ** C160: console sinks of several threads write whole messages, one after the other, each thread's in its order *)
Theorem C160_whole (calls : list (list (list str))) (out : str) (ts : list sthread) : sink_reach true calls out ts ->
  exists (h : list (nat * list str)) (w : list str), out = concat (map (fun x => concat (snd x)) h) ++ concat w /\
    (forall i l, nth_error calls i = Some l -> exists r, l = by_thread i h ++ r) /\
    (w = [] \/ exists i r l, nth_error calls i = Some (by_thread i h ++ (w ++ r) :: l)) /\
    (Forall s_finished ts -> w = [] /\ forall i l, nth_error calls i = Some l -> l = by_thread i h).
Proof. exact (whole_messages calls out ts). Qed.
Print Assumptions C160_whole.
(** the console is never written by two threads at a time, and no thread waits for ever *)
Theorem C160_exclusive (calls : list (list (list str))) (out : str) (ts : list sthread) : sink_reach true calls out ts ->
  race_free (sholds true) slocal (fun g => g) (fun d _ => d) ts /\
  (Exists (fun t => ~ s_finished t) ts -> exists s', cstep (sholds true) slocal (fun _ _ => False) (out, ts) s').
Proof. intros H. split; [exact (console_race_free calls out ts H)|exact (sink_progress true calls out ts H)]. Qed.
Print Assumptions C160_exclusive.

Definition two_calls : list (list (list str)) := [[stream_chunks (lit "1 ") (lit "a")]; [stream_chunks (lit "2 ") (lit "b")]].
Tactic Notation "sink_step" constr(i) uconstr(rule) :=
  eapply csteps_head; [eapply (cstep_thread _ _ _ _ _ i); [reflexivity|apply rule|
    first [exact I|left; reflexivity|right; intros [|[|j]] q N Hq; [congruence|injection Hq as <-; reflexivity|destruct j; discriminate]
      |right; intros [|[|j]] q N Hq; [injection Hq as <-; reflexivity|congruence|destruct j; discriminate]]]|cbn [list_set]].
Example C160_case : exists ts, sink_reach true two_calls (lit "2 b" ++ [lf] ++ lit "1 a" ++ [lf]) ts /\ Forall s_finished ts.
Proof.
  eexists. split.
  - unfold sink_reach, two_calls, sink_threads, stream_chunks. cbn [map].
    sink_step 0 s_begin. sink_step 1 s_begin. sink_step 1 s_lock. sink_step 1 s_write. sink_step 1 s_write. sink_step 1 s_write. sink_step 1 s_end.
    sink_step 0 s_lock. sink_step 0 s_write. sink_step 0 s_write. sink_step 0 s_write. sink_step 0 s_end. apply csteps_none.
  - repeat constructor.
Qed.
(** without the lock, as in stream and file sinks, the messages of two threads can be mixed, and the stream is written by two threads at a time *)
Theorem C160_stream_refuted :
  (exists ts, sink_reach false two_calls (lit "1 2 ab" ++ [lf; lf]) ts /\ Forall s_finished ts) /\
  (exists out ts, sink_reach false two_calls out ts /\ ~ race_free (sholds false) slocal (fun g => g) (fun d _ => d) ts) /\
  forall (h : list (nat * list str)), (forall i l, nth_error two_calls i = Some l -> l = by_thread i h) -> Forall (fun x => fst x < 2) h ->
    concat (map (fun x => concat (snd x)) h) <> lit "1 2 ab" ++ [lf; lf].
Proof.
  split; [|split].
  - eexists. split.
    + unfold sink_reach, two_calls, sink_threads, stream_chunks. cbn [map].
      sink_step 0 s_begin. sink_step 1 s_begin. sink_step 1 s_lock. sink_step 0 s_lock. sink_step 0 s_write. sink_step 1 s_write. sink_step 0 s_write. sink_step 1 s_write.
      sink_step 0 s_write. sink_step 1 s_write. sink_step 0 s_end. sink_step 1 s_end. apply csteps_none.
    + repeat constructor.
  - eexists _, _. split.
    + unfold sink_reach, two_calls, sink_threads, stream_chunks. cbn [map].
      sink_step 0 s_begin. sink_step 1 s_begin. sink_step 1 s_lock. sink_step 0 s_lock. apply csteps_none.
    + intros R. unfold race_free in R.
      assert (W : forall i c cs r, writes (sholds false) slocal (fun g : str => g) [ST (SWrite (stream_chunks (lit "1 ") (lit "a"))) []; ST (SWrite (stream_chunks (lit "2 ") (lit "b"))) []] i (ST (SWrite ((c :: lit " ") :: cs)) r)).
      { intros i c cs r. eexists [], _, _. split; [constructor|]. split; [exact I|]. discriminate. }
      destruct (R 0 1 _ _ ltac:(discriminate) eq_refl eq_refl (W 0 "1"%char _ _)) as [N _]. exact (N (W 1 "2"%char _ _)).
  - intros h H B. pose proof (H 0 _ eq_refl) as H0. pose proof (H 1 _ eq_refl) as H1. clear H.
    destruct h as [|[i b] h]; [discriminate|]. inversion B as [|? ? Bi Bh]; subst. cbn [fst] in Bi.
    assert (i = 0 \/ i = 1) as [-> | ->] by lia; unfold by_thread in H0, H1; cbn in H0, H1.
    + injection H0 as <- H0. cbn. discriminate.
    + injection H1 as <- H1. cbn. discriminate.
Qed.
Print Assumptions C160_stream_refuted.
