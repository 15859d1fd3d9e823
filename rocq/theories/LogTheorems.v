(** C33: messages reach exactly the interested sinks. *)
From Coq Require Import Ascii String List Arith Bool Lia.
From Verif Require Import Base BaseProofs Conc LogSpec LogModel LogProofs LogConc LogConcProofs.
Import ListNotations.

(** after any history of calls that uses existing sinks only, every sink has seen exactly the messages it was interested in, once each and in order *)
Theorem C33_delivery : forall (static : level) (h : history), (forall s, allowed s None h) ->
  exists st, log_run static log_init h = Ok st /\ forall s, told st s = expected static s None h.
Proof. exact log_assembled. Qed.
Print Assumptions C33_delivery.

Definition txt (s : string) : text := list_ascii_of_string s.
Definition log_example : history :=
  [(0, Construct 1 4 AllThreads); (0, Log 3 (txt "a")); (1, Construct 2 2 CurrentThread); (0, Log 3 (txt "b")); (1, Log 3 (txt "c"));
   (0, SetLevel 1 3); (0, Log 3 (txt "d")); (0, RemoveSink 1); (1, Logf 5 (txt "e")); (0, SetMode 2 CurrentThread); (0, Log 5 (txt "f"));
   (0, SetLevel 1 6); (0, Destroy 2); (1, Log 6 (txt "g")); (1, Log 1 (txt "h"))].
Example C33_delivery_ex : (forall s, allowed s None log_example) /\
  exists st, log_run 1 log_init log_example = Ok st /\
    told st 1 = [Received 3 (txt "d"); Received 6 (txt "g"); Flushed] /\
    told st 2 = [Received 3 (txt "c"); Received 5 (txt "e"); Flushed; Received 5 (txt "f"); Flushed].
Proof.
  split; [|vm_compute; eexists; repeat split].
  intros s. destruct (Nat.eq_dec s 1) as [->|N1]; [cbn; repeat (eexists; split; [reflexivity|]); exact I|].
  destruct (Nat.eq_dec s 2) as [->|N2]; [cbn; repeat (eexists; split; [reflexivity|]); exact I|].
  unfold log_example. repeat (exists None; split; [cbn; try reflexivity; destruct s as [|[|[|s]]]; try congruence; reflexivity|]). exact I.
Qed.

(** with threads: a message is offered to each sink registered at that time exactly once, and taken by a sink exactly if
    it is interested; the registered sinks do not change meanwhile *)
Theorem C33_threads : forall data ss low calls g ts, NoDup ss -> log_reach data ss low calls g ts ->
  (forall c l s d got, In (c, l, s, d, got) (lg_asked g) -> got = interested (Some (log_level_ d, sink_mode_ d, thread_id_ d, true)) (fst c) l) /\
  (forall c, NoDup (asked_in g c)) /\
  (forall c sinks, In (c, sinks) (lg_finished g) -> asked_in g c = sinks).
Proof. exact threads_asked_assembled. Qed.
Print Assumptions C33_threads.

(** the list of sinks is never read by one thread while another changes it *)
Theorem C33_exclusive : forall data ss low calls g ts, log_reach data ss low calls g ts ->
  race_free lholds llocal lg_sinks (fun l g => set_sinks g l) ts.
Proof. exact threads_exclusive_assembled. Qed.
Print Assumptions C33_exclusive.

(** while no thread registers, removes or changes a sink, the quick test by the lowest level drops only messages nobody wants *)
Theorem C33_quick_test : forall data ss low calls g ts, NoDup ss -> (forall s, In s ss -> low <= log_level_ (data s)) ->
  log_reach data ss low calls g ts -> (forall t, In t ts -> ~ registering t) ->
  forall s, In s (lg_sinks g) -> lg_lowest g <= log_level_ (lg_data g s).
Proof. exact threads_quiet_assembled. Qed.
Print Assumptions C33_quick_test.

Tactic Notation "thread_step" constr(i) uconstr(rule) :=
  eapply csteps_head; [eapply (cstep_thread _ _ _ _ _ i); [reflexivity|eapply rule; cbn; try (unfold never; lia); try reflexivity|
    first [exact I|left; reflexivity|right; intros [|[|j]] q N Hq; [congruence|injection Hq as <-; (reflexivity || discriminate)|destruct j; discriminate]
      |right; intros [|[|j]] q N Hq; [injection Hq as <-; (reflexivity || discriminate)|congruence|destruct j; discriminate]]]|cbn [list_set]].
Definition two_sinks (s : nat) : sink_data := if s =? 0 then Sink 1 AllThreads 0 else Sink 5 AllThreads 1.

(** a message for sink 0 is sent while sink 1 is being registered *)
Example C33_threads_ex : NoDup [0] /\ (forall s, In s [0] -> 1 <= log_level_ (two_sinks s)) /\
  exists g ts, log_reach two_sinks [0] 1 [[TMessage 3 (txt "hi")]; [TAdd 1]] g ts /\
    lg_finished g = [((0, 1), [0; 1])] /\ map (fun e => (snd (fst (fst e)), snd e)) (lg_asked g) = [(0, true); (1, false)] /\ (forall t, In t ts -> ~ registering t).
Proof.
  split; [repeat constructor; auto|]. split; [intros s [<-|[]]; cbn; lia|]. eexists _, _. split; [|split; [|split]].
  - unfold log_reach, log_threads. cbn [seq length combine map fst snd].
    thread_step 1 l_start. thread_step 0 l_start. thread_step 0 l_above. thread_step 0 l_lock_test. thread_step 0 l_test_yes.
    thread_step 1 l_lock_add. thread_step 1 l_add. thread_step 1 l_reset. thread_step 1 l_update. thread_step 1 l_update. thread_step 1 l_updated.
    thread_step 0 l_lock_send. thread_step 0 l_send. thread_step 0 l_send. thread_step 0 l_sent. apply csteps_none.
  - reflexivity.
  - reflexivity.
  - intros t [<-|[<-|[]]]; exact (fun H => H).
Qed.

(** a critical message is lost although sink 0, registered all the time, wants every message: another thread registers
    sink 1, and the lowest level, read without the lock, is reset to never for a moment *)
Theorem C33_lost_refuted : exists data ss low calls g ts,
  NoDup ss /\ (forall s, In s ss -> low <= log_level_ (data s)) /\ log_reach data ss low calls g ts /\
  In 0 ss /\ data 0 = Sink 1 AllThreads 0 /\ calls = [[TMessage 6 (txt "out of memory")]; [TAdd 1]] /\
  (forall t, In t ts -> lt_pc t = PIdle /\ lt_todo t = []) /\ lg_asked g = [].
Proof.
  exists two_sinks, [0], 1, [[TMessage 6 (txt "out of memory")]; [TAdd 1]]. eexists _, _.
  split; [repeat constructor; auto|]. split; [intros s [<-|[]]; cbn; lia|]. split; [|split; [left; reflexivity|split; [reflexivity|split; [reflexivity|split]]]].
  - unfold log_reach, log_threads. cbn [seq length combine map fst snd].
    thread_step 0 l_start. thread_step 1 l_start. thread_step 1 l_lock_add. thread_step 1 l_add. thread_step 1 l_reset.
    thread_step 0 l_below. thread_step 1 l_update. thread_step 1 l_update. thread_step 1 l_updated. apply csteps_none.
  - intros t [<-|[<-|[]]]; split; reflexivity.
  - reflexivity.
Qed.
Print Assumptions C33_lost_refuted.

(** formatted messages are cut off after 1023 bytes *)
Theorem C33_format_refuted : exists (h : history) st t, (forall s, allowed s None h) /\ h = [(0, Construct 0 1 AllThreads); (0, Messagef 3 t)] /\
  log_run 1 log_init h = Ok st /\ told st 0 <> [Received 3 t].
Proof.
  eexists [(0, Construct 0 1 AllThreads); (0, Messagef 3 (repeat "x"%char 1024))], _, _. split; [|split; [reflexivity|split; [reflexivity|]]].
  - intros [|s]; cbn; repeat (eexists; split; [reflexivity|]); exact I.
  - cbn [told]. intros H. apply (f_equal (fun l => match l with [Received _ t] => List.length t | _ => 0 end)) in H. vm_compute in H. discriminate.
Qed.
Print Assumptions C33_format_refuted.
