(** C36: what the profiler reports. *)
From Coq Require Import List ZArith Bool.
From Verif Require Import Base ProfSpec ProfModel ProfProofs.
Import ListNotations.
Local Open Scope Z_scope.

(** properly nested activations are accepted; afterwards there is one section per call path, with the time and the number of its activations *)
Theorem C36_sections : forall P label t0 acts t1, p_enabled P = false -> p_current P = None ->
  exists P', prof_session P label t0 (flat_map calls acts) t1 = Ok P' /\ (p_enabled P' = false /\ p_current P' = None) /\
  (exists s, nth_error (p_sections P') 0 = Some s /\ s_name s = label /\ s_total s = t1 - t0 /\ s_count s = 1%nat) /\
  (forall i s, nth_error (p_sections P') (S i) = Some s -> exists q, call_path (p_sections P') (S i) q /\
     s_total s = sum_of duration (acts_at q acts) /\ s_count s = length (acts_at q acts) /\ acts_at q acts <> []) /\
  (forall q, acts_at q acts <> [] -> exists! i, call_path (p_sections P') i q).
Proof. exact (fun P label t0 acts t1 E C => sections_assembled P label t0 acts t1 (conj E C)). Qed.
Print Assumptions C36_sections.
Theorem C36_exclusive : forall P label t0 acts t1 P', p_enabled P = false -> p_current P = None -> prof_session P label t0 (flat_map calls acts) t1 = Ok P' ->
  forall i s q, nth_error (p_sections P') i = Some s -> call_path (p_sections P') i q ->
  exclusive_time (p_sections P') i s = match q with [] => t1 - t0 - sum_of duration acts | _ => sum_of own (acts_at q acts) end.
Proof. exact (fun P label t0 acts t1 P' E C => exclusive_assembled P label t0 acts t1 P' (conj E C)). Qed.
Print Assumptions C36_exclusive.
Theorem C36_exclusive_sum : forall P label t0 acts t1 P', p_enabled P = false -> p_current P = None -> prof_session P label t0 (flat_map calls acts) t1 = Ok P' ->
  sum_of (fun x => exclusive_time (p_sections P') (fst x) (snd x)) (combine (seq 0 (length (p_sections P'))) (p_sections P')) = t1 - t0.
Proof. exact (fun P label t0 acts t1 P' E C => exclusive_sum_assembled P label t0 acts t1 P' (conj E C)). Qed.
Print Assumptions C36_exclusive_sum.
(** on a clock that does not run backwards *)
Theorem C36_exclusive_nonneg : forall P label t0 acts t1 P', p_enabled P = false -> p_current P = None -> in_order t0 acts t1 ->
  prof_session P label t0 (flat_map calls acts) t1 = Ok P' -> forall i s, nth_error (p_sections P') i = Some s -> 0 <= exclusive_time (p_sections P') i s.
Proof. exact (fun P label t0 acts t1 P' E C => nonneg_assembled P label t0 acts t1 P' (conj E C)). Qed.
Print Assumptions C36_exclusive_nonneg.

(** a section 5 that calls itself and section 6 is called twice; 6 is also called from the outside *)
Definition ex_acts := [Act 5 10 [Act 5 12 [Act 6 13 [] 15] 18; Act 6 19 [] 20] 25; Act 6 26 [] 29; Act 5 30 [] 31].
Example C36_example :
  in_order 1 ex_acts 100 /\
  prof_session prof_init 9 1 (flat_map calls ex_acts) 100 = Ok (Prof [
    Sec 9 None 99 1 1; Sec 5 (Some 0%nat) 16 30 2; Sec 5 (Some 1%nat) 6 12 1; Sec 6 (Some 2%nat) 2 13 1; Sec 6 (Some 1%nat) 1 19 1; Sec 6 (Some 0%nat) 3 26 1] None false).
Proof. split; [repeat (constructor; try (intros H; discriminate H))|reflexivity]. Qed.

(** stopping or starting in the wrong place is refused *)
Theorem C36_misuse : forall P label t0 acts n t, p_enabled P = false -> p_current P = None ->
  (exists P', (do P0 <- prof_start P label t0; prof_run P0 (flat_map calls acts ++ [Enter n t])) = Ok P' /\ (forall t', prof_stop P' t' = Throw) /\ (forall l t', prof_start P' l t' = Throw)) /\
  (forall t', prof_stop P t' = Throw).
Proof. exact (fun P label t0 acts n t E C => misuse_assembled P label t0 acts n t (conj E C)). Qed.
Print Assumptions C36_misuse.
Example C36_misuse_example : p_enabled prof_init = false /\ p_current prof_init = None.
Proof. split; reflexivity. Qed.

(** a report before anything was measured reads a section that is not there *)
Theorem C36_report_refuted : exists t, prof_report_root prof_init t = UB.
Proof. exists 0. reflexivity. Qed.
Print Assumptions C36_report_refuted.
(** leaving more sections than were entered does so as well *)
Theorem C36_unbalanced_refuted : exists label t0 ops t1, prof_session prof_init label t0 ops t1 = UB.
Proof. exists 9%nat, 0, [Leave 1], 2. reflexivity. Qed.
Print Assumptions C36_unbalanced_refuted.
