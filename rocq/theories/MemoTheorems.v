(** C31: memoize and memoize_thread_safe. *)
From Coq Require Import List Arith Bool Permutation Lia.
From Verif Require Import Base BaseProofs Conc MemoSpec MemoModel MemoProofs.
Import ListNotations.

(** in every interleaving, no argument is evaluated again after it was evaluated successfully *)
Theorem C31_once : forall (K V : Type) (eqb : K -> K -> bool), (forall a b, eqb a b = true <-> a = b) ->
  forall (may : K -> outcome V -> Prop) (calls : list (list K)) g ts, memo_reach eqb may calls g ts ->
  evaluated_once (mg_evals g) /\ forall k o, In (k, o) (mg_evals g) -> may k o.
Proof. exact (fun K V => @once_assembled K V). Qed.
Print Assumptions C31_once.

(** what calls return are values of evaluations, the same in all threads *)
Theorem C31_values : forall (K V : Type) (eqb : K -> K -> bool), (forall a b, eqb a b = true <-> a = b) ->
  forall (may : K -> outcome V -> Prop) (calls : list (list K)) g ts, memo_reach eqb may calls g ts ->
  (forall t k v, In t ts -> In (k, Ok v) (mt_done t) -> In (k, Ok v) (mg_evals g)) /\
  (forall t t' k v w, In t ts -> In t' ts -> In (k, Ok v) (mt_done t) -> In (k, Ok w) (mt_done t') -> v = w).
Proof. exact (fun K V => @values_assembled K V). Qed.
Print Assumptions C31_values.

(** failed evaluations and failed calls correspond one to one: failures are reported once and not kept *)
Theorem C31_failures : forall (K V : Type) (eqb : K -> K -> bool), (forall a b, eqb a b = true <-> a = b) ->
  forall (may : K -> outcome V -> Prop) (calls : list (list K)) g ts, memo_reach eqb may calls g ts ->
  Permutation (filter (fun e => negb (is_ok e)) (mg_evals g)) (filter (fun e => negb (is_ok e)) (concat (map mt_done ts))).
Proof. exact (fun K V => @failures_assembled K V). Qed.
Print Assumptions C31_failures.

(** size() counts the arguments evaluated successfully *)
Theorem C31_size : forall (K V : Type) (eqb : K -> K -> bool), (forall a b, eqb a b = true <-> a = b) ->
  forall (may : K -> outcome V -> Prop) (calls : list (list K)) g ts, memo_reach eqb may calls g ts ->
  memo_size g = length (successes (mg_evals g)).
Proof. exact (fun K V => @size_assembled K V). Qed.
Print Assumptions C31_size.

(** nobody reads or writes the stored values while a thread may write them *)
Theorem C31_exclusive : forall (K V : Type) (eqb : K -> K -> bool), (forall a b, eqb a b = true <-> a = b) ->
  forall (may : K -> outcome V -> Prop) (calls : list (list K)) g ts, memo_reach eqb may calls g ts ->
  race_free mholds (mlocal eqb may) mg_mem (fun m g => MG m (mg_evals g)) ts.
Proof. exact (fun K V => @exclusive_assembled K V). Qed.
Print Assumptions C31_exclusive.
(** what would be a race: a thread about to store, another about to look *)
Example C31_exclusive_ex : ~ race_free mholds (mlocal Nat.eqb (fun k o => o = Ok (k * k))) mg_mem (fun m g => MG m (mg_evals g)) [MT (MComputing 3) [] []; MT (MReading 3) [] []].
Proof.
  intros R. destruct (R 0 1 (MT (MComputing 3) [] []) (MT (MReading 3) [] []) ltac:(lia) eq_refl eq_refl) as [_ N].
  - exists (MG [] []), (MG [(3, 9)] [(3, Ok 9)]), (MT MIdle [] [(3, Ok 9)]). split; [apply (m_store _ _ (MG [] []) 3 [] [] 9); reflexivity|]. split; [exact I|discriminate].
  - apply N. exists (MG [(3, 9)] []), (MG [(3, 9)] []), (MT MIdle [] [(3, Ok 9)]), []. split; [apply (m_hit _ _ (MG [(3, 9)] []) 3 [] [] 9); reflexivity|].
    split; [exact I|]. intros [g H]. inversion H; subst; discriminate.
Qed.

(** no deadlock *)
Theorem C31_progress : forall (K V : Type) (eqb : K -> K -> bool) (may : K -> outcome V -> Prop),
  (forall k, exists o, o <> UB /\ may k o) ->
  forall g ts, (exists t, In t ts /\ ~ (mt_pc t = MIdle /\ mt_todo t = [])) ->
  exists s', cstep mholds (mlocal eqb may) (fun _ _ => False) (g, ts) s'.
Proof. exact (fun K V => @progress_assembled K V). Qed.
Print Assumptions C31_progress.

(** no livelock: at most five steps per call *)
Theorem C31_bounded : forall (K V : Type) (eqb : K -> K -> bool), (forall a b, eqb a b = true <-> a = b) ->
  forall (may : K -> outcome V -> Prop) (calls : list (list K)) n s',
  tsteps mholds (mlocal eqb may) (fun _ _ => False) n (memo_start calls) s' -> n <= 5 * length (concat calls).
Proof. exact (fun K V => @bounded_assembled K V). Qed.
Print Assumptions C31_bounded.

(** when all threads are through, every call has its outcome *)
Theorem C31_complete : forall (K V : Type) (eqb : K -> K -> bool), (forall a b, eqb a b = true <-> a = b) ->
  forall (may : K -> outcome V -> Prop) (calls : list (list K)) g ts, memo_reach eqb may calls g ts ->
  Forall (fun t => mt_pc t = MIdle /\ mt_todo t = []) ts -> map (fun t => map fst (mt_done t)) ts = calls.
Proof. exact (fun K V => @complete_assembled K V). Qed.
Print Assumptions C31_complete.

(** two threads miss at the same time; the first evaluation fails, the other thread's succeeds and serves the third call *)
Definition memo_may (k : nat) (o : outcome nat) : Prop := o = Throw \/ o = Ok (k * k).
Example C31_threads_ex :
  (forall k, exists o, o <> UB /\ memo_may k o) /\
  exists g ts, memo_reach Nat.eqb memo_may [[7; 7]; [7]] g ts /\
    mg_evals g = [(7, Throw); (7, Ok 49)] /\ memo_size g = 1 /\
    map mt_done ts = [[(7, Throw); (7, Ok 49)]; [(7, Ok 49)]] /\
    Forall (fun t => mt_pc t = MIdle /\ mt_todo t = []) ts.
Proof.
  split; [intros k; exists Throw; split; [discriminate|left; reflexivity]|].
  eexists _, _. split; [|split; [|split; [|split]]].
  - unfold memo_reach, memo_start. cbn [map].
    eapply csteps_head; [eapply (cstep_thread _ _ _ _ _ 0); [reflexivity|eapply m_start|right; intros [|[|j]] q N Hq; [congruence|injection Hq as <-; discriminate|destruct j; discriminate]]|cbn [list_set]].
    eapply csteps_head; [eapply (cstep_thread _ _ _ _ _ 1); [reflexivity|eapply m_start|right; intros [|[|j]] q N Hq; [injection Hq as <-; discriminate|congruence|destruct j; discriminate]]|cbn [list_set]].
    eapply csteps_head; [eapply (cstep_thread _ _ _ _ _ 0); [reflexivity|eapply m_miss; reflexivity|exact I]|cbn [list_set]].
    eapply csteps_head; [eapply (cstep_thread _ _ _ _ _ 1); [reflexivity|eapply m_miss; reflexivity|exact I]|cbn [list_set]].
    eapply csteps_head; [eapply (cstep_thread _ _ _ _ _ 0); [reflexivity|eapply m_lock|right; intros [|[|j]] q N Hq; [congruence|injection Hq as <-; reflexivity|destruct j; discriminate]]|cbn [list_set]].
    eapply csteps_head; [eapply (cstep_thread _ _ _ _ _ 0); [reflexivity|eapply m_eval; reflexivity|left; reflexivity]|cbn [list_set]].
    eapply csteps_head; [eapply (cstep_thread _ _ _ _ _ 0); [reflexivity|eapply m_fail; left; reflexivity|exact I]|cbn [list_set]].
    eapply csteps_head; [eapply (cstep_thread _ _ _ _ _ 1); [reflexivity|eapply m_lock|right; intros [|[|j]] q N Hq; [injection Hq as <-; reflexivity|congruence|destruct j; discriminate]]|cbn [list_set]].
    eapply csteps_head; [eapply (cstep_thread _ _ _ _ _ 1); [reflexivity|eapply m_eval; reflexivity|left; reflexivity]|cbn [list_set]].
    eapply csteps_head; [eapply (cstep_thread _ _ _ _ _ 1); [reflexivity|eapply m_store; right; reflexivity|exact I]|cbn [list_set]].
    eapply csteps_head; [eapply (cstep_thread _ _ _ _ _ 0); [reflexivity|eapply m_start|right; intros [|[|j]] q N Hq; [congruence|injection Hq as <-; discriminate|destruct j; discriminate]]|cbn [list_set]].
    eapply csteps_head; [eapply (cstep_thread _ _ _ _ _ 0); [reflexivity|eapply m_hit; reflexivity|exact I]|cbn [list_set]].
    apply csteps_none.
  - reflexivity.
  - reflexivity.
  - reflexivity.
  - repeat constructor.
Qed.

(** a memoized recursive function returns what the function itself returns, and evaluates each argument at most once *)
Theorem C31_recursive : forall (K V : Type) (eqb : K -> K -> bool), (forall a b, eqb a b = true <-> a = b) ->
  forall (func : K -> fprog K V) (ks : list K) (os : list (outcome V)), Forall2 (ends_with func) ks os ->
  exists n0, forall n, n0 <= n -> exists mem evals, memo_calls eqb func n ([], []) ks = ((mem, evals), os) /\
    NoDup evals /\ forall k, In k evals <-> mem_find eqb mem k <> None.
Proof. exact (fun K V eqb ok func => @recursive_assembled K V eqb ok (fun _ _ => True) func). Qed.
Print Assumptions C31_recursive.

Definition memo_fib (k : nat) : fprog nat nat :=
  match k with
  | 0 => FRet 0
  | 1 => FRet 1
  | S (S n) => FAsk (S n) (fun a => FAsk n (fun b => if n =? 13 then FFail else FRet (a + b)))
  end.
Example C31_recursive_ex :
  Forall2 (ends_with memo_fib) [12; 20; 5] [Ok 144; Throw; Ok 5] /\
  memo_calls Nat.eqb memo_fib 20 ([], []) [12; 20; 5] =
    (([(1, 1); (0, 0); (2, 1); (3, 2); (4, 3); (5, 5); (6, 8); (7, 13); (8, 21); (9, 34); (10, 55); (11, 89); (12, 144); (13, 233); (14, 377)],
      [1; 0; 2; 3; 4; 5; 6; 7; 8; 9; 10; 11; 12; 13; 14]), [Ok 144; Throw; Ok 5]).
Proof.
  split; [|vm_compute; reflexivity].
  constructor; [split; [discriminate|exists 13; vm_compute; reflexivity]|].
  constructor; [split; [discriminate|exists 21; vm_compute; reflexivity]|].
  constructor; [split; [discriminate|exists 6; vm_compute; reflexivity]|constructor].
Qed.
