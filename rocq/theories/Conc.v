(** Threads that share a std::shared_mutex: an interleaving semantics used by several models.
    A thread is a local state; the mutex is described by what each thread holds.  lock_shared() succeeds when no other
    thread holds the mutex exclusively, lock() when no other thread holds it at all; unlocking always succeeds. *)
From Coq Require Import List Arith Lia.
From Verif Require Import Base BaseProofs.
Import ListNotations.

Inductive hold := Free | Shared | Exclusive.

Section Threads.
  (** shared state, local state of a thread, what it holds, its own steps, and steps of the environment *)
  Context {G P : Type} (holds : P -> hold) (local : G -> P -> G -> P -> Prop) (env : G -> G -> Prop).

  (** thread [i] may come to hold [h'] when it holds [h] *)
  Definition lock_allows (ts : list P) (i : nat) (h h' : hold) : Prop :=
    match h' with
    | Free => True
    | Shared => h = Shared \/ forall j q, j <> i -> nth_error ts j = Some q -> holds q <> Exclusive
    | Exclusive => h = Exclusive \/ forall j q, j <> i -> nth_error ts j = Some q -> holds q = Free
    end.

  Inductive cstep : G * list P -> G * list P -> Prop :=
  | cstep_thread g ts i p g' p' :
      nth_error ts i = Some p -> local g p g' p' -> lock_allows ts i (holds p) (holds p') ->
      cstep (g, ts) (g', list_set ts i p')
  | cstep_env g g' ts : env g g' -> cstep (g, ts) (g', ts).

  Inductive csteps : G * list P -> G * list P -> Prop :=
  | csteps_none s : csteps s s
  | csteps_more s s1 s2 : csteps s s1 -> cstep s1 s2 -> csteps s s2.

  Lemma csteps_head s s1 s2 : cstep s s1 -> csteps s1 s2 -> csteps s s2.
  Proof.
    intros H1 H2. induction H2 as [|s1 s2 s3 H2 IH H3]; [eapply csteps_more; [apply csteps_none|exact H1]|].
    eapply csteps_more; [exact (IH H1)|exact H3].
  Qed.

  (** the same, counting the steps of threads *)
  Inductive tsteps : nat -> G * list P -> G * list P -> Prop :=
  | tsteps_none s : tsteps 0 s s
  | tsteps_more n s g1 ts1 i p g2 p' :
      tsteps n s (g1, ts1) -> nth_error ts1 i = Some p -> local g1 p g2 p' -> lock_allows ts1 i (holds p) (holds p') ->
      tsteps (S n) s (g2, list_set ts1 i p')
  | tsteps_env n s g1 g2 ts : tsteps n s (g1, ts) -> env g1 g2 -> tsteps n s (g2, ts).

  (** nobody holds anything while another thread has exclusive access *)
  Definition exclusive_access (ts : list P) : Prop :=
    forall i j p q, i <> j -> nth_error ts i = Some p -> nth_error ts j = Some q -> holds p = Exclusive -> holds q = Free.

  (** part of the shared state, and how to replace it: thread [i], now at [p], may change it with its next step; or what
      its next step does may depend on it *)
  Definition writes {D} (data : G -> D) (ts : list P) (i : nat) (p : P) : Prop :=
    exists g g' p', local g p g' p' /\ lock_allows ts i (holds p) (holds p') /\ data g' <> data g.
  Definition reads {D} (put : D -> G -> G) (ts : list P) (i : nat) (p : P) : Prop :=
    exists g g' p' d, local g p g' p' /\ lock_allows ts i (holds p) (holds p') /\ ~ exists g'', local (put d g) p g'' p'.
  (** no thread can read or write the data while another can write them *)
  Definition race_free {D} (data : G -> D) (put : D -> G -> G) (ts : list P) : Prop :=
    forall i j p q, i <> j -> nth_error ts i = Some p -> nth_error ts j = Some q -> writes data ts i p ->
    ~ writes data ts j q /\ ~ reads put ts j q.

  Lemma exclusive_step g ts g' ts' : cstep (g, ts) (g', ts') -> exclusive_access ts -> exclusive_access ts'.
  Proof.
    intros H X. inversion H as [? ? k p ? p' Hk Hl Ha|]; subst; [|exact X].
    assert (Lk : k < length ts) by (apply nth_error_Some; congruence).
    intros i j q r Hij Hi Hj Hq.
    destruct (Nat.eq_dec i k) as [->|Hik].
    - rewrite nth_error_list_set_eq in Hi by exact Lk. injection Hi as <-.
      rewrite nth_error_list_set_neq in Hj by congruence. rewrite Hq in Ha. cbn in Ha.
      destruct Ha as [Ha|Ha]; [exact (X k j p r Hij Hk Hj Ha)|apply (Ha j r); auto].
    - rewrite nth_error_list_set_neq in Hi by congruence. destruct (Nat.eq_dec j k) as [->|Hjk].
      + rewrite nth_error_list_set_eq in Hj by exact Lk. injection Hj as <-.
        destruct (holds p') eqn:E; [reflexivity| |]; cbn in Ha.
        * exfalso. destruct Ha as [Ha|Ha]; [|exact (Ha i q Hij Hi Hq)]. pose proof (X i k q p Hij Hi Hk Hq). congruence.
        * exfalso. destruct Ha as [Ha|Ha].
          -- pose proof (X i k q p Hij Hi Hk Hq). congruence.
          -- pose proof (Ha i q Hij Hi). congruence.
      + rewrite nth_error_list_set_neq in Hj by congruence. exact (X i j q r Hij Hi Hj Hq).
  Qed.

  Lemma exclusive_steps s s' : csteps s s' -> exclusive_access (snd s) -> exclusive_access (snd s').
  Proof.
    induction 1 as [s|s [g1 ts1] [g2 ts2] H IH Hs]; intros X; [exact X|]. eapply exclusive_step; [exact Hs|]. exact (IH X).
  Qed.

  Lemma exclusive_init ts : Forall (fun p => holds p = Free) ts -> exclusive_access ts.
  Proof.
    intros H i j p q _ _ Hj _. rewrite Forall_forall in H. apply H. eapply nth_error_In. exact Hj.
  Qed.

  (** enough: changes happen with exclusive access, and without access nothing is read except while getting it *)
  Lemma race_free_by_lock {D} (data : G -> D) (put : D -> G -> G) ts :
    exclusive_access ts ->
    (forall g p g' p', local g p g' p' -> holds p <> Exclusive -> data g' = data g) ->
    (forall g p g' p' d, local g p g' p' -> holds p = Free -> holds p' = Free -> exists g'', local (put d g) p g'' p') ->
    race_free data put ts.
  Proof.
    intros X W F i j p q N Hi Hj (g & g' & p' & L & _ & C).
    assert (holds p = Exclusive) as E.
    { destruct (holds p) eqn:E; [| |reflexivity]; destruct C; apply (W _ _ _ _ L); congruence. }
    pose proof (X i j p q N Hi Hj E) as Q. split.
    - intros (g1 & g1' & q' & L1 & _ & C1). destruct C1. apply (W _ _ _ _ L1). congruence.
    - intros (g1 & g1' & q' & d & L1 & A & B). destruct B. apply (F _ _ _ _ d L1 Q). rewrite Q in A.
      destruct (holds q'); [reflexivity| |]; cbn in A; destruct A as [A|A]; try discriminate; pose proof (A i p N Hi); congruence.
  Qed.

  (** no deadlock, when every thread can go on by itself and no thread asks for more while it holds the mutex *)
  Lemma progress (finished : P -> Prop) :
    (forall p, finished p -> holds p = Free) ->
    (forall g p, ~ finished p -> exists g' p', local g p g' p' /\ (holds p = Free \/ holds p' = Free \/ holds p' = holds p)) ->
    forall g ts, (exists i p, nth_error ts i = Some p /\ ~ finished p) -> exists s', cstep (g, ts) s'.
  Proof.
    intros Hf Hl g ts (i & p & Hi & Hp).
    assert (D : (exists j q, nth_error ts j = Some q /\ holds q <> Free) \/ Forall (fun q => holds q = Free) ts).
    { clear. induction ts as [|q ts IH]; [right; constructor|].
      destruct (holds q) eqn:E; [|left; exists 0, q; cbn; split; congruence|left; exists 0, q; cbn; split; congruence].
      destruct IH as [(j & r & Hj & Hr)|IH]; [left; exists (S j), r; auto|right; constructor; assumption]. }
    destruct D as [(j & q & Hj & Hq)|D].
    - destruct (Hl g q) as (g' & q' & H1 & H2); [intros F; apply Hq, Hf, F|].
      eexists. eapply cstep_thread; [exact Hj|exact H1|].
      destruct H2 as [H2|[H2|H2]]; [congruence|rewrite H2; exact I|rewrite H2]. destruct (holds q); cbn; auto.
    - destruct (Hl g p Hp) as (g' & p' & H1 & _). eexists. eapply cstep_thread; [exact Hi|exact H1|].
      rewrite Forall_forall in D.
      assert (forall k r, nth_error ts k = Some r -> holds r = Free) by (intros k r Hr; apply D; eapply nth_error_In; exact Hr).
      destruct (holds p'); cbn; [exact I| |]; right; intros k r _ Hr; rewrite (H k r Hr); [discriminate|reflexivity].
  Qed.

  (** executions are bounded when every step of a thread uses up something *)
  Lemma list_sum_set (m : P -> nat) : forall ts i p p', nth_error ts i = Some p ->
    list_sum (map m (list_set ts i p')) + m p = list_sum (map m ts) + m p'.
  Proof.
    induction ts as [|q ts IH]; intros [|i] p p' H; cbn in H; try discriminate.
    - injection H as ->. cbn. lia.
    - specialize (IH i p p' H). cbn. cbn in IH. unfold list_sum in *. lia.
  Qed.
  Lemma bounded (measure : P -> nat) : (forall g p g' p', local g p g' p' -> measure p' < measure p) ->
    forall n s s', tsteps n s s' -> n + list_sum (map measure (snd s')) <= list_sum (map measure (snd s)).
  Proof.
    intros Hm n s s' H. induction H as [s|n s g1 ts1 i p g2 p' H IH Hi Hl _|n s g1 g2 ts H IH _]; [lia| |exact IH]. cbn [snd] in *.
    pose proof (list_sum_set measure ts1 i p p' Hi). specialize (Hm _ _ _ _ Hl). lia.
  Qed.
End Threads.
