(** Proofs about memoize. *)
From Coq Require Import List Arith Bool Lia Permutation.
From Verif Require Import Base BaseProofs Conc MemoSpec MemoModel.
Import ListNotations.

Section Memo.
  Context {K V : Type} (eqb : K -> K -> bool) (eqb_ok : forall a b, eqb a b = true <-> a = b).

  Lemma eqb_refl k : eqb k k = true.
  Proof. apply eqb_ok. reflexivity. Qed.
  Lemma eqb_neq a b : a <> b -> eqb a b = false.
  Proof. intros H. destruct (eqb a b) eqn:E; [apply eqb_ok in E; contradiction|reflexivity]. Qed.

  Lemma find_set_eq (m : list (K * V)) k v : mem_find eqb (mem_set eqb m k v) k = Some v.
  Proof.
    induction m as [|[k' v'] m IH]; cbn; [rewrite eqb_refl; reflexivity|].
    destruct (eqb k' k) eqn:E; cbn; rewrite E; [reflexivity|exact IH].
  Qed.
  Lemma find_set_neq (m : list (K * V)) k k2 v : k <> k2 -> mem_find eqb (mem_set eqb m k v) k2 = mem_find eqb m k2.
  Proof.
    intros H. induction m as [|[k' v'] m IH]; cbn; [rewrite (eqb_neq _ _ H); reflexivity|].
    destruct (eqb k' k) eqn:E; cbn; [|destruct (eqb k' k2); [reflexivity|exact IH]].
    apply eqb_ok in E. subst k'. rewrite (eqb_neq _ _ H). reflexivity.
  Qed.
  Lemma set_new_length (m : list (K * V)) k v : mem_find eqb m k = None -> length (mem_set eqb m k v) = S (length m).
  Proof.
    induction m as [|[k' v'] m IH]; cbn; [reflexivity|]. destruct (eqb k' k) eqn:E; [discriminate|]. cbn. intros H. rewrite IH by exact H. reflexivity.
  Qed.

  (** ** Threads *)
  Context (may : K -> outcome V -> Prop) (calls : list (list K)).

  Definition failures (l : list (K * outcome V)) : list (K * outcome V) := filter (fun e => negb (is_ok e)) l.
  Definition pc_key (p : mpc (K := K)) : list K :=
    match p with MIdle => [] | MReading k | MWanting k | MWriting k | MComputing k => [k] end.

  Record inv (g : mglobal (K := K) (V := V)) (ts : list mthread) : Prop := {
    inv_excl : exclusive_access mholds ts;
    inv_once : evaluated_once (mg_evals g);
    inv_mem : forall k v, mem_find eqb (mg_mem g) k = Some v <-> In (k, Ok v) (mg_evals g);
    inv_size : length (mg_mem g) = length (successes (mg_evals g));
    inv_comp : forall i t k, nth_error ts i = Some t -> mt_pc t = MComputing k -> mem_find eqb (mg_mem g) k = None;
    inv_res : forall i t k v, nth_error ts i = Some t -> In (k, Ok v) (mt_done t) -> In (k, Ok v) (mg_evals g);
    inv_fail : Permutation (failures (mg_evals g)) (failures (concat (map mt_done ts)));
    inv_may : forall k o, In (k, o) (mg_evals g) -> may k o /\ o <> UB;
    inv_len : length ts = length calls;
    inv_all : forall i t l, nth_error ts i = Some t -> nth_error calls i = Some l -> map fst (mt_done t) ++ pc_key (mt_pc t) ++ mt_todo t = l
  }.

  Lemma concat_set {B} (f : mthread (K := K) (V := V) -> list B) x : forall (ts : list (mthread (K := K) (V := V))) i p p', nth_error ts i = Some p -> f p' = f p ++ x ->
    Permutation (concat (map f (list_set ts i p'))) (concat (map f ts) ++ x).
  Proof.
    induction ts as [|q ts IH]; intros [|i] p p' H E; cbn in H; try discriminate.
    - injection H as ->. cbn. rewrite E, <- !app_assoc. apply Permutation_app_head. apply Permutation_app_comm.
    - cbn. rewrite <- app_assoc. apply Permutation_app_head. exact (IH i p p' H E).
  Qed.
  Lemma filter_perm {B} (f : B -> bool) a b : Permutation a b -> Permutation (filter f a) (filter f b).
  Proof.
    induction 1; cbn; [constructor|destruct (f x); [constructor|]; assumption| |eapply perm_trans; eassumption].
    destruct (f x), (f y); try apply Permutation_refl. apply perm_swap.
  Qed.
  Lemma failures_set (ts : list (mthread (K := K) (V := V))) i p p' x : nth_error ts i = Some p -> mt_done p' = mt_done p ++ x ->
    Permutation (failures (concat (map mt_done (list_set ts i p')))) (failures (concat (map mt_done ts)) ++ failures x).
  Proof.
    intros H E. unfold failures. rewrite <- filter_app. apply filter_perm. apply (concat_set mt_done x ts i p p' H E).
  Qed.

  Lemma once_app (l : list (K * outcome V)) k o : evaluated_once l -> (forall v, ~ In (k, Ok v) l) -> evaluated_once (l ++ [(k, o)]).
  Proof.
    intros H Hn i j k' v o' Hi Hj.
    assert (Li : i < length (l ++ [(k, o)])) by (apply nth_error_Some; congruence).
    assert (Lj : j < length (l ++ [(k, o)])) by (apply nth_error_Some; congruence).
    rewrite app_length in Li, Lj. cbn in Li, Lj.
    destruct (Nat.eq_dec i (length l)) as [->|Ni]; [lia|].
    rewrite nth_error_app1 in Hi by lia. destruct (Nat.eq_dec j (length l)) as [->|Nj].
    - rewrite nth_error_app2, Nat.sub_diag in Hj by lia. cbn in Hj. injection Hj as -> _. exfalso. apply (Hn v). eapply nth_error_In. exact Hi.
    - rewrite nth_error_app1 in Hj by lia. exact (H i j k' v o' Hi Hj).
  Qed.

  Lemma inv_init : inv (fst (memo_start calls)) (snd (memo_start calls)).
  Proof.
    cbn [memo_start fst snd]. constructor; cbn [mg_evals mg_mem].
    - apply exclusive_init. apply Forall_forall. intros p Hp. apply in_map_iff in Hp. destruct Hp as (l & <- & _). reflexivity.
    - intros [|i] j k v o H; discriminate.
    - intros k v. cbn. split; [discriminate|contradiction].
    - reflexivity.
    - intros i t k Hi. rewrite nth_error_map in Hi. destruct (nth_error calls i); [|discriminate]. injection Hi as <-. discriminate.
    - intros i t k v Hi. rewrite nth_error_map in Hi. destruct (nth_error calls i); [|discriminate]. injection Hi as <-. contradiction.
    - assert (concat (map mt_done (map (fun l : list K => MT (V := V) MIdle l []) calls)) = []) as ->; [|constructor].
      induction calls as [|l c IH]; [reflexivity|exact IH].
    - contradiction.
    - apply map_length.
    - intros i t l Hi Hl. rewrite nth_error_map, Hl in Hi. injection Hi as <-. reflexivity.
  Qed.

  Lemma inv_step g ts g' ts' : inv g ts -> cstep mholds (mlocal eqb may) (fun _ _ => False) (g, ts) (g', ts') -> inv g' ts'.
  Proof.
    intros I St. pose proof (exclusive_step _ _ _ _ _ _ _ St (inv_excl _ _ I)) as X.
    inversion St as [? ? i p ? p' Hi Hl Ha|]; subst; [|contradiction].
    assert (Li : i < length ts) by (apply nth_error_Some; congruence).
    assert (Nth : forall j t, nth_error (list_set ts i p') j = Some t -> (j = i /\ t = p') \/ (j <> i /\ nth_error ts j = Some t)).
    { intros j t H. destruct (Nat.eq_dec j i) as [->|N].
      - rewrite nth_error_list_set_eq in H by exact Li. injection H as <-. auto.
      - rewrite nth_error_list_set_neq in H by congruence. auto. }
    (* threads that neither touch the shared state nor finish a call *)
    assert (Quiet : g' = g -> mt_done p' = mt_done p -> pc_key (mt_pc p') ++ mt_todo p' = pc_key (mt_pc p) ++ mt_todo p ->
      (forall k, mt_pc p' = MComputing k -> mem_find eqb (mg_mem g) k = None) -> inv g' (list_set ts i p')).
    { intros -> E1 E2 E3. constructor; try apply I; [exact X| | | | |].
      - intros j t k H. destruct (Nth _ _ H) as [[-> ->]|[_ H']]; [apply E3|apply (inv_comp _ _ I _ _ _ H')].
      - intros j t k v H. destruct (Nth _ _ H) as [[-> ->]|[_ H']]; [rewrite E1; apply (inv_res _ _ I _ _ _ _ Hi)|apply (inv_res _ _ I _ _ _ _ H')].
      - eapply Permutation_trans; [apply I|]. rewrite <- (app_nil_r (failures (concat (map mt_done ts)))).
        apply Permutation_sym. apply (failures_set ts i p p' [] Hi). rewrite app_nil_r. exact E1.
      - rewrite list_set_length. apply I.
      - intros j t l H. destruct (Nth _ _ H) as [[-> ->]|[_ H']]; [|apply (inv_all _ _ I _ _ _ H')].
        intros Hl2. rewrite E1, E2. apply (inv_all _ _ I i p l Hi Hl2). }
    (* calls that return a stored value *)
    assert (Hit : forall k v, g' = g -> mem_find eqb (mg_mem g) k = Some v -> mt_done p' = mt_done p ++ [(k, Ok v)] -> mt_pc p' = MIdle ->
      pc_key (mt_pc p) = [k] -> mt_todo p' = mt_todo p -> inv g' (list_set ts i p')).
    { intros k v -> F E1 E2 E3 E4. constructor; try apply I; [exact X| | | | |].
      - intros j t k' H. destruct (Nth _ _ H) as [[-> ->]|[_ H']]; [congruence|apply (inv_comp _ _ I _ _ _ H')].
      - intros j t k' v' H. destruct (Nth _ _ H) as [[-> ->]|[_ H']]; [|apply (inv_res _ _ I _ _ _ _ H')].
        rewrite E1, in_app_iff. intros [Hd|[Hd|[]]]; [apply (inv_res _ _ I _ _ _ _ Hi Hd)|]. injection Hd as -> ->. apply (inv_mem _ _ I). exact F.
      - eapply Permutation_trans; [apply I|]. rewrite <- (app_nil_r (failures (concat (map mt_done ts)))).
        apply Permutation_sym. apply (failures_set ts i p p' [(k, Ok v)] Hi). exact E1.
      - rewrite list_set_length. apply I.
      - intros j t l H. destruct (Nth _ _ H) as [[-> ->]|[_ H']]; [|apply (inv_all _ _ I _ _ _ H')].
        intros Hl2. rewrite E1, E2, E4. pose proof (inv_all _ _ I i p l Hi Hl2) as A. rewrite E3 in A. rewrite map_app. cbn [map fst pc_key app] in *.
        rewrite <- app_assoc. exact A. }
    (* no other thread computes *)
    assert (Alone : mholds p = Exclusive -> forall j t k, j <> i -> nth_error ts j = Some t -> mt_pc t <> MComputing k).
    { intros E j t k N Hj Ep. pose proof (inv_excl _ _ I i j p t ltac:(congruence) Hi Hj E) as Q. unfold mholds in Q. rewrite Ep in Q. discriminate. }
    inversion Hl; subst; clear Hl.
    - apply Quiet; cbn; auto; discriminate.
    - eapply Hit; cbn; eauto.
    - apply Quiet; cbn; auto; discriminate.
    - apply Quiet; cbn; auto; discriminate.
    - eapply Hit; cbn; eauto.
    - apply Quiet; cbn; auto. intros k' [= <-]. assumption.
    - rename H into Hmay. pose proof (inv_comp _ _ I i _ k Hi eq_refl) as Nk.
      assert (Nin : forall v', ~ In (k, Ok v') (mg_evals g)) by (intros v' C; apply (inv_mem _ _ I) in C; congruence).
      constructor; cbn [mg_mem mg_evals]; [exact X| | | | | | | | |].
      + apply once_app; [apply I|exact Nin].
      + intros k' v'. rewrite in_app_iff. cbn [In]. split.
        * intros F. assert (D : k' = k \/ k' <> k) by (destruct (eqb k' k) eqn:Ek; [left; apply eqb_ok; exact Ek|right; intros ->; rewrite eqb_refl in Ek; discriminate]).
          destruct D as [->|D]; [rewrite find_set_eq in F; injection F as ->; auto|]. rewrite find_set_neq in F by congruence. left. apply (inv_mem _ _ I). exact F.
        * intros [F|[F|[]]]; [|injection F as <- <-; apply find_set_eq].
          assert (k <> k') by (intros <-; exact (Nin _ F)). rewrite find_set_neq by assumption. apply (inv_mem _ _ I). exact F.
      + rewrite set_new_length by exact Nk. unfold successes. rewrite filter_app, app_length. cbn. rewrite (inv_size _ _ I). unfold successes. lia.
      + intros j t k' H. destruct (Nth _ _ H) as [[-> ->]|[N H']]; [discriminate|]. intros E. exfalso. exact (Alone eq_refl j t k' N H' E).
      + intros j t k' v' H. rewrite in_app_iff. destruct (Nth _ _ H) as [[-> ->]|[N H']]; [|intros Q; left; apply (inv_res _ _ I _ _ _ _ H' Q)].
        cbn [mt_done]. rewrite in_app_iff. intros [Q|Q]; [left; apply (inv_res _ _ I _ _ _ _ Hi Q)|right; exact Q].
      + unfold failures at 1. rewrite filter_app. cbn [filter is_ok snd negb]. rewrite app_nil_r. eapply Permutation_trans; [apply I|].
        rewrite <- (app_nil_r (failures (concat (map mt_done ts)))).
        apply Permutation_sym. apply (failures_set ts i _ _ [(k, Ok v)] Hi). reflexivity.
      + intros k' o'. rewrite in_app_iff. intros [Q|[Q|[]]]; [apply (inv_may _ _ I); exact Q|]. injection Q as <- <-. split; [assumption|discriminate].
      + rewrite list_set_length. apply I.
      + intros j t l H. destruct (Nth _ _ H) as [[-> ->]|[_ H']]; [|apply (inv_all _ _ I _ _ _ H')].
        intros Hl2. pose proof (inv_all _ _ I i _ l Hi Hl2) as A. cbn [mt_done mt_pc mt_todo pc_key app] in *. rewrite map_app, <- app_assoc. exact A.
    - rename H into Hmay. pose proof (inv_comp _ _ I i _ k Hi eq_refl) as Nk.
      assert (Nin : forall v', ~ In (k, Ok v') (mg_evals g)) by (intros v' C; apply (inv_mem _ _ I) in C; congruence).
      constructor; cbn [mg_mem mg_evals]; [exact X| | | | | | | | |].
      + apply once_app; [apply I|exact Nin].
      + intros k' v'. rewrite in_app_iff. cbn [In]. rewrite (inv_mem _ _ I). split; [auto|]. intros [Q|[Q|[]]]; [exact Q|discriminate].
      + unfold successes. rewrite filter_app, app_length. cbn. rewrite (inv_size _ _ I). unfold successes. lia.
      + intros j t k' H. destruct (Nth _ _ H) as [[-> ->]|[N H']]; [discriminate|]. intros E. exfalso. exact (Alone eq_refl j t k' N H' E).
      + intros j t k' v' H. rewrite in_app_iff. destruct (Nth _ _ H) as [[-> ->]|[N H']]; [|intros Q; left; apply (inv_res _ _ I _ _ _ _ H' Q)].
        cbn [mt_done]. rewrite in_app_iff. intros [Q|Q]; [left; apply (inv_res _ _ I _ _ _ _ Hi Q)|right; exact Q].
      + unfold failures at 1. rewrite filter_app. cbn [filter is_ok snd negb]. eapply Permutation_trans; [apply Permutation_app_tail; apply I|].
        apply Permutation_sym. apply (failures_set ts i _ _ [(k, Throw)] Hi). reflexivity.
      + intros k' o'. rewrite in_app_iff. intros [Q|[Q|[]]]; [apply (inv_may _ _ I); exact Q|]. injection Q as <- <-. split; [assumption|discriminate].
      + rewrite list_set_length. apply I.
      + intros j t l H. destruct (Nth _ _ H) as [[-> ->]|[_ H']]; [|apply (inv_all _ _ I _ _ _ H')].
        intros Hl2. pose proof (inv_all _ _ I i _ l Hi Hl2) as A. cbn [mt_done mt_pc mt_todo pc_key app] in *. rewrite map_app, <- app_assoc. exact A.
  Qed.

  Lemma inv_reach g ts : memo_reach eqb may calls g ts -> inv g ts.
  Proof.
    unfold memo_reach. intros H. remember (memo_start calls) as s eqn:Es. remember (g, ts) as s' eqn:Es'.
    revert g ts Es'. induction H as [s|s [g1 ts1] s2 H IH Hs]; intros g ts ->.
    - pose proof inv_init as I. rewrite <- Es in I. exact I.
    - eapply inv_step; [apply IH; [exact Es|reflexivity]|exact Hs].
  Qed.

  Lemma NoDup_app_intro {B} (a b : list B) : NoDup a -> NoDup b -> (forall x, In x a -> ~ In x b) -> NoDup (a ++ b).
  Proof.
    induction 1 as [|x a Hx Ha IH]; intros Hb Hd; [exact Hb|]. cbn. constructor.
    - rewrite in_app_iff. intros [Q|Q]; [contradiction|]. exact (Hd x (or_introl eq_refl) Q).
    - apply IH; [exact Hb|]. intros y Hy. apply Hd. right. exact Hy.
  Qed.

  Lemma once_assembled g ts : memo_reach eqb may calls g ts ->
    evaluated_once (mg_evals g) /\ forall k o, In (k, o) (mg_evals g) -> may k o.
  Proof. intros H. apply inv_reach in H. split; [apply H|]. intros k o Q. apply (inv_may _ _ H k o Q). Qed.

  Lemma once_unique (l : list (K * outcome V)) k v w : evaluated_once l -> In (k, Ok v) l -> In (k, Ok w) l -> v = w.
  Proof.
    intros H Hv Hw. apply In_nth_error in Hv, Hw. destruct Hv as [i Hi], Hw as [j Hj].
    pose proof (H i j k v _ Hi Hj). pose proof (H j i k w _ Hj Hi). assert (i = j) as -> by lia. congruence.
  Qed.

  Lemma values_assembled g ts : memo_reach eqb may calls g ts ->
    (forall t k v, In t ts -> In (k, Ok v) (mt_done t) -> In (k, Ok v) (mg_evals g)) /\
    (forall t t' k v w, In t ts -> In t' ts -> In (k, Ok v) (mt_done t) -> In (k, Ok w) (mt_done t') -> v = w).
  Proof.
    intros H. apply inv_reach in H.
    assert (A : forall t k v, In t ts -> In (k, Ok v) (mt_done t) -> In (k, Ok v) (mg_evals g)).
    { intros t k v Ht. apply In_nth_error in Ht. destruct Ht as [i Hi]. apply (inv_res _ _ H i t k v Hi). }
    split; [exact A|]. intros t t' k v w Ht Ht' Hv Hw. eapply once_unique; [apply H|exact (A _ _ _ Ht Hv)|exact (A _ _ _ Ht' Hw)].
  Qed.

  Lemma failures_assembled g ts : memo_reach eqb may calls g ts ->
    Permutation (filter (fun e => negb (is_ok e)) (mg_evals g)) (filter (fun e => negb (is_ok e)) (concat (map mt_done ts))).
  Proof. intros H. apply inv_reach in H. apply H. Qed.

  Lemma size_assembled g ts : memo_reach eqb may calls g ts -> memo_size g = length (successes (mg_evals g)).
  Proof. intros H. apply inv_reach in H. apply H. Qed.

  Definition mfinished (t : mthread (K := K) (V := V)) : Prop := mt_pc t = MIdle /\ mt_todo t = [].

  Lemma complete_assembled g ts : memo_reach eqb may calls g ts -> Forall mfinished ts -> map (fun t => map fst (mt_done t)) ts = calls.
  Proof.
    intros H F. apply inv_reach in H. rewrite Forall_forall in F.
    pose proof (inv_len _ _ H) as L. pose proof (inv_all _ _ H) as A.
    assert (F' : forall i t, nth_error ts i = Some t -> mfinished t) by (intros i t Hi; apply F; eapply nth_error_In; exact Hi).
    clear H F. revert L A F'. generalize calls. induction ts as [|t ts IH]; intros [|l c] L A F'; try discriminate; [reflexivity|].
    cbn [map]. f_equal.
    - destruct (F' 0 t eq_refl) as [E1 E2]. rewrite <- (A 0 t l eq_refl eq_refl), E1, E2. cbn [pc_key app]. rewrite app_nil_r. reflexivity.
    - apply IH; [injection L as L; exact L|intros i; exact (A (S i))|intros i; exact (F' (S i))].
  Qed.

  Lemma progress_assembled : (forall k, exists o, o <> UB /\ may k o) ->
    forall g ts, (exists t, In t ts /\ ~ mfinished t) -> exists s', cstep mholds (mlocal eqb may) (fun _ _ => False) (g, ts) s'.
  Proof.
    intros Hm g ts (t & Ht & Hf). apply (progress mholds (mlocal eqb may) (fun _ _ => False) mfinished).
    - intros [pc todo d] [E _]. cbn in E. subst pc. reflexivity.
    - intros g0 [pc todo d] Hn. destruct pc as [|k|k|k|k].
      + destruct todo as [|k r]; [exfalso; apply Hn; split; reflexivity|]. do 2 eexists. split; [apply m_start|left; reflexivity].
      + destruct (mem_find eqb (mg_mem g0) k) as [v|] eqn:E; do 2 eexists; (split; [first [apply m_hit; exact E|apply m_miss; exact E]|right; left; reflexivity]).
      + do 2 eexists. split; [apply m_lock|left; reflexivity].
      + destruct (mem_find eqb (mg_mem g0) k) as [v|] eqn:E.
        * do 2 eexists. split; [apply m_late; exact E|right; left; reflexivity].
        * do 2 eexists. split; [apply m_eval; exact E|right; right; reflexivity].
      + destruct (Hm k) as ([v| |] & Ho & Hk); [| |congruence]; do 2 eexists; (split; [first [apply m_store; exact Hk|apply m_fail; exact Hk]|right; left; reflexivity]).
    - apply In_nth_error in Ht. destruct Ht as [i Hi]. eauto.
  Qed.

  Definition mmeasure (t : mthread (K := K) (V := V)) : nat :=
    5 * length (mt_todo t) + match mt_pc t with MIdle => 0 | MReading _ => 4 | MWanting _ => 3 | MWriting _ => 2 | MComputing _ => 1 end.

  Lemma bounded_assembled n s' : tsteps mholds (mlocal eqb may) (fun _ _ => False) n (memo_start calls) s' -> n <= 5 * length (concat calls).
  Proof.
    intros H. pose proof (bounded mholds (mlocal eqb may) (fun _ _ => False) mmeasure) as B. specialize (B ltac:(intros g p g' p' Q; inversion Q; subst; cbn; lia) _ _ _ H).
    assert (list_sum (map mmeasure (snd (memo_start (V := V) calls))) = 5 * length (concat calls)) as E; [|rewrite E in B; lia].
    clear. cbn [memo_start snd]. induction calls as [|l c IH]; [reflexivity|]. cbn [map list_sum concat]. rewrite app_length.
    cbn. cbn in IH. unfold list_sum in *. rewrite IH. unfold mmeasure. cbn. lia.
  Qed.

  Lemma exclusive_assembled g ts : memo_reach eqb may calls g ts -> race_free mholds (mlocal eqb may) mg_mem (fun m g => MG m (mg_evals g)) ts.
  Proof.
    intros H. apply inv_reach in H. apply race_free_by_lock; [apply H| |].
    - intros g0 p g' p' L Hp. inversion L; subst; try reflexivity. destruct Hp. reflexivity.
    - intros g0 p g' p' d L Hp Hq. inversion L; subst; discriminate.
  Qed.

  (** ** One thread, recursive functions *)
  Context (func : K -> fprog K V).

  Lemma run_pure_mono (a b : K -> outcome V) : (forall k, a k <> UB -> b k = a k) ->
    forall p, run_pure a p <> UB -> run_pure b p = run_pure a p.
  Proof.
    intros H. induction p as [v| |k cont IH]; cbn [run_pure]; [reflexivity|reflexivity|]. intros Hp.
    destruct (a k) as [v| |] eqn:E; [|rewrite H by congruence; rewrite E; reflexivity|congruence].
    rewrite H by congruence. rewrite E. apply IH. exact Hp.
  Qed.
  Lemma value_mono1 : forall n k, value_in func n k <> UB -> value_in func (S n) k = value_in func n k.
  Proof.
    induction n as [|n IH]; intros k H; [exfalso; apply H; reflexivity|].
    change (value_in func (S (S n)) k) with (run_pure (value_in func (S n)) (func k)).
    change (value_in func (S n) k) with (run_pure (value_in func n) (func k)). apply run_pure_mono; [exact IH|exact H].
  Qed.
  Lemma value_mono n m k : n <= m -> value_in func n k <> UB -> value_in func m k = value_in func n k.
  Proof.
    induction 1 as [|m L IH]; intros H; [reflexivity|]. rewrite <- (IH H). apply value_mono1. rewrite (IH H). exact H.
  Qed.

  Definition defined (n : nat) (k : K) : Prop := value_in func n k <> UB.
  Definition consistent (m : list (K * V)) : Prop := forall k v, mem_find eqb m k = Some v -> exists n, value_in func n k = Ok v.

  (** what a call or a run leaves behind; [n]: nesting that suffices *)
  Definition grows (n : nat) (s s' : mstate (K := K) (V := V)) : Prop :=
    consistent (fst s') /\
    (forall k v, mem_find eqb (fst s) k = Some v -> mem_find eqb (fst s') k = Some v) /\
    exists new, snd s' = snd s ++ new /\ NoDup new /\
      forall k, (In k new -> defined n k) /\ (In k new <-> mem_find eqb (fst s) k = None /\ mem_find eqb (fst s') k <> None).

  Lemma grows_refl n s : consistent (fst s) -> grows n s s.
  Proof.
    intros H. split; [exact H|]. split; [auto|]. exists []. rewrite app_nil_r. split; [reflexivity|]. split; [constructor|].
    intros k. split; [contradiction|]. split; [contradiction|]. intros [H1 H2]. contradiction.
  Qed.
  Lemma grows_trans n s1 s2 s3 : grows n s1 s2 -> grows n s2 s3 -> grows n s1 s3.
  Proof.
    intros (C1 & M1 & n1 & E1 & D1 & P1) (C2 & M2 & n2 & E2 & D2 & P2). split; [exact C2|]. split; [auto|].
    exists (n1 ++ n2). rewrite E2, E1, app_assoc. split; [reflexivity|]. split.
    - apply NoDup_app_intro; [exact D1|exact D2|]. intros k H1 H2. apply (P1 k) in H1. apply (P2 k) in H2. tauto.
    - intros k. rewrite in_app_iff. destruct (P1 k) as [A1 B1], (P2 k) as [A2 B2]. split; [tauto|]. rewrite B1, B2. split.
      + intros [[H1 H2]|[H1 H2]]; split; auto.
        * destruct (mem_find eqb (fst s2) k) as [v|] eqn:E; [rewrite (M2 k v E); discriminate|congruence].
        * destruct (mem_find eqb (fst s1) k) as [v|] eqn:E; [rewrite (M1 k v E) in H1; discriminate|reflexivity].
      + intros [H1 H2]. destruct (mem_find eqb (fst s2) k) as [v|] eqn:E; [left; split; [exact H1|discriminate]|right; auto].
  Qed.
  Lemma grows_weaken n m s s' : n <= m -> grows n s s' -> grows m s s'.
  Proof.
    intros L (C & M & new & E & D & P). split; [exact C|]. split; [exact M|]. exists new. split; [exact E|]. split; [exact D|].
    intros k. destruct (P k) as [A B]. split; [|exact B]. intros H. unfold defined. rewrite (value_mono n m k L (A H)). exact (A H).
  Qed.

  Lemma least n k : defined n k -> exists m, m < n /\ defined (S m) k /\ ~ defined m k.
  Proof.
    induction n as [|n IH]; intros H; [exfalso; apply H; reflexivity|].
    assert (D : defined n k \/ ~ defined n k) by (unfold defined; destruct (value_in func n k); [left|left|right]; intros Q; try discriminate; apply Q; reflexivity).
    destruct D as [D|D]; [destruct (IH D) as (m & L & H1 & H2); exists m; split; [lia|auto]|exists n; split; [lia|auto]].
  Qed.

  Lemma run_grows n m (call : mstate -> K -> mstate * outcome V) :
    (forall s k, consistent (fst s) -> defined m k -> exists s', call s k = (s', value_in func m k) /\ grows m s s') -> m <= n ->
    forall p s, consistent (fst s) -> run_pure (value_in func m) p <> UB ->
    exists s', run_memo call s p = (s', run_pure (value_in func m) p) /\ grows m s s'.
  Proof.
    intros Hc L. induction p as [v| |k cont IH]; intros s C H; cbn [run_memo run_pure] in *.
    - exists s. split; [reflexivity|]. apply grows_refl. exact C.
    - exists s. split; [reflexivity|]. apply grows_refl. exact C.
    - destruct (Hc s k C) as (s1 & E1 & G1); [intros Q; rewrite Q in H; apply H; reflexivity|].
      rewrite E1. destruct (value_in func m k) as [v| |] eqn:E.
      + destruct (IH v s1 (proj1 G1) H) as (s2 & E2 & G2). exists s2. split; [exact E2|]. eapply grows_trans; eassumption.
      + exists s1. auto.
      + exfalso. apply H. reflexivity.
  Qed.

  Lemma call_grows : forall n m s k, m <= n -> consistent (fst s) -> defined m k ->
    exists s', memo_call eqb func n s k = (s', value_in func m k) /\ grows m s s'.
  Proof.
    induction n as [|n IH]; intros m s k L C H; [exfalso; assert (m = 0) as -> by lia; apply H; reflexivity|].
    cbn [memo_call]. destruct (mem_find eqb (fst s) k) as [v|] eqn:F.
    - exists s. split; [|apply grows_refl; exact C]. f_equal. destruct (C k v F) as [m2 E2].
      transitivity (value_in func (m + m2) k).
      + rewrite (value_mono m2 (m + m2)) by (lia || congruence). symmetry. exact E2.
      + apply value_mono; [lia|exact H].
    - destruct (least m k H) as (m0 & L0 & D1 & D0).
      assert (Em : value_in func m k = value_in func (S m0) k) by (apply value_mono; [lia|exact D1]).
      rewrite Em. change (value_in func (S m0) k) with (run_pure (value_in func m0) (func k)).
      destruct (run_grows n m0 (memo_call eqb func n)) with (p := func k) (s := s) as (s1 & E1 & G1).
      + intros s0 k0 C0 D. apply IH; [lia|exact C0|exact D].
      + lia.
      + exact C.
      + exact D1.
      + rewrite E1. apply grows_weaken with (m := m) in G1 as G1'; [|lia]. destruct (run_pure (value_in func m0) (func k)) as [v| |] eqn:Er.
        * exists (mem_set eqb (fst s1) k v, snd s1 ++ [k]). split; [reflexivity|].
          destruct G1 as (C1 & M1 & new & En & Dn & P1).
          assert (Nk : mem_find eqb (fst s1) k = None).
          { destruct (mem_find eqb (fst s1) k) as [w|] eqn:W; [|reflexivity]. exfalso. apply D0. apply (P1 k). apply (P1 k). split; [exact F|congruence]. }
          assert (Nn : ~ In k new) by (intros Q; apply D0, (P1 k), Q).
          assert (Deq : forall k', k' = k \/ k' <> k).
          { intros k'. destruct (eqb k' k) eqn:Q; [left; apply eqb_ok; exact Q|right; intros ->; rewrite eqb_refl in Q; discriminate]. }
          split; [|split].
          -- cbn [fst]. intros k' v' Q. destruct (Deq k') as [->|Nq].
             ++ rewrite find_set_eq in Q. injection Q as <-. exists (S m0). exact Er.
             ++ rewrite find_set_neq in Q by congruence. exact (C1 _ _ Q).
          -- cbn [fst]. intros k' v' Q. assert (k <> k') by congruence. rewrite find_set_neq by assumption. apply M1. exact Q.
          -- exists (new ++ [k]). cbn [fst snd]. rewrite En, <- app_assoc. split; [reflexivity|]. split.
             ++ apply NoDup_app_intro; [exact Dn|constructor; [intros []|constructor]|]. intros k' Q [<-|[]]. contradiction.
             ++ intros k'. rewrite in_app_iff. cbn [In]. destruct (P1 k') as [A B]. split.
                ** intros [Q|[<-|[]]]; [|exact H]. unfold defined. rewrite (value_mono m0 m k') by (try lia; apply A; exact Q). apply A. exact Q.
                ** destruct (Deq k') as [->|Nq].
                   --- rewrite find_set_eq. split; [intros _; split; [exact F|discriminate]|auto].
                   --- rewrite find_set_neq by congruence. rewrite B. split; [intros [Q|[Q|[]]]; [exact Q|congruence]|auto].
        * exists s1. auto.
        * exfalso. apply D1. exact Er.
  Qed.

  Lemma calls_grow n ks : forall s, consistent (fst s) -> Forall (defined n) ks ->
    exists s', memo_calls eqb func n s ks = (s', map (value_in func n) ks) /\ grows n s s'.
  Proof.
    induction ks as [|k ks IH]; intros s C D; cbn [memo_calls map].
    - exists s. split; [reflexivity|]. apply grows_refl. exact C.
    - inversion D as [|? ? D1 D2]; subst. destruct (call_grows n n s k (le_n _) C D1) as (s1 & E1 & G1). rewrite E1.
      destruct (IH s1 (proj1 G1) D2) as (s2 & E2 & G2). rewrite E2. exists s2. split; [reflexivity|]. eapply grows_trans; eassumption.
  Qed.

  Lemma recursive_assembled (ks : list K) (os : list (outcome V)) : Forall2 (ends_with func) ks os ->
    exists n0, forall n, n0 <= n -> exists mem evals, memo_calls eqb func n ([], []) ks = ((mem, evals), os) /\
      NoDup evals /\ forall k, In k evals <-> mem_find eqb mem k <> None.
  Proof.
    intros F.
    assert (exists n0, Forall2 (fun k o => o <> UB /\ value_in func n0 k = o) ks os) as [n0 F0].
    { induction F as [|k o ks os (Ho & n & E) F (n1 & IH)]; [exists 0; constructor|].
      exists (n + n1). constructor; [split; [exact Ho|]; rewrite (value_mono n) by (lia || congruence); exact E|].
      clear - IH. induction IH as [|k' o' ? ? [H1 H2] _ IH]; constructor; [|exact IH]. split; [exact H1|]. rewrite (value_mono n1) by (lia || congruence). exact H2. }
    exists n0. intros n L.
    assert (Forall (defined n) ks /\ map (value_in func n) ks = os) as [D E].
    { clear F. induction F0 as [|k o ks os (Ho & Ek) F (IH1 & IH2)]; [split; [constructor|reflexivity]|].
      assert (Q : value_in func n k = o) by (rewrite (value_mono n0) by (lia || congruence); exact Ek).
      split; [constructor; [unfold defined; congruence|exact IH1]|cbn [map]; rewrite Q, IH2; reflexivity]. }
    destruct (calls_grow n ks ([], [])) as ([mem evals] & E2 & _ & _ & new & En & Dn & P); [intros k v Q; discriminate|exact D|].
    exists mem, evals. rewrite E2, E. split; [reflexivity|]. cbn in En. subst evals. split; [exact Dn|].
    intros k. destruct (P k) as [_ B]. rewrite B. cbn. tauto.
  Qed.
End Memo.
