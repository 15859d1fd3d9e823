(** Lemmas about the model of log.cpp. *)
From Coq Require Import Ascii List Arith Bool Lia ZifyBool.
From Verif Require Import Base LogSpec LogModel.
Import ListNotations.

Definition view_of (st : log_state) (s : nat) : view :=
  match object st s with
  | Some d => Some (log_level_ d, sink_mode_ d, thread_id_ d, existsb (Nat.eqb s) (global_sinks st))
  | None => None
  end.
(** everything but the lowest level *)
Record pinv (st : log_state) : Prop := {
  pi_nodup : NoDup (global_sinks st);
  pi_exist : forall s, In s (global_sinks st) -> object st s <> None }.
Definition inv (st : log_state) : Prop :=
  pinv st /\ forall s d, In s (global_sinks st) -> object st s = Some d -> global_lowest_log_level st <= log_level_ d.

Lemma exists_in s l : existsb (Nat.eqb s) l = true <-> In s l.
Proof. rewrite existsb_exists. split; [intros (x & H & E); apply Nat.eqb_eq in E; subst; exact H|intros H; exists s; rewrite Nat.eqb_refl; auto]. Qed.

(** objects *)
Lemma find_filter s q l : List.find (fun x : nat * sink_data => fst x =? q) (filter (fun x => negb (fst x =? s)) l) =
  if q =? s then None else List.find (fun x => fst x =? q) l.
Proof.
  induction l as [|[p d] l IH]; cbn; [destruct (q =? s); reflexivity|].
  destruct (p =? s) eqn:E1; cbn.
  - rewrite IH. destruct (q =? s) eqn:E2; [reflexivity|]. destruct (p =? q) eqn:E3; [lia|reflexivity].
  - rewrite IH. destruct (p =? q) eqn:E3; [|reflexivity]. destruct (q =? s) eqn:E2; [lia|reflexivity].
Qed.
Lemma object_set st s d q : object (set_object st s d) q = if q =? s then Some d else object st q.
Proof.
  unfold object, set_object. cbn. rewrite (Nat.eqb_sym s q). destruct (q =? s) eqn:E; [reflexivity|]. rewrite find_filter, E. reflexivity.
Qed.
Lemma object_drop st s q : object (drop_object st s) q = if q =? s then None else object st q.
Proof. unfold object, drop_object. cbn. rewrite find_filter. destruct (q =? s); reflexivity. Qed.

(** the lists of sinks *)
Lemma erase_in s ss : NoDup ss -> forall q, In q (erase_first s ss) <-> In q ss /\ q <> s.
Proof.
  induction 1 as [|x ss Hx Hn IH]; intros q; cbn; [tauto|].
  destruct (x =? s) eqn:E.
  - apply Nat.eqb_eq in E. subst x. split; [intros H; split; [auto|intros ->; contradiction]|intros [[->|H] N]; [congruence|exact H]].
  - apply Nat.eqb_neq in E. cbn. rewrite IH. split; [intros [->|[H N]]; auto|intros [[->|H] N]; auto].
Qed.
Lemma erase_nodup s ss : NoDup ss -> NoDup (erase_first s ss).
Proof.
  induction 1 as [|x ss Hx Hn IH]; cbn; [constructor|]. destruct (x =? s); [exact Hn|]. constructor; [|exact IH].
  rewrite erase_in by exact Hn. tauto.
Qed.
Lemma nodup_snoc s (ss : list nat) : NoDup ss -> ~ In s ss -> NoDup (ss ++ [s]).
Proof.
  intros N H. induction N as [|x ss Hx N IH]; cbn; [constructor; [tauto|constructor]|].
  constructor; [rewrite in_app_iff; cbn; intros [Q|[<-|[]]]; [exact (Hx Q)|apply H; left; reflexivity]|].
  apply IH. intros Q. apply H. right. exact Q.
Qed.

(** update_global_log_level_thread_unsafe *)
Lemma lowest_loop_ok st ss : (forall s, In s ss -> object st s <> None) -> forall low, exists low', lowest_loop st ss low = Ok low' /\
  low' <= low /\ forall s d, In s ss -> object st s = Some d -> low' <= log_level_ d.
Proof.
  induction ss as [|s ss IH]; intros Ho low; cbn; [exists low; split; [reflexivity|split; [lia|contradiction]]|].
  unfold with_object. destruct (object st s) as [d|] eqn:E; [|exfalso; exact (Ho s (or_introl eq_refl) E)].
  destruct (IH (fun q Hq => Ho q (or_intror Hq)) (if log_level_ d <? low then log_level_ d else low)) as (low' & H1 & H2 & H3).
  exists low'. split; [exact H1|]. split; [destruct (log_level_ d <? low) eqn:L; lia|].
  intros q d' [<-|Hq] Hd; [|exact (H3 q d' Hq Hd)]. rewrite E in Hd. injection Hd as <-. destruct (log_level_ d <? low) eqn:L; lia.
Qed.
Lemma update_ok st : pinv st -> exists low, update_lowest st = Ok (LS (objects st) (global_sinks st) low (events st)) /\
  inv (LS (objects st) (global_sinks st) low (events st)).
Proof.
  intros [N O]. destruct (lowest_loop_ok st (global_sinks st) O never) as (low & H1 & _ & H3).
  exists low. unfold update_lowest. rewrite H1. split; [reflexivity|]. split; [constructor; assumption|exact H3].
Qed.

Lemma add_ok st s : pinv st -> object st s <> None -> exists st', add_sink st s = Ok st' /\ inv st' /\ events st' = events st /\
  (forall q, object st' q = object st q) /\ (forall q, In q (global_sinks st') <-> In q (global_sinks st) \/ q = s).
Proof.
  intros P O. unfold add_sink. destruct (existsb (Nat.eqb s) (global_sinks st)) eqn:E.
  - destruct (update_ok st P) as (low & H1 & H2). eexists. split; [exact H1|]. split; [exact H2|].
    cbn. split; [reflexivity|]. split; [reflexivity|]. apply exists_in in E. intros q. split; [auto|intros [H|H]; [exact H|subst; exact E]].
  - assert (N : ~ In s (global_sinks st)) by (rewrite <- exists_in; congruence).
    destruct (update_ok (LS (objects st) (global_sinks st ++ [s]) (global_lowest_log_level st) (events st))) as (low & H1 & H2).
    { destruct P as [Q1 Q2]. constructor; cbn.
      - apply nodup_snoc; assumption.
      - intros q. rewrite in_app_iff. cbn. intros [H|[<-|[]]]; [exact (Q2 q H)|exact O]. }
    eexists. split; [exact H1|]. split; [exact H2|]. cbn. split; [reflexivity|]. split; [reflexivity|].
    intros q. rewrite in_app_iff. cbn. intuition.
Qed.
Lemma remove_ok st s : NoDup (global_sinks st) -> (forall q, In q (global_sinks st) -> q <> s -> object st q <> None) ->
  exists st', remove_sink st s = Ok st' /\ inv st' /\ events st' = events st /\
  (forall q, object st' q = object st q) /\ (forall q, In q (global_sinks st') <-> In q (global_sinks st) /\ q <> s).
Proof.
  intros N O. unfold remove_sink.
  destruct (update_ok (LS (objects st) (erase_first s (global_sinks st)) (global_lowest_log_level st) (events st))) as (low & H1 & H2).
  { constructor; cbn; [apply erase_nodup; exact N|]. intros q H. apply erase_in in H; [|exact N]. apply O; apply H. }
  eexists. split; [exact H1|]. split; [exact H2|]. cbn. split; [reflexivity|]. split; [reflexivity|]. intros q. apply erase_in. exact N.
Qed.

(** messages *)
Definition wanted (st : log_state) (me : nat) (l : level) (s : nat) : bool := match object st s with Some d => sink_test d me l | None => false end.

Lemma test_loop_ok st me l ss : (forall s, In s ss -> object st s <> None) -> test_loop st me l ss = Ok (existsb (wanted st me l) ss).
Proof.
  induction ss as [|s ss IH]; intros O; cbn; [reflexivity|]. unfold with_object, wanted at 1.
  destruct (object st s) as [d|] eqn:E; [|exfalso; exact (O s (or_introl eq_refl) E)].
  destruct (sink_test d me l); [reflexivity|]. cbn. apply IH. intros q H. apply O. right. exact H.
Qed.
Lemma test_ok st me l : inv st -> test_log_level st me l = Ok (existsb (wanted st me l) (global_sinks st)).
Proof.
  intros [[N O] L]. unfold test_log_level. destruct (l <? global_lowest_log_level st) eqn:E; [|apply test_loop_ok; exact O].
  f_equal. symmetry. apply not_true_is_false. rewrite existsb_exists. intros (s & Hs & W). unfold wanted in W.
  destruct (object st s) as [d|] eqn:Ed; [|discriminate]. pose proof (L s d Hs Ed). unfold sink_test in W. destruct (sink_mode_ d); lia.
Qed.

Definition with_events (st : log_state) (es : list (nat * event)) : log_state :=
  LS (objects st) (global_sinks st) (global_lowest_log_level st) (events st ++ es).

Lemma submit_ok st me l t ss : (forall s, In s ss -> object st s <> None) ->
  submit_loop st me l t ss = Ok (with_events st (map (fun s => (s, Received l t)) (filter (wanted st me l) ss))).
Proof.
  revert st. induction ss as [|s ss IH]; intros st O; cbn.
  - unfold with_events. rewrite app_nil_r. destruct st; reflexivity.
  - unfold with_object, wanted at 1. destruct (object st s) as [d|] eqn:E; [|exfalso; exact (O s (or_introl eq_refl) E)].
    destruct (sink_test d me l).
    + rewrite IH by (intros q H; apply O; right; exact H). f_equal. unfold with_events, emit. cbn. rewrite <- app_assoc. reflexivity.
    + rewrite IH by (intros q H; apply O; right; exact H). reflexivity.
Qed.
Lemma flush_ok st ss : (forall s, In s ss -> object st s <> None) -> flush_loop st ss = Ok (with_events st (map (fun s => (s, Flushed)) ss)).
Proof.
  revert st. induction ss as [|s ss IH]; intros st O; cbn.
  - unfold with_events. rewrite app_nil_r. destruct st; reflexivity.
  - unfold with_object. destruct (object st s) as [d|] eqn:E; [|exfalso; exact (O s (or_introl eq_refl) E)].
    rewrite IH by (intros q H; apply O; right; exact H). f_equal. unfold with_events, emit. cbn. rewrite <- app_assoc. reflexivity.
Qed.

Lemma told_with st es s : told (with_events st es) s = told st s ++ map snd (filter (fun e => fst e =? s) es).
Proof. unfold told, with_events. cbn. rewrite filter_app, map_app. reflexivity. Qed.
Lemma one_each (f : nat -> bool) (e : event) ss s : NoDup ss ->
  map snd (filter (fun e => fst e =? s) (map (fun q => (q, e)) (filter f ss))) = if f s && existsb (Nat.eqb s) ss then [e] else [].
Proof.
  induction 1 as [|x ss Hx N IH]; cbn; [destruct (f s); reflexivity|].
  destruct (Nat.eq_dec x s) as [->|Hs].
  - rewrite Nat.eqb_refl. assert (existsb (Nat.eqb s) ss = false) as E by (apply not_true_is_false; rewrite exists_in; exact Hx).
    rewrite E in IH. destruct (f s); cbn; rewrite ?Nat.eqb_refl; cbn; rewrite IH; reflexivity.
  - assert (s =? x = false) as -> by lia. cbn. rewrite <- IH. destruct (f x); cbn; [|reflexivity].
    assert (x =? s = false) as -> by lia. reflexivity.
Qed.
Lemma interested_wanted st me l s : interested (view_of st s) me l = wanted st me l s && existsb (Nat.eqb s) (global_sinks st).
Proof.
  unfold interested, view_of, wanted. destruct (object st s) as [d|]; [|reflexivity]. unfold sink_test.
  destruct (existsb (Nat.eqb s) (global_sinks st)); [|rewrite andb_false_r; reflexivity].
  destruct (sink_mode_ d); rewrite ?andb_true_r; [reflexivity|]. rewrite (Nat.eqb_sym me). reflexivity.
Qed.

Lemma log_string_ok st me l t : inv st -> exists es, log_string st me l t = Ok (with_events st es) /\
  forall s, map snd (filter (fun e => fst e =? s) es) = if interested (view_of st s) me l then [Received l t] else [].
Proof.
  intros [[N O] L]. eexists. split; [apply submit_ok; exact O|]. intros s. rewrite one_each by exact N. rewrite interested_wanted. reflexivity.
Qed.
Lemma nobody st me l : existsb (wanted st me l) (global_sinks st) = false -> forall s, interested (view_of st s) me l = false.
Proof.
  intros H s. rewrite interested_wanted. apply not_true_is_false. intros Q. apply andb_true_iff in Q. destruct Q as [Q1 Q2].
  apply exists_in in Q2. assert (existsb (wanted st me l) (global_sinks st) = true) by (rewrite existsb_exists; eauto). congruence.
Qed.
Lemma with_nothing st : with_events st [] = st.
Proof. unfold with_events. rewrite app_nil_r. destruct st; reflexivity. Qed.
Lemma message_ok st me l t : inv st -> exists es, message st me l t = Ok (with_events st es) /\
  forall s, map snd (filter (fun e => fst e =? s) es) = if interested (view_of st s) me l then [Received l t] else [].
Proof.
  intros I. unfold message. rewrite (test_ok _ me l I). cbn [obind].
  destruct (existsb (wanted st me l) (global_sinks st)) eqn:E; [apply log_string_ok; exact I|].
  exists []. rewrite with_nothing. split; [reflexivity|]. intros s. rewrite (nobody _ _ _ E s). reflexivity.
Qed.
Lemma vstring_ok st me l t : inv st -> log_vstring st me l t = message st me l (fits t).
Proof. reflexivity. Qed.
Lemma flush_events st : inv st -> exists es, flush st = Ok (with_events st es) /\
  forall s, map snd (filter (fun e => fst e =? s) es) = if registered (view_of st s) then [Flushed] else [].
Proof.
  intros [[N O] L]. eexists. split; [apply flush_ok; exact O|]. intros s.
  pose proof (one_each (fun _ => true) Flushed (global_sinks st) s N) as H.
  assert (filter (fun _ => true) (global_sinks st) = global_sinks st) as E.
  { clear. induction (global_sinks st) as [|x r IH]; cbn; [reflexivity|]. rewrite IH. reflexivity. }
  rewrite E in H. rewrite H. cbn. unfold registered, view_of. destruct (object st s) eqn:Eo; [reflexivity|].
  destruct (existsb (Nat.eqb s) (global_sinks st)) eqn:X; [|reflexivity]. apply exists_in in X. destruct (O s X Eo).
Qed.
Lemma inv_events st es : inv st -> inv (with_events st es).
Proof. intros [[N O] L]. split; [constructor; assumption|exact L]. Qed.
Lemma view_events st es s : view_of (with_events st es) s = view_of st s.
Proof. reflexivity. Qed.

Definition good_step (static : level) (st : log_state) (me : nat) (op : log_op) : Prop :=
  exists st', log_step static st me op = Ok st' /\ inv st' /\
  forall s, view_after s (view_of st s) me op = Some (view_of st' s) /\ told st' s = told st s ++ seen static (view_of st s) me op.

Lemma quiet_step static st me op es : inv st -> log_step static st me op = Ok (with_events st es) ->
  (forall s v, view_after s v me op = Some v) ->
  (forall s, map snd (filter (fun e => fst e =? s) es) = seen static (view_of st s) me op) -> good_step static st me op.
Proof.
  intros I E V H. exists (with_events st es). split; [exact E|]. split; [apply inv_events; exact I|].
  intros s. rewrite V, view_events, told_with, H. auto.
Qed.

Lemma call_ok static st me l (f : log_state -> outcome log_state) t' :
  inv st -> f st = message st me l t' ->
  exists es, (if static <=? l then do st' <- f st; if flushes l then flush st' else Ok st' else Ok st) = Ok (with_events st es) /\
  forall s, map snd (filter (fun e => fst e =? s) es) =
    if static <=? l then (if interested (view_of st s) me l then [Received l t'] else []) ++ (if (5 <=? l) && registered (view_of st s) then [Flushed] else []) else [].
Proof.
  intros I Hf. destruct (static <=? l); [|exists []; rewrite with_nothing; split; reflexivity].
  rewrite Hf. destruct (message_ok st me l t' I) as (es & E & H). rewrite E. cbn [obind]. unfold flushes.
  destruct (5 <=? l); cbn [andb].
  - destruct (flush_events _ (inv_events st es I)) as (es2 & E2 & H2). exists (es ++ es2). rewrite E2. split.
    + unfold with_events. cbn. rewrite app_assoc. reflexivity.
    + intros s. rewrite filter_app, map_app, H, H2. reflexivity.
  - exists es. split; [reflexivity|]. intros s. rewrite H, app_nil_r. reflexivity.
Qed.

(** a step that changes only sink s0 *)
Lemma one_sink static st me op s0 st' : inv st -> log_step static st me op = Ok st' -> inv st' -> events st' = events st ->
  (forall s, seen static (view_of st s) me op = []) ->
  (forall s v, s <> s0 -> view_after s v me op = Some v) ->
  (forall s, s <> s0 -> object st' s = object st s /\ (In s (global_sinks st') <-> In s (global_sinks st))) ->
  view_after s0 (view_of st s0) me op = Some (view_of st' s0) -> good_step static st me op.
Proof.
  intros I E I' Ev Hs Hv Ho H0. exists st'. split; [exact E|]. split; [exact I'|]. intros s. split.
  - destruct (Nat.eq_dec s s0) as [->|N]; [exact H0|]. rewrite Hv by exact N. f_equal. unfold view_of.
    destruct (Ho s N) as [E1 E2]. rewrite E1. destruct (object st s); [|reflexivity]. do 2 f_equal.
    apply eq_true_iff_eq. rewrite !exists_in. symmetry. exact E2.
  - rewrite Hs, app_nil_r. unfold told. rewrite Ev. reflexivity.
Qed.
Lemma in_true s ss : In s ss -> existsb (Nat.eqb s) ss = true.
Proof. apply exists_in. Qed.
Lemma in_false s ss : ~ In s ss -> existsb (Nat.eqb s) ss = false.
Proof. rewrite <- exists_in. apply not_true_is_false. Qed.

Lemma step_ok static st me op : inv st -> (forall s, view_after s (view_of st s) me op <> None) -> good_step static st me op.
Proof.
  intros I A. pose proof I as [[N O] L]. destruct op as [s l m|s|s l|s m|s|s|l t|l t|l t|l t|].
  - specialize (A s). cbn in A. rewrite Nat.eqb_refl in A. unfold view_of in A.
    destruct (object st s) as [d|] eqn:E; [congruence|]. assert (Ns : ~ In s (global_sinks st)) by (intros H; exact (O s H E)).
    destruct (add_ok (set_object st s (Sink l m me)) s) as (st' & H1 & H2 & H3 & H4 & H5).
    { constructor; [exact N|]. intros q Hq. rewrite object_set. destruct (q =? s); [discriminate|]. apply O. exact Hq. }
    { rewrite object_set, Nat.eqb_refl. discriminate. }
    apply (one_sink static st me _ s st'); try assumption; try reflexivity.
    + cbn. rewrite E. exact H1.
    + intros q v Nq. cbn. assert (s =? q = false) as -> by lia. reflexivity.
    + intros q Nq. rewrite H4, object_set. assert (q =? s = false) as -> by lia. split; [reflexivity|]. rewrite H5. cbn. intuition.
    + cbn. rewrite Nat.eqb_refl. unfold view_of. rewrite E, H4, object_set, Nat.eqb_refl. cbn. do 3 f_equal. symmetry. apply in_true. apply H5. auto.
  - specialize (A s). cbn in A. rewrite Nat.eqb_refl in A. unfold view_of in A.
    destruct (object st s) as [d|] eqn:E; [|congruence].
    destruct (remove_ok st s N (fun q Hq _ => O q Hq)) as (st' & H1 & H2 & H3 & H4 & H5).
    apply (one_sink static st me _ s (drop_object st' s)); try assumption; try reflexivity.
    + cbn. unfold with_object. rewrite E, H1. reflexivity.
    + destruct H2 as [[Q1 Q2] Q3]. split; [constructor; [exact Q1|]|]; cbn.
      * intros q Hq. rewrite object_drop. apply H5 in Hq as Hq2. assert (q =? s = false) as -> by lia. apply Q2. exact Hq.
      * intros q d' Hq. rewrite object_drop. destruct (q =? s); [discriminate|]. apply Q3. exact Hq.
    + intros q v Nq. cbn. assert (s =? q = false) as -> by lia. reflexivity.
    + intros q Nq. rewrite object_drop, H4. assert (q =? s = false) as -> by lia. split; [reflexivity|]. cbn. rewrite H5. intuition.
    + cbn. rewrite Nat.eqb_refl. unfold view_of. rewrite E, object_drop, Nat.eqb_refl. reflexivity.
  - specialize (A s). cbn in A. rewrite Nat.eqb_refl in A. unfold view_of in A.
    destruct (object st s) as [d|] eqn:E; [|congruence].
    destruct (remove_ok (set_object st s (Sink l (sink_mode_ d) (thread_id_ d))) s N) as (st1 & H1 & H2 & H3 & H4 & H5).
    { intros q Hq Nq. rewrite object_set. destruct (q =? s); [discriminate|]. apply O. exact Hq. }
    destruct (add_ok st1 s (proj1 H2)) as (st' & G1 & G2 & G3 & G4 & G5).
    { rewrite H4, object_set, Nat.eqb_refl. discriminate. }
    apply (one_sink static st me _ s st'); try assumption; try reflexivity.
    + cbn. unfold with_object. rewrite E, H1. exact G1.
    + rewrite G3, H3. reflexivity.
    + intros q v Nq. cbn. assert (s =? q = false) as -> by lia. reflexivity.
    + intros q Nq. rewrite G4, H4, object_set. assert (q =? s = false) as -> by lia. split; [reflexivity|]. rewrite G5, H5. cbn. intuition.
    + cbn. rewrite Nat.eqb_refl. unfold view_of. rewrite E, G4, H4, object_set, Nat.eqb_refl. cbn. do 3 f_equal. symmetry. apply in_true. apply G5. auto.
  - specialize (A s). cbn in A. rewrite Nat.eqb_refl in A. unfold view_of in A.
    destruct (object st s) as [d|] eqn:E; [|congruence].
    apply (one_sink static st me _ s (set_object st s (Sink (log_level_ d) m me))); try assumption; try reflexivity.
    + cbn. unfold with_object. rewrite E. reflexivity.
    + split; [constructor; [exact N|]|].
      * intros q Hq. rewrite object_set. destruct (q =? s); [discriminate|]. apply O. exact Hq.
      * intros q d' Hq. rewrite object_set. destruct (q =? s) eqn:Q; [|apply L; exact Hq]. intros [= <-]. cbn.
        apply Nat.eqb_eq in Q. subst q. exact (L s d Hq E).
    + intros q v Nq. cbn. assert (s =? q = false) as -> by lia. reflexivity.
    + intros q Nq. rewrite object_set. assert (q =? s = false) as -> by lia. split; reflexivity.
    + cbn. rewrite Nat.eqb_refl. unfold view_of. rewrite E, object_set, Nat.eqb_refl. reflexivity.
  - specialize (A s). cbn in A. rewrite Nat.eqb_refl in A. unfold view_of in A.
    destruct (object st s) as [d|] eqn:E; [|congruence].
    destruct (add_ok st s (proj1 I)) as (st' & G1 & G2 & G3 & G4 & G5); [congruence|].
    apply (one_sink static st me _ s st'); try assumption; try reflexivity.
    + cbn. unfold with_object. rewrite E. exact G1.
    + intros q v Nq. cbn. assert (s =? q = false) as -> by lia. reflexivity.
    + intros q Nq. rewrite G4. split; [reflexivity|]. rewrite G5. intuition.
    + cbn. rewrite Nat.eqb_refl. unfold view_of. rewrite G4, E. do 3 f_equal. symmetry. apply in_true. apply G5. auto.
  - destruct (remove_ok st s N (fun q Hq _ => O q Hq)) as (st' & H1 & H2 & H3 & H4 & H5).
    apply (one_sink static st me _ s st'); try assumption; try reflexivity.
    + intros q v Nq. cbn. assert (s =? q = false) as -> by lia. reflexivity.
    + intros q Nq. rewrite H4. split; [reflexivity|]. rewrite H5. intuition.
    + cbn. rewrite Nat.eqb_refl. unfold view_of. rewrite H4. destruct (object st s); [|reflexivity]. do 3 f_equal. symmetry. apply in_false. rewrite H5. tauto.
  - destruct (message_ok st me l t I) as (es & E & H). apply (quiet_step static st me _ es); auto.
  - destruct (message_ok st me l (fits t) I) as (es & E & H). apply (quiet_step static st me _ es); auto.
  - destruct (call_ok static st me l (fun st => message st me l t) t I eq_refl) as (es & E & H). apply (quiet_step static st me _ es); auto.
  - destruct (call_ok static st me l (fun st => log_vstring st me l t) (fits t) I eq_refl) as (es & E & H). apply (quiet_step static st me _ es); auto.
  - destruct (flush_events st I) as (es & E & H). apply (quiet_step static st me _ es); auto.
Qed.

Lemma run_ok static h : forall st, inv st -> (forall s, allowed s (view_of st s) h) ->
  exists st', log_run static st h = Ok st' /\ forall s, told st' s = told st s ++ expected static s (view_of st s) h.
Proof.
  induction h as [|[me op] h IH]; intros st I A.
  - exists st. split; [reflexivity|]. intros s. rewrite app_nil_r. reflexivity.
  - destruct (step_ok static st me op I) as (st1 & E1 & I1 & H1).
    { intros s. destruct (A s) as (v' & Hv & _). congruence. }
    destruct (IH st1 I1) as (st' & E' & H').
    { intros s. destruct (A s) as (v' & Hv & Ha). destruct (H1 s) as [Q _]. assert (v' = view_of st1 s) as <- by congruence. exact Ha. }
    exists st'. cbn [log_run]. rewrite E1. cbn [obind]. split; [exact E'|]. intros s. destruct (H1 s) as [Q1 Q2].
    rewrite H', Q2, <- app_assoc. cbn [expected]. rewrite Q1. reflexivity.
Qed.
Lemma log_assembled static h : (forall s, allowed s None h) ->
  exists st, log_run static log_init h = Ok st /\ forall s, told st s = expected static s None h.
Proof.
  intros A. destruct (run_ok static h log_init) as (st & E & H).
  - split; [constructor; [constructor|contradiction]|contradiction].
  - exact A.
  - exists st. split; [exact E|exact H].
Qed.
