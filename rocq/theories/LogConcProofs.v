(** Lemmas about logging with threads. *)
From Coq Require Import Ascii List Arith Bool Lia ZifyBool.
From Verif Require Import Base BaseProofs Conc LogSpec LogModel LogProofs LogConc.
Import ListNotations.

Definition early (p : lpc) : Prop := match p with PRead _ _ | PWantTest _ _ | PTest _ _ _ | PWantSend _ _ => True | _ => False end.
Definition sending (p : lpc) : Prop := match p with PSend _ _ _ => True | _ => False end.

Record linv (g : lglobal) (ts : list lthread) : Prop := {
  li_lock : exclusive_access lholds ts;
  li_id : forall i t, nth_error ts i = Some t -> lt_id t = i;
  li_nodup : NoDup (lg_sinks g);
  li_known : forall i n, asked_in g (i, n) <> [] -> exists t, nth_error ts i = Some t /\ n <= lt_count t /\ (n = lt_count t -> ~ early (lt_pc t));
  li_send : forall i t l x rest, nth_error ts i = Some t -> lt_pc t = PSend l x rest -> asked_in g (i, lt_count t) ++ rest = lg_sinks g;
  li_once : forall c, NoDup (asked_in g c);
  li_done : forall i n ss, In ((i, n), ss) (lg_finished g) -> asked_in g (i, n) = ss /\ exists t, nth_error ts i = Some t /\ n <= lt_count t /\
    (n = lt_count t -> ~ early (lt_pc t) /\ ~ sending (lt_pc t));
  li_got : forall c l s d got, In (c, l, s, d, got) (lg_asked g) -> got = sink_test d (fst c) l }.

Lemma asked_ask g i n l s b c : asked_in (ask g (i, n) l s b) c = asked_in g c ++ if (i =? fst c) && (n =? snd c) then [s] else [].
Proof. unfold asked_in, ask. cbn [lg_asked]. rewrite filter_app, map_app. cbn. destruct ((i =? fst c) && (n =? snd c)); reflexivity. Qed.

(** steps that ask nobody and finish nothing *)
Lemma inv_other g ts i t g' t' : linv g ts -> nth_error ts i = Some t -> exclusive_access lholds (list_set ts i t') ->
  lg_asked g' = lg_asked g -> lg_finished g' = lg_finished g -> NoDup (lg_sinks g') -> (lg_sinks g' = lg_sinks g \/ lholds t = Exclusive) ->
  lt_id t' = lt_id t ->
  (lt_count t' = S (lt_count t) \/ lt_count t' = lt_count t /\ (early (lt_pc t') -> early (lt_pc t))) ->
  (sending (lt_pc t') -> (exists l x, lt_pc t = PWantSend l x) /\ exists l x, lt_pc t' = PSend l x (lg_sinks g')) ->
  linv g' (list_set ts i t').
Proof.
  intros [K I N Kn Sd On Dn Gt] Hi X Ea Ef N' Hs Hid Hc Hp.
  assert (Li : i < length ts) by (apply nth_error_Some; congruence).
  assert (EA : forall c, asked_in g' c = asked_in g c) by (intros c; unfold asked_in; rewrite Ea; reflexivity).
  constructor.
  - exact X.
  - intros j u Hj. destruct (Nat.eq_dec j i) as [->|Nj].
    + rewrite nth_error_list_set_eq in Hj by exact Li. injection Hj as <-. rewrite Hid. exact (I _ _ Hi).
    + rewrite nth_error_list_set_neq in Hj by congruence. exact (I _ _ Hj).
  - exact N'.
  - intros j n. rewrite EA. intros H. destruct (Kn j n H) as (u & Hu & Hn & He). destruct (Nat.eq_dec j i) as [->|Nj].
    + rewrite nth_error_list_set_eq by exact Li. exists t'. split; [reflexivity|]. assert (u = t) as -> by congruence.
      destruct Hc as [Hc|[Hc Hq]]; [split; [lia|intros ->; lia]|]. split; [lia|]. intros E Q. apply He; [lia|exact (Hq Q)].
    + rewrite nth_error_list_set_neq by congruence. eauto.
  - intros j u l x rest Hj Hu. rewrite EA. destruct (Nat.eq_dec j i) as [->|Nj].
    + rewrite nth_error_list_set_eq in Hj by exact Li. injection Hj as <-.
      destruct Hp as [(l1 & x1 & E1) (l2 & x2 & E2)]; [rewrite Hu; exact Logic.I|]. rewrite Hu in E2. injection E2 as -> -> ->.
      destruct Hc as [Hc|[Hc Hq]].
      * destruct (asked_in g (i, lt_count t')) eqn:E; [reflexivity|]. destruct (Kn i (lt_count t')) as (v & Hv & Hn & _); [congruence|].
        assert (v = t) as -> by congruence. lia.
      * destruct (asked_in g (i, lt_count t')) eqn:E; [reflexivity|]. destruct (Kn i (lt_count t')) as (v & Hv & Hn & He); [congruence|].
        assert (v = t) as -> by congruence. exfalso. apply He; [exact Hc|]. rewrite E1. exact Logic.I.
    + rewrite nth_error_list_set_neq in Hj by congruence. rewrite (Sd _ _ _ _ _ Hj Hu).
      destruct Hs as [Hs|Hs]; [symmetry; exact Hs|]. assert (i <> j) as Nj' by congruence. pose proof (K i j t u Nj' Hi Hj Hs) as Hf. unfold lholds in Hf.
      rewrite Hu in Hf. discriminate.
  - intros c. rewrite EA. apply On.
  - intros j n ss. rewrite Ef. intros H. destruct (Dn j n ss H) as (Q1 & u & Hu & Hn & He). rewrite EA. split; [exact Q1|].
    destruct (Nat.eq_dec j i) as [->|Nj].
    + rewrite nth_error_list_set_eq by exact Li. exists t'. split; [reflexivity|]. assert (u = t) as -> by congruence.
      destruct Hc as [Hc|[Hc Hq]]; [split; [lia|intros ->; lia]|]. split; [lia|]. intros E. assert (E' : n = lt_count t) by congruence.
      specialize (He E'). split.
      * intros Q. apply (proj1 He). exact (Hq Q).
      * intros Q. destruct (Hp Q) as [(l1 & x1 & E1) _]. apply (proj1 He). rewrite E1. exact Logic.I.
    + rewrite nth_error_list_set_neq by congruence. eauto.
  - intros c l s d got. rewrite Ea. apply Gt.
Qed.

Lemma inv_cstep g ts g' ts' : linv g ts -> cstep lholds llocal (fun _ _ => False) (g, ts) (g', ts') -> linv g' ts'.
Proof.
  intros V St. pose proof V as [K I N Kn Sd On Dn Gt]. pose proof (exclusive_step _ _ _ _ _ _ _ St K) as X.
  inversion St as [? ? i t ? t' Hi Hl Ha|? ? ? []]; subst.
  pose proof (fun a b c d => inv_other g ts i t g' t' V Hi X a b c d) as Q.
  assert (Li : i < length ts) by (apply nth_error_Some; congruence).
  inversion Hl; subst; try (apply Q; auto; cbn; try (intros []; fail); auto; fail).
  - (* a call begins *)
    destruct c; apply Q; auto; cbn; try (intros []).
  - (* sending begins *)
    apply Q; auto; cbn; try (right; split; [reflexivity|intros []]; fail). intros _. split; eauto.
  - (* a sink is asked *)
    clear Q. pose proof (I _ _ Hi) as Em. cbn in Em. subst me. pose proof (Sd _ _ _ _ _ Hi eq_refl) as Es. cbn [lt_count] in Es.
    assert (NS : ~ In s (asked_in g (i, n))).
    { rewrite <- Es in N. apply NoDup_remove_2 in N. intros H. apply N. apply in_or_app. left. exact H. }
    constructor.
    + exact X.
    + intros j u Hj. destruct (Nat.eq_dec j i) as [->|Nj].
      * rewrite nth_error_list_set_eq in Hj by exact Li. injection Hj as <-. reflexivity.
      * rewrite nth_error_list_set_neq in Hj by congruence. exact (I _ _ Hj).
    + exact N.
    + intros j m. rewrite asked_ask. cbn [fst snd]. intros H. destruct (Nat.eq_dec j i) as [->|Nj].
      * rewrite nth_error_list_set_eq by exact Li. eexists. split; [reflexivity|]. cbn. split; [|auto].
        destruct ((i =? i) && (n =? m)) eqn:E; [lia|]. rewrite app_nil_r in H. destruct (Kn i m H) as (u & Hu & Hm & _).
        rewrite Hi in Hu. injection Hu as <-. exact Hm.
      * rewrite nth_error_list_set_neq by congruence. assert ((i =? j) && (n =? m) = false) as E by lia. rewrite E, app_nil_r in H. exact (Kn j m H).
    + intros j u l' x rest Hj Hu. rewrite asked_ask. cbn [fst snd lg_sinks ask]. destruct (Nat.eq_dec j i) as [->|Nj].
      * rewrite nth_error_list_set_eq in Hj by exact Li. injection Hj as <-. cbn in Hu |- *. injection Hu as <- <- <-.
        rewrite !Nat.eqb_refl. cbn. rewrite <- app_assoc. exact Es.
      * rewrite nth_error_list_set_neq in Hj by congruence. assert ((i =? j) && (n =? lt_count u) = false) as -> by lia. rewrite app_nil_r. eauto.
    + intros [j m]. rewrite asked_ask. cbn [fst snd]. destruct ((i =? j) && (n =? m)) eqn:E; [|rewrite app_nil_r; apply On].
      assert (j = i /\ m = n) as [-> ->] by lia. apply nodup_snoc; [apply On|exact NS].
    + intros j m ss' H. cbn [lg_finished ask] in H. destruct (Dn j m ss' H) as (Q1 & u & Hu & Hm & He).
      assert (NJ : ~ (j = i /\ m = n)).
      { intros [-> ->]. rewrite Hi in Hu. injection Hu as <-. destruct (He eq_refl) as [_ B]. apply B. exact Logic.I. }
      rewrite asked_ask. cbn [fst snd]. assert ((i =? j) && (n =? m) = false) as -> by lia. rewrite app_nil_r. split; [exact Q1|].
      destruct (Nat.eq_dec j i) as [->|Nj].
      * rewrite nth_error_list_set_eq by exact Li. eexists. split; [reflexivity|]. rewrite Hi in Hu. injection Hu as <-. cbn in *. split; [exact Hm|]. intros ->. tauto.
      * rewrite nth_error_list_set_neq by congruence. eauto.
    + intros c l' s' d got. cbn [lg_asked ask]. rewrite in_app_iff. intros [H|[H|[]]]; [eauto|]. injection H as <- <- <- <- <-. reflexivity.
  - (* sending ends *)
    clear Q. pose proof (I _ _ Hi) as Em. cbn in Em. subst me. pose proof (Sd _ _ _ _ _ Hi eq_refl) as Es. cbn [lt_count] in Es. rewrite app_nil_r in Es.
    constructor.
    + exact X.
    + intros j u Hj. destruct (Nat.eq_dec j i) as [->|Nj].
      * rewrite nth_error_list_set_eq in Hj by exact Li. injection Hj as <-. reflexivity.
      * rewrite nth_error_list_set_neq in Hj by congruence. exact (I _ _ Hj).
    + exact N.
    + intros j m H. destruct (Kn j m H) as (u & Hu & Hm & He). destruct (Nat.eq_dec j i) as [->|Nj].
      * rewrite nth_error_list_set_eq by exact Li. eexists. split; [reflexivity|]. rewrite Hi in Hu. injection Hu as <-. cbn in *. split; [exact Hm|auto].
      * rewrite nth_error_list_set_neq by congruence. eauto.
    + intros j u l' x rest Hj Hu. destruct (Nat.eq_dec j i) as [->|Nj].
      * rewrite nth_error_list_set_eq in Hj by exact Li. injection Hj as <-. discriminate.
      * rewrite nth_error_list_set_neq in Hj by congruence. exact (Sd _ _ _ _ _ Hj Hu).
    + exact On.
    + intros j m ss H. cbn [lg_finished finish] in H. apply in_app_or in H. destruct H as [H|[H|[]]].
      * destruct (Dn j m ss H) as (Q1 & u & Hu & Hm & He). split; [exact Q1|]. destruct (Nat.eq_dec j i) as [->|Nj].
        -- rewrite nth_error_list_set_eq by exact Li. eexists. split; [reflexivity|]. rewrite Hi in Hu. injection Hu as <-. cbn in *. split; [exact Hm|]. intros _. split; intros [].
        -- rewrite nth_error_list_set_neq by congruence. eauto.
      * injection H as <- <- <-. split; [exact Es|]. rewrite nth_error_list_set_eq by exact Li. eexists. split; [reflexivity|]. cbn. split; [lia|]. intros _. split; intros [].
    + exact Gt.
  - (* add *)
    apply Q; auto; cbn; try (intros []; fail); try (right; split; [reflexivity|intros []]; fail). destruct (existsb (Nat.eqb s) (lg_sinks g)) eqn:E; [exact N|]. apply nodup_snoc; [exact N|].
    rewrite <- exists_in. congruence.
  - (* remove *)
    apply Q; auto; cbn; try (intros []; fail); try (right; split; [reflexivity|intros []]; fail). apply erase_nodup. exact N.
  - apply Q; auto; cbn; destruct a; auto; try (intros []); try (right; split; [reflexivity|intros []]; fail).
Qed.

Lemma threads_nth calls i t : nth_error (log_threads calls) i = Some t -> lt_id t = i /\ lt_pc t = PIdle /\ lt_count t = 0.
Proof.
  unfold log_threads. rewrite nth_error_map. destruct (nth_error (combine (seq 0 (length calls)) calls) i) as [[a c]|] eqn:E; [|discriminate].
  intros [= <-]. cbn. split; [|auto].
  assert (nth_error (map fst (combine (seq 0 (length calls)) calls)) i = Some a) as H by (rewrite nth_error_map, E; reflexivity).
  assert (forall (A B : Type) (l1 : list A) (l2 : list B), length l1 = length l2 -> map fst (combine l1 l2) = l1) as M.
  { intros A B. induction l1 as [|x l1 IH]; intros [|y l2]; cbn; try discriminate; [reflexivity|]. intros [= L]. rewrite IH by exact L. reflexivity. }
  rewrite M in H by apply seq_length. apply nth_error_nth with (d := 0) in H as H'.
  assert (i < length (seq 0 (length calls))) by (apply nth_error_Some; congruence). rewrite seq_length in H0. rewrite seq_nth in H' by exact H0. lia.
Qed.

Lemma linv_init data ss low calls : NoDup ss -> linv (LG data ss low [] []) (log_threads calls).
Proof.
  intros N. constructor; cbn; try contradiction; auto.
  - apply exclusive_init. apply Forall_forall. intros t Ht. apply In_nth_error in Ht. destruct Ht as [i Hi].
    apply threads_nth in Hi. unfold lholds. rewrite (proj1 (proj2 Hi)). reflexivity.
  - intros i t Hi. apply threads_nth in Hi. apply Hi.
  - intros i t l x rest Hi Hp. apply threads_nth in Hi. rewrite (proj1 (proj2 Hi)) in Hp. discriminate.
  - intros c. constructor.
Qed.
Lemma linv_reach data ss low calls g ts : NoDup ss -> log_reach data ss low calls g ts -> linv g ts.
Proof.
  intros N. unfold log_reach. intros H. remember (LG data ss low [] [], log_threads calls) as s eqn:Es. remember (g, ts) as s' eqn:Es'.
  revert g ts Es'. induction H as [s|s [g1 ts1] s2 H IH Hs]; intros g ts ->.
  - injection Es as -> ->. apply linv_init. exact N.
  - eapply inv_cstep; [apply IH; [exact Es|reflexivity]|exact Hs].
Qed.

Lemma threads_asked_assembled data ss low calls g ts : NoDup ss -> log_reach data ss low calls g ts ->
  (forall c l s d got, In (c, l, s, d, got) (lg_asked g) -> got = interested (Some (log_level_ d, sink_mode_ d, thread_id_ d, true)) (fst c) l) /\
  (forall c, NoDup (asked_in g c)) /\
  (forall c sinks, In (c, sinks) (lg_finished g) -> asked_in g c = sinks).
Proof.
  intros N R. pose proof (linv_reach _ _ _ _ _ _ N R) as V. split; [|split].
  - intros c l s d got H. rewrite (li_got _ _ V _ _ _ _ _ H). unfold sink_test, interested. destruct (sink_mode_ d); rewrite ?andb_true_r; [reflexivity|].
    rewrite (Nat.eqb_sym (fst c)). reflexivity.
  - apply (li_once _ _ V).
  - intros [i n] sinks H. apply (li_done _ _ V _ _ _ H).
Qed.
Lemma threads_exclusive_assembled data ss low calls g ts : log_reach data ss low calls g ts -> race_free lholds llocal lg_sinks (fun l g => set_sinks g l) ts.
Proof.
  intros R. apply race_free_by_lock.
  - apply (exclusive_steps _ _ _ _ _ R). apply exclusive_init. apply Forall_forall. cbn. intros t Ht. apply In_nth_error in Ht. destruct Ht as [i Hi].
    apply threads_nth in Hi. unfold lholds. rewrite (proj1 (proj2 Hi)). reflexivity.
  - intros g0 p g' p' L Hp. inversion L; subst; try reflexivity; try (destruct Hp; reflexivity). match goal with c : tcall |- _ => destruct c; reflexivity end.
  - intros g0 p g' p' d L Hp Hq. inversion L; subst; try discriminate; try (eexists; constructor; assumption).
    match goal with |- exists _, llocal _ (LT ?a ?b PIdle (?c :: ?r)) _ _ => destruct c; eexists; exact (l_start _ a b _ r) end.
Qed.

(** the lowest level: too high for a registered sink only while some thread is about to correct it *)
Definition pending (s : nat) (p : lpc) : Prop :=
  match p with
  | PWantRemove q a | PRemove q a => q = s /\ a = true
  | PWantAdd q | PAdd q => q = s
  | PReset _ => True
  | PUpdate rest a => In s rest \/ a = Some s
  | _ => False
  end.
Definition minv (g : lglobal) (ts : list lthread) : Prop :=
  NoDup (lg_sinks g) /\ forall s, In s (lg_sinks g) -> lg_lowest g <= log_level_ (lg_data g s) \/ exists i t, nth_error ts i = Some t /\ pending s (lt_pc t).

Lemma minv_step g ts g' ts' : minv g ts -> cstep lholds llocal (fun _ _ => False) (g, ts) (g', ts') -> minv g' ts'.
Proof.
  intros [N M] St. inversion St as [? ? i t ? t' Hi Hl Ha|? ? ? []]; subst.
  assert (Li : i < length ts) by (apply nth_error_Some; congruence).
  assert (Me : forall s, pending s (lt_pc t') -> exists j u, nth_error (list_set ts i t') j = Some u /\ pending s (lt_pc u)).
  { intros s H. exists i, t'. rewrite nth_error_list_set_eq by exact Li. auto. }
  assert (Other : forall s, (pending s (lt_pc t) -> pending s (lt_pc t')) -> (exists j u, nth_error ts j = Some u /\ pending s (lt_pc u)) ->
    exists j u, nth_error (list_set ts i t') j = Some u /\ pending s (lt_pc u)).
  { intros s H (j & u & Hj & Hu). destruct (Nat.eq_dec j i) as [->|Nj]; [apply Me, H; congruence|].
    exists j, u. rewrite nth_error_list_set_neq by congruence. auto. }
  split.
  - inversion Hl; subst; cbn; auto.
    + destruct c; cbn; auto.
    + destruct (existsb (Nat.eqb s) (lg_sinks g)) eqn:E; [exact N|]. apply nodup_snoc; [exact N|]. rewrite <- exists_in. congruence.
    + apply erase_nodup. exact N.
  - intros s Hs.
    assert (Quiet : lg_sinks g' = lg_sinks g -> lg_lowest g' <= lg_lowest g -> log_level_ (lg_data g' s) = log_level_ (lg_data g s) -> (pending s (lt_pc t) -> pending s (lt_pc t')) ->
      lg_lowest g' <= log_level_ (lg_data g' s) \/ exists j u, nth_error (list_set ts i t') j = Some u /\ pending s (lt_pc u)).
    { intros E1 E2 E3 H. rewrite E1 in Hs. destruct (M s Hs) as [Q|Q]; [left; lia|right; exact (Other s H Q)]. }
    inversion Hl; subst; try (apply Quiet; cbn; auto; fail).
    + destruct c as [q|q|q l|q m|l x|l x]; try (apply Quiet; cbn; auto; tauto).
      * cbn in Hs. destruct (Nat.eq_dec q s) as [->|Nq].
        -- right. apply Me. cbn. auto.
        -- apply Quiet; cbn; [reflexivity|lia| |tauto]. assert (s =? q = false) as -> by lia. reflexivity.
      * apply Quiet; cbn; auto. destruct (s =? q) eqn:E; [|reflexivity]. apply Nat.eqb_eq in E. subst. reflexivity.
    + right. apply Me. exact Logic.I.
    + right. apply Me. exact Logic.I.
    + right. apply Me. cbn. left. exact Hs.
    + cbn in Hs. cbn [lg_lowest set_lowest lg_data]. destruct (Nat.eq_dec s0 s) as [->|Nq].
      * left. destruct (log_level_ (lg_data g s) <? lg_lowest g) eqn:E; lia.
      * apply Quiet; cbn [lg_sinks lg_lowest set_lowest lg_data lt_pc pending]; auto.
        -- destruct (Nat.ltb_spec (log_level_ (lg_data g s0)) (lg_lowest g)); unfold level in *; lia.
        -- intros [[H|H]|H]; [congruence|auto|auto].
    + apply Quiet; cbn; auto. intros [[]| ->]. reflexivity.
Qed.
Lemma minv_reach data ss low calls g ts : NoDup ss -> (forall s, In s ss -> low <= log_level_ (data s)) -> log_reach data ss low calls g ts -> minv g ts.
Proof.
  intros N L. unfold log_reach. intros H. remember (LG data ss low [] [], log_threads calls) as s eqn:Es. remember (g, ts) as s' eqn:Es'.
  revert g ts Es'. induction H as [s|s [g1 ts1] s2 H IH Hs]; intros g ts ->.
  - injection Es as -> ->. split; [exact N|]. intros s Hs. left. exact (L s Hs).
  - eapply minv_step; [apply IH; [exact Es|reflexivity]|exact Hs].
Qed.
Lemma threads_quiet_assembled data ss low calls g ts : NoDup ss -> (forall s, In s ss -> low <= log_level_ (data s)) ->
  log_reach data ss low calls g ts -> (forall t, In t ts -> ~ registering t) ->
  forall s, In s (lg_sinks g) -> lg_lowest g <= log_level_ (lg_data g s).
Proof.
  intros N L R Q s Hs. destruct (minv_reach _ _ _ _ _ _ N L R) as [_ M]. destruct (M s Hs) as [H|(i & t & Hi & Hp)]; [exact H|].
  exfalso. apply (Q t); [eapply nth_error_In; exact Hi|]. unfold registering. destruct (lt_pc t); try exact I; exact Hp.
Qed.
