(** Proofs about file_resource_cache. *)
From Coq Require Import List Arith Bool Lia.
From Verif Require Import Base BaseProofs Conc CacheSpec CacheModel.
Import ListNotations.

Section Cache.
  Context {Path C T : Type} (eqb : Path -> Path -> bool) (eqb_ok : forall a b, eqb a b = true <-> a = b)
    (create : C -> option T) (create_total : forall v, create v <> None).
  Local Notation cg := (cglobal (Path := Path) (C := C) (T := T)).
  Local Notation ct := (cthread (Path := Path) (T := T)).
  Local Notation find_item := (find_item eqb).
  Local Notation set_item := (set_item eqb).

  Lemma eq_dec_path (p q : Path) : p = q \/ p <> q.
  Proof. destruct (eqb p q) eqn:E; [left; apply eqb_ok; exact E|right; intros ->; assert (eqb q q = true) by (apply eqb_ok; reflexivity); congruence]. Qed.
  Lemma find_set_eq (l : list (Path * item (T := T))) p x : find_item (set_item l p x) p = Some x.
  Proof.
    induction l as [|[q y] l IH]; cbn.
    - assert (eqb p p = true) as -> by (apply eqb_ok; reflexivity). reflexivity.
    - destruct (eqb q p) eqn:E; cbn; rewrite E; [reflexivity|exact IH].
  Qed.
  Lemma find_set_neq (l : list (Path * item (T := T))) p q x : p <> q -> find_item (set_item l p x) q = find_item l q.
  Proof.
    intros N. assert (Npq : eqb p q = false) by (destruct (eqb p q) eqn:E; [apply eqb_ok in E; contradiction|reflexivity]).
    induction l as [|[r y] l IH]; cbn; [rewrite Npq; reflexivity|].
    destruct (eqb r p) eqn:E; cbn; [apply eqb_ok in E; subst r; rewrite Npq; reflexivity|]. destruct (eqb r q); [reflexivity|exact IH].
  Qed.

  Lemma history_with (g : cg) l : history (with_items g l) = history g.
  Proof. reflexivity. Qed.

  Definition reloading (ts : list ct) (q : Path) : Prop := exists i t c0, nth_error ts i = Some t /\ ct_pc t = CReload q c0.

  Definition item_ok (g : cg) (p : Path) (x : item) : Prop :=
    (exists m v, file_at g p = Some (m, v) /\ it_file x <= m) /\
    made_from create (history g) p (it_valid x) (it_data x) /\ it_valid x <= clock g.
  Definition item_valid (g : cg) (p : Path) (x : item) : Prop :=
    it_checked x <= it_valid x /\ forall v, file_at g p = Some (it_file x, v) -> create v = Some (it_data x).

  Definition result_ok (g : cg) (r : Path * nat * bool * outcome T) : Prop :=
    match r with (p, c0, ck, o) =>
      match o with Ok t => made_from create (history g) p (c0 - if ck then 0 else 3) t 
      | Throw => exists c f, In (c, f) (history g) /\ c0 <= c /\ f p = None
      | UB => False
      end
    end.

  Definition pc_ok (g : cg) (pc : cpc) : Prop :=
    match pc with
    | CIdle => True
    | CFind p c0 => c0 <= clock g
    | CWantCheck p c0 w | CCheck p c0 w => c0 <= w <= clock g /\ exists x, find_item (cg_items g) p = Some x
    | CReload p c0 => c0 <= clock g /\ exists x, find_item (cg_items g) p = Some x /\ it_checked x <= clock g
    | CWantNew p c0 | CNew p c0 => c0 <= clock g /\ forall x, find_item (cg_items g) p = Some x -> c0 <= it_valid x
    | CCreate p c0 m t => c0 <= clock g /\ t <= clock g /\ exists m' v, file_at g p = Some (m', v) /\ m <= m'
    | CRelock p c0 => exists x, find_item (cg_items g) p = Some x /\ c0 <= it_valid x
    | CClone p c0 ck => exists x, find_item (cg_items g) p = Some x /\ c0 <= it_valid x + if ck then 0 else 3
    end.

  Record cinv (g : cg) (ts : list ct) : Prop := {
    ci_excl : exclusive_access cholds ts;
    ci_item : forall p x, find_item (cg_items g) p = Some x -> item_ok g p x;
    ci_valid : forall p x, find_item (cg_items g) p = Some x -> ~ reloading ts p -> item_valid g p x;
    ci_pc : forall i t, nth_error ts i = Some t -> pc_ok g (ct_pc t);
    ci_done : forall i t r, nth_error ts i = Some t -> In r (ct_done t) -> result_ok g r
  }.

  Lemma made_more h h' p c c' t : made_from (Path := Path) create h p c t -> incl h h' -> c' <= c -> made_from create h' p c' t.
  Proof. intros (k & f & m & v & H1 & H2 & H3 & H4) I L. exists k, f, m, v. split; [apply I; exact H1|]. split; [lia|auto]. Qed.

  (** what the others see of a step *)
  Definition later (g g' : cg) : Prop :=
    clock g <= clock g' /\ incl (history g) (history g') /\
    (forall p m v, file_at g p = Some (m, v) -> exists m' v', file_at g' p = Some (m', v') /\ m <= m' /\ (m = m' -> v = v')) /\
    (forall p x, find_item (cg_items g) p = Some x -> exists x', find_item (cg_items g') p = Some x' /\ it_valid x <= it_valid x') /\
    (forall p x', find_item (cg_items g') p = Some x' ->
       (exists x, find_item (cg_items g) p = Some x /\ it_valid x <= it_valid x') \/ clock g <= it_valid x').

  Lemma result_later g g' r : later g g' -> result_ok g r -> result_ok g' r.
  Proof.
    destruct r as [[[p c0] ck] [t| |]]; cbn -[history]; auto.
    - intros L H. eapply made_more; [exact H|apply L|lia].
    - intros L (c & f & H1 & H2). exists c, f. split; [apply L; exact H1|exact H2].
  Qed.

  Lemma pc_later g g' pc : later g g' -> (forall p c0, pc <> CReload p c0) -> pc_ok g pc -> pc_ok g' pc.
  Proof.
    intros (L1 & _ & L2 & L3 & L4) NR. destruct pc as [|p c0|p c0 w|p c0 w|p c0|p c0|p c0|p c0 m t|p c0|p c0 ck]; cbn; auto.
    - lia.
    - intros [H (x & Hx)]. split; [lia|]. destruct (L3 p x Hx) as (x' & Hx' & _). eauto.
    - intros [H (x & Hx)]. split; [lia|]. destruct (L3 p x Hx) as (x' & Hx' & _). eauto.
    - exfalso. exact (NR p c0 eq_refl).
    - intros [H Hx]. split; [lia|]. intros x' Hx'. destruct (L4 p x' Hx') as [(x & H1 & H2)|H2]; [specialize (Hx x H1)|]; lia.
    - intros [H Hx]. split; [lia|]. intros x' Hx'. destruct (L4 p x' Hx') as [(x & H1 & H2)|H2]; [specialize (Hx x H1)|]; lia.
    - intros (H1 & H2 & m' & v & Hf & Hm). split; [lia|]. split; [lia|]. destruct (L2 p m' v Hf) as (m2 & v2 & Hf2 & Hm2 & _). exists m2, v2. split; [exact Hf2|lia].
    - intros (x & Hx & H). destruct (L3 p x Hx) as (x' & Hx' & H'). exists x'. split; [exact Hx'|lia].
    - intros (x & Hx & H). destruct (L3 p x Hx) as (x' & Hx' & H'). exists x'. split; [exact Hx'|lia].
  Qed.

  Lemma later_refl (g : cg) : later g g.
  Proof.
    split; [lia|]. split; [apply incl_refl|]. split; [eauto 10|]. split; [eauto|]. intros p x H. left. eauto.
  Qed.

  Lemma later_set g p y : (forall x, find_item (cg_items g) p = Some x -> it_valid x <= it_valid y) ->
    (find_item (cg_items g) p = None -> clock g <= it_valid y) -> later g (with_items g (set_item (cg_items g) p y)).
  Proof.
    intros H1 H2. split; [apply le_n|]. split; [rewrite history_with; apply incl_refl|].
    split; [intros q m v H; exists m, v; auto|]. cbn [with_items cg_items]. split.
    - intros q x Hx. destruct (eq_dec_path p q) as [<-|N]; [rewrite find_set_eq; eauto|rewrite find_set_neq by exact N; eauto].
    - intros q x Hx. destruct (eq_dec_path p q) as [<-|N].
      + rewrite find_set_eq in Hx. injection Hx as <-. destruct (find_item (cg_items g) p) as [x|] eqn:E; [left; eauto|right; auto].
      + rewrite find_set_neq in Hx by exact N. left. eauto.
  Qed.

  Lemma later_env g g' : cenv g g' -> dated (history g') -> later g g'.
  Proof.
    intros H D. inversion H; subst. split; [assumption|]. split; [intros x Hx; right; exact Hx|].
    split; [|split; [eauto|intros p x Hx; left; eauto]].
    intros p m v Hf. unfold dated, history in D. inversion D as [|? ? D1 D2]; subst. rewrite Forall_forall in D1.
    apply (D1 (cg_now g)); [left; reflexivity|exact Hf].
  Qed.

  (** a step of thread [i] from [p] to [p'] that leaves the shared state alone *)
  Lemma inv_quiet g ts i p p' : cinv g ts -> exclusive_access cholds (list_set ts i p') -> nth_error ts i = Some p ->
    (forall q c0, ct_pc p <> CReload q c0) -> pc_ok g (ct_pc p') -> (forall r, In r (ct_done p') -> In r (ct_done p) \/ result_ok g r) ->
    cinv g (list_set ts i p').
  Proof.
    intros I X Hi NR Hpc Hd.
    assert (Li : i < length ts) by (apply nth_error_Some; congruence).
    assert (Nth : forall j t, nth_error (list_set ts i p') j = Some t -> (j = i /\ t = p') \/ (j <> i /\ nth_error ts j = Some t)).
    { intros j t H. destruct (Nat.eq_dec j i) as [->|N].
      - rewrite nth_error_list_set_eq in H by exact Li. injection H as <-. auto.
      - rewrite nth_error_list_set_neq in H by congruence. auto. }
    constructor; [exact X|apply I| | |].
    - intros q x Hx NQ. apply (ci_valid _ _ I q x Hx). intros (j & t & c0 & Hj & Ht). apply NQ. exists j, t, c0. split; [|exact Ht].
      rewrite nth_error_list_set_neq; [exact Hj|]. intros ->. rewrite Hi in Hj. injection Hj as <-. exact (NR q c0 Ht).
    - intros j t H. destruct (Nth _ _ H) as [[_ ->]|[_ H']]; [exact Hpc|apply (ci_pc _ _ I _ _ H')].
    - intros j t r H Hr. destruct (Nth _ _ H) as [[_ ->]|[_ H']]; [|apply (ci_done _ _ I _ _ _ H' Hr)].
      destruct (Hd r Hr) as [Q|Q]; [apply (ci_done _ _ I _ _ _ Hi Q)|exact Q].
  Qed.

  (** a step of thread [i], holding the mutex exclusively, that changes the item of [q] *)
  Lemma inv_write g ts i p p' q y : cinv g ts -> exclusive_access cholds (list_set ts i p') -> nth_error ts i = Some p -> cholds p = Exclusive ->
    (forall x, find_item (cg_items g) q = Some x -> it_valid x <= it_valid y) -> (find_item (cg_items g) q = None -> clock g <= it_valid y) ->
    (forall r c0, ct_pc p = CReload r c0 -> r = q) ->
    item_ok g q y -> ((exists c0, ct_pc p' = CReload q c0) \/ item_valid g q y) ->
    pc_ok (with_items g (set_item (cg_items g) q y)) (ct_pc p') ->
    (forall r, In r (ct_done p') -> In r (ct_done p) \/ result_ok g r) ->
    cinv (with_items g (set_item (cg_items g) q y)) (list_set ts i p').
  Proof.
    intros I X Hi He H1 H2 NR Hok Hv Hpc Hd. pose proof (later_set g q y H1 H2) as L.
    assert (Li : i < length ts) by (apply nth_error_Some; congruence).
    assert (Nth : forall j t, nth_error (list_set ts i p') j = Some t -> (j = i /\ t = p') \/ (j <> i /\ nth_error ts j = Some t)).
    { intros j t H. destruct (Nat.eq_dec j i) as [->|N].
      - rewrite nth_error_list_set_eq in H by exact Li. injection H as <-. auto.
      - rewrite nth_error_list_set_neq in H by congruence. auto. }
    assert (Al : forall j t, j <> i -> nth_error ts j = Some t -> cholds t = Free).
    { intros j t N Hj. apply (ci_excl _ _ I i j p t); auto. }
    constructor; [exact X| | | |].
    - intros r x Hx. cbn [with_items cg_items] in Hx. destruct (eq_dec_path q r) as [<-|N].
      + rewrite find_set_eq in Hx. injection Hx as <-. exact Hok.
      + rewrite find_set_neq in Hx by exact N. exact (ci_item _ _ I r x Hx).
    - intros r x Hx NQ. cbn [with_items cg_items] in Hx. destruct (eq_dec_path q r) as [<-|N].
      + rewrite find_set_eq in Hx. injection Hx as <-. destruct Hv as [(c0 & Hc)|Hv]; [|exact Hv].
        exfalso. apply NQ. exists i, p', c0. split; [apply nth_error_list_set_eq; exact Li|exact Hc].
      + rewrite find_set_neq in Hx by exact N. apply (ci_valid _ _ I r x Hx). intros (j & t & c0 & Hj & Ht).
        destruct (Nat.eq_dec j i) as [->|Nj]; [rewrite Hi in Hj; injection Hj as <-; apply N; symmetry; exact (NR _ _ Ht)|].
        specialize (Al j t Nj Hj). unfold cholds in Al. rewrite Ht in Al. discriminate.
    - intros j t H. destruct (Nth _ _ H) as [[_ ->]|[N H']]; [exact Hpc|].
      apply (pc_later _ _ _ L); [|apply (ci_pc _ _ I _ _ H')]. intros r c0 Ht. specialize (Al j t N H'). unfold cholds in Al. rewrite Ht in Al. discriminate.
    - intros j t r H Hr. apply (result_later _ _ _ L). destruct (Nth _ _ H) as [[_ ->]|[_ H']]; [|apply (ci_done _ _ I _ _ _ H' Hr)].
      destruct (Hd r Hr) as [Q|Q]; [apply (ci_done _ _ I _ _ _ Hi Q)|exact Q].
  Qed.

  Lemma now_made (g : cg) p m v t : file_at g p = Some (m, v) -> create v = Some t -> made_from create (history g) p (clock g) t.
  Proof.
    intros H1 H2. exists (clock g), (snd (cg_now g)), m, v. split; [left; unfold clock; destruct (cg_now g); reflexivity|]. auto.
  Qed.

  Lemma now_missing (g : cg) (p : Path) c0 : c0 <= clock g -> file_at g p = None -> exists c f, In (c, f) (history g) /\ c0 <= c /\ f p = None.
  Proof.
    intros H1 H2. exists (clock g), (snd (cg_now g)). split; [left; unfold clock; destruct (cg_now g); reflexivity|]. auto.
  Qed.

  Lemma inv_step g ts g' ts' : cinv g ts -> cstep cholds (clocal eqb create) cenv (g, ts) (g', ts') -> dated (history g') -> cinv g' ts'.
  Proof.
    intros I St D. pose proof (exclusive_step _ _ _ _ _ _ _ St (ci_excl _ _ I)) as X.
    inversion St as [? ? i p ? p' Hi Hl Ha|? ? ? He]; subst.
    - pose proof (ci_pc _ _ I i p Hi) as Pc.
      assert (Alone : cholds p <> Free -> forall q, (forall c0, ct_pc p <> CReload q c0) -> ~ reloading ts q).
      { intros Hp q Nq (j & t & c0 & Hj & Ht). destruct (Nat.eq_dec j i) as [->|Nj]; [rewrite Hi in Hj; injection Hj as <-; exact (Nq c0 Ht)|].
        apply Hp. apply (ci_excl _ _ I j i t p Nj Hj Hi). unfold cholds. rewrite Ht. reflexivity. }
      inversion Hl; subst; clear Hl; cbn [ct_pc pc_ok] in Pc;
      try (apply (inv_quiet _ _ _ _ _ I X Hi); cbn [ct_pc ct_done pc_ok];
           [discriminate| |try (intros r0 Hr0; apply in_app_iff in Hr0; destruct Hr0 as [Hr0|[<-|[]]]; [left; exact Hr0|right; cbn -[history]]); try (intros r0 Hr0; left; exact Hr0)]).
      + lia.
      + exists x. split; [assumption|]. destruct (ci_valid _ _ I p0 x) as [V _]; [assumption|apply Alone; discriminate|].
        unfold min_check_modified_interval in *. lia.
      + split; [cbn in Pc; lia|eauto].
      + exact Logic.I.
      + apply now_missing; assumption.
      + split; [exact Pc|]. intros x Hx. congruence.
      + exact Pc.
      + exact Logic.I.
      + destruct Pc as [_ (x & Hx)]. congruence.
      + (* time of a vanished file *)
        destruct (ci_item _ _ I p0 x) as [(m & v & Hf & _) _]; [assumption|congruence].
      + (* unchanged *)
        destruct Pc as [Pw _]. destruct (ci_item _ _ I p0 x) as (_ & M & Hc); [assumption|].
        destruct (ci_valid _ _ I p0 x) as [V1 V2]; [assumption|apply Alone; discriminate|].
        apply (inv_write g ts i _ _ p0 _ I X Hi eq_refl); cbn [ct_pc ct_done it_valid it_file it_checked it_data].
        * intros x0 Hx0. assert (x0 = x) as -> by congruence. exact Hc.
        * lia.
        * discriminate.
        * split; [exists (it_file x), v; auto|]. split; [|unfold clock in *; cbn; lia]. eapply now_made; eauto.
        * right. split; [unfold clock in *; cbn; lia|cbn]. exact V2.
        * exists (Item (it_file x) w (it_data x) (clock g)). split; [cbn; apply find_set_eq|unfold clock in *; cbn; lia].
        * auto.
      + (* changed *)
        destruct Pc as [Pw _]. destruct (ci_item _ _ I p0 x) as ((m1 & v1 & Hf1 & Hm1) & M & Hc); [assumption|].
        apply (inv_write g ts i _ _ p0 _ I X Hi eq_refl); cbn [ct_pc ct_done it_valid it_file it_checked it_data].
        * intros x0 Hx0. assert (x0 = x) as -> by congruence. lia.
        * congruence.
        * discriminate.
        * split; [exists m, v; auto|]. split; [exact M|exact Hc].
        * left. eauto.
        * split; [unfold clock in *; cbn; lia|]. exists (Item m w (it_data x) (it_valid x)). split; [cbn; apply find_set_eq|unfold clock in *; cbn; lia].
        * auto.
      + (* reload *)
        destruct Pc as [Pw (x0 & Hx0 & Hck)]. assert (x0 = x) as -> by congruence. destruct (ci_item _ _ I p0 x) as ((m1 & v1 & Hf1 & Hm1) & M & Hc); [assumption|].
        assert (m1 = m /\ v1 = v) as [-> ->] by (split; congruence).
        apply (inv_write g ts i _ _ p0 _ I X Hi eq_refl); cbn [ct_pc ct_done it_valid it_file it_checked it_data].
        * intros x1 Hx1. assert (x1 = x) as -> by congruence. exact Hc.
        * congruence.
        * intros r0 c1 [= <- _]. reflexivity.
        * split; [exists m, v; auto|]. split; [eapply now_made; eauto|unfold clock in *; cbn; lia].
        * right. split; [cbn; exact Hck|cbn]. intros v2 Hv2. congruence.
        * exists (Item (it_file x) (it_checked x) t (clock g)). split; [cbn; apply find_set_eq|unfold clock in *; cbn; lia].
        * auto.
      + destruct Pc as [_ (x & Hx & _)]. congruence.
      + exfalso. destruct Pc as [_ (x & Hx & _)]. destruct (ci_item _ _ I p0 x Hx) as ((m1 & v1 & Hf1 & _) & _).
        destruct H as [H|(m & v & H & H')]; [congruence|]. exact (create_total _ H').
      + exact Pc.
      + destruct Pc as [_ Pc]. exists x. auto.
      + exact Logic.I.
      + apply now_missing; [apply Pc|assumption].
      + destruct Pc as [Pc _]. split; [exact Pc|]. split; [lia|]. eauto.
      + (* new item *)
        destruct Pc as (Pc & Pt & m1 & v1 & Hf1 & Hm1). assert (m1 = m /\ v1 = v) as [-> ->] by (split; congruence).
        assert (Dx : forall x, find_item (cg_items g) p0 = Some x -> it_valid x <= clock g) by (intros x Hx; apply (ci_item _ _ I p0 x Hx)).
        apply (inv_write g ts i _ _ p0 _ I X Hi eq_refl); cbn [ct_pc ct_done it_valid it_file it_checked it_data].
        * exact Dx.
        * lia.
        * discriminate.
        * split; [exists m, v; auto|]. split; [eapply now_made; eauto|unfold clock in *; cbn; lia].
        * right. split; [cbn; exact Pt|cbn]. intros v2 Hv2. congruence.
        * exists (Item m0 t0 t (clock g)). split; [cbn; apply find_set_eq|unfold clock in *; cbn; lia].
        * auto.
      + exact Logic.I.
      + exfalso. destruct Pc as (_ & _ & m1 & v1 & Hf1 & _). destruct H as [H|(m & v & H & H')]; [congruence|]. exact (create_total _ H').
      + destruct Pc as (x & Hx & Hc). exists x. split; [exact Hx|]. lia.
      + exact Logic.I.
      + destruct Pc as (x0 & Hx0 & Hc). assert (x0 = x) as -> by congruence. destruct (ci_item _ _ I p0 x Hx0) as (_ & M & _).
        eapply made_more; [exact M|apply incl_refl|]. destruct ck; lia.
      + exact Logic.I.
      + destruct Pc as (x & Hx & _). congruence.
    - pose proof (later_env _ _ He D) as L.
      assert (It : cg_items g' = cg_items g) by (inversion He; reflexivity).
      constructor; [exact X| | | |].
      + intros q x Hx. rewrite It in Hx. destruct (ci_item _ _ I q x Hx) as ((m & v & Hf & Hm) & M & Hc).
        destruct L as (L1 & L2 & L3 & _). destruct (L3 q m v Hf) as (m' & v' & Hf' & Hm' & _).
        split; [exists m', v'; split; [exact Hf'|lia]|]. split; [eapply made_more; [exact M|exact L2|lia]|lia].
      + intros q x Hx NQ. rewrite It in Hx. destruct (ci_item _ _ I q x Hx) as ((m & v & Hf & Hm) & _ & _).
        destruct (ci_valid _ _ I q x Hx NQ) as [V1 V2]. split; [exact V1|]. intros v' Hv'.
        destruct L as (_ & _ & L3 & _). destruct (L3 q m v Hf) as (m2 & v2 & Hf2 & Hm2 & Hv2).
        rewrite Hv' in Hf2. injection Hf2 as <- <-. assert (m = it_file x) as -> by lia. rewrite <- (Hv2 eq_refl). apply V2. exact Hf.
      + intros j t Hj. pose proof (ci_pc _ _ I j t Hj) as P. destruct (ct_pc t) eqn:E; try (rewrite <- E in *; apply (pc_later _ _ _ L); [intros; congruence|exact P]).
        destruct P as [P1 (x & P2 & P3)]. destruct L as (L1 & _). split; [lia|]. rewrite It. exists x. split; [exact P2|lia].
      + intros j t r Hj Hr. apply (result_later _ _ _ L). apply (ci_done _ _ I j t r Hj Hr).
  Qed.

  Lemma history_step g ts g' ts' : cstep cholds (clocal eqb create) cenv (g, ts) (g', ts') -> dated (history g') -> dated (history g).
  Proof.
    intros St D. inversion St as [? ? i p ? p' Hi Hl Ha|? ? ? He]; subst.
    - assert (history g' = history g) as <-; [|exact D]. inversion Hl; reflexivity.
    - inversion He; subst. unfold dated in D. inversion D. assumption.
  Qed.

  Lemma inv_init now calls : cinv (fst (cache_start now calls)) (snd (cache_start now calls)).
  Proof.
    assert (N : forall i t, nth_error (snd (cache_start (C := C) (T := T) now calls)) i = Some t -> ct_pc t = CIdle /\ ct_done t = []).
    { cbn. intros i t Hi. rewrite nth_error_map in Hi. destruct (nth_error calls i); [|discriminate]. injection Hi as <-. auto. }
    constructor.
    - apply exclusive_init. apply Forall_forall. intros p Hp. apply in_map_iff in Hp. destruct Hp as (l & <- & _). reflexivity.
    - discriminate.
    - discriminate.
    - intros i t Hi. rewrite (proj1 (N i t Hi)). exact I.
    - intros i t r Hi. rewrite (proj2 (N i t Hi)). contradiction.
  Qed.

  Lemma inv_reach now calls g ts : cache_reach eqb create now calls g ts -> dated (history g) -> cinv g ts.
  Proof.
    unfold cache_reach. intros H. remember (cache_start now calls) as s eqn:Es. remember (g, ts) as s' eqn:Es'.
    revert g ts Es'. induction H as [s|s [g1 ts1] s2 H IH Hs]; intros g ts -> D.
    - pose proof (inv_init now calls) as I. rewrite <- Es in I. exact I.
    - eapply inv_step; [apply IH; [exact Es|reflexivity|eapply history_step; eassumption]|exact Hs|exact D].
  Qed.

  Lemma fresh_assembled now calls g ts : cache_reach eqb create now calls g ts -> dated (history g) ->
    forall t p c0 looked o, In t ts -> In (p, c0, looked, o) (ct_done t) ->
    match o with
    | Ok r => made_from create (history g) p (c0 - if looked then 0 else 3) r
    | Throw => exists c f, In (c, f) (history g) /\ c0 <= c /\ f p = None
    | UB => False
    end.
  Proof.
    intros R D t p c0 ck o Ht Hr. apply In_nth_error in Ht. destruct Ht as [i Hi].
    exact (ci_done _ _ (inv_reach _ _ _ _ R D) i t _ Hi Hr).
  Qed.
End Cache.

Section Locks.
  Context {Path C T : Type} (eqb : Path -> Path -> bool) (create : C -> option T).

  Lemma cache_exclusive_assembled now calls g ts : cache_reach eqb create now calls g ts ->
    race_free cholds (clocal eqb create) cg_items (fun l g => with_items g l) ts.
  Proof.
    intros R. apply race_free_by_lock.
    - apply (exclusive_steps _ _ _ _ _ R). apply exclusive_init. apply Forall_forall.
      intros p Hp. cbn in Hp. apply in_map_iff in Hp. destruct Hp as (l & <- & _). reflexivity.
    - intros g0 p g' p' L Hp. inversion L; subst; try reflexivity; destruct Hp; reflexivity.
    - intros g0 p g' p' d L Hp Hq. inversion L; subst; discriminate.
  Qed.

  Lemma cache_progress_assembled (g : cglobal (Path := Path) (C := C) (T := T)) ts :
    (exists t, In t ts /\ ~ (ct_pc t = CIdle /\ ct_todo t = [])) -> exists s', cstep cholds (clocal eqb create) (fun _ _ => False) (g, ts) s'.
  Proof.
    intros (t & Ht & Hf). apply (progress cholds (clocal eqb create) (fun _ _ => False) (fun t => ct_pc t = CIdle /\ ct_todo t = [])).
    - intros [pc todo d] [E _]. cbn in E. subst pc. reflexivity.
    - intros g0 [pc todo d] Hn. destruct pc as [|p c0|p c0 w|p c0 w|p c0|p c0|p c0|p c0 m t0|p c0|p c0 ck].
      + destruct todo as [|k r]; [exfalso; apply Hn; split; reflexivity|]. do 2 eexists. split; [apply c_start|left; reflexivity].
      + destruct (find_item eqb (cg_items g0) p) as [x|] eqn:E.
        * destruct (le_lt_dec (clock g0) (it_checked x + min_check_modified_interval)) as [L|L].
          -- do 2 eexists. split; [eapply c_recent; eassumption|right; right; reflexivity].
          -- do 2 eexists. split; [eapply c_old; eassumption|right; left; reflexivity].
        * destruct (file_at g0 p) as [f|] eqn:F.
          -- do 2 eexists. split; [apply c_unknown; [exact E|congruence]|right; left; reflexivity].
          -- do 2 eexists. split; [apply c_missing; assumption|right; left; reflexivity].
      + do 2 eexists. split; [apply c_lock_check|left; reflexivity].
      + destruct (find_item eqb (cg_items g0) p) as [x|] eqn:E; [|do 2 eexists; split; [apply c_check_ub; exact E|right; left; reflexivity]].
        destruct (file_at g0 p) as [[m v]|] eqn:F; [|do 2 eexists; split; [eapply c_check_throw; eassumption|right; left; reflexivity]].
        destruct (Nat.eq_dec m (it_file x)) as [->|N].
        * do 2 eexists. split; [eapply c_check_same; eassumption|right; left; reflexivity].
        * do 2 eexists. split; [eapply c_check_changed; eassumption|right; right; reflexivity].
      + destruct (find_item eqb (cg_items g0) p) as [x|] eqn:E; [|do 2 eexists; split; [apply c_reload_ub; exact E|right; left; reflexivity]].
        destruct (file_at g0 p) as [[m v]|] eqn:F; [|do 2 eexists; split; [eapply c_reload_throw; left; exact F|right; left; reflexivity]].
        destruct (create v) as [r|] eqn:Ec.
        * do 2 eexists. split; [eapply c_reload; eassumption|right; left; reflexivity].
        * do 2 eexists. split; [eapply c_reload_throw; right; eauto|right; left; reflexivity].
      + do 2 eexists. split; [apply c_lock_new|left; reflexivity].
      + destruct (find_item eqb (cg_items g0) p) as [x|] eqn:E; [do 2 eexists; split; [eapply c_new_found; exact E|right; left; reflexivity]|].
        destruct (file_at g0 p) as [[m v]|] eqn:F; [|do 2 eexists; split; [eapply c_new_throw; eassumption|right; left; reflexivity]].
        do 2 eexists. split; [eapply c_new; eassumption|right; right; reflexivity].
      + destruct (file_at g0 p) as [[m' v]|] eqn:F; [|do 2 eexists; split; [eapply c_create_throw; left; exact F|right; left; reflexivity]].
        destruct (create v) as [r|] eqn:Ec.
        * do 2 eexists. split; [eapply c_create; eassumption|right; left; reflexivity].
        * do 2 eexists. split; [eapply c_create_throw; right; eauto|right; left; reflexivity].
      + do 2 eexists. split; [apply c_relock|left; reflexivity].
      + destruct (find_item eqb (cg_items g0) p) as [x|] eqn:E.
        * do 2 eexists. split; [eapply c_clone; exact E|right; left; reflexivity].
        * do 2 eexists. split; [eapply c_clone_ub; exact E|right; left; reflexivity].
    - apply In_nth_error in Ht. destruct Ht as [i Hi]. eauto.
  Qed.

  Definition cmeasure (t : cthread (Path := Path) (T := T)) : nat :=
    7 * length (ct_todo t) +
    match ct_pc t with
    | CIdle => 0 | CFind _ _ => 6 | CWantCheck _ _ _ | CWantNew _ _ => 5 | CCheck _ _ _ | CNew _ _ => 4
    | CReload _ _ | CCreate _ _ _ _ => 3 | CRelock _ _ => 2 | CClone _ _ _ => 1
    end.

  Lemma cache_bounded_assembled now calls n s' : tsteps cholds (clocal eqb create) cenv n (cache_start now calls) s' -> n <= 7 * length (concat calls).
  Proof.
    intros H. pose proof (bounded cholds (clocal eqb create) cenv cmeasure) as B.
    specialize (B ltac:(intros g p g' p' Q; inversion Q; subst; unfold cmeasure; cbn [ct_todo ct_pc length]; lia) _ _ _ H).
    assert (list_sum (map cmeasure (snd (cache_start (C := C) now calls))) = 7 * length (concat calls)) as E; [|rewrite E in B; lia].
    clear. cbn [cache_start snd]. induction calls as [|l c IH]; [reflexivity|]. cbn [map list_sum concat]. rewrite app_length.
    cbn. cbn in IH. unfold list_sum in *. rewrite IH. unfold cmeasure. cbn. lia.
  Qed.
End Locks.
