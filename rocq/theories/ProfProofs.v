(** Lemmas about the model of the profiler. *)
From Coq Require Import List ZArith Bool Lia ZifyBool.
From Verif Require Import Base BaseProofs ProfSpec ProfModel.
Import ListNotations.
Local Open Scope Z_scope.

(** the tree of sections *)
Record tree (l : list section) : Prop := {
  tr_root : exists s, nth_error l 0 = Some s /\ s_parent s = None;
  tr_parent : forall i s, nth_error l (S i) = Some s -> exists p, s_parent s = Some p /\ (p < S i)%nat;
  tr_unique : forall i j s s', nth_error l i = Some s -> nth_error l j = Some s' -> s_parent s = s_parent s' -> s_parent s <> None -> s_name s = s_name s' -> i = j }.

Lemma snoc_inj {A} (a b : list A) x y : a ++ [x] = b ++ [y] -> a = b /\ x = y.
Proof. apply app_inj_tail. Qed.
Lemma path_unique l i q : call_path l i q -> tree l -> forall q', call_path l i q' -> q = q'.
Proof.
  intros H T. induction H as [s H|i s p q Hi Hp H IH]; intros q' H'.
  - inversion H' as [|? s' p' q2 Hi Hp Hq]; subst; [reflexivity|]. destruct (tr_root l T) as (r & Hr & Hn). congruence.
  - inversion H' as [s' Hs|? s' p' q2 Hi' Hp' Hq]; subst.
    + destruct (tr_root l T) as (r & Hr & Hn). congruence.
    + assert (s' = s) as -> by congruence. assert (p' = p) as -> by congruence. f_equal. exact (IH _ Hq).
Qed.
Lemma path_index l i q : call_path l i q -> tree l -> forall j, call_path l j q -> i = j.
Proof.
  intros H T. induction H as [s H|i s p q Hi Hp H IH]; intros j H'.
  - inversion H' as [|? s' p' q2 Hi Hp Hq]; subst; [reflexivity|]. destruct q2; discriminate.
  - inversion H' as [s' Hs Hx Hy|? s' p' q2 Hi' Hp' Hq Hx Hy]; subst; [destruct q; discriminate|].
    apply snoc_inj in Hy. destruct Hy as [-> Hn]. pose proof (IH _ Hq) as ->. apply (tr_unique l T i j s s'); congruence.
Qed.
Lemma path_in l i q : call_path l i q -> exists s, nth_error l i = Some s.
Proof. destruct 1; eauto. Qed.
Lemma path_total l : tree l -> forall i, (i < length l)%nat -> exists q, call_path l i q.
Proof.
  intros T i. induction (lt_wf i) as [i _ IH]. intros H. destruct i as [|i].
  - destruct (tr_root l T) as (s & Hs & _). exists []. econstructor. exact Hs.
  - destruct (nth_error l (S i)) as [s|] eqn:E; [|apply nth_error_None in E; lia]. destruct (tr_parent l T i s E) as (p & Hp & Hl).
    destruct (IH p Hl ltac:(lia)) as [q Hq]. exists (q ++ [s_name s]). econstructor; eauto.
Qed.

(** replacing the figures of one section *)
Definition alike (s s' : section) : Prop := s_name s' = s_name s /\ s_parent s' = s_parent s.
Lemma set_lookup (l : list section) i s' j : (i < length l)%nat -> nth_error (list_set l i s') j = if (j =? i)%nat then Some s' else nth_error l j.
Proof.
  intros H. destruct (Nat.eqb_spec j i) as [->|N]; [apply nth_error_list_set_eq; exact H|apply nth_error_list_set_neq; congruence].
Qed.
Lemma set_alike l i s s' : nth_error l i = Some s -> alike s s' ->
  forall j t, nth_error (list_set l i s') j = Some t -> exists t0, nth_error l j = Some t0 /\ alike t0 t.
Proof.
  intros H A j t. rewrite set_lookup by (apply nth_error_Some; congruence). destruct (Nat.eqb_spec j i) as [->|N].
  - intros [= <-]. eauto.
  - intros Ht. exists t. split; [exact Ht|]. split; reflexivity.
Qed.
Lemma set_alike' l i s s' : nth_error l i = Some s -> alike s s' ->
  forall j t, nth_error l j = Some t -> exists t', nth_error (list_set l i s') j = Some t' /\ alike t t'.
Proof.
  intros H A j t Ht. rewrite set_lookup by (apply nth_error_Some; congruence). destruct (Nat.eqb_spec j i) as [->|N].
  - exists s'. split; [reflexivity|]. assert (t = s) as -> by congruence. exact A.
  - exists t. split; [exact Ht|]. split; reflexivity.
Qed.
Lemma set_tree l i s s' : nth_error l i = Some s -> alike s s' -> tree l -> tree (list_set l i s').
Proof.
  intros H A [T1 T2 T3]. constructor.
  - destruct T1 as (r & Hr & Hn). destruct (set_alike' l i s s' H A _ _ Hr) as (r' & Hr' & A1 & A2). exists r'. split; [exact Hr'|congruence].
  - intros j t Ht. destruct (set_alike l i s s' H A _ _ Ht) as (t0 & Ht0 & A1 & A2). rewrite A2. exact (T2 j t0 Ht0).
  - intros j k t u Ht Hu E1 E2 E3. destruct (set_alike l i s s' H A _ _ Ht) as (t0 & Ht0 & A1 & A2). destruct (set_alike l i s s' H A _ _ Hu) as (u0 & Hu0 & B1 & B2).
    apply (T3 j k t0 u0); congruence.
Qed.
Lemma set_path l i s s' : nth_error l i = Some s -> alike s s' -> forall j q, call_path (list_set l i s') j q <-> call_path l j q.
Proof.
  intros H A j q. split; intros P.
  - induction P as [t Ht|j t p q Ht Hp P IH].
    + destruct (set_alike l i s s' H A _ _ Ht) as (t0 & Ht0 & _). econstructor; eauto.
    + destruct (set_alike l i s s' H A _ _ Ht) as (t0 & Ht0 & A1 & A2). rewrite A1. apply (path_child _ _ _ p); [exact Ht0|congruence|exact IH].
  - induction P as [t Ht|j t p q Ht Hp P IH].
    + destruct (set_alike' l i s s' H A _ _ Ht) as (t0 & Ht0 & _). econstructor; eauto.
    + destruct (set_alike' l i s s' H A _ _ Ht) as (t0 & Ht0 & A1 & A2). rewrite <- A1. apply (path_child _ _ _ p); [exact Ht0|congruence|exact IH].
Qed.

(** adding a section *)
Lemma add_lookup (l : list section) s j t : nth_error (l ++ [s]) j = Some t <-> nth_error l j = Some t \/ j = length l /\ t = s.
Proof.
  destruct (Nat.ltb_spec j (length l)).
  - rewrite nth_error_app1 by exact H. split; [auto|]. intros [H1|[-> _]]; [exact H1|lia].
  - rewrite nth_error_app2 by exact H. split.
    + destruct (j - length l)%nat as [|[|k]] eqn:E; cbn; try discriminate. intros [= <-]. right. split; [lia|reflexivity].
    + intros [H1|[-> ->]]; [exfalso; assert (nth_error l j = None) by (apply nth_error_None; exact H); congruence|]. rewrite Nat.sub_diag. reflexivity.
Qed.
Lemma add_tree l n p t : tree l -> (p < length l)%nat -> (forall i s, nth_error l i = Some s -> s_parent s = Some p -> s_name s <> n) ->
  tree (l ++ [Sec n (Some p) 0 t 0]).
Proof.
  intros [T1 T2 T3] Hp Hn. constructor.
  - destruct T1 as (r & Hr & Hx). exists r. split; [apply add_lookup; left; exact Hr|exact Hx].
  - intros i s Hs. apply add_lookup in Hs. destruct Hs as [Hs|[Hi ->]]; [exact (T2 i s Hs)|]. exists p. split; [reflexivity|lia].
  - intros i j s s' Hs Hs' E1 E2 E3. apply add_lookup in Hs, Hs'. destruct Hs as [Hs|[Hi ->]], Hs' as [Hs'|[Hj ->]].
    + apply (T3 i j s s'); assumption.
    + cbn in *. exfalso. exact (Hn i s Hs E1 E3).
    + cbn in *. exfalso. symmetry in E1, E3. exact (Hn j s' Hs' E1 E3).
    + lia.
Qed.
Lemma add_path l n p t : tree l -> (p < length l)%nat -> forall j q,
  call_path (l ++ [Sec n (Some p) 0 t 0]) j q <-> call_path l j q \/ j = length l /\ exists q', call_path l p q' /\ q = q' ++ [n].
Proof.
  intros T Hp j q. split.
  - intros P. induction P as [s Hs|j s k q Hs Hk P IH].
    + left. destruct (tr_root l T) as (r & Hr & _). econstructor. exact Hr.
    + apply add_lookup in Hs. destruct Hs as [Hs|[-> ->]].
      * destruct IH as [IH|[-> _]]; [left; econstructor; eauto|]. exfalso.
        destruct j as [|j]; [destruct (tr_root l T) as (r & Hr & Hx); congruence|]. destruct (tr_parent l T j s Hs) as (k' & Hk' & L).
        assert (S j < length l)%nat by (apply nth_error_Some; congruence). assert (k' = length l) by congruence. lia.
      * cbn in Hk. injection Hk as <-. right. split; [reflexivity|]. destruct IH as [IH|[E _]]; [|lia]. exists q. auto.
  - assert (M : forall j q, call_path l j q -> call_path (l ++ [Sec n (Some p) 0 t 0]) j q).
    { intros j' q' P. induction P as [s Hs|j' s k q' Hs Hk P IH]; [econstructor; apply add_lookup; left; exact Hs|].
      econstructor; [apply add_lookup; left; exact Hs|exact Hk|exact IH]. }
    intros [P|[-> (q' & P & ->)]]; [exact (M _ _ P)|]. change n with (s_name (Sec n (Some p) 0 t 0)). econstructor; [apply add_lookup; right; auto|reflexivity|exact (M _ _ P)].
Qed.

(** looking for a section *)
Lemma find_from_some l i n p j : find_from l i n p = Some j -> (i <= j)%nat /\ exists s, nth_error l (j - i) = Some s /\ s_name s = n /\ s_parent s = Some p.
Proof.
  revert i. induction l as [|s l IH]; intros i; cbn; [discriminate|].
  destruct (s_name s =? n)%nat eqn:E1; cbn.
  - destruct (s_parent s) as [q|] eqn:E2; [destruct (Nat.eqb_spec q p) as [->|N]|].
    + intros [= <-]. rewrite Nat.sub_diag. split; [lia|]. exists s. cbn. split; [reflexivity|]. split; [lia|exact E2].
    + intros H. apply IH in H. destruct H as (L & s' & H & X). split; [lia|]. exists s'. replace (j - i)%nat with (S (j - S i)) by lia. auto.
    + intros H. apply IH in H. destruct H as (L & s' & H & X). split; [lia|]. exists s'. replace (j - i)%nat with (S (j - S i)) by lia. auto.
  - intros H. apply IH in H. destruct H as (L & s' & H & X). split; [lia|]. exists s'. replace (j - i)%nat with (S (j - S i)) by lia. auto.
Qed.
Lemma find_from_none l i n p : find_from l i n p = None -> forall j s, nth_error l j = Some s -> s_parent s = Some p -> s_name s <> n.
Proof.
  revert i. induction l as [|s l IH]; intros i H [|j] t Ht Hp; cbn in *; try discriminate.
  - injection Ht as ->. rewrite Hp, Nat.eqb_refl, andb_true_r in H. destruct (Nat.eqb_spec (s_name t) n); [discriminate|assumption].
  - destruct ((s_name s =? n)%nat && _); [discriminate|]. eapply IH; eauto.
Qed.
Lemma find_section_ok l n p : tree l -> match find_section l n p with
  | Some i => exists s, nth_error l i = Some s /\ s_name s = n /\ s_parent s = Some p
  | None => forall i s, nth_error l i = Some s -> s_parent s = Some p -> s_name s <> n
  end.
Proof.
  intros T. unfold find_section. assert (K : forall j, nth_error (skipn (S p) l) j = nth_error l (S p + j)).
  { clear T. generalize (S p). intros k. revert l. induction k as [|k IH]; intros l j; [reflexivity|]. destruct l as [|x l]; [destruct j; reflexivity|]. cbn [skipn]. rewrite IH. reflexivity. }
  destruct (find_from (skipn (S p) l) (S p) n p) as [j|] eqn:E.
  - apply find_from_some in E. destruct E as (L & s & H & X). rewrite K in H. replace (S p + (j - S p))%nat with j in H by lia. eauto.
  - intros i s Hi Hp. destruct i as [|i]; [destruct (tr_root l T) as (r & Hr & Hx); congruence|].
    destruct (tr_parent l T i s Hi) as (p' & Hp' & L). assert (p' = p) as -> by congruence.
    apply (find_from_none _ _ _ _ E (S i - S p) s); [|exact Hp]. rewrite K. replace (S p + (S i - S p))%nat with (S i) by lia. exact Hi.
Qed.

(** sections as a map from call paths to figures *)
Definition figures := (Z * Z * nat)%type. (* total, epoch, count *)
Definition figs (s : section) : figures := (s_total s, s_epoch s, s_count s).
Definition represents (l : list section) (A : list nat -> option figures) : Prop :=
  forall q v, A q = Some v <-> exists i s, call_path l i q /\ nth_error l i = Some s /\ v = figs s.
Definition path_eq (a b : list nat) : {a = b} + {a <> b} := list_eq_dec Nat.eq_dec a b.
Definition put (A : list nat -> option figures) (q : list nat) (v : figures) : list nat -> option figures := fun r => if path_eq r q then Some v else A r.

Lemma set_represents l A i s s' q : tree l -> represents l A -> call_path l i q -> nth_error l i = Some s -> alike s s' ->
  represents (list_set l i s') (put A q (figs s')).
Proof.
  intros T R P H Al r v. unfold put. pose proof (set_path l i s s' H Al) as SP. assert (Li : (i < length l)%nat) by (apply nth_error_Some; congruence).
  destruct (path_eq r q) as [->|N].
  - split.
    + intros [= <-]. exists i, s'. split; [apply SP; exact P|]. split; [apply nth_error_list_set_eq; exact Li|reflexivity].
    + intros (j & t & Pj & Hj & ->). apply SP in Pj. assert (j = i) as -> by exact (path_index _ _ _ Pj T _ P). rewrite nth_error_list_set_eq in Hj by exact Li. congruence.
  - etransitivity; [apply R|]. split.
    + intros (j & t & Pj & Hj & ->). exists j, t. split; [apply SP; exact Pj|]. split; [|reflexivity]. rewrite nth_error_list_set_neq; [exact Hj|].
      intros ->. apply N. exact (path_unique _ _ _ Pj T _ P).
    + intros (j & t & Pj & Hj & ->). apply SP in Pj. exists j, t. split; [exact Pj|]. split; [|reflexivity]. rewrite nth_error_list_set_neq in Hj; [exact Hj|].
      intros ->. apply N. exact (path_unique _ _ _ Pj T _ P).
Qed.
Lemma add_represents l A p n t q : tree l -> represents l A -> call_path l p q -> (forall i s, nth_error l i = Some s -> s_parent s = Some p -> s_name s <> n) ->
  represents (l ++ [Sec n (Some p) 0 t 0]) (put A (q ++ [n]) (0, t, 0%nat)).
Proof.
  intros T R P Hn r v. assert (Hp : (p < length l)%nat) by (destruct (path_in _ _ _ P); apply nth_error_Some; congruence).
  pose proof (add_path l n p t T Hp) as AP. unfold put. destruct (path_eq r (q ++ [n])) as [->|N].
  - split.
    + intros [= <-]. exists (length l), (Sec n (Some p) 0 t 0). split; [apply AP; right; eauto|]. split; [apply add_lookup; auto|reflexivity].
    + intros (j & s & Pj & Hj & ->). apply AP in Pj. destruct Pj as [Pj|[-> _]].
      * exfalso. inversion Pj as [sx Hsx Ex E|? s0 p0 q0 Hi0 Hp0 Hq0 E0 E]; [destruct q; discriminate|]. apply snoc_inj in E. destruct E as [-> E].
        subst. assert (p0 = p) as -> by exact (path_index _ _ _ Hq0 T _ P). exact (Hn j s0 Hi0 Hp0 eq_refl).
      * apply add_lookup in Hj. destruct Hj as [Hj|[_ ->]]; [exfalso; assert (length l < length l)%nat by (apply nth_error_Some; congruence); lia|]. reflexivity.
  - etransitivity; [apply R|]. split.
    + intros (j & s & Pj & Hj & ->). exists j, s. split; [apply AP; auto|]. split; [apply add_lookup; auto|reflexivity].
    + intros (j & s & Pj & Hj & ->). apply AP in Pj. destruct Pj as [Pj|[-> (q' & Pq & ->)]].
      * exists j, s. split; [exact Pj|]. split; [|reflexivity]. apply add_lookup in Hj. destruct Hj as [Hj|[-> _]]; [exact Hj|].
        destruct (path_in _ _ _ Pj) as [x Hx]. assert (length l < length l)%nat by (apply nth_error_Some; congruence). lia.
      * exfalso. apply N. f_equal. exact (path_unique _ _ _ Pq T _ P).
Qed.
Lemma represents_ext l A B : represents l A -> (forall q, A q = B q) -> represents l B.
Proof. intros R E q v. rewrite <- (E q). apply R. Qed.

(** a profiler in the middle of the sections named [p] *)
Definition inside (P : profiler) (A : list nat -> option figures) (p : list nat) : Prop :=
  tree (p_sections P) /\ represents (p_sections P) A /\ exists c, p_current P = Some c /\ call_path (p_sections P) c p.

Lemma enter_ok P A p n t : inside P A p -> exists P', start_section P n t = Ok P' /\ p_enabled P' = p_enabled P /\
  inside P' (put A (p ++ [n]) match A (p ++ [n]) with Some (x, _, k) => (x, t, k) | None => (0, t, 0%nat) end) (p ++ [n]).
Proof.
  intros (T & R & c & Hc & Pc). unfold start_section, acquire_section. rewrite Hc. pose proof (find_section_ok (p_sections P) n c T) as F.
  destruct (find_section (p_sections P) n c) as [i|].
  - destruct F as (s & Hs & Hn & Hp). unfold vec_get. rewrite Hs. cbn [obind]. unfold vec_set.
    assert (Li : (i < length (p_sections P))%nat) by (apply nth_error_Some; congruence). assert ((i <? length (p_sections P))%nat = true) as -> by lia. cbn [obind].
    eexists. split; [reflexivity|]. split; [reflexivity|]. assert (Al : alike s (set_epoch s t)) by (split; reflexivity).
    assert (Pi : call_path (p_sections P) i (p ++ [n])) by (rewrite <- Hn; econstructor; eauto).
    split; [|split]; cbn [p_sections p_current].
    + exact (set_tree _ _ _ _ Hs Al T).
    + assert (E : A (p ++ [n]) = Some (figs s)) by (apply R; eauto). rewrite E. cbn.
      exact (set_represents _ _ _ _ _ _ T R Pi Hs Al).
    + exists i. split; [reflexivity|]. apply (set_path _ _ _ _ Hs Al). exact Pi.
  - cbn [add_section]. set (l := p_sections P) in *. unfold vec_get, add_section.
    assert (E1 : nth_error (l ++ [Sec n (Some c) 0 0 0]) (length l) = Some (Sec n (Some c) 0 0 0)) by (apply add_lookup; auto).
    rewrite E1. cbn [obind]. unfold vec_set. rewrite app_length. cbn [length]. assert ((length l <? length l + 1)%nat = true) as -> by lia. cbn [obind].
    eexists. split; [reflexivity|]. split; [reflexivity|].
    assert (Hp : (c < length l)%nat) by (destruct (path_in _ _ _ Pc); apply nth_error_Some; congruence).
    assert (Al : alike (Sec n (Some c) 0 0 0) (set_epoch (Sec n (Some c) 0 0 0) t)) by (split; reflexivity).
    pose proof (add_tree l n c 0 T Hp F) as T'. pose proof (add_represents l A c n 0 p T R Pc F) as R'.
    assert (Pi : call_path (l ++ [Sec n (Some c) 0 0 0]) (length l) (p ++ [n])) by (apply add_path; eauto).
    split; [|split]; cbn [p_sections p_current].
    + exact (set_tree _ _ _ _ E1 Al T').
    + assert (E : A (p ++ [n]) = None).
      { destruct (A (p ++ [n])) as [v|] eqn:EA; [|reflexivity]. exfalso. apply R in EA. destruct EA as (j & s & Pj & Hj & _).
        inversion Pj as [sx Hsx Ex E|? s0 p0 q0 Hi0 Hp0 Hq0 E0 E]; [destruct p; discriminate|]. apply snoc_inj in E. destruct E as [-> E]. subst.
        assert (p0 = c) as -> by exact (path_index _ _ _ Hq0 T _ Pc). exact (F j s0 Hi0 Hp0 eq_refl). }
      rewrite E. eapply represents_ext; [exact (set_represents _ _ _ _ _ _ T' R' Pi E1 Al)|].
      intros q. unfold put. cbn. destruct (path_eq q (p ++ [n])); reflexivity.
    + exists (length l). split; [reflexivity|]. apply (set_path _ _ _ _ E1 Al). exact Pi.
Qed.
Lemma leave_ok P A p n t x e k : inside P A (p ++ [n]) -> A (p ++ [n]) = Some (x, e, k) ->
  exists P', end_section P t = Ok P' /\ p_enabled P' = p_enabled P /\ inside P' (put A (p ++ [n]) (x + (t - e), e, S k)) p.
Proof.
  intros (T & R & c & Hc & Pc) E. unfold end_section. rewrite Hc.
  inversion Pc as [sx Hsx Ex E'|? s p0 q0 Hs Hp Hq E0 E']; [destruct p; discriminate|]. apply snoc_inj in E'. destruct E' as [-> E']. subst.
  unfold vec_get. rewrite Hs. cbn [obind]. rewrite Hp. unfold vec_set.
  assert (Li : (c < length (p_sections P))%nat) by (apply nth_error_Some; congruence). assert ((c <? length (p_sections P))%nat = true) as -> by lia. cbn [obind].
  apply R in E. destruct E as (j & s1 & Pj & Hj & Ev). assert (j = c) as -> by exact (path_index _ _ _ Pj T _ Pc). assert (s1 = s) as -> by congruence.
  unfold figs in Ev. injection Ev as -> -> ->.
  eexists. split; [reflexivity|]. split; [reflexivity|].
  assert (Al : alike s (Sec (s_name s) (Some p0) (s_total s + (t - s_epoch s)) (s_epoch s) (S (s_count s)))) by (split; [reflexivity|symmetry; exact Hp]).
  split; [|split]; cbn [p_sections p_current].
  - exact (set_tree _ _ _ _ Hs Al T).
  - exact (set_represents _ _ _ _ _ _ T R Pc Hs Al).
  - exists p0. split; [reflexivity|]. apply (set_path _ _ _ _ Hs Al). exact Hq.
Qed.

(** figures without the epoch *)
Definition tc (v : option figures) : option (Z * nat) := match v with Some (x, _, k) => Some (x, k) | None => None end.
Definition plus (v : option (Z * nat)) (l : list act) : option (Z * nat) :=
  match l with [] => v | _ => let (x, k) := match v with Some w => w | None => (0, 0%nat) end in Some (x + sum_of duration l, (k + length l)%nat) end.
Lemma sum_app {X} (f : X -> Z) a b : sum_of f (a ++ b) = sum_of f a + sum_of f b.
Proof. induction a as [|x a IH]; cbn; unfold sum_of in *; cbn; lia. Qed.
Lemma plus_app v a b : plus (plus v a) b = plus v (a ++ b).
Proof.
  destruct a as [|x a]; [reflexivity|]. destruct b as [|y b]; [rewrite app_nil_r; reflexivity|]. unfold plus.
  change ((x :: a) ++ y :: b) with (x :: (a ++ y :: b)). destruct v as [[z k]|]; cbn [app].
  - f_equal. change (x :: a ++ y :: b) with ((x :: a) ++ (y :: b)). rewrite sum_app, app_length. f_equal; lia.
  - f_equal. change (x :: a ++ y :: b) with ((x :: a) ++ (y :: b)). rewrite sum_app, app_length. f_equal; lia.
Qed.
Lemma acts_at_app q : forall a b, acts_at q (a ++ b) = acts_at q a ++ acts_at q b.
Proof.
  induction q as [|n q IH]; intros a b; cbn; [reflexivity|]. rewrite filter_app. destruct q; [reflexivity|]. rewrite flat_map_app. apply IH.
Qed.

Fixpoint asize (a : act) : nat := let 'Act _ _ l _ := a in S (fold_right (fun b s => asize b + s)%nat 0%nat l).
Definition lsize (l : list act) : nat := fold_right (fun b s => asize b + s)%nat 0%nat l.
Lemma prof_run_app P a b : prof_run P (a ++ b) = obind (prof_run P a) (fun P' => prof_run P' b).
Proof. revert P. induction a as [|x a IH]; intros P; cbn; [reflexivity|]. destruct (prof_step P x); cbn; [apply IH|reflexivity|reflexivity]. Qed.

Lemma acts_ok m : forall acts P A p, (lsize acts <= m)%nat -> inside P A p -> exists P' A', prof_run P (flat_map calls acts) = Ok P' /\ p_enabled P' = p_enabled P /\
  inside P' A' p /\ (forall q, (forall r, r <> [] -> q <> p ++ r) -> A' q = A q) /\ (forall r, r <> [] -> tc (A' (p ++ r)) = plus (tc (A (p ++ r))) (acts_at r acts)).
Proof.
  induction m as [|m IH]; intros [|a acts] P A p Hm I.
  1, 3: exists P, A; split; [reflexivity|]; split; [reflexivity|]; split; [exact I|]; split; [reflexivity|]; intros r Hr; destruct r as [|x r]; [congruence|]; assert (acts_at (x :: r) [] = []) as ->; [clear; revert x; induction r as [|y r IHr]; intros x; [reflexivity|]; exact (IHr y)|reflexivity].
  { destruct a as [n f inner t]. cbn in Hm. lia. }
  destruct a as [n f inner t]. assert (Hs : (S (lsize inner + lsize acts) <= S m)%nat) by exact Hm.
  change (flat_map calls (Act n f inner t :: acts)) with (Enter n f :: (flat_map calls inner ++ [Leave t]) ++ flat_map calls acts).
  destruct (enter_ok P A p n f I) as (P1 & E1 & En1 & I1).
  set (A1 := put A (p ++ [n]) match A (p ++ [n]) with Some (x, _, k) => (x, f, k) | None => (0, f, 0%nat) end) in *.
  destruct (IH inner P1 A1 (p ++ [n])) as (P2 & A2 & E2 & En2 & I2 & H2 & K2); [lia|exact I1|].
  assert (X1 : A2 (p ++ [n]) = A1 (p ++ [n])).
  { apply H2. intros r Hr E. rewrite <- (app_nil_r (p ++ [n])) in E at 1. apply app_inv_head in E. congruence. }
  assert (X2 : exists x k, A1 (p ++ [n]) = Some (x, f, k) /\ (x, k) = match tc (A (p ++ [n])) with Some w => w | None => (0, 0%nat) end).
  { unfold A1, put. destruct (path_eq (p ++ [n]) (p ++ [n])) as [_|N]; [|congruence]. destruct (A (p ++ [n])) as [[[x e] k]|]; cbn; eauto. }
  destruct X2 as (x & k & X2 & X3).
  destruct (leave_ok P2 A2 p n t x f k I2) as (P3 & E3 & En3 & I3); [congruence|].
  set (A3 := put A2 (p ++ [n]) (x + (t - f), f, S k)) in *.
  destruct (IH acts P3 A3 p) as (P4 & A4 & E4 & En4 & I4 & H4 & K4); [lia|exact I3|].
  exists P4, A4. split.
  { cbn [prof_run prof_step]. rewrite E1. cbn [obind]. rewrite !prof_run_app, E2. cbn [obind prof_run prof_step]. rewrite E3. cbn [obind]. exact E4. }
  split; [congruence|]. split; [exact I4|].
  assert (Out : forall q, (forall r, q <> (p ++ [n]) ++ r) -> A3 q = A q).
  { intros q Hq. unfold A3, put. destruct (path_eq q (p ++ [n])) as [->|_]; [destruct (Hq []); rewrite app_nil_r; reflexivity|].
    rewrite H2 by (intros r _; apply Hq). unfold A1, put. destruct (path_eq q (p ++ [n])) as [->|_]; [destruct (Hq []); rewrite app_nil_r; reflexivity|reflexivity]. }
  split.
  - intros q Hq. rewrite H4 by exact Hq. apply Out. intros r ->. rewrite <- app_assoc in Hq. apply (Hq ([n] ++ r)); [discriminate|reflexivity].
  - intros r Hr. rewrite K4 by exact Hr. change (Act n f inner t :: acts) with ([Act n f inner t] ++ acts). rewrite acts_at_app, <- plus_app. f_equal.
    destruct r as [|y r]; [congruence|]. destruct (Nat.eqb_spec n y) as [<-|N].
    + destruct r as [|z r].
      * cbn [acts_at filter act_name]. rewrite Nat.eqb_refl. unfold A3, put. destruct (path_eq (p ++ [n]) (p ++ [n])) as [_|Q]; [|congruence]. cbn [tc plus].
        rewrite <- X3. cbn. f_equal. f_equal; lia.
      * assert (acts_at (n :: z :: r) [Act n f inner t] = acts_at (z :: r) inner) as ->.
        { cbn [acts_at filter act_name]. rewrite Nat.eqb_refl. cbn [flat_map act_inner]. rewrite app_nil_r. reflexivity. }
        assert (Np : p ++ n :: z :: r <> p ++ [n]) by (intros E; apply app_inv_head in E; discriminate).
        unfold A3, put. destruct (path_eq (p ++ n :: z :: r) (p ++ [n])) as [E|_]; [congruence|].
        replace (p ++ n :: z :: r) with ((p ++ [n]) ++ z :: r) in * by (rewrite <- app_assoc; reflexivity).
        rewrite K2 by discriminate. f_equal. unfold A1, put. destruct (path_eq ((p ++ [n]) ++ z :: r) (p ++ [n])); [congruence|reflexivity].
    + assert (acts_at (y :: r) [Act n f inner t] = []) as ->.
      { cbn [acts_at filter act_name]. assert ((n =? y)%nat = false) as -> by lia. destruct r as [|z r]; [reflexivity|]. cbn [flat_map]. clear. revert z. induction r as [|w r IHr]; intros z; [reflexivity|]. exact (IHr w). }
      cbn [plus]. rewrite Out; [reflexivity|]. intros r' E. rewrite <- app_assoc in E. apply app_inv_head in E. cbn in E. congruence.
Qed.

(** a whole measurement *)
Definition idle (P : profiler) : Prop := p_enabled P = false /\ p_current P = None.
Lemma acts_at_nil q : acts_at q [] = [].
Proof. induction q as [|n [|m q] IH]; [reflexivity|reflexivity|exact IH]. Qed.
Lemma session_ok P label t0 acts t1 : idle P -> exists P' A, prof_session P label t0 (flat_map calls acts) t1 = Ok P' /\ idle P' /\
  tree (p_sections P') /\ represents (p_sections P') A /\ A [] = Some (t1 - t0, t0, 1%nat) /\
  (forall r, r <> [] -> tc (A r) = plus None (acts_at r acts)) /\ (exists s, nth_error (p_sections P') 0 = Some s /\ s_name s = label).
Proof.
  intros [He Hc]. set (P0 := Prof [Sec label None 0 t0 0] (Some 0%nat) true).
  assert (E0 : prof_start P label t0 = Ok P0) by (unfold prof_start; rewrite He, Hc; reflexivity).
  set (A0 := fun q : list nat => match q with [] => Some (0, t0, 0%nat) | _ => None end : option figures).
  assert (T0 : tree [Sec label None 0 t0 0]).
  { constructor.
    - eexists. split; reflexivity.
    - intros [|i] s H; discriminate.
    - intros [|[|i]] [|[|j]] s s' H H'; try discriminate. reflexivity. }
  assert (I0 : inside P0 A0 []).
  { split; [exact T0|]. split; [|exists 0%nat; split; [reflexivity|]; econstructor; reflexivity].
    intros q v. cbn [P0 p_sections]. split.
    - destruct q; [|discriminate]. intros [= <-]. exists 0%nat. eexists. split; [econstructor; reflexivity|]. split; reflexivity.
    - intros (i & s & Pi & Hi & ->). destruct i as [|[|i]]; try discriminate. injection Hi as <-.
      assert ([] = q) as <- by (exact (path_unique _ _ _ (path_root [Sec label None 0 t0 0] _ eq_refl) T0 _ Pi)). reflexivity. }
  destruct (acts_ok (lsize acts) acts P0 A0 [] (le_n _) I0) as (P1 & A1 & E1 & En1 & (T1 & R1 & c & Hc1 & Pc) & H1 & K1). cbn [app] in K1.
  assert (X : A1 [] = Some (0, t0, 0%nat)) by (rewrite H1; [reflexivity|intros r Hr; cbn; congruence]).
  apply R1 in X. destruct X as (i & s & Pi & Hi & Ev). injection Ev as E2 E3 E4.
  destruct (tr_root _ T1) as (s0 & Hs0 & Hn0). assert (Pr : call_path (p_sections P1) 0 []) by (econstructor; exact Hs0).
  assert (i = 0%nat) as -> by exact (path_index _ _ _ Pi T1 _ Pr). assert (s0 = s) as -> by congruence. assert (c = 0%nat) as -> by exact (path_index _ _ _ Pc T1 _ Pr).
  set (s' := Sec (s_name s) (s_parent s) (t1 - t0) t0 1).
  assert (El : exists r, p_sections P1 = s :: r) by (destruct (p_sections P1) as [|x r]; [discriminate|]; injection Hi as ->; eauto). destruct El as [r El].
  exists (Prof (list_set (p_sections P1) 0 s') None false), (put A1 [] (figs s')).
  assert (Al : alike s s') by (split; reflexivity).
  split.
  { unfold prof_session. rewrite E0. cbn [obind]. rewrite E1. cbn [obind]. unfold prof_stop. rewrite El, En1, Hc1. cbn. rewrite <- E3, <- E4. reflexivity. }
  split; [split; reflexivity|]. cbn [p_sections]. split; [exact (set_tree _ _ _ _ Hi Al T1)|]. split; [exact (set_represents _ _ _ _ _ _ T1 R1 Pr Hi Al)|].
  split; [reflexivity|]. split.
  - intros q Hq. unfold put. destruct (path_eq q []); [congruence|]. rewrite K1 by exact Hq. destruct q; [congruence|reflexivity].
  - exists s'. split; [apply nth_error_list_set_eq; apply nth_error_Some; congruence|]. cbn.
    (* the label is never changed *)
    assert (L : forall ops Q Q' x, prof_run Q ops = Ok Q' -> nth_error (p_sections Q) 0 = Some x -> exists y, nth_error (p_sections Q') 0 = Some y /\ s_name y = s_name x).
    { clear. induction ops as [|op ops IH]; intros Q Q' x; cbn [prof_run]; [intros [= <-]; eauto|].
      destruct (prof_step Q op) as [Q1| |] eqn:E; cbn [obind]; try discriminate. intros H Hx.
      assert (Y : exists y, nth_error (p_sections Q1) 0 = Some y /\ s_name y = s_name x).
      { assert (SET : forall l j u v w, nth_error l 0 = Some w -> nth_error l j = Some u -> s_name v = s_name u -> vec_set l j v = Ok (list_set l j v) -> exists y, nth_error (list_set l j v) 0 = Some y /\ s_name y = s_name w).
        { intros l j u v w Hw Hu Ev _. assert (L : (j < length l)%nat) by (apply nth_error_Some; congruence). rewrite set_lookup by exact L.
          destruct (Nat.eqb_spec 0 j) as [<-|N]; [exists v; split; [reflexivity|congruence]|eauto]. }
        assert (VS : forall (l : list section) j v l', vec_set l j v = Ok l' -> l' = list_set l j v /\ vec_set l j v = Ok (list_set l j v)).
        { intros l j v l'. unfold vec_set. destruct (j <? length l)%nat; [|discriminate]. intros [= <-]. auto. }
        destruct op as [n t|t]; cbn in E.
        - unfold start_section in E. destruct (p_current Q) as [c|]; [|discriminate]. destruct (acquire_section (p_sections Q) n c) as [l i] eqn:Ea.
          assert (Hl : nth_error l 0 = Some x).
          { unfold acquire_section in Ea. destruct (find_section (p_sections Q) n c); injection Ea as <- _; [exact Hx|]. apply add_lookup. left. exact Hx. }
          unfold vec_get in E. destruct (nth_error l i) as [u|] eqn:Eu; [|discriminate]. cbn [obind] in E.
          destruct (vec_set l i (set_epoch u t)) as [l'| |] eqn:Es; try discriminate. injection E as <-. destruct (VS _ _ _ _ Es) as [-> Es']. cbn [p_sections].
          eapply (SET l i u); eauto.
        - unfold end_section in E. destruct (p_current Q) as [c|]; [|discriminate]. unfold vec_get in E. destruct (nth_error (p_sections Q) c) as [u|] eqn:Eu; [|discriminate].
          cbn [obind] in E. destruct (s_parent u) as [w|]; [|discriminate]. destruct (vec_set _ c _) as [l'| |] eqn:Es; try discriminate. injection E as <-.
          destruct (VS _ _ _ _ Es) as [-> Es']. cbn [p_sections]. eapply (SET _ c u); eauto. }
      destruct Y as (y & Hy & Ey). destruct (IH _ _ _ H Hy) as (z & Hz & Ez). exists z. split; [exact Hz|congruence]. }
    destruct (L _ _ _ _ E1 (eq_refl : nth_error (p_sections P0) 0 = Some (Sec label None 0 t0 0))) as (y & Hy & Ey). assert (y = s) as -> by congruence. exact Ey.
Qed.

Lemma figures_of l A i s q : represents l A -> nth_error l i = Some s -> call_path l i q -> A q = Some (figs s).
Proof. intros R H P. apply R. eauto. Qed.
Lemma section_figures acts l A i s q : represents l A -> (forall r, r <> [] -> tc (A r) = plus None (acts_at r acts)) -> nth_error l i = Some s -> call_path l i q -> q <> [] ->
  s_total s = sum_of duration (acts_at q acts) /\ s_count s = length (acts_at q acts) /\ acts_at q acts <> [].
Proof.
  intros R K H P N. specialize (K q N). rewrite (figures_of _ _ _ _ _ R H P) in K. unfold tc, figs, plus in K.
  destruct (acts_at q acts) as [|a r]; [discriminate|]. rewrite Z.add_0_l in K. injection K as K1 K2. split; [exact K1|]. split; [exact K2|discriminate].
Qed.
Lemma sections_assembled P label t0 acts t1 : idle P -> exists P', prof_session P label t0 (flat_map calls acts) t1 = Ok P' /\ idle P' /\
  (exists s, nth_error (p_sections P') 0 = Some s /\ s_name s = label /\ s_total s = t1 - t0 /\ s_count s = 1%nat) /\
  (forall i s, nth_error (p_sections P') (S i) = Some s -> exists q, call_path (p_sections P') (S i) q /\
     s_total s = sum_of duration (acts_at q acts) /\ s_count s = length (acts_at q acts) /\ acts_at q acts <> []) /\
  (forall q, acts_at q acts <> [] -> exists! i, call_path (p_sections P') i q).
Proof.
  intros I. destruct (session_ok P label t0 acts t1 I) as (P' & A & E & I' & T & R & A0 & K & s & Hs & Hl). exists P'. split; [exact E|]. split; [exact I'|].
  assert (P0 : call_path (p_sections P') 0 []) by (econstructor; exact Hs).
  split; [|split].
  - exists s. split; [exact Hs|]. split; [exact Hl|]. pose proof (figures_of _ _ _ _ _ R Hs P0) as F. rewrite A0 in F. injection F as F1 F2 F3. auto.
  - intros i x Hx. destruct (path_total _ T (S i)) as [q Hq]; [apply nth_error_Some; congruence|]. exists q. split; [exact Hq|].
    apply (section_figures acts _ _ _ _ _ R K Hx Hq). intros ->. pose proof (path_index _ _ _ Hq T _ P0). discriminate.
  - intros q Hq. assert (N : q <> []) by (intros ->; apply Hq; reflexivity). specialize (K q N).
    destruct (A q) as [v|] eqn:Eq; [|unfold plus in K; destruct (acts_at q acts); [congruence|discriminate]].
    apply R in Eq. destruct Eq as (i & x & Pi & _). exists i. split; [exact Pi|]. intros j Pj. exact (path_index _ _ _ Pi T _ Pj).
Qed.

(** exclusive times *)
Definition child_of (i : nat) (s : section) : bool := match s_parent s with Some q => (q =? i)%nat | None => false end.
Lemma exclusive_sum l i s : exclusive_time l i s = s_total s - sum_of s_total (filter (child_of i) l).
Proof.
  unfold exclusive_time. generalize (s_total s). induction l as [|c l IH]; intros z; cbn [fold_left filter]; [cbn; lia|]. rewrite IH. unfold child_of at 2.
  destruct (s_parent c) as [q|]; [destruct (q =? i)%nat|]; unfold sum_of; cbn [fold_right]; unfold sum_of in *; lia.
Qed.
Lemma sum_cons {X} (f : X -> Z) x l : sum_of f (x :: l) = f x + sum_of f l.
Proof. reflexivity. Qed.
Lemma sum_filter_names (ns : list nat) (L : list act) : NoDup ns -> (forall a, In a L -> In (act_name a) ns) ->
  sum_of (fun n => sum_of duration (filter (fun a => act_name a =? n)%nat L)) ns = sum_of duration L.
Proof.
  intros N. induction L as [|a L IH]; intros C.
  - clear. induction ns as [|n ns IH]; [reflexivity|exact IH].
  - assert (C' : forall b, In b L -> In (act_name b) ns) by (intros b Hb; apply C; right; exact Hb). rewrite sum_cons.
    rewrite <- (IH C'). assert (Ca : In (act_name a) ns) by (apply C; left; reflexivity). clear IH C C'.
    induction ns as [|n ns IHn]; [destruct Ca|]. inversion N as [|? ? N1 N2]; subst. rewrite !sum_cons.
    destruct (Nat.eqb_spec (act_name a) n) as [E|E].
    + assert (X : sum_of (fun n => sum_of duration (filter (fun b => act_name b =? n)%nat (a :: L))) ns = sum_of (fun n => sum_of duration (filter (fun b => act_name b =? n)%nat L)) ns).
      { clear Ca N2 IHn N. subst n. induction ns as [|m ns IHm]; [reflexivity|]. rewrite !sum_cons. cbn [filter].
        assert ((act_name a =? m)%nat = false) as -> by (apply Nat.eqb_neq; intros Em; apply N1; left; congruence).
        f_equal. apply IHm. intros H. apply N1. right. exact H. }
      rewrite X. cbn [filter]. assert ((act_name a =? n)%nat = true) as -> by lia. rewrite sum_cons. lia.
    + destruct Ca as [Ca|Ca]; [congruence|]. rewrite (IHn N2 Ca). cbn [filter]. assert ((act_name a =? n)%nat = false) as -> by lia. lia.
Qed.
Lemma sum_map {X Y} (f : Y -> Z) (g : X -> Y) l : sum_of f (map g l) = sum_of (fun x => f (g x)) l.
Proof. induction l; cbn; unfold sum_of in *; [reflexivity|]; cbn; lia. Qed.
Lemma sum_ext {X} (f g : X -> Z) l : (forall x, In x l -> f x = g x) -> sum_of f l = sum_of g l.
Proof. intros H. induction l as [|x l IH]; [reflexivity|]. unfold sum_of in *. cbn. rewrite H by (left; reflexivity). rewrite IH by (intros y Hy; apply H; right; exact Hy). reflexivity. Qed.
Lemma acts_at_snoc q n acts : acts_at (q ++ [n]) acts = filter (fun a => act_name a =? n)%nat (match q with [] => acts | _ => flat_map act_inner (acts_at q acts) end).
Proof.
  revert acts. induction q as [|m q IH]; intros acts; [reflexivity|]. cbn [app acts_at]. destruct q as [|k q]; cbn [app].
  - reflexivity.
  - change (k :: q ++ [n]) with ((k :: q) ++ [n]). rewrite IH. reflexivity.
Qed.
Lemma nodup_children l i : (forall a b s s', nth_error l a = Some s -> nth_error l b = Some s' -> s_parent s = s_parent s' -> s_parent s <> None -> s_name s = s_name s' -> a = b) ->
  NoDup (map s_name (filter (child_of i) l)).
Proof.
  induction l as [|s l IH]; intros U; [constructor|]. cbn [filter]. assert (IH' : NoDup (map s_name (filter (child_of i) l))).
  { apply IH. intros a b x y Hx Hy E1 E2 E3. assert (S a = S b) by (apply (U (S a) (S b) x y); assumption). lia. }
  destruct (child_of i s) eqn:C; [|exact IH']. cbn [map]. constructor; [|exact IH']. intros H. apply in_map_iff in H. destruct H as (t & Et & Ht). apply filter_In in Ht. destruct Ht as [Ht Ct].
  apply In_nth_error in Ht. destruct Ht as [b Hb]. assert (CP : forall x, child_of i x = true -> s_parent x = Some i).
  { intros x. unfold child_of. destruct (s_parent x) as [q|]; [|discriminate]. intros E. f_equal. lia. }
  assert (0 = S b)%nat; [|discriminate]. apply (U 0%nat (S b) s t); [reflexivity|exact Hb| | |congruence]; rewrite ?(CP s C), ?(CP t Ct); congruence.
Qed.
(** time spent in an activation but not in one inside it *)
Lemma exclusive_assembled P label t0 acts t1 P' : idle P -> prof_session P label t0 (flat_map calls acts) t1 = Ok P' ->
  forall i s q, nth_error (p_sections P') i = Some s -> call_path (p_sections P') i q ->
  exclusive_time (p_sections P') i s = match q with [] => t1 - t0 - sum_of duration acts | _ => sum_of (fun a => duration a - sum_of duration (act_inner a)) (acts_at q acts) end.
Proof.
  intros I E i s q Hs Pq. destruct (session_ok P label t0 acts t1 I) as (P2 & A & E2 & I' & T & R & A0 & K & _). assert (P2 = P') as -> by congruence. clear E2.
  set (l := p_sections P') in *. rewrite exclusive_sum. set (L := match q with [] => acts | _ => flat_map act_inner (acts_at q acts) end).
  assert (X : sum_of s_total (filter (child_of i) l) = sum_of duration L).
  { rewrite <- (sum_filter_names (map s_name (filter (child_of i) l)) L).
    - rewrite sum_map. apply sum_ext. intros c Hc. apply filter_In in Hc. destruct Hc as [Hc Cc]. apply In_nth_error in Hc. destruct Hc as [j Hj].
      assert (Pc : s_parent c = Some i) by (unfold child_of in Cc; destruct (s_parent c); [f_equal; lia|discriminate]).
      unfold L. rewrite <- acts_at_snoc. apply (section_figures acts l A j c); [exact R|exact K|exact Hj| |destruct q; discriminate]. econstructor; eauto.
    - apply nodup_children. exact (tr_unique l T).
    - intros a Ha. assert (N : acts_at (q ++ [act_name a]) acts <> []).
      { rewrite acts_at_snoc. fold L. intros H. assert (In a (filter (fun b => act_name b =? act_name a)%nat L)) by (apply filter_In; split; [exact Ha|lia]). rewrite H in *. destruct H0. }
      assert (N2 : q ++ [act_name a] <> []) by (destruct q; discriminate). specialize (K _ N2).
      destruct (A (q ++ [act_name a])) as [v|] eqn:Ev; [|unfold plus in K; destruct (acts_at _ acts); [congruence|discriminate]].
      apply R in Ev. destruct Ev as (j & c & Pj & Hj & _). inversion Pj as [? ? Ex Ey|? c' p q0 Hc' Hp Hq Ex Ey]; [destruct q; discriminate|]. apply snoc_inj in Ey. destruct Ey as [-> Ey].
      assert (p = i) as -> by exact (path_index _ _ _ Hq T _ Pq). rewrite <- Ey. apply in_map. apply filter_In. split; [eapply nth_error_In; exact Hc'|]. unfold child_of. rewrite Hp. lia. }
  rewrite X. unfold L. destruct q as [|n q].
  - pose proof (figures_of _ _ _ _ _ R Hs Pq) as F. rewrite A0 in F. injection F as F1 F2 F3. lia.
  - destruct (section_figures acts l A i s (n :: q) R K Hs Pq) as (F & _); [discriminate|]. rewrite F. clear. generalize (acts_at (n :: q) acts). intros l.
    induction l as [|a l IH]; [reflexivity|]. cbn [flat_map]. rewrite sum_app. unfold sum_of in *. cbn [fold_right]. lia.
Qed.
Lemma in_order_le c acts c' : in_order c acts c' -> c <= c' /\ sum_of duration acts <= c' - c /\ forall q a, In a (acts_at q acts) -> 0 <= duration a - sum_of duration (act_inner a).
Proof.
  induction 1 as [c c' H|c n f l t r c' H Hl IHl Hr IHr].
  - split; [exact H|]. split; [cbn; lia|]. intros q a. rewrite acts_at_nil. intros [].
  - destruct IHl as (L1 & L2 & L3), IHr as (R1 & R2 & R3). split; [lia|]. split; [unfold sum_of in *; cbn; lia|].
    intros q a Ha. change (Act n f l t :: r) with ([Act n f l t] ++ r) in Ha. rewrite acts_at_app in Ha. apply in_app_or in Ha. destruct Ha as [Ha|Ha]; [|exact (R3 q a Ha)].
    destruct q as [|m q]; [destruct Ha|]. cbn [acts_at filter act_name] in Ha. destruct (n =? m)%nat.
    + destruct q as [|k q]; [destruct Ha as [<-|[]]; cbn [duration act_inner]; lia|]. cbn [flat_map act_inner] in Ha. rewrite app_nil_r in Ha. exact (L3 _ _ Ha).
    + destruct q as [|k q]; [destruct Ha|]. cbn [flat_map] in Ha. rewrite acts_at_nil in Ha. destruct Ha.
Qed.
Lemma nonneg_assembled P label t0 acts t1 P' : idle P -> in_order t0 acts t1 -> prof_session P label t0 (flat_map calls acts) t1 = Ok P' ->
  forall i s, nth_error (p_sections P') i = Some s -> 0 <= exclusive_time (p_sections P') i s.
Proof.
  intros I O E i s Hs. destruct (session_ok P label t0 acts t1 I) as (P2 & A & E2 & I' & T & R & _). assert (P2 = P') as -> by congruence.
  destruct (path_total _ T i) as [q Hq]; [apply nth_error_Some; congruence|]. rewrite (exclusive_assembled _ _ _ _ _ _ I E _ _ _ Hs Hq).
  destruct (in_order_le _ _ _ O) as (O1 & O2 & O3). destruct q as [|n q]; [lia|].
  assert (G : forall a, In a (acts_at (n :: q) acts) -> 0 <= duration a - sum_of duration (act_inner a)) by (intros a; apply O3). revert G. generalize (acts_at (n :: q) acts). intros l. induction l as [|a l IH]; intros G; [cbn; lia|].
  unfold sum_of at 1. cbn [fold_right]. pose proof (G a (or_introl eq_refl)). specialize (IH (fun b Hb => G b (or_intror Hb))). unfold sum_of at 1 in IH. lia.
Qed.
Lemma sum_combine l : forall l' k, sum_of (fun x : nat * section => exclusive_time l' (fst x) (snd x)) (combine (seq k (length l)) l) =
  sum_of s_total l - sum_of (fun i => sum_of s_total (filter (child_of i) l')) (seq k (length l)).
Proof.
  intros l'. induction l as [|s l IH]; intros k; [reflexivity|]. cbn [length seq combine]. unfold sum_of at 1 2 3. cbn [fold_right fst snd]. specialize (IH (S k)).
  unfold sum_of at 1 2 3 in IH. rewrite IH, exclusive_sum. lia.
Qed.
Lemma sum_children n l : (forall s p, In s l -> s_parent s = Some p -> (p < n)%nat) ->
  sum_of (fun i => sum_of s_total (filter (child_of i) l)) (seq 0 n) = sum_of (fun s => match s_parent s with Some _ => s_total s | None => 0 end) l.
Proof.
  induction l as [|s l IH]; intros H.
  - clear. generalize 0%nat. induction n; intros k; [reflexivity|]. cbn [seq]. unfold sum_of at 1. cbn [fold_right]. unfold sum_of at 1 in IHn. rewrite IHn. reflexivity.
  - unfold sum_of at 3. cbn [fold_right]. change (fold_right _ 0 l) with (sum_of (fun s => match s_parent s with Some _ => s_total s | None => 0 end) l). rewrite <- IH by (intros x p Hx; apply H; right; exact Hx).
    assert (G : forall ks, sum_of (fun i => sum_of s_total (filter (child_of i) (s :: l))) ks = sum_of (fun i => if child_of i s then s_total s else 0) ks + sum_of (fun i => sum_of s_total (filter (child_of i) l)) ks).
    { induction ks as [|k ks IHk]; [reflexivity|]. rewrite !sum_cons, IHk. cbn [filter]. destruct (child_of k s); rewrite ?sum_cons; lia. }
    rewrite G. f_equal. unfold child_of. destruct (s_parent s) as [p|] eqn:E.
    + assert (Hp : (p < n)%nat) by (apply (H s p); [left; reflexivity|exact E]). assert (Z : forall m k, sum_of (fun i => if (p =? i)%nat then s_total s else 0) (seq k m) = if (k <=? p)%nat && (p <? k + m)%nat then s_total s else 0).
      { clear. induction m as [|m IHm]; intros k; [cbn [seq]; destruct (k <=? p)%nat eqn:E1, (p <? k + 0)%nat eqn:E2; try reflexivity; lia|].
        cbn [seq]. unfold sum_of. cbn [fold_right]. fold (sum_of (fun i => if (p =? i)%nat then s_total s else 0) (seq (S k) m)). rewrite IHm.
        destruct (p =? k)%nat eqn:E1, (S k <=? p)%nat eqn:E2, (p <? S k + m)%nat eqn:E3, (k <=? p)%nat eqn:E4, (p <? k + S m)%nat eqn:E5; cbn [andb]; lia. }
      rewrite Z. assert ((0 <=? p)%nat && (p <? 0 + n)%nat = true) as -> by lia. reflexivity.
    + generalize 0%nat. clear. induction n; intros k; [reflexivity|]. cbn [seq]. unfold sum_of in *. cbn [fold_right]. rewrite IHn. reflexivity.
Qed.
Lemma exclusive_sum_assembled P label t0 acts t1 P' : idle P -> prof_session P label t0 (flat_map calls acts) t1 = Ok P' ->
  sum_of (fun x => exclusive_time (p_sections P') (fst x) (snd x)) (combine (seq 0 (length (p_sections P'))) (p_sections P')) = t1 - t0.
Proof.
  intros I E. destruct (session_ok P label t0 acts t1 I) as (P2 & A & E2 & I' & T & R & A0 & K & s & Hs & _). assert (P2 = P') as -> by congruence.
  rewrite sum_combine, sum_children.
  - assert (F : A [] = Some (figs s)) by (apply (figures_of _ _ _ _ _ R Hs); econstructor; exact Hs). rewrite A0 in F. injection F as F1 F2 F3.
    destruct (p_sections P') as [|s0 r] eqn:El; [discriminate|]. injection Hs as ->. destruct (tr_root _ T) as (s1 & H1 & N1). injection H1 as <-.
    assert (G : forall x, In x r -> s_parent x <> None).
    { intros x Hx. apply In_nth_error in Hx. destruct Hx as [i Hi]. destruct (tr_parent _ T i x Hi) as (p & Hp & _). congruence. }
    unfold sum_of. cbn [fold_right]. rewrite N1. fold (sum_of s_total r). fold (sum_of (fun s => match s_parent s with Some _ => s_total s | None => 0 end) r).
    assert (sum_of (fun s => match s_parent s with Some _ => s_total s | None => 0 end) r = sum_of s_total r) as ->; [|lia].
    apply sum_ext. intros x Hx. specialize (G x Hx). destruct (s_parent x); [reflexivity|congruence].
  - intros x p Hx Hp. apply In_nth_error in Hx. destruct Hx as [i Hi]. destruct i as [|i]; [destruct (tr_root _ T) as (y & Hy & Ny); congruence|].
    destruct (tr_parent _ T i x Hi) as (p' & Hp' & L). assert (S i < length (p_sections P'))%nat by (apply nth_error_Some; congruence). assert (p' = p) by congruence. lia.
Qed.

Lemma misuse_assembled P label t0 acts n t : idle P ->
  (exists P', (do P0 <- prof_start P label t0; prof_run P0 (flat_map calls acts ++ [Enter n t])) = Ok P' /\ (forall t', prof_stop P' t' = Throw) /\ (forall l t', prof_start P' l t' = Throw)) /\
  (forall t', prof_stop P t' = Throw).
Proof.
  intros [He Hc]. split.
  - set (P0 := Prof [Sec label None 0 t0 0] (Some 0%nat) true).
    assert (E0 : prof_start P label t0 = Ok P0) by (unfold prof_start; rewrite He, Hc; reflexivity). rewrite E0. cbn [obind].
    set (A0 := fun q : list nat => match q with [] => Some (0, t0, 0%nat) | _ => None end : option figures).
    assert (T0 : tree [Sec label None 0 t0 0]).
    { constructor.
      - eexists. split; reflexivity.
      - intros [|i] s H; discriminate.
      - intros [|[|i]] [|[|j]] s s' H H'; try discriminate. reflexivity. }
    assert (I0 : inside P0 A0 []).
    { split; [exact T0|]. split; [|exists 0%nat; split; [reflexivity|]; econstructor; reflexivity].
      intros q v. cbn [P0 p_sections]. split.
      - destruct q; [|discriminate]. intros [= <-]. exists 0%nat. eexists. split; [econstructor; reflexivity|]. split; reflexivity.
      - intros (i & s & Pi & Hi & ->). destruct i as [|[|i]]; try discriminate. injection Hi as <-.
        assert ([] = q) as <- by (exact (path_unique _ _ _ (path_root [Sec label None 0 t0 0] _ eq_refl) T0 _ Pi)). reflexivity. }
    destruct (acts_ok (lsize acts) acts P0 A0 [] (le_n _) I0) as (P1 & A1 & E1 & En1 & I1 & _).
    destruct (enter_ok P1 A1 [] n t I1) as (P2 & E2 & En2 & (T2 & R2 & c & Hc2 & Pc2)).
    exists P2. split; [rewrite prof_run_app, E1; cbn [obind prof_run prof_step]; rewrite E2; reflexivity|].
    assert (En : p_enabled P2 = true) by (rewrite En2, En1; reflexivity).
    assert (c <> 0%nat).
    { intros ->. destruct (tr_root _ T2) as (s & Hs & _). pose proof (path_unique _ _ _ Pc2 T2 _ (path_root _ _ Hs)). discriminate. }
    split.
    + intros t'. unfold prof_stop. destruct (p_sections P2) eqn:El; [destruct (path_in _ _ _ Pc2) as [x Hx]; destruct c; discriminate|].
      rewrite Hc2. assert ((c =? 0)%nat = false) as -> by lia. cbn. rewrite orb_true_r. reflexivity.
    + intros l t'. unfold prof_start. rewrite En. reflexivity.
  - intros t'. unfold prof_stop. rewrite He. destruct (p_sections P); reflexivity.
Qed.
