From Coq Require Import Ascii String List Arith Bool NArith ZArith Lia.
From Coq Require Import ZifyBool ZifyNat ZifyN.
From Verif Require Import Base BaseProofs Str StrSpec StrModel StrBase StrProofs GridProofs CastSpec CastModel CastProofs PnSpec PnModel.
Import ListNotations.

(** ** Trees *)

Lemma pn_ind' (P : pn -> Prop) (H : forall v cs a, Forall (fun kc => P (snd kc)) cs -> P (PN v cs a)) : forall t, P t.
Proof.
  fix IH 1. intros [v cs a]. apply H. induction cs as [|kc cs IHcs]; constructor; [apply IH|exact IHcs].
Qed.

Lemma child_index_some cs k i :
  child_index cs k = Some i <-> nth_error (map fst cs) i = Some k /\ forall j, j < i -> nth_error (map fst cs) j <> Some k.
Proof.
  revert i; induction cs as [|kc cs IH]; intros i; cbn [child_index map].
  - split; [discriminate|]. intros [H _]. destruct i; discriminate.
  - destruct (str_eqb (fst kc) k) eqn:E.
    + apply str_eqb_eq in E. split.
      * intros [= <-]. cbn. split; [congruence|lia].
      * intros [H1 H2]. destruct i as [|i]; [reflexivity|]. exfalso. apply (H2 0); [lia|]. cbn. congruence.
    + apply str_eqb_neq in E. destruct (child_index cs k) as [j|] eqn:Ej; cbn [option_map].
      * split.
        -- intros [= <-]. apply IH in Ej || (pose proof (proj1 (IH j) eq_refl) as Ej'; clear Ej; rename Ej' into Ej).
           destruct Ej as [H1 H2]. split; [exact H1|]. intros [|j'] Hj'; cbn; [congruence|apply H2; lia].
        -- intros [H1 H2]. destruct i as [|i]; [cbn in H1; congruence|]. f_equal.
           enough (Some j = Some i) by congruence. apply IH. split; [exact H1|].
           intros j' Hj'. apply (H2 (S j')). lia.
      * split; [discriminate|]. intros [H1 H2]. destruct i as [|i]; [cbn in H1; congruence|].
        enough (None = Some i) by discriminate. apply IH. split; [exact H1|]. intros j' Hj'. apply (H2 (S j')). lia.
Qed.

Lemma child_index_none cs k : child_index cs k = None <-> ~ In k (map fst cs).
Proof.
  induction cs as [|kc cs IH]; cbn [child_index map]; [split; auto|].
  destruct (str_eqb (fst kc) k) eqn:E.
  - apply str_eqb_eq in E. split; [discriminate|]. intros H. exfalso. apply H. left. exact E.
  - apply str_eqb_neq in E. destruct (child_index cs k); cbn [option_map].
    + split; [discriminate|]. intros H. exfalso. assert (Hn : ~ In k (map fst cs)) by (intros Hi; apply H; right; exact Hi).
      apply IH in Hn. discriminate.
    + split; [|reflexivity]. intros _ [H|H]; [congruence|]. apply IH in H; [exact H|reflexivity].
Qed.

Lemma first_child_iff t k i : try_get_child t k = Some i <-> first_child t k i.
Proof. apply child_index_some. Qed.

Lemma first_child_in t k i : first_child t k i -> In k (pn_keys t) /\ i < pn_size t.
Proof.
  intros [H _]. split; [eapply nth_error_In; eauto|].
  assert (Hn : nth_error (pn_keys t) i <> None) by congruence. apply nth_error_Some in Hn.
  unfold pn_keys in Hn. rewrite map_length in Hn. exact Hn.
Qed.

Lemma query_key_iff t k i : try_get_query_key t k = Some i <-> addresses_child t k i.
Proof.
  unfold try_get_query_key, addresses_child. destruct (try_get_child t k) as [j|] eqn:E.
  - apply first_child_iff in E. split.
    + intros [= <-]. left. exact E.
    + intros [H|[H _]].
      * apply first_child_iff in H. apply first_child_iff in E. congruence.
      * apply first_child_in in E. tauto.
  - apply child_index_none in E. fold (pn_keys t) in E. split.
    + destruct k as [|c text]; [discriminate|]. destruct (Ascii.eqb_spec c hash) as [->|]; [|discriminate].
      destruct (from_str_int KULong text) as [idx ok] eqn:Ef.
      destruct (ok && (1 <=? idx)%Z && (idx <=? Z.of_nat (pn_size t))%Z) eqn:Eb; [|discriminate].
      rewrite !andb_true_iff in Eb. destruct Eb as [[-> H1] H2]. intros [= <-]. right. split; [exact E|].
      exists text. split; [reflexivity|]. unfold pn_size in *. split; [|lia]. rewrite Ef. f_equal. lia.
    + intros [H|[_ (text & -> & Ht & Hi)]]; [apply first_child_in in H; tauto|].
      rewrite Ht. change (Ascii.eqb "#" hash) with true. cbn [andb]. unfold pn_size.
      destruct ((1 <=? Z.of_nat (S i))%Z && (Z.of_nat (S i) <=? Z.of_nat (length (pn_children t)))%Z) eqn:Eb; [f_equal; lia|lia].
Qed.

Lemma query_key_none t k : try_get_query_key t k = None <-> ~ exists i, addresses_child t k i.
Proof.
  destruct (try_get_query_key t k) as [i|] eqn:E.
  - apply query_key_iff in E. split; [discriminate|]. intros H. exfalso. eauto.
  - split; [|reflexivity]. intros _ (i & H). apply query_key_iff in H. congruence.
Qed.

Lemma query_key_bound t k i : try_get_query_key t k = Some i -> i < length (pn_children t).
Proof.
  rewrite query_key_iff. intros [H|[_ (_ & _ & _ & H)]]; [apply first_child_in in H; apply H|exact H].
Qed.

(** the result depends on the keys only *)
Lemma query_key_keys t u k : pn_keys t = pn_keys u -> try_get_query_key t k = try_get_query_key u k.
Proof.
  intros E. assert (El : pn_size t = pn_size u).
  { unfold pn_size. rewrite <- (map_length fst (pn_children t)), <- (map_length fst (pn_children u)).
    unfold pn_keys in E. rewrite E. reflexivity. }
  assert (Ec : try_get_child t k = try_get_child u k).
  { unfold try_get_child. destruct (child_index (pn_children u) k) as [i|] eqn:Eu.
    - apply child_index_some. apply child_index_some in Eu. unfold pn_keys in E. rewrite E. exact Eu.
    - apply child_index_none. apply child_index_none in Eu. unfold pn_keys in E. rewrite E. exact Eu. }
  unfold try_get_query_key. rewrite Ec, El. reflexivity.
Qed.

(** ** Query strings *)

Lemma query_parts_one d q k : query_parts d q [k] -> q = k /\ find_first_of q [d] 0 = None.
Proof.
  intros (_ & E & H). cbn [join] in E. split; [exact E|]. unfold find_first_of. cbn [skipn]. apply index_from_none.
  inversion H; subst. apply Forall_in_set_false. apply Forall_forall. intros c Hc [<-|[]]. auto.
Qed.

Lemma query_parts_cons d q k k2 ks : query_parts d q (k :: k2 :: ks) ->
  exists q', q = k ++ d :: q' /\ query_parts d q' (k2 :: ks) /\ find_first_of q [d] 0 = Some (length k).
Proof.
  intros (_ & E & H). exists (join [d] (k2 :: ks)).
  assert (Eq : q = k ++ d :: join [d] (k2 :: ks)) by exact E.
  inversion H; subst. split; [reflexivity|]. split.
  - split; [discriminate|]. split; [reflexivity|assumption].
  - unfold find_first_of. cbn [skipn].
    pose proof (index_from_app (in_set [d]) k d (join [d] (k2 :: ks)) 0) as Hi. rewrite Nat.add_0_l in Hi.
    apply Hi; [|apply in_set_In; left; reflexivity].
    apply Forall_in_set_false. apply Forall_forall. intros c Hc [<-|[]]. auto.
Qed.

Lemma query_parts_exist d q : exists ks, query_parts d q ks.
Proof.
  induction q as [|c q (ks & H1 & H2 & H3)].
  - exists [[]]. split; [discriminate|]. split; [reflexivity|]. constructor; [auto|constructor].
  - destruct ks as [|k ks]; [congruence|]. inversion H3; subst. destruct (Ascii.eqb_spec c d) as [->|Hn].
    + exists ([] :: k :: ks). split; [discriminate|]. split; [reflexivity|]. constructor; [auto|assumption].
    + exists ((c :: k) :: ks). split; [discriminate|]. split.
      * destruct ks; reflexivity.
      * constructor; [|assumption]. intros [->|Hi]; [congruence|auto].
Qed.

Lemma step_query k d q' : substr (k ++ d :: q') 0 (Some (length k)) = Ok k /\ mid_str (k ++ d :: q') (length k + 1) None = Ok q'.
Proof.
  split; [apply substr_front|]. unfold mid_str.
  pose proof (substr_end (k ++ [d]) q') as H. rewrite app_length in H. cbn [length] in H. rewrite <- app_assoc in H. exact H.
Qed.

Lemma query_loop_spec ks : forall fuel t q d, query_parts d q ks -> length q < fuel ->
  exists r, try_get_query_loop fuel t q d = Ok r /\ forall p, r = Some p <-> addresses t ks p.
Proof.
  induction ks as [|k ks IH]; intros fuel t q d Hq Hf; [destruct Hq; congruence|].
  destruct fuel as [|f]; [lia|]. cbn [try_get_query_loop].
  destruct ks as [|k2 ks].
  - apply query_parts_one in Hq. destruct Hq as [-> ->]. eexists. split; [reflexivity|].
    intros p. split.
    + destruct (try_get_query_key t k) as [i|] eqn:E; [|discriminate]. cbn. intros [= <-].
      pose proof (query_key_bound _ _ _ E) as Hb. apply nth_error_Some in Hb.
      destruct (nth_error (pn_children t) i) as [kc|] eqn:En; [|congruence].
      econstructor; [apply query_key_iff, E|exact En|constructor].
    + intros H. inversion H; subst. inversion H6; subst. apply query_key_iff in H2. rewrite H2. reflexivity.
  - apply query_parts_cons in Hq. destruct Hq as (q' & -> & Hq' & ->).
    destruct (step_query k d q') as [E1 E2]. rewrite E1. cbn [obind].
    rewrite app_length in Hf. cbn [length] in Hf.
    destruct (try_get_query_key t k) as [i|] eqn:E.
    + pose proof (query_key_bound _ _ _ E) as Hb. apply nth_error_Some in Hb.
      destruct (nth_error (pn_children t) i) as [kc|] eqn:En; [|congruence].
      rewrite (vec_get_ok _ _ _ En). cbn [obind]. rewrite E2. cbn [obind].
      destruct (IH f (snd kc) q' d Hq' ltac:(lia)) as (r & Er & Hr). rewrite Er. cbn [obind].
      eexists. split; [reflexivity|]. intros p. split.
      * destruct r as [pr|]; [|discriminate]. cbn. intros [= <-]. econstructor; [apply query_key_iff, E|exact En|apply Hr; reflexivity].
      * intros H. inversion H; subst. apply query_key_iff in H2. rewrite H2 in E. injection E as ->.
        rewrite En in H4. injection H4 as ->. apply Hr in H6. rewrite H6. reflexivity.
    + eexists. split; [reflexivity|]. intros p. split; [discriminate|]. intros H. inversion H; subst.
      apply query_key_iff in H2. congruence.
Qed.

Lemma try_get_query_spec t q d ks : query_parts d q ks ->
  exists r, try_get_query t q d = Ok r /\ forall p, r = Some p <-> addresses t ks p.
Proof. intros H. apply query_loop_spec; [exact H|lia]. Qed.

Lemma addresses_node t ks p : addresses t ks p -> exists u, node_at t p = Some u.
Proof.
  induction 1 as [t|t k i kc ks p H1 H2 H3 IH]; [exists t; reflexivity|]. cbn [node_at]. rewrite H2. exact IH.
Qed.

Lemma addresses_length t ks p : addresses t ks p -> length p = length ks.
Proof. induction 1; cbn; congruence. Qed.

Lemma query_get_assembled t q d :
  exists ks r, query_parts d q ks /\ try_get_query t q d = Ok r /\
    (forall p, r = Some p <-> addresses t ks p) /\
    (forall p, r = Some p -> exists u, node_at t p = Some u).
Proof.
  destruct (query_parts_exist d q) as (ks & Hq). destruct (try_get_query_spec t q d ks Hq) as (r & Er & Hr).
  exists ks, r. split; [exact Hq|]. split; [exact Er|]. split; [exact Hr|]. intros p Hp. apply Hr in Hp. eapply addresses_node. exact Hp.
Qed.

(** ** Setting *)

Lemma upd_child_length cs i f : length (upd_child cs i f) = length cs.
Proof. unfold upd_child. destruct (nth_error cs i); [apply list_set_length|reflexivity]. Qed.

Lemma nth_upd_child_eq cs i f kc : nth_error cs i = Some kc -> nth_error (upd_child cs i f) i = Some (fst kc, f (snd kc)).
Proof. intros H. unfold upd_child. rewrite H. apply nth_error_list_set_eq. apply nth_error_Some. congruence. Qed.

Lemma nth_upd_child_neq cs i j f : i <> j -> nth_error (upd_child cs i f) j = nth_error cs j.
Proof. intros H. unfold upd_child. destruct (nth_error cs i); [apply nth_error_list_set_neq; congruence|reflexivity]. Qed.

Lemma list_eq_nth' {A} (a b : list A) : (forall i, nth_error a i = nth_error b i) -> a = b.
Proof.
  revert b; induction a as [|x a IH]; intros [|y b] H; [reflexivity|specialize (H 0); discriminate|specialize (H 0); discriminate|].
  f_equal; [specialize (H 0); cbn in H; congruence|]. apply IH. intros i. apply (H (S i)).
Qed.

Lemma upd_child_keys cs i f : map fst (upd_child cs i f) = map fst cs.
Proof.
  apply list_eq_nth'. intros j. rewrite !nth_error_map. destruct (Nat.eq_dec i j) as [->|Hn].
  - destruct (nth_error cs j) as [kc|] eqn:E.
    + rewrite (nth_upd_child_eq _ _ _ _ E). reflexivity.
    + replace (nth_error (upd_child cs j f) j) with (@None (str * pn)); [reflexivity|].
      symmetry. apply nth_error_None. rewrite upd_child_length. apply nth_error_None. exact E.
  - rewrite nth_upd_child_neq by exact Hn. reflexivity.
Qed.

Lemma upd_child_comp cs i f g : upd_child (upd_child cs i f) i g = upd_child cs i (fun c => g (f c)).
Proof.
  apply list_eq_nth'. intros j. destruct (Nat.eq_dec i j) as [->|Hn]; [|rewrite !nth_upd_child_neq by exact Hn; reflexivity].
  destruct (nth_error cs j) as [kc|] eqn:E.
  - rewrite (nth_upd_child_eq _ _ _ _ (nth_upd_child_eq _ _ _ _ E)), (nth_upd_child_eq _ _ _ _ E). reflexivity.
  - transitivity (@None (str * pn)); [|symmetry]; apply nth_error_None; rewrite ?upd_child_length; apply nth_error_None; exact E.
Qed.

Fixpoint setk (t : pn) (ks : list str) (v : pn) : pn * list nat :=
  match ks with
  | [] => (v, [])
  | k :: r =>
    match try_get_query_key t k with
    | Some i =>
      match nth_error (pn_children t) i with
      | Some kc => let x := setk (snd kc) r v in (PN (pn_value t) (upd_child (pn_children t) i (fun _ => fst x)) (pn_flag t), i :: snd x)
      | None => (t, [])
      end
    | None => let x := setk pn_empty r v in (add_child t k (fst x), pn_size t :: snd x)
    end
  end.

Lemma update_at_add t k c p f : update_at (add_child t k c) (pn_size t :: p) f = add_child t k (update_at c p f).
Proof.
  cbn [update_at]. unfold add_child. cbn [pn_value pn_children pn_flag]. f_equal.
  unfold upd_child, pn_size. rewrite nth_error_app2 by lia. rewrite Nat.sub_diag. cbn [nth_error fst snd].
  rewrite list_set_app2 by lia. rewrite Nat.sub_diag. reflexivity.
Qed.

Lemma upd_child_ext cs i f g : (forall kc, nth_error cs i = Some kc -> f (snd kc) = g (snd kc)) -> upd_child cs i f = upd_child cs i g.
Proof. intros H. unfold upd_child. destruct (nth_error cs i) as [kc|]; [rewrite (H kc eq_refl); reflexivity|reflexivity]. Qed.

Lemma set_loop_spec ks : forall fuel t q d v, query_parts d q ks -> length q < fuel ->
  exists r, get_or_add_query_loop fuel t q d = Ok r /\ (update_at (fst r) (snd r) (fun _ => v), snd r) = setk t ks v.
Proof.
  induction ks as [|k ks IH]; intros fuel t q d v Hq Hf; [destruct Hq; congruence|].
  destruct fuel as [|f]; [lia|]. cbn [get_or_add_query_loop].
  destruct ks as [|k2 ks].
  - apply query_parts_one in Hq. destruct Hq as [-> ->]. cbn [setk].
    destruct (try_get_query_key t k) as [i|] eqn:E.
    + pose proof (query_key_bound _ _ _ E) as Hb. apply nth_error_Some in Hb.
      destruct (nth_error (pn_children t) i) as [kc|] eqn:En; [|congruence].
      eexists. split; [reflexivity|]. cbn [fst snd update_at]. reflexivity.
    + eexists. split; [reflexivity|]. cbn [fst snd]. rewrite update_at_add. reflexivity.
  - apply query_parts_cons in Hq. destruct Hq as (q' & -> & Hq' & ->).
    destruct (step_query k d q') as [E1 E2]. rewrite E1. cbn [obind].
    rewrite app_length in Hf. cbn [length] in Hf.
    change (setk t (k :: k2 :: ks) v) with
      (match try_get_query_key t k with
       | Some i =>
         match nth_error (pn_children t) i with
         | Some kc => let x := setk (snd kc) (k2 :: ks) v in (PN (pn_value t) (upd_child (pn_children t) i (fun _ => fst x)) (pn_flag t), i :: snd x)
         | None => (t, [])
         end
       | None => let x := setk pn_empty (k2 :: ks) v in (add_child t k (fst x), pn_size t :: snd x)
       end).
    destruct (try_get_query_key t k) as [i|] eqn:E.
    + pose proof (query_key_bound _ _ _ E) as Hb. apply nth_error_Some in Hb.
      destruct (nth_error (pn_children t) i) as [kc|] eqn:En; [|congruence].
      rewrite (vec_get_ok _ _ _ En). cbn [obind]. rewrite E2. cbn [obind].
      destruct (IH f (snd kc) q' d v Hq' ltac:(lia)) as (r & Er & Hr). rewrite Er. cbn [obind].
      eexists. split; [reflexivity|]. rewrite <- Hr. cbn [fst snd update_at pn_value pn_children pn_flag].
      rewrite upd_child_comp. reflexivity.
    + rewrite E2. cbn [obind].
      destruct (IH f pn_empty q' d v Hq' ltac:(lia)) as (r & Er & Hr). rewrite Er. cbn [obind].
      eexists. split; [reflexivity|]. rewrite <- Hr. cbn [fst snd]. rewrite update_at_add. reflexivity.
Qed.

Lemma set_query_spec t q d v ks : query_parts d q ks -> set_query t q v d = Ok (setk t ks v).
Proof.
  intros H. unfold set_query, get_or_add_query.
  destruct (set_loop_spec ks (S (length q)) t q d v H ltac:(lia)) as (r & -> & Hr). cbn [obind]. rewrite Hr. reflexivity.
Qed.

(** one level of the new tree: child [i] is [c], all others as before *)
Lemma setk_step t k ks v :
  exists i c0 x, setk t (k :: ks) v = (fst (setk t (k :: ks) v), i :: snd x) /\ x = setk c0 ks v /\
    let t' := fst (setk t (k :: ks) v) in
    pn_value t' = pn_value t /\ pn_flag t' = pn_flag t /\
    nth_error (pn_children t') i = Some (nth i (pn_keys t') [], fst x) /\
    (forall j, j <> i -> nth_error (pn_children t') j = nth_error (pn_children t) j) /\
    ((exists kc, nth_error (pn_children t) i = Some kc /\ c0 = snd kc /\ pn_keys t' = pn_keys t /\ addresses_child t k i) \/
     (nth_error (pn_children t) i = None /\ c0 = pn_empty /\ pn_keys t' = pn_keys t ++ [k] /\ i = pn_size t /\
      ~ exists i, addresses_child t k i)) /\
    addresses_child t' k i.
Proof.
  cbn [setk]. destruct (try_get_query_key t k) as [i|] eqn:E.
  - pose proof (query_key_bound _ _ _ E) as Hb. apply nth_error_Some in Hb.
    destruct (nth_error (pn_children t) i) as [kc|] eqn:En; [|congruence].
    exists i, (snd kc), (setk (snd kc) ks v). split; [reflexivity|]. split; [reflexivity|].
    cbn [fst snd pn_value pn_flag pn_children]. unfold pn_keys. cbn [pn_children].
    split; [reflexivity|]. split; [reflexivity|]. rewrite upd_child_keys. split.
    { rewrite (nth_upd_child_eq _ _ _ _ En). f_equal. f_equal. symmetry.
      apply nth_error_nth. rewrite nth_error_map, En. reflexivity. }
    split; [intros j Hj; apply nth_upd_child_neq; congruence|]. split.
    + left. exists kc. split; [exact En|]. split; [reflexivity|]. split; [reflexivity|]. apply query_key_iff, E.
    + apply query_key_iff. rewrite <- E. apply query_key_keys. unfold pn_keys. cbn [pn_children]. apply upd_child_keys.
  - exists (pn_size t), pn_empty, (setk pn_empty ks v). split; [reflexivity|]. split; [reflexivity|].
    cbn [fst snd]. unfold add_child. cbn [pn_value pn_flag pn_children]. unfold pn_keys. cbn [pn_children].
    split; [reflexivity|]. split; [reflexivity|]. rewrite map_app. cbn [map fst]. unfold pn_size. split.
    { rewrite nth_error_app2 by lia. rewrite Nat.sub_diag. cbn [nth_error]. f_equal. f_equal.
      rewrite app_nth2; rewrite map_length; [|lia]. rewrite Nat.sub_diag. reflexivity. }
    split.
    { intros j Hj. destruct (Nat.lt_ge_cases j (length (pn_children t))) as [H|H].
      - apply nth_error_app1. exact H.
      - rewrite (proj2 (nth_error_None _ _) H). apply nth_error_None. rewrite app_length. cbn. lia. }
    split.
    + right. split; [apply nth_error_None; lia|]. split; [reflexivity|]. split; [reflexivity|]. split; [reflexivity|].
      apply query_key_none, E.
    + left. split; unfold pn_keys; cbn [pn_children]; rewrite map_app; cbn [map fst].
      * rewrite nth_error_app2; rewrite map_length; [|lia]. rewrite Nat.sub_diag. reflexivity.
      * intros j Hj. rewrite nth_error_app1; [|rewrite map_length; exact Hj].
        intros Hk. apply nth_error_In in Hk. apply query_key_none in E. apply E.
        destruct (try_get_child t k) as [i|] eqn:Ei.
        -- exists i. left. apply first_child_iff, Ei.
        -- apply child_index_none in Ei. contradiction.
Qed.

Lemma node_at_empty p u : node_at pn_empty p = Some u -> p = [].
Proof. destruct p as [|i p]; [reflexivity|]. cbn. destruct i; discriminate. Qed.

Lemma setk_spec ks : forall t v, let t' := fst (setk t ks v) in let p := snd (setk t ks v) in
  addresses t' ks p /\
  (forall r, node_at t' (p ++ r) = node_at v r) /\
  (forall x, ~ is_prefix p x -> ~ is_prefix x p -> node_at t' x = node_at t x) /\
  (forall n, n < length p -> exists u', node_at t' (firstn n p) = Some u' /\
     match node_at t (firstn n p) with
     | Some u => pn_value u' = pn_value u /\ pn_flag u' = pn_flag u /\
        (pn_keys u' = pn_keys u \/
         (pn_keys u' = pn_keys u ++ [nth n ks []] /\ ~ exists i, addresses_child u (nth n ks []) i))
     | None => pn_value u' = [] /\ pn_flag u' = false /\ pn_keys u' = [nth n ks []]
     end) /\
  (forall p0, addresses t ks p0 -> p = p0 /\ forall n u, n < length p -> node_at t (firstn n p) = Some u ->
     exists u', node_at t' (firstn n p) = Some u' /\ pn_keys u' = pn_keys u) /\
  (forall ks2 p2, ~ is_prefix p p2 -> ~ is_prefix p2 p -> (addresses t ks2 p2 <-> addresses t' ks2 p2)).
Proof.
  induction ks as [|k ks IH]; intros t v; cbv zeta.
  - cbn [setk fst snd]. split; [constructor|]. split; [reflexivity|]. split.
    { intros x H. exfalso. apply H. exists x. reflexivity. }
    split; [cbn; lia|]. split.
    { intros p0 H. inversion H; subst. split; [reflexivity|]. cbn. lia. }
    intros ks2 p2 H. exfalso. apply H. exists p2. reflexivity.
  - destruct (setk_step t k ks v) as (i & c0 & x & E & Ex & HH). cbv zeta in HH.
    destruct HH as (Hv & Hfl & Hi & Hj & Hc & Ha).
    set (t' := fst (setk t (k :: ks) v)) in *.
    assert (Es : snd (setk t (k :: ks) v) = i :: snd x) by (rewrite E; reflexivity). rewrite Es.
    destruct (IH c0 v) as (I1 & I2 & I3 & I4 & I5 & I6). rewrite <- Ex in *.
    assert (Hc0 : forall u, node_at c0 u = node_at t (i :: u) \/ (nth_error (pn_children t) i = None /\ c0 = pn_empty)).
    { intros u. destruct Hc as [(kc & H1 & -> & _)|(H1 & H2 & _)]; [left; cbn [node_at]; rewrite H1; reflexivity|right; auto]. }
    split; [econstructor; [exact Ha|exact Hi|exact I1]|]. split.
    { intros r. cbn [app node_at]. rewrite Hi. apply I2. }
    split.
    { intros [|j y] H1 H2; [exfalso; apply H2; exists (i :: snd x); reflexivity|].
      cbn [node_at]. destruct (Nat.eq_dec j i) as [->|Hn]; [|rewrite Hj by exact Hn; reflexivity].
      rewrite Hi. cbn [snd]. assert (N1 : ~ is_prefix (snd x) y) by (intros (r & ->); apply H1; exists r; reflexivity).
      assert (N2 : ~ is_prefix y (snd x)) by (intros (r & Er); apply H2; exists r; rewrite Er; reflexivity).
      rewrite (I3 y N1 N2). destruct (Hc0 y) as [->|[Hn Hc0']]; [reflexivity|]. rewrite Hn, Hc0'.
      destruct y as [|j y]; [exfalso; apply N2; exists (snd x); reflexivity|]. cbn. destruct j; reflexivity. }
    split.
    { intros [|n] Hn.
      - exists t'. split; [reflexivity|]. cbn [firstn node_at nth]. split; [exact Hv|]. split; [exact Hfl|].
        destruct Hc as [(kc & _ & _ & H & _)|(_ & _ & H & _ & H2)]; [left; exact H|right; split; assumption].
      - cbn [length] in Hn. destruct (I4 n ltac:(lia)) as (u' & Hu' & Hm). exists u'. split; [cbn [firstn node_at]; rewrite Hi; exact Hu'|].
        cbn [firstn nth]. destruct Hc as [(kc & H1 & -> & _)|(H1 & -> & _)].
        + cbn [node_at]. rewrite H1. exact Hm.
        + cbn [node_at]. rewrite H1. destruct (node_at pn_empty (firstn n (snd x))) as [w|] eqn:Ew; [|exact Hm].
          pose proof (node_at_empty _ _ Ew) as Hnil. rewrite Hnil in Ew. cbn in Ew. injection Ew as <-.
          destruct Hm as (M1 & M2 & [M3|[M3 _]]).
          * (* no key was added below the fresh node: impossible, it has a child *)
            exfalso. rewrite Hnil in Hu'. injection Hu' as <-.
            assert (Hd : exists c r, snd x = c :: r) by (destruct (snd x) as [|c r]; [cbn in Hn; lia|eauto]).
            destruct Hd as (c & r & Ec). pose proof (I2 []) as Hat. rewrite app_nil_r, Ec in Hat. cbn [node_at] in Hat.
            unfold pn_keys in M3. cbn in M3. destruct (pn_children (fst x)); [|discriminate]. destruct c; discriminate.
          * split; [exact M1|]. split; [exact M2|]. exact M3. }
    split.
    { intros p0 H. inversion H; subst. destruct Hc as [(kc' & H1 & -> & Hk & Hai)|(_ & _ & _ & _ & Hno)]; [|exfalso; eauto].
      assert (i0 = i). { apply query_key_iff in H2. apply query_key_iff in Hai. congruence. } subst i0.
      rewrite H1 in H4. injection H4 as ->. destruct (I5 _ H6) as [E5 K5]. split; [congruence|].
      intros [|n] u Hn Hu.
      - cbn in Hu. injection Hu as <-. exists t'. split; [reflexivity|exact Hk].
      - cbn [firstn length] in *. cbn [node_at] in Hu. rewrite H1 in Hu. destruct (K5 n u ltac:(lia) Hu) as (u' & Hu' & Hk').
        exists u'. split; [cbn [node_at]; rewrite Hi; exact Hu'|exact Hk']. }
    intros ks2 p2 H1 H2. destruct p2 as [|j p2]; [exfalso; apply H2; exists (i :: snd x); reflexivity|].
    assert (Hkey : forall k2, i <> j \/ (exists kc, nth_error (pn_children t) i = Some kc) -> (addresses_child t k2 j <-> addresses_child t' k2 j)).
    { intros k2 Hor. destruct Hc as [(kc & _ & _ & Hk & _)|(Hn & _ & Hk & His & Hno)].
      - rewrite <- !query_key_iff. rewrite (query_key_keys t t' k2 (eq_sym Hk)). reflexivity.
      - destruct Hor as [Hij|(kc & Hkc)]; [|congruence].
        assert (Hl : length (pn_children t') = S (length (pn_children t))).
        { rewrite <- (map_length fst (pn_children t')). fold (pn_keys t'). rewrite Hk, app_length. unfold pn_keys. rewrite map_length. cbn. lia. }
        unfold pn_size in His. split.
        + intros [[F1 F2]|[F1 (text & -> & F3 & F4)]].
          * left. assert (Hjl : j < length (pn_keys t)) by (apply nth_error_Some; congruence). split.
            -- rewrite Hk. rewrite nth_error_app1 by exact Hjl. exact F1.
            -- intros j' Hj'. rewrite Hk. rewrite nth_error_app1 by lia. apply F2. exact Hj'.
          * right. rewrite Hk, in_app_iff. split.
            -- intros [F|[F|[]]]; [contradiction|]. subst k. apply Hno. exists j. right. split; [exact F1|]. eauto.
            -- exists text. split; [reflexivity|]. split; [exact F3|lia].
        + intros [[F1 F2]|[F1 (text & -> & F3 & F4)]].
          * left. rewrite Hk in F1, F2. assert (Hjl : j < length (pn_keys t ++ [k])) by (apply nth_error_Some; congruence).
            assert (Hkl : length (pn_keys t) = length (pn_children t)) by (unfold pn_keys; apply map_length).
            rewrite app_length in Hjl. cbn in Hjl. split.
            -- rewrite nth_error_app1 in F1 by lia. exact F1.
            -- intros j' Hj'. specialize (F2 j' Hj'). rewrite nth_error_app1 in F2 by lia. exact F2.
          * right. rewrite Hk, in_app_iff in F1. split; [tauto|]. exists text. split; [reflexivity|]. split; [exact F3|]. lia. }
    destruct (Nat.eq_dec j i) as [->|Hn].
    + assert (N1 : ~ is_prefix (snd x) p2) by (intros (r & ->); apply H1; exists r; reflexivity).
      assert (N2 : ~ is_prefix p2 (snd x)) by (intros (r & Er); apply H2; exists r; rewrite Er; reflexivity).
      destruct Hc as [(kc & Hkc & -> & _)|(Hnone & -> & _)].
      * split; intros H; inversion H as [|? ? ? kc' ? ? A1 A2 A3]; subst.
        -- rewrite Hkc in A2. injection A2 as <-.
           econstructor; [apply (proj1 (Hkey k0 (or_intror (ex_intro _ kc Hkc)))); exact A1|exact Hi|]. cbn [snd]. apply (I6 _ _ N1 N2). exact A3.
        -- rewrite Hi in A2. injection A2 as <-. cbn [snd] in A3.
           econstructor; [apply (proj2 (Hkey k0 (or_intror (ex_intro _ kc Hkc)))); exact A1|exact Hkc|]. apply (I6 _ _ N1 N2). exact A3.
      * split; intros H; inversion H as [|? ? ? kc' ? ? A1 A2 A3]; subst; [congruence|].
        rewrite Hi in A2. injection A2 as <-. cbn [snd] in A3. apply (I6 _ _ N1 N2) in A3. exfalso.
        apply N2. destruct p2 as [|c p2]; [exists (snd (setk pn_empty ks v)); reflexivity|].
        inversion A3 as [|? ? ? ? ? ? _ B2 _]. destruct c; discriminate.
    + split; intros H; inversion H as [|? ? ? kc' ? ? A1 A2 A3]; subst.
      * econstructor; [apply (proj1 (Hkey k0 (or_introl (not_eq_sym Hn)))); exact A1|rewrite Hj by exact Hn; exact A2|exact A3].
      * rewrite Hj in A2 by exact Hn. econstructor; [apply (proj2 (Hkey k0 (or_introl (not_eq_sym Hn)))); exact A1|exact A2|exact A3].
Qed.

Lemma set_query_assembled t q d v :
  exists ks t' p, query_parts d q ks /\ set_query t q v d = Ok (t', p) /\
    try_get_query t' q d = Ok (Some p) /\
    (forall r, node_at t' (p ++ r) = node_at v r) /\
    (forall x, ~ is_prefix p x -> ~ is_prefix x p -> node_at t' x = node_at t x) /\
    (forall n, n < length p -> exists u', node_at t' (firstn n p) = Some u' /\
       match node_at t (firstn n p) with
       | Some u => pn_value u' = pn_value u /\ pn_flag u' = pn_flag u /\
          (pn_keys u' = pn_keys u \/
           (pn_keys u' = pn_keys u ++ [nth n ks []] /\ ~ exists i, addresses_child u (nth n ks []) i))
       | None => pn_value u' = [] /\ pn_flag u' = false /\ pn_keys u' = [nth n ks []]
       end) /\
    (forall p0, try_get_query t q d = Ok (Some p0) -> p = p0 /\ forall n u, n < length p -> node_at t (firstn n p) = Some u ->
       exists u', node_at t' (firstn n p) = Some u' /\ pn_keys u' = pn_keys u) /\
    (forall q2 d2 p2, ~ is_prefix p p2 -> ~ is_prefix p2 p ->
       (try_get_query t q2 d2 = Ok (Some p2) <-> try_get_query t' q2 d2 = Ok (Some p2))).
Proof.
  destruct (query_parts_exist d q) as (ks & Hq). destruct (setk_spec ks t v) as (S1 & S2 & S3 & S4 & S5 & S6). cbv zeta in *.
  exists ks, (fst (setk t ks v)), (snd (setk t ks v)). split; [exact Hq|].
  split; [rewrite (set_query_spec _ _ _ _ _ Hq); destruct (setk t ks v); reflexivity|].
  assert (Hg : forall w p, try_get_query w q d = Ok (Some p) <-> addresses w ks p).
  { intros w p. destruct (try_get_query_spec w q d ks Hq) as (r & Er & Hr). rewrite Er, <- Hr. split; congruence. }
  split; [apply Hg, S1|]. split; [exact S2|]. split; [exact S3|]. split; [exact S4|]. split.
  - intros p0 H. apply Hg in H. apply S5. exact H.
  - intros q2 d2 p2 N1 N2. destruct (query_parts_exist d2 q2) as (ks2 & Hq2).
    destruct (try_get_query_spec t q2 d2 ks2 Hq2) as (r & Er & Hr).
    destruct (try_get_query_spec (fst (setk t ks v)) q2 d2 ks2 Hq2) as (r' & Er' & Hr').
    rewrite Er, Er'. specialize (S6 ks2 p2 N1 N2). rewrite <- Hr, <- Hr' in S6. split; intros H.
    + f_equal. apply S6. congruence.
    + f_equal. apply S6. congruence.
Qed.

(** "#n" counts children from 1 *)
Lemma query_index t n : (n < length (pn_children t))%nat -> (Z.of_nat (S n) < 2 ^ 64)%Z ->
  ~ In ("#"%char :: to_string (Z.of_nat (S n))) (pn_keys t) ->
  try_get_query t ("#"%char :: to_string (Z.of_nat (S n))) "."%char = Ok (Some [n]).
Proof.
  intros Hn Hz Hk. set (k := "#"%char :: to_string (Z.of_nat (S n))) in *.
  assert (Hq : query_parts "."%char k [k]).
  { split; [discriminate|]. split; [reflexivity|]. constructor; [|constructor].
    intros [H|H]; [discriminate|]. destruct (to_string_text (Z.of_nat (S n))) as [_ Hf].
    rewrite Forall_forall in Hf. apply Hf in H. destruct H as (_ & H & _). congruence. }
  destruct (try_get_query_spec t k "."%char [k] Hq) as (r & Er & Hr). rewrite Er. f_equal. apply Hr.
  assert (Hne : nth_error (pn_children t) n <> None) by (apply nth_error_Some; exact Hn).
  destruct (nth_error (pn_children t) n) as [kc|] eqn:En; [|congruence].
  econstructor; [right|exact En|constructor]. split; [exact Hk|]. exists (to_string (Z.of_nat (S n))). split; [reflexivity|].
  split; [|exact Hn]. pose proof (roundtrip_int KULong (Z.of_nat (S n))) as H. unfold to_str_int in H. cbn [kind_min kind_max] in H.
  apply H. lia.
Qed.
