(** Proofs about the sorted-vector containers. *)
From Coq Require Import List Arith Bool Lia Sorted Permutation.
From Coq Require Import ZifyBool ZifyNat.
From Verif Require Import Base BaseProofs FlatSpec FlatModel.
Import ListNotations.

Section Generic.
  Context {E K : Type} (key : E -> K) (klt keq : K -> K -> bool).
  Hypothesis TO : total_order klt keq.

  Definition all_lt (k : K) (l : list E) := Forall (fun e => klt (key e) k = true) l.
  Definition all_gt (k : K) (l : list E) := Forall (fun e => klt k (key e) = true) l.

  Lemma klt_asym a b : klt a b = true -> klt b a = false.
  Proof.
    intros H. destruct (klt b a) eqn:H'; [|reflexivity].
    pose proof (to_trans _ _ TO _ _ _ H H') as C. rewrite (to_irrefl _ _ TO) in C. discriminate.
  Qed.

  Lemma keq_refl a : keq a a = true.
  Proof. apply (to_eq _ _ TO). reflexivity. Qed.

  Lemma keq_lt a b : klt a b = true -> keq a b = false.
  Proof.
    intros H. destruct (keq a b) eqn:Hq; [|reflexivity].
    apply (to_eq _ _ TO) in Hq. subst. rewrite (to_irrefl _ _ TO) in H. discriminate.
  Qed.

  Lemma keq_gt a b : klt a b = true -> keq b a = false.
  Proof.
    intros H. destruct (keq b a) eqn:Hq; [|reflexivity].
    apply (to_eq _ _ TO) in Hq. subst. rewrite (to_irrefl _ _ TO) in H. discriminate.
  Qed.

  Lemma inc_mono l k :
    increasing klt (map key l) -> mono_list (fun e => klt (key e) k) l.
  Proof.
    unfold increasing. induction l as [|x t IH]; intros H; cbn; [exact I|].
    inversion H as [|a b Hs Hf]; subst. split; [|apply IH; exact Hs].
    intros Hx. rewrite Forall_map in Hf. rewrite Forall_forall in *. intros y Hy.
    specialize (Hf y Hy). cbn in Hf.
    destruct (klt (key y) k) eqn:Hyk; [|reflexivity].
    rewrite (to_trans _ _ TO _ _ _ Hf Hyk) in Hx. discriminate.
  Qed.

  Lemma inc_app A B :
    increasing klt (map key (A ++ B)) <->
    increasing klt (map key A) /\ increasing klt (map key B) /\
    (forall a b, In a A -> In b B -> klt (key a) (key b) = true).
  Proof.
    unfold increasing. induction A as [|x A IH]; cbn.
    - split; [intros H; split; [constructor|split; [exact H|intros a b []]]|intros (_ & H & _); exact H].
    - split.
      + intros H. inversion H as [|a b Hs Hf]; subst. apply IH in Hs. destruct Hs as (H1 & H2 & H3).
        rewrite map_app in Hf. apply Forall_app in Hf. destruct Hf as [Hf1 Hf2].
        split; [constructor; assumption|]. split; [exact H2|].
        intros a b [->|Ha] Hb; [|apply H3; assumption].
        rewrite Forall_map, Forall_forall in Hf2. apply Hf2, Hb.
      + intros (H1 & H2 & H3). inversion H1 as [|a b Hs Hf]; subst. constructor.
        * apply IH. split; [exact Hs|]. split; [exact H2|]. intros a b Ha Hb. apply H3; [right|]; assumption.
        * rewrite map_app. apply Forall_app. split; [exact Hf|].
          rewrite Forall_map, Forall_forall. intros b Hb. apply H3; [left; reflexivity|exact Hb].
  Qed.

  Lemma lb_split l k :
    increasing klt (map key l) ->
    let it := partition_search (fun e => klt (key e) k) l in
    (exists A e B, l = A ++ e :: B /\ length A = it /\ key e = k /\ all_lt k A /\ all_gt k B) \/
    (exists A B, l = A ++ B /\ length A = it /\ all_lt k A /\ all_gt k B).
  Proof.
    intros H. cbv zeta. rewrite partition_search_prefix by (apply inc_mono, H).
    induction l as [|x t IH]; cbn [prefix_len].
    - right. exists [], []. repeat split; constructor.
    - assert (Ht : increasing klt (map key t)) by (inversion H; assumption).
      assert (Hx : Forall (fun e => klt (key x) (key e) = true) t).
      { inversion H; subst. rewrite Forall_map in *. assumption. }
      destruct (klt (key x) k) eqn:Hxk.
      + destruct (IH Ht) as [(A & e & B & -> & HA & He & H1 & H2)|(A & B & -> & HA & H1 & H2)].
        * left. exists (x :: A), e, B. cbn. repeat split; auto. constructor; assumption.
        * right. exists (x :: A), B. cbn. repeat split; auto. constructor; assumption.
      + destruct (klt k (key x)) eqn:Hkx.
        * right. exists [], (x :: t). repeat split; try constructor; auto.
          rewrite Forall_forall in *. intros e He. eapply (to_trans _ _ TO); eauto.
        * left. exists [], x, t. pose proof (to_total _ _ TO _ _ Hxk Hkx) as <-.
          repeat split; auto. constructor.
  Qed.

  Lemma all_lt_not_eq k A : all_lt k A -> forall e, In e A -> key e <> k.
  Proof.
    intros H e He Hk. unfold all_lt in H. rewrite Forall_forall in H. specialize (H e He).
    rewrite Hk, (to_irrefl _ _ TO) in H. discriminate.
  Qed.
  Lemma all_gt_not_eq k A : all_gt k A -> forall e, In e A -> key e <> k.
  Proof.
    intros H e He Hk. unfold all_gt in H. rewrite Forall_forall in H. specialize (H e He).
    rewrite Hk, (to_irrefl _ _ TO) in H. discriminate.
  Qed.

  Lemma filter_none A k :
    (forall e, In e A -> key e <> k) -> filter (fun e => keq (key e) k) A = [].
  Proof.
    induction A as [|x t IH]; intros H; cbn; [reflexivity|].
    destruct (keq (key x) k) eqn:Hq.
    - apply (to_eq _ _ TO) in Hq. exfalso. apply (H x); [left; reflexivity|exact Hq].
    - apply IH. intros e He. apply H. right. exact He.
  Qed.

  Lemma inc_insert A B e :
    increasing klt (map key (A ++ B)) -> all_lt (key e) A -> all_gt (key e) B ->
    increasing klt (map key (A ++ e :: B)).
  Proof.
    intros H HA HB. apply inc_app in H. destruct H as (H1 & H2 & H3). apply inc_app.
    split; [exact H1|]. split.
    - cbn. constructor; [exact H2|]. rewrite Forall_map. exact HB.
    - intros a b Ha [<-|Hb].
      + unfold all_lt in HA. rewrite Forall_forall in HA. apply HA, Ha.
      + apply H3; assumption.
  Qed.

  Lemma inc_remove A B e :
    increasing klt (map key (A ++ e :: B)) -> increasing klt (map key (A ++ B)).
  Proof.
    intros H. apply inc_app in H. destruct H as (H1 & H2 & H3). apply inc_app.
    split; [exact H1|]. split; [inversion H2; assumption|].
    intros a b Ha Hb. apply H3; [exact Ha|right; exact Hb].
  Qed.

  Lemma inc_replace A B e e' :
    key e = key e' ->
    increasing klt (map key (A ++ e :: B)) -> increasing klt (map key (A ++ e' :: B)).
  Proof. intros He. rewrite !map_app. cbn. rewrite He. auto. Qed.

  Lemma inc_NoDup l : increasing klt (map key l) -> NoDup (map key l).
  Proof.
    unfold increasing. induction (map key l) as [|a t IH]; intros H; [constructor|].
    inversion H as [|a' t' Hs Hf]; subst. constructor; [|apply IH, Hs].
    intros Hin. rewrite Forall_forall in Hf. specialize (Hf a Hin).
    rewrite (to_irrefl _ _ TO) in Hf. discriminate.
  Qed.
End Generic.

Lemma nth_error_mid {A} (l1 l2 : list A) x : nth_error (l1 ++ x :: l2) (length l1) = Some x.
Proof. rewrite nth_error_app2 by lia. rewrite Nat.sub_diag. reflexivity. Qed.

Lemma list_insert_mid {A} (l1 l2 : list A) x : list_insert (l1 ++ l2) (length l1) x = l1 ++ x :: l2.
Proof.
  unfold list_insert. rewrite firstn_app, firstn_all, Nat.sub_diag, skipn_app, skipn_all, Nat.sub_diag.
  cbn. rewrite app_nil_r. reflexivity.
Qed.

Lemma list_erase_mid {A} (l1 l2 : list A) x : list_erase (l1 ++ x :: l2) (length l1) = l1 ++ l2.
Proof.
  unfold list_erase. rewrite firstn_app, firstn_all, Nat.sub_diag, skipn_app.
  rewrite (skipn_all2 l1) by lia. replace (S (length l1) - length l1) with 1 by lia.
  cbn. rewrite app_nil_r. reflexivity.
Qed.

Lemma list_set_mid {A} (l1 l2 : list A) x y : list_set (l1 ++ x :: l2) (length l1) y = l1 ++ y :: l2.
Proof. rewrite list_set_app2 by lia. rewrite Nat.sub_diag. reflexivity. Qed.

(** ** flat_map *)
Section FlatMapProofs.
  Context {K V : Type} (klt keq : K -> K -> bool) (vdef : V).
  Hypothesis TO : total_order klt keq.

  Notation inc m := (increasing klt (map (@fst K V) m)).

  Definition represents (m : list (K * V)) (f : K -> option V) : Prop :=
    inc m /\ forall k v, In (k, v) m <-> f k = Some v.

  (** the two possible situations at the searched position *)
  Lemma fm_split m k :
    inc m ->
    (exists A v B, m = A ++ (k, v) :: B /\ fm_lower_bound klt m k = length A /\
        all_lt fst klt k A /\ all_gt fst klt k B /\ fm_hit keq m (length A) k = true) \/
    (exists A B, m = A ++ B /\ fm_lower_bound klt m k = length A /\
        all_lt fst klt k A /\ all_gt fst klt k B /\ fm_hit keq m (length A) k = false).
  Proof.
    intros H. destruct (lb_split fst klt keq TO m k H)
      as [(A & [k' v] & B & Hm & HA & He & H1 & H2)|(A & B & Hm & HA & H1 & H2)].
    - left. cbn in He. subst k'. exists A, v, B. repeat split; auto.
      unfold fm_hit. rewrite Hm, nth_error_mid. cbn. apply (keq_refl klt keq TO).
    - right. exists A, B. repeat split; auto.
      unfold fm_hit. rewrite Hm. destruct B as [|[k' v] B].
      + rewrite app_nil_r. destruct (nth_error A (length A)) eqn:Hn; [|reflexivity].
        assert (length A < length A) by (apply nth_error_Some; congruence). lia.
      + rewrite nth_error_mid. cbn. inversion H2; subst. cbn in *. apply (keq_gt klt keq TO). assumption.
  Qed.

  Lemma represents_in_iff m f k v : represents m f -> In (k, v) m -> f k = Some v.
  Proof. intros [_ H]. apply H. Qed.

  Lemma not_in_lt_gt A B k (v : V) :
    all_lt fst klt k A -> all_gt fst klt k B -> ~ In (k, v) (A ++ B).
  Proof.
    intros H1 H2 Hin. apply in_app_or in Hin. destruct Hin as [Hi|Hi].
    - apply (all_lt_not_eq fst klt keq TO _ _ H1 _ Hi). reflexivity.
    - apply (all_gt_not_eq fst klt keq TO _ _ H2 _ Hi). reflexivity.
  Qed.

  Lemma fm_find_cases m k f :
    represents m f ->
    match f k with
    | Some v => fm_find klt keq m k < length m /\ nth_error m (fm_find klt keq m k) = Some (k, v)
    | None => fm_find klt keq m k = length m
    end.
  Proof.
    intros [Hi Hf]. destruct (fm_split m k Hi)
      as [(A & v & B & Hm & Hlb & H1 & H2 & Hh)|(A & B & Hm & Hlb & H1 & H2 & Hh)].
    - assert (Hk : f k = Some v) by (apply Hf; rewrite Hm; apply in_elt).
      rewrite Hk. unfold fm_find. rewrite Hlb, Hh, Hm, nth_error_mid, app_length. cbn. split; [lia|reflexivity].
    - destruct (f k) as [v|] eqn:Hk.
      + apply Hf in Hk. rewrite Hm in Hk. exfalso. eapply not_in_lt_gt; eauto.
      + unfold fm_find. rewrite Hlb, Hh. reflexivity.
  Qed.

  Lemma fm_contains_spec m k f :
    represents m f -> fm_contains klt keq m k = match f k with Some _ => true | None => false end.
  Proof.
    intros H. pose proof (fm_find_cases m k f H) as Hc. unfold fm_contains.
    destruct (f k); [destruct Hc as [Hc _]|]; lia.
  Qed.

  Lemma fm_at_spec m k f :
    represents m f -> fm_at klt keq m k = match f k with Some v => Ok v | None => Throw end.
  Proof.
    intros H. pose proof (fm_find_cases m k f H) as Hc. unfold fm_at.
    destruct (f k) as [v|].
    - destruct Hc as [Hc Hn]. replace (_ =? _) with false by lia.
      unfold vec_get. rewrite Hn. reflexivity.
    - rewrite Hc, Nat.eqb_refl. reflexivity.
  Qed.

  Lemma fm_count_spec m k f :
    represents m f -> fm_count keq m k = match f k with Some _ => 1 | None => 0 end.
  Proof.
    intros [Hi Hf]. unfold fm_count. destruct (fm_split m k Hi)
      as [(A & v & B & Hm & Hlb & H1 & H2 & Hh)|(A & B & Hm & Hlb & H1 & H2 & Hh)].
    - assert (Hk : f k = Some v) by (apply Hf; rewrite Hm; apply in_elt). rewrite Hk, Hm.
      rewrite filter_app. cbn [filter fst]. rewrite (keq_refl klt keq TO).
      rewrite (filter_none fst klt keq TO A) by (eapply all_lt_not_eq; eauto).
      rewrite (filter_none fst klt keq TO B) by (eapply all_gt_not_eq; eauto). reflexivity.
    - destruct (f k) as [v|] eqn:Hk.
      + apply Hf in Hk. rewrite Hm in Hk. exfalso. eapply not_in_lt_gt; eauto.
      + rewrite Hm, filter_app.
        rewrite (filter_none fst klt keq TO A) by (eapply all_lt_not_eq; eauto).
        rewrite (filter_none fst klt keq TO B) by (eapply all_gt_not_eq; eauto). reflexivity.
  Qed.

  Lemma upd_same (f : K -> option V) k o : upd keq f k o k = o.
  Proof. unfold upd. rewrite (keq_refl klt keq TO). reflexivity. Qed.

  Lemma upd_other (f : K -> option V) k o x : x <> k -> upd keq f k o x = f x.
  Proof.
    intros H. unfold upd. destruct (keq x k) eqn:Hq; [|reflexivity].
    apply (to_eq _ _ TO) in Hq. contradiction.
  Qed.

  Lemma keq_dec (a b : K) : a = b \/ a <> b.
  Proof.
    destruct (keq a b) eqn:Hq.
    - left. apply (to_eq _ _ TO). exact Hq.
    - right. intros ->. rewrite (keq_refl klt keq TO) in Hq. discriminate.
  Qed.

  Lemma rep_absent_insert A B f k v :
    represents (A ++ B) f -> all_lt fst klt k A -> all_gt fst klt k B ->
    represents (A ++ (k, v) :: B) (upd keq f k (Some v)).
  Proof.
    intros [Hi Hf] H1 H2. split.
    - apply (inc_insert fst klt); assumption.
    - intros k' v'. rewrite in_app_iff. cbn [In]. destruct (keq_dec k' k) as [->|Hne].
      + rewrite upd_same. split.
        * intros [H|[H|H]].
          -- exfalso. eapply not_in_lt_gt; eauto. apply in_or_app. left; eauto.
          -- congruence.
          -- exfalso. eapply not_in_lt_gt; eauto. apply in_or_app. right; eauto.
        * intros H. injection H as ->. auto.
      + rewrite upd_other by exact Hne. rewrite <- Hf, in_app_iff. intuition congruence.
  Qed.

  Lemma rep_replace A B f k v v' :
    represents (A ++ (k, v) :: B) f -> all_lt fst klt k A -> all_gt fst klt k B ->
    represents (A ++ (k, v') :: B) (upd keq f k (Some v')).
  Proof.
    intros [Hi Hf] H1 H2. split.
    - eapply (inc_replace fst klt); [|exact Hi]. reflexivity.
    - intros k' w. rewrite in_app_iff. cbn [In]. destruct (keq_dec k' k) as [->|Hne].
      + rewrite upd_same. split.
        * intros [H|[H|H]].
          -- exfalso. eapply not_in_lt_gt; eauto. apply in_or_app. left; eauto.
          -- congruence.
          -- exfalso. eapply not_in_lt_gt; eauto. apply in_or_app. right; eauto.
        * intros H. injection H as ->. auto.
      + rewrite upd_other by exact Hne. rewrite <- Hf, in_app_iff. cbn [In]. intuition congruence.
  Qed.

  Lemma rep_remove A B f k v :
    represents (A ++ (k, v) :: B) f -> all_lt fst klt k A -> all_gt fst klt k B ->
    represents (A ++ B) (upd keq f k None).
  Proof.
    intros [Hi Hf] H1 H2. split.
    - eapply (inc_remove fst klt); exact Hi.
    - intros k' w. destruct (keq_dec k' k) as [->|Hne].
      + rewrite upd_same. split; [|discriminate]. intros H. exfalso. eapply not_in_lt_gt; eauto.
      + rewrite upd_other by exact Hne. rewrite <- Hf, !in_app_iff. cbn [In]. intuition congruence.
  Qed.

  Lemma rep_ext m f g : represents m f -> (forall k, f k = g k) -> represents m g.
  Proof. intros [Hi Hf] H. split; [exact Hi|]. intros k v. rewrite <- H. apply Hf. Qed.

  Lemma upd_id (f : K -> option V) k o : f k = o -> forall x, f x = upd keq f k o x.
  Proof.
    intros H x. destruct (keq_dec x k) as [->|Hne].
    - rewrite upd_same. exact H.
    - rewrite upd_other by exact Hne. reflexivity.
  Qed.

  (** insert: effect, position, flag *)
  Lemma fm_insert_spec m f k v :
    represents m f ->
    let r := fm_insert klt keq m k v in
    represents (fst r) (map_step keq vdef f (MInsert k v)) /\
    snd (snd r) = match f k with Some _ => false | None => true end /\
    nth_error (fst r) (fst (snd r)) = Some (k, match f k with Some w => w | None => v end).
  Proof.
    intros H. pose proof H as [Hi Hf]. unfold fm_insert. destruct (fm_split m k Hi)
      as [(A & w & B & Hm & Hlb & H1 & H2 & Hh)|(A & B & Hm & Hlb & H1 & H2 & Hh)]; rewrite Hlb, Hh; cbn.
    - assert (Hk : f k = Some w) by (apply Hf; rewrite Hm; apply in_elt). rewrite Hk.
      repeat split; try (apply H). rewrite Hm, nth_error_mid. reflexivity.
    - destruct (f k) as [w|] eqn:Hk.
      + apply Hf in Hk. rewrite Hm in Hk. exfalso. eapply not_in_lt_gt; eauto.
      + subst m. rewrite list_insert_mid, nth_error_mid. split; [|split; reflexivity].
        apply rep_absent_insert; assumption.
  Qed.

  Lemma fm_index_spec m f k :
    represents m f ->
    let r := fm_index klt keq vdef m k in
    represents (fst r) (map_step keq vdef f (MTouch k)) /\
    nth_error (fst r) (snd r) = Some (k, match f k with Some w => w | None => vdef end).
  Proof.
    intros H. pose proof H as [Hi Hf]. unfold fm_index. destruct (fm_split m k Hi)
      as [(A & w & B & Hm & Hlb & H1 & H2 & Hh)|(A & B & Hm & Hlb & H1 & H2 & Hh)]; rewrite Hlb, Hh; cbn.
    - assert (Hk : f k = Some w) by (apply Hf; rewrite Hm; apply in_elt). rewrite Hk.
      split; [apply H|]. rewrite Hm, nth_error_mid. reflexivity.
    - destruct (f k) as [w|] eqn:Hk.
      + apply Hf in Hk. rewrite Hm in Hk. exfalso. eapply not_in_lt_gt; eauto.
      + subst m. rewrite list_insert_mid, nth_error_mid. split; [|reflexivity].
        apply rep_absent_insert; assumption.
  Qed.

  Lemma fm_assign_spec m f k v :
    represents m f -> represents (fm_assign klt keq vdef m k v) (map_step keq vdef f (MAssign k v)).
  Proof.
    intros H. pose proof H as [Hi Hf]. unfold fm_assign, fm_index. destruct (fm_split m k Hi)
      as [(A & w & B & Hm & Hlb & H1 & H2 & Hh)|(A & B & Hm & Hlb & H1 & H2 & Hh)]; rewrite Hlb, Hh; cbn.
    - subst m. rewrite nth_error_mid, list_set_mid. eapply rep_replace; eauto.
    - subst m. rewrite list_insert_mid, nth_error_mid, list_set_mid. apply rep_absent_insert; assumption.
  Qed.

  Lemma fm_erase_spec m f k :
    represents m f ->
    let r := fm_erase klt keq m k in
    represents (fst r) (map_step keq vdef f (MErase k)) /\
    snd r = match f k with Some _ => 1 | None => 0 end.
  Proof.
    intros H. pose proof H as [Hi Hf]. unfold fm_erase, fm_find. destruct (fm_split m k Hi)
      as [(A & w & B & Hm & Hlb & H1 & H2 & Hh)|(A & B & Hm & Hlb & H1 & H2 & Hh)]; rewrite Hlb, Hh; cbn.
    - assert (Hk : f k = Some w) by (apply Hf; rewrite Hm; apply in_elt). rewrite Hk.
      replace (length A =? length m) with false by (subst m; rewrite app_length; cbn; lia). cbn.
      split; [|reflexivity]. subst m. rewrite list_erase_mid. eapply rep_remove; eauto.
    - rewrite Nat.eqb_refl. cbn. destruct (f k) as [w|] eqn:Hk.
      + apply Hf in Hk. rewrite Hm in Hk. exfalso. eapply not_in_lt_gt; eauto.
      + split; [|reflexivity]. eapply rep_ext; [exact H|]. apply upd_id, Hk.
  Qed.

  Notation fm_step := (FlatModel.fm_step klt keq vdef).

  Lemma rep_empty : represents [] (fun _ => None).
  Proof. split; [constructor|]. intros k v. split; [intros []|discriminate]. Qed.

  Lemma fm_step_spec m f o : represents m f -> represents (fm_step m o) (map_step keq vdef f o).
  Proof.
    intros H. destruct o as [k v|k|k v|k|]; cbn [fm_step].
    - apply fm_assign_spec, H.
    - apply fm_index_spec, H.
    - apply fm_insert_spec, H.
    - apply fm_erase_spec, H.
    - apply rep_empty.
  Qed.

  Lemma fm_run_spec ops : represents (fold_left fm_step ops []) (map_after keq vdef ops).
  Proof.
    unfold map_after. generalize rep_empty.
    generalize (@nil (K * V)). generalize (fun _ : K => @None V).
    induction ops as [|o ops IH]; intros f m H; cbn [fold_left]; [exact H|].
    apply IH, fm_step_spec, H.
  Qed.

  Lemma fm_size_spec m f :
    represents m f ->
    exists ks, NoDup ks /\ (forall k, In k ks <-> f k <> None) /\ fm_size m = length ks.
  Proof.
    intros [Hi Hf]. exists (map fst m). split; [apply (inc_NoDup fst klt keq TO), Hi|].
    split; [|unfold fm_size; rewrite map_length; reflexivity].
    intros k. rewrite in_map_iff. split.
    - intros ([k' v] & <- & Hin). cbn. apply Hf in Hin. congruence.
    - intros H. destruct (f k) as [v|] eqn:Hk; [|congruence]. exists (k, v). split; [reflexivity|]. apply Hf, Hk.
  Qed.
End FlatMapProofs.

(** ** flat_set *)
Section FlatSetProofs.
  Context {K : Type} (klt keq : K -> K -> bool).
  Hypothesis TO : total_order klt keq.

  Let idk : K -> K := fun x => x.

  Definition set_represents (s : list K) (f : K -> bool) : Prop :=
    increasing klt s /\ forall k, In k s <-> f k = true.

  Lemma map_idk (s : list K) : map idk s = s.
  Proof. unfold idk. apply map_id. Qed.

  Lemma fs_split s k :
    increasing klt s ->
    (exists A B, s = A ++ k :: B /\ fs_lower_bound klt s k = length A /\
        all_lt idk klt k A /\ all_gt idk klt k B /\ fs_hit keq s (length A) k = true) \/
    (exists A B, s = A ++ B /\ fs_lower_bound klt s k = length A /\
        all_lt idk klt k A /\ all_gt idk klt k B /\ fs_hit keq s (length A) k = false).
  Proof.
    intros H. rewrite <- (map_idk s) in H. destruct (lb_split idk klt keq TO s k H)
      as [(A & e & B & Hm & HA & He & H1 & H2)|(A & B & Hm & HA & H1 & H2)].
    - left. unfold idk in He. subst e. exists A, B. repeat split; auto.
      unfold fs_hit. rewrite Hm, nth_error_mid. apply (keq_refl klt keq TO).
    - right. exists A, B. repeat split; auto.
      unfold fs_hit. rewrite Hm. destruct B as [|x B].
      + rewrite app_nil_r. destruct (nth_error A (length A)) eqn:Hn; [|reflexivity].
        assert (length A < length A) by (apply nth_error_Some; congruence). lia.
      + rewrite nth_error_mid. inversion H2; subst. apply (keq_gt klt keq TO). assumption.
  Qed.

  Lemma set_not_in A B k : all_lt idk klt k A -> all_gt idk klt k B -> ~ In k (A ++ B).
  Proof.
    intros H1 H2 Hin. apply in_app_or in Hin. destruct Hin as [Hi|Hi].
    - apply (all_lt_not_eq idk klt keq TO _ _ H1 _ Hi). reflexivity.
    - apply (all_gt_not_eq idk klt keq TO _ _ H2 _ Hi). reflexivity.
  Qed.

  Lemma fs_find_cases s k f :
    set_represents s f ->
    if f k then fs_find klt keq s k < length s /\ nth_error s (fs_find klt keq s k) = Some k
    else fs_find klt keq s k = length s.
  Proof.
    intros [Hi Hf]. destruct (fs_split s k Hi)
      as [(A & B & Hm & Hlb & H1 & H2 & Hh)|(A & B & Hm & Hlb & H1 & H2 & Hh)].
    - assert (Hk : f k = true) by (apply Hf; rewrite Hm; apply in_elt).
      rewrite Hk. unfold fs_find. rewrite Hlb, Hh, Hm, nth_error_mid, app_length. cbn. split; [lia|reflexivity].
    - destruct (f k) eqn:Hk.
      + apply Hf in Hk. rewrite Hm in Hk. exfalso. eapply set_not_in; eauto.
      + unfold fs_find. rewrite Hlb, Hh. reflexivity.
  Qed.

  Lemma fs_contains_spec s k f : set_represents s f -> fs_contains klt keq s k = f k.
  Proof.
    intros H. pose proof (fs_find_cases s k f H) as Hc. unfold fs_contains.
    destruct (f k); [destruct Hc as [Hc _]|]; lia.
  Qed.

  Lemma fs_count_spec s k f : set_represents s f -> fs_count keq s k = if f k then 1 else 0.
  Proof.
    intros [Hi Hf]. unfold fs_count.
    change (fun x => keq x k) with (fun x => keq (idk x) k).
    destruct (fs_split s k Hi)
      as [(A & B & Hm & Hlb & H1 & H2 & Hh)|(A & B & Hm & Hlb & H1 & H2 & Hh)].
    - assert (Hk : f k = true) by (apply Hf; rewrite Hm; apply in_elt). rewrite Hk, Hm.
      rewrite filter_app. cbn [filter]. unfold idk at 2. rewrite (keq_refl klt keq TO).
      rewrite (filter_none idk klt keq TO A) by (eapply all_lt_not_eq; eauto).
      rewrite (filter_none idk klt keq TO B) by (eapply all_gt_not_eq; eauto). reflexivity.
    - destruct (f k) eqn:Hk.
      + apply Hf in Hk. rewrite Hm in Hk. exfalso. eapply set_not_in; eauto.
      + rewrite Hm, filter_app.
        rewrite (filter_none idk klt keq TO A) by (eapply all_lt_not_eq; eauto).
        rewrite (filter_none idk klt keq TO B) by (eapply all_gt_not_eq; eauto). reflexivity.
  Qed.

  Lemma fs_insert_spec s f k :
    set_represents s f ->
    let r := fs_insert klt keq s k in
    set_represents (fst r) (set_step keq f (SInsert k)) /\
    snd (snd r) = negb (f k) /\ nth_error (fst r) (fst (snd r)) = Some k /\
    (f k = true -> fst r = s).
  Proof.
    intros H. pose proof H as [Hi Hf]. unfold fs_insert. destruct (fs_split s k Hi)
      as [(A & B & Hm & Hlb & H1 & H2 & Hh)|(A & B & Hm & Hlb & H1 & H2 & Hh)]; rewrite Hlb, Hh; cbn [fst snd].
    - assert (Hk : f k = true) by (apply Hf; rewrite Hm; apply in_elt). rewrite Hk.
      split; [|split; [reflexivity|split; [rewrite Hm, nth_error_mid; reflexivity|reflexivity]]].
      split; [exact Hi|]. intros x. cbn [set_step]. rewrite orb_true_iff, <- Hf, (to_eq _ _ TO).
      split; [auto|]. intros [->|Hx]; [apply Hf, Hk|exact Hx].
    - destruct (f k) eqn:Hk.
      + apply Hf in Hk. rewrite Hm in Hk. exfalso. eapply set_not_in; eauto.
      + subst s. rewrite list_insert_mid, nth_error_mid.
        split; [|split; [reflexivity|split; [reflexivity|discriminate]]].
        split.
        * rewrite <- (map_idk (A ++ k :: B)). rewrite <- (map_idk (A ++ B)) in Hi.
          apply (inc_insert idk klt); assumption.
        * intros x. cbn [set_step]. rewrite orb_true_iff, <- Hf, (to_eq _ _ TO), !in_app_iff. cbn [In]. intuition congruence.
  Qed.

  Lemma fs_erase_spec s f k :
    set_represents s f ->
    let r := fs_erase klt keq s k in
    set_represents (fst r) (set_step keq f (SErase k)) /\ snd r = if f k then 1 else 0.
  Proof.
    intros H. pose proof H as [Hi Hf]. unfold fs_erase, fs_find. destruct (fs_split s k Hi)
      as [(A & B & Hm & Hlb & H1 & H2 & Hh)|(A & B & Hm & Hlb & H1 & H2 & Hh)]; rewrite Hlb, Hh.
    - assert (Hk : f k = true) by (apply Hf; rewrite Hm; apply in_elt). rewrite Hk.
      replace (length A =? length s) with false by (subst s; rewrite app_length; cbn; lia). cbn [fst snd].
      split; [|reflexivity]. subst s. rewrite list_erase_mid. split.
      + rewrite <- (map_idk (A ++ k :: B)) in Hi. rewrite <- (map_idk (A ++ B)).
        eapply (inc_remove idk klt), Hi.
      + intros x. cbn [set_step]. rewrite andb_true_iff, negb_true_iff, <- Hf. split.
        * intros Hx. split.
          -- destruct (keq x k) eqn:Hq; [|reflexivity]. apply (to_eq _ _ TO) in Hq. subst.
             exfalso. eapply set_not_in; eauto.
          -- rewrite in_app_iff in *. cbn [In]. tauto.
        * intros [Hq Hx]. rewrite in_app_iff in *. cbn [In] in Hx. destruct Hx as [Hx|[<-|Hx]]; auto.
          rewrite (keq_refl klt keq TO) in Hq. discriminate.
    - rewrite Nat.eqb_refl. cbn [fst snd]. destruct (f k) eqn:Hk.
      + apply Hf in Hk. rewrite Hm in Hk. exfalso. eapply set_not_in; eauto.
      + split; [|reflexivity]. split; [exact Hi|]. intros x. cbn [set_step].
        rewrite andb_true_iff, negb_true_iff, <- Hf. split; [|tauto]. intros Hx. split; [|exact Hx].
        destruct (keq x k) eqn:Hq; [|reflexivity]. apply (to_eq _ _ TO) in Hq. subst x.
        apply Hf in Hx. congruence.
  Qed.

  Notation fs_step := (FlatModel.fs_step klt keq).

  Lemma set_rep_empty : set_represents [] (fun _ => false).
  Proof. split; [constructor|]. intros k. split; [intros []|discriminate]. Qed.

  Lemma fs_run_spec ops : set_represents (fold_left fs_step ops []) (set_after keq ops).
  Proof.
    unfold set_after. generalize set_rep_empty.
    generalize (@nil K). generalize (fun _ : K => false).
    induction ops as [|o ops IH]; intros f m H; cbn [fold_left]; [exact H|].
    apply IH. destruct o; cbn [fs_step].
    - apply fs_insert_spec, H.
    - apply fs_erase_spec, H.
    - apply set_rep_empty.
  Qed.

  Lemma set_rep_NoDup s f : set_represents s f -> NoDup s.
  Proof.
    intros [Hi _]. rewrite <- (map_idk s) in *. apply (inc_NoDup idk klt keq TO).
    rewrite map_idk in *. exact Hi.
  Qed.
End FlatSetProofs.

(** ** sorted_vector *)
Section SortedVectorProofs.
  Context {T : Type} (tlt teq : T -> T -> bool).
  Hypothesis WO : weak_order tlt teq.

  Lemma teq_refl a : teq a a = true.
  Proof. apply (wo_eq _ _ WO). split; apply (wo_irrefl _ _ WO). Qed.

  Lemma teq_sym a b : teq a b = teq b a.
  Proof.
    destruct (teq a b) eqn:H1, (teq b a) eqn:H2; auto.
    - apply (wo_eq _ _ WO) in H1. assert (teq b a = true) by (apply (wo_eq _ _ WO); tauto). congruence.
    - apply (wo_eq _ _ WO) in H2. assert (teq a b = true) by (apply (wo_eq _ _ WO); tauto). congruence.
  Qed.

  Lemma teq_trans a b c : teq a b = true -> teq b c = true -> teq a c = true.
  Proof.
    rewrite !(wo_eq _ _ WO). intros [H1 H2] [H3 H4].
    split; eapply (wo_negtrans _ _ WO); eauto.
  Qed.

  Lemma teq_lt_l a b c : teq a b = true -> tlt a c = tlt b c.
  Proof.
    rewrite (wo_eq _ _ WO). intros [H1 H2].
    destruct (tlt a c) eqn:Ha, (tlt b c) eqn:Hb; auto.
    - rewrite (wo_negtrans _ _ WO _ _ _ H1 Hb) in Ha. discriminate.
    - rewrite (wo_negtrans _ _ WO _ _ _ H2 Ha) in Hb. discriminate.
  Qed.

  Lemma lt_teq_false a b : tlt a b = true -> teq a b = false.
  Proof.
    intros H. destruct (teq a b) eqn:Hq; [|reflexivity]. apply (wo_eq _ _ WO) in Hq.
    destruct Hq. congruence.
  Qed.

  Lemma tlt_asym a b : tlt a b = true -> tlt b a = false.
  Proof.
    intros H. destruct (tlt b a) eqn:H'; [|reflexivity].
    pose proof (wo_trans _ _ WO _ _ _ H H') as C. rewrite (wo_irrefl _ _ WO) in C. discriminate.
  Qed.

  Lemma nd_app A B :
    nondecreasing tlt (A ++ B) <->
    nondecreasing tlt A /\ nondecreasing tlt B /\ (forall a b, In a A -> In b B -> tlt b a = false).
  Proof.
    unfold nondecreasing. induction A as [|x A IH]; cbn.
    - split; [intros H; split; [constructor|split; [exact H|intros a b []]]|intros (_ & H & _); exact H].
    - split.
      + intros H. inversion H as [|a b Hs Hf]; subst. apply IH in Hs. destruct Hs as (H1 & H2 & H3).
        apply Forall_app in Hf. destruct Hf as [Hf1 Hf2].
        split; [constructor; assumption|]. split; [exact H2|].
        intros a b [->|Ha] Hb; [|apply H3; assumption].
        rewrite Forall_forall in Hf2. apply Hf2, Hb.
      + intros (H1 & H2 & H3). inversion H1 as [|a b Hs Hf]; subst. constructor.
        * apply IH. split; [exact Hs|]. split; [exact H2|]. intros a b Ha Hb. apply H3; [right|]; assumption.
        * apply Forall_app. split; [exact Hf|].
          rewrite Forall_forall. intros b Hb. apply H3; [left; reflexivity|exact Hb].
  Qed.

  (** position of insertion *)
  Lemma sv_upper_split v e :
    nondecreasing tlt v ->
    exists A B, v = A ++ B /\ partition_search (fun x => negb (tlt e x)) v = length A /\
      (forall a, In a A -> tlt e a = false) /\ (forall b, In b B -> tlt e b = true).
  Proof.
    intros H. rewrite partition_search_prefix.
    - induction v as [|x t IH]; cbn [prefix_len].
      + exists [], []. repeat split; intros ? [].
      + inversion H as [|x' t' Hs Hf]; subst. destruct (tlt e x) eqn:Hx; cbn.
        * exists [], (x :: t). repeat split; [intros ? []|]. intros b [<-|Hb]; [exact Hx|].
          rewrite Forall_forall in Hf. specialize (Hf b Hb).
          destruct (tlt e b) eqn:He; [reflexivity|].
          rewrite (wo_negtrans _ _ WO _ _ _ He Hf) in Hx. discriminate.
        * destruct (IH Hs) as (A & B & -> & HA & H1 & H2). exists (x :: A), B.
          repeat split; cbn; auto. intros a [<-|Ha]; auto.
    - induction v as [|x t IH]; cbn; [exact I|]. inversion H as [|x' t' Hs Hf]; subst.
      split; [|apply IH, Hs]. intros Hx. apply negb_false_iff in Hx.
      rewrite Forall_forall in *. intros b Hb. specialize (Hf b Hb). apply negb_false_iff.
      destruct (tlt e b) eqn:He; [reflexivity|].
      rewrite (wo_negtrans _ _ WO _ _ _ He Hf) in Hx. discriminate.
  Qed.

  Lemma sv_insert_split v e :
    nondecreasing tlt v ->
    exists A B, v = A ++ B /\ sv_insert tlt v e = (A ++ e :: B, length A) /\
      (forall a, In a A -> tlt e a = false) /\ (forall b, In b B -> tlt e b = true).
  Proof.
    intros H. destruct (sv_upper_split v e H) as (A & B & Hv & Hp & H1 & H2).
    exists A, B. repeat split; auto. unfold sv_insert. rewrite Hp. subst v. rewrite list_insert_mid. reflexivity.
  Qed.

  Lemma sv_insert_nd v e : nondecreasing tlt v -> nondecreasing tlt (fst (sv_insert tlt v e)).
  Proof.
    intros H. destruct (sv_insert_split v e H) as (A & B & -> & -> & H1 & H2). cbn [fst].
    apply nd_app in H. destruct H as (HA & HB & HAB). apply nd_app. split; [exact HA|]. split.
    - constructor; [exact HB|]. rewrite Forall_forall. intros b Hb. apply tlt_asym, H2, Hb.
    - intros a b Ha [<-|Hb]; [apply H1, Ha|apply HAB; assumption].
  Qed.

  (** the equal run starts at the lower bound *)
  Lemma sv_find_split v e :
    nondecreasing tlt v ->
    exists A M B, v = A ++ M ++ B /\
      (forall a, In a A -> tlt a e = true) /\ (forall x, In x M -> teq x e = true) /\
      (forall b, In b B -> tlt e b = true) /\
      partition_search (fun x => tlt x e) v = length A.
  Proof.
    intros H. rewrite partition_search_prefix.
    - induction v as [|x t IH]; cbn [prefix_len].
      + exists [], [], []. repeat split; intros ? [].
      + inversion H as [|x' t' Hs Hf]; subst. destruct (IH Hs) as (A & M & B & -> & H1 & H2 & H3 & H4).
        rewrite Forall_forall in Hf. destruct (tlt x e) eqn:Hx.
        * exists (x :: A), M, B. repeat split; auto; cbn; [|congruence]. intros a [<-|Ha]; auto.
        * assert (HA : A = []).
          { destruct A as [|a A]; [reflexivity|]. exfalso.
            assert (Ha : tlt a e = true) by (apply H1; left; reflexivity).
            assert (Hax : tlt a x = false) by (apply Hf; left; reflexivity).
            rewrite (wo_negtrans _ _ WO _ _ _ Hax Hx) in Ha. discriminate. }
          subst A. cbn in *. destruct (tlt e x) eqn:He.
          -- assert (HM : M = []).
             { destruct M as [|y M]; [reflexivity|]. exfalso.
               assert (Hy : teq y e = true) by (apply H2; left; reflexivity).
               assert (Hyx : tlt y x = false) by (apply Hf; left; reflexivity).
               rewrite (teq_lt_l _ _ _ Hy) in Hyx. congruence. }
             subst M. cbn in *. exists [], [], (x :: B). repeat split; auto; cbn; try tauto.
             intros b [<-|Hb]; auto.
          -- exists [], (x :: M), B. repeat split; auto; cbn; try tauto.
             intros y [<-|Hy]; auto. apply (wo_eq _ _ WO). auto.
    - induction v as [|x t IH]; cbn; [exact I|]. inversion H as [|x' t' Hs Hf]; subst.
      split; [|apply IH, Hs]. intros Hx.
      rewrite Forall_forall in *. intros b Hb. specialize (Hf b Hb).
      eapply (wo_negtrans _ _ WO); eauto.
  Qed.

  Lemma sv_run_app M B e :
    (forall x, In x M -> teq x e = true) -> (forall b, In b B -> tlt e b = true) ->
    sv_run teq (M ++ B) e = length M.
  Proof.
    intros HM HB. induction M as [|x M IH]; cbn.
    - destruct B as [|b B]; cbn; [reflexivity|].
      rewrite teq_sym, (lt_teq_false e b) by (apply HB; left; reflexivity). reflexivity.
    - rewrite (HM x) by (left; reflexivity). rewrite IH; [reflexivity|]. intros y Hy. apply HM. right; exact Hy.
  Qed.

  Lemma filter_all {A} (p : A -> bool) l : (forall x, In x l -> p x = true) -> filter p l = l.
  Proof.
    induction l as [|x t IH]; intros H; cbn; [reflexivity|].
    rewrite (H x) by (left; reflexivity). f_equal. apply IH. intros y Hy. apply H. right; exact Hy.
  Qed.
  Lemma filter_nothing {A} (p : A -> bool) l : (forall x, In x l -> p x = false) -> filter p l = [].
  Proof.
    induction l as [|x t IH]; intros H; cbn; [reflexivity|].
    rewrite (H x) by (left; reflexivity). apply IH. intros y Hy. apply H. right; exact Hy.
  Qed.

  Lemma sv_find_spec v e :
    nondecreasing tlt v ->
    match find (fun x => teq x e) v with
    | Some x => sv_find tlt teq v e < length v /\ nth_error v (sv_find tlt teq v e) = Some x
    | None => sv_find tlt teq v e = length v
    end.
  Proof.
    intros H. destruct (sv_find_split v e H) as (A & M & B & Hv & H1 & H2 & H3 & Hp).
    assert (HA : find (fun x => teq x e) v = hd_error M).
    { subst v. clear - H1 H2 H3 WO. induction A as [|a A IH].
      - cbn. destruct M as [|y M]; cbn.
        + induction B as [|b B IHB]; cbn; [reflexivity|].
          rewrite teq_sym, (lt_teq_false e b) by (apply H3; left; reflexivity).
          apply IHB. intros z Hz. apply H3. right; exact Hz.
        + rewrite (H2 y) by (left; reflexivity). reflexivity.
      - cbn. rewrite (lt_teq_false a e) by (apply H1; left; reflexivity). apply IH.
        intros z Hz. apply H1. right; exact Hz. }
    rewrite HA. unfold sv_find. rewrite Hp. destruct M as [|y M]; cbn [hd_error].
    - cbn in Hv. destruct B as [|b B].
      + rewrite app_nil_r in Hv. subst A. destruct (nth_error v (length v)) eqn:Hn; [|reflexivity].
        assert (length v < length v) by (apply nth_error_Some; congruence). lia.
      + subst v. rewrite nth_error_mid.
        rewrite teq_sym, (lt_teq_false e b) by (apply H3; left; reflexivity). reflexivity.
    - subst v. cbn. rewrite nth_error_mid. rewrite (H2 y) by (left; reflexivity).
      rewrite nth_error_mid, app_length. cbn. split; [lia|reflexivity].
  Qed.

  Lemma sv_remove_filter v e :
    nondecreasing tlt v -> sv_remove tlt teq v e = filter (fun x => negb (teq x e)) v.
  Proof.
    intros H. destruct (sv_find_split v e H) as (A & M & B & Hv & H1 & H2 & H3 & Hp).
    assert (Hfil : filter (fun x => negb (teq x e)) v = A ++ B).
    { subst v. rewrite !filter_app. rewrite (filter_all _ A), (filter_nothing _ M), (filter_all _ B); [reflexivity| | |].
      - intros x Hx. rewrite teq_sym, lt_teq_false; auto.
      - intros x Hx. rewrite H2; auto.
      - intros x Hx. rewrite lt_teq_false; auto. }
    rewrite Hfil. unfold sv_remove, sv_find. rewrite Hp. destruct M as [|y M].
    - cbn in Hv. destruct B as [|b B].
      + rewrite app_nil_r in *. subst A. destruct (nth_error v (length v)) eqn:Hn.
        * assert (length v < length v) by (apply nth_error_Some; congruence). lia.
        * rewrite Nat.eqb_refl. reflexivity.
      + subst v. rewrite nth_error_mid.
        rewrite teq_sym, (lt_teq_false e b) by (apply H3; left; reflexivity).
        rewrite Nat.eqb_refl. reflexivity.
    - subst v. cbn [app]. rewrite nth_error_mid. rewrite (H2 y) by (left; reflexivity).
      replace (length A =? length (A ++ y :: M ++ B)) with false by (rewrite app_length; cbn; lia).
      replace (skipn (S (length A)) (A ++ y :: M ++ B)) with (M ++ B).
      2:{ rewrite skipn_app, skipn_all2 by lia. replace (S (length A) - length A) with 1 by lia. reflexivity. }
      rewrite sv_run_app by (auto; intros x Hx; apply H2; right; exact Hx).
      rewrite firstn_app, firstn_all, Nat.sub_diag. cbn [firstn]. rewrite app_nil_r. f_equal.
      rewrite skipn_app, skipn_all2 by lia.
      replace (S (length A) + length M - length A) with (S (length M)) by lia. cbn.
      rewrite skipn_app, skipn_all, Nat.sub_diag. reflexivity.
  Qed.

  Lemma nd_filter p v : nondecreasing tlt v -> nondecreasing tlt (filter p v).
  Proof.
    unfold nondecreasing. induction 1 as [|a l Hs IH Hf]; cbn; [constructor|].
    destruct (p a); [|exact IH]. constructor; [exact IH|].
    rewrite Forall_forall in *. intros x Hx. apply filter_In in Hx. apply Hf, Hx.
  Qed.

  Notation sv_step := (FlatModel.sv_step tlt teq).

  Definition bag_rep (v l : list T) : Prop :=
    nondecreasing tlt v /\ Permutation v l /\
    forall e, filter (fun x => teq x e) v = filter (fun x => teq x e) l.

  Lemma bag_rep_step v l o : bag_rep v l -> bag_rep (sv_step v o) (bag_step teq l o).
  Proof.
    intros (Hn & Hp & Hs). destruct o as [e|e]; cbn [sv_step bag_step].
    - split; [apply sv_insert_nd, Hn|].
      destruct (sv_insert_split v e Hn) as (A & B & Hv & Hi & H1 & H2). rewrite Hi. cbn [fst]. split.
      + rewrite <- Hp. subst v. rewrite <- Permutation_middle. rewrite <- Permutation_cons_append. reflexivity.
      + intros x. rewrite (filter_app _ l [e]), <- Hs, Hv, !filter_app. cbn [filter].
        destruct (teq e x) eqn:Hex.
        * rewrite (filter_nothing _ B); [rewrite app_nil_r; reflexivity|].
          intros b Hb. specialize (H2 b Hb). destruct (teq b x) eqn:Hbx; [|reflexivity].
          rewrite teq_sym in Hbx. pose proof (teq_trans _ _ _ Hex Hbx) as C.
          rewrite (lt_teq_false e b H2) in C. discriminate.
        * rewrite app_nil_r. reflexivity.
    - rewrite sv_remove_filter by exact Hn. split; [apply nd_filter, Hn|]. split.
      + clear - Hp. induction Hp; cbn.
        * constructor.
        * destruct (negb (teq x e)); [constructor; assumption|assumption].
        * destruct (negb (teq x e)), (negb (teq y e)); auto; constructor.
        * etransitivity; eassumption.
      + intros x.
        assert (Hcomm : forall m : list T, filter (fun y => teq y x) (filter (fun y => negb (teq y e)) m)
                        = filter (fun y => negb (teq y e)) (filter (fun y => teq y x) m)).
        { clear. induction m as [|a m IH]; cbn; [reflexivity|].
          destruct (negb (teq a e)) eqn:H1, (teq a x) eqn:H2; cbn; rewrite ?H1, ?H2, IH; reflexivity. }
        rewrite !Hcomm, Hs. reflexivity.
  Qed.

  Lemma bag_rep_run ops : forall v l, bag_rep v l ->
    bag_rep (fold_left sv_step ops v) (bag_after teq l ops).
  Proof.
    unfold bag_after. induction ops as [|o ops IH]; intros v l H; cbn [fold_left]; [exact H|].
    apply IH, bag_rep_step, H.
  Qed.

  Lemma bag_rep_nil : bag_rep [] [].
  Proof. repeat split; constructor. Qed.

  Lemma sv_sort_insert_perm e v : Permutation (sv_sort_insert tlt e v) (e :: v).
  Proof.
    induction v as [|x t IH]; cbn; [reflexivity|]. destruct (tlt x e); [|reflexivity].
    rewrite IH. apply perm_swap.
  Qed.

  Lemma sv_of_list_perm l : Permutation (sv_of_list tlt l) l.
  Proof.
    unfold sv_of_list. induction l as [|x t IH]; cbn; [reflexivity|].
    rewrite sv_sort_insert_perm, IH. reflexivity.
  Qed.

  Lemma sv_sort_insert_nd e v : nondecreasing tlt v -> nondecreasing tlt (sv_sort_insert tlt e v).
  Proof.
    unfold nondecreasing. induction 1 as [|a l Hs IH Hf]; cbn.
    - repeat constructor.
    - destruct (tlt a e) eqn:Hae.
      + constructor; [exact IH|]. rewrite Forall_forall in *. intros x Hx.
        apply (Permutation_in _ (sv_sort_insert_perm e l)) in Hx. destruct Hx as [<-|Hx]; [apply tlt_asym, Hae|apply Hf, Hx].
      + constructor; [constructor; assumption|]. rewrite Forall_forall in *. intros x [<-|Hx]; [exact Hae|].
        eapply (wo_negtrans _ _ WO); [apply Hf, Hx|exact Hae].
  Qed.

  Lemma sv_of_list_nd l : nondecreasing tlt (sv_of_list tlt l).
  Proof.
    unfold sv_of_list. induction l as [|x t IH]; cbn; [constructor|]. apply sv_sort_insert_nd, IH.
  Qed.
End SortedVectorProofs.

Section FlatInit.
  Context {K V : Type} (klt keq : K -> K -> bool).
  Hypothesis TO : total_order klt keq.

  Lemma fm_sort_insert_perm (kv : K * V) m : Permutation (fm_sort_insert klt kv m) (kv :: m).
  Proof.
    induction m as [|x t IH]; cbn; [reflexivity|]. destruct (klt _ _); [|reflexivity].
    rewrite IH. apply perm_swap.
  Qed.

  Lemma fm_of_list_perm (l : list (K * V)) : Permutation (fm_of_list klt l) l.
  Proof.
    unfold fm_of_list. induction l as [|x t IH]; cbn; [reflexivity|].
    rewrite fm_sort_insert_perm, IH. reflexivity.
  Qed.

  Lemma fm_sort_insert_inc (kv : K * V) m :
    increasing klt (map fst m) -> ~ In (fst kv) (map fst m) ->
    increasing klt (map fst (fm_sort_insert klt kv m)).
  Proof.
    unfold increasing. induction m as [|x t IH]; intros H Hn; cbn.
    - repeat constructor.
    - inversion H as [|a b Hs Hf]; subst. destruct (klt (fst x) (fst kv)) eqn:Hlt; cbn.
      + constructor; [apply IH; [exact Hs|intros Hc; apply Hn; right; exact Hc]|].
        rewrite Forall_forall in *. intros k Hk. apply in_map_iff in Hk. destruct Hk as (e & <- & He).
        apply (Permutation_in _ (fm_sort_insert_perm kv t)) in He. destruct He as [<-|He]; [exact Hlt|].
        apply Hf, in_map, He.
      + assert (Hgt : klt (fst kv) (fst x) = true).
        { destruct (klt (fst kv) (fst x)) eqn:Hg; [reflexivity|]. exfalso. apply Hn. left.
          symmetry. apply (to_total _ _ TO); assumption. }
        constructor; [exact H|]. constructor; [exact Hgt|]. rewrite Forall_forall in *. intros k Hk.
        eapply (to_trans _ _ TO); [exact Hgt|apply Hf, Hk].
  Qed.

  Lemma fm_of_list_inc (l : list (K * V)) : NoDup (map fst l) -> increasing klt (map fst (fm_of_list klt l)).
  Proof.
    unfold fm_of_list. induction l as [|x t IH]; cbn; intros H; [constructor|].
    inversion H as [|a b Hn Hd]; subst. apply fm_sort_insert_inc; [apply IH, Hd|].
    intros Hc. apply Hn. apply (Permutation_in _ (Permutation_map fst (fm_of_list_perm t))). exact Hc.
  Qed.

  Lemma fs_sort_insert_perm (k : K) m : Permutation (fs_sort_insert klt k m) (k :: m).
  Proof.
    induction m as [|x t IH]; cbn; [reflexivity|]. destruct (klt _ _); [|reflexivity].
    rewrite IH. apply perm_swap.
  Qed.

  Lemma fs_of_list_perm (l : list K) : Permutation (fs_of_list klt l) l.
  Proof.
    unfold fs_of_list. induction l as [|x t IH]; cbn; [reflexivity|].
    rewrite fs_sort_insert_perm, IH. reflexivity.
  Qed.

  Lemma fs_sort_insert_inc (kv : K) m :
    increasing klt m -> ~ In kv m -> increasing klt (fs_sort_insert klt kv m).
  Proof.
    unfold increasing. induction m as [|x t IH]; intros H Hn; cbn.
    - repeat constructor.
    - inversion H as [|a b Hs Hf]; subst. destruct (klt x kv) eqn:Hlt; cbn.
      + constructor; [apply IH; [exact Hs|intros Hc; apply Hn; right; exact Hc]|].
        rewrite Forall_forall in *. intros e He.
        apply (Permutation_in _ (fs_sort_insert_perm kv t)) in He. destruct He as [<-|He]; [exact Hlt|].
        apply Hf, He.
      + assert (Hgt : klt kv x = true).
        { destruct (klt kv x) eqn:Hg; [reflexivity|]. exfalso. apply Hn. left.
          symmetry. apply (to_total _ _ TO); assumption. }
        constructor; [exact H|]. constructor; [exact Hgt|]. rewrite Forall_forall in *. intros k Hk.
        eapply (to_trans _ _ TO); [exact Hgt|apply Hf, Hk].
  Qed.

  Lemma fs_of_list_inc (l : list K) : NoDup l -> increasing klt (fs_of_list klt l).
  Proof.
    unfold fs_of_list. induction l as [|x t IH]; cbn; intros H; [constructor|].
    inversion H as [|a b Hn Hd]; subst. apply fs_sort_insert_inc; [apply IH, Hd|].
    intros Hc. apply Hn. apply (Permutation_in _ (fs_of_list_perm t)). exact Hc.
  Qed.
End FlatInit.

(** ** statements assembled for the theorem file *)
Section Assembled.
  Context {K V : Type} (klt keq : K -> K -> bool) (vdef : V).

  Lemma flat_map_refines_map :
    total_order klt keq ->
    forall ops : list (map_op K V),
    let m := fold_left (FlatModel.fm_step klt keq vdef) ops [] in
    let f := map_after keq vdef ops in
    increasing klt (map fst m) /\
    (forall k v, In (k, v) m <-> f k = Some v) /\
    (forall k, match f k with
               | Some v => nth_error m (fm_find klt keq m k) = Some (k, v)
               | None => fm_find klt keq m k = length m
               end) /\
    (forall k, fm_contains klt keq m k = true <-> f k <> None) /\
    (forall k, fm_count keq m k = match f k with Some _ => 1 | None => 0 end) /\
    (forall k, fm_at klt keq m k = match f k with Some v => Ok v | None => Throw end) /\
    (exists ks, NoDup ks /\ (forall k, In k ks <-> f k <> None) /\ fm_size m = length ks).
  Proof.
    intros TO ops m f. pose proof (fm_run_spec klt keq vdef TO ops) as H. fold m f in H.
    split; [apply H|]. split; [apply H|].
    split; [intros k; pose proof (fm_find_cases klt keq TO m k f H) as Hc; destruct (f k); [apply Hc|exact Hc]|].
    split; [intros k; rewrite (fm_contains_spec klt keq TO m k f H); destruct (f k); split; congruence|].
    split; [intros k; apply (fm_count_spec klt keq TO m k f H)|].
    split; [intros k; apply (fm_at_spec klt keq TO m k f H)|].
    apply (fm_size_spec klt keq TO m f H).
  Qed.

  Lemma flat_map_results :
    total_order klt keq ->
    forall ops : list (map_op K V),
    let m := fold_left (FlatModel.fm_step klt keq vdef) ops [] in
    let f := map_after keq vdef ops in
    (forall k v, let '(m', (it, inserted)) := fm_insert klt keq m k v in
       (inserted = true <-> f k = None) /\
       nth_error m' it = Some (k, match f k with Some w => w | None => v end)) /\
    (forall k, let '(m', it) := fm_index klt keq vdef m k in
       nth_error m' it = Some (k, match f k with Some w => w | None => vdef end)) /\
    (forall k, snd (fm_erase klt keq m k) = match f k with Some _ => 1 | None => 0 end).
  Proof.
    intros TO ops m f. pose proof (fm_run_spec klt keq vdef TO ops) as H. fold m f in H.
    split; [|split].
    - intros k v. pose proof (fm_insert_spec klt keq vdef TO m f k v H) as Hi.
      destruct (fm_insert klt keq m k v) as [m' [it ins]]. cbn in Hi. destruct Hi as (_ & -> & Hn).
      split; [|exact Hn]. destruct (f k); split; congruence.
    - intros k. pose proof (fm_index_spec klt keq vdef TO m f k H) as Hi.
      destruct (fm_index klt keq vdef m k) as [m' it]. cbn in Hi. apply Hi.
    - intros k. apply (fm_erase_spec klt keq vdef TO m f k H).
  Qed.

  Lemma flat_set_refines_set :
    total_order klt keq ->
    forall ops : list (set_op K),
    let s := fold_left (FlatModel.fs_step klt keq) ops [] in
    let f := set_after keq ops in
    increasing klt s /\ NoDup s /\
    (forall k, In k s <-> f k = true) /\
    (forall k, fs_contains klt keq s k = f k) /\
    (forall k, fs_count keq s k = if f k then 1 else 0) /\
    (forall k, if f k then nth_error s (fs_find klt keq s k) = Some k
               else fs_find klt keq s k = length s) /\
    fs_size s = length s /\
    (forall k, let '(s', (it, inserted)) := fs_insert klt keq s k in
       inserted = negb (f k) /\ nth_error s' it = Some k /\ (f k = true -> s' = s)) /\
    (forall k, snd (fs_erase klt keq s k) = if f k then 1 else 0).
  Proof.
    intros TO ops s f. pose proof (fs_run_spec klt keq TO ops) as H. fold s f in H.
    split; [apply H|]. split; [apply (set_rep_NoDup klt keq TO s f H)|]. split; [apply H|].
    split; [intros k; apply (fs_contains_spec klt keq TO s k f H)|].
    split; [intros k; apply (fs_count_spec klt keq TO s k f H)|].
    split; [intros k; pose proof (fs_find_cases klt keq TO s k f H) as Hc; destruct (f k); [apply Hc|exact Hc]|].
    split; [reflexivity|]. split.
    - intros k. pose proof (fs_insert_spec klt keq TO s f k H) as Hi.
      destruct (fs_insert klt keq s k) as [s' [it ins]]. cbn [fst snd] in Hi. tauto.
    - intros k. apply (fs_erase_spec klt keq TO s f k H).
  Qed.

  Lemma flat_map_init_distinct :
    total_order klt keq ->
    forall l : list (K * V), NoDup (map fst l) ->
    let m := fm_of_list klt l in
    increasing klt (map fst m) /\ Permutation m l /\
    (forall k v, fm_at klt keq m k = Ok v <-> In (k, v) l).
  Proof.
    intros TO l Hd m. assert (Hi : increasing klt (map fst m)) by (apply (fm_of_list_inc klt keq TO), Hd).
    assert (Hp : Permutation m l) by apply fm_of_list_perm.
    split; [exact Hi|]. split; [exact Hp|]. intros k v.
    set (f := fun x : K => match find (fun kv => keq (fst kv) x) m with Some kv => Some (snd kv) | None => None end).
    assert (Hr : represents klt m f).
    { split; [exact Hi|]. intros k' v'. unfold f. destruct (find _ m) as [[k2 v2]|] eqn:Hf.
      - apply find_some in Hf. destruct Hf as [Hin Hq]. cbn in *. apply (to_eq _ _ TO) in Hq. subst k2.
        split.
        + intros Hin'. f_equal.
          pose proof (inc_NoDup fst klt keq TO m Hi) as Hnd. clear - Hin Hin' Hnd.
          induction m as [|x t IH]; [destruct Hin|]. cbn in Hnd. inversion Hnd as [|a b Hn Hd]; subst.
          destruct Hin as [->|Hin], Hin' as [E|Hin'].
          * congruence.
          * exfalso. apply Hn. cbn. change k' with (fst (k', v')). apply in_map, Hin'.
          * subst x. exfalso. apply Hn. cbn. change k' with (fst (k', v2)). apply in_map, Hin.
          * apply IH; assumption.
        + intros E. injection E as ->. exact Hin.
      - split; [|discriminate]. intros Hin. exfalso.
        pose proof (find_none _ _ Hf _ Hin) as Hc. cbn in Hc. rewrite (keq_refl klt keq TO) in Hc. discriminate. }
    rewrite (fm_at_spec klt keq TO m k f Hr). destruct Hr as [_ Hr].
    transitivity (In (k, v) m).
    - rewrite Hr. destruct (f k); split; congruence.
    - split; apply Permutation_in; [exact Hp|symmetry; exact Hp].
  Qed.

  Lemma flat_set_init_distinct :
    total_order klt keq ->
    forall l : list K, NoDup l ->
    let s := fs_of_list klt l in
    increasing klt s /\ Permutation s l /\
    (forall k, fs_contains klt keq s k = true <-> In k l).
  Proof.
    intros TO l Hd s. assert (Hi : increasing klt s) by (apply (fs_of_list_inc klt keq TO), Hd).
    assert (Hp : Permutation s l) by apply fs_of_list_perm.
    split; [exact Hi|]. split; [exact Hp|]. intros k.
    set (f := fun x : K => existsb (fun y => keq y x) s).
    assert (Hr : set_represents klt s f).
    { split; [exact Hi|]. intros x. unfold f. rewrite existsb_exists. split.
      - intros Hx. exists x. split; [exact Hx|]. apply (keq_refl klt keq TO).
      - intros (y & Hy & Hq). apply (to_eq _ _ TO) in Hq. subst. exact Hy. }
    rewrite (fs_contains_spec klt keq TO s k f Hr). destruct Hr as [_ Hr]. rewrite <- Hr.
    split; apply Permutation_in; [exact Hp|symmetry; exact Hp].
  Qed.
End Assembled.

Section AssembledSorted.
  Context {T : Type} (tlt teq : T -> T -> bool).

  Lemma sorted_vector_multiset :
    weak_order tlt teq ->
    forall (init : list T) (ops : list (bag_op T)),
    let v0 := sv_of_list tlt init in
    let v := fold_left (FlatModel.sv_step tlt teq) ops v0 in
    nondecreasing tlt v0 /\ Permutation v0 init /\
    nondecreasing tlt v /\
    Permutation v (bag_after teq v0 ops) /\
    (forall e, filter (fun x => teq x e) v = filter (fun x => teq x e) (bag_after teq v0 ops)).
  Proof.
    intros WO init ops v0 v. split; [apply (sv_of_list_nd tlt teq WO)|]. split; [apply sv_of_list_perm|].
    apply (bag_rep_run tlt teq WO). split; [apply (sv_of_list_nd tlt teq WO)|]. split; [reflexivity|]. reflexivity.
  Qed.

  Lemma sorted_vector_results :
    weak_order tlt teq ->
    forall (init : list T) (ops : list (bag_op T)),
    let v := fold_left (FlatModel.sv_step tlt teq) ops (sv_of_list tlt init) in
    (forall e, exists A B, v = A ++ B /\ sv_insert tlt v e = (A ++ e :: B, length A) /\
       (forall a, In a A -> tlt e a = false) /\ (forall b, In b B -> tlt e b = true)) /\
    (forall e, sv_remove tlt teq v e = filter (fun x => negb (teq x e)) v) /\
    (forall e, match find (fun x => teq x e) v with
               | Some x => nth_error v (sv_find tlt teq v e) = Some x
               | None => sv_find tlt teq v e = length v
               end).
  Proof.
    intros WO init ops v.
    assert (H : nondecreasing tlt v) by apply (sorted_vector_multiset WO init ops).
    split; [intros e; apply (sv_insert_split tlt teq WO), H|].
    split; [intros e; apply (sv_remove_filter tlt teq WO), H|].
    intros e. pose proof (sv_find_spec tlt teq WO v e H) as Hc. destruct (find _ v); [apply Hc|exact Hc].
  Qed.
End AssembledSorted.
