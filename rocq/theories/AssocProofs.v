From Coq Require Import List Arith Bool Lia NArith ZArith.
From Coq Require Import ZifyBool ZifyNat ZifyN.
From Verif Require Import Base BaseProofs FlatSpec FlatModel FlatProofs AssocSpec AssocModel.
Import ListNotations.
Ltac Zify.zify_post_hook ::= Z.div_mod_to_equations.

(** ** indexed_map *)
Section IM.
  Context {K V : Type} (keq : K -> K -> bool) (vdef : V).
  Hypothesis EQ : eq_test keq.

  Lemma keqr k : keq k k = true.
  Proof. apply EQ. reflexivity. Qed.
  Lemma keqn a b : keq a b = false <-> a <> b.
  Proof.
    split.
    - intros H E. subst. rewrite keqr in H. discriminate.
    - intros H. destruct (keq a b) eqn:E; [|reflexivity]. apply EQ in E. contradiction.
  Qed.

  Lemma im_find_0 (l : list (K * V)) k : im_find keq l k = im_find_in keq l k.
  Proof. reflexivity. Qed.

  Lemma im_find_cases (l : list (K * V)) k :
    (exists A v B, l = A ++ (k, v) :: B /\ im_find keq l k = length A /\ ~ In k (map fst A)) \/
    (im_find keq l k = length l /\ ~ In k (map fst l)).
  Proof.
    rewrite im_find_0. induction l as [|[k0 v0] t IH]; cbn.
    - right. auto.
    - destruct (keq k0 k) eqn:E.
      + apply EQ in E. subst. left. exists [], v0, t. repeat split; auto.
      + apply keqn in E. destruct IH as [(A & v & B & -> & HA & Hn)|[HA Hn]].
        * left. exists ((k0, v0) :: A), v, B. cbn. repeat split; auto. intros [H|H]; auto.
        * right. split; [congruence|]. intros [H|H]; auto.
  Qed.

  Lemma im_assign_cases l k v :
    (exists A w B, l = A ++ (k, w) :: B /\ ~ In k (map fst A) /\ im_assign keq vdef l k v = A ++ (k, v) :: B /\
        im_insert keq l k v = (A ++ (k, v) :: B, (length A, false)) /\ im_index keq vdef l k = (l, length A) /\
        im_at keq l k = Ok w) \/
    (~ In k (map fst l) /\ im_assign keq vdef l k v = l ++ [(k, v)] /\
        im_insert keq l k v = (l ++ [(k, v)], (length l, true)) /\ im_index keq vdef l k = (l ++ [(k, vdef)], length l) /\
        im_at keq l k = Throw).
  Proof.
    unfold im_assign, im_insert, im_index, im_at.
    destruct (im_find_cases l k) as [(A & w & B & Hl & Hf & Hn)|[Hf Hn]]; rewrite Hf.
    - left. exists A, w, B. split; [exact Hl|]. split; [exact Hn|].
      replace (length A =? length l) with false by (subst l; rewrite app_length; cbn; lia).
      subst l. rewrite !nth_error_mid, !list_set_mid. auto.
    - right. split; [exact Hn|]. rewrite Nat.eqb_refl.
      replace (nth_error l (length l)) with (@None (K * V)) by (symmetry; apply nth_error_None; lia).
      rewrite nth_error_mid. rewrite list_set_mid. auto.
  Qed.

  Lemma first_at_mid A (k : K) (v : V) B : ~ In k (map fst A) -> first_at (A ++ (k, v) :: B) k (length A) v.
  Proof.
    intros Hn. split; [apply nth_error_mid|]. intros j k' v' Hj Hx ->. apply Hn.
    rewrite nth_error_app1 in Hx by exact Hj. apply nth_error_In in Hx.
    change k with (fst (k, v')). apply in_map, Hx.
  Qed.

  Lemma first_at_unique l (k : K) i (v : V) j w : first_at l k i v -> first_at l k j w -> i = j /\ v = w.
  Proof.
    intros [H1 H2] [H3 H4]. destruct (Nat.lt_trichotomy i j) as [H|[H|H]].
    - exfalso. apply (H4 _ _ _ H H1). reflexivity.
    - subst j. split; congruence.
    - exfalso. apply (H2 _ _ _ H H3). reflexivity.
  Qed.

  Lemma first_at_split l (k : K) i (v : V) : first_at l k i v ->
    exists A B, l = A ++ (k, v) :: B /\ length A = i /\ ~ In k (map fst A).
  Proof.
    intros [H1 H2]. apply nth_error_split in H1. destruct H1 as (A & B & -> & <-).
    exists A, B. repeat split; auto. intros Hc. apply in_map_iff in Hc. destruct Hc as ([k' v'] & Hk & Hin).
    cbn in Hk. subst k'. apply In_nth_error in Hin. destruct Hin as [j Hj].
    assert (Hlt : j < length A) by (apply nth_error_Some; congruence).
    apply (H2 j k v' Hlt); [|reflexivity]. rewrite nth_error_app1 by exact Hlt. exact Hj.
  Qed.

  Lemma imap_known l k i v :
    first_at l k i v ->
    im_find keq l k = i /\ im_contains keq l k = true /\ im_at keq l k = Ok v /\
    im_index keq vdef l k = (l, i) /\
    (forall w, nth_error (im_assign keq vdef l k w) i = Some (k, w) /\
               length (im_assign keq vdef l k w) = length l /\
               (forall j, j <> i -> nth_error (im_assign keq vdef l k w) j = nth_error l j) /\
               im_insert keq l k w = (im_assign keq vdef l k w, (i, false))).
  Proof.
    intros H. apply first_at_split in H. destruct H as (A & B & Hl & Hi & Hn).
    assert (Hfind : im_find keq l k = i).
    { destruct (im_find_cases l k) as [(A' & w & B' & Hl' & Hf & Hn')|[Hf Hn']].
      - rewrite Hf. assert (F1 : first_at l k (length A') w) by (rewrite Hl'; apply first_at_mid, Hn').
        assert (F2 : first_at l k (length A) v) by (rewrite Hl; apply first_at_mid, Hn).
        destruct (first_at_unique _ _ _ _ _ _ F1 F2). congruence.
      - exfalso. apply Hn'. rewrite Hl, map_app. apply in_or_app. right. left. reflexivity. }
    split; [exact Hfind|].
    assert (Hc : im_contains keq l k = true).
    { unfold im_contains. rewrite Hfind. subst l i. rewrite app_length. cbn. lia. }
    split; [exact Hc|].
    assert (Hall : forall u, im_assign keq vdef l k u = A ++ (k, u) :: B /\
        im_insert keq l k u = (A ++ (k, u) :: B, (length A, false)) /\ im_index keq vdef l k = (l, length A) /\
        im_at keq l k = Ok v).
    { intros u. unfold im_assign, im_insert, im_index, im_at. rewrite Hfind.
      replace (i =? length l) with false by (subst l i; rewrite app_length; cbn; lia).
      subst l i. rewrite !nth_error_mid, !list_set_mid. auto. }
    split; [apply (Hall v)|]. split; [rewrite <- Hi; apply (Hall v)|].
    intros w. destruct (Hall w) as (-> & -> & _ & _). subst i l.
    rewrite nth_error_mid. split; [reflexivity|]. split; [rewrite !app_length; reflexivity|].
    split; [|reflexivity]. intros j Hj.
    destruct (lt_dec j (length A)) as [Hlt|Hge].
    - rewrite !nth_error_app1 by exact Hlt. reflexivity.
    - rewrite !nth_error_app2 by lia. destruct (j - length A) as [|d] eqn:Hd; [lia|]. reflexivity.
  Qed.

  Lemma imap_unknown l k :
    ~ In k (map fst l) ->
    im_find keq l k = length l /\ im_contains keq l k = false /\ im_at keq l k = Throw /\
    im_index keq vdef l k = (l ++ [(k, vdef)], length l) /\
    (forall w, im_assign keq vdef l k w = l ++ [(k, w)] /\
               im_insert keq l k w = (l ++ [(k, w)], (length l, true))).
  Proof.
    intros Hn. destruct (im_find_cases l k) as [(A & w & B & Hl & Hf & _)|[Hf _]].
    - exfalso. apply Hn. rewrite Hl, map_app. apply in_or_app. right. left. reflexivity.
    - split; [exact Hf|]. split; [unfold im_contains; rewrite Hf, Nat.eqb_refl; reflexivity|].
      assert (Hall : forall u, im_assign keq vdef l k u = l ++ [(k, u)] /\
        im_insert keq l k u = (l ++ [(k, u)], (length l, true)) /\ im_index keq vdef l k = (l ++ [(k, vdef)], length l) /\
        im_at keq l k = Throw).
      { intros u. destruct (im_assign_cases l k u) as [(A & w & B & Hl & _)|H]; [|tauto].
        exfalso. apply Hn. rewrite Hl, map_app. apply in_or_app. right. left. reflexivity. }
      destruct (Hall vdef) as (_ & _ & H1 & H2). repeat split; auto; apply Hall.
  Qed.

  (** histories *)
  Lemma existsb_keq_in k acc : existsb (keq k) acc = true <-> In k acc.
  Proof.
    rewrite existsb_exists. split.
    - intros (x & Hx & Hq). apply EQ in Hq. subst. exact Hx.
    - intros H. exists k. split; [exact H|apply keqr].
  Qed.
  Lemma existsb_keq_not_in k acc : existsb (keq k) acc = false <-> ~ In k acc.
  Proof.
    rewrite <- existsb_keq_in. destruct (existsb (keq k) acc); split; congruence.
  Qed.

  Lemma keys_mid A (k : K) (v w : V) B : map fst (A ++ (k, v) :: B) = map fst (A ++ (k, w) :: B).
  Proof. rewrite !map_app. reflexivity. Qed.

  Lemma im_step_keys l o :
    map fst (im_step keq vdef l o) =
    if existsb (keq (imap_key o)) (map fst l) then map fst l else map fst l ++ [imap_key o].
  Proof.
    remember (imap_key o) as k eqn:Hk.
    destruct (existsb (keq k) (map fst l)) eqn:He.
    - apply existsb_keq_in in He. destruct o as [k' v|k' v|k']; cbn in Hk; subst k'; cbn [im_step].
      + destruct (im_assign_cases l k v) as [(A & w & B & Hl & _ & -> & _)|[Hn _]]; [|contradiction].
        rewrite Hl. apply keys_mid.
      + destruct (im_assign_cases l k v) as [(A & w & B & Hl & _ & _ & -> & _)|[Hn _]]; [|contradiction].
        rewrite Hl. apply keys_mid.
      + destruct (im_assign_cases l k vdef) as [(A & w & B & Hl & _ & _ & _ & -> & _)|[Hn _]]; [|contradiction].
        reflexivity.
    - apply existsb_keq_not_in in He. destruct (imap_unknown l k He) as (_ & _ & _ & Hi & Ha).
      destruct o as [k' v|k' v|k']; cbn in Hk; subst k'; cbn [im_step].
      + rewrite (proj1 (Ha v)), map_app. reflexivity.
      + rewrite (proj2 (Ha v)). cbn [fst]. rewrite map_app. reflexivity.
      + rewrite Hi. cbn [fst]. rewrite map_app. reflexivity.
  Qed.

  Definition val_of (l : list (K * V)) (k : K) : option V :=
    match im_at keq l k with Ok v => Some v | _ => None end.

  Lemma im_at_app_new (l : list (K * V)) k k' v : ~ In k' (map fst l) ->
    im_at keq (l ++ [(k', v)]) k = if keq k' k then Ok v else im_at keq l k.
  Proof.
    intros Hn. destruct (keq k' k) eqn:E.
    - apply EQ in E. subst k'. apply (imap_known (l ++ [(k, v)]) k (length l) v). apply (first_at_mid l k v []), Hn.
    - apply keqn in E. destruct (in_dec (fun a b => match bool_dec (keq a b) true with left e => left (proj1 (EQ a b) e) | right n => right (fun e => n (proj2 (EQ a b) e)) end) k (map fst l)) as [Hi|Hi].
      + destruct (im_assign_cases l k v) as [(A & w & B & Hl & HA & _ & _ & _ & Hat)|[Hc _]]; [|contradiction].
        rewrite Hat. rewrite Hl. rewrite <- app_assoc. cbn.
        apply (imap_known _ k (length A) w). apply first_at_mid, HA.
      + rewrite (proj1 (proj2 (proj2 (imap_unknown l k Hi)))).
        apply (imap_unknown (l ++ [(k', v)]) k). rewrite map_app. intros Hc. apply in_app_or in Hc.
        destruct Hc as [Hc|[Hc|[]]]; [contradiction|]. cbn in Hc. congruence.
  Qed.

  Lemma in_keys_dec k (l : list (K * V)) : In k (map fst l) \/ ~ In k (map fst l).
  Proof.
    destruct (existsb (keq k) (map fst l)) eqn:E.
    - left. apply existsb_keq_in, E.
    - right. apply existsb_keq_not_in, E.
  Qed.

  Lemma im_at_replace (A : list (K * V)) k0 v w B k : ~ In k0 (map fst A) ->
    im_at keq (A ++ (k0, v) :: B) k = if keq k0 k then Ok v else im_at keq (A ++ (k0, w) :: B) k.
  Proof.
    intros Hn. destruct (keq k0 k) eqn:E.
    - apply EQ in E. subst k0. apply (imap_known _ k (length A) v). apply first_at_mid, Hn.
    - unfold im_at. rewrite (im_find_0 (A ++ (k0, v) :: B)), (im_find_0 (A ++ (k0, w) :: B)). apply keqn in E.
      assert (Hf : forall C, im_find_in keq (C ++ (k0, v) :: B) k = im_find_in keq (C ++ (k0, w) :: B) k).
      { induction C as [|c C IH]; cbn; [reflexivity|]. destruct (keq (fst c) k); [reflexivity|]. rewrite IH; reflexivity. }
      rewrite Hf. destruct (im_find_cases (A ++ (k0, w) :: B) k) as [(A' & u & B' & Hl & Hfi & HA')|[Hfi HA']];
        rewrite im_find_0 in Hfi; rewrite Hfi.
      + destruct (Nat.lt_trichotomy (length A') (length A)) as [H|[H|H]].
        * rewrite !nth_error_app1 by exact H. reflexivity.
        * exfalso. assert (Hm : nth_error (A ++ (k0, w) :: B) (length A') = Some (k, u)) by (rewrite Hl; apply nth_error_mid).
          rewrite H, nth_error_mid in Hm. injection Hm as -> _. contradiction.
        * rewrite !nth_error_app2 by lia. destruct (length A' - length A) eqn:Hd; [lia|]. reflexivity.
      + replace (nth_error (A ++ (k0, v) :: B) (length (A ++ (k0, w) :: B))) with (@None (K * V)).
        2:{ symmetry. apply nth_error_None. rewrite !app_length. cbn. lia. }
        replace (nth_error (A ++ (k0, w) :: B) (length (A ++ (k0, w) :: B))) with (@None (K * V)); [reflexivity|].
        symmetry. apply nth_error_None. lia.
  Qed.

  Definition store_step (acc : option V) (k : K) (o : imap_op K V) : option V :=
    if keq (imap_key o) k then
      match o with
      | IAssign _ v | IInsert _ v => Some v
      | ITouch _ => match acc with Some v => Some v | None => Some vdef end
      end
    else acc.

  Lemma im_step_at l o k :
    im_at keq (im_step keq vdef l o) k =
    match store_step (val_of l k) k o with Some v => Ok v | None => Throw end.
  Proof.
    unfold store_step, val_of.
    assert (Hnu : forall (l' : list (K * V)) k', im_at keq l' k' = UB -> False).
    { intros l' k'. unfold im_at. destruct (nth_error l' (im_find keq l' k')) as [[? ?]|]; discriminate. }
    assert (Hid : forall (l' : list (K * V)) k', im_at keq l' k' = match (match im_at keq l' k' with Ok v => Some v | _ => None end) with Some v => Ok v | None => Throw end).
    { intros l' k'. destruct (im_at keq l' k') eqn:E; try reflexivity. exfalso. eapply Hnu; eauto. }
    remember (imap_key o) as k0 eqn:Hk.
    destruct (in_keys_dec k0 l) as [Hin|Hn].
    - destruct o as [k' v|k' v|k']; cbn in Hk; subst k'; cbn [im_step].
      + destruct (im_assign_cases l k0 v) as [(A & w & B & Hl & HA & -> & _)|[Hn _]]; [|contradiction].
        rewrite (im_at_replace A k0 v w B k HA), Hl. destruct (keq k0 k); [reflexivity|apply Hid].
      + destruct (im_assign_cases l k0 v) as [(A & w & B & Hl & HA & _ & -> & _)|[Hn _]]; [|contradiction].
        cbn [fst]. rewrite (im_at_replace A k0 v w B k HA), Hl. destruct (keq k0 k); [reflexivity|apply Hid].
      + destruct (im_assign_cases l k0 vdef) as [(A & w & B & Hl & HA & _ & _ & -> & Hat)|[Hn _]]; [|contradiction].
        cbn [fst]. destruct (keq k0 k) eqn:E; [|apply Hid]. apply EQ in E. subst k. rewrite Hat. reflexivity.
    - destruct (imap_unknown l k0 Hn) as (_ & _ & Hat & Hi & Ha).
      destruct o as [k' v|k' v|k']; cbn in Hk; subst k'; cbn [im_step].
      + rewrite (proj1 (Ha v)), im_at_app_new by exact Hn. destruct (keq k0 k); [reflexivity|apply Hid].
      + rewrite (proj2 (Ha v)). cbn [fst]. rewrite im_at_app_new by exact Hn. destruct (keq k0 k); [reflexivity|apply Hid].
      + rewrite Hi. cbn [fst]. rewrite im_at_app_new by exact Hn. destruct (keq k0 k) eqn:E; [|apply Hid].
        apply EQ in E. subst k. rewrite Hat. reflexivity.
  Qed.

  Lemma imap_history ops :
    let l := fold_left (im_step keq vdef) ops [] in
    map fst l = first_occurrences keq (map imap_key ops) /\
    NoDup (map fst l) /\
    forall k, im_at keq l k = match last_stored keq vdef ops k with Some v => Ok v | None => Throw end.
  Proof.
    cbv zeta. induction ops as [|o ops IH] using rev_ind.
    - cbn. repeat split; auto; constructor.
    - rewrite fold_left_app. cbn [fold_left]. destruct IH as (IH1 & IH2 & IH3).
      set (l := fold_left (im_step keq vdef) ops []) in *.
      split; [|split].
      + rewrite im_step_keys, map_app. unfold first_occurrences. rewrite fold_left_app. cbn [map fold_left].
        unfold first_occurrences in IH1. rewrite IH1. reflexivity.
      + rewrite im_step_keys. destruct (existsb (keq (imap_key o)) (map fst l)) eqn:E; [exact IH2|].
        apply existsb_keq_not_in in E.
        apply (NoDup_Add (a := imap_key o) (l := map fst l)).
        * replace (map fst l) with (map fst l ++ []) at 1 by apply app_nil_r. apply Add_app.
        * split; assumption.
      + intros k. rewrite im_step_at. unfold last_stored. rewrite fold_left_app. cbn [fold_left].
        fold (last_stored keq vdef ops k). unfold val_of. rewrite IH3.
        destruct (last_stored keq vdef ops k) as [v|]; reflexivity.
  Qed.

  Lemma imap_prefix ops1 ops2 :
    prefix_of (map fst (fold_left (im_step keq vdef) ops1 []))
              (map fst (fold_left (im_step keq vdef) (ops1 ++ ops2) [])).
  Proof.
    rewrite fold_left_app. generalize (fold_left (im_step keq vdef) ops1 []).
    induction ops2 as [|o ops2 IH]; intros l; cbn [fold_left].
    - exists []. rewrite app_nil_r. reflexivity.
    - destruct (IH (im_step keq vdef l o)) as [r Hr]. rewrite Hr, im_step_keys.
      destruct (existsb _ _); [exists r; reflexivity|]. exists (imap_key o :: r). rewrite <- app_assoc. reflexivity.
  Qed.
End IM.

(** ** indexed_set *)
Section IS.
  Context {T : Type} (tlt teq : T -> T -> bool) (imax : nat).
  Hypothesis TO : total_order tlt teq.

  Let EQ : eq_test teq := to_eq _ _ TO.
  Notation fo := (first_occurrences teq).

  Lemma fo_snoc xs x : fo (xs ++ [x]) = if existsb (teq x) (fo xs) then fo xs else fo xs ++ [x].
  Proof. unfold first_occurrences. rewrite fold_left_app. reflexivity. Qed.

  Lemma fo_NoDup xs : NoDup (fo xs).
  Proof.
    induction xs as [|x xs IH] using rev_ind; [constructor|]. rewrite fo_snoc.
    destruct (existsb (teq x) (fo xs)) eqn:E; [exact IH|].
    apply (existsb_keq_not_in teq EQ) in E. apply (NoDup_Add (a := x) (l := fo xs)).
    - replace (fo xs) with (fo xs ++ []) at 1 by apply app_nil_r. apply Add_app.
    - split; assumption.
  Qed.

  Lemma fo_in xs x : In x (fo xs) <-> In x xs.
  Proof.
    induction xs as [|y xs IH] using rev_ind; [reflexivity|]. rewrite fo_snoc, in_app_iff.
    destruct (existsb (teq y) (fo xs)) eqn:E.
    - apply (existsb_keq_in teq EQ) in E. rewrite IH. split; [auto|]. intros [H|[<-|[]]]; auto. apply IH, E.
    - rewrite in_app_iff, IH. reflexivity.
  Qed.

  Lemma fo_prefix xs ys : prefix_of (fo xs) (fo (xs ++ ys)).
  Proof.
    revert xs. induction ys as [|y ys IH]; intros xs.
    - exists []. rewrite !app_nil_r. reflexivity.
    - change (y :: ys) with ([y] ++ ys). rewrite app_assoc. destruct (IH (xs ++ [y])) as [r Hr].
      rewrite Hr, fo_snoc. destruct (existsb _ _); [exists r; reflexivity|].
      exists (y :: r). rewrite <- app_assoc. reflexivity.
  Qed.

  Definition is_inv (s : iset) (xs : list T) : Prop :=
    (exists f, represents tlt (is_indices s) f /\
       forall x j, f x = Some j <-> nth_error (firstn imax (fo xs)) j = Some x) /\
    exists junk, is_values s = firstn imax (fo xs) ++ junk /\ (length (fo xs) < imax -> junk = []).

  Lemma is_try_get_spec s f x : represents tlt (is_indices s) f -> is_try_get tlt teq s x = f x.
  Proof.
    intros H. unfold is_try_get. pose proof (fm_find_cases tlt teq TO _ x f H) as Hc.
    destruct (f x) as [j|].
    - destruct Hc as [_ ->]. reflexivity.
    - rewrite Hc. replace (nth_error _ _) with (@None (T * nat)); [reflexivity|]. symmetry. apply nth_error_None. lia.
  Qed.

  Lemma is_step s xs x :
    is_inv s xs ->
    let r := is_get_or_add tlt teq imax s x in
    is_inv (fst r) (xs ++ [x]) /\
    match snd r with
    | Ok j => nth_error (firstn imax (fo (xs ++ [x]))) j = Some x
    | Throw => ~ In x (firstn imax (fo (xs ++ [x])))
    | UB => False
    end.
  Proof.
    intros [(f & Hr & Hf) (junk & Hv & Hj)]. cbv zeta. unfold is_get_or_add.
    rewrite (is_try_get_spec s f x Hr). destruct (f x) as [j|] eqn:Hx.
    - assert (Hnth : nth_error (firstn imax (fo xs)) j = Some x) by (apply Hf, Hx).
      assert (Hsame : fo (xs ++ [x]) = fo xs).
      { rewrite fo_snoc. replace (existsb (teq x) (fo xs)) with true; [reflexivity|]. symmetry.
        apply (existsb_keq_in teq EQ). apply nth_error_In in Hnth.
        rewrite <- (firstn_skipn imax). apply in_or_app. left. exact Hnth. }
      cbn [fst snd]. unfold is_inv. rewrite Hsame. split; [|exact Hnth]. split; [exists f; auto|exists junk; auto].
    - assert (Hnin : ~ In x (firstn imax (fo xs))).
      { intros Hc. apply In_nth_error in Hc. destruct Hc as [j Hc]. apply Hf in Hc. congruence. }
      destruct (lt_dec (length (fo xs)) imax) as [Hlt|Hge].
      + specialize (Hj Hlt). subst junk. rewrite app_nil_r in Hv.
        assert (Hfn : firstn imax (fo xs) = fo xs) by (apply firstn_all2; lia).
        rewrite Hfn in *. rewrite Hv, app_length. cbn [length].
        replace (length (fo xs) + 1 - 1) with (length (fo xs)) by lia.
        replace (imax <=? length (fo xs)) with false by lia. cbn [fst snd].
        assert (Hnew : fo (xs ++ [x]) = fo xs ++ [x]).
        { rewrite fo_snoc. replace (existsb (teq x) (fo xs)) with false; [reflexivity|]. symmetry.
          apply (existsb_keq_not_in teq EQ), Hnin. }
        unfold is_inv. rewrite Hnew. cbn [is_indices is_values].
        assert (Hfn' : firstn imax (fo xs ++ [x]) = fo xs ++ [x]) by (apply firstn_all2; rewrite app_length; cbn; lia).
        rewrite Hfn'. split; [split|].
        * exists (upd teq f x (Some (length (fo xs)))). split.
          -- apply (fm_assign_spec tlt teq 0 TO _ f x (length (fo xs)) Hr).
          -- intros y j. destruct (keq_dec tlt teq TO y x) as [->|Hne].
             ++ rewrite (upd_same tlt teq TO). split.
                ** intros E. injection E as <-. apply nth_error_mid.
                ** intros E. f_equal. destruct (Nat.lt_trichotomy j (length (fo xs))) as [H|[H|H]].
                   --- rewrite nth_error_app1 in E by exact H. exfalso. apply Hnin. eapply nth_error_In; eauto.
                   --- congruence.
                   --- assert (j < length (fo xs ++ [x])) by (apply nth_error_Some; congruence).
                       rewrite app_length in *. cbn in *. lia.
             ++ rewrite (upd_other tlt teq TO) by exact Hne. rewrite Hf. split.
                ** intros E. rewrite nth_error_app1; [exact E|]. apply nth_error_Some. congruence.
                ** intros E. destruct (lt_dec j (length (fo xs))) as [H|H].
                   --- rewrite nth_error_app1 in E by exact H. exact E.
                   --- rewrite nth_error_app2 in E by lia. destruct (j - length (fo xs)) as [|d]; cbn in E.
                       +++ congruence.
                       +++ destruct d; discriminate.
        * exists []. rewrite app_nil_r. auto.
        * apply nth_error_mid.
      + assert (Hlen : length (firstn imax (fo xs)) = imax) by (rewrite firstn_length; lia).
        rewrite Hv, !app_length, Hlen. cbn [length].
        replace (imax <=? imax + length junk + 1 - 1) with true by lia. cbn [fst snd].
        assert (Hfn' : firstn imax (fo (xs ++ [x])) = firstn imax (fo xs)).
        { rewrite fo_snoc. destruct (existsb _ _); [reflexivity|]. rewrite firstn_app.
          replace (imax - length (fo xs)) with 0 by lia. cbn. apply app_nil_r. }
        unfold is_inv. rewrite Hfn'. cbn [is_indices is_values]. split; [split|exact Hnin].
        * exists f. auto.
        * exists (junk ++ [x]). split; [rewrite app_assoc; reflexivity|]. intros H.
          exfalso. rewrite fo_snoc in H. destruct (existsb _ _); [lia|]. rewrite app_length in H. cbn in H. lia.
  Qed.

  Lemma is_inv_empty : is_inv (@is_empty T) [].
  Proof.
    split.
    - exists (fun _ => None). split; [apply rep_empty|]. intros x j. cbn. rewrite firstn_nil. destruct j; split; discriminate.
    - exists []. cbn. rewrite firstn_nil. auto.
  Qed.

  Lemma is_run_inv ys : forall s xs, is_inv s xs ->
    let r := is_run tlt teq imax s ys in
    is_inv (fst r) (xs ++ ys) /\ length (snd r) = length ys /\
    forall i x, nth_error ys i = Some x ->
      exists o, nth_error (snd r) i = Some o /\
      match o with
      | Ok j => nth_error (firstn imax (fo (xs ++ ys))) j = Some x
      | Throw => ~ In x (firstn imax (fo (xs ++ ys)))
      | UB => False
      end.
  Proof.
    induction ys as [|y ys IH]; intros s xs Hs; cbn [is_run].
    - cbn. rewrite app_nil_r. split; [exact Hs|]. split; [reflexivity|]. intros [|i] x; discriminate.
    - pose proof (is_step s xs y Hs) as Hst. cbv zeta in Hst.
      destruct (is_get_or_add tlt teq imax s y) as [s1 r1]. cbn [fst snd] in Hst. destruct Hst as [H1 H2].
      specialize (IH s1 (xs ++ [y]) H1). cbv zeta in IH.
      destruct (is_run tlt teq imax s1 ys) as [s2 rs]. cbn [fst snd] in *.
      rewrite <- app_assoc in IH. cbn [app] in IH. destruct IH as (IH1 & IH2 & IH3).
      split; [exact IH1|]. split; [cbn; congruence|]. intros [|i] x Hx; cbn in Hx.
      + injection Hx as <-. exists r1. split; [reflexivity|].
        destruct (fo_prefix (xs ++ [y]) ys) as [rr Hrr]. rewrite <- app_assoc in Hrr. cbn [app] in Hrr.
        rewrite Hrr, firstn_app. destruct r1 as [j| |]; [| |exact H2].
        * rewrite nth_error_app1; [exact H2|]. apply nth_error_Some. congruence.
        * intros Hc. apply in_app_or in Hc. destruct Hc as [Hc|Hc]; [contradiction|].
          assert (Hin : In y rr) by (rewrite <- (firstn_skipn (imax - length (fo (xs ++ [y])))); apply in_or_app; left; exact Hc).
          pose proof (fo_NoDup (xs ++ y :: ys)) as Hnd. rewrite Hrr in Hnd.
          assert (Hin2 : In y (fo (xs ++ [y]))) by (apply fo_in, in_or_app; right; left; reflexivity).
          clear - Hnd Hin Hin2. apply in_split in Hin2. destruct Hin2 as (A & B & E). rewrite E in Hnd.
          rewrite <- app_assoc in Hnd. cbn in Hnd. apply NoDup_remove_2 in Hnd. apply Hnd.
          rewrite !in_app_iff. auto.
      + apply IH3, Hx.
  Qed.

  Lemma indexed_set_history xs :
    let '(s, rs) := is_run tlt teq imax (@is_empty T) xs in
    (forall i x, nth_error xs i = Some x ->
       match nth_error rs i with
       | Some (Ok j) => nth_error (first_occurrences teq xs) j = Some x /\ j < imax /\
                        is_get s j = Ok x /\ is_try_get tlt teq s x = Some j
       | Some Throw => forall j, nth_error (first_occurrences teq xs) j = Some x -> imax <= j
       | _ => False
       end) /\
    (forall i1 i2 j1 j2, nth_error rs i1 = Some (Ok j1) -> nth_error rs i2 = Some (Ok j2) ->
       (j1 = j2 <-> nth_error xs i1 = nth_error xs i2)).
  Proof.
    pose proof (is_run_inv xs (@is_empty T) [] is_inv_empty) as H. cbv zeta in H.
    destruct (is_run tlt teq imax is_empty xs) as [s rs]. cbn [fst snd app] in H.
    destruct H as (Hinv & Hlen & Hres). destruct Hinv as [(f & Hr & Hf) (junk & Hv & Hj)].
    assert (Hnthf : forall j x, nth_error (firstn imax (fo xs)) j = Some x -> j < imax /\ nth_error (fo xs) j = Some x).
    { intros j x Hn. assert (Hl : j < length (firstn imax (fo xs))) by (apply nth_error_Some; congruence).
      rewrite firstn_length in Hl. split; [lia|].
      rewrite <- (firstn_skipn imax (fo xs)). rewrite nth_error_app1; [exact Hn|]. rewrite firstn_length. lia. }
    split.
    - intros i x Hx. destruct (Hres i x Hx) as (o & -> & Ho). destruct o as [j| |]; [| |exact Ho].
      + destruct (Hnthf j x Ho) as [H1 H2]. repeat split; auto.
        * unfold is_get, vec_get. rewrite Hv, nth_error_app1 by (apply nth_error_Some; congruence). rewrite Ho. reflexivity.
        * rewrite (is_try_get_spec s f x Hr). apply Hf, Ho.
      + intros j Hn. destruct (le_lt_dec imax j) as [|Hlt]; [assumption|]. exfalso. apply Ho.
        apply (nth_error_In _ j).
        assert (Hl : j < length (firstn imax (fo xs))).
        { rewrite firstn_length. assert (j < length (fo xs)) by (apply nth_error_Some; congruence). lia. }
        rewrite <- (firstn_skipn imax (fo xs)) in Hn. rewrite nth_error_app1 in Hn by exact Hl. exact Hn.
    - intros i1 i2 j1 j2 H1 H2.
      assert (Hx : forall i j, nth_error rs i = Some (Ok j) -> exists x, nth_error xs i = Some x /\ nth_error (firstn imax (fo xs)) j = Some x).
      { intros i j Hi. assert (i < length xs) by (rewrite <- Hlen; apply nth_error_Some; congruence).
        destruct (nth_error xs i) as [x|] eqn:E; [|apply nth_error_None in E; lia].
        destruct (Hres i x E) as (o & Ho & Hm). rewrite Hi in Ho. injection Ho as <-. eauto. }
      destruct (Hx _ _ H1) as (x1 & E1 & N1). destruct (Hx _ _ H2) as (x2 & E2 & N2). rewrite E1, E2. split.
      + intros ->. congruence.
      + intros E. injection E as ->. apply Hnthf in N1. apply Hnthf in N2.
        pose proof (fo_NoDup xs) as Hnd. rewrite NoDup_nth_error in Hnd.
        apply Hnd; [apply nth_error_Some; destruct N1 as [_ ->]; discriminate|]. destruct N1 as [_ ->], N2 as [_ ->]. reflexivity.
  Qed.
End IS.

(** ** label_vector *)
Section LV.
  Context {L : Type} (leq : L -> L -> bool) (ldef : L).
  Hypothesis EQ : eq_test leq.

  Definition current_label (log : list (L * nat)) (i : nat) : L :=
    fold_left (fun acc e => if snd e =? i then fst e else acc) log ldef.

  Definition lv_inv (v : lvec) (st : nat * list (L * nat)) : Prop :=
    length (lv_labels v) = fst st /\
    NoDup (map fst (snd st)) /\
    (forall l i, lv_find leq v l = Some i <-> In (l, i) (snd st)) /\
    (forall l i, In (l, i) (snd st) -> i < fst st) /\
    (forall i, i < fst st -> nth_error (lv_labels v) i = Some (current_label (snd st) i)).

  Lemma recorded_in log l : recorded leq log l = true <-> exists i, In (l, i) log.
  Proof.
    unfold recorded. rewrite existsb_exists. split.
    - intros ([l' i] & Hin & Hq). cbn in Hq. apply EQ in Hq. subst. exists i. exact Hin.
    - intros [i Hin]. exists (l, i). split; [exact Hin|]. apply EQ. reflexivity.
  Qed.

  Lemma lv_find_map_set labels m l i l' :
    lv_find leq {| lv_labels := labels; lv_index := lv_map_set leq m l i |} l' =
    if leq l l' then Some i else lv_find leq {| lv_labels := labels; lv_index := m |} l'.
  Proof.
    unfold lv_find, lv_map_set. cbn [lv_index find fst]. destruct (leq l l') eqn:E; [reflexivity|].
    induction m as [|e m IH]; cbn; [reflexivity|]. destruct (leq (fst e) l) eqn:E2; cbn.
    - apply EQ in E2. rewrite E2, E. exact IH.
    - destruct (leq (fst e) l'); [reflexivity|]. exact IH.
  Qed.

  Lemma lv_find_labels_irrel a b m l : lv_find leq {| lv_labels := a; lv_index := m |} l = lv_find leq {| lv_labels := b; lv_index := m |} l.
  Proof. reflexivity. Qed.

  Lemma current_snoc log l j i :
    current_label (log ++ [(l, j)]) i = if j =? i then l else current_label log i.
  Proof. unfold current_label. rewrite fold_left_app. reflexivity. Qed.

  Lemma current_fresh log i : (forall l j, In (l, j) log -> j <> i) -> current_label log i = ldef.
  Proof.
    unfold current_label. generalize ldef as d. induction log as [|[l j] log IH]; intros d H; cbn; [reflexivity|].
    replace (j =? i) with false. apply IH. intros l' j' Hin. apply (H l' j'). right. exact Hin.
    symmetry. apply Nat.eqb_neq. apply (H l j). left. reflexivity.
  Qed.

  Lemma leq_false a b : leq a b = false -> a <> b.
  Proof. intros H ->. assert (leq b b = true) by (apply EQ; reflexivity). congruence. Qed.

  Lemma lv_find_none_recorded v st l : lv_inv v st -> lv_find leq v l = None <-> recorded leq (snd st) l = false.
  Proof.
    intros (_ & _ & Hf & _). rewrite <- not_true_iff_false, recorded_in. split.
    - intros H [i Hi]. apply Hf in Hi. congruence.
    - intros H. destruct (lv_find leq v l) as [i|] eqn:E; [|reflexivity]. exfalso. apply H. exists i. apply Hf, E.
  Qed.

  Lemma in_snoc_pair (log : list (L * nat)) l i l' i' :
    In (l', i') (log ++ [(l, i)]) <-> In (l', i') log \/ (l' = l /\ i' = i).
  Proof. rewrite in_app_iff. cbn. intuition congruence. Qed.

  Lemma lv_step_inv v st o : lv_inv v st -> lv_inv (lv_step leq ldef v o) (label_log_step leq st o).
  Proof.
    intros Hinv. pose proof Hinv as (Hlen & Hnd & Hf & Hb & Hc). destruct st as [n log]. cbn [fst snd] in *.
    destruct o as [l|i l|m|]; cbn [lv_step label_log_step].
    - unfold lv_add. destruct (recorded leq log l) eqn:Hr.
      + destruct (lv_find leq v l) as [i|] eqn:E; [exact Hinv|].
        apply (lv_find_none_recorded v (n, log) l Hinv) in E. cbn [snd] in E. congruence.
      + assert (E : lv_find leq v l = None) by (apply (lv_find_none_recorded v (n, log) l Hinv); exact Hr).
        rewrite E. cbn [fst]. rewrite app_length. cbn [length].
        replace (length (lv_labels v) + 1 - 1) with n by lia.
        unfold lv_inv. cbn [fst snd lv_labels]. split; [rewrite app_length; cbn; lia|]. split; [|split; [|split]].
        * rewrite map_app. cbn. apply (NoDup_Add (a := l) (l := map fst log)).
          -- replace (map fst log) with (map fst log ++ []) at 1 by apply app_nil_r. apply Add_app.
          -- split; [exact Hnd|]. intros Hi. apply in_map_iff in Hi. destruct Hi as ([l' j] & El & Hin). cbn in El. subst l'.
             assert (recorded leq log l = true) by (apply recorded_in; eauto). congruence.
        * intros l' i'. rewrite lv_find_map_set, in_snoc_pair. destruct (leq l l') eqn:El.
          -- apply EQ in El. subst l'. split.
             ++ intros H. injection H as <-. right. auto.
             ++ intros [H|[_ H]]; [|congruence]. exfalso.
                assert (recorded leq log l = true) by (apply recorded_in; eauto). congruence.
          -- apply leq_false in El. destruct v as [labels m]. cbn [lv_labels lv_index] in *.
             rewrite (lv_find_labels_irrel _ labels), Hf. split; [auto|intros [H|[-> _]]; [exact H|congruence]].
        * intros l' i' H. apply in_snoc_pair in H. destruct H as [H|[_ ->]]; [apply Hb in H|]; lia.
        * intros j Hj. rewrite current_snoc. destruct (Nat.eqb_spec n j) as [->|Hne].
          -- rewrite <- Hlen. apply nth_error_mid.
          -- rewrite nth_error_app1 by lia. apply Hc. lia.
    - unfold lv_set. rewrite Hlen. destruct (i <? n) eqn:Hi; cbn [andb]; [|exact Hinv].
      destruct (recorded leq log l) eqn:Hr; cbn [negb].
      + destruct (lv_find leq v l) as [j|] eqn:E; [exact Hinv|].
        apply (lv_find_none_recorded v (n, log) l Hinv) in E. cbn [snd] in E. congruence.
      + assert (E : lv_find leq v l = None) by (apply (lv_find_none_recorded v (n, log) l Hinv); exact Hr).
        rewrite E. cbn [fst].
        unfold lv_inv. cbn [fst snd lv_labels]. split; [rewrite list_set_length; exact Hlen|]. split; [|split; [|split]].
        * rewrite map_app. cbn. apply (NoDup_Add (a := l) (l := map fst log)).
          -- replace (map fst log) with (map fst log ++ []) at 1 by apply app_nil_r. apply Add_app.
          -- split; [exact Hnd|]. intros Hi'. apply in_map_iff in Hi'. destruct Hi' as ([l' j] & El & Hin). cbn in El. subst l'.
             assert (recorded leq log l = true) by (apply recorded_in; eauto). congruence.
        * intros l' i'. rewrite lv_find_map_set, in_snoc_pair. destruct (leq l l') eqn:El.
          -- apply EQ in El. subst l'. split.
             ++ intros H. injection H as <-. right. auto.
             ++ intros [H|[_ H]]; [|congruence]. exfalso.
                assert (recorded leq log l = true) by (apply recorded_in; eauto). congruence.
          -- apply leq_false in El. destruct v as [labels m]. cbn [lv_labels lv_index] in *.
             rewrite (lv_find_labels_irrel _ labels), Hf. split; [auto|intros [H|[-> _]]; [exact H|congruence]].
        * intros l' i' H. apply in_snoc_pair in H. destruct H as [H|[_ ->]]; [apply Hb in H|]; lia.
        * intros j Hj. rewrite current_snoc. destruct (Nat.eqb_spec i j) as [->|Hne].
          -- apply nth_error_list_set_eq. lia.
          -- rewrite nth_error_list_set_neq by exact Hne. apply Hc, Hj.
    - unfold lv_resize. rewrite Hlen. destruct (n <=? m) eqn:Hm; [|exact Hinv].
      unfold lv_inv, vec_resize. cbn [fst snd lv_labels]. rewrite app_length, firstn_length, repeat_length.
      split; [lia|]. split; [exact Hnd|]. split; [exact Hf|]. split; [intros l i H; apply Hb in H; lia|].
      intros i Hi. rewrite firstn_all2 by lia. destruct (lt_dec i n) as [Hlt|Hge].
      + rewrite nth_error_app1 by lia. apply Hc, Hlt.
      + rewrite nth_error_app2 by lia. rewrite current_fresh; [|intros l j H; apply Hb in H; lia].
        apply nth_error_repeat. lia.
    - repeat split; cbn; try constructor; try (intros; contradiction); try lia; try discriminate.
  Qed.

  Lemma lv_run_inv ops :
    lv_inv (fold_left (lv_step leq ldef) ops {| lv_labels := []; lv_index := [] |}) (label_log leq ops).
  Proof.
    unfold label_log.
    assert (H0 : lv_inv {| lv_labels := []; lv_index := [] |} (0, [])).
    { repeat split; cbn; try constructor; try (intros; contradiction); try lia; try discriminate. }
    revert H0. generalize {| lv_labels := @nil L; lv_index := [] |}. generalize (0, @nil (L * nat)).
    induction ops as [|o ops IH]; intros st v H; cbn [fold_left]; [exact H|]. apply IH, lv_step_inv, H.
  Qed.

  Lemma current_unique log l i : NoDup (map snd log) -> In (l, i) log -> current_label log i = l.
  Proof.
    induction log as [|[l' j] log IH] using rev_ind; intros Hnd Hin; [destruct Hin|].
    rewrite current_snoc. apply in_snoc_pair in Hin. rewrite map_app in Hnd. cbn in Hnd.
    apply NoDup_remove in Hnd. rewrite app_nil_r in Hnd. destruct Hnd as [Hnd Hn].
    destruct Hin as [Hin|[-> ->]].
    - destruct (Nat.eqb_spec j i) as [->|Hne]; [|apply IH; assumption].
      exfalso. apply Hn. change i with (snd (l, i)). apply in_map, Hin.
    - rewrite Nat.eqb_refl. reflexivity.
  Qed.

  Lemma label_vector_history ops :
    let v := fold_left (lv_step leq ldef) ops {| lv_labels := []; lv_index := [] |} in
    let '(n, log) := label_log leq ops in
    length (lv_labels v) = n /\
    (forall l i, lv_find leq v l = Some i <-> In (l, i) log) /\
    (NoDup (map snd log) -> forall l i, lv_find leq v l = Some i -> lv_get v i = Ok l) /\
    (forall l i, lv_get v i = Ok l -> l <> ldef -> lv_find leq v l = Some i).
  Proof.
    cbv zeta. pose proof (lv_run_inv ops) as H. destruct (label_log leq ops) as [n log].
    destruct H as (Hlen & Hnd & Hf & Hb & Hc). cbn [fst snd] in *.
    split; [exact Hlen|]. split; [exact Hf|]. split.
    - intros Hu l i Hl. apply Hf in Hl. unfold lv_get, vec_get. rewrite Hc by (eapply Hb; eauto).
      rewrite (current_unique log l i Hu Hl). reflexivity.
    - intros l i Hg Hne. apply Hf. unfold lv_get, vec_get in Hg.
      destruct (nth_error _ i) as [x|] eqn:E; [|discriminate]. injection Hg as ->.
      assert (Hi : i < n) by (rewrite <- Hlen; apply nth_error_Some; congruence).
      rewrite Hc in E by exact Hi. injection E as E. clear - E Hne.
      revert E. induction log as [|[l' j] log IH] using rev_ind; intros E.
      + cbn in E. congruence.
      + rewrite current_snoc in E. apply in_snoc_pair. destruct (Nat.eqb_spec j i) as [->|Hj]; [right; auto|left; apply IH, E].
  Qed.
End LV.

(** ** factory *)
Section FAC.
  Context {N C A P : Type} (nlt neq : N -> N -> bool) (cdef : C) (apply : C -> A -> P).
  Hypothesis TO : total_order nlt neq.

  Lemma fac_call_spec m f o :
    represents nlt m f -> represents nlt (fac_call nlt neq cdef m o) (fac_step neq f o).
  Proof.
    intros H. destruct o as [n c|n]; cbn [fac_call fac_step].
    - unfold fac_register. rewrite (fm_contains_spec nlt neq TO m n f H).
      destruct (f n) eqn:E; [exact H|]. apply (fm_assign_spec nlt neq cdef TO m f n c H).
    - pose proof (fm_erase_spec nlt neq cdef TO m f n H) as He. unfold fac_unregister.
      unfold fm_erase in He. destruct (fm_find nlt neq m n =? length m); cbn in He; apply He.
  Qed.

  Lemma factory_history ops :
    let m := fold_left (fac_call nlt neq cdef) ops [] in
    let f := fac_after neq ops in
    (forall n a, fac_create nlt neq apply m n a = match f n with Some c => Ok (apply c a) | None => Throw end) /\
    (forall n a, fac_try_create nlt neq apply m n a =
                 Ok (match f n with Some c => Some (apply c a) | None => None end)) /\
    (forall n, fac_has_type nlt neq m n = true <-> f n <> None) /\
    (forall n c, (fac_register nlt neq cdef m n c = Throw <-> f n <> None)) /\
    (forall n, (fac_unregister nlt neq m n = Throw <-> f n = None)).
  Proof.
    cbv zeta.
    assert (H : represents nlt (fold_left (fac_call nlt neq cdef) ops []) (fac_after neq ops)).
    { unfold fac_after. generalize (@rep_empty N C nlt).
      generalize (@nil (N * C)). generalize (fun _ : N => @None C).
      induction ops as [|o ops IH]; intros f m H; cbn [fold_left]; [exact H|]. apply IH, fac_call_spec, H. }
    set (m := fold_left _ _ _) in *. set (f := fac_after neq ops) in *.
    assert (Hfind : forall n, match f n with
              | Some c => (fm_find nlt neq m n =? length m) = false /\ nth_error m (fm_find nlt neq m n) = Some (n, c)
              | None => (fm_find nlt neq m n =? length m) = true end).
    { intros n. pose proof (fm_find_cases nlt neq TO m n f H) as Hc. destruct (f n); [split; [lia|apply Hc]|lia]. }
    repeat split.
    - intros n a. unfold fac_create. specialize (Hfind n). destruct (f n).
      + destruct Hfind as [-> Hn]. unfold vec_get. rewrite Hn. reflexivity.
      + rewrite Hfind. reflexivity.
    - intros n a. unfold fac_try_create. specialize (Hfind n). destruct (f n).
      + destruct Hfind as [-> Hn]. unfold vec_get. rewrite Hn. reflexivity.
      + rewrite Hfind. reflexivity.
    - unfold fac_has_type. specialize (Hfind n). destruct (f n); [congruence|]. rewrite Hfind. discriminate.
    - unfold fac_has_type. specialize (Hfind n). destruct (f n); [destruct Hfind as [-> _]; reflexivity|congruence].
    - unfold fac_register. rewrite (fm_contains_spec nlt neq TO m n f H). destruct (f n); congruence.
    - unfold fac_register. rewrite (fm_contains_spec nlt neq TO m n f H). destruct (f n); congruence.
    - unfold fac_unregister. specialize (Hfind n). destruct (f n); [destruct Hfind as [-> _]; discriminate|reflexivity].
    - unfold fac_unregister. specialize (Hfind n). destruct (f n); [congruence|rewrite Hfind; reflexivity].
  Qed.
End FAC.

(** ** handles *)
Section HV.
  Context {T : Type}.
  Local Open Scope N_scope.

  Lemma handle_push_back w (l : list T) x :
    N.of_nat (length l) < w ->
    let '(l', h) := hv_push_back w l x in
    hv_get l' h = Ok x /\
    (forall h' y, hv_get l h' = Ok y -> hv_get l' h' = Ok y).
  Proof.
    intros Hw. unfold hv_push_back, hv_get, vec_get. rewrite app_length. cbn [length].
    replace (length l + 1 - 1)%nat with (length l) by lia.
    rewrite N.mod_small by exact Hw. rewrite Nnat.Nat2N.id, nth_error_mid. split; [reflexivity|].
    intros h' y H. destruct (nth_error l (N.to_nat h')) eqn:E; [|discriminate].
    rewrite nth_error_app1 by (apply nth_error_Some; congruence). rewrite E. exact H.
  Qed.

  Lemma moved_value w h e b n :
    e <= h -> h < n -> b <= e -> n < w -> ((h + w - e) mod w + b) mod w = h - e + b.
  Proof.
    intros H1 H2 H3 H4. replace (h + w - e) with ((h - e) + 1 * w) by lia. rewrite N.mod_add by lia.
    rewrite (N.mod_small (h - e)) by lia. apply N.mod_small. lia.
  Qed.

  Lemma nth_after_erase (l : list T) (b e h : nat) :
    (b <= e)%nat -> (e <= h)%nat -> (h < length l)%nat ->
    nth_error (firstn b l ++ skipn e l) (h - e + b)%nat = nth_error l h.
  Proof.
    intros H1 H2 H3. rewrite nth_error_app2 by (rewrite firstn_length; lia). rewrite firstn_length.
    rewrite <- (firstn_skipn e l) at 3. rewrite nth_error_app2 by (rewrite firstn_length; lia).
    rewrite firstn_length. f_equal. lia.
  Qed.

  Lemma nth_before_erase (l : list T) (b e h : nat) :
    (h < b)%nat -> (h < length l)%nat ->
    nth_error (firstn b l ++ skipn e l) h = nth_error l h.
  Proof.
    intros H1 H2. rewrite nth_error_app1 by (rewrite firstn_length; lia).
    rewrite <- (firstn_skipn b l) at 2. rewrite nth_error_app1 by (rewrite firstn_length; lia). reflexivity.
  Qed.

  Lemma handle_erase_span w (l l' : list T) b e :
    N.of_nat (length l) < w ->
    hv_erase_span l b e = Ok l' ->
    forall h x, hv_get l h = Ok x -> span_contains b e h = false ->
    hv_get l' (update_moved_handle w h e (N.of_nat (length l)) b) = Ok x.
  Proof.
    intros Hw He h x Hx Hs. unfold hv_erase_span in He.
    destruct ((b <=? e) && (e <=? N.of_nat (length l))) eqn:Hbe; [|discriminate]. injection He as <-.
    apply andb_prop in Hbe. destruct Hbe as [Hb He]. apply N.leb_le in Hb. apply N.leb_le in He.
    unfold hv_get, vec_get in *. destruct (nth_error l (N.to_nat h)) as [y|] eqn:E; [|discriminate]. injection Hx as ->.
    assert (Hlt : (N.to_nat h < length l)%nat) by (apply nth_error_Some; congruence).
    unfold update_moved_handle, span_contains in *.
    destruct ((e <=? h) && (h <? N.of_nat (length l))) eqn:Hm.
    - apply andb_prop in Hm. destruct Hm as [Hm1 Hm2]. apply N.leb_le in Hm1. apply N.ltb_lt in Hm2.
      rewrite (moved_value w h e b (N.of_nat (length l)) Hm1 Hm2 Hb Hw).
      replace (N.to_nat (h - e + b)) with (N.to_nat h - N.to_nat e + N.to_nat b)%nat by (clear - Hm1; lia).
      rewrite nth_after_erase; [rewrite E; reflexivity|clear - Hb; lia|clear - Hm1; lia|exact Hlt].
    - rewrite nth_before_erase; [rewrite E; reflexivity| |exact Hlt].
      clear - Hm Hs Hlt He Hb. apply andb_false_iff in Hm. apply andb_false_iff in Hs.
      rewrite N.leb_gt, N.ltb_ge in Hm. rewrite N.leb_gt, N.ltb_ge in Hs. lia.
  Qed.

  Lemma handle_invalid_stays w (l : list T) b e :
    N.of_nat (length l) < w -> update_moved_handle w (h_invalid w) e (N.of_nat (length l)) b = h_invalid w.
  Proof.
    intros Hw. unfold update_moved_handle, span_contains, h_invalid.
    replace ((e <=? w - 1) && (w - 1 <? N.of_nat (length l))) with false by lia. reflexivity.
  Qed.
End HV.
