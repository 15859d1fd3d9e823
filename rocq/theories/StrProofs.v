(** Proofs about [StrModel]. *)
From Coq Require Import Ascii String List Arith Bool Lia NArith ZArith.
From Coq Require Import ZifyBool ZifyNat ZifyN.
From Verif Require Import Base Str StrSpec StrModel StrBase.
Import ListNotations.

(** ** Searching *)

Lemma begins_with_iff s sub : str_begins_with s sub = true <-> exists r, s = sub ++ r.
Proof.
  unfold str_begins_with. rewrite compare_eq_iff by lia. split.
  - intros (a & b & -> & Ha). destruct a; [|discriminate]. exists b. reflexivity.
  - intros (r & ->). exists [], r. auto.
Qed.

Lemma begins_with_at_iff s sub p : str_begins_with_at s sub p = true <-> p < length s /\ occurs_at s sub p.
Proof.
  unfold str_begins_with_at. rewrite andb_true_iff. split.
  - intros [H1 H2]. apply compare_eq_iff in H2; [|lia]. split; [lia|exact H2].
  - intros [H1 H2]. split; [lia|]. apply compare_eq_iff; [lia|exact H2].
Qed.

Lemma ends_with_iff s sub : str_ends_with s sub = true <-> exists r, s = r ++ sub.
Proof.
  unfold str_ends_with. rewrite andb_true_iff. split.
  - intros [H1 H2]. apply compare_eq_iff in H2; [|lia]. destruct H2 as (a & b & -> & Ha).
    rewrite !app_length in Ha. assert (length b = 0) by lia.
    destruct b; [|discriminate]. exists a. rewrite app_nil_r. reflexivity.
  - intros (r & ->). rewrite app_length. split; [lia|]. apply compare_eq_iff; [rewrite app_length; lia|].
    exists r, []. rewrite app_nil_r. split; [reflexivity|lia].
Qed.

Lemma contains_iff s sub : str_contains s sub = true <-> exists a b, s = a ++ sub ++ b.
Proof.
  unfold str_contains. destruct (find s sub 0) as [i|] eqn:E.
  - split; [intros _|auto]. apply find_some in E. destruct E as (_ & (a & b & -> & _) & _). eauto.
  - split; [discriminate|]. intros (a & b & ->).
    exfalso. apply (proj1 (find_none _ _ _) E (length a)); [lia|]. exists a, b. auto.
Qed.

Lemma begins_with_char_iff s c : str_begins_with_char s c = true <-> exists r, s = c :: r.
Proof.
  destruct s as [|x t]; cbn.
  - split; [discriminate|intros (r & H); discriminate].
  - rewrite Ascii.eqb_eq. split; [intros ->; eauto|intros (r & [= -> _]); reflexivity].
Qed.

Lemma ends_with_char_iff s c : str_ends_with_char s c = true <-> exists r, s = r ++ [c].
Proof.
  unfold str_ends_with_char. destruct (rev s) as [|x t] eqn:E.
  - split; [discriminate|]. intros (r & ->). rewrite rev_app_distr in E. discriminate.
  - rewrite Ascii.eqb_eq. split.
    + intros ->. exists (rev t). rewrite <- (rev_involutive s), E. reflexivity.
    + intros (r & ->). rewrite rev_app_distr in E. cbn in E. congruence.
Qed.

Lemma contains_char_iff s c : str_contains_char s c = true <-> In c s.
Proof.
  unfold str_contains_char, find_first_of. cbn [skipn].
  destruct (index_from _ s 0) as [i|] eqn:E.
  - split; [intros _|auto]. apply index_from_some in E. destruct E as (a & x & b & -> & _ & Hx & _).
    apply in_set_In in Hx. destruct Hx as [->|[]]. apply in_elt.
  - split; [discriminate|]. intros H. apply index_from_none, Forall_in_set_false in E.
    rewrite Forall_forall in E. exfalso. apply (E c H). left. reflexivity.
Qed.

Lemma search_assembled (s sub : str) (c : ascii) (p i : nat) :
  (str_begins_with s sub = true <-> exists r, s = sub ++ r) /\
  (str_ends_with s sub = true <-> exists r, s = r ++ sub) /\
  (str_contains s sub = true <-> exists a b, s = a ++ sub ++ b) /\
  (str_begins_with_char s c = true <-> exists r, s = c :: r) /\
  (str_ends_with_char s c = true <-> exists r, s = r ++ [c]) /\
  (str_contains_char s c = true <-> In c s) /\
  (str_begins_with_at s sub p = true <-> p < length s /\ occurs_at s sub p) /\
  (in_str s sub p = Some i <-> first_occurrence s sub p i) /\
  (in_str s sub p = None <-> forall j, p <= j -> ~ occurs_at s sub j).
Proof.
  exact (conj (begins_with_iff _ _) (conj (ends_with_iff _ _) (conj (contains_iff _ _)
    (conj (begins_with_char_iff _ _) (conj (ends_with_char_iff _ _) (conj (contains_char_iff _ _)
    (conj (begins_with_at_iff _ _ _) (conj (find_some _ _ _ _) (find_none _ _ _))))))))).
Qed.

(** ** Substrings *)

Lemma firstn_skipn3 {A} (s : list A) p n : s = firstn p s ++ firstn n (skipn p s) ++ skipn n (skipn p s).
Proof. rewrite firstn_skipn, firstn_skipn. reflexivity. Qed.

Lemma substring_assembled (s : str) (n : nat) (p : nat) :
  (exists b t, left_str s (Z.of_nat n) = Ok t /\ s = t ++ b /\ length t = Nat.min n (length s)) /\
  (0 < n -> exists b t, left_str s (- Z.of_nat n) = Ok t /\ s = t ++ b /\ length t = length s - n) /\
  (n <= length s -> exists a t, right_str s (Z.of_nat n) = Ok t /\ s = a ++ t /\ length t = n) /\
  (0 < n <= length s -> exists a t, right_str s (- Z.of_nat n) = Ok t /\ s = a ++ t /\ length a = n) /\
  (length s < n -> right_str s (Z.of_nat n) = Throw /\ right_str s (- Z.of_nat n) = Throw) /\
  (p <= length s -> exists a b t, mid_str s p (Some n) = Ok t /\ s = a ++ t ++ b /\ length a = p /\ length t = Nat.min n (length s - p)) /\
  (p <= length s -> exists a t, mid_str s p None = Ok t /\ s = a ++ t /\ length a = p) /\
  (length s < p -> mid_str s p (Some n) = Throw /\ mid_str s p None = Throw).
Proof.
  unfold left_str, right_str, mid_str, substr.
  split; [|split; [|split; [|split; [|split; [|split; [|split]]]]]].
  - exists (skipn n s), (firstn n s). replace (0 <=? Z.of_nat n)%Z with true by lia.
    cbn [Nat.leb skipn]. rewrite Nat2Z.id, firstn_skipn, firstn_length. repeat split; lia.
  - intros Hn. exists (skipn (length s - n) s), (firstn (length s - n) s).
    replace (0 <=? - Z.of_nat n)%Z with false by lia. cbn [Nat.leb skipn].
    replace (Z.to_nat (Z.max 0 (Z.of_nat (length s) + - Z.of_nat n))) with (length s - n) by lia.
    rewrite firstn_skipn, firstn_length. repeat split; lia.
  - intros H. exists (firstn (length s - n) s), (skipn (length s - n) s).
    replace (0 <=? Z.of_nat n)%Z with true by lia.
    replace (Z.of_nat n <=? Z.of_nat (length s))%Z with true by lia. rewrite Nat2Z.id.
    replace (length s - n <=? length s) with true by lia.
    rewrite firstn_skipn, skipn_length. repeat split; lia.
  - intros H. exists (firstn n s), (skipn n s).
    replace (0 <=? - Z.of_nat n)%Z with false by lia. rewrite Z.opp_involutive, Nat2Z.id.
    replace (n <=? length s) with true by lia.
    rewrite firstn_skipn, firstn_length. repeat split; lia.
  - intros H. replace (0 <=? Z.of_nat n)%Z with true by lia.
    replace (Z.of_nat n <=? Z.of_nat (length s))%Z with false by lia.
    replace (0 <=? - Z.of_nat n)%Z with false by lia. rewrite Z.opp_involutive, Nat2Z.id.
    replace (n <=? length s) with false by lia. auto.
  - intros H. replace (p <=? length s) with true by lia.
    exists (firstn p s), (skipn n (skipn p s)), (firstn n (skipn p s)).
    rewrite <- firstn_skipn3, !firstn_length, skipn_length. repeat split; lia.
  - intros H. replace (p <=? length s) with true by lia.
    exists (firstn p s), (skipn p s). rewrite firstn_skipn, firstn_length. repeat split; lia.
  - intros H. replace (p <=? length s) with false by lia. auto.
Qed.

(** ** n-th occurrence *)

Lemma first_occurrence_fun {A} (s sub : list A) p i j :
  first_occurrence s sub p i -> first_occurrence s sub p j -> i = j.
Proof.
  intros (H1 & H2 & H3) (H4 & H5 & H6). destruct (Nat.lt_total i j) as [H|[H|H]]; [|exact H|].
  - exfalso. apply (H6 i); [lia|exact H2].
  - exfalso. apply (H3 j); [lia|exact H5].
Qed.

Lemma last_cons {A} (x : A) l d : last (x :: l) d = last l x.
Proof.
  revert x d; induction l as [|y t IH]; intros x d; [reflexivity|].
  change (last (x :: y :: t) d) with (last (y :: t) d). rewrite !IH. reflexivity.
Qed.

Lemma find_nth_loop_none s sub n : find_nth_loop s sub n None = None.
Proof. destruct n; reflexivity. Qed.

Lemma find_nth_loop_pos s sub n i j : 0 < i ->
  (find_nth_loop s sub n (Some i) = Some j <->
   exists is, length is = n /\ occurrences_from s sub (S i) is /\ j = last is i).
Proof.
  revert i; induction n as [|n IH]; intros i Hi; cbn [find_nth_loop].
  - split.
    + intros [= <-]. exists []. cbn. auto.
    + intros (is & Hl & _ & ->). destruct is; [reflexivity|discriminate].
  - replace (0 <? i) with true by lia. replace (i + 1) with (S i) by lia.
    destruct (find s sub (S i)) as [k|] eqn:E.
    + apply find_some in E. rewrite IH by (destruct E; lia). split.
      * intros (is & Hl & Ho & ->). exists (k :: is). cbn [length occurrences_from]. split; [lia|]. split; [auto|].
        symmetry. apply last_cons.
      * intros (is & Hl & Ho & ->). destruct is as [|k' is]; [discriminate|].
        destruct Ho as [Hk Ho]. rewrite (first_occurrence_fun _ _ _ _ _ E Hk) in *.
        exists is. cbn in Hl. split; [lia|]. split; [auto|].
        apply last_cons.
    + rewrite find_nth_loop_none. split; [discriminate|].
      intros (is & Hl & Ho & _). destruct is as [|k is]; [discriminate|].
      destruct Ho as [Hk _]. apply find_some in Hk. congruence.
Qed.

Lemma last_cons_ne {A} (x : A) l d e : l <> [] -> last (x :: l) d = last l e.
Proof.
  intros H. revert x H. induction l as [|y t IH]; intros x H; [congruence|].
  destruct t as [|z u]; [reflexivity|]. change (last (x :: y :: z :: u) d) with (last (y :: z :: u) d).
  rewrite IH by discriminate. reflexivity.
Qed.

Lemma last_app_one {A} (l : list A) x d : last (l ++ [x]) d = x.
Proof. induction l as [|y t IH]; [reflexivity|]. cbn [app last]. destruct (t ++ [x]) eqn:E; [destruct t; discriminate|exact IH]. Qed.

Lemma last_ne_split {A} (l : list A) d : l <> [] -> l = removelast l ++ [last l d].
Proof. apply app_removelast_last. Qed.

Lemma find_nth_str_ok s sub n i : ~ occurs_at s sub 0 ->
  (find_nth_str s sub (S n) = Some i <->
   exists is, length is = n /\ occurrences_from s sub 0 (is ++ [i])).
Proof.
  intros H0. unfold find_nth_str. cbn [find_nth_loop]. cbn [Nat.ltb Nat.leb].
  destruct (find s sub 0) as [k|] eqn:E.
  - apply find_some in E. assert (Hk : 0 < k).
    { destruct k; [|lia]. destruct E as (_ & E & _). contradiction. }
    rewrite find_nth_loop_pos by exact Hk. split.
    + intros (is & Hl & Ho & ->). destruct is as [|x t].
      * exists []. cbn in *. auto.
      * exists (k :: removelast (x :: t)). rewrite <- app_comm_cons, <- (last_ne_split (x :: t)) by discriminate.
        split; [|cbn [occurrences_from]; auto]. cbn [length]. cbn [length] in Hl.
        pose proof (f_equal (@length _) (last_ne_split (x :: t) k ltac:(discriminate))) as Hx.
        rewrite app_length in Hx. cbn [length] in Hx. lia.
    + intros (is & Hl & Ho). destruct is as [|k' is].
      * destruct Ho as [Hi _]. exists []. cbn in *. repeat split; auto.
        eapply first_occurrence_fun; eauto.
      * destruct Ho as [Hk' Ho]. rewrite (first_occurrence_fun _ _ _ _ _ E Hk').
        exists (is ++ [i]). rewrite app_length. cbn in *. split; [lia|]. split; [exact Ho|].
        symmetry. apply last_app_one.
  - rewrite find_nth_loop_none. split; [discriminate|].
    intros (is & Hl & Ho). destruct is as [|k is]; destruct Ho as [Hk _]; apply find_some in Hk; congruence.
Qed.

Lemma substr_after a c b : substr (a ++ c :: b) (length a + 1) None = Ok b.
Proof.
  replace (a ++ c :: b) with ((a ++ [c]) ++ b) by (rewrite <- app_assoc; reflexivity).
  replace (length a + 1) with (length (a ++ [c])) by (rewrite app_length; reflexivity). apply substr_end.
Qed.

(** ** Trimming *)

Lemma Forall_app_iff {A} (P : A -> Prop) l1 l2 : Forall P (l1 ++ l2) <-> Forall P l1 /\ Forall P l2.
Proof. apply Forall_app. Qed.

Lemma trim_left_ok s chars : exists t, trim_left_str s chars = Ok t /\ trimmed_left (one_of chars) s t.
Proof.
  unfold trim_left_str, find_first_not_of. cbn [skipn].
  destruct (index_from _ s 0) as [i|] eqn:E.
  - apply index_from_some in E. destruct E as (a & c & b & -> & -> & Hc & Ha). cbn [Nat.add].
    exists (c :: b). rewrite substr_end. split; [reflexivity|]. exists a. split; [reflexivity|].
    split; [apply Forall_negb_in_set in Ha; exact Ha|]. intros c' r [= -> ->].
    apply negb_true_iff, in_set_not_In in Hc. exact Hc.
  - exists []. split; [reflexivity|]. exists s. rewrite app_nil_r. split; [reflexivity|].
    split; [apply index_from_none, Forall_negb_in_set in E; exact E|discriminate].
Qed.

Lemma find_last_not_of_spec s set :
  (Forall (one_of set) s /\ find_last_not_of s set = None) \/
  (exists a c b, s = a ++ c :: b /\ ~ one_of set c /\ Forall (one_of set) b /\ find_last_not_of s set = Some (length a)).
Proof.
  unfold find_last_not_of. destruct (last_from_spec (fun c => negb (in_set set c)) s 0 None) as [[H E]|(a & c & b & -> & Hc & Hb & E)].
  - left. split; [apply Forall_negb_in_set in H; exact H|exact E].
  - right. exists a, c, b. split; [reflexivity|].
    split; [apply negb_true_iff, in_set_not_In in Hc; exact Hc|].
    split; [apply Forall_negb_in_set in Hb; exact Hb|exact E].
Qed.

Lemma find_last_of_spec s set :
  (Forall (fun c => ~ one_of set c) s /\ find_last_of s set = None) \/
  (exists a c b, s = a ++ c :: b /\ one_of set c /\ Forall (fun c => ~ one_of set c) b /\ find_last_of s set = Some (length a)).
Proof.
  unfold find_last_of. destruct (last_from_spec (in_set set) s 0 None) as [[H E]|(a & c & b & -> & Hc & Hb & E)].
  - left. split; [apply Forall_in_set_false in H; exact H|exact E].
  - right. exists a, c, b. split; [reflexivity|].
    split; [apply in_set_In in Hc; exact Hc|].
    split; [apply Forall_in_set_false in Hb; exact Hb|exact E].
Qed.

Lemma find_first_of_spec s set :
  (Forall (fun c => ~ one_of set c) s /\ find_first_of s set 0 = None) \/
  (exists a c b, s = a ++ c :: b /\ one_of set c /\ Forall (fun c => ~ one_of set c) a /\ find_first_of s set 0 = Some (length a)).
Proof.
  unfold find_first_of. cbn [skipn]. destruct (index_from (in_set set) s 0) as [i|] eqn:E.
  - right. apply index_from_some in E. destruct E as (a & c & b & -> & -> & Hc & Ha).
    exists a, c, b. apply in_set_In in Hc. apply Forall_in_set_false in Ha. auto.
  - left. split; [|reflexivity]. apply index_from_none, Forall_in_set_false in E. exact E.
Qed.

Lemma trim_right_ok s chars : exists t, trim_right_str s chars = Ok t /\ trimmed_right (one_of chars) s t.
Proof.
  unfold trim_right_str. destruct (find_last_not_of_spec s chars) as [[H ->]|(a & c & b & -> & Hc & Hb & ->)].
  - exists []. unfold substr. cbn. split; [reflexivity|]. exists s. split; [reflexivity|].
    split; [exact H|]. intros c r E. destruct r; discriminate.
  - exists (a ++ [c]). replace (a ++ c :: b) with ((a ++ [c]) ++ b) by (rewrite <- app_assoc; reflexivity).
    replace (1 + length a) with (length (a ++ [c])) by (rewrite app_length; cbn; lia).
    rewrite substr_front. split; [reflexivity|]. exists b. split; [reflexivity|]. split; [exact Hb|].
    intros c' r E. apply app_inj_tail in E. destruct E as [_ <-]. exact Hc.
Qed.

Lemma trim_ok s chars : exists t u, trim_str s chars = Ok t /\
  trimmed_left (one_of chars) s u /\ trimmed_right (one_of chars) u t.
Proof.
  unfold trim_str, find_first_not_of. cbn [skipn].
  destruct (index_from _ s 0) as [i|] eqn:E.
  - apply index_from_some in E. destruct E as (a & c & b & -> & -> & Hc & Ha). cbn [Nat.add].
    apply negb_true_iff, in_set_not_In in Hc. apply Forall_negb_in_set in Ha.
    destruct (find_last_not_of_spec (a ++ c :: b) chars) as [[H E2]|(a' & c' & b' & Es & Hc' & Hb' & ->)].
    + apply Forall_app_iff in H. destruct H as [_ H]. inversion H; contradiction.
    + (* a is a prefix of a' ++ [c'] *)
      assert (Hlen : length a <= length a').
      { destruct (le_lt_dec (length a) (length a')) as [|Hlt]; [assumption|exfalso].
        pose proof (f_equal (fun l => nth_error l (length a')) Es) as Hn. cbn in Hn.
        rewrite nth_error_app1 in Hn by lia. rewrite nth_error_app2, Nat.sub_diag in Hn by lia. cbn in Hn.
        apply nth_error_In in Hn. rewrite Forall_forall in Ha. apply Hc'. apply Ha. exact Hn. }
      exists (firstn (1 + length a' - length a) (c :: b)), (c :: b).
      split.
      { unfold substr. rewrite app_length. replace (length a <=? _) with true by lia.
        rewrite skipn_length_app. reflexivity. }
      split.
      { exists a. split; [reflexivity|]. split; [exact Ha|]. intros ? ? [= -> ->]. exact Hc. }
      assert (Hcb : c :: b = skipn (length a) (a' ++ [c']) ++ b').
      { pose proof (f_equal (skipn (length a)) Es) as Hs. rewrite skipn_length_app in Hs.
        replace (a' ++ c' :: b') with ((a' ++ [c']) ++ b') in Hs by (rewrite <- app_assoc; reflexivity).
        rewrite skipn_app in Hs. rewrite Hs. rewrite app_length. cbn [length].
        replace (length a - (length a' + 1)) with 0 by lia. reflexivity. }
      rewrite Hcb.
      assert (Hl2 : length (skipn (length a) (a' ++ [c'])) = 1 + length a' - length a).
      { rewrite skipn_length, app_length. cbn [length]. lia. }
      rewrite <- Hl2, firstn_length_app. exists b'. split; [reflexivity|]. split; [exact Hb'|].
      intros x r Ex. rewrite skipn_app in Ex.
      replace (length a - length a') with 0 in Ex by lia. cbn [skipn] in Ex.
      apply app_inj_tail in Ex. destruct Ex as [_ <-]. exact Hc'.
  - exists [], []. apply index_from_none, Forall_negb_in_set in E. split; [reflexivity|]. split.
    + exists s. rewrite app_nil_r. split; [reflexivity|]. split; [exact E|discriminate].
    + exists []. split; [reflexivity|]. split; [constructor|]. intros c r Er. destruct r; discriminate.
Qed.

(** ** Splitting *)

Lemma split_prefix {A} (P : A -> Prop) (a1 a2 : list A) c1 c2 b1 b2 :
  a1 ++ c1 :: b1 = a2 ++ c2 :: b2 ->
  Forall P a1 -> ~ P c1 -> Forall P a2 -> ~ P c2 -> a1 = a2 /\ c1 = c2 /\ b1 = b2.
Proof.
  revert a2; induction a1 as [|x a1 IH]; intros [|y a2] E H1 N1 H2 N2; cbn in E.
  - injection E as -> ->. auto.
  - injection E as -> ->. exfalso. inversion H2; contradiction.
  - injection E as -> <-. exfalso. inversion H1; contradiction.
  - injection E as -> E. inversion H1; inversion H2; subst.
    destruct (IH a2 E) as (-> & -> & ->); auto.
Qed.

Lemma pieces_fun {A} (sep : A -> Prop) s ps qs : pieces sep s ps -> pieces sep s qs -> ps = qs.
Proof.
  intros H. revert qs. induction H as [s Hs|s p Hs Hp Hn|s p c r ps Hs Hp Hn Hc Hr IH]; intros qs H2.
  - inversion H2 as [? ?|s' p' Hs' Hp' Hn'|s' p' c' r' ps' Hs' Hp' Hn' Hc' Hr']; subst; [reflexivity| |].
    + exfalso. apply Forall_app_iff in Hs. destruct Hs as [_ Hs]. destruct p'; [congruence|].
      inversion Hs; inversion Hn'; contradiction.
    + exfalso. apply Forall_app_iff in Hs. destruct Hs as [_ Hs]. destruct p'; [congruence|].
      inversion Hs; inversion Hn'; contradiction.
  - destruct p as [|x p]; [congruence|].
    inversion H2 as [? Hs'|s' p' Hs' Hp' Hn' E|s' p' c' r' ps' Hs' Hp' Hn' Hc' Hr' E]; subst.
    + exfalso. apply Forall_app_iff in Hs'. destruct Hs' as [_ Hs']. inversion Hs'; inversion Hn; contradiction.
    + destruct p' as [|x' p']; [congruence|].
      destruct (split_prefix sep _ _ _ _ _ _ E Hs') as (-> & -> & ->); auto.
      * inversion Hn'; auto.
      * inversion Hn; auto.
    + destruct p' as [|x' p']; [congruence|]. exfalso.
      destruct (split_prefix sep s' s x' x (p' ++ c' :: r') p) as (-> & -> & <-); auto.
      * inversion Hn'; auto.
      * inversion Hn; auto.
      * inversion Hn as [|? ? _ Hf]; subst. apply Forall_app_iff in Hf. destruct Hf as [_ Hf]. inversion Hf; contradiction.
  - destruct p as [|x p]; [congruence|].
    inversion H2 as [? Hs'|s' p' Hs' Hp' Hn' E|s' p' c' r' ps' Hs' Hp' Hn' Hc' Hr' E]; subst.
    + exfalso. apply Forall_app_iff in Hs'. destruct Hs' as [_ Hs']. inversion Hs'; inversion Hn; contradiction.
    + destruct p' as [|x' p']; [congruence|]. exfalso.
      destruct (split_prefix sep s' s x' x p' (p ++ c :: r)) as (-> & -> & ->); auto.
      * inversion Hn'; auto.
      * inversion Hn; auto.
      * inversion Hn' as [|? ? _ Hf]; subst. apply Forall_app_iff in Hf. destruct Hf as [_ Hf]. inversion Hf; contradiction.
    + destruct p' as [|x' p']; [congruence|].
      destruct (split_prefix sep s' s x' x (p' ++ c' :: r') (p ++ c :: r)) as (-> & -> & E2); auto.
      { inversion Hn'; auto. }
      { inversion Hn; auto. }
      assert (Hx : p' = p /\ c' = c /\ r' = r).
      { apply (split_prefix (fun z => ~ sep z)); auto; inversion Hn; inversion Hn'; auto. }
      destruct Hx as (-> & -> & ->). f_equal. apply IH. exact Hr'.
Qed.

Lemma split_loop_ok seps n : forall fuel pre rest acc,
  length rest <= n -> length rest < fuel ->
  exists ps, split_loop fuel (pre ++ rest) seps (find_first_not_of (pre ++ rest) seps (length pre)) acc = Ok (acc ++ ps) /\
    pieces (one_of seps) rest ps.
Proof.
  induction n as [n IH] using lt_wf_ind. intros fuel pre rest acc Hn Hf.
  rewrite find_first_not_of_app.
  destruct (index_from _ rest (length pre)) as [i|] eqn:E.
  - apply index_from_some in E. destruct E as (a & c & b & -> & -> & Hc & Ha).
    apply negb_true_iff, in_set_not_In in Hc. apply Forall_negb_in_set in Ha.
    destruct fuel as [|fuel]; [lia|]. cbn [split_loop].
    replace (length pre + length a) with (length (pre ++ a)) by apply app_length.
    replace (pre ++ a ++ c :: b) with ((pre ++ a) ++ c :: b) by (rewrite app_assoc; reflexivity).
    rewrite find_first_of_app.
    destruct (index_from (in_set seps) (c :: b) _) as [e|] eqn:E2.
    + apply index_from_some in E2. destruct E2 as (p & d & r & E3 & -> & Hd & Hp).
      apply in_set_In in Hd. apply Forall_in_set_false in Hp.
      destruct p as [|x p]; [injection E3 as -> _; contradiction|]. injection E3 as <- ->.
      replace (length (pre ++ a) + length (c :: p) - length (pre ++ a)) with (length (c :: p)) by lia.
      change (c :: p ++ d :: r) with ((c :: p) ++ d :: r). rewrite substr_mid. cbn [obind].
      replace (length (pre ++ a) + length (c :: p)) with (length ((pre ++ a) ++ (c :: p))) by (rewrite (app_length (pre ++ a)); reflexivity).
      replace ((pre ++ a) ++ (c :: p) ++ d :: r) with (((pre ++ a) ++ c :: p) ++ d :: r) by (rewrite <- app_assoc; reflexivity).
      assert (Hlen : length (d :: r) < length (a ++ c :: p ++ d :: r)).
      { rewrite app_length. cbn [length]. rewrite app_length. cbn [length]. lia. }
      cbn [app] in Hn, Hf.
      destruct (IH (length (d :: r)) ltac:(lia) fuel ((pre ++ a) ++ c :: p) (d :: r) (acc ++ [c :: p]))
        as (ps & Hl & Hps); [lia|lia|].
      exists ((c :: p) :: ps). split.
      * etransitivity; [exact Hl|]. rewrite <- app_assoc. reflexivity.
      * change (a ++ c :: p ++ d :: r) with (a ++ (c :: p) ++ d :: r). constructor; auto. discriminate.
    + apply index_from_none, Forall_in_set_false in E2.
      rewrite substr_end. cbn [obind]. exists [c :: b]. split.
      * destruct fuel; reflexivity.
      * apply pieces_last; auto. discriminate.
  - exists []. rewrite app_nil_r. apply index_from_none, Forall_negb_in_set in E. split.
    + destruct fuel; reflexivity.
    + constructor. exact E.
Qed.

Lemma split_str_ok s seps : ~ In nul seps -> exists ps, split_str s seps = Ok ps /\ pieces (one_of seps) s ps.
Proof.
  intros H. unfold split_str. rewrite c_str_id by exact H.
  destruct (split_loop_ok seps (length s) (S (length s)) [] s []) as (ps & E & Hp); [lia|lia|].
  exists ps. split; [exact E|exact Hp].
Qed.

Lemma split_str_iff s seps ps : ~ In nul seps -> (split_str s seps = Ok ps <-> pieces (one_of seps) s ps).
Proof.
  intros H. destruct (split_str_ok s seps H) as (qs & E & Hq). rewrite E. split.
  - intros [= <-]. exact Hq.
  - intros Hp. rewrite (pieces_fun _ _ _ _ Hp Hq). reflexivity.
Qed.

Lemma pieces_lead {A} (sep : A -> Prop) d s ps : Forall sep d -> pieces sep s ps -> pieces sep (d ++ s) ps.
Proof.
  intros Hd H. inversion H as [? Hs|s' p Hs Hp Hn|s' p c r ps' Hs Hp Hn Hc Hr]; subst.
  - constructor. apply Forall_app_iff. auto.
  - rewrite app_assoc. constructor; auto. apply Forall_app_iff. auto.
  - rewrite app_assoc. constructor; auto. apply Forall_app_iff. auto.
Qed.

Lemma pieces_join {A} (sep : A -> Prop) d l :
  d <> [] -> Forall sep d -> Forall (fun p => p <> [] /\ Forall (fun c => ~ sep c) p) l ->
  pieces sep (join d l) l.
Proof.
  intros Hd Hs. induction l as [|p l IH]; intros H.
  - constructor. constructor.
  - inversion H as [|? ? [Hp Hn] Hl]; subst. specialize (IH Hl). cbn [join].
    destruct l as [|q l].
    + apply (pieces_last sep [] p); auto.
    + destruct d as [|c d]; [congruence|].
      apply (pieces_cons sep [] p c (d ++ join (c :: d) (q :: l)) (q :: l)); auto.
      * inversion Hs; auto.
      * apply (pieces_lead sep (c :: d)); auto.
Qed.

Lemma split_join (l : list str) (d seps : str) :
  ~ In nul seps -> d <> [] -> Forall (one_of seps) d ->
  Forall (fun p => p <> [] /\ Forall (fun c => ~ one_of seps c) p) l ->
  split_str (join d l) seps = Ok l.
Proof. intros H Hd Hs Hl. apply split_str_iff; [exact H|]. apply pieces_join; assumption. Qed.

Lemma split_first_ok s seps a b : ~ In nul seps ->
  (split_str_at_first s seps = Ok (a, b) <->
   (exists c, s = a ++ c :: b /\ one_of seps c /\ Forall (fun x => ~ one_of seps x) a) \/
   (Forall (fun x => ~ one_of seps x) s /\ a = s /\ b = [])).
Proof.
  intros H. unfold split_str_at_first. rewrite c_str_id by exact H.
  destruct (find_first_of_spec s seps) as [[Hs ->]|(a' & c' & b' & -> & Hc & Ha & ->)].
  - split.
    + intros [= <- <-]. right. auto.
    + intros [(c & -> & Hc & _)|(_ & -> & ->)]; [|reflexivity].
      exfalso. apply Forall_app_iff in Hs. destruct Hs as [_ Hs]. inversion Hs; contradiction.
  - rewrite substr_front. cbn [obind].
    replace (a' ++ c' :: b') with ((a' ++ [c']) ++ b') at 1 by (rewrite <- app_assoc; reflexivity).
    replace (length a' + 1) with (length (a' ++ [c'])) by (rewrite app_length; reflexivity).
    rewrite substr_end. cbn [obind]. split.
    + intros [= <- <-]. left. exists c'. auto.
    + intros [(c & E & Hc2 & Ha2)|(Hs & -> & ->)].
      * destruct (split_prefix (fun x => ~ one_of seps x) _ _ _ _ _ _ E) as (-> & _ & ->); auto.
      * exfalso. apply Forall_app_iff in Hs. destruct Hs as [_ Hs]. inversion Hs; contradiction.
Qed.

Lemma split_suffix {A} (P : A -> Prop) (a1 a2 : list A) c1 c2 b1 b2 :
  a1 ++ c1 :: b1 = a2 ++ c2 :: b2 ->
  Forall P b1 -> ~ P c1 -> Forall P b2 -> ~ P c2 -> a1 = a2 /\ c1 = c2 /\ b1 = b2.
Proof.
  intros E H1 N1 H2 N2. apply (f_equal (@rev A)) in E. rewrite !rev_app_distr in E. cbn in E. rewrite <- !app_assoc in E. cbn in E.
  destruct (split_prefix P _ _ _ _ _ _ E) as (Eb & -> & Ea); auto using Forall_rev.
  apply (f_equal (@rev A)) in Ea, Eb. rewrite !rev_involutive in *. auto.
Qed.

Lemma split_last_ok s seps a b : ~ In nul seps ->
  (split_str_at_last s seps = Ok (a, b) <->
   (exists c, s = a ++ c :: b /\ one_of seps c /\ Forall (fun x => ~ one_of seps x) b) \/
   (Forall (fun x => ~ one_of seps x) s /\ a = s /\ b = [])).
Proof.
  intros H. unfold split_str_at_last. rewrite c_str_id by exact H.
  destruct (find_last_of_spec s seps) as [[Hs ->]|(a' & c' & b' & -> & Hc & Ha & ->)].
  - split.
    + intros [= <- <-]. right. auto.
    + intros [(c & -> & Hc & _)|(_ & -> & ->)]; [|reflexivity].
      exfalso. apply Forall_app_iff in Hs. destruct Hs as [_ Hs]. inversion Hs; contradiction.
  - rewrite substr_front. cbn [obind].
    replace (a' ++ c' :: b') with ((a' ++ [c']) ++ b') at 1 by (rewrite <- app_assoc; reflexivity).
    replace (length a' + 1) with (length (a' ++ [c'])) by (rewrite app_length; reflexivity).
    rewrite substr_end. cbn [obind]. split.
    + intros [= <- <-]. left. exists c'. auto.
    + intros [(c & E & Hc2 & Ha2)|(Hs & -> & ->)].
      * destruct (split_suffix (fun x => ~ one_of seps x) _ _ _ _ _ _ E) as (-> & _ & ->); auto.
      * exfalso. apply Forall_app_iff in Hs. destruct Hs as [_ Hs]. inversion Hs; contradiction.
Qed.

(** ** Replacing *)

Lemma app_length_inj {A} (a b c d : list A) : length a = length c -> a ++ b = c ++ d -> a = c /\ b = d.
Proof.
  revert c; induction a as [|x a IH]; intros [|y c] Hl E; cbn in *; try discriminate.
  - auto.
  - injection E as -> E. destruct (IH c) as [-> ->]; auto.
Qed.

Lemma replaced_fun {A} (f w s r1 r2 : list A) : replaced f w s r1 -> replaced f w s r2 -> r1 = r2.
Proof.
  intros H. revert r2. induction H as [s Hn|a b r Ho Hr IH]; intros r2 H2.
  - inversion H2 as [? ?|a b r Ho Hr]; subst; [reflexivity|].
    exfalso. destruct Ho as (_ & Ho & _). apply (Hn _ Ho).
  - inversion H2 as [? Hn|a' b' r' Ho' Hr' E]; subst.
    + exfalso. destruct Ho as (_ & Ho & _). apply (Hn _ Ho).
    + rewrite E in Ho'. pose proof (first_occurrence_fun _ _ _ _ _ Ho Ho') as Hl.
      destruct (app_length_inj _ _ _ _ (eq_sym Hl) E) as [-> E2].
      destruct (app_length_inj _ _ _ _ eq_refl E2) as [_ ->].
      rewrite (IH _ Hr'). reflexivity.
Qed.

Lemma replace_loop_ok f w n : f <> [] -> forall fuel pre rest,
  length rest <= n -> length rest < fuel ->
  exists r, replace_loop fuel (pre ++ rest) f w (find (pre ++ rest) f (length pre)) = Ok (pre ++ r) /\ replaced f w rest r.
Proof.
  intros Hf0. induction n as [n IH] using lt_wf_ind. intros fuel pre rest Hn Hf.
  rewrite find_app. destruct (find_at rest f (length pre)) as [i|] eqn:E.
  - apply find_at_some in E. destruct E as (k & -> & (a & b & -> & <-) & Hm).
    destruct fuel as [|fuel]; [lia|]. cbn [replace_loop].
    assert (Hr : replace_at (pre ++ a ++ f ++ b) (length pre + length a) (length f) w = (pre ++ a ++ w) ++ b).
    { unfold replace_at. rewrite <- app_length.
      replace (pre ++ a ++ f ++ b) with ((pre ++ a) ++ f ++ b) by (rewrite <- app_assoc; reflexivity).
      rewrite firstn_length_app, <- app_length.
      replace ((pre ++ a) ++ f ++ b) with (((pre ++ a) ++ f) ++ b) by (rewrite <- !app_assoc; reflexivity).
      rewrite skipn_length_app, <- !app_assoc. reflexivity. }
    rewrite Hr. replace (length pre + length a + length w) with (length (pre ++ a ++ w)) by (rewrite !app_length; lia).
    rewrite !app_length in Hn, Hf. assert (0 < length f) by (destruct f; [congruence|cbn; lia]).
    destruct (IH (length b) ltac:(lia) fuel (pre ++ a ++ w) b) as (r & El & Hrep); [lia|lia|].
    exists (a ++ w ++ r). split.
    + rewrite El, <- !app_assoc. reflexivity.
    + constructor; [|exact Hrep]. split; [lia|]. split; [exists a, b; auto|]. intros j Hj. apply Hm. lia.
  - exists rest. split; [destruct fuel; reflexivity|]. constructor. apply (find_at_none _ _ _ E).
Qed.

Lemma replace_str_iff s f w r : f <> [] -> (replace_str s f w = Ok r <-> replaced f w s r).
Proof.
  intros Hf. destruct (replace_loop_ok f w (length s) Hf (S (length s)) [] s) as (q & E & Hq); [lia|lia|].
  cbn [app length] in E. unfold replace_str. destruct f as [|c f]; [congruence|]. rewrite E. split.
  - intros [= <-]. exact Hq.
  - intros Hr. rewrite (replaced_fun _ _ _ _ _ Hr Hq). reflexivity.
Qed.

Lemma replace_str_total s f w : f <> [] -> exists r, replace_str s f w = Ok r.
Proof.
  intros Hf. destruct (replace_loop_ok f w (length s) Hf (S (length s)) [] s) as (q & E & Hq); [lia|lia|].
  exists q. unfold replace_str. destruct f as [|c f]; [congruence|]. exact E.
Qed.

(** ** Quoting *)

Lemma ascii_cases (P : ascii -> Prop) : (forall n, n < 256 -> P (ascii_of_nat n)) -> forall c, P c.
Proof. intros H c. rewrite <- (ascii_nat_embedding c). apply H. apply nat_ascii_bounded. Qed.

Lemma forall_bytes (P : ascii -> bool) : forallb (fun n => P (ascii_of_nat n)) (seq 0 256) = true -> forall c, P c = true.
Proof.
  intros H. apply (ascii_cases (fun c => P c = true)). intros n Hn. rewrite forallb_forall in H. apply H. apply in_seq. lia.
Qed.

Definition quote_char (c : ascii) : str :=
  if Ascii.eqb c dquote || Ascii.eqb c bslash || (char_z c <? 32)%Z then encode_char c else [c].

(** what decoding makes of an encoded character *)
Definition decoded (c : ascii) : str :=
  let n := nat_of_ascii c in
  if n =? 0 then ["?"%char] else if n <? 128 then [c] else "?"%char :: skipn 4 (quote_char c).

Lemma unquote_plain f c t out : Ascii.eqb c dquote = false -> Ascii.eqb c bslash = false ->
  unquote_loop (S f) (c :: t) out = unquote_loop f t (out ++ [c]).
Proof. intros H1 H2. cbn [unquote_loop]. rewrite H1, H2. reflexivity. Qed.

Lemma unquote_escape f t out d n : decode_char (bslash :: t) = Ok (d, S n) ->
  unquote_loop (S f) (bslash :: t) out = unquote_loop f (skipn n t) (out ++ [d]).
Proof.
  intros H. cbn [unquote_loop]. replace (Ascii.eqb bslash dquote) with false by reflexivity.
  rewrite Ascii.eqb_refl, H. reflexivity.
Qed.

Definition is_octal (c : ascii) : bool := ((48 <=? N_of_ascii c) && (N_of_ascii c <? 56))%N.

Lemma is_octal_plain c : is_octal c = true ->
  Ascii.eqb c nul = false /\ Ascii.eqb c bslash = false /\ Ascii.eqb c dquote = false /\
  Ascii.eqb c "r" = false /\ Ascii.eqb c "n" = false /\ Ascii.eqb c "t" = false.
Proof. destruct c as [[] [] [] [] [] [] [] []]; vm_compute; intros H; try discriminate H; repeat split. Qed.

Lemma decode_octal a b c t : is_octal a = true -> is_octal b = true -> is_octal c = true ->
  decode_char (bslash :: a :: b :: c :: t) =
  let value := (((N_of_ascii a - 48) * 8 + (N_of_ascii b - 48)) * 8 + (N_of_ascii c - 48))%N in
  if ((0 <? value) && (value <? 32))%N then Ok (ascii_of_N value, 4) else Ok ("?"%char, 4).
Proof.
  intros Ha Hb Hc. destruct (is_octal_plain a Ha) as (E1 & E2 & E3 & E4 & E5 & E6).
  unfold decode_char. rewrite Ascii.eqb_refl. cbn [negb]. rewrite E1, E2, E3, E4, E5, E6.
  replace (Nat.min (length (a :: b :: c :: t)) 3) with 3 by (cbn [length]; lia).
  unfold is_octal in *. cbn [read_octal]. rewrite Ha, Hb, Hc. reflexivity.
Qed.

Lemma unquote_char c f t out :
  unquote_loop (length (decoded c) + f) (quote_char c ++ t) out = unquote_loop f t (out ++ decoded c).
Proof.
  destruct c as [[] [] [] [] [] [] [] []];
  match goal with |- context [quote_char ?c] =>
    let q := eval vm_compute in (quote_char c) in change (quote_char c) with q;
    let d := eval vm_compute in (decoded c) in change (decoded c) with d end;
  cbn [app length Nat.add];
  change "\"%char with bslash;
  first [ rewrite unquote_plain by reflexivity; reflexivity
        | erewrite (unquote_escape _ (_ :: t)) by reflexivity; reflexivity
        | erewrite unquote_escape by (rewrite decode_octal by reflexivity; reflexivity);
          cbn [skipn]; rewrite ?unquote_plain by reflexivity; rewrite <- ?app_assoc; reflexivity ].
Qed.

Lemma unquote_loop_mono f r out x : unquote_loop f r out = Ok x -> forall f', f <= f' -> unquote_loop f' r out = Ok x.
Proof.
  revert r out; induction f as [|f IH]; intros r out H f' Hf; [discriminate|].
  destruct f' as [|f']; [lia|]. cbn [unquote_loop] in *.
  destruct r as [|c t]; [discriminate|]. destruct (Ascii.eqb c dquote); [exact H|].
  destruct (Ascii.eqb c bslash).
  - destruct (decode_char (c :: t)) as [[d n]| |]; cbn [obind fst snd] in *; try discriminate.
    destruct n; [discriminate|]. apply IH; [exact H|lia].
  - apply IH; [exact H|lia].
Qed.

Lemma decoded_length c : length (decoded c) <= length (quote_char c).
Proof. destruct c as [[] [] [] [] [] [] [] []]; vm_compute; lia. Qed.

Lemma decoded_pos c : 1 <= length (decoded c).
Proof. unfold decoded. destruct (_ =? 0); [cbn; lia|]. destruct (_ <? 128); cbn; lia. Qed.

Lemma unquote_all s : forall f out, length (flat_map decoded s) < f ->
  unquote_loop f (flat_map quote_char s ++ [dquote]) out = Ok (out ++ flat_map decoded s).
Proof.
  induction s as [|c s IH]; intros f out Hf; cbn [flat_map].
  - destruct f as [|f]; [cbn in Hf; lia|]. rewrite app_nil_r. reflexivity.
  - cbn [flat_map] in Hf. rewrite app_length in Hf.
    replace f with (length (decoded c) + (f - length (decoded c))) by lia.
    rewrite <- app_assoc, unquote_char, IH by lia. rewrite <- app_assoc. reflexivity.
Qed.

Lemma flat_map_length_le {A B} (f g : A -> list B) s : (forall c, length (f c) <= length (g c)) ->
  length (flat_map f s) <= length (flat_map g s).
Proof. intros H. induction s as [|c s IH]; cbn; [lia|]. rewrite !app_length. specialize (H c). lia. Qed.

Lemma last_snoc {A} (l : list A) x d : last (l ++ [x]) d = x.
Proof. apply last_last. Qed.

Lemma unquote_quoted s : try_unquoted (quoted s) = Ok (flat_map decoded s).
Proof.
  change (quoted s) with (dquote :: flat_map quote_char s ++ [dquote]). unfold try_unquoted.
  rewrite Ascii.eqb_refl. rewrite app_comm_cons, last_snoc, Ascii.eqb_refl. cbn [negb orb].
  apply unquote_all. cbn [app length]. rewrite app_length. cbn [length].
  pose proof (flat_map_length_le decoded quote_char s decoded_length). lia.
Qed.

Lemma decoded_id c : decoded c = [c] <-> seven_bit c.
Proof.
  unfold seven_bit, decoded. split.
  - destruct (nat_of_ascii c =? 0) eqn:E0.
    + intros [= <-]. cbn in E0. discriminate.
    + destruct (nat_of_ascii c <? 128) eqn:E1; [lia|].
      intros H. apply (f_equal (hd nul)) in H. cbn [hd] in H. rewrite <- H in E1. discriminate.
  - intros H. replace (nat_of_ascii c =? 0) with false by lia. replace (nat_of_ascii c <? 128) with true by lia. reflexivity.
Qed.

Lemma flat_map_length_ge {A B} (f : A -> list B) s : (forall c, 1 <= length (f c)) -> length s <= length (flat_map f s).
Proof. intros H. induction s as [|c s IH]; cbn; [lia|]. rewrite app_length. specialize (H c). lia. Qed.

Lemma decoded_all s : flat_map decoded s = s <-> Forall seven_bit s.
Proof.
  split.
  - induction s as [|c s IH]; intros H; constructor.
    + cbn [flat_map] in H. pose proof (f_equal (@length _) H) as Hl. rewrite app_length in Hl. cbn [length] in Hl.
      pose proof (decoded_pos c). pose proof (flat_map_length_ge decoded s decoded_pos).
      destruct (decoded c) as [|x [|y u]] eqn:E; cbn in *; try lia.
      injection H as -> H. apply decoded_id. exact E.
    + apply IH. cbn [flat_map] in H. pose proof (f_equal (@length _) H) as Hl. rewrite app_length in Hl. cbn [length] in Hl.
      pose proof (decoded_pos c). pose proof (flat_map_length_ge decoded s decoded_pos).
      destruct (decoded c) as [|x [|y u]] eqn:E; cbn in *; try lia.
      injection H as -> H. exact H.
  - induction 1 as [|c s Hc Hs IH]; [reflexivity|]. cbn [flat_map]. rewrite IH.
    apply decoded_id in Hc. rewrite Hc. reflexivity.
Qed.

Lemma quote_roundtrip s : try_unquoted (quoted s) = Ok s <-> Forall seven_bit s.
Proof.
  rewrite unquote_quoted. rewrite <- decoded_all. split; [intros [= H]; exact H|intros ->; reflexivity].
Qed.

Lemma char_z_seven_bit c : (33 <= char_z c)%Z -> seven_bit c.
Proof.
  pose proof (forall_bytes (fun c => negb (33 <=? char_z c)%Z || ((1 <=? nat_of_ascii c) && (nat_of_ascii c <=? 127)))
    ltac:(vm_compute; reflexivity) c) as H. cbn beta in H. intros Hc. unfold seven_bit.
  apply orb_true_iff in H. destruct H as [H|H]; [lia|]. apply andb_true_iff in H. destruct H. lia.
Qed.

Lemma try_quote_roundtrip s sp : try_unquoted (try_quoted s sp) = Ok s <-> Forall seven_bit s.
Proof.
  unfold try_quoted. destruct (needs_quotes s sp) eqn:E; [apply quote_roundtrip|].
  unfold needs_quotes in E. apply orb_false_iff in E. destruct E as [E1 E2].
  assert (H : Forall (fun c => (33 <= char_z c)%Z /\ Ascii.eqb c dquote = false) s).
  { clear E2. induction s as [|c s IH]; constructor; cbn [existsb] in E1; apply orb_false_iff in E1; destruct E1 as [H1 H2].
    - apply orb_false_iff in H1. destruct H1 as [H1 _]. apply orb_false_iff in H1. destruct H1. split; [lia|assumption].
    - apply IH, H2. }
  split.
  - intros _. revert H. apply Forall_impl. intros c [H _]. apply char_z_seven_bit, H.
  - intros _. destruct s as [|c t]; [discriminate|]. cbn [try_unquoted].
    inversion H as [|? ? [_ Hc] _]; subst. rewrite Hc. reflexivity.
Qed.

Lemma quoted_printable s : Forall (fun c => (32 <= char_z c)%Z) (quoted s).
Proof.
  change (quoted s) with (dquote :: flat_map quote_char s ++ [dquote]).
  constructor; [vm_compute; discriminate|]. apply Forall_app_iff. split.
  - apply Forall_flat_map. apply Forall_forall. intros c _.
    pose proof (forall_bytes (fun c => forallb (fun d => 32 <=? char_z d)%Z (quote_char c))
      ltac:(vm_compute; reflexivity) c) as H. cbn beta in H. rewrite forallb_forall in H.
    apply Forall_forall. intros d Hd. specialize (H d Hd). lia.
  - constructor; [vm_compute; discriminate|constructor].
Qed.

Lemma quoting_assembled (s sp : str) :
  (try_unquoted (quoted s) = Ok s <-> Forall seven_bit s) /\
  (try_unquoted (try_quoted s sp) = Ok s <-> Forall seven_bit s) /\
  (exists t, try_unquoted (quoted s) = Ok t) /\
  Forall (fun c => (32 <= char_z c)%Z) (quoted s).
Proof.
  split; [apply quote_roundtrip|]. split; [apply try_quote_roundtrip|].
  split; [exists (flat_map decoded s); apply unquote_quoted|apply quoted_printable].
Qed.

(** ** Joining *)

Lemma join_cons {A} (d x : list A) l : join d (x :: l) = x ++ flat_map (fun e => d ++ e) l.
Proof.
  revert x; induction l as [|y l IH]; intros x.
  - cbn. rewrite app_nil_r. reflexivity.
  - change (join d (x :: y :: l)) with (x ++ d ++ join d (y :: l)). rewrite IH. cbn [flat_map].
    rewrite <- app_assoc. reflexivity.
Qed.

Lemma concat_loop_ok l d acc first : (first = true -> acc = []) ->
  concat_loop l d first acc =
  if first then join d (filter (fun e => negb (str_eqb e [])) l)
  else acc ++ flat_map (fun e => d ++ e) (filter (fun e => negb (str_eqb e [])) l).
Proof.
  revert acc first; induction l as [|e l IH]; intros acc first H; cbn [concat_loop filter].
  - destruct first; [apply H; reflexivity|]. cbn. rewrite app_nil_r. reflexivity.
  - destruct e as [|c e]; [cbn [str_eqb negb]; apply IH, H|]. cbn [str_eqb negb]. rewrite IH by discriminate.
    destruct first.
    + rewrite H by reflexivity. symmetry. etransitivity; [apply join_cons|]. reflexivity.
    + cbn [flat_map]. rewrite <- !app_assoc. reflexivity.
Qed.

Lemma concat_str_ok l d : concat_str l d = join d (filter (fun e => 0 <? length e) l).
Proof.
  unfold concat_str. rewrite concat_loop_ok by reflexivity. f_equal. apply filter_ext.
  intros [|c e]; reflexivity.
Qed.

Lemma concat_split l d seps :
  ~ In nul seps -> d <> [] -> Forall (one_of seps) d -> Forall (Forall (fun c => ~ one_of seps c)) l ->
  split_str (concat_str l d) seps = Ok (filter (fun e => 0 <? length e) l).
Proof.
  intros Hn Hd Hs Hl. rewrite concat_str_ok. apply split_join; auto.
  apply Forall_forall. intros p Hp. apply filter_In in Hp. destruct Hp as [Hi Hp].
  rewrite Forall_forall in Hl. split; [destruct p; [discriminate|congruence]|apply Hl, Hi].
Qed.

Lemma concat_str2_ok s1 s2 c : concat_str2 s1 s2 c = join [c] (filter (fun e => 0 <? length e) [s1; s2]).
Proof. destruct s1, s2; reflexivity. Qed.

Lemma append_str_ok s a d :
  append_str s a d = (if (length s =? 0) || str_ends_with s d then s ++ a else s ++ d ++ a).
Proof.
  unfold append_str. destruct s as [|c t]; [reflexivity|]. cbn [length Nat.eqb orb].
  destruct (str_ends_with (c :: t) d); [reflexivity|]. rewrite <- app_assoc. reflexivity.
Qed.

Lemma append_str_assembled (s a d : str) :
  (s = [] -> append_str s a d = a) /\
  ((exists r, s = r ++ d) -> append_str s a d = s ++ a) /\
  (s <> [] -> (~ exists r, s = r ++ d) -> append_str s a d = s ++ d ++ a).
Proof.
  rewrite append_str_ok. split; [|split].
  - intros ->. reflexivity.
  - intros H. apply ends_with_iff in H. rewrite H, orb_true_r. reflexivity.
  - intros Hs H. destruct (str_ends_with s d) eqn:E.
    + exfalso. apply H, ends_with_iff, E.
    + destruct s; [congruence|reflexivity].
Qed.

(** ** Key/value *)

Lemma key_value_assembled (s sep : str) : ~ In nul sep ->
  (Forall (fun c => ~ one_of sep c) s -> make_key_value_str s sep = Ok (s, [])) /\
  (forall a c b, s = a ++ c :: b -> one_of sep c -> Forall (fun x => ~ one_of sep x) a ->
    exists k v u w, make_key_value_str s sep = Ok (k, v) /\
      trimmed_left (one_of whitespace) a u /\ trimmed_right (one_of whitespace) u k /\
      trimmed_left (one_of whitespace) b w /\ trimmed_right (one_of whitespace) w v).
Proof.
  intros Hn. unfold make_key_value_str. rewrite c_str_id by exact Hn.
  destruct (find_first_of_spec s sep) as [[Hs ->]|(a' & c' & b' & -> & Hc & Ha & ->)].
  - split; [reflexivity|]. intros a c b -> Hc Ha. exfalso. apply Forall_app_iff in Hs. destruct Hs as [_ Hs].
    inversion Hs; contradiction.
  - split.
    + intros Hs. exfalso. apply Forall_app_iff in Hs. destruct Hs as [_ Hs]. inversion Hs; contradiction.
    + intros a c b E Hc2 Ha2.
      destruct (split_prefix (fun x => ~ one_of sep x) _ _ _ _ _ _ E) as (-> & -> & ->); auto.
      rewrite substr_front. cbn [obind]. unfold mid_str. rewrite substr_after.
      destruct (trim_ok a whitespace) as (k & u & -> & H1 & H2). cbn [obind]. destruct (trim_ok b whitespace) as (v & w & -> & H3 & H4). cbn [obind].
      exists k, v, u, w. auto 6.
Qed.

(** ** File names *)

Lemma folder_assembled (s : str) :
  (Forall (fun c => ~ one_of slashes c) s ->
    get_filename_folder s = Ok s /\ get_filename_without_folder s = Ok s) /\
  (forall a c b, s = a ++ c :: b -> one_of slashes c -> Forall (fun x => ~ one_of slashes x) b ->
    get_filename_folder s = Ok (a ++ [c]) /\ get_filename_without_folder s = Ok b).
Proof.
  unfold get_filename_folder, get_filename_without_folder.
  destruct (find_last_of_spec s slashes) as [[Hs ->]|(a' & c' & b' & -> & Hc & Ha & ->)].
  - split; [auto|]. intros a c b -> Hc Ha. exfalso. apply Forall_app_iff in Hs. destruct Hs as [_ Hs].
    inversion Hs; contradiction.
  - split.
    + intros Hs. exfalso. apply Forall_app_iff in Hs. destruct Hs as [_ Hs]. inversion Hs; contradiction.
    + intros a c b E Hc2 Ha2.
      destruct (split_suffix (fun x => ~ one_of slashes x) _ _ _ _ _ _ E) as (-> & -> & ->); auto.
      replace (a ++ c :: b) with ((a ++ [c]) ++ b) by (rewrite <- app_assoc; reflexivity).
      replace (length a + 1) with (length (a ++ [c])) by (rewrite app_length; reflexivity).
      split; [apply substr_front|apply substr_end].
Qed.

Lemma ext_spec s :
  (get_filename_ext s = Ok [] /\ get_filename_without_ext s = Ok s /\
    ~ exists a e, s = a ++ dot :: e /\ e <> [] /\ Forall (fun x => x <> dot /\ ~ one_of slashes x) e) \/
  (exists a e, s = a ++ dot :: e /\ e <> [] /\ Forall (fun x => x <> dot /\ ~ one_of slashes x) e /\
    get_filename_ext s = Ok e /\ get_filename_without_ext s = Ok a).
Proof.
  assert (Hset : forall x, ~ one_of (lit ".") x <-> x <> dot).
  { intros x. unfold one_of. cbn. split; [intros H E; apply H; left; symmetry; exact E|intros H [E|[]]; apply H; symmetry; exact E]. }
  assert (Hall : substr s 0 (Some (length s - 0)) = Ok s).
  { unfold substr. cbn [Nat.leb skipn]. rewrite Nat.sub_0_r, firstn_all. reflexivity. }
  unfold get_filename_without_ext, get_filename_ext.
  destruct (find_last_of_spec s (lit ".")) as [[Hs ->]|(a & c & e & -> & Hc & He & ->)].
  - left. cbn [obind length]. split; [reflexivity|]. split; [exact Hall|].
    intros (a & e & -> & _). apply Forall_app_iff in Hs. destruct Hs as [_ Hs].
    inversion Hs as [|? ? H _]; subst. apply H. left. reflexivity.
  - assert (c = dot) as -> by (destruct Hc as [Hc|[]]; symmetry; exact Hc).
    rewrite substr_after. cbn [obind].
    assert (Hdot : Forall (fun x => x <> dot) e) by (revert He; apply Forall_impl; intros x; apply Hset).
    assert (Huniq : forall a' e', a ++ dot :: e = a' ++ dot :: e' -> Forall (fun x => x <> dot) e' -> a' = a /\ e' = e).
    { intros a' e' E H'. destruct (split_suffix (fun x => x <> dot) _ _ _ _ _ _ E) as (-> & _ & ->); auto. }
    assert (Hno : forall P : Prop, P \/ ~ P -> P \/ ~ P) by auto.
    destruct (find_last_of_spec e slashes) as [[Hsl ->]|(b & d & r & -> & Hd & Hr & ->)].
    + destruct e as [|x e].
      * left. cbn [obind length]. cbn [Nat.ltb Nat.leb]. split; [reflexivity|]. split; [exact Hall|].
        intros (a' & e' & E & Hne & Hf). destruct (Huniq a' e' E) as [_ ->]; [|congruence].
        revert Hf. apply Forall_impl. tauto.
      * right. exists a, (x :: e). split; [reflexivity|]. split; [discriminate|]. split.
        { rewrite Forall_forall in *. intros y Hy. split; auto. }
        split; [reflexivity|]. cbn [obind]. replace (0 <? length (x :: e)) with true by reflexivity.
        replace (length (a ++ dot :: x :: e) - (length (x :: e) + 1)) with (length a) by (rewrite app_length; cbn [length]; lia).
        apply substr_front.
    + left. cbn [obind length]. cbn [Nat.ltb Nat.leb]. split; [reflexivity|]. split; [exact Hall|].
      intros (a' & e' & E & Hne & Hf). destruct (Huniq a' e' E) as [_ ->].
      * revert Hf. apply Forall_impl. tauto.
      * apply Forall_app_iff in Hf. destruct Hf as [_ Hf]. inversion Hf as [|? ? [_ H] _]; contradiction.
Qed.
