(** Lemmas about the std::string functions of [Str]. *)
From Coq Require Import Ascii List Arith Bool Lia NArith ZArith.
From Coq Require Import ZifyBool ZifyNat ZifyN.
From Verif Require Import Base Str StrSpec.
Import ListNotations.

Lemma str_eqb_eq a b : str_eqb a b = true <-> a = b.
Proof.
  revert b; induction a as [|x a IH]; intros [|y b]; cbn; try (split; congruence).
  rewrite andb_true_iff, Ascii.eqb_eq, IH. split; [intros [-> ->]; reflexivity|intros [= -> ->]; auto].
Qed.

Lemma str_eqb_refl a : str_eqb a a = true.
Proof. apply str_eqb_eq. reflexivity. Qed.

Lemma str_eqb_neq a b : str_eqb a b = false <-> a <> b.
Proof. rewrite <- str_eqb_eq. destruct (str_eqb a b); split; congruence. Qed.

Lemma in_set_In set c : in_set set c = true <-> In c set.
Proof.
  unfold in_set. rewrite existsb_exists. split.
  - intros (x & Hx & E). apply Ascii.eqb_eq in E. subst. exact Hx.
  - intros H. exists c. split; [exact H|apply Ascii.eqb_refl].
Qed.

Lemma in_set_not_In set c : in_set set c = false <-> ~ In c set.
Proof. rewrite <- in_set_In. destruct (in_set set c); split; congruence. Qed.

Lemma c_str_id s : ~ In nul s -> c_str s = s.
Proof.
  induction s as [|c t IH]; cbn; intros H; [reflexivity|].
  destruct (Ascii.eqb c nul) eqn:E.
  - apply Ascii.eqb_eq in E. exfalso. apply H. left. exact E.
  - rewrite IH; [reflexivity|]. intros Hi. apply H. right. exact Hi.
Qed.

Lemma skipn_length_app {A} (a b : list A) : skipn (length a) (a ++ b) = b.
Proof. rewrite skipn_app, skipn_all, Nat.sub_diag. reflexivity. Qed.

Lemma firstn_length_app {A} (a b : list A) : firstn (length a) (a ++ b) = a.
Proof. rewrite firstn_app, firstn_all, Nat.sub_diag. cbn. apply app_nil_r. Qed.

Lemma substr_mid a b c : substr (a ++ b ++ c) (length a) (Some (length b)) = Ok b.
Proof.
  unfold substr. rewrite app_length. replace (length a <=? _) with true by lia.
  rewrite skipn_length_app, firstn_length_app. reflexivity.
Qed.

Lemma substr_end a b : substr (a ++ b) (length a) None = Ok b.
Proof.
  unfold substr. rewrite app_length. replace (length a <=? _) with true by lia.
  rewrite skipn_length_app. reflexivity.
Qed.

Lemma substr_front a b : substr (a ++ b) 0 (Some (length a)) = Ok a.
Proof. unfold substr. cbn [Nat.leb skipn]. rewrite firstn_length_app. reflexivity. Qed.

Lemma starts_with_iff s p : starts_with s p = true <-> exists r, s = p ++ r.
Proof.
  revert s; induction p as [|a p IH]; intros s; cbn.
  - split; [intros _; exists s; reflexivity|auto].
  - destruct s as [|b s]; cbn.
    + split; [discriminate|intros (r & H); discriminate].
    + rewrite andb_true_iff, Ascii.eqb_eq, IH. split.
      * intros [-> [r ->]]. exists r. reflexivity.
      * intros [r [= -> ->]]. eauto.
Qed.

Lemma starts_with_app p r : starts_with (p ++ r) p = true.
Proof. apply starts_with_iff. eauto. Qed.

Lemma occurs_at_iff s sub i : occurs_at s sub i <-> i <= length s /\ starts_with (skipn i s) sub = true.
Proof.
  split.
  - intros (a & b & -> & <-). rewrite skipn_length_app, app_length, starts_with_app. split; [lia|reflexivity].
  - intros (Hi & H). apply starts_with_iff in H. destruct H as (r & H).
    exists (firstn i s), r. rewrite <- H, firstn_skipn, firstn_length. split; [reflexivity|lia].
Qed.

Lemma find_at_some s sub i j : find_at s sub i = Some j ->
  exists k, j = i + k /\ occurs_at s sub k /\ forall k', k' < k -> ~ occurs_at s sub k'.
Proof.
  revert i; induction s as [|c t IH]; intros i; cbn [find_at]; destruct (starts_with _ sub) eqn:E.
  - intros [= <-]. exists 0. split; [lia|]. split; [|lia]. apply occurs_at_iff. cbn. split; [lia|exact E].
  - discriminate.
  - intros [= <-]. exists 0. split; [lia|]. split; [|lia]. apply occurs_at_iff. cbn. split; [lia|exact E].
  - intros H. apply IH in H. destruct H as (k & -> & Ho & Hm). exists (S k). split; [lia|]. split.
    + apply occurs_at_iff in Ho. apply occurs_at_iff. cbn. destruct Ho. split; [lia|assumption].
    + intros [|k'] Hk; rewrite occurs_at_iff; cbn [skipn].
      * rewrite E. intros [_ F]; discriminate.
      * intros [Hl Hs]. apply (Hm k'); [lia|]. apply occurs_at_iff. cbn in Hl. split; [lia|exact Hs].
Qed.

Lemma find_at_none s sub i : find_at s sub i = None -> forall k, ~ occurs_at s sub k.
Proof.
  revert i; induction s as [|c t IH]; intros i; cbn [find_at]; destruct (starts_with _ sub) eqn:E; try discriminate.
  - intros _ k Ho. apply occurs_at_iff in Ho. destruct Ho as [Hl Hs].
    replace k with 0 in Hs by (cbn in Hl; lia). cbn [skipn] in Hs. congruence.
  - intros H [|k] Ho; apply occurs_at_iff in Ho; destruct Ho as [Hl Hs].
    + cbn [skipn] in Hs. congruence.
    + apply (IH _ H k). apply occurs_at_iff. cbn in Hl, Hs. split; [lia|exact Hs].
Qed.

Lemma skipn_skipn' {A} (l : list A) p k : skipn k (skipn p l) = skipn (p + k) l.
Proof.
  revert l; induction p as [|p IH]; intros l; cbn [skipn Nat.add]; [reflexivity|].
  destruct l as [|x t]; [now rewrite skipn_nil|apply IH].
Qed.

Lemma occurs_at_skipn (s sub : str) p k : p <= length s -> (occurs_at (skipn p s) sub k <-> occurs_at s sub (p + k)).
Proof.
  intros Hp. rewrite !occurs_at_iff, skipn_length.
  rewrite skipn_skipn'.
  split; intros [? ?]; split; auto; lia.
Qed.

Lemma occurs_at_le {A} (s sub : list A) i : occurs_at s sub i -> i + length sub <= length s.
Proof. intros (a & b & -> & <-). rewrite !app_length. lia. Qed.

Lemma find_some s sub p i : find s sub p = Some i <-> first_occurrence s sub p i.
Proof.
  unfold find, first_occurrence. destruct (p <=? length s) eqn:Hp.
  - split.
    + intros H. apply find_at_some in H. destruct H as (k & -> & Ho & Hm).
      rewrite occurs_at_skipn in Ho by lia. split; [lia|]. split; [exact Ho|].
      intros j Hj Hoj. apply (Hm (j - p)); [lia|]. apply occurs_at_skipn; [lia|].
      replace (p + (j - p)) with j by lia. exact Hoj.
    + intros (Hi & Ho & Hm). destruct (find_at (skipn p s) sub p) as [j|] eqn:E.
      * apply find_at_some in E. destruct E as (k & -> & Hk & Hn).
        f_equal. destruct (Nat.lt_total (p + k) i) as [H|[H|H]]; [|exact H|].
        -- exfalso. apply (Hm (p + k)); [lia|]. apply occurs_at_skipn; [lia|exact Hk].
        -- exfalso. apply (Hn (i - p)); [lia|]. apply occurs_at_skipn; [lia|].
           replace (p + (i - p)) with i by lia. exact Ho.
      * exfalso. apply (find_at_none _ _ _ E (i - p)). apply occurs_at_skipn; [lia|].
        replace (p + (i - p)) with i by lia. exact Ho.
  - split; [discriminate|]. intros (Hi & Ho & _). apply occurs_at_le in Ho. lia.
Qed.

Lemma find_none s sub p : find s sub p = None <-> forall i, p <= i -> ~ occurs_at s sub i.
Proof.
  unfold find. destruct (p <=? length s) eqn:Hp.
  - split.
    + intros H i Hi Ho. apply (find_at_none _ _ _ H (i - p)). apply occurs_at_skipn; [lia|].
      replace (p + (i - p)) with i by lia. exact Ho.
    + intros H. destruct (find_at (skipn p s) sub p) as [j|] eqn:E; [|reflexivity].
      apply find_at_some in E. destruct E as (k & -> & Hk & _). exfalso.
      apply (H (p + k)); [lia|]. apply occurs_at_skipn; [lia|exact Hk].
  - split; [|reflexivity]. intros _ i Hi Ho. apply occurs_at_le in Ho. lia.
Qed.

Lemma find_app pre rest sub : find (pre ++ rest) sub (length pre) = find_at rest sub (length pre).
Proof. unfold find. rewrite app_length. replace (length pre <=? _) with true by lia. rewrite skipn_length_app. reflexivity. Qed.

Lemma index_from_some p s i j : index_from p s i = Some j ->
  exists a c b, s = a ++ c :: b /\ j = i + length a /\ p c = true /\ Forall (fun x => p x = false) a.
Proof.
  revert i; induction s as [|x t IH]; intros i; cbn; [discriminate|].
  destruct (p x) eqn:E.
  - intros [= <-]. exists [], x, t. cbn. repeat split; auto; lia.
  - intros H. apply IH in H. destruct H as (a & c & b & -> & -> & Hc & Ha).
    exists (x :: a), c, b. cbn. repeat split; auto; lia.
Qed.

Lemma index_from_none p s i : index_from p s i = None <-> Forall (fun x => p x = false) s.
Proof.
  revert i; induction s as [|x t IH]; intros i; cbn.
  - split; auto.
  - destruct (p x) eqn:E.
    + split; [discriminate|]. intros H. inversion H; congruence.
    + rewrite IH. split; [intros H; constructor; auto|intros H; inversion H; auto].
Qed.

Lemma index_from_app p a c b i : Forall (fun x => p x = false) a -> p c = true ->
  index_from p (a ++ c :: b) i = Some (i + length a).
Proof.
  revert i; induction a as [|x t IH]; intros i Ha Hc; cbn.
  - rewrite Hc. f_equal. lia.
  - inversion Ha as [|? ? Hx Ht]; subst. rewrite Hx, IH by assumption. f_equal. lia.
Qed.

Lemma last_from_spec p s i acc :
  (Forall (fun x => p x = false) s /\ last_from p s i acc = acc) \/
  (exists a c b, s = a ++ c :: b /\ p c = true /\ Forall (fun x => p x = false) b /\ last_from p s i acc = Some (i + length a)).
Proof.
  revert i acc; induction s as [|x t IH]; intros i acc; cbn.
  - left. split; auto.
  - destruct (IH (S i) (if p x then Some i else acc)) as [[Ht E]|(a & c & b & -> & Hc & Hb & E)]; rewrite E.
    + destruct (p x) eqn:Hx.
      * right. exists [], x, t. cbn. repeat split; auto; f_equal; lia.
      * left. split; [constructor; auto|reflexivity].
    + right. exists (x :: a), c, b. cbn. repeat split; auto; f_equal; lia.
Qed.

Lemma find_first_of_app pre rest set : find_first_of (pre ++ rest) set (length pre) = index_from (in_set set) rest (length pre).
Proof. unfold find_first_of. rewrite skipn_length_app. reflexivity. Qed.

Lemma find_first_not_of_app pre rest set :
  find_first_not_of (pre ++ rest) set (length pre) = index_from (fun c => negb (in_set set c)) rest (length pre).
Proof. unfold find_first_not_of. rewrite skipn_length_app. reflexivity. Qed.

Lemma Forall_in_set_false set s : Forall (fun x => in_set set x = false) s <-> Forall (fun c => ~ In c set) s.
Proof. split; apply Forall_impl; intros c; apply in_set_not_In. Qed.

Lemma Forall_negb_in_set set s : Forall (fun x => negb (in_set set x) = false) s <-> Forall (fun c => In c set) s.
Proof.
  split; apply Forall_impl; intros c.
  - rewrite negb_false_iff. apply in_set_In.
  - intros H. apply negb_false_iff, in_set_In, H.
Qed.

Lemma compare_eq_iff s pos other : pos <= length s ->
  (compare_eq s pos (length other) other = true <-> occurs_at s other pos).
Proof.
  intros Hp. unfold compare_eq. rewrite str_eqb_eq, occurs_at_iff, starts_with_iff. split.
  - intros H. split; [exact Hp|]. exists (skipn (length other) (skipn pos s)).
    rewrite <- H at 1. now rewrite firstn_skipn.
  - intros (_ & r & ->). apply firstn_length_app.
Qed.
