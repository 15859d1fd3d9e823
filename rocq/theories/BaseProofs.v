(** Lemmas about the definitions of [Base]. *)
From Coq Require Import List Arith Bool Lia ZArith NArith.
From Coq Require Import ZifyBool ZifyNat ZifyN.
From Verif Require Import Base.
Import ListNotations.
Ltac Zify.zify_post_hook ::= Z.div_mod_to_equations.

(** the range is partitioned: [before] holds on a prefix of length [n] and nowhere after it *)
Definition partitioned_at {A} (before : A -> bool) (l : list A) (n : nat) : Prop :=
  n <= length l /\
  forall i x, nth_error l i = Some x -> before x = (i <? n).

Lemma div2_lt_pos n : 0 < n -> Nat.div2 n < n.
Proof. intros H. apply Nat.lt_div2. exact H. Qed.

Lemma bsearch_partition {A} (before : A -> bool) l n :
  partitioned_at before l n ->
  forall fuel first len,
    len <= fuel -> first + len <= length l -> first <= n -> n <= first + len ->
    bsearch before l fuel first len = n.
Proof.
  intros [Hn Hp]. induction fuel as [|f IH]; intros first len Hf Hl H1 H2; cbn [bsearch].
  - lia.
  - destruct len as [|len']; [lia|].
    set (half := Nat.div2 (S len')).
    assert (Hh : half < S len') by (apply div2_lt_pos; lia).
    destruct (nth_error l (first + half)) as [x|] eqn:Hx.
    + rewrite (Hp _ _ Hx).
      destruct (first + half <? n) eqn:Hlt.
      * apply Nat.ltb_lt in Hlt. apply IH; lia.
      * apply Nat.ltb_ge in Hlt. apply IH; lia.
    + apply nth_error_None in Hx. lia.
Qed.

Lemma partition_search_correct {A} (before : A -> bool) l n :
  partitioned_at before l n -> partition_search before l = n.
Proof.
  intros H. unfold partition_search. eapply bsearch_partition; eauto; destruct H; lia.
Qed.

(** [filter]-length view of the partition point *)
Fixpoint prefix_len {A} (before : A -> bool) (l : list A) : nat :=
  match l with
  | [] => 0
  | x :: t => if before x then S (prefix_len before t) else 0
  end.

Lemma prefix_len_le {A} (before : A -> bool) l : prefix_len before l <= length l.
Proof. induction l as [|x t IH]; cbn; [lia|]. destruct (before x); lia. Qed.

(** [before] is downward closed along the list *)
Fixpoint mono_list {A} (before : A -> bool) (l : list A) : Prop :=
  match l with
  | [] => True
  | x :: t => (before x = false -> Forall (fun y => before y = false) t) /\ mono_list before t
  end.

Lemma prefix_len_partitioned {A} (before : A -> bool) l :
  mono_list before l -> partitioned_at before l (prefix_len before l).
Proof.
  intros Hm. split; [apply prefix_len_le|].
  induction l as [|x t IH]; intros i y Hy.
  - destruct i; discriminate.
  - cbn [prefix_len]. destruct Hm as [Hx Ht].
    destruct (before x) eqn:Hb.
    + destruct i as [|i]; cbn in Hy.
      * injection Hy as <-. rewrite Hb. reflexivity.
      * rewrite (IH Ht _ _ Hy). reflexivity.
    + destruct i as [|i]; cbn in Hy.
      * injection Hy as <-. rewrite Hb. reflexivity.
      * specialize (Hx eq_refl). rewrite Forall_forall in Hx.
        rewrite (Hx y). reflexivity. eapply nth_error_In; eauto.
Qed.

Lemma partition_search_prefix {A} (before : A -> bool) l :
  mono_list before l -> partition_search before l = prefix_len before l.
Proof. intros H. apply partition_search_correct, prefix_len_partitioned, H. Qed.

Lemma list_set_length {A} (l : list A) i a : length (list_set l i a) = length l.
Proof. revert i; induction l as [|x t IH]; intros [|i]; cbn; congruence. Qed.

Lemma nth_error_list_set {A} (l : list A) i j a :
  nth_error (list_set l i a) j =
  if (i =? j) && (j <? length l) then Some a else nth_error l j.
Proof.
  revert i j; induction l as [|x t IH]; intros i j.
  - cbn. destruct i, j; cbn; rewrite ?andb_false_r; reflexivity.
  - destruct i, j; try reflexivity. cbn [list_set nth_error]. rewrite IH.
    cbn [length]. replace (S i =? S j) with (i =? j) by lia.
    replace (S j <? S (length t)) with (j <? length t) by lia. reflexivity.
Qed.

Lemma nth_error_list_set_eq {A} (l : list A) i a :
  i < length l -> nth_error (list_set l i a) i = Some a.
Proof.
  intros H. rewrite nth_error_list_set. rewrite Nat.eqb_refl. apply Nat.ltb_lt in H. rewrite H. reflexivity.
Qed.

Lemma nth_error_list_set_neq {A} (l : list A) i j a :
  i <> j -> nth_error (list_set l i a) j = nth_error l j.
Proof.
  intros H. rewrite nth_error_list_set. apply Nat.eqb_neq in H. rewrite H. reflexivity.
Qed.

Lemma list_set_app1 {A} (l1 l2 : list A) i a :
  i < length l1 -> list_set (l1 ++ l2) i a = list_set l1 i a ++ l2.
Proof.
  revert i; induction l1 as [|x t IH]; intros i H; cbn in H; [lia|].
  destruct i; cbn; [reflexivity|]. rewrite IH by lia. reflexivity.
Qed.

Lemma list_set_app2 {A} (l1 l2 : list A) i a :
  length l1 <= i -> list_set (l1 ++ l2) i a = l1 ++ list_set l2 (i - length l1) a.
Proof.
  revert i; induction l1 as [|x t IH]; intros i H; cbn in *.
  - f_equal. lia.
  - destruct i; [lia|]. cbn. rewrite IH by lia. reflexivity.
Qed.
