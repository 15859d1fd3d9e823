(** Proofs about typed indices and collections. *)
From Coq Require Import List Arith Bool NArith ZArith Lia ZifyBool ZifyN ZifyNat.
From Verif Require Import Base BaseProofs UtilProofs AssocModel IdxSpec IdxModel.
Import ListNotations.

Ltac Zify.zify_post_hook ::= Z.div_mod_to_equations.
Ltac consts := unfold index_limit, max_value, invalid_index_value, two32 in *; change (2 ^ 32)%N with 4294967296%N in *.

Lemma from_assembled : means index_default = Nothing /\
  (forall n, means (index_of_size n) = if (n <? index_limit)%N then Position n else Nothing) /\
  (forall z, (- 2 ^ 31 <= z < 2 ^ 31)%Z -> means (index_of_int z) = if (z <? 0)%Z then Nothing else Position (Z.to_N z)) /\
  (forall i, index_bool i = true <-> means i <> Nothing) /\
  (forall i, index_move i = (i, index_default)).
Proof.
  refine (conj _ (conj _ (conj _ (conj _ _)))).
  - reflexivity.
  - intros n. unfold means, index_of_size. consts. destruct (N.leb_spec n (4294967296 - 1 - 1)), (N.ltb_spec n (4294967296 - 1)); try lia.
    + replace (n =? 4294967296 - 1)%N with false by lia. reflexivity.
    + reflexivity.
  - intros z Z. unfold means, index_of_int. consts. rewrite N.mod_small by lia. destruct (Z.ltb_spec z 0) as [L|L].
    + replace (0 <=? z)%Z with false by lia. reflexivity.
    + replace (0 <=? z)%Z with true by lia. replace (Z.to_N z <=? 4294967296 - 1 - 1)%N with true by lia. cbn [andb]. replace (Z.to_N z =? 4294967296 - 1)%N with false by lia. reflexivity.
  - intros i. unfold means, index_bool. consts. destruct (N.eqb_spec i (4294967296 - 1)); cbn; split; intros; try congruence; discriminate.
  - reflexivity.
Qed.

Lemma step_assembled i n : (i < 2 ^ 32)%N -> means i = Position n ->
  means (fst (index_pre_inc i)) = (if (n + 1 <? index_limit)%N then Position (n + 1) else Nothing) /\ snd (index_pre_inc i) = fst (index_pre_inc i) /\
  fst (index_post_inc i) = fst (index_pre_inc i) /\ snd (index_post_inc i) = i /\
  (forall k, (n + k < index_limit)%N -> means (index_add i k) = Position (n + k)) /\
  (forall k, (k <= n)%N -> means (index_sub i k) = Position (n - k)).
Proof.
  unfold means. destruct (N.eqb_spec i index_limit) as [E|E]; [discriminate|]. intros B [= <-]. unfold index_pre_inc, index_post_inc, index_add, index_sub. cbn [fst snd]. consts.
  refine (conj _ (conj eq_refl (conj eq_refl (conj eq_refl (conj _ _))))).
  - rewrite N.mod_small by lia. destruct (N.ltb_spec (i + 1) (4294967296 - 1)).
    + replace (i + 1 =? 4294967296 - 1)%N with false by lia. reflexivity.
    + replace (i + 1 =? 4294967296 - 1)%N with true by lia. reflexivity.
  - intros k K. rewrite N.mod_small by lia. replace (i + k =? 4294967296 - 1)%N with false by lia. reflexivity.
  - intros k K. replace ((i + 4294967296 - k) mod 4294967296)%N with (i - k)%N by lia. replace (i - k =? 4294967296 - 1)%N with false by lia. reflexivity.
Qed.
Lemma invalid_step : exists i, means i = Nothing /\ means (fst (index_pre_inc i)) = Position 0.
Proof. exists index_default. split; reflexivity. Qed.

Lemma container_assembled n : (n <= index_limit - 1)%N ->
  means index_zero = Position 0 /\ means (index_end n) = Position n /\ means (index_back n) = (if (n =? 0)%N then Nothing else Position (n - 1)).
Proof.
  intros L. unfold means, index_zero, index_end, index_back, index_of_value. consts. refine (conj eq_refl (conj _ _)).
  - rewrite N.mod_small by lia. replace (n =? 4294967296 - 1)%N with false by lia. reflexivity.
  - destruct (N.eqb_spec n 0) as [->|N0]; [reflexivity|]. replace ((n mod 4294967296 + 4294967296 - 1) mod 4294967296)%N with (n - 1)%N by lia.
    replace (n - 1 =? 4294967296 - 1)%N with false by lia. reflexivity.
Qed.
Lemma huge_container : exists n, (n < 2 ^ 64)%N /\ means (index_back n) <> Position (n - 1) /\ means (index_back n) <> Nothing.
Proof. exists (2 ^ 32 + 5)%N. split; [reflexivity|]. split; vm_compute; discriminate. Qed.

Lemma span_assembled b e : (b <= e)%N -> (e < 2 ^ 32)%N -> exists l, consecutive b l /\ N.of_nat (length l) = (e - b)%N /\
  (forall fuel, (length l < fuel)%nat -> span_visit fuel b e = Some l) /\ span_size b e = N.of_nat (length l) /\ (span_empty b e = true <-> l = []).
Proof.
  intros BE E. assert (G : forall n b, (b <= e)%N -> n = N.to_nat (e - b) -> exists l, consecutive b l /\ length l = n /\ forall fuel, (n < fuel)%nat -> span_visit fuel b e = Some l).
  { induction n as [|n IH]; intros b0 B0 N0.
    - exists []. split; [intros k x H; destruct k; discriminate|]. split; [reflexivity|]. intros [|f] F; [lia|]. cbn [span_visit]. unfold index_eq. replace (b0 =? e)%N with true by lia. reflexivity.
    - destruct (IH (b0 + 1)%N ltac:(lia) ltac:(lia)) as (l & C & L & V). exists (b0 :: l). split; [|split].
      + intros [|k] x H; cbn in H; [injection H as <-; lia|]. rewrite (C k x H). lia.
      + cbn. congruence.
      + intros [|f] F; [lia|]. cbn [span_visit]. unfold index_eq. replace (b0 =? e)%N with false by lia. unfold index_pre_inc, index_add. cbn [fst]. consts.
        rewrite N.mod_small by lia. rewrite V by lia. reflexivity. }
  destruct (G _ b BE eq_refl) as (l & C & L & V). exists l. refine (conj C (conj _ (conj _ (conj _ _)))).
  - lia.
  - intros fuel F. apply V. lia.
  - unfold span_size. consts. lia.
  - unfold span_empty, index_eq. destruct (N.eqb_spec b e) as [->|N]; split; intros H; try reflexivity; try discriminate.
    + destruct l; [reflexivity|cbn in L; lia].
    + subst l. cbn in L. lia.
Qed.
Lemma span_reversed : exists b e l, (e < b)%N /\ (b < 2 ^ 32)%N /\ (forall fuel, (length l < fuel)%nat -> span_visit fuel b e = Some l) /\ exists i, In i l /\ means i = Nothing.
Proof.
  exists (2 ^ 32 - 2)%N, 1%N, [(2 ^ 32 - 2)%N; (2 ^ 32 - 1)%N; 0%N]. split; [reflexivity|]. split; [reflexivity|]. split.
  - intros fuel F. cbn in F. destruct fuel as [|[|[|[|fuel]]]]; try lia. cbn. destruct fuel; reflexivity.
  - exists (2 ^ 32 - 1)%N. split; [right; left; reflexivity|reflexivity].
Qed.

Section Coll.
  Context {U : Type}.
  Lemma with_vec_same (c : coll U) t l : with_vec c t l t = l.
  Proof. unfold with_vec. rewrite Nat.eqb_refl. reflexivity. Qed.
  Lemma with_vec_other (c : coll U) t t' l : t' <> t -> with_vec c t l t' = c t'.
  Proof. unfold with_vec. intros N. destruct (Nat.eqb_spec t' t); [congruence|reflexivity]. Qed.
  Lemma get_snoc (l : list U) u i x : vec_get l i = Ok x -> vec_get (l ++ [u]) i = Ok x.
  Proof.
    unfold vec_get. destruct (nth_error l i) eqn:E; [|discriminate]. intros [= ->]. rewrite nth_error_app1; [rewrite E; reflexivity|]. apply nth_error_Some. congruence.
  Qed.
  Lemma push_assembled (c : coll U) t u : (N.of_nat (length (c t)) < index_limit)%N ->
    forall c' h, ic_push_back c t u = (c', h) \/ hc_push_back c t u = (c', h) ->
    coll_get c' t h = Ok u /\ means h = Position (N.of_nat (length (c t))) /\
    (forall t' i x, coll_get c t' i = Ok x -> coll_get c' t' i = Ok x) /\ (forall t', t' <> t -> c' t' = c t').
  Proof.
    intros L c' h H. assert (c' = with_vec c t (c t ++ [u]) /\ h = N.of_nat (length (c t))) as [-> ->].
    { destruct H as [H|H].
      - unfold ic_push_back in H. injection H as <- <-. split; [reflexivity|]. rewrite app_length. cbn [length]. unfold index_back, index_of_value. consts. lia.
      - unfold hc_push_back, hv_push_back in H. injection H as <- <-. split; [reflexivity|]. rewrite app_length. cbn [length]. consts. lia. }
    unfold coll_get. refine (conj _ (conj _ (conj _ _))).
    - rewrite with_vec_same, Nat2N.id. unfold vec_get. rewrite nth_error_app2, Nat.sub_diag by lia. reflexivity.
    - unfold means. replace (N.of_nat (length (c t)) =? index_limit)%N with false by lia. reflexivity.
    - intros t' i x G. destruct (Nat.eq_dec t' t) as [->|N]; [rewrite with_vec_same; apply get_snoc; exact G|rewrite with_vec_other by exact N; exact G].
    - intros t' N. apply with_vec_other. exact N.
  Qed.
  Lemma pop_assembled (c : coll U) t : (c t = [] -> ic_pop_back c t = UB) /\
    forall l x, c t = l ++ [x] -> exists c', ic_pop_back c t = Ok c' /\ c' t = l /\ forall t', t' <> t -> c' t' = c t'.
  Proof.
    split; [intros E; unfold ic_pop_back; rewrite E; reflexivity|]. intros l x E. exists (with_vec c t l). split; [|split; [apply with_vec_same|intros t' N; apply with_vec_other; exact N]].
    unfold ic_pop_back. rewrite E. destruct (l ++ [x]) eqn:Q; [destruct l; discriminate|]. rewrite <- Q, removelast_last. reflexivity.
  Qed.
  Lemma nth_skip (l : list U) n i : nth_error (skipn n l) i = nth_error l (n + i).
  Proof. revert l. induction n as [|n IH]; intros [|x l]; cbn; try reflexivity; [destruct i; reflexivity|apply IH]. Qed.
  Lemma nth_error_all_eq {A} (l m : list A) : (forall k, nth_error l k = nth_error m k) -> l = m.
  Proof.
    revert m. induction l as [|x l IH]; intros [|y m] H; try reflexivity; try (specialize (H 0); discriminate).
    f_equal; [specialize (H 0); cbn in H; congruence|]. apply IH. intros k. exact (H (S k)).
  Qed.
  Lemma erase_assembled (c : coll U) t h c' h' : hc_erase c t h = Ok (c', h') ->
    h' = h /\ (forall t', t' <> t -> c' t' = c t') /\ length (c t) = S (length (c' t)) /\
    forall i, coll_get c' t i = if (i <? h)%N then coll_get c t i else coll_get c t (i + 1).
  Proof.
    unfold hc_erase, hv_erase. destruct (N.ltb_spec h (N.of_nat (length (c t)))) as [L|L]; [|discriminate]. cbn [obind fst snd]. intros [= <- <-]. rewrite with_vec_same.
    refine (conj eq_refl (conj _ (conj _ _))).
    - intros t' N. apply with_vec_other. exact N.
    - unfold list_erase. rewrite app_length, firstn_length, skipn_length. lia.
    - intros i. unfold coll_get. rewrite with_vec_same. unfold vec_get, list_erase. destruct (N.ltb_spec i h) as [I|I].
      + rewrite nth_error_app1 by (rewrite firstn_length; lia). f_equal. rewrite <- (firstn_skipn (N.to_nat h) (c t)) at 2. rewrite nth_error_app1 by (rewrite firstn_length; lia). reflexivity.
      + rewrite nth_error_app2 by (rewrite firstn_length; lia). rewrite firstn_length, nth_skip.
        replace (S (N.to_nat h) + (N.to_nat i - Nat.min (N.to_nat h) (length (c t)))) with (N.to_nat (i + 1)) by lia. reflexivity.
  Qed.
  Lemma erase_span_assembled (c : coll U) t b e c' : hc_erase_span c t b e = Ok c' ->
    (b <= e)%N /\ (e <= N.of_nat (length (c t)))%N /\ (forall t', t' <> t -> c' t' = c t') /\
    forall i, coll_get c' t i = if (i <? b)%N then coll_get c t i else coll_get c t (i + (e - b)).
  Proof.
    unfold hc_erase_span, hv_erase_span. destruct (N.leb_spec b e) as [L1|L1]; cbn [andb]; [|discriminate]. destruct (N.leb_spec e (N.of_nat (length (c t)))) as [L2|L2]; [|discriminate].
    cbn [obind]. intros [= <-]. split; [exact L1|]. split; [exact L2|]. split.
    - intros t' N. apply with_vec_other. exact N.
    - intros i. unfold coll_get. rewrite with_vec_same. unfold vec_get. destruct (N.ltb_spec i b) as [I|I].
      + rewrite nth_error_app1 by (rewrite firstn_length; lia). f_equal. rewrite <- (firstn_skipn (N.to_nat b) (c t)) at 2. rewrite nth_error_app1 by (rewrite firstn_length; lia). reflexivity.
      + rewrite nth_error_app2 by (rewrite firstn_length; lia). rewrite firstn_length, nth_skip.
        replace (N.to_nat e + (N.to_nat i - Nat.min (N.to_nat b) (length (c t)))) with (N.to_nat (i + (e - b))) by lia. reflexivity.
  Qed.
  Lemma position_assembled (c : coll U) t p x : (N.of_nat (length (c t)) <= index_limit)%N -> nth_error (c t) p = Some x ->
    coll_get c t (get_index p) = Ok x /\ means (get_index p) = Position (N.of_nat p).
  Proof.
    intros L E. assert (p < length (c t)) by (apply nth_error_Some; congruence). unfold get_index. consts. rewrite N.mod_small by lia. split.
    - unfold coll_get. rewrite Nat2N.id. apply vec_get_ok. exact E.
    - unfold means. consts. replace (N.of_nat p =? 4294967296 - 1)%N with false by lia. reflexivity.
  Qed.
  Lemma clear_assembled (c : coll U) t i : coll_clear c t = [] /\ coll_get (coll_clear c) t i = UB.
  Proof. split; [reflexivity|]. unfold coll_get, coll_clear, vec_get. destruct (N.to_nat i); reflexivity. Qed.
  Lemma walk_assembled (c : coll U) t : (N.of_nat (length (c t)) < 2 ^ 32)%N -> exists l,
    (forall fuel, length (c t) < fuel -> span_visit fuel (fst (ic_span c t)) (snd (ic_span c t)) = Some l) /\ map (coll_get c t) l = map Ok (c t).
  Proof.
    intros L. destruct (span_assembled 0 (N.of_nat (length (c t))) ltac:(lia) L) as (l & C & LL & V & _). exists l.
    assert (length l = length (c t)) as EL by lia. split.
    - intros fuel F. unfold ic_span, index_end, index_of_value. cbn [fst snd]. consts. rewrite N.mod_small by lia. apply V. lia.
    - apply nth_error_all_eq. intros k. rewrite !nth_error_map. destruct (nth_error l k) as [x|] eqn:E.
      + assert (k < length l) as K by (apply nth_error_Some; congruence). rewrite (C _ _ E). cbn [option_map]. unfold coll_get. replace (N.to_nat (0 + N.of_nat k)) with k by lia.
        destruct (nth_error (c t) k) as [y|] eqn:Q; [|apply nth_error_None in Q; lia]. cbn [option_map]. unfold vec_get. rewrite Q. reflexivity.
      + apply nth_error_None in E. destruct (nth_error (c t) k) as [y|] eqn:Q; [assert (k < length (c t)) by (apply nth_error_Some; congruence); lia|reflexivity].
  Qed.
End Coll.

Lemma order_assembled : forall a b, (a < 2 ^ 32)%N -> (b < 2 ^ 32)%N ->
  (forall m n, means a = Position m -> means b = Position n -> (index_lt a b = true <-> (m < n)%N) /\ (index_le a b = true <-> (m <= n)%N) /\ (index_eq a b = true <-> m = n)) /\
  (forall m, means a = Position m -> means b = Nothing -> index_lt a b = true /\ index_le a b = true /\ index_eq a b = false /\ index_lt b a = false /\ index_le b a = false).
Proof.
  intros a b A B. change (2 ^ 32)%N with 4294967296%N in *. unfold means, index_lt, index_le, index_eq. change index_limit with 4294967295%N.
  destruct (N.eqb_spec a 4294967295), (N.eqb_spec b 4294967295); split; intros *; try discriminate.
  - intros [= <-] _. repeat split; lia.
  - intros [= <-] [= <-]. rewrite N.ltb_lt, N.leb_le, N.eqb_eq. tauto.
Qed.
