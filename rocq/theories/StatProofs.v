(** Lemmas about the models of regression, medians and averages. *)
From Coq Require Import List Arith Bool ZArith Reals Lra Lia Psatz Sorted Permutation.
From Verif Require Import Base BaseProofs UtilProofs SigSpec SigProofs StatSpec StatModel.
Import ListNotations.
Local Open Scope R_scope.

(** ** averages *)
Lemma accumulate_total l v : accumulate l v = v + total l.
Proof. unfold accumulate. revert v. induction l as [|a l IH]; intros v; cbn; [ring|]. rewrite IH. unfold total. ring. Qed.
Lemma average_ok l : l <> [] -> average l 0 = Ok (total l / INR (length l)).
Proof. intros H. destruct l; [congruence|]. unfold average. rewrite accumulate_total. f_equal. f_equal. ring. Qed.
Lemma len_pos {A} (l : list A) : l <> [] -> 0 < INR (length l).
Proof. intros H. apply lt_0_INR. destruct l; [congruence|cbn; lia]. Qed.
Lemma fold_total {A} (f : A -> R) l c : fold_left (fun acc i => acc + f i) l c = c + total (map f l).
Proof. revert c. induction l as [|a l IH]; intros c; cbn; [ring|]. rewrite IH. unfold total. ring. Qed.
Lemma total_scal {A} p (f : A -> R) l : total (map (fun i => p * f i) l) = p * total (map f l).
Proof. induction l as [|i l IH]; cbn; [ring|]. unfold total in *. cbn. rewrite IH. ring. Qed.
Lemma total_plus {A} (f g : A -> R) l : total (map (fun i => f i + g i) l) = total (map f l) + total (map g l).
Proof. induction l as [|i l IH]; cbn; [ring|]. unfold total in *. cbn. rewrite IH. ring. Qed.
Lemma total_const {A} (c : R) (l : list A) : total (map (fun _ => c) l) = c * INR (length l).
Proof. induction l as [|i l IH]; [cbn; ring|]. cbn [length map]. rewrite S_INR. unfold total in *. cbn. rewrite IH. ring. Qed.
Lemma total_sq_nonneg {A} (f : A -> R) l : 0 <= total (map (fun i => f i * f i) l).
Proof. apply total_nonneg. intros v Hv. apply in_map_iff in Hv. destruct Hv as (i & <- & _). apply Rle_0_sqr. Qed.
Lemma total_sq_zero {A} (f : A -> R) l : total (map (fun i => f i * f i) l) = 0 -> forall i, In i l -> f i = 0.
Proof.
  induction l as [|a l IH]; intros H i Hi; [destruct Hi|]. unfold total in H. cbn [map fold_right] in H. fold (total (map (fun i => f i * f i) l)) in H. pose proof (total_sq_nonneg f l) as P. pose proof (Rle_0_sqr (f a)) as Q. unfold Rsqr in Q.
  assert (f a * f a = 0) by lra. destruct Hi as [<-|Hi]; [nra|]. apply IH; [lra|exact Hi].
Qed.
Lemma average_assembled l : (average l 0 = Throw <-> l = []) /\ (l <> [] -> exists m, average l 0 = Ok m /\ mean_of l m /\ forall lo hi, (forall v, In v l -> lo <= v <= hi) -> lo <= m <= hi).
Proof.
  split; [split; [destruct l; [reflexivity|discriminate]|intros ->; reflexivity]|]. intros H. rewrite average_ok by exact H. eexists. split; [reflexivity|]. pose proof (len_pos l H) as P. unfold mean_of. split; [field; lra|].
  intros lo hi B. assert (S : lo * INR (length l) <= total l <= hi * INR (length l)).
  { clear H P. induction l as [|a l IH]; [cbn; lra|]. cbn [length]. rewrite S_INR. unfold total in *. cbn [fold_right]. specialize (IH (fun v Hv => B v (or_intror Hv))). specialize (B a (or_introl eq_refl)). lra. }
  split; apply (Rmult_le_reg_r (INR (length l))); try exact P; unfold Rdiv; rewrite Rmult_assoc, Rinv_l by lra; lra.
Qed.
Lemma mean_var_assembled l : l <> [] -> exists m v, mean_var l = Ok (m, v) /\ mean_of l m /\ v * INR (length l) = total (map (fun x => (x - m) ^ 2) l) /\ 0 <= v /\ mean_std l = Ok (m, sqrt v).
Proof.
  intros H. unfold mean_var, mean_std. destruct l as [|a l0] eqn:E; [congruence|]. rewrite <- E in *. rewrite average_ok by exact H. cbn [obind]. rewrite (fold_total (fun i => (i - total l / INR (length l)) * (i - total l / INR (length l)))).
  pose proof (len_pos l H) as P. set (m := total l / INR (length l)). set (v := (0 + total (map (fun i => (i - m) * (i - m)) l)) / INR (length l)). exists m, v. split; [reflexivity|]. split; [unfold mean_of, m; field; lra|]. split; [|split; [|reflexivity]].
  - unfold v. transitivity (total (map (fun i => (i - m) * (i - m)) l)); [field; lra|]. apply total_ext. intros. ring.
  - unfold v. apply Rmult_le_pos; [|apply Rlt_le, Rinv_0_lt_compat; exact P]. pose proof (total_sq_nonneg (fun i => i - m) l). lra.
Qed.

(** ** sorted data *)
Lemma asc_unique s : forall t, ascending s -> ascending t -> Permutation s t -> s = t.
Proof.
  induction s as [|a s IH]; intros t Hs Ht P; [symmetry; apply Permutation_nil, P|]. destruct t as [|b t]; [apply Permutation_sym, Permutation_nil in P; discriminate|].
  unfold ascending in *. inversion Hs as [|? ? Hs1 Hs2]; subst. inversion Ht as [|? ? Ht1 Ht2]; subst. rewrite Forall_forall in *.
  assert (E : a = b).
  { assert (Ia : In a (b :: t)) by (apply (Permutation_in _ P); left; reflexivity). assert (Ib : In b (a :: s)) by (apply (Permutation_in _ (Permutation_sym P)); left; reflexivity).
    destruct Ia as [->|Ia]; [reflexivity|]. destruct Ib as [->|Ib]; [reflexivity|]. specialize (Hs2 b Ib). specialize (Ht2 a Ia). lra. }
  subst b. f_equal. apply IH; try assumption. apply (Permutation_cons_inv P).
Qed.
Fixpoint ins (a : R) (l : list R) : list R := match l with [] => [a] | b :: r => if Rle_dec a b then a :: b :: r else b :: ins a r end.
Fixpoint isort (l : list R) : list R := match l with [] => [] | a :: r => ins a (isort r) end.
Lemma ins_perm a l : Permutation (ins a l) (a :: l).
Proof. induction l as [|b l IH]; [reflexivity|]. cbn. destruct (Rle_dec a b); [reflexivity|]. rewrite IH. apply perm_swap. Qed.
Lemma isort_perm l : Permutation (isort l) l.
Proof. induction l as [|a l IH]; [reflexivity|]. cbn. rewrite ins_perm. constructor. exact IH. Qed.
Lemma ins_asc a l : ascending l -> ascending (ins a l).
Proof.
  unfold ascending. induction l as [|b l IH]; intros H; cbn; [constructor; constructor|]. inversion H as [|? ? H1 H2]; subst. destruct (Rle_dec a b) as [C|C].
  - constructor; [exact H|]. constructor; [exact C|]. eapply Forall_impl; [|exact H2]. cbn. intros; lra.
  - constructor; [apply IH, H1|]. rewrite Forall_forall in *. intros x Hx. apply (Permutation_in _ (ins_perm a l)) in Hx. destruct Hx as [<-|Hx]; [lra|apply H2, Hx].
Qed.
Lemma isort_asc l : ascending (isort l).
Proof. induction l as [|a l IH]; [constructor|]. cbn. apply ins_asc, IH. Qed.
Lemma asc_app s v t : ascending s -> ascending t -> (forall w, In w s -> w <= v) -> (forall w, In w t -> v <= w) -> ascending (s ++ v :: t).
Proof.
  unfold ascending. intros Hs Ht H1 H2. induction s as [|a s IH]; cbn; [constructor; [exact Ht|apply Forall_forall; exact H2]|].
  inversion Hs as [|? ? Hs1 Hs2]; subst. constructor; [apply IH; [exact Hs1|intros w Hw; apply H1; right; exact Hw]|]. rewrite Forall_forall in *. intros w Hw. apply in_app_iff in Hw.
  pose proof (H1 a (or_introl eq_refl)). destruct Hw as [Hw|[<-|Hw]]; [apply Hs2, Hw|lra|specialize (H2 w Hw); lra].
Qed.
Lemma nth_split_at {A} (l : list A) : forall n v, nth_error l n = Some v -> l = firstn n l ++ v :: skipn (S n) l.
Proof. induction l as [|a l IH]; intros n v E; [destruct n; discriminate|]. destruct n as [|n]; [cbn in E; injection E as ->; reflexivity|]. cbn in E. cbn [firstn skipn app]. f_equal. apply IH, E. Qed.
Lemma nth_first {A} h : forall (s : list A) k, (k < h)%nat -> nth_error (firstn h s) k = nth_error s k.
Proof. induction h as [|h IH]; intros s k K; [lia|]. destruct s as [|z s]; [destruct k; reflexivity|]. destruct k as [|k]; [reflexivity|]. cbn. apply IH. lia. Qed.
Lemma asc_nth s : ascending s -> forall k i v w, (k <= i)%nat -> nth_error s k = Some v -> nth_error s i = Some w -> v <= w.
Proof.
  intros A. unfold ascending in A. induction A as [|z s A IH F]; intros k i v w K Hk Hi; [destruct k; discriminate|]. destruct k as [|k], i as [|i]; cbn in *; try lia.
  - assert (v = w) by congruence. lra.
  - injection Hk as ->. rewrite Forall_forall in F. apply F. apply (nth_error_In _ _ Hi).
  - apply (IH k i); [lia|exact Hk|exact Hi].
Qed.
(** element [n] of the sorted list, for the result of nth_element *)
Lemma nth_element_split f l n : nth_element_contract f -> (n < length l)%nat -> exists v s, nth_error (f l n) n = Some v /\ Permutation s l /\ ascending s /\ nth_error s n = Some v /\
  Permutation (firstn n s) (firstn n (f l n)) /\ length (firstn n (f l n)) = n.
Proof.
  intros C H. destruct (C l n H) as (P & v & Ev & L & U). set (l' := f l n) in *. assert (Ll : length l' = length l) by (apply Permutation_length, P).
  exists v, (isort (firstn n l') ++ v :: isort (skipn (S n) l')).
  assert (E : l' = firstn n l' ++ v :: skipn (S n) l').
  { apply nth_split_at, Ev. }
  assert (Lf : length (firstn n l') = n) by (rewrite firstn_length; lia). assert (Li : length (isort (firstn n l')) = n) by (rewrite (Permutation_length (isort_perm _)); exact Lf).
  split; [exact Ev|]. split; [|split; [|split; [|split]]].
  - rewrite <- P. rewrite E at 3. apply Permutation_app; [apply isort_perm|]. constructor. apply isort_perm.
  - apply asc_app; [apply isort_asc|apply isort_asc| |].
    + intros w Hw. apply L. apply (Permutation_in _ (isort_perm _)), Hw.
    + intros w Hw. apply U. apply (Permutation_in _ (isort_perm _)), Hw.
  - rewrite nth_error_app2 by lia. rewrite Li, Nat.sub_diag. reflexivity.
  - rewrite firstn_app, Li, Nat.sub_diag. rewrite firstn_all2 by lia. cbn [firstn]. rewrite app_nil_r. apply isort_perm.
  - exact Lf.
Qed.
Lemma max_from_spec l : forall best bv i all, nth_error all best = Some bv -> skipn i all = l -> (best < i)%nat -> (forall k w, (k < i)%nat -> nth_error all k = Some w -> w <= bv) -> (forall k w, (k < best)%nat -> nth_error all k = Some w -> w < bv) ->
  exists v, nth_error all (max_from best bv i l) = Some v /\ (forall k w, nth_error all k = Some w -> w <= v) /\ (forall k w, (k < max_from best bv i l)%nat -> nth_error all k = Some w -> w < v).
Proof.
  induction l as [|a l IH]; intros best bv i all Hb Hs Hi Hk Hf.
  - cbn. exists bv. split; [exact Hb|]. split; [|exact Hf]. intros k w Hw. apply (Hk k w); [|exact Hw]. assert (L : (length all <= i)%nat). { destruct (Nat.lt_ge_cases i (length all)) as [C|C]; [|exact C]. assert (Z : length (skipn i all) = 0%nat) by (rewrite Hs; reflexivity). rewrite skipn_length in Z. lia. }
    assert (k < length all)%nat by (apply nth_error_Some; congruence). lia.
  - assert (Ea : nth_error all i = Some a /\ skipn (S i) all = l).
    { clear - Hs. revert i Hs. induction all as [|z all IH]; intros i Hs; [destruct i; discriminate|]. destruct i as [|i]; [cbn in Hs; injection Hs as -> ->; split; reflexivity|]. cbn in *. apply IH, Hs. }
    destruct Ea as [Ea Es]. cbn [max_from]. destruct (Rlt_dec bv a) as [C|C]; apply IH; try assumption; try lia.
    + intros k w Hk1 Hk2. destruct (Nat.eq_dec k i) as [->|N]; [assert (w = a) by congruence; lra|]. specialize (Hk k w ltac:(lia) Hk2). lra.
    + intros k w Hk1 Hk2. specialize (Hk k w Hk1 Hk2). lra.
    + intros k w Hk1 Hk2. destruct (Nat.eq_dec k i) as [->|N]; [assert (w = a) by congruence; lra|]. apply (Hk k w); [lia|exact Hk2].
Qed.
Lemma min_from_spec l : forall best bv i all, nth_error all best = Some bv -> skipn i all = l -> (best < i)%nat -> (forall k w, (k < i)%nat -> nth_error all k = Some w -> bv <= w) -> (forall k w, (k < best)%nat -> nth_error all k = Some w -> bv < w) ->
  exists v, nth_error all (min_from best bv i l) = Some v /\ (forall k w, nth_error all k = Some w -> v <= w) /\ (forall k w, (k < min_from best bv i l)%nat -> nth_error all k = Some w -> v < w).
Proof.
  induction l as [|a l IH]; intros best bv i all Hb Hs Hi Hk Hf.
  - cbn. exists bv. split; [exact Hb|]. split; [|exact Hf]. intros k w Hw. apply (Hk k w); [|exact Hw]. assert (L : (length all <= i)%nat). { destruct (Nat.lt_ge_cases i (length all)) as [C|C]; [|exact C]. assert (Z : length (skipn i all) = 0%nat) by (rewrite Hs; reflexivity). rewrite skipn_length in Z. lia. }
    assert (k < length all)%nat by (apply nth_error_Some; congruence). lia.
  - assert (Ea : nth_error all i = Some a /\ skipn (S i) all = l).
    { clear - Hs. revert i Hs. induction all as [|z all IH]; intros i Hs; [destruct i; discriminate|]. destruct i as [|i]; [cbn in Hs; injection Hs as -> ->; split; reflexivity|]. cbn in *. apply IH, Hs. }
    destruct Ea as [Ea Es]. cbn [min_from]. destruct (Rlt_dec a bv) as [C|C]; apply IH; try assumption; try lia.
    + intros k w Hk1 Hk2. destruct (Nat.eq_dec k i) as [->|N]; [assert (w = a) by congruence; lra|]. specialize (Hk k w ltac:(lia) Hk2). lra.
    + intros k w Hk1 Hk2. specialize (Hk k w Hk1 Hk2). lra.
    + intros k w Hk1 Hk2. destruct (Nat.eq_dec k i) as [->|N]; [assert (w = a) by congruence; lra|]. apply (Hk k w); [lia|exact Hk2].
Qed.
Lemma extremes_assembled l : l <> [] ->
  (exists v, nth_error l (min_element l) = Some v /\ min_value l = Ok v /\ (forall k w, nth_error l k = Some w -> v <= w) /\ (forall k w, (k < min_element l)%nat -> nth_error l k = Some w -> v < w)) /\
  (exists v, nth_error l (max_element l) = Some v /\ max_value l = Ok v /\ (forall k w, nth_error l k = Some w -> w <= v) /\ (forall k w, (k < max_element l)%nat -> nth_error l k = Some w -> w < v)).
Proof.
  intros H. destruct l as [|a l]; [congruence|]. unfold min_value, max_value. cbn [min_element max_element]. split.
  - destruct (min_from_spec l 0 a 1 (a :: l)) as (v & E1 & E2 & E3); try reflexivity; try lia.
    + intros k w Hk E. assert (k = 0)%nat as -> by lia. cbn in E. injection E as ->. lra.
    + exists v. split; [exact E1|]. split; [unfold vec_get; rewrite E1; reflexivity|]. split; [exact E2|exact E3].
  - destruct (max_from_spec l 0 a 1 (a :: l)) as (v & E1 & E2 & E3); try reflexivity; try lia.
    + intros k w Hk E. assert (k = 0)%nat as -> by lia. cbn in E. injection E as ->. lra.
    + exists v. split; [exact E1|]. split; [unfold vec_get; rewrite E1; reflexivity|]. split; [exact E2|exact E3].
Qed.
Lemma odd_mod n : (n mod 2 =? 1)%nat = Nat.odd n.
Proof. destruct (Nat.odd n) eqn:E; [apply Nat.odd_spec in E; destruct E as [k ->]; apply Nat.eqb_eq|apply Nat.eqb_neq].
  - replace (2 * k + 1)%nat with (1 + k * 2)%nat by lia. rewrite Nat.mod_add by lia. reflexivity.
  - rewrite <- Nat.negb_even in E. apply negb_false_iff, Nat.even_spec in E. destruct E as [k ->]. rewrite Nat.mul_comm, Nat.mod_mul by lia. discriminate.
Qed.
Lemma median_ok f l : nth_element_contract f -> l <> [] -> exists m, median f l = Ok m /\ is_median l m.
Proof.
  intros C H. assert (L : (0 < length l)%nat) by (destruct l; [congruence|cbn; lia]). assert (Hh : (length l / 2 < length l)%nat) by (apply Nat.div_lt; lia).
  unfold median. destruct l as [|a l0] eqn:E; [congruence|]. rewrite <- E in *. clear E. cbv zeta. set (h := (length l / 2)%nat) in *.
  destruct (nth_element_split f l h C Hh) as (v & s & Ev & P & A & Es & Pf & Lf). rewrite odd_mod. destruct (Nat.odd (length l)) eqn:O.
  - exists v. unfold vec_get. rewrite Ev. split; [reflexivity|]. exists s. split; [exact P|]. split; [exact A|]. rewrite O. exact Es.
  - assert (Hpos : (1 <= h)%nat). { assert (length l <> 1%nat) by (intros Z; rewrite Z in O; discriminate). apply Nat.div_le_lower_bound; lia. }
    unfold vec_get at 1. rewrite Ev. cbn [obind]. assert (Nf : firstn h (f l h) <> []) by (intros Z; rewrite Z in Lf; change (0 = h)%nat in Lf; lia).
    destruct (extremes_assembled _ Nf) as [_ (mx & Em1 & Em2 & Em3 & _)]. rewrite Em2. cbn [obind]. eexists. split; [reflexivity|]. exists s. split; [exact P|]. split; [exact A|]. rewrite O. exists mx, v.
    split; [|split; [exact Es|unfold Rdiv; ring]]. fold h.
    assert (Ls : length s = length l) by (apply Permutation_length, P). destruct (nth_error s (h - 1)) as [w|] eqn:Ew; [|apply nth_error_None in Ew; lia]. f_equal.
    (* the last of the first h elements of s is the largest of them *)
    assert (Iw : In w (firstn h s)) by (apply (nth_error_In _ (h - 1)); rewrite nth_first by lia; exact Ew).
    apply Rle_antisym.
    + apply (Permutation_in _ Pf) in Iw. apply In_nth_error in Iw. destruct Iw as [k Hk]. apply (Em3 k w Hk).
    + assert (Imx : In mx (firstn h s)) by (apply (Permutation_in _ (Permutation_sym Pf)); apply (nth_error_In _ _ Em1)).
      apply In_nth_error in Imx. destruct Imx as [k Hk]. assert (Kh : (k < h)%nat). { assert (k < length (firstn h s))%nat by (apply nth_error_Some; congruence). rewrite firstn_length in *. lia. }
      rewrite nth_first in Hk by exact Kh. apply (asc_nth s A k (h - 1)); [lia|exact Hk|exact Ew].
Qed.
Lemma median_unique l a b : is_median l a -> is_median l b -> a = b.
Proof.
  intros (s & Ps & As & Hs) (t & Pt & At & Ht). assert (s = t) as <- by (apply asc_unique; [exact As|exact At|rewrite Ps; symmetry; exact Pt]).
  destruct (Nat.odd (length l)); [congruence|]. destruct Hs as (a1 & b1 & E1 & E2 & ->), Ht as (a2 & b2 & E3 & E4 & ->). congruence.
Qed.
Lemma nth_app_first {A} (s r : list A) k i : (i < k)%nat -> (k <= length s)%nat -> nth_error (firstn k s ++ r) i = nth_error s i.
Proof. intros H K. rewrite nth_error_app1 by (rewrite firstn_length; lia). apply nth_first, H. Qed.
Lemma median_slow_ok f l : partial_sort_contract f -> l <> [] -> exists m, median_slow f l = Ok m /\ is_median l m.
Proof.
  intros C H. assert (L : (0 < length l)%nat) by (destruct l; [congruence|cbn; lia]). assert (Hh : (length l / 2 < length l)%nat) by (apply Nat.div_lt; lia). unfold median_slow. cbv zeta.
  destruct (Nat.ltb_spec 0 (length l)) as [_|]; [|lia]. rewrite odd_mod. set (h := (length l / 2)%nat) in *. destruct (C l (repeat 0 (h + 1))) as (s & P & A & E). rewrite repeat_length in E. rewrite E.
  assert (Ls : length s = length l) by (apply Permutation_length, P). assert (G : forall i, (i <= h)%nat -> exists v, nth_error s i = Some v /\ vec_get (firstn (h + 1) s ++ skipn (length l) (repeat 0 (h + 1))) i = Ok v).
  { intros i Hi. destruct (nth_error s i) as [v|] eqn:Ev; [|apply nth_error_None in Ev; lia]. exists v. split; [reflexivity|]. unfold vec_get. rewrite nth_app_first by lia. rewrite Ev. reflexivity. }
  destruct (Nat.odd (length l)) eqn:O.
  - destruct (G h (le_n _)) as (v & Ev & Eg). rewrite Eg. exists v. split; [reflexivity|]. exists s. rewrite O. auto.
  - destruct (G h (le_n _)) as (b & Eb & Eg). destruct (G (h - 1)%nat ltac:(lia)) as (a & Ea & Eg'). rewrite Eg, Eg'. cbn [obind]. eexists. split; [reflexivity|]. exists s. rewrite O. split; [exact P|]. split; [exact A|]. exists a, b. split; [exact Ea|]. split; [exact Eb|]. unfold Rdiv. ring.
Qed.
Lemma median_assembled nth_element partial_sort_copy l : nth_element_contract nth_element -> partial_sort_contract partial_sort_copy ->
  (l = [] -> median nth_element l = Throw /\ median_slow partial_sort_copy l = Throw) /\
  (l <> [] -> exists m, is_median l m /\ (forall m', is_median l m' -> m' = m) /\ median nth_element l = Ok m /\ median_slow partial_sort_copy l = Ok m).
Proof.
  intros C1 C2. split; [intros ->; split; reflexivity|]. intros H. destruct (median_ok _ l C1 H) as (m & E1 & M1). destruct (median_slow_ok _ l C2 H) as (m2 & E2 & M2).
  exists m. split; [exact M1|]. split; [intros m' M'; apply (median_unique l); assumption|]. split; [exact E1|]. rewrite E2. f_equal. apply (median_unique l); assumption.
Qed.
Lemma sorted_indices_assembled {A} sort (d : A) cont pred : (forall lt, sort_contract lt (sort lt)) -> strict_weak pred ->
  Permutation (sorted_indices sort d cont pred) (seq 0 (length cont)) /\
  forall i j a b, (i < j)%nat -> nth_error (map (fun k => nth k cont d) (sorted_indices sort d cont pred)) i = Some a -> nth_error (map (fun k => nth k cont d) (sorted_indices sort d cont pred)) j = Some b -> pred b a = false.
Proof.
  intros C (W1 & W2 & W3). unfold sorted_indices. destruct (C (fun i1 i2 => pred (nth i1 cont d) (nth i2 cont d))) with (l := seq 0 (length cont)) as [P S].
  { split; [intros; apply W1|]. split; [intros a b c; apply W2|intros a b c; apply W3]. } split; [exact P|].
  set (r := sort _ _) in *. clearbody r. clear P. induction S as [|x r S IH F]; intros i j a b H Ha Hb; [destruct i; discriminate|]. destruct j as [|j]; [lia|]. destruct i as [|i]; cbn in Ha, Hb.
  - injection Ha as <-. apply nth_error_In, in_map_iff in Hb. destruct Hb as (k & <- & Hk). rewrite Forall_forall in F. apply (F k Hk).
  - apply (IH i j a b); [lia|exact Ha|exact Hb].
Qed.
(** the average of the [count] smallest elements, missing elements counting as zero *)
Lemma top_average_ok f l count : partial_sort_contract f -> (0 < count)%nat -> exists s, Permutation s l /\ ascending s /\ top_average f l count = Ok (total (firstn count s) / INR count).
Proof.
  intros C H. destruct (C l (repeat 0 count)) as (s & P & A & E). rewrite repeat_length in E. exists s. split; [exact P|]. split; [exact A|]. unfold top_average. rewrite E. assert (Ls : length s = length l) by (apply Permutation_length, P).
  assert (Len : length (firstn count s ++ skipn (length l) (repeat 0 count)) = count) by (rewrite app_length, firstn_length, skipn_length, repeat_length; lia).
  rewrite average_ok by (intros Z; rewrite Z in Len; cbn in Len; lia). rewrite Len, total_app. f_equal. f_equal. assert (Z : total (skipn (length l) (repeat 0 count)) = 0); [|lra].
  generalize (length l). intros k. clear. revert k. induction count as [|c IH]; intros k; [destruct k; reflexivity|]. destruct k as [|k]; [|apply IH]. cbn [skipn]. cbn. specialize (IH 0%nat). cbn [skipn] in IH. unfold total in *. rewrite IH. ring.
Qed.
Lemma firstn_app_perm {A} n (s : list A) : Permutation (firstn n s ++ skipn n s) s.
Proof. rewrite firstn_skipn. reflexivity. Qed.
Lemma top_average_assembled f l count : partial_sort_contract f -> (0 < count <= length l)%nat ->
  exists low rest m, Permutation (low ++ rest) l /\ length low = count /\ (forall v w, In v low -> In w rest -> v <= w) /\ mean_of low m /\ top_average f l count = Ok m.
Proof.
  intros C H. destruct (top_average_ok f l count C ltac:(lia)) as (s & P & A & E). assert (Ls : length s = length l) by (apply Permutation_length, P). exists (firstn count s), (skipn count s), (total (firstn count s) / INR count).
  assert (Lf : length (firstn count s) = count) by (rewrite firstn_length; lia).
  split; [rewrite firstn_app_perm; exact P|]. split; [exact Lf|]. split; [|split; [|exact E]].
  - clear - A. unfold ascending in A. revert count. induction A as [|z s A IH F]; intros count v w Hv Hw; [destruct count; destruct Hv|]. destruct count as [|c]; [destruct Hv|]. cbn in Hv, Hw. destruct Hv as [<-|Hv]; [|apply (IH c); assumption].
    rewrite Forall_forall in F. apply F. rewrite <- (firstn_skipn c s). apply in_or_app. right. exact Hw.
  - unfold mean_of. rewrite Lf. field. apply not_0_INR. lia.
Qed.

(** ** least squares *)
Lemma combine_fst (xs ys : list R) : length xs = length ys -> map fst (combine xs ys) = xs.
Proof. revert ys. induction xs as [|x xs IH]; intros [|y ys] H; try discriminate; [reflexivity|]. cbn in *. f_equal. apply IH. lia. Qed.
Lemma combine_snd (xs ys : list R) : length xs = length ys -> map snd (combine xs ys) = ys.
Proof. revert ys. induction xs as [|x xs IH]; intros [|y ys] H; try discriminate; [reflexivity|]. cbn in *. f_equal. apply IH. lia. Qed.
Definition residual (o s : R) (p : R * R) : R := snd p - (o + s * fst p).
Lemma sse_split o s o' s' xs ys : total (map (residual o s) (combine xs ys)) = 0 -> total (map (fun p => residual o s p * fst p) (combine xs ys)) = 0 ->
  sse o' s' xs ys = sse o s xs ys + total (map (fun p => ((o' - o) + (s' - s) * fst p) * ((o' - o) + (s' - s) * fst p)) (combine xs ys)).
Proof.
  intros H1 H2. unfold sse. generalize dependent (combine xs ys). intros P H1 H2.
  transitivity (total (map (fun p => (residual o s p * residual o s p + - (2) * (o' - o) * residual o s p) + (- (2) * (s' - s) * (residual o s p * fst p) + ((o' - o) + (s' - s) * fst p) * ((o' - o) + (s' - s) * fst p))) P)).
  - apply total_ext. intros p _. unfold residual. ring.
  - rewrite 3 total_plus. rewrite !(total_scal (- (2) * (o' - o))), (total_scal (- (2) * (s' - s))). rewrite H1, H2.
    rewrite (total_ext (fun p => residual o s p * residual o s p) (fun p => (snd p - (o + s * fst p)) ^ 2)) by (intros p _; unfold residual; ring). ring.
Qed.
Definition two_distinct (xs : list R) : Prop := exists a b, In a xs /\ In b xs /\ a <> b.
(** the least squares line, if the x values are not all equal *)
Lemma least_squares o s xs ys : length xs = length ys -> two_distinct xs -> total (map (residual o s) (combine xs ys)) = 0 -> total (map (fun p => residual o s p * fst p) (combine xs ys)) = 0 ->
  (forall o' s', sse o s xs ys <= sse o' s' xs ys) /\ (forall o' s', sse o' s' xs ys <= sse o s xs ys -> o' = o /\ s' = s).
Proof.
  intros L (a & b & Ia & Ib & D) H1 H2. split; intros o' s'.
  - rewrite (sse_split o s o' s') by assumption. pose proof (total_sq_nonneg (fun p : R * R => (o' - o) + (s' - s) * fst p) (combine xs ys)). lra.
  - rewrite (sse_split o s o' s') by assumption. intros H. pose proof (total_sq_nonneg (fun p : R * R => (o' - o) + (s' - s) * fst p) (combine xs ys)) as P.
    assert (Z : total (map (fun p : R * R => ((o' - o) + (s' - s) * fst p) * ((o' - o) + (s' - s) * fst p)) (combine xs ys)) = 0) by lra. pose proof (total_sq_zero _ _ Z) as F. cbv beta in F.
    rewrite <- (combine_fst xs ys L) in Ia, Ib. apply in_map_iff in Ia, Ib. destruct Ia as (pa & <- & Ia), Ib as (pb & <- & Ib). pose proof (F pa Ia) as Fa. pose proof (F pb Ib) as Fb.
    assert (s' = s). { apply Rminus_diag_uniq. apply (Rmult_eq_reg_r (fst pa - fst pb)); [|lra]. lra. } subst s'. split; [|reflexivity]. lra.
Qed.
Lemma normal_equations xs ys mx my num den s : length xs = length ys -> mean_of xs mx -> mean_of ys my -> num = total (map (fun p => (fst p - mx) * (snd p - my)) (combine xs ys)) -> den = total (map (fun p => (fst p - mx) * (fst p - mx)) (combine xs ys)) -> s * den = num ->
  total (map (residual (my - s * mx) s) (combine xs ys)) = 0 /\ total (map (fun p => residual (my - s * mx) s p * fst p) (combine xs ys)) = 0.
Proof.
  intros L Mx My En Ed Es. unfold mean_of in *. assert (Lc : length (combine xs ys) = length xs) by (rewrite combine_length; lia).
  assert (Zx : total (map (fun p => fst p - mx) (combine xs ys)) = 0). { transitivity (total (map (fun p : R * R => fst p + - mx) (combine xs ys))); [apply total_ext; intros; ring|]. rewrite total_plus, total_const, combine_fst, Lc by exact L. lra. }
  assert (Zy : total (map (fun p => snd p - my) (combine xs ys)) = 0). { transitivity (total (map (fun p : R * R => snd p + - my) (combine xs ys))); [apply total_ext; intros; ring|]. rewrite total_plus, total_const, combine_snd, Lc, L by exact L. lra. }
  assert (R0 : total (map (residual (my - s * mx) s) (combine xs ys)) = 0).
  { transitivity (total (map (fun p : R * R => (snd p - my) + - s * (fst p - mx)) (combine xs ys))); [apply total_ext; intros; unfold residual; ring|]. rewrite total_plus, total_scal, Zx, Zy. ring. }
  split; [exact R0|]. transitivity (total (map (fun p : R * R => ((fst p - mx) * (snd p - my) + - s * ((fst p - mx) * (fst p - mx))) + mx * residual (my - s * mx) s p) (combine xs ys))); [apply total_ext; intros; unfold residual; ring|].
  rewrite 2 total_plus, 2 total_scal, R0, <- En, <- Ed. lra.
Qed.
Lemma den_zero (xs ys : list R) mx : length xs = length ys -> total (map (fun p : R * R => (fst p - mx) * (fst p - mx)) (combine xs ys)) = 0 -> forall a, In a xs -> a = mx.
Proof.
  intros L Z a Ia. pose proof (total_sq_zero (fun p : R * R => fst p - mx) _ Z) as F. cbv beta in F. rewrite <- (combine_fst xs ys L) in Ia. apply in_map_iff in Ia. destruct Ia as (p & <- & Ip). specialize (F p Ip). lra.
Qed.
Lemma mean_exists l : l <> [] -> mean_of l (total l / INR (length l)).
Proof. intros H. pose proof (len_pos l H). unfold mean_of. field. lra. Qed.
Lemma linear_regression_ok xs ys : length xs = length ys -> xs <> [] -> two_distinct xs ->
  exists o s, linear_regression xs ys = Ok (o, s) /\ total (map (residual o s) (combine xs ys)) = 0 /\ total (map (fun p => residual o s p * fst p) (combine xs ys)) = 0.
Proof.
  intros L N D. assert (N' : ys <> []) by (intros ->; destruct xs; [congruence|discriminate]). unfold linear_regression. rewrite L, Nat.eqb_refl. rewrite !average_ok by assumption. cbn [obind]. cbv zeta.
  set (mx := total xs / INR (length xs)). set (my := total ys / INR (length ys)). rewrite (fold_total (fun p : R * R => (fst p - mx) * (snd p - my))), (fold_total (fun p : R * R => (fst p - mx) * (fst p - mx))). rewrite !Rplus_0_l.
  set (num := total (map (fun p : R * R => (fst p - mx) * (snd p - my)) (combine xs ys))). set (den := total (map (fun p : R * R => (fst p - mx) * (fst p - mx)) (combine xs ys))).
  assert (Dn : den <> 0). { intros Z. destruct D as (a & b & Ia & Ib & Nab). apply Nab. pose proof (den_zero xs ys mx L Z a Ia). pose proof (den_zero xs ys mx L Z b Ib). congruence. }
  unfold div_checked. destruct (Req_EM_T den 0) as [Z|_]; [contradiction|]. cbn [obind]. exists (my - num / den * mx), (num / den). split; [reflexivity|].
  apply (normal_equations xs ys mx my num den (num / den)); try reflexivity; try assumption; [apply mean_exists, N|apply mean_exists, N'|]. field. exact Dn.
Qed.
Lemma total_all (l : list R) (c : R) : (forall v, In v l -> v = c) -> total l = c * INR (length l).
Proof. intros H. induction l as [|a l IH]; [cbn; ring|]. cbn [length]. rewrite S_INR. unfold total in *. cbn [fold_right]. rewrite IH by (intros v Hv; apply H; right; exact Hv). rewrite (H a (or_introl eq_refl)). ring. Qed.
Lemma linear_regression_assembled xs ys :
  (length xs <> length ys \/ xs = [] -> linear_regression xs ys = Throw) /\
  (length xs = length ys -> xs <> [] -> (forall a b, In a xs -> In b xs -> a = b) -> linear_regression xs ys = UB) /\
  (length xs = length ys -> (exists a b, In a xs /\ In b xs /\ a <> b) ->
     exists o s, linear_regression xs ys = Ok (o, s) /\ (forall o' s', sse o s xs ys <= sse o' s' xs ys) /\ (forall o' s', sse o' s' xs ys <= sse o s xs ys -> o' = o /\ s' = s)).
Proof.
  split; [|split].
  - unfold linear_regression. intros [H| ->]; [apply Nat.eqb_neq in H; rewrite H; reflexivity|]. destruct (_ =? _)%nat; reflexivity.
  - intros L N H. assert (N' : ys <> []) by (intros ->; destruct xs; [congruence|discriminate]). unfold linear_regression. rewrite L, Nat.eqb_refl. rewrite !average_ok by assumption. cbn [obind]. cbv zeta.
    rewrite (fold_total (fun p : R * R => (fst p - total xs / INR (length xs)) * (fst p - total xs / INR (length xs)))). rewrite Rplus_0_l.
    destruct xs as [|x0 xs0] eqn:E; [congruence|]. rewrite <- E in *. assert (M : total xs / INR (length xs) = x0). { rewrite (total_all xs x0); [field; pose proof (len_pos xs N); lra|]. intros v Hv. apply H; [exact Hv|rewrite E; left; reflexivity]. }
    rewrite M. assert (Z : total (map (fun p : R * R => (fst p - x0) * (fst p - x0)) (combine xs ys)) = 0).
    { rewrite (total_all _ 0); [ring|]. intros v Hv. apply in_map_iff in Hv. destruct Hv as (p & <- & Hp). assert (fst p = x0); [|nra]. apply H; [|rewrite E; left; reflexivity]. rewrite <- (combine_fst xs ys L). apply in_map, Hp. }
    rewrite Z. unfold div_checked. destruct (Req_EM_T 0 0) as [_|C]; [reflexivity|contradiction].
  - intros L D. assert (N : xs <> []) by (intros ->; destruct D as (a & b & [] & _)). destruct (linear_regression_ok xs ys L N D) as (o & s & E & H1 & H2). exists o, s. split; [exact E|]. apply least_squares; assumption.
Qed.

(** ** equidistant data *)
Definition grid (x0 h : R) (n : nat) : list R := map (fun i => x0 + INR i * h) (seq 0 n).
Lemma total_index n : total (map INR (seq 0 n)) = INR n * (INR n - 1) / 2.
Proof. induction n as [|n IH]; [cbn; field|]. rewrite seq_S, map_app, total_app, IH, S_INR. cbn [map]. unfold total. cbn [fold_right Nat.add]. field. Qed.
Lemma total_index2 n : total (map (fun i => INR i * INR i) (seq 0 n)) = INR n * (INR n - 1) * (2 * INR n - 1) / 6.
Proof. induction n as [|n IH]; [cbn; field|]. rewrite seq_S, map_app, total_app, IH, S_INR. cbn [map]. unfold total. cbn [fold_right Nat.add]. field. Qed.
Lemma grid_mean x0 h n : (0 < n)%nat -> mean_of (grid x0 h n) (x0 + (INR (n - 1) * h) / 2).
Proof.
  intros H. unfold mean_of, grid. rewrite map_length, seq_length. transitivity (total (map (fun i => h * INR i + x0) (seq 0 n))).
  - rewrite total_plus, total_scal, total_index, total_const, seq_length. rewrite minus_INR by lia. cbn [INR]. field.
  - apply total_ext. intros. ring.
Qed.
Lemma combine_total (xs ys : list R) (f : R -> R) : length xs = length ys -> total (map (fun p => f (fst p)) (combine xs ys)) = total (map f xs).
Proof. intros L. rewrite <- (combine_fst xs ys L) at 2. rewrite map_map. reflexivity. Qed.
Lemma grid_den x0 h n : (0 < n)%nat -> let mx := x0 + (INR (n - 1) * h) / 2 in total (map (fun x => (x - mx) * (x - mx)) (grid x0 h n)) = INR n * (INR n * INR n - 1) * h * h / 12.
Proof.
  intros H mx. unfold grid. rewrite map_map. transitivity (total (map (fun i => (h * h * (INR i * INR i) + (- (h * h * (INR n - 1))) * INR i) + h * h * (INR n - 1) * (INR n - 1) / 4) (seq 0 n))).
  - apply total_ext. intros i _. unfold mx. rewrite minus_INR by lia. cbn [INR]. field.
  - rewrite total_plus, total_plus, !total_scal, total_index, total_index2, total_const, seq_length. field.
Qed.
Lemma step_num mx my h ys : forall c x0, fst (fold_left (fun '(num, xval) y => (num + (xval - mx) * (y - my), xval + h)) ys (c, x0)) = c + total (map (fun p => (fst p - mx) * (snd p - my)) (combine (grid x0 h (length ys)) ys)).
Proof.
  induction ys as [|y ys IH]; intros c x0; cbn [fold_left]; [cbn; ring|]. rewrite IH. unfold grid. cbn [length seq map combine]. unfold total at 2. cbn [fold_right fst snd INR]. fold (total (map (fun p : R * R => (fst p - mx) * (snd p - my)) (combine (map (fun i => x0 + INR i * h) (seq 1 (length ys))) ys))).
  rewrite <- seq_shift, map_map. rewrite (map_ext (fun i => x0 + INR (S i) * h) (fun i => x0 + h + INR i * h)) by (intros i; rewrite S_INR; ring). ring.
Qed.
Lemma grid_distinct x0 h n : (2 <= n)%nat -> h <> 0 -> two_distinct (grid x0 h n).
Proof.
  intros Hn Hh. exists (x0 + INR 0 * h), (x0 + INR 1 * h). unfold grid. split; [|split].
  - apply (in_map (fun i => x0 + INR i * h)). apply in_seq. lia.
  - apply (in_map (fun i => x0 + INR i * h)). apply in_seq. lia.
  - cbn [INR]. intros E. apply Hh. lra.
Qed.
Lemma grid_length x0 h n : length (grid x0 h n) = n.
Proof. unfold grid. rewrite map_length, seq_length. reflexivity. Qed.
Lemma step_den n h : h <> 0 -> (0 < n)%nat -> let hs := INR (n - 1) * h / 2 in hs * (hs + h) * (2 * hs + h) / (3 * h) = INR n * (INR n * INR n - 1) * h * h / 12.
Proof. intros Hh Hn hs. unfold hs. rewrite minus_INR by lia. cbn [INR]. field. exact Hh. Qed.
Lemma linear_regression_step_eq ys x0 h : h <> 0 -> linear_regression_step ys x0 h = linear_regression (grid x0 h (length ys)) ys.
Proof.
  intros Hh. unfold linear_regression_step, linear_regression. rewrite grid_length, Nat.eqb_refl. cbv zeta. destruct ys as [|y0 ys0] eqn:E; [reflexivity|]. rewrite <- E. assert (N : ys <> []) by (rewrite E; discriminate). clear E y0 ys0.
  assert (Hn : (0 < length ys)%nat) by (destruct ys; [congruence|cbn; lia]). assert (Ng : grid x0 h (length ys) <> []) by (intros Z; apply (f_equal (@length R)) in Z; rewrite grid_length in Z; cbn in Z; lia).
  rewrite (average_ok (grid x0 h (length ys))) by exact Ng. rewrite average_ok by exact N. cbn [obind].
  assert (Mx : total (grid x0 h (length ys)) / INR (length (grid x0 h (length ys))) = x0 + INR (length ys - 1) * h / 2).
  { rewrite <- (grid_mean x0 h (length ys) Hn). rewrite grid_length. field. pose proof (len_pos ys N). lra. }
  rewrite Mx. set (mx := x0 + INR (length ys - 1) * h / 2). set (my := total ys / INR (length ys)). rewrite step_num, (fold_total (fun p : R * R => (fst p - mx) * (snd p - my))), (fold_total (fun p : R * R => (fst p - mx) * (fst p - mx))). rewrite !Rplus_0_l.
  rewrite (combine_total _ ys (fun x => (x - mx) * (x - mx))) by (rewrite grid_length; reflexivity). pose proof (grid_den x0 h (length ys) Hn) as GD. cbv zeta in GD. fold mx in GD. rewrite GD.
  unfold div_checked at 1. destruct (Req_EM_T (3 * h) 0) as [Z|_]; [exfalso; lra|]. cbn [obind]. rewrite (step_den (length ys) h Hh Hn). reflexivity.
Qed.
Lemma linear_regression_step_assembled ys x0 h :
  (ys = [] -> linear_regression_step ys x0 h = Throw) /\ (length ys = 1%nat -> linear_regression_step ys x0 h = UB) /\
  ((2 <= length ys)%nat -> h <> 0 -> let xs := map (fun i => x0 + INR i * h) (seq 0 (length ys)) in
     exists o s, linear_regression_step ys x0 h = Ok (o, s) /\ linear_regression xs ys = Ok (o, s) /\ (forall o' s', sse o s xs ys <= sse o' s' xs ys) /\ (forall o' s', sse o' s' xs ys <= sse o s xs ys -> o' = o /\ s' = s)).
Proof.
  split; [intros ->; reflexivity|]. split.
  - intros L. destruct ys as [|y [|]]; try discriminate. unfold linear_regression_step. rewrite average_ok by discriminate. cbn [obind]. cbv zeta. unfold div_checked at 1. destruct (Req_EM_T (3 * h) 0) as [Z|Nz]; [reflexivity|]. cbn [obind length Nat.sub INR]. unfold div_checked. destruct (Req_EM_T _ 0) as [_|C]; [reflexivity|]. exfalso. apply C. field. lra.
  - intros L Hh xs. change xs with (grid x0 h (length ys)). rewrite linear_regression_step_eq by exact Hh. assert (Ng : grid x0 h (length ys) <> []) by (intros Z; apply (f_equal (@length R)) in Z; rewrite grid_length in Z; cbn in Z; lia).
    destruct (linear_regression_ok (grid x0 h (length ys)) ys (grid_length _ _ _) Ng (grid_distinct x0 h _ L Hh)) as (o & s & E & H1 & H2). exists o, s. split; [exact E|]. split; [exact E|]. apply least_squares; try assumption; [apply grid_length|apply grid_distinct; assumption].
Qed.

(** ** medians of data of which most values are equal *)
Lemma count_bound (l : list R) v : (count_occ Req_EM_T l v <= length l)%nat.
Proof. induction l as [|a l IH]; cbn; [lia|]. destruct (Req_EM_T a v); lia. Qed.
Lemma count_below s v i w : ascending s -> nth_error s i = Some w -> w < v -> (count_occ Req_EM_T s v <= length s - S i)%nat.
Proof.
  intros A E Hw. assert (Pre : count_occ Req_EM_T (firstn (S i) s) v = 0%nat).
  { apply count_occ_not_In. intros I. apply In_nth_error in I. destruct I as [k Hk]. assert (K : (k < S i)%nat). { assert (k < length (firstn (S i) s))%nat by (apply nth_error_Some; congruence). rewrite firstn_length in *. lia. }
    rewrite nth_first in Hk by exact K. pose proof (asc_nth s A k i v w ltac:(lia) Hk E). lra. }
  rewrite <- (firstn_skipn (S i) s), count_occ_app, Pre, firstn_skipn. etransitivity; [apply count_bound|]. rewrite skipn_length. lia.
Qed.
Lemma nth_skip {A} i : forall (s : list A) k, nth_error (skipn i s) k = nth_error s (i + k).
Proof. induction i as [|i IH]; intros s k; [reflexivity|]. destruct s as [|z s]; [destruct k; reflexivity|]. apply IH. Qed.
Lemma count_above s v i w : ascending s -> nth_error s i = Some w -> v < w -> (count_occ Req_EM_T s v <= i)%nat.
Proof.
  intros A E Hw. assert (Post : count_occ Req_EM_T (skipn i s) v = 0%nat).
  { apply count_occ_not_In. intros I. apply In_nth_error in I. destruct I as [k Hk]. rewrite nth_skip in Hk. pose proof (asc_nth s A i (i + k) w v ltac:(lia) E Hk). lra. }
  rewrite <- (firstn_skipn i s), count_occ_app, Post, Nat.add_0_r. etransitivity; [apply count_bound|]. rewrite firstn_length. lia.
Qed.
Lemma majority_median l m v : is_median l m -> (length l < 2 * count_occ Req_EM_T l v)%nat -> m = v.
Proof.
  intros (s & P & A & H) C. assert (Cs : count_occ Req_EM_T s v = count_occ Req_EM_T l v) by (apply (proj1 (Permutation_count_occ Req_EM_T s l) P)). assert (Ls : length s = length l) by (apply Permutation_length, P).
  rewrite <- Cs in C. assert (K : forall i w, nth_error s i = Some w -> (length l <= 2 * S i)%nat -> (2 * i <= length l)%nat -> w = v).
  { intros i w E H1 H2. destruct (Rtotal_order w v) as [Lt|[Eq|Gt]]; [|exact Eq|].
    - pose proof (count_below s v i w A E Lt). lia.
    - pose proof (count_above s v i w A E Gt). lia. }
  pose proof (Nat.div_mod (length l) 2 ltac:(lia)) as D. pose proof (Nat.mod_upper_bound (length l) 2 ltac:(lia)) as U. destruct (Nat.odd (length l)) eqn:O.
  - apply (K _ _ H); lia.
  - rewrite <- odd_mod in O. apply Nat.eqb_neq in O. destruct H as (a & b & Ea & Eb & ->).
    assert (a = v) by (apply (K _ _ Ea); lia). assert (b = v) by (apply (K _ _ Eb); lia). subst. field.
Qed.
Lemma count_map (g : nat -> R) v G js : NoDup G -> incl G js -> (forall i, In i G -> g i = v) -> (length G <= count_occ Req_EM_T (map g js) v)%nat.
Proof.
  intros N I H. transitivity (length (filter (fun i => if Req_EM_T (g i) v then true else false) js)).
  - apply NoDup_incl_length; [exact N|]. intros i Hi. apply filter_In. split; [apply I, Hi|]. destruct (Req_EM_T (g i) v) as [|C]; [reflexivity|]. exfalso. apply C, H, Hi.
  - clear. induction js as [|j js IH]; cbn; [lia|]. destruct (Req_EM_T (g j) v); cbn; lia.
Qed.
Lemma collect_ok f g js : (forall j, In j js -> f j = Ok (g j)) -> collect f js = Ok (map g js).
Proof. induction js as [|j js IH]; intros H; [reflexivity|]. cbn. rewrite (H j (or_introl eq_refl)). cbn. rewrite IH by (intros k Hk; apply H; right; exact Hk). reflexivity. Qed.
Lemma collect_ex f js : (forall j, In j js -> exists v, f j = Ok v) -> exists g, (forall j, In j js -> f j = Ok (g j)) /\ collect f js = Ok (map g js).
Proof.
  intros H. exists (fun j => match f j with Ok v => v | _ => 0 end). assert (E : forall j, In j js -> f j = Ok match f j with Ok v => v | _ => 0 end) by (intros j Hj; destruct (H j Hj) as [v ->]; reflexivity).
  split; [exact E|]. apply collect_ok, E.
Qed.
(** ** median regression *)
Lemma differences_map f n k : differences (map f (seq k (S n))) = map (fun i => f (S i) - f i) (seq k n).
Proof. revert k. induction n as [|n IH]; intros k; [reflexivity|]. specialize (IH (S k)). cbn [seq map] in *. cbn [differences]. f_equal. exact IH. Qed.
Lemma map_seq_asc f n : (forall i j, (i <= j)%nat -> f i <= f j) -> forall k, ascending (map f (seq k n)).
Proof.
  intros H. unfold ascending. induction n as [|n IH]; intros k; [constructor|]. cbn. constructor; [apply IH|]. apply Forall_forall. intros w Hw. apply in_map_iff in Hw. destruct Hw as (j & <- & Hj). apply in_seq in Hj. apply H. lia.
Qed.
Lemma nth_map_seq (f : nat -> R) n i : (i < n)%nat -> nth_error (map f (seq 0 n)) i = Some (f i).
Proof. intros H. apply map_nth_error. rewrite nth_error_nth' with (d := 0%nat) by (rewrite seq_length; exact H). rewrite seq_nth by exact H. reflexivity. Qed.
Lemma rev_seq_map n : map (fun i => n - 1 - i)%nat (seq 0 n) = rev (seq 0 n).
Proof.
  induction n as [|n IH]; [reflexivity|]. rewrite seq_S at 2. rewrite rev_app_distr. cbn [rev app seq map Nat.add]. rewrite <- IH. f_equal; [lia|]. rewrite <- seq_shift, map_map. apply map_ext. intros i. lia.
Qed.
Lemma progression_median c d n : (0 < n)%nat -> is_median (map (fun i => c + INR i * d) (seq 0 n)) (c + INR (n - 1) * d / 2).
Proof.
  intros Hn. set (f := fun i => c + INR i * d). assert (Len : length (map f (seq 0 n)) = n) by (rewrite map_length, seq_length; reflexivity).
  pose proof (Nat.div_mod n 2 ltac:(lia)) as D. pose proof (Nat.mod_upper_bound n 2 ltac:(lia)) as U.
  assert (G : exists s g, Permutation s (map f (seq 0 n)) /\ ascending s /\ (forall i, (i < n)%nat -> nth_error s i = Some (g i)) /\ (forall i j, (i + j = n - 1)%nat -> (g i + g j) / 2 = c + INR (n - 1) * d / 2)).
  { assert (Sy : forall i j, (i + j = n - 1)%nat -> (f i + f j) / 2 = c + INR (n - 1) * d / 2) by (intros i j E; rewrite <- E, plus_INR; unfold f; field).
    destruct (Rle_dec 0 d) as [C|C].
    - exists (map f (seq 0 n)), f. split; [reflexivity|]. split; [apply map_seq_asc; intros i j H; unfold f; apply le_INR in H; nra|]. split; [apply nth_map_seq|exact Sy].
    - exists (map (fun i => f (n - 1 - i)%nat) (seq 0 n)), (fun i => f (n - 1 - i)%nat). split; [|split; [|split]].
      + rewrite <- (map_map (fun i => (n - 1 - i)%nat) f). apply Permutation_map. rewrite rev_seq_map. apply Permutation_sym, Permutation_rev.
      + apply map_seq_asc. intros i j H. unfold f. assert (L : (n - 1 - j <= n - 1 - i)%nat) by lia. apply le_INR in L. nra.
      + intros i Hi. apply (nth_map_seq (fun i => f (n - 1 - i)%nat)), Hi.
      + intros i j E. apply Sy. lia. }
  destruct G as (s & g & P & A & E & Sy). exists s. rewrite Len. split; [exact P|]. split; [exact A|]. pose proof (odd_mod n) as O. destruct (Nat.odd n).
  - apply Nat.eqb_eq in O. rewrite E by lia. f_equal. rewrite <- (Sy (n / 2)%nat (n / 2)%nat) by lia. field.
  - apply Nat.eqb_neq in O. exists (g (n / 2 - 1)%nat), (g (n / 2)%nat). split; [apply E; lia|]. split; [apply E; lia|]. symmetry. apply Sy. lia.
Qed.
Lemma linear_median_assembled nth_element ys x0 h a b : nth_element_contract nth_element ->
  ((length ys < 2)%nat -> linear_median_regression nth_element ys x0 h = Throw) /\
  ((2 <= length ys)%nat -> h = 0 -> linear_median_regression nth_element ys x0 h = UB) /\
  ((2 <= length ys)%nat -> h <> 0 -> (forall i y, nth_error ys i = Some y -> y = a + b * (x0 + INR i * h)) -> linear_median_regression nth_element ys x0 h = Ok (a, b)).
Proof.
  intros C. unfold linear_median_regression. split; [|split].
  - intros L. destruct (Nat.leb_spec 2 (length ys)); [lia|reflexivity].
  - intros L ->. destruct (Nat.leb_spec 2 (length ys)); [|lia]. assert (N : differences ys <> []) by (destruct ys as [|y1 [|y2 ys]]; cbn in *; try lia; discriminate).
    destruct (median_ok _ _ C N) as (m & -> & _). cbn [obind]. unfold div_checked. destruct (Req_EM_T 0 0) as [_|Z]; [reflexivity|contradiction].
  - intros L Hh F. destruct (Nat.leb_spec 2 (length ys)); [|lia]. set (n := length ys) in *. set (f := fun i => (a + b * x0) + INR i * (b * h)).
    assert (Ey : ys = map f (seq 0 n)).
    { apply nth_ext with (d := 0) (d' := 0); [rewrite map_length, seq_length; reflexivity|]. intros i Hi. fold n in Hi. destruct (nth_error ys i) as [y|] eqn:E; [|apply nth_error_None in E; fold n in E; lia].
      rewrite (nth_error_nth _ _ _ E), (nth_error_nth _ _ _ (nth_map_seq f n i Hi)), (F i y E). unfold f. ring. }
    destruct n as [|n'] eqn:En; [lia|]. assert (Ed : differences ys = map (fun _ => b * h) (seq 0 n')). { rewrite Ey, differences_map. apply map_ext. intros i. unfold f. rewrite S_INR. ring. }
    assert (N : differences ys <> []) by (rewrite Ed; destruct n'; [lia|discriminate]). destruct (median_ok _ _ C N) as (m & -> & M). cbn [obind].
    assert (Em : m = b * h).
    { apply (majority_median _ _ _ M). rewrite Ed. assert (G : (length (seq 0 n') <= count_occ Req_EM_T (map (fun _ => b * h)%R (seq 0 n')) (b * h)%R)%nat) by (apply count_map; [apply seq_NoDup|intros i Hi; exact Hi|reflexivity]).
      rewrite seq_length in G. rewrite map_length, seq_length. lia. }
    subst m. unfold div_checked. destruct (Req_EM_T h 0) as [Z|_]; [contradiction|]. cbn [obind].
    assert (N2 : ys <> []) by (intros Z; rewrite Z in Ey; discriminate). destruct (median_ok _ _ C N2) as (my & -> & My). cbn [obind].
    assert (Emy : my = (a + b * x0) + INR (S n' - 1) * (b * h) / 2). { apply (median_unique ys); [exact My|]. rewrite Ey. apply (progression_median (a + b * x0) (b * h) (S n')). lia. }
    rewrite Emy. f_equal. f_equal; field; exact Hh.
Qed.
Lemma others_in i n j : (i < n)%nat -> In j (seq 0 i ++ seq (S i) (n - S i)) <-> (j < n /\ j <> i)%nat.
Proof. intros H. rewrite in_app_iff, !in_seq. lia. Qed.
Lemma vec_get_nth (l : list R) i : (i < length l)%nat -> vec_get l i = Ok (nth i l 0).
Proof. intros H. unfold vec_get. rewrite (nth_error_nth' l 0 H). reflexivity. Qed.
Lemma repeated_median_assembled nth_element xs ys : nth_element_contract nth_element ->
  ((length xs < 2)%nat \/ length xs <> length ys -> repeated_median_regression nth_element xs ys = Throw) /\
  ((2 <= length xs)%nat -> length xs = length ys -> NoDup xs ->
    (exists o s, repeated_median_regression nth_element xs ys = Ok (o, s)) /\
    forall a b (good : list nat), NoDup good -> (forall i, In i good -> (i < length xs)%nat /\ nth i ys 0 = a + b * nth i xs 0) -> (length xs + 1 < 2 * length good)%nat ->
      repeated_median_regression nth_element xs ys = Ok (a, b)).
Proof.
  intros C. unfold repeated_median_regression. cbv zeta. split.
  - intros [H|H]; [destruct (Nat.leb_spec 2 (length xs)); [lia|reflexivity]|]. apply Nat.eqb_neq in H. rewrite H, andb_false_r. reflexivity.
  - intros L2 L D. destruct (Nat.leb_spec 2 (length xs)); [|lia]. rewrite <- L, Nat.eqb_refl. cbn [andb]. set (n := length xs) in *.
    set (sl := fun i j => (nth j ys 0 - nth i ys 0) / (nth j xs 0 - nth i xs 0)). set (js := fun i => seq 0 i ++ seq (S i) (n - S i)).
    assert (Dx : forall i j, (i < n)%nat -> (j < n)%nat -> i <> j -> nth j xs 0 - nth i xs 0 <> 0).
    { intros i j Hi Hj N Z. apply N. apply (proj1 (NoDup_nth xs 0) D i j Hi Hj). lra. }
    assert (S1 : forall i, (i < n)%nat -> slopes_from xs ys i = Ok (map (sl i) (js i))).
    { intros i Hi. unfold slopes_from. fold n. fold (js i). apply collect_ok. intros j Hj. apply others_in in Hj; [|exact Hi]. destruct Hj as [Hj N]. rewrite !vec_get_nth by (fold n; lia). cbn [obind]. unfold div_checked. destruct (Req_EM_T _ 0) as [Z|_]; [exfalso; apply (Dx i j); auto|reflexivity]. }
    assert (Nj : forall i, (i < n)%nat -> length (js i) = (n - 1)%nat) by (intros i Hi; unfold js; rewrite app_length, !seq_length; lia).
    assert (M1 : forall i, (i < n)%nat -> exists m, (do sl1 <- slopes_from xs ys i; median nth_element sl1) = Ok m /\ is_median (map (sl i) (js i)) m).
    { intros i Hi. rewrite S1 by exact Hi. cbn [obind]. apply median_ok; [exact C|]. intros Z. apply (f_equal (@length R)) in Z. rewrite map_length, Nj in Z by exact Hi. cbn in Z. lia. }
    destruct (collect_ex (fun i => do sl1 <- slopes_from xs ys i; median nth_element sl1) (seq 0 n)) as (g & Eg & ->).
    { intros i Hi. apply in_seq in Hi. destruct (M1 i ltac:(lia)) as (m & E & _). exists m. exact E. }
    cbn [obind]. assert (Ns : map g (seq 0 n) <> []) by (intros Z; apply (f_equal (@length R)) in Z; rewrite map_length, seq_length in Z; cbn in Z; lia).
    destruct (median_ok _ _ C Ns) as (s & -> & Ms). cbn [obind].
    rewrite (collect_ok _ (fun i => nth i ys 0 - s * nth i xs 0)) by (intros i Hi; apply in_seq in Hi; rewrite !vec_get_nth by (fold n; lia); reflexivity). cbn [obind].
    assert (No : map (fun i => nth i ys 0 - s * nth i xs 0) (seq 0 n) <> []) by (intros Z; apply (f_equal (@length R)) in Z; rewrite map_length, seq_length in Z; cbn in Z; lia).
    destruct (median_ok _ _ C No) as (o & -> & Mo). cbn [obind]. split; [exists o, s; reflexivity|].
    intros a b good Ng Hg K. assert (Ig : incl good (seq 0 n)) by (intros i Hi; apply in_seq; destruct (Hg i Hi); lia).
    assert (Es : s = b).
    { apply (majority_median _ _ _ Ms). rewrite map_length, seq_length. apply Nat.lt_le_trans with (2 * length good)%nat; [lia|]. apply Nat.mul_le_mono_l. apply count_map; [exact Ng|exact Ig|].
      intros i Hi. destruct (Hg i Hi) as [Hin Hyi]. destruct (M1 i Hin) as (m & Em & Mm). rewrite Eg in Em by (apply Ig, Hi). assert (g i = m) as -> by congruence.
      apply (majority_median _ _ _ Mm). rewrite map_length, Nj by exact Hin. destruct (in_split _ _ Hi) as (G1 & G2 & EG).
      assert (Cn : (length (G1 ++ G2) <= count_occ Req_EM_T (map (sl i) (js i)) b)%nat).
      { rewrite EG in Ng. destruct (NoDup_remove _ _ _ Ng) as [N1 N2]. apply count_map; [exact N1| |].
        - intros j Hj. apply others_in; [exact Hin|]. assert (Jg : In j good) by (rewrite EG; apply in_app_iff in Hj; apply in_or_app; destruct Hj; [left|right; right]; assumption). destruct (Hg j Jg). split; [assumption|intros ->; contradiction].
        - intros j Hj. assert (Jg : In j good) by (rewrite EG; apply in_app_iff in Hj; apply in_or_app; destruct Hj; [left|right; right]; assumption). destruct (Hg j Jg) as [Hjn Hyj]. assert (j <> i) by (intros ->; contradiction).
          unfold sl. rewrite Hyi, Hyj. field. apply Dx; auto. }
      rewrite EG in K. rewrite app_length in *. cbn [length] in K. lia. }
    subst s. f_equal. f_equal. apply (majority_median _ _ _ Mo). rewrite map_length, seq_length. apply Nat.lt_le_trans with (2 * length good)%nat; [lia|]. apply Nat.mul_le_mono_l. apply count_map; [exact Ng|exact Ig|].
    intros i Hi. destruct (Hg i Hi) as [_ ->]. ring.
Qed.

(** ** channel means and covariances *)
Lemma channel_sums channels frames : forall acc, length acc = channels -> fold_left (fun means fr => map (fun col => nth col means 0 + nth col fr 0) (seq 0 channels)) frames acc = map (fun col => nth col acc 0 + total (map (fun fr => nth col fr 0) frames)) (seq 0 channels).
Proof.
  induction frames as [|fr frames IH]; intros acc L.
  - cbn [fold_left map]. apply nth_ext with (d := 0) (d' := 0); [rewrite map_length, seq_length; exact L|]. intros i Hi. rewrite (nth_error_nth _ _ _ (nth_map_seq _ channels i ltac:(lia))). unfold total. cbn. ring.
  - cbn [fold_left]. rewrite IH by (rewrite map_length, seq_length; reflexivity). apply map_ext_in. intros col Hc. apply in_seq in Hc. rewrite (nth_error_nth _ _ _ (nth_map_seq _ channels col ltac:(lia))). unfold total. cbn [map fold_right]. ring.
Qed.
Lemma channel_mean_nth channels frames c : (c < channels)%nat -> nth c (compute_channel_means channels frames) 0 = total (map (fun fr => nth c fr 0) frames) / INR (length frames).
Proof.
  intros H. unfold compute_channel_means. rewrite channel_sums by apply repeat_length. rewrite map_map. rewrite (nth_error_nth _ _ _ (nth_map_seq _ channels c H)). f_equal.
  assert (Z : nth c (repeat 0 channels) 0 = 0); [|rewrite Z; ring]. clear. revert c. induction channels as [|n IH]; intros [|c]; cbn; auto.
Qed.
Lemma total_scal_r {A} p (f : A -> R) l : total (map (fun i => f i * p) l) = total (map f l) * p.
Proof. induction l as [|i l IH]; cbn; [ring|]. unfold total in *. cbn. rewrite IH. ring. Qed.
Lemma covariance_nth channels frames i j : compute_covariance channels frames i j = total (map (fun fr => (nth i fr 0 - nth i (compute_channel_means channels frames) 0) * (nth j fr 0 - nth j (compute_channel_means channels frames) 0)) frames) / INR (length frames).
Proof. unfold compute_covariance. rewrite (fold_total (fun fr => (nth i fr 0 - nth i (compute_channel_means channels frames) 0) * (nth j fr 0 - nth j (compute_channel_means channels frames) 0))). rewrite Rplus_0_l. reflexivity. Qed.
Lemma covariance_quadratic channels frames (w : nat -> R) cols : frames <> [] ->
  total (map (fun i => total (map (fun j => w i * compute_covariance channels frames i j * w j) cols)) cols) =
  total (map (fun fr => total (map (fun i => w i * (nth i fr 0 - nth i (compute_channel_means channels frames) 0)) cols) * total (map (fun i => w i * (nth i fr 0 - nth i (compute_channel_means channels frames) 0)) cols)) frames) / INR (length frames).
Proof.
  intros N. pose proof (len_pos frames N) as P. set (mu := fun i => nth i (compute_channel_means channels frames) 0). set (e := fun fr i => w i * (nth i fr 0 - mu i)).
  transitivity (total (map (fun i => total (map (fun j => total (map (fun fr => e fr i * e fr j) frames) * / INR (length frames)) cols)) cols)).
  { apply total_ext. intros i _. apply total_ext. intros j _. rewrite covariance_nth. fold (mu i) (mu j). transitivity (w i * w j * total (map (fun fr => (nth i fr 0 - mu i) * (nth j fr 0 - mu j)) frames) * / INR (length frames)); [unfold Rdiv; ring|].
    f_equal. rewrite <- total_scal. apply total_ext. intros fr _. unfold e. ring. }
  transitivity (total (map (fun i => total (map (fun j => total (map (fun fr => e fr i * e fr j) frames)) cols)) cols) * / INR (length frames)).
  { rewrite <- total_scal_r. apply total_ext. intros i _. rewrite total_scal_r. reflexivity. }
  unfold Rdiv. f_equal. change (total (map (fun i => total (map (fun j => total (map (fun fr => e fr i * e fr j) frames)) cols)) cols) = total (map (fun fr => total (map (e fr) cols) * total (map (e fr) cols)) frames)).
  clear. assert (Swap : forall {A B} (f : A -> B -> R) la lb, total (map (fun a => total (map (fun b => f a b) lb)) la) = total (map (fun b => total (map (fun a => f a b) la)) lb)).
  { intros A B f la lb. induction la as [|a la IH]; [cbn; rewrite (total_const 0 lb); unfold total; cbn; ring|]. transitivity (total (map (f a) lb) + total (map (fun a => total (map (fun b => f a b) lb)) la)); [reflexivity|]. rewrite IH, <- total_plus. apply total_ext. intros b _. reflexivity. }
  transitivity (total (map (fun fr => total (map (fun i => total (map (fun j => e fr i * e fr j) cols)) cols)) frames)).
  { rewrite (Swap _ _ (fun fr i => total (map (fun j => e fr i * e fr j) cols)) frames cols). apply total_ext. intros i _. apply Swap. }
  apply total_ext. intros fr _. rewrite <- total_scal_r. apply total_ext. intros i _. rewrite total_scal. reflexivity.
Qed.
Lemma covariance_assembled channels frames : frames <> [] ->
  let column := fun c => map (fun fr => nth c fr 0) frames in let cov := compute_covariance channels frames in
  length (compute_channel_means channels frames) = channels /\
  (forall c, (c < channels)%nat -> mean_of (column c) (nth c (compute_channel_means channels frames) 0)) /\
  (forall i j, cov i j = cov j i) /\
  (forall i j mi mj mij, (i < channels)%nat -> (j < channels)%nat -> mean_of (column i) mi -> mean_of (column j) mj -> mean_of (map (fun fr => nth i fr 0 * nth j fr 0) frames) mij -> cov i j = mij - mi * mj) /\
  (forall c v m, (c < channels)%nat -> mean_var (column c) = Ok (m, v) -> cov c c = v) /\
  (forall w : nat -> R, 0 <= total (map (fun i => total (map (fun j => w i * cov i j * w j) (seq 0 channels))) (seq 0 channels))).
Proof.
  intros N column cov. pose proof (len_pos frames N) as P. assert (Mn : forall c, (c < channels)%nat -> nth c (compute_channel_means channels frames) 0 = total (column c) / INR (length frames)) by (intros c Hc; apply channel_mean_nth, Hc).
  assert (Nc : forall c, column c <> []) by (intros c; unfold column; destruct frames; [congruence|discriminate]). assert (Lc : forall c, length (column c) = length frames) by (intros c; unfold column; apply map_length).
  split; [|split; [|split; [|split; [|split]]]].
  - unfold compute_channel_means. rewrite map_length, channel_sums by apply repeat_length. rewrite map_length, seq_length. reflexivity.
  - intros c Hc. rewrite Mn by exact Hc. rewrite <- (Lc c). apply mean_exists, Nc.
  - intros i j. unfold cov. rewrite !covariance_nth. f_equal. apply total_ext. intros fr _. ring.
  - intros i j mi mj mij Hi Hj Ei Ej Eij. unfold cov. rewrite covariance_nth, !Mn by assumption. unfold mean_of in *. rewrite !Lc in *. rewrite map_length in Eij. rewrite <- Ei, <- Ej.
    assert (Z : forall m, m * INR (length frames) / INR (length frames) = m) by (intros; field; lra). rewrite !Z. apply (Rmult_eq_reg_r (INR (length frames))); [|lra]. unfold Rdiv. rewrite Rmult_assoc, Rinv_l, Rmult_1_r by lra.
    transitivity (total (map (fun fr : list R => ((nth i fr 0 * nth j fr 0 + - mj * nth i fr 0) + - mi * nth j fr 0) + mi * mj) frames)); [apply total_ext; intros; ring|].
    rewrite !total_plus, !total_scal, total_const. fold (column i) (column j). rewrite <- Ei, <- Ej, <- Eij. ring.
  - intros c v m Hc E. destruct (mean_var_assembled (column c) (Nc c)) as (m' & v' & E' & Mm & Ev & _). rewrite E in E'. injection E' as <- <-.
    assert (Em : m = total (column c) / INR (length frames)). { rewrite <- Mm, Lc. field. lra. } unfold cov. rewrite covariance_nth, Mn, <- Em by exact Hc. rewrite Lc in Ev. unfold column in Ev. rewrite map_map in Ev.
    apply (Rmult_eq_reg_r (INR (length frames))); [|lra]. rewrite Ev. unfold Rdiv. rewrite Rmult_assoc, Rinv_l, Rmult_1_r by lra. apply total_ext. intros. ring.
  - intros w. unfold cov. rewrite covariance_quadratic by exact N. apply Rmult_le_pos; [|apply Rlt_le, Rinv_0_lt_compat; exact P]. apply (total_sq_nonneg (fun fr => total (map (fun i => w i * (nth i fr 0 - nth i (compute_channel_means channels frames) 0)) (seq 0 channels)))).
Qed.

(** ** algorithms that meet the contracts *)
Lemma isort_nth_element : nth_element_contract (fun l _ => isort l).
Proof.
  intros l n H. split; [apply isort_perm|]. pose proof (isort_asc l) as A. assert (L : length (isort l) = length l) by (apply Permutation_length, isort_perm). destruct (nth_error (isort l) n) as [v|] eqn:E; [|apply nth_error_None in E; lia]. exists v. split; [reflexivity|]. split.
  - intros w Hw. apply In_nth_error in Hw. destruct Hw as [k Hk]. assert (K : (k < n)%nat) by (assert (k < length (firstn n (isort l)))%nat by (apply nth_error_Some; congruence); rewrite firstn_length in *; lia). rewrite nth_first in Hk by exact K. apply (asc_nth _ A k n); [lia|exact Hk|exact E].
  - intros w Hw. apply In_nth_error in Hw. destruct Hw as [k Hk]. rewrite nth_skip in Hk. apply (asc_nth _ A n (S n + k)); [lia|exact E|exact Hk].
Qed.
Lemma isort_partial_sort : partial_sort_contract (fun l out => firstn (length out) (isort l) ++ skipn (length l) out).
Proof. intros l out. exists (isort l). split; [apply isort_perm|]. split; [apply isort_asc|reflexivity]. Qed.
Section Sort.
  Context {A : Type} (lt : A -> A -> bool).
  Fixpoint insb (a : A) (l : list A) : list A := match l with [] => [a] | b :: r => if lt b a then b :: insb a r else a :: b :: r end.
  Fixpoint isortb (l : list A) : list A := match l with [] => [] | a :: r => insb a (isortb r) end.
  Lemma insb_perm a l : Permutation (insb a l) (a :: l).
  Proof. induction l as [|b l IH]; [reflexivity|]. cbn. destruct (lt b a); [|reflexivity]. rewrite IH. apply perm_swap. Qed.
  Lemma isortb_contract : sort_contract lt isortb.
  Proof.
    intros (W1 & W2 & W3) l. induction l as [|a l [P S]]; [split; constructor|]. cbn. split; [rewrite insb_perm; constructor; exact P|].
    assert (Tr : forall x y z, lt y x = false -> lt z y = false -> lt z x = false).
    { intros x y z H1 H2. destruct (lt z x) eqn:E; [|reflexivity]. destruct (lt x y) eqn:E1; [rewrite (W2 z x y E E1) in H2; discriminate|]. destruct (lt y z) eqn:E2; [rewrite (W2 y z x E2 E) in H1; discriminate|]. destruct (W3 x y z) as [_ H]; congruence. }
    clear P. induction S as [|b r S IH F]; cbn; [constructor; constructor|]. destruct (lt b a) eqn:E.
    - constructor; [exact IH|]. apply Forall_forall. intros w Hw. apply (Permutation_in _ (insb_perm a r)) in Hw. rewrite Forall_forall in F. destruct Hw as [<-|Hw]; [|apply F, Hw]. destruct (lt a b) eqn:E'; [|reflexivity]. rewrite <- (W2 a b a E' E). apply W1.
    - constructor; [constructor; assumption|]. constructor; [exact E|]. rewrite Forall_forall in *. intros w Hw. apply (Tr a b w); [exact E|apply F, Hw].
  Qed.
End Sort.
Lemma Rltb_strict_weak : strict_weak (fun a b => if Rlt_dec a b then true else false).
Proof. split; [|split]; intros a; intros; repeat destruct (Rlt_dec _ _); try discriminate; try reflexivity; try (split; [reflexivity|reflexivity]); exfalso; lra. Qed.
