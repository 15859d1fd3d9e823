From Coq Require Import List Arith Bool Lia.
From Verif Require Import Base BaseProofs CtSpec CtModel.
Import ListNotations.

Section S.
Context {A : Type}.
Implicit Types l : list A.

Lemma find_if_loop_spec : forall pred l it, let r := find_if_loop pred l it in
  (exists i x, r = it + i /\ nth_error l i = Some x /\ pred x = true /\ forall j y, j < i -> nth_error l j = Some y -> pred y = false) \/
  (r = it + length l /\ forall x, In x l -> pred x = false).
Proof.
  intros pred. induction l as [|x l IH]; intros it; cbn [find_if_loop].
  - right. split; [cbn; lia|]. intros ? [].
  - destruct (pred x) eqn:E.
    + left. exists 0, x. repeat split; auto; try lia. 
    + destruct (IH (S it)) as [(i & y & E1 & E2 & E3 & E4)|(E1 & E2)].
      * left. exists (S i), y. rewrite E1. repeat split; auto; try lia. intros [|j] z Hj Hz; cbn in Hz; [congruence|]. apply (E4 j); auto; lia.
      * right. rewrite E1. split; [cbn; lia|]. intros y [->|Hy]; auto.
Qed.

Lemma find_if_assembled : forall (pred : A -> bool) l, let i := find_if l pred in
  (i < length l -> first_match (fun x => pred x = true) l 0 i) /\ (i < length l \/ i = length l /\ no_match (fun x => pred x = true) l 0).
Proof.
  intros pred l i. subst i. unfold find_if. destruct (find_if_loop_spec pred l 0) as [(i & x & E1 & E2 & E3 & E4)|(E1 & E2)]; rewrite E1; cbn [plus].
  - assert (i < length l) by (apply nth_error_Some; congruence). split; [|auto]. intros _. refine (conj _ (conj _ _)); [lia|eauto|].
    intros j y Hj Hy. rewrite (E4 j y ltac:(lia) Hy). discriminate.
  - split; [lia|]. right. split; [reflexivity|]. intros j x _ Hx. rewrite E2; [discriminate|]. eapply nth_error_In; eauto.
Qed.

Lemma find_index_loop_spec : forall (pred : A -> bool) l n idx, n = length l - idx ->
  exists r, find_index_loop pred l n idx = Ok r /\ match r with Some i => first_match (fun x => pred x = true) l idx i | None => no_match (fun x => pred x = true) l idx end.
Proof.
  intros pred l. induction n as [|n IH]; intros idx E; cbn [find_index_loop].
  - exists None. split; [reflexivity|]. intros j x Hj Hx. assert (j < length l) by (apply nth_error_Some; congruence). lia.
  - assert (H : idx < length l) by lia. unfold vec_get. destruct (nth_error l idx) as [x|] eqn:Ex; [|apply nth_error_None in Ex; lia].
    cbn [obind]. destruct (pred x) eqn:Ep.
    + exists (Some idx). split; [reflexivity|]. refine (conj _ (conj _ _)); [lia|eauto|]. intros j y Hj. lia.
    + destruct (IH (S idx)) as (r & Er & Hr); [lia|]. exists r. split; [exact Er|]. destruct r as [i|].
      * destruct Hr as (H1 & H2 & H3). refine (conj _ (conj _ _)); [lia|exact H2|]. intros j y Hj Hy. destruct (Nat.eq_dec j idx) as [->|]; [congruence|]. apply (H3 j); auto; lia.
      * intros j y Hj Hy. destruct (Nat.eq_dec j idx) as [->|]; [congruence|]. apply (Hr j); auto; lia.
Qed.

Lemma find_index_if_assembled : forall (pred : A -> bool) l from, exists r, find_index_if l pred from = Ok r /\
  match r with Some i => first_match (fun x => pred x = true) l from i | None => no_match (fun x => pred x = true) l from end.
Proof. intros. apply find_index_loop_spec. reflexivity. Qed.




Lemma find_ref_loop_spec : forall (pred : A -> bool) l it, find_ref_loop pred l it = if existsb pred l then Ok (find_if_loop pred l it) else Throw.
Proof. intros pred. induction l as [|x l IH]; intros it; cbn; [reflexivity|]. destruct (pred x); cbn; [reflexivity|apply IH]. Qed.
Lemma existsb_find : forall (pred : A -> bool) l, existsb pred l = negb (find_if l pred =? length l).
Proof.
  intros pred l. destruct (existsb pred l) eqn:E.
  - apply existsb_exists in E. destruct E as (x & HI & Hx). destruct (find_if_assembled pred l) as (_ & [H|(_ & H)]).
    + destruct (Nat.eqb_spec (find_if l pred) (length l)); [lia|reflexivity].
    + apply In_nth_error in HI. destruct HI as (j & Hj). elim (H j x); auto. lia.
  - destruct (find_if_assembled pred l) as (H1 & [H|(H & _)]); [|rewrite H, Nat.eqb_refl; reflexivity].
    destruct (H1 H) as (_ & (x & H2 & H3) & _). assert (existsb pred l = true); [|congruence]. apply existsb_exists. exists x. split; [eapply nth_error_In; eauto|exact H3].
Qed.
Lemma find_ref_assembled : forall (pred : A -> bool) l,
  ((exists x, In x l /\ pred x = true) -> exists i, find_ref_if l pred = Ok i /\ first_match (fun x => pred x = true) l 0 i) /\
  ((forall x, In x l -> pred x = false) -> find_ref_if l pred = Throw).
Proof.
  intros pred l. unfold find_ref_if. rewrite find_ref_loop_spec. split.
  - intros HE. assert (E : existsb pred l = true) by (apply existsb_exists; exact HE). rewrite E. exists (find_if l pred). split; [reflexivity|].
    rewrite existsb_find in E. destruct (find_if_assembled pred l) as (H1 & [H|(H & _)]); [auto|]. rewrite H, Nat.eqb_refl in E. discriminate.
  - intros HA. replace (existsb pred l) with false; [reflexivity|]. symmetry. apply not_true_is_false. intros E. apply existsb_exists in E. destruct E as (x & HI & Hx). rewrite (HA x HI) in Hx. discriminate.
Qed.

Lemma contains_loop_spec : forall (pred : A -> bool) l, contains_loop pred l = existsb pred l.
Proof. intros pred. induction l as [|x l IH]; cbn; [reflexivity|]. destruct (pred x); auto. Qed.
Lemma tests_assembled : forall (pred : A -> bool) l,
  (any_of l pred = true <-> exists x, In x l /\ pred x = true) /\ (none_of l pred = true <-> forall x, In x l -> pred x = false) /\
  (contains_if l pred = true <-> exists x, In x l /\ pred x = true).
Proof.
  intros pred l. unfold any_of, none_of, contains_if. rewrite contains_loop_spec, <- existsb_find. split; [apply existsb_exists|]. split; [|apply existsb_exists].
  pose proof (existsb_find pred l) as E. apply (f_equal negb) in E. rewrite negb_involutive in E. rewrite <- E, negb_true_iff. split.
  - intros H x HI. destruct (pred x) eqn:Ex; [|reflexivity]. rewrite <- H. symmetry. apply existsb_exists. eauto.
  - intros H. apply not_true_is_false. intros T. apply existsb_exists in T. destruct T as (x & HI & Hx). rewrite H in Hx; [discriminate|exact HI].
Qed.

Lemma positions_cons : forall (p : A -> bool) x l, positions p (x :: l) = (if p x then [0] else []) ++ map S (positions p l).
Proof.
  intros p x l. unfold positions. cbn [length seq List.filter nth_error]. rewrite <- seq_shift.
  assert (G : forall s, List.filter (fun i => match nth_error (x :: l) i with Some y => p y | None => false end) (map S s) = map S (List.filter (fun i => match nth_error l i with Some y => p y | None => false end) s)).
  { induction s as [|a s IH]; [reflexivity|]. cbn [map List.filter]. cbn [nth_error]. rewrite IH. destruct (nth_error l a) as [y|]; [destruct (p y)|]; reflexivity. }
  rewrite G. destruct (p x); reflexivity.
Qed.
Lemma count_loop_spec : forall (pred : A -> bool) l c, count_loop pred l c = c + length (positions pred l).
Proof.
  intros pred. induction l as [|x l IH]; intros c; cbn [count_loop]; [cbn; lia|]. rewrite IH, positions_cons, app_length, map_length. destruct (pred x); cbn [length]; lia.
Qed.
Lemma count_assembled : forall (pred : A -> bool) l, count_if l pred = length (positions pred l) /\ (count_if l pred = 0 <-> forall x, In x l -> pred x = false).
Proof.
  intros pred l. unfold count_if. rewrite count_loop_spec. cbn [plus]. split; [reflexivity|]. 
  induction l as [|x l IH]; [cbn; split; [intros _ ? []|reflexivity]|]. rewrite positions_cons, app_length, map_length. split.
  - intros H y [->|HI]; [destruct (pred y); [cbn in H; lia|reflexivity]|]. apply IH; [lia|exact HI].
  - intros H. rewrite (H x (or_introl eq_refl)). cbn. apply IH. intros y HI. apply H. right. exact HI.
Qed.

Lemma for_each_assembled : forall l (log : list A), for_each l (fun x s => s ++ [x]) log = log ++ l.
Proof.
  unfold for_each. induction l as [|x l IH]; intros log; cbn [for_each_loop]; [rewrite app_nil_r; reflexivity|]. rewrite IH, <- app_assoc. reflexivity.
Qed.
Lemma back_index_assembled : forall l, (l = [] -> back_index l = None) /\ (forall l' x, l = l' ++ [x] -> exists i, back_index l = Some i /\ nth_error l i = Some x).
Proof.
  intros l. split; [intros ->; reflexivity|]. intros l' x ->. unfold back_index. rewrite app_length. cbn [length]. destruct (Nat.ltb_spec 0 (length l' + 1)); [|lia].
  exists (length l' + 1 - 1). split; [reflexivity|]. rewrite nth_error_app2 by lia. replace (length l' + 1 - 1 - length l') with 0 by lia. reflexivity.
Qed.
End S.

Section E.
Context {A : Type}.
Context (eqb : A -> A -> bool) (eqb_ok : forall x y, eqb x y = true <-> x = y).
Implicit Types l : list A.
Lemma find_assembled : forall l e, let i := find eqb l e in
  (In e l -> first_match (fun x => x = e) l 0 i) /\ (~ In e l -> i = length l).
Proof.
  intros l e i. destruct (find_if_assembled (fun x => eqb x e) l) as (H1 & H2). change (find_if l (fun x => eqb x e)) with i in H1, H2.
  split.
  - intros HI. destruct H2 as [H2|(_ & H2)].
    + destruct (H1 H2) as (G1 & (x & G2 & G3) & G4). refine (conj G1 (conj _ _)).
      * exists x. split; [exact G2|]. apply eqb_ok, G3.
      * intros j y Hj Hy He. apply (G4 j y Hj Hy). apply eqb_ok, He.
    + exfalso. apply In_nth_error in HI. destruct HI as (j & Hj). apply (H2 j e); auto; [lia|]. apply eqb_ok. reflexivity.
  - intros HN. destruct H2 as [H2|(H2 & _)]; [|exact H2]. destruct (H1 H2) as (_ & (x & G2 & G3) & _). apply eqb_ok in G3. subst x. elim HN. eapply nth_error_In; eauto.
Qed.
Lemma find_index_assembled : forall l e from, exists r, find_index eqb l e from = Ok r /\
  match r with Some i => first_match (fun x => x = e) l from i | None => no_match (fun x => x = e) l from end.
Proof.
  intros l e from. destruct (find_index_if_assembled (fun x => eqb x e) l from) as (r & E & H). exists r. split; [exact E|]. destruct r as [i|].
  - destruct H as (H1 & (x & H2 & H3) & H4). refine (conj H1 (conj _ _)).
    + exists x. split; [exact H2|apply eqb_ok, H3].
    + intros j y Hj Hy He. apply (H4 j y Hj Hy). apply eqb_ok, He.
  - intros j y Hj Hy He. apply (H j y Hj Hy). apply eqb_ok, He.
Qed.
Lemma find_index_twice_assembled : forall l e i, find_index eqb l e 0 = Ok (Some i) -> NoDup l -> find_index eqb l e (S i) = Ok None.
Proof.
  intros l e i E N. destruct (find_index_assembled l e 0) as (r & E1 & H). rewrite E in E1. inversion E1. subst r. destruct H as (_ & (x & H2 & ->) & _).
  destruct (find_index_assembled l e (S i)) as (r & E2 & H). rewrite E2. destruct r as [j|]; [|reflexivity]. exfalso.
  destruct H as (H3 & (y & H4 & ->) & _). rewrite NoDup_nth_error in N. assert (i = j); [|lia]. apply N; [apply nth_error_Some; congruence|congruence].
Qed.
Lemma contains_assembled : forall l e, contains eqb l e = true <-> In e l.
Proof.
  intros l e. unfold contains. rewrite contains_loop_spec, existsb_exists. split.
  - intros (x & HI & Hx). apply eqb_ok in Hx. subst. exact HI.
  - intros H. exists e. split; [exact H|apply eqb_ok; reflexivity].
Qed.
Lemma count_e_assembled : forall l e, count eqb l e = length (positions (fun x => eqb x e) l).
Proof. intros. unfold count. rewrite count_loop_spec. reflexivity. Qed.
End E.

Section C.
Context {A : Type} (cast : A -> A).
Implicit Types mem : list A.

Lemma copy_loop_ok : forall n mem ib ob, ib + n <= length mem -> ob + n <= length mem -> (ob <= ib \/ ib + n <= ob) ->
  exists mem', copy_loop cast n mem ib ob = Ok (mem', ob + n) /\ moved cast mem mem' ib ob n.
Proof.
  induction n as [|n IH]; intros mem ib ob H1 H2 H3; cbn [copy_loop].
  - exists mem. rewrite Nat.add_0_r. split; [reflexivity|]. repeat split; auto. intros i Hi. lia.
  - unfold vec_get at 1. destruct (nth_error mem ib) as [x|] eqn:Ex; [|apply nth_error_None in Ex; lia]. cbn [obind]. unfold vec_set at 1.
    destruct (Nat.ltb_spec ob (length mem)); [|lia]. cbn [obind].
    destruct (IH (list_set mem ob (cast x)) (S ib) (S ob)) as (mem' & E & L & G1 & G2); try (rewrite list_set_length; lia); [lia|].
    exists mem'. replace (ob + S n) with (S ob + n) by lia. split; [exact E|]. rewrite list_set_length in L. split; [exact L|]. split.
    + intros i Hi. destruct i as [|i].
      * rewrite !Nat.add_0_r. rewrite G2 by lia. rewrite nth_error_list_set_eq by lia. rewrite Ex. reflexivity.
      * replace (ob + S i) with (S ob + i) by lia. rewrite G1 by lia. rewrite nth_error_list_set_neq by lia. replace (S ib + i) with (ib + S i) by lia. reflexivity.
    + intros j Hj. rewrite G2 by lia. apply nth_error_list_set_neq. lia.
Qed.
Lemma copy_loop_out : forall n mem ib ob, length mem < ib + n \/ length mem < ob + n -> ib <= length mem -> ob <= length mem -> copy_loop cast n mem ib ob = UB.
Proof.
  induction n as [|n IH]; intros mem ib ob H H1 H2; [lia|]. cbn [copy_loop]. unfold vec_get. destruct (nth_error mem ib) as [x|] eqn:Ex; [|reflexivity]. cbn [obind].
  assert (ib < length mem) by (apply nth_error_Some; congruence). unfold vec_set. destruct (Nat.ltb_spec ob (length mem)); [|reflexivity]. cbn [obind]. apply IH; rewrite list_set_length; lia.
Qed.

Lemma copy_assembled : forall mem ib ie ob, ib <= ie -> ie <= length mem -> ob <= length mem ->
  (ob + (ie - ib) <= length mem -> ob <= ib \/ ie <= ob -> exists mem', copy cast mem ib ie ob = Ok (mem', ob + (ie - ib)) /\ moved cast mem mem' ib ob (ie - ib)) /\
  (length mem < ob + (ie - ib) -> copy cast mem ib ie ob = UB).
Proof.
  intros mem ib ie ob H1 H2 H3. unfold copy. destruct (Nat.leb_spec ib ie); [|lia]. split.
  - intros H4 H5. apply copy_loop_ok; lia.
  - intros H4. apply copy_loop_out; lia.
Qed.
Lemma copy_to_range_assembled : forall mem ib ob oe, ob <= oe -> oe <= length mem -> ib <= length mem ->
  (ib + (oe - ob) <= length mem -> ob <= ib \/ ib + (oe - ob) <= ob -> exists mem', copy_to_range cast mem ib ob oe = Ok (mem', ib + (oe - ob)) /\ moved cast mem mem' ib ob (oe - ob)) /\
  (length mem < ib + (oe - ob) -> copy_to_range cast mem ib ob oe = UB).
Proof.
  intros mem ib ob oe H1 H2 H3. unfold copy_to_range. destruct (Nat.leb_spec ob oe); [|lia]. split.
  - intros H4 H5. destruct (copy_loop_ok (oe - ob) mem ib ob) as (mem' & E & M); try lia. exists mem'. rewrite E. split; [reflexivity|exact M].
  - intros H4. rewrite copy_loop_out by lia. reflexivity.
Qed.
Lemma copy_container_assembled : forall mem source ssize target tsize, source + ssize <= length mem -> target + tsize <= length mem ->
  (tsize < ssize -> copy_container cast mem source ssize target tsize = Throw) /\
  (ssize <= tsize -> source + ssize <= target \/ target + tsize <= source ->
     exists mem', copy_container cast mem source ssize target tsize = Ok mem' /\ moved cast mem mem' source target ssize).
Proof.
  intros mem source ssize target tsize H1 H2. unfold copy_container. split; intros H3.
  - destruct (Nat.leb_spec ssize tsize); [lia|reflexivity].
  - intros H4. destruct (Nat.leb_spec ssize tsize); [|lia]. destruct (copy_assembled mem source (source + ssize) target) as (K & _); try lia.
    replace (source + ssize - source) with ssize in K by lia. destruct K as (mem' & E & M); [lia|lia|]. rewrite E. exists mem'. split; [reflexivity|exact M].
Qed.
End C.

Section V.
Context {A : Type} (pred : A -> bool).

Lemma next_match_none : forall (l : list A) pos, (forall x, In x l -> pred x = false) -> next_match pred l pos = pos + length l.
Proof. induction l as [|x l IH]; intros pos H; cbn; [lia|]. rewrite (H x) by (left; reflexivity). rewrite IH; [lia|]. intros y Hy. apply H. right. exact Hy. Qed.
Lemma next_match_skip : forall (a b : list A) pos, (forall x, In x a -> pred x = false) -> next_match pred (a ++ b) pos = next_match pred b (pos + length a).
Proof.
  induction a as [|x a IH]; intros b pos H; cbn [app length next_match]; [f_equal; lia|]. rewrite (H x) by (left; reflexivity). rewrite IH; [f_equal; lia|]. intros y Hy. apply H. right. exact Hy.
Qed.
Lemma filter_cases : forall (l : list A), (forall x, In x l -> pred x = false) \/ exists a x b, l = a ++ x :: b /\ pred x = true /\ forall y, In y a -> pred y = false.
Proof.
  induction l as [|y l IH]; [left; intros ? []|]. destruct (pred y) eqn:E.
  - right. exists [], y, l. repeat split; auto. intros ? [].
  - destruct IH as [IH|(a & x & b & -> & Hx & Ha)].
    + left. intros z [->|Hz]; auto.
    + right. exists (y :: a), x, b. repeat split; auto. intros z [->|Hz]; auto.
Qed.
Lemma filter_none : forall (l : list A), (forall x, In x l -> pred x = false) -> List.filter pred l = [].
Proof. induction l as [|x l IH]; intros H; [reflexivity|]. cbn. rewrite (H x) by (left; reflexivity). apply IH. intros y Hy. apply H. right. exact Hy. Qed.
Lemma skipn_tail : forall (a : list A) x b, skipn (S (length a)) (a ++ x :: b) = b.
Proof. induction a as [|y a IH]; intros x b; [reflexivity|]. cbn [length app]. change (skipn (S (S (length a))) (y :: (a ++ x :: b))) with (skipn (S (length a)) (a ++ x :: b)). apply IH. Qed.

Lemma view_end_len : forall l : list A, view_end pred l = length l.
Proof. intros l. unfold view_end. rewrite skipn_all. reflexivity. Qed.

Lemma view_run_ok : forall n (seen rest : list A) fuel, length rest = n -> n < fuel ->
  view_run pred fuel (seen ++ rest) (next_match pred rest (length seen)) = Some (Ok (List.filter pred rest)).
Proof.
  induction n as [n IH] using lt_wf_ind. intros seen rest fuel L F. destruct fuel as [|fuel]; [lia|]. cbn [view_run]. rewrite view_end_len.
  destruct (filter_cases rest) as [H|(a & x & b & -> & Hx & Ha)].
  - rewrite next_match_none by exact H. rewrite app_length, Nat.eqb_refl, filter_none by exact H. reflexivity.
  - rewrite next_match_skip by exact Ha. cbn [next_match]. rewrite Hx. rewrite app_length in L. cbn [length] in L.
    rewrite (app_assoc seen a (x :: b)), <- app_length. set (s := seen ++ a). rewrite app_length. cbn [length]. destruct (Nat.eqb_spec (length s) (length s + S (length b))); [lia|].
    unfold vec_get. rewrite nth_error_app2, Nat.sub_diag by lia. cbn [nth_error]. unfold view_next. rewrite app_length. cbn [length]. destruct (Nat.ltb_spec (length s) (length s + S (length b))); [|lia].
    rewrite skipn_tail. replace (s ++ x :: b) with ((s ++ [x]) ++ b) by (rewrite <- app_assoc; reflexivity).
    replace (S (length s)) with (length (s ++ [x])) by (rewrite app_length; cbn; lia). rewrite (IH (length b)); [|lia|reflexivity|lia].
    cbn [option_map omap]. rewrite filter_app, (filter_none a Ha). cbn [app List.filter]. rewrite Hx. reflexivity.
Qed.
Lemma view_assembled : forall l : list A, exists fuel, view_visit pred fuel l = Some (Ok (List.filter pred l)).
Proof. intros l. exists (S (length l)). exact (view_run_ok (length l) [] l (S (length l)) eq_refl (Nat.lt_succ_diag_r _)). Qed.
End V.

Lemma zip_loop_ok : forall A B (l1 a1 : list A) (l2 a2 : list B), length a1 = length a2 -> length l1 <= length l2 ->
  zip_loop (length l1) (a1 ++ l1) (a2 ++ l2) (length a1) = Ok (combine l1 l2).
Proof.
  induction l1 as [|x l1 IH]; intros a1 l2 a2 E L; [reflexivity|]. destruct l2 as [|y l2]; [cbn in L; lia|]. cbn [length zip_loop combine]. unfold vec_get.
  assert (G1 : nth_error (a1 ++ x :: l1) (length a1) = Some x) by (rewrite nth_error_app2, Nat.sub_diag; [reflexivity|lia]).
  assert (G2 : nth_error (a2 ++ y :: l2) (length a1) = Some y) by (rewrite E, nth_error_app2, Nat.sub_diag; [reflexivity|lia]).
  rewrite G1, G2. cbn [nth_error obind].
  replace (a1 ++ x :: l1) with ((a1 ++ [x]) ++ l1) by (rewrite <- app_assoc; reflexivity). replace (a2 ++ y :: l2) with ((a2 ++ [y]) ++ l2) by (rewrite <- app_assoc; reflexivity).
  replace (S (length a1)) with (length (a1 ++ [x])) by (rewrite app_length; cbn; lia). rewrite IH; [reflexivity|rewrite !app_length; cbn; lia|cbn in L; lia].
Qed.
Lemma zip_loop_out : forall A B n (l1 : list A) (l2 : list B) i, length l2 < i + n -> i <= length l2 -> i + n <= length l1 -> zip_loop n l1 l2 i = UB.
Proof.
  induction n as [|n IH]; intros l1 l2 i H1 H2 H3; [lia|]. cbn [zip_loop]. unfold vec_get. destruct (nth_error l1 i) eqn:E1; [|apply nth_error_None in E1; lia]. cbn [obind].
  destruct (nth_error l2 i) eqn:E2; [|reflexivity]. assert (i < length l2) by (apply nth_error_Some; congruence). cbn [obind]. rewrite IH by lia. reflexivity.
Qed.
Lemma zip_assembled : forall A B (l1 : list A) (l2 : list B), (length l1 <= length l2 -> zip l1 l2 = Ok (combine l1 l2)) /\ (length l2 < length l1 -> zip l1 l2 = UB).
Proof. intros A B l1 l2. split; intros H; [apply (zip_loop_ok A B l1 [] l2 []); auto|apply zip_loop_out; lia]. Qed.
