From Coq Require Import List Arith Bool Lia.
From Verif Require Import Base BaseProofs ArrSpec ArrModel.
Import ListNotations.

Section P.
Context {T : Type} (junk : T).
Notation state := (@state T).
Notation values := (@values T).
Implicit Types (s : state) (vs : values) (l : list T) (h : @heap T).

Definition owned (x : option array) : option nat := match x with Some a => data a | None => None end.
Definition cell s (x : option array) (v : value) : Prop :=
  match v with
  | Absent => x = None
  | Moved => exists a, x = Some a /\ data a = None
  | Holds l => (exists b, x = Some (Array (Some b) (Some (b, length l))) /\ nth_error (mem s) b = Some (Some l)) \/ (x = Some (Array None None) /\ l = [])
  end.
Definition inv s vs : Prop :=
  (forall i, cell s (vars s i) (vs i)) /\
  (forall i j b, owned (vars s i) = Some b -> owned (vars s j) = Some b -> i = j) /\
  (forall b l, nth_error (mem s) b = Some (Some l) -> exists i, owned (vars s i) = Some b).

Lemma cell_live : forall s x v b, cell s x v -> owned x = Some b -> exists l, v = Holds l /\ nth_error (mem s) b = Some (Some l) /\ x = Some (Array (Some b) (Some (b, length l))).
Proof.
  intros s x v b C O. destruct v as [| |l]; cbn in C.
  - subst x. discriminate.
  - destruct C as (a & -> & E). cbn in O. congruence.
  - destruct C as [(c & -> & E)|(-> & _)]; [|discriminate]. cbn in O. injection O as <-. eauto.
Qed.

(** Variable [i] gives up its block and gets a new one holding [l]. *)
Lemma inv_replace : forall s vs i s' l, inv s vs ->
  (forall b, nth_error (mem s') b = if b =? length (mem s) then Some (Some l) else if (match owned (vars s i) with Some c => b =? c | None => false end) then Some None else nth_error (mem s) b) ->
  (forall j, vars s' j = if j =? i then Some (Array (Some (length (mem s))) (Some (length (mem s), length l))) else vars s j) ->
  inv s' (put vs i (Holds l)).
Proof.
  intros s vs i s' l (I1 & I2 & I3) M V.
  assert (LT : forall j b, owned (vars s j) = Some b -> b < length (mem s)).
  { intros j b O. destruct (cell_live s _ _ b (I1 j) O) as (l0 & _ & E & _). apply nth_error_Some. congruence. }
  split; [|split].
  - intros j. rewrite V. unfold put. destruct (Nat.eqb_spec j i) as [->|Hj].
    + left. exists (length (mem s)). split; [reflexivity|]. rewrite M, Nat.eqb_refl. reflexivity.
    + specialize (I1 j). destruct (vs j) as [| |m]; cbn in *; auto. destruct I1 as [(b & E & L)|E]; auto. left. exists b. split; [exact E|]. rewrite M.
      assert (O : owned (vars s j) = Some b) by (rewrite E; reflexivity). pose proof (LT j b O). destruct (Nat.eqb_spec b (length (mem s))); [lia|].
      destruct (owned (vars s i)) as [c|] eqn:Oi; [|exact L]. destruct (Nat.eqb_spec b c) as [->|]; [|exact L]. elim Hj. eauto.
  - intros j k b. rewrite !V. destruct (Nat.eqb_spec j i) as [->|Hj], (Nat.eqb_spec k i) as [->|Hk]; cbn [owned data]; auto.
    + intros [= <-] O. apply LT in O. lia.
    + intros O [= <-]. apply LT in O. lia.
    + apply I2.
  - intros b m. rewrite M. destruct (Nat.eqb_spec b (length (mem s))) as [->|Hb].
    + intros _. exists i. rewrite V, Nat.eqb_refl. reflexivity.
    + destruct (owned (vars s i)) as [c|] eqn:Oi.
      * destruct (Nat.eqb_spec b c) as [->|Hc]; [discriminate|]. intros E. destruct (I3 b m E) as (j & Oj). exists j. rewrite V. destruct (Nat.eqb_spec j i) as [->|]; [congruence|exact Oj].
      * intros E. destruct (I3 b m E) as (j & Oj). exists j. rewrite V. destruct (Nat.eqb_spec j i) as [->|]; [congruence|exact Oj].
Qed.

(** Variable [i] gives up its block and has none afterwards. *)
Lemma inv_drop : forall s vs i s' x v, inv s vs ->
  (forall b, nth_error (mem s') b = if (match owned (vars s i) with Some c => b =? c | None => false end) then Some None else nth_error (mem s) b) ->
  (forall j, vars s' j = if j =? i then x else vars s j) -> owned x = None -> (forall s0, cell s0 x v) ->
  inv s' (put vs i v).
Proof.
  intros s vs i s' x v (I1 & I2 & I3) M V Ox Cx. split; [|split].
  - intros j. rewrite V. unfold put. destruct (Nat.eqb_spec j i) as [->|Hj]; [apply Cx|]. specialize (I1 j). destruct (vs j) as [| |m]; cbn in *; auto.
    destruct I1 as [(b & E & L)|E]; auto. left. exists b. split; [exact E|]. rewrite M. assert (O : owned (vars s j) = Some b) by (rewrite E; reflexivity).
    destruct (owned (vars s i)) as [c|] eqn:Oi; [|exact L]. destruct (Nat.eqb_spec b c) as [->|]; [|exact L]. elim Hj. eauto.
  - intros j k b. rewrite !V. destruct (Nat.eqb_spec j i) as [->|Hj], (Nat.eqb_spec k i) as [->|Hk]; try congruence. apply I2.
  - intros b m. rewrite M. destruct (owned (vars s i)) as [c|] eqn:Oi.
    + destruct (Nat.eqb_spec b c) as [->|Hc]; [discriminate|]. intros E. destruct (I3 b m E) as (j & Oj). exists j. rewrite V. destruct (Nat.eqb_spec j i) as [->|]; [congruence|exact Oj].
    + intros E. destruct (I3 b m E) as (j & Oj). exists j. rewrite V. destruct (Nat.eqb_spec j i) as [->|]; [congruence|exact Oj].
Qed.

(** The block of variable [i] gets new contents of the same length. *)
Lemma inv_write : forall s vs i b l l' s', inv s vs -> vars s i = Some (Array (Some b) (Some (b, length l))) -> length l' = length l -> nth_error (mem s) b = Some (Some l) ->
  (forall c, nth_error (mem s') c = if c =? b then Some (Some l') else nth_error (mem s) c) -> (forall j, vars s' j = vars s j) -> inv s' (put vs i (Holds l')).
Proof.
  intros s vs i b l l' s' (I1 & I2 & I3) E L Hb M V. assert (Oi : owned (vars s i) = Some b) by (rewrite E; reflexivity). split; [|split].
  - intros j. rewrite V. unfold put. destruct (Nat.eqb_spec j i) as [->|Hj].
    + left. exists b. rewrite E, L. split; [reflexivity|]. rewrite M, Nat.eqb_refl. reflexivity.
    + specialize (I1 j). destruct (vs j) as [| |m]; cbn in *; auto. destruct I1 as [(c & Ec & Lc)|Ec]; auto. left. exists c. split; [exact Ec|]. rewrite M.
      destruct (Nat.eqb_spec c b) as [->|]; [|exact Lc]. elim Hj. apply (I2 j i b); [rewrite Ec; reflexivity|exact Oi].
  - intros j k c. rewrite !V. apply I2.
  - intros c m. rewrite M. destruct (Nat.eqb_spec c b) as [->|]; [intros _; exists i; rewrite V; exact Oi|]. intros Ec. destruct (I3 c m Ec) as (j & Oj). exists j. rewrite V. exact Oj.
Qed.

(** Variable [i] gives up its block and takes over that of [j]. *)
Lemma inv_take : forall s vs i j s' l o f, inv s vs -> i <> j -> vs j = Holds l -> vars s j = Some o ->
  (forall b, nth_error (mem s') b = if (match owned (vars s i) with Some c => b =? c | None => false end) then Some None else nth_error (mem s) b) ->
  (forall k, vars s' k = if k =? i then Some (Array (data o) (fin o)) else if k =? j then Some (Array None f) else vars s k) ->
  inv s' (put (put vs j Moved) i (Holds l)).
Proof.
  intros s vs i j s' l o f (I1 & I2 & I3) N Ej Eo M V.
  assert (K : forall k b m, k <> i -> owned (vars s k) = Some b -> nth_error (mem s) b = Some (Some m) -> nth_error (mem s') b = Some (Some m)).
  { intros k b m Hk O E. rewrite M. destruct (owned (vars s i)) as [c|] eqn:Oi; [|exact E]. destruct (Nat.eqb_spec b c) as [->|]; [|exact E]. elim Hk. eauto. }
  split; [|split].
  - intros k. rewrite V. unfold put. destruct (Nat.eqb_spec k i) as [->|Hk].
    + pose proof (I1 j) as C. rewrite Ej, Eo in C. cbn in C. destruct C as [(b & E & L)|(E & ->)]; injection E as ->; cbn [data fin].
      * left. exists b. split; [reflexivity|]. apply (K j); auto. rewrite Eo. reflexivity.
      * right. auto.
    + destruct (Nat.eqb_spec k j) as [->|Hkj]; [exists (Array None f); auto|]. specialize (I1 k). destruct (vs k) as [| |m]; cbn in *; auto.
      destruct I1 as [(b & E & L)|E]; auto. left. exists b. split; [exact E|]. apply (K k); auto. rewrite E. reflexivity.
  - assert (G : forall k b, owned (vars s' k) = Some b -> (k = i /\ owned (vars s j) = Some b) \/ (k <> i /\ k <> j /\ owned (vars s k) = Some b)).
    { intros k b. rewrite V. destruct (Nat.eqb_spec k i) as [->|Hk]; [rewrite Eo; cbn; auto|]. destruct (Nat.eqb_spec k j); [discriminate|auto]. }
    intros k1 k2 b O1 O2. destruct (G k1 b O1) as [(-> & P1)|(H1 & H2 & P1)], (G k2 b O2) as [(-> & P2)|(H3 & H4 & P2)]; auto.
    + elim H4. apply (I2 k2 j b P2 P1).
    + elim H2. apply (I2 k1 j b P1 P2).
    + apply (I2 k1 k2 b P1 P2).
  - intros b m E. assert (E0 : nth_error (mem s) b = Some (Some m) /\ owned (vars s i) <> Some b).
    { rewrite M in E. destruct (owned (vars s i)) as [c|] eqn:Oi; [|split; [exact E|discriminate]]. destruct (Nat.eqb_spec b c); [discriminate|]. split; [exact E|congruence]. }
    destruct E0 as (E0 & Ni). destruct (I3 b m E0) as (k & Ok). destruct (Nat.eq_dec k j) as [->|Hk].
    + exists i. rewrite V, Nat.eqb_refl. rewrite Eo in Ok. exact Ok.
    + exists k. rewrite V. destruct (Nat.eqb_spec k i) as [->|]; [congruence|]. destruct (Nat.eqb_spec k j); [congruence|exact Ok].
Qed.

Lemma nth_list_set : forall X (k : list X) i x j, i < length k -> nth_error (list_set k i x) j = if j =? i then Some x else nth_error k j.
Proof. intros X k i x j H. destruct (Nat.eqb_spec j i) as [->|N]; [apply nth_error_list_set_eq; exact H|apply nth_error_list_set_neq; auto]. Qed.
Lemma nth_snoc' : forall X (k : list X) x j, nth_error (k ++ [x]) j = if j =? length k then Some x else nth_error k j.
Proof.
  intros X k x j. destruct (Nat.eqb_spec j (length k)) as [->|N].
  - rewrite nth_error_app2, Nat.sub_diag by lia. reflexivity.
  - destruct (Nat.lt_ge_cases j (length k)); [apply nth_error_app1; exact H|]. rewrite (proj2 (nth_error_None (k ++ [x]) j)) by (rewrite app_length; cbn; lia). symmetry. apply nth_error_None. exact H.
Qed.

(** Freeing the block of variable [i] works, also after an allocation. *)
Lemma free_ok : forall s vs i t, inv s vs -> (forall b l, nth_error (mem s) b = Some (Some l) -> nth_error (mem t) b = Some (Some l)) ->
  exists t', free t (owned (vars s i)) = Ok t' /\ vars t' = vars t /\
  forall b, nth_error (mem t') b = if (match owned (vars s i) with Some c => b =? c | None => false end) then Some None else nth_error (mem t) b.
Proof.
  intros s vs i t (I1 & _ & _) H. unfold free. destruct (owned (vars s i)) as [c|] eqn:O; [|exists t; auto].
  destruct (cell_live s _ _ c (I1 i) O) as (l & _ & E & _). pose proof (H c l E) as G. rewrite G. eexists. split; [reflexivity|]. split; [reflexivity|].
  intros b. cbn [set_mem mem]. apply nth_list_set. apply nth_error_Some. congruence.
Qed.
Lemma minus_same : forall b n, minus (Some (b, n)) (Some (b, 0)) = Ok n.
Proof. intros b n. unfold minus. rewrite Nat.eqb_refl. cbn. f_equal. lia. Qed.
Lemma size_ok : forall b n, size (Array (Some b) (Some (b, n))) = Ok n.
Proof. intros. unfold size, begin_. cbn [fin data option_map]. apply minus_same. Qed.
Lemma read_ok : forall s b l, nth_error (mem s) b = Some (Some l) -> read_all s (Array (Some b) (Some (b, length l))) = Ok l.
Proof. intros s b l E. unfold read_all. rewrite size_ok. cbn [obind data]. unfold block. rewrite E. cbn [obind]. rewrite Nat.leb_refl, firstn_all. reflexivity. Qed.
Lemma write_ok : forall s b old l f, nth_error (mem s) b = Some (Some old) -> length l = length old ->
  exists s', write_front s (Array (Some b) f) l = Ok s' /\ vars s' = vars s /\ forall c, nth_error (mem s') c = if c =? b then Some (Some l) else nth_error (mem s) c.
Proof.
  intros s b old l f E L. destruct l as [|x l].
  - exists s. destruct old; [|discriminate]. split; [reflexivity|]. split; [reflexivity|]. intros c. destruct (Nat.eqb_spec c b) as [->|]; auto.
  - unfold write_front. cbn [data]. unfold block. rewrite E. cbn [obind]. rewrite L, Nat.leb_refl, skipn_all, app_nil_r. eexists. split; [reflexivity|]. split; [reflexivity|].
    intros c. cbn [set_mem mem]. apply nth_list_set. apply nth_error_Some. congruence.
Qed.
Lemma fill_ok : forall s b old v, nth_error (mem s) b = Some (Some old) ->
  exists s', fill s (Array (Some b) (Some (b, length old))) v = Ok s' /\ vars s' = vars s /\ forall c, nth_error (mem s') c = if c =? b then Some (Some (map (fun _ => v) old)) else nth_error (mem s) c.
Proof. intros s b old v E. unfold fill. rewrite read_ok by exact E. cbn [obind]. apply (write_ok s b old); [exact E|apply map_length]. Qed.
Lemma map_repeat : forall n (v : T), map (fun _ => v) (repeat junk n) = repeat v n.
Proof. induction n as [|n IH]; intros v; cbn; [reflexivity|]. rewrite IH. reflexivity. Qed.

(** Constructing with [n] times [v] in variable [i] after giving up its block. *)
Lemma renew : forall s vs i n v, inv s vs -> forall s1 b, alloc junk s n = (s1, b) -> forall s2, vars s2 = vars s1 ->
  (forall c, nth_error (mem s2) c = if (match owned (vars s i) with Some d => c =? d | None => false end) then Some None else nth_error (mem s1) c) ->
  exists s', (let a := Array (Some b) (Some (b, n)) in fill (set_var s2 i (Some a)) a v) = Ok s' /\ inv s' (put vs i (Holds (repeat v n))).
Proof.
  intros s vs i n v I s1 b A s2 V M. unfold alloc in A. injection A as <- <-. cbn [set_mem mem vars] in *. cbv zeta.
  assert (LT : match owned (vars s i) with Some d => d < length (mem s) | None => True end).
  { destruct (owned (vars s i)) as [d|] eqn:O; [|exact Logic.I]. destruct I as (I1 & _). destruct (cell_live s _ _ d (I1 i) O) as (l0 & _ & E & _). apply nth_error_Some. congruence. }
  assert (NB : nth_error (mem s2) (length (mem s)) = Some (Some (repeat junk n))).
  { rewrite M, nth_snoc', Nat.eqb_refl. destruct (owned (vars s i)) as [d|]; [|reflexivity]. destruct (Nat.eqb_spec (length (mem s)) d); [lia|reflexivity]. }
  destruct (fill_ok (set_var s2 i (Some (Array (Some (length (mem s))) (Some (length (mem s), n))))) (length (mem s)) (repeat junk n) v NB) as (s' & E & V' & M').
  rewrite repeat_length in E. exists s'. split; [exact E|]. apply (inv_replace s vs i s' (repeat v n) I).
  - intros c. rewrite M'. cbn [set_var mem]. rewrite map_repeat. destruct (Nat.eqb_spec c (length (mem s))) as [->|Hc]; [reflexivity|]. rewrite M, nth_snoc'.
    destruct (Nat.eqb_spec c (length (mem s))); [congruence|reflexivity].
  - intros j. rewrite V'. cbn [set_var vars]. rewrite V, repeat_length. reflexivity.
Qed.
(** Constructing a copy of [l] in variable [i] after giving up its block. *)
Lemma recopy : forall s vs i l, inv s vs -> forall s2 s1 b, alloc junk s (length l) = (s1, b) -> vars s2 = vars s1 ->
  (forall c, nth_error (mem s2) c = if (match owned (vars s i) with Some d => c =? d | None => false end) then Some None else nth_error (mem s1) c) ->
  forall s3, mem s3 = mem s2 -> (forall j, j <> i -> vars s3 j = vars s2 j) -> vars s3 i = Some (Array (Some b) (Some (b, length l))) ->
  exists s', write_front s3 (Array (Some b) (Some (b, length l))) l = Ok s' /\ inv s' (put vs i (Holds l)).
Proof.
  intros s vs i l I s2 s1 b A V M s3 M3 V3 V3i. unfold alloc in A. injection A as <- <-. cbn [set_mem mem vars] in *.
  assert (LT : match owned (vars s i) with Some d => d < length (mem s) | None => True end).
  { destruct (owned (vars s i)) as [d|] eqn:O; [|exact Logic.I]. destruct I as (I1 & _). destruct (cell_live s _ _ d (I1 i) O) as (l0 & _ & E & _). apply nth_error_Some. congruence. }
  assert (NB : nth_error (mem s3) (length (mem s)) = Some (Some (repeat junk (length l)))).
  { rewrite M3, M, nth_snoc', Nat.eqb_refl. destruct (owned (vars s i)) as [d|]; [|reflexivity]. destruct (Nat.eqb_spec (length (mem s)) d); [lia|reflexivity]. }
  destruct (write_ok s3 (length (mem s)) (repeat junk (length l)) l (Some (length (mem s), length l)) NB) as (s' & E & V' & M'); [rewrite repeat_length; reflexivity|].
  exists s'. split; [exact E|]. apply (inv_replace s vs i s' l I).
  - intros c. rewrite M'. destruct (Nat.eqb_spec c (length (mem s))) as [->|Hc]; [reflexivity|]. rewrite M3, M, nth_snoc'. destruct (Nat.eqb_spec c (length (mem s))); [congruence|reflexivity].
  - intros j. rewrite V'. destruct (Nat.eqb_spec j i) as [->|Hj]; [exact V3i|]. rewrite V3, V by exact Hj. reflexivity.
Qed.

Lemma absent : forall s vs i, inv s vs -> vs i = Absent -> vars s i = None.
Proof. intros s vs i (I1 & _) E. specialize (I1 i). rewrite E in I1. exact I1. Qed.
Lemma present : forall s vs i, inv s vs -> vs i <> Absent -> exists a, vars s i = Some a.
Proof.
  intros s vs i (I1 & _) E. specialize (I1 i). destruct (vs i) as [| |l]; [congruence| |].
  - destruct I1 as (a & -> & _). eauto.
  - destruct I1 as [(b & -> & _)|(-> & _)]; eauto.
Qed.
Lemma alloc_keeps : forall s n s1 b, alloc junk s n = (s1, b) -> vars s1 = vars s /\ b = length (mem s) /\ forall c l, nth_error (mem s) c = Some (Some l) -> nth_error (mem s1) c = Some (Some l).
Proof.
  intros s n s1 b A. unfold alloc in A. injection A as <- <-. repeat split. intros c l E. cbn [set_mem mem]. rewrite nth_snoc'.
  destruct (Nat.eqb_spec c (length (mem s))) as [->|]; [|exact E]. rewrite (proj2 (nth_error_None (mem s) (length (mem s)))) in E by lia. discriminate.
Qed.
(** Sizes and contents of a variable that holds a list. *)
Lemma holds_size : forall s vs j l, inv s vs -> vs j = Holds l -> exists o, vars s j = Some o /\ size o = Ok (length l) /\
  forall t, (forall b m, owned (vars s j) = Some b -> nth_error (mem s) b = Some (Some m) -> nth_error (mem t) b = Some (Some m)) -> read_all t o = Ok l.
Proof.
  intros s vs j l (I1 & _) E. specialize (I1 j). rewrite E in I1. destruct I1 as [(b & Ev & Eb)|(Ev & ->)]; rewrite Ev; eexists; (split; [reflexivity|]).
  - split; [apply size_ok|]. intros t H. apply read_ok. apply H; [reflexivity|exact Eb].
  - split; [reflexivity|]. intros t _. reflexivity.
Qed.

Lemma step_ok : forall s vs a vs', inv s vs -> effect vs a = Some vs' -> exists s', step junk s a = Ok s' /\ inv s' vs'.
Proof.
  intros s vs a vs' I E. destruct a as [i n v|i|i j|i j|i j|i j|i n v|i|i v|i k v|i]; cbn [effect step] in *.
  - (* New *) destruct (vs i) eqn:Ei; try discriminate. injection E as <-. pose proof (absent s vs i I Ei) as Vi. unfold construct. destruct (alloc junk s n) as [s1 b] eqn:A.
    apply (renew s vs i n v I s1 b A s1 eq_refl). intros c. rewrite Vi. reflexivity.
  - (* NewEmpty *) destruct (vs i) eqn:Ei; try discriminate. injection E as <-. pose proof (absent s vs i I Ei) as Vi. eexists. split; [reflexivity|].
    apply (inv_drop s vs i _ (Some (Array None None)) (Holds []) I); [rewrite Vi; reflexivity|reflexivity|reflexivity|]. intros s0. right. auto.
  - (* NewCopy *) destruct (vs i) eqn:Ei; try discriminate. destruct (vs j) as [| |l] eqn:Ej; try discriminate. injection E as <-. pose proof (absent s vs i I Ei) as Vi.
    destruct (holds_size s vs j l I Ej) as (o & Vj & Sj & Rj). unfold construct_copy, var. rewrite Vj. cbn [obind]. rewrite Sj. cbn [obind]. destruct (alloc junk s (length l)) as [s1 b] eqn:A.
    destruct (alloc_keeps s _ s1 b A) as (V1 & Eb & K1). rewrite Rj by (intros; apply K1; assumption). cbn [obind].
    apply (recopy s vs i l I s1 s1 b A eq_refl); [intros c; rewrite Vi; reflexivity|reflexivity| |].
    + intros k Hk. cbn [set_var vars]. destruct (Nat.eqb_spec k i); [congruence|reflexivity].
    + cbn [set_var vars]. rewrite Nat.eqb_refl. reflexivity.
  - (* NewMove *) destruct (vs i) eqn:Ei; try discriminate. destruct (vs j) as [| |l] eqn:Ej; try discriminate. injection E as <-. pose proof (absent s vs i I Ei) as Vi.
    destruct (holds_size s vs j l I Ej) as (o & Vj & _). unfold construct_move, var. rewrite Vj. cbn [obind]. eexists. split; [reflexivity|].
    apply (inv_take s vs i j _ l o (fin o) I); auto; [congruence|rewrite Vi; reflexivity].
  - (* Assign *) destruct (Nat.eqb_spec i j) as [|Nij]; [discriminate|].
    assert (H : vs i <> Absent /\ exists l, vs j = Holds l /\ vs' = put vs i (Holds l)) by (destruct (vs i), (vs j); try discriminate; injection E as <-; split; try discriminate; eauto).
    destruct H as (Hi & l & Ej & ->). clear E. destruct (present s vs i I Hi) as (a & Vi). destruct (holds_size s vs j l I Ej) as (o & Vj & Sj & Rj).
    unfold assign_copy, var. rewrite Vi, Vj. cbn [obind]. rewrite Sj. cbn [obind]. destruct (alloc junk s (length l)) as [s1 b] eqn:A. destruct (alloc_keeps s _ s1 b A) as (V1 & Eb & K1).
    destruct (free_ok s vs i s1 I K1) as (s2 & F & V2 & M2). assert (D : data a = owned (vars s i)) by (rewrite Vi; reflexivity). rewrite D, F. cbn [obind set_var vars].
    destruct (Nat.eqb_spec j i); [congruence|]. rewrite V2, V1, Vj. cbn [obind]. rewrite Sj. cbn [obind set_var vars]. destruct (Nat.eqb_spec j i); [congruence|]. rewrite ?Vj. cbn [obind].
    rewrite Rj. 2:{ intros c m Oc Ec. cbn [mem]. rewrite M2. destruct (owned (vars s i)) as [d|] eqn:Od; [|apply K1; exact Ec]. destruct (Nat.eqb_spec c d) as [->|]; [|apply K1; exact Ec].
      elim Nij. destruct I as (_ & I2 & _). apply (I2 i j d); assumption. }
    cbn [obind]. apply (recopy s vs i l I s2 s1 b A V2 M2); [reflexivity| |].
    + intros k Hk. cbn [set_var vars]. destruct (Nat.eqb_spec k i); [congruence|]. reflexivity.
    + cbn [set_var vars]. rewrite Nat.eqb_refl. reflexivity.
  - (* MoveAssign *) assert (H : vs i <> Absent /\ exists l, vs j = Holds l /\ vs' = put (put vs j Moved) i (Holds l)) by (destruct (vs i), (vs j); try discriminate; injection E as <-; split; try discriminate; eauto).
    destruct H as (Hi & l & Ej & ->). clear E. destruct (present s vs i I Hi) as (a & Vi). destruct (holds_size s vs j l I Ej) as (o & Vj & Sj & Rj).
    unfold assign_move, var. rewrite Vi, Vj. cbn [obind]. destruct (Nat.eqb_spec i j) as [->|Nij].
    + exists s. split; [reflexivity|]. destruct I as (I1 & I23). split; [|exact I23]. intros k. unfold put. specialize (I1 k). destruct (Nat.eqb_spec k j) as [->|]; [rewrite Ej in I1|]; exact I1.
    + destruct (free_ok s vs i s I (fun _ _ e => e)) as (s1 & F & V1 & M1). assert (D : data a = owned (vars s i)) by (rewrite Vi; reflexivity). rewrite D, F. cbn [obind].
      eexists. split; [reflexivity|]. apply (inv_take s vs i j _ l o (fin o) I); auto. cbn [set_var vars]. intros k. rewrite V1. reflexivity.
  - (* Resize *) assert (H : vs i <> Absent /\ vs' = put vs i (Holds (repeat v n))) by (destruct (vs i); try discriminate; injection E as <-; split; try discriminate; eauto).
    destruct H as (Hi & ->). clear E. destruct (present s vs i I Hi) as (a & Vi). unfold resize, var. rewrite Vi. cbn [obind]. destruct (alloc junk s n) as [s1 b] eqn:A.
    destruct (alloc_keeps s _ s1 b A) as (V1 & Eb & K1). destruct (free_ok s vs i s1 I K1) as (s2 & F & V2 & M2). assert (D : data a = owned (vars s i)) by (rewrite Vi; reflexivity). rewrite D, F. cbn [obind].
    apply (renew s vs i n v I s1 b A s2 V2 M2).
  - (* Clear *) assert (H : vs i <> Absent /\ vs' = put vs i (Holds [])) by (destruct (vs i); try discriminate; injection E as <-; split; try discriminate; eauto).
    destruct H as (Hi & ->). clear E. destruct (present s vs i I Hi) as (a & Vi). unfold clear, var. rewrite Vi. cbn [obind].
    destruct (free_ok s vs i s I (fun _ _ e => e)) as (s1 & F & V1 & M1). assert (D : data a = owned (vars s i)) by (rewrite Vi; reflexivity). rewrite D, F. cbn [obind].
    eexists. split; [reflexivity|]. apply (inv_drop s vs i _ (Some (Array None None)) (Holds []) I); [exact M1|cbn [set_var vars]; rewrite V1; reflexivity|reflexivity|]. intros s0. right. auto.
  - (* Fill *) destruct (vs i) as [| |l] eqn:Ei; try discriminate. injection E as <-. pose proof I as (I1 & _). specialize (I1 i). rewrite Ei in I1. unfold var. destruct I1 as [(b & Ev & Eb)|(Ev & ->)]; rewrite Ev; cbn [obind].
    + destruct (fill_ok s b l v Eb) as (s' & F & V' & M'). exists s'. split; [exact F|]. apply (inv_write s vs i b l _ s' I Ev (map_length _ _) Eb M'). intros j. rewrite V'. reflexivity.
    + exists s. split; [reflexivity|]. destruct I as (I1 & I23). split; [|exact I23]. intros k. unfold put. specialize (I1 k). destruct (Nat.eqb_spec k i) as [->|]; [rewrite Ei in I1|]; exact I1.
  - (* SetAt *) destruct (vs i) as [| |l] eqn:Ei; try discriminate. destruct (Nat.ltb_spec k (length l)) as [Hk|]; [|discriminate]. injection E as <-. pose proof I as (I1 & _). specialize (I1 i). rewrite Ei in I1. unfold set_at, var.
    destruct I1 as [(b & Ev & Eb)|(Ev & ->)]; [|cbn in Hk; lia]. rewrite Ev. cbn [obind data]. unfold block. rewrite Eb. cbn [obind]. unfold vec_set. destruct (Nat.ltb_spec k (length l)); [|lia]. cbn [obind].
    eexists. split; [reflexivity|]. assert (R : replace_at l k v = list_set l k v) by (clear; revert k; induction l as [|x l IH]; intros [|k]; cbn; congruence). rewrite R.
    apply (inv_write s vs i b l _ _ I Ev (list_set_length _ _ _) Eb); [|reflexivity]. intros c. cbn [set_mem mem]. apply nth_list_set. apply nth_error_Some. congruence.
  - (* Destroy *) assert (H : vs i <> Absent /\ vs' = put vs i Absent) by (destruct (vs i); try discriminate; injection E as <-; split; try discriminate; eauto).
    destruct H as (Hi & ->). clear E. destruct (present s vs i I Hi) as (a & Vi). unfold destroy, var. rewrite Vi. cbn [obind].
    destruct (free_ok s vs i s I (fun _ _ e => e)) as (s1 & F & V1 & M1). assert (D : data a = owned (vars s i)) by (rewrite Vi; reflexivity). rewrite D, F. cbn [obind].
    eexists. split; [reflexivity|]. apply (inv_drop s vs i _ None Absent I); [exact M1|cbn [set_var vars]; rewrite V1; reflexivity|reflexivity|reflexivity].
Qed.

Lemma inv_start : inv start nothing.
Proof.
  split; [reflexivity|]. split; [discriminate|]. intros [|b] l E; discriminate.
Qed.
Lemma run_ok : forall p s vs vs', inv s vs -> effects vs p = Some vs' -> exists s', run junk s p = Ok s' /\ inv s' vs'.
Proof.
  induction p as [|a p IH]; intros s vs vs' I E; cbn in *.
  - injection E as <-. eauto.
  - destruct (effect vs a) as [v1|] eqn:E1; [|discriminate]. destruct (step_ok s vs a v1 I E1) as (s1 & R1 & I1). rewrite R1. cbn [obind]. eauto.
Qed.

Lemma inv_shows : forall s vs i l, inv s vs -> vs i = Holds l -> shows s i l.
Proof.
  intros s vs i l (I1 & _) E. specialize (I1 i). rewrite E in I1. unfold shows. destruct I1 as [(b & Ev & Eb)|(Ev & ->)]; rewrite Ev; eexists; (split; [reflexivity|]).
  - split; [apply size_ok|]. unfold at_. rewrite size_ok. cbn [obind]. split; [|split].
    + unfold empty, begin_, same. cbn. rewrite Nat.eqb_refl. cbn. destruct l; cbn; split; congruence.
    + intros k Hk. destruct (nth_error l k) as [x|] eqn:Ex; [|apply nth_error_None in Ex; lia]. exists x. split; [reflexivity|].
      assert (G : get s (Array (Some b) (Some (b, length l))) k = Ok x) by (unfold get, block; cbn [data]; rewrite Eb; cbn [obind]; unfold vec_get; rewrite Ex; reflexivity).
      split; [exact G|]. destruct (Nat.leb_spec (length l) k); [lia|exact G].
    + intros k Hk. destruct (Nat.leb_spec (length l) k); [reflexivity|lia].
  - split; [reflexivity|]. split; [|split].
    + split; reflexivity.
    + intros k Hk. cbn in Hk. lia.
    + intros k _. reflexivity.
Qed.

Lemma program_assembled : forall p vs', effects nothing p = Some vs' -> exists s, run junk start p = Ok s /\
  (forall i l, vs' i = Holds l -> shows s i l) /\
  (forall b l, nth_error (mem s) b = Some (Some l) -> exists i, vs' i = Holds l) /\
  ((forall i, vs' i = Absent) -> forall b l, nth_error (mem s) b <> Some (Some l)).
Proof.
  intros p vs' E. destruct (run_ok p start nothing vs' inv_start E) as (s & R & I). exists s. split; [exact R|].
  assert (G : forall b l, nth_error (mem s) b = Some (Some l) -> exists i, vs' i = Holds l).
  { intros b l Eb. destruct I as (I1 & _ & I3). destruct (I3 b l Eb) as (i & O). exists i. destruct (cell_live s _ _ b (I1 i) O) as (m & Em & Eb' & _). congruence. }
  split; [intros i l; apply inv_shows; exact I|]. split; [exact G|]. intros N b l Eb. destruct (G b l Eb) as (i & Ei). rewrite N in Ei. discriminate.
Qed.

Lemma run_app : forall p q s, run junk s (p ++ q) = (do s' <- run junk s p; run junk s' q).
Proof. induction p as [|a p IH]; intros q s; cbn [app run obind]; [reflexivity|]. destruct (step junk s a); cbn [obind]; auto. Qed.
Lemma self_assembled : forall p vs' i l, effects nothing p = Some vs' -> vs' i = Holds l -> run junk start (p ++ [Assign i i]) = UB.
Proof.
  intros p vs' i l E Ei. destruct (run_ok p start nothing vs' inv_start E) as (s & R & I). rewrite run_app, R. cbn [obind run step]. unfold assign_copy, var.
  pose proof I as (I1 & _). specialize (I1 i). rewrite Ei in I1.
  destruct I1 as [(b & Ev & Eb)|(Ev & ->)]; rewrite Ev; cbn [obind].
  - rewrite size_ok. cbn [obind]. destruct (alloc junk s (length l)) as [s1 c] eqn:A. destruct (alloc_keeps s _ s1 c A) as (V1 & Ec & K1).
    destruct (free_ok s vs' i s1 I K1) as (s2 & F & V2 & M2). rewrite Ev in F. cbn [owned data] in F. cbn [data]. rewrite F. cbn [obind set_var vars]. rewrite Nat.eqb_refl. cbn [obind].
    unfold size, begin_, minus. cbn [fin data option_map]. assert (b < length (mem s)) by (apply nth_error_Some; congruence). destruct (Nat.eqb_spec b c); [lia|]. reflexivity.
  - cbn [size begin_ fin data option_map minus obind]. destruct (alloc junk s 0) as [s1 c] eqn:A. cbn [data free obind set_var vars]. rewrite Nat.eqb_refl. reflexivity.
Qed.

Context (eqb : T -> T -> bool) (eqb_ok : forall x y, eqb x y = true <-> x = y).
Lemma eq_loop_ok : forall s a b la lb n k, (forall i, i < length la -> exists x, nth_error la i = Some x /\ get s a i = Ok x) -> (forall i, i < length lb -> exists x, nth_error lb i = Some x /\ get s b i = Ok x) ->
  length la = length lb -> k + n = length la -> exists r, eq_loop eqb s a b n k = Ok r /\ (r = true <-> forall i, k <= i -> nth_error la i = nth_error lb i).
Proof.
  intros s a b la lb n. induction n as [|n IH]; intros k Ga Gb L E; cbn [eq_loop].
  - exists true. split; [reflexivity|]. split; [|reflexivity]. intros _ i Hi. rewrite (proj2 (nth_error_None la i)), (proj2 (nth_error_None lb i)) by lia. reflexivity.
  - destruct (Ga k) as (x & Ex & Gx); [lia|]. destruct (Gb k) as (y & Ey & Gy); [lia|]. rewrite Gx, Gy. cbn [obind]. destruct (eqb x y) eqn:Q.
    + apply eqb_ok in Q. subst y. destruct (IH (S k) Ga Gb L) as (r & Er & Hr); [lia|]. exists r. split; [exact Er|]. rewrite Hr. split.
      * intros H i Hi. destruct (Nat.eq_dec i k) as [->|]; [congruence|apply H; lia].
      * intros H i Hi. apply H. lia.
    + exists false. split; [reflexivity|]. split; [discriminate|]. intros H. specialize (H k (le_n k)). rewrite Ex, Ey in H. injection H as ->. rewrite (proj2 (eqb_ok y y) eq_refl) in Q. discriminate.
Qed.
Lemma equal_ok : forall s i j la lb a b, shows s i la -> shows s j lb -> vars s i = Some a -> vars s j = Some b -> exists r, equal eqb s a b = Ok r /\ (r = true <-> la = lb).
Proof.
  intros s i j la lb a b (a' & Va & Sa & _ & Ga & _) (b' & Vb & Sb & _ & Gb & _) Ea Eb. assert (a' = a) by congruence. assert (b' = b) by congruence. subst a' b'.
  unfold equal. rewrite Sa, Sb. cbn [obind]. destruct (Nat.eqb_spec (length la) (length lb)) as [L|L].
  - destruct (eq_loop_ok s a b la lb (length la) 0) as (r & Er & Hr); [| |exact L|reflexivity|].
    + intros k Hk. destruct (Ga k Hk) as (x & X1 & X2 & _). eauto.
    + intros k Hk. destruct (Gb k Hk) as (x & X1 & X2 & _). eauto.
    + exists r. split; [exact Er|]. rewrite Hr. split; [|intros ->; reflexivity]. intros H. clear -H. revert lb H. induction la as [|x la IH]; intros [|y lb] H; auto.
      * specialize (H 0 (le_n 0)). discriminate.
      * specialize (H 0 (le_n 0)). discriminate.
      * pose proof (H 0 (le_n 0)) as H0. injection H0 as ->. f_equal. apply IH. intros k Hk. apply (H (S k)). lia.
  - exists false. split; [reflexivity|]. split; [discriminate|]. intros ->. congruence.
Qed.
Lemma equal_assembled : forall p vs' i j la lb, effects nothing p = Some vs' -> vs' i = Holds la -> vs' j = Holds lb ->
  exists s a b r, run junk start p = Ok s /\ vars s i = Some a /\ vars s j = Some b /\ equal eqb s a b = Ok r /\ (r = true <-> la = lb).
Proof.
  intros p vs' i j la lb E Ei Ej. destruct (program_assembled p vs' E) as (s & R & H & _). pose proof (H i la Ei) as Hi. pose proof (H j lb Ej) as Hj.
  pose proof Hi as (a & Va & _). pose proof Hj as (b & Vb & _). destruct (equal_ok s i j la lb a b Hi Hj Va Vb) as (r & Er & Hr). exists s, a, b, r. auto.
Qed.
End P.
