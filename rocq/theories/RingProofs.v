(** Proofs about circular_deque and circular_buffer. *)
From Coq Require Import List Arith Bool Lia ZArith.
From Coq Require Import ZifyBool ZifyNat.
From Verif Require Import Base BaseProofs RingSpec RingModel.
Import ListNotations.

Lemma ring_mod f i c : f < c -> i < c -> (f + i) mod c = if f + i <? c then f + i else f + i - c.
Proof.
  intros Hf Hi. destruct (f + i <? c) eqn:E.
  - apply Nat.mod_small. lia.
  - symmetry. apply (Nat.mod_unique _ _ 1); lia.
Qed.

Lemma vset_ok {A} (l : list A) i x : i < length l -> vec_set l i x = Ok (list_set l i x).
Proof. intros H. unfold vec_set. apply Nat.ltb_lt in H. rewrite H. reflexivity. Qed.

Lemma vget_ok {A} (l : list A) i x : nth_error l i = Some x -> vec_get l i = Ok x.
Proof. intros H. unfold vec_get. rewrite H. reflexivity. Qed.

Lemma list_insert_length {A} (l : list A) i x : i <= length l -> length (list_insert l i x) = S (length l).
Proof. intros H. unfold list_insert. rewrite app_length, firstn_length. cbn [length]. rewrite skipn_length. lia. Qed.

Lemma nth_error_list_insert {A} (l : list A) i x j : i <= length l ->
  nth_error (list_insert l i x) j =
  if j <? i then nth_error l j else if j =? i then Some x else nth_error l (j - 1).
Proof.
  intros H. unfold list_insert.
  assert (Hf : length (firstn i l) = i) by (rewrite firstn_length; lia).
  destruct (j <? i) eqn:E1.
  - rewrite nth_error_app1 by lia. clear - E1. revert i j E1.
    induction l as [|a l IH]; intros [|i] [|j] E1; try reflexivity; try lia. cbn. apply IH. lia.
  - rewrite nth_error_app2 by lia. rewrite Hf. destruct (j =? i) eqn:E2.
    + replace (j - i) with 0 by lia. reflexivity.
    + replace (j - i) with (S (j - 1 - i)) by lia. cbn [nth_error].
      rewrite <- (firstn_skipn i l) at 2. rewrite nth_error_app2 by lia. rewrite Hf. reflexivity.
Qed.

Lemma removelast_firstn' {A} (l : list A) : removelast l = firstn (length l - 1) l.
Proof.
  induction l as [|a [|b l] IH]; [reflexivity|reflexivity|].
  change (removelast (a :: b :: l)) with (a :: removelast (b :: l)). rewrite IH.
  cbn [length]. replace (S (S (length l)) - 1) with (S (S (length l) - 1)) by lia. reflexivity.
Qed.

Section DequeProofs.
  Context {T : Type} (tdef : T).
  Local Notation cdeque := (cdeque T).

  Definition cd_inv (d : cdeque) (l : list T) : Prop :=
    length l = cd_size d /\ cd_size d <= cd_capacity d /\
    (cd_capacity d = 0 -> cd_front d = 0) /\ (0 < cd_capacity d -> cd_front d < cd_capacity d) /\
    forall i, i < cd_size d -> nth_error (cd_buf d) ((cd_front d + i) mod cd_capacity d) = nth_error l i.

  Lemma cd_push_back_inv d l x : cd_inv d l ->
    match cd_push_back d x with
    | Ok d' => cd_inv d' (l ++ [x]) /\ cd_capacity d <= cd_capacity d'
    | Throw => False
    | UB => cd_size d = cd_capacity d /\ cd_front d <> 0
    end.
  Proof.
    intros (Hl & Hs & H0 & Hf & Hi). unfold cd_push_back.
    destruct (cd_capacity d <? S (cd_size d)) eqn:E.
    - assert (Hfull : cd_size d = cd_capacity d) by lia.
      unfold buf_insert. destruct (cd_front d + S (cd_size d) - 1 <=? length (cd_buf d)) eqn:E2; cbn [obind].
      + assert (Hfr : cd_front d = 0) by (unfold cd_capacity in *; lia).
        rewrite Hfr in *. replace (0 + S (cd_size d) - 1) with (length (cd_buf d)) by (unfold cd_capacity in *; lia).
        split.
        * unfold cd_inv, cd_capacity. cbn [cd_front cd_size cd_buf]. rewrite list_insert_length by lia.
          unfold cd_capacity in *.
          repeat split; try lia.
          -- rewrite app_length. cbn. lia.
          -- intros i Hlt. rewrite Nat.add_0_l. rewrite Nat.mod_small by lia.
             rewrite nth_error_list_insert by lia.
             destruct (i <? length (cd_buf d)) eqn:E3.
             ++ rewrite nth_error_app1 by lia. rewrite <- Hi by lia. rewrite Nat.add_0_l, Nat.mod_small by lia. reflexivity.
             ++ replace (i =? length (cd_buf d)) with true by lia. rewrite nth_error_app2 by lia.
                replace (i - length l) with 0 by lia. reflexivity.
        * unfold cd_capacity. cbn [cd_buf]. rewrite list_insert_length by lia. lia.
      + split; [exact Hfull|]. unfold cd_capacity in *. lia.
    - assert (Hcap : 0 < cd_capacity d) by lia. specialize (Hf Hcap).
      unfold umod. replace (cd_capacity d =? 0) with false by lia. cbn [obind].
      replace (cd_front d + S (cd_size d) - 1) with (cd_front d + cd_size d) by lia.
      assert (B : (cd_front d + cd_size d) mod cd_capacity d < cd_capacity d) by (apply Nat.mod_upper_bound; lia).
      rewrite vset_ok by exact B. cbn [obind].
      split; [|unfold cd_capacity; cbn [cd_buf]; rewrite list_set_length; lia].
      unfold cd_inv, cd_capacity. cbn [cd_front cd_size cd_buf]. rewrite list_set_length. fold (cd_capacity d).
      repeat split; try lia.
      + rewrite app_length. cbn. lia.
      + intros i Hlt. destruct (Nat.eq_dec i (cd_size d)) as [->|Hne].
        * rewrite nth_error_list_set_eq by exact B. rewrite nth_error_app2 by lia. replace (cd_size d - length l) with 0 by lia. reflexivity.
        * rewrite nth_error_list_set_neq.
          -- rewrite nth_error_app1 by lia. apply Hi. lia.
          -- rewrite !ring_mod by lia. destruct (cd_front d + cd_size d <? cd_capacity d) eqn:E1, (cd_front d + i <? cd_capacity d) eqn:E2; lia.
  Qed.

  Lemma cd_push_front_inv d l x : cd_inv d l ->
    exists d', cd_push_front d x = Ok d' /\ cd_inv d' (x :: l) /\ cd_capacity d <= cd_capacity d'.
  Proof.
    intros (Hl & Hs & H0 & Hf & Hi). unfold cd_push_front.
    destruct (cd_capacity d <? S (cd_size d)) eqn:E.
    - assert (Hfull : cd_size d = cd_capacity d) by lia.
      assert (Hle : cd_front d <= length (cd_buf d)) by (unfold cd_capacity in *; lia).
      unfold buf_insert. replace (cd_front d <=? length (cd_buf d)) with true by lia. cbn [obind].
      eexists. split; [reflexivity|]. split.
      + unfold cd_inv, cd_capacity. cbn [cd_front cd_size cd_buf]. rewrite list_insert_length by lia.
        unfold cd_capacity in *.
        repeat split; try lia.
        * cbn. lia.
        * intros i Hlt. rewrite ring_mod by lia. rewrite nth_error_list_insert by lia.
          destruct i as [|i].
          -- rewrite Nat.add_0_r. replace (cd_front d <? S (length (cd_buf d))) with true by lia.
             rewrite Nat.ltb_irrefl, Nat.eqb_refl. reflexivity.
          -- cbn [nth_error]. rewrite <- Hi by lia. rewrite ring_mod by lia.
             destruct (cd_front d + S i <? S (length (cd_buf d))) eqn:E1.
             ++ replace (cd_front d + S i <? cd_front d) with false by lia.
                replace (cd_front d + S i =? cd_front d) with false by lia.
                replace (cd_front d + i <? length (cd_buf d)) with true by lia.
                f_equal. lia.
             ++ replace (cd_front d + S i - S (length (cd_buf d)) <? cd_front d) with true by lia.
                replace (cd_front d + i <? length (cd_buf d)) with false by lia.
                f_equal. lia.
      + unfold cd_capacity. cbn [cd_buf]. rewrite list_insert_length by lia. lia.
    - assert (Hcap : 0 < cd_capacity d) by lia. specialize (Hf Hcap).
      unfold umod. replace (cd_capacity d =? 0) with false by lia. cbn [obind].
      set (f := (cd_front d + cd_capacity d - 1) mod cd_capacity d).
      assert (Hfeq : f = if cd_front d =? 0 then cd_capacity d - 1 else cd_front d - 1).
      { unfold f. replace (cd_front d + cd_capacity d - 1) with (cd_front d + (cd_capacity d - 1)) by lia.
        rewrite ring_mod by lia. destruct (cd_front d =? 0) eqn:E0, (cd_front d + (cd_capacity d - 1) <? cd_capacity d) eqn:E1; lia. }
      assert (B : f < length (cd_buf d)).
      { fold (cd_capacity d). rewrite Hfeq. destruct (cd_front d =? 0); lia. }
      rewrite vset_ok by exact B. cbn [obind]. eexists. split; [reflexivity|].
      split; [|unfold cd_capacity; cbn [cd_buf]; rewrite list_set_length; lia].
      unfold cd_inv, cd_capacity. cbn [cd_front cd_size cd_buf]. rewrite list_set_length. fold (cd_capacity d).
      repeat split; try lia.
      + cbn. lia.
      + intros i Hlt. destruct i as [|i].
        * rewrite Nat.add_0_r, Nat.mod_small by exact B. rewrite nth_error_list_set_eq by exact B. reflexivity.
        * cbn [nth_error]. rewrite <- Hi by lia. fold (cd_capacity d) in B.
          rewrite nth_error_list_set_neq.
          -- f_equal. rewrite !ring_mod by lia. rewrite Hfeq.
             destruct (cd_front d =? 0) eqn:E0; destruct (_ + S i <? _) eqn:E1; destruct (_ + i <? _) eqn:E2; lia.
          -- rewrite ring_mod by lia. destruct (f + S i <? cd_capacity d) eqn:E1; lia.
  Qed.

  Lemma cd_pop_back_inv d l : cd_inv d l ->
    match deque_step l DPopBack with
    | Ok l' => exists d', cd_pop_back d = Ok d' /\ cd_inv d' l' /\ cd_capacity d' = cd_capacity d
    | _ => cd_pop_back d = Throw
    end.
  Proof.
    intros (Hl & Hs & H0 & Hf & Hi). unfold cd_pop_back. cbn [deque_step].
    destruct l as [|a l]; [cbn in Hl; rewrite <- Hl; reflexivity|].
    replace (cd_size d =? 0) with false by (cbn in Hl; lia).
    eexists. split; [reflexivity|]. split; [|reflexivity].
    rewrite removelast_firstn'. unfold cd_inv, cd_capacity. cbn [cd_front cd_size cd_buf]. fold (cd_capacity d).
    repeat split; try assumption; try lia.
    - rewrite firstn_length. lia.
    - intros i Hlt. rewrite Hi by lia. revert Hlt. rewrite <- Hl. clear.
      generalize (a :: l) as m. intros m. remember (length m - 1) as k eqn:Hk. clear Hk.
      revert m i. induction k as [|k IH]; intros m i H; [lia|]. destruct m as [|b m]; [destruct i; reflexivity|].
      destruct i as [|i]; [reflexivity|]. cbn. apply IH. lia.
  Qed.

  Lemma cd_pop_front_inv d l : cd_inv d l ->
    match deque_step l DPopFront with
    | Ok l' => exists d', cd_pop_front d = Ok d' /\ cd_inv d' l' /\ cd_capacity d' = cd_capacity d
    | _ => cd_pop_front d = Throw
    end.
  Proof.
    intros (Hl & Hs & H0 & Hf & Hi). unfold cd_pop_front. cbn [deque_step].
    destruct l as [|a l]; [cbn in Hl; rewrite <- Hl; reflexivity|]. cbn [length] in Hl.
    replace (cd_size d =? 0) with false by lia.
    assert (Hcap : 0 < cd_capacity d) by lia. specialize (Hf Hcap).
    unfold umod. replace (cd_capacity d =? 0) with false by lia. cbn [obind].
    eexists. split; [reflexivity|]. split; [|reflexivity].
    assert (B : (cd_front d + 1) mod cd_capacity d < cd_capacity d) by (apply Nat.mod_upper_bound; lia).
    set (f := (cd_front d + 1) mod cd_capacity d) in *.
    assert (Hcc : cd_capacity {| cd_front := f; cd_size := cd_size d - 1; cd_buf := cd_buf d |} = cd_capacity d) by reflexivity.
    unfold cd_inv. rewrite Hcc. cbn [cd_front cd_size cd_buf].
    split; [lia|]. split; [lia|]. split; [lia|]. split; [intros _; exact B|].
    intros i Hlt. change (nth_error l i) with (nth_error (a :: l) (S i)). rewrite <- Hi by lia.
    f_equal. unfold f. rewrite Nat.add_mod_idemp_l by lia. f_equal. lia.
  Qed.

  Lemma cd_clear_inv d l : cd_inv d l -> cd_inv (cd_clear d) [].
  Proof.
    intros (Hl & Hs & H0 & Hf & Hi). unfold cd_inv, cd_clear, cd_capacity. cbn [cd_front cd_size cd_buf].
    repeat split; try lia.
  Qed.

  Lemma cd_call_inv d l o : cd_inv d l ->
    match cd_call d o with
    | Ok d' => cd_inv d' (deque_apply l o) /\ cd_capacity d <= cd_capacity d'
    | Throw => deque_apply l o = l
    | UB => (exists x, o = DPushBack x) /\ length l = cd_capacity d
    end.
  Proof.
    intros H. unfold deque_apply. destruct o as [x|x| | |]; cbn [cd_call].
    - pose proof (cd_push_back_inv d l x H) as H1. destruct (cd_push_back d x); [exact H1|contradiction|].
      split; [eauto|]. destruct H as [-> _]. apply H1.
    - destruct (cd_push_front_inv d l x H) as [d' [E H1]]. rewrite E. exact H1.
    - pose proof (cd_pop_back_inv d l H) as H1. destruct (deque_step l DPopBack) eqn:E.
      + destruct H1 as [d' [-> [H1 H2]]]. split; [exact H1|lia].
      + rewrite H1. reflexivity.
      + rewrite H1. reflexivity.
    - pose proof (cd_pop_front_inv d l H) as H1. destruct (deque_step l DPopFront) eqn:E.
      + destruct H1 as [d' [-> [H1 H2]]]. split; [exact H1|lia].
      + rewrite H1. reflexivity.
      + rewrite H1. reflexivity.
    - split; [eapply cd_clear_inv; eauto|]. reflexivity.
  Qed.

  Lemma cd_run_inv ops : forall d l, cd_inv d l ->
    match cd_run d ops with
    | Ok d' => cd_inv d' (deque_after l ops)
    | Throw => False
    | UB => exists ops1 x ops2, ops = ops1 ++ DPushBack x :: ops2 /\ cd_capacity d <= length (deque_after l ops1)
    end.
  Proof.
    unfold deque_after.
    induction ops as [|o t IH]; intros d l H; cbn [cd_run fold_left]; [exact H|].
    pose proof (cd_call_inv d l o H) as H1. destruct (cd_call d o) as [d1| |] eqn:E.
    - destruct H1 as [H1 H2]. specialize (IH _ _ H1). destruct (cd_run d1 t); [exact IH|exact IH|].
      destruct IH as (o1 & x & o2 & -> & Hle). exists (o :: o1), x, o2. split; [reflexivity|]. cbn [fold_left]. lia.
    - rewrite H1. specialize (IH _ _ H). destruct (cd_run d t); [exact IH|exact IH|].
      destruct IH as (o1 & x & o2 & -> & Hle). exists (o :: o1), x, o2. split; [reflexivity|]. cbn [fold_left]. rewrite H1. exact Hle.
    - destruct H1 as [[x ->] H2]. exists [], x, t. split; [reflexivity|]. cbn [fold_left]. lia.
  Qed.

  Lemma cd_inv_make n : cd_inv (cd_make tdef n) [].
  Proof. unfold cd_inv, cd_make, cd_capacity. cbn [cd_front cd_size cd_buf]. rewrite repeat_length. repeat split; try lia. Qed.

  Lemma cd_get_inv d l i x : cd_inv d l -> nth_error l i = Some x -> cd_get d i = Ok x.
  Proof.
    intros (Hl & Hs & H0 & Hf & Hi) Hx.
    assert (i < length l) by (apply nth_error_Some; congruence).
    unfold cd_get, umod. fold (cd_capacity d). replace (cd_capacity d =? 0) with false by lia. cbn [obind].
    apply vget_ok. rewrite Hi by lia. exact Hx.
  Qed.

  Lemma cd_iterate_inv d l : cd_inv d l ->
    forall n k acc, k + n = cd_size d -> acc = firstn k l ->
    ofor_up n (cd_front d + k) (fun index acc => do i <- umod index (length (cd_buf d)); do x <- vec_get (cd_buf d) i; Ok (acc ++ [x])) acc
    = Ok l.
  Proof.
    intros (Hl & Hs & H0 & Hf & Hi). induction n as [|n IH]; intros k acc Hk Hacc; cbn [ofor_up].
    - subst acc. rewrite firstn_all2 by lia. reflexivity.
    - unfold umod at 1. fold (cd_capacity d). replace (cd_capacity d =? 0) with false by lia. cbn [obind].
      destruct (nth_error l k) as [x|] eqn:Hx.
      2: { apply nth_error_None in Hx. lia. }
      pose proof (Hi k ltac:(lia)) as Hik. rewrite Hx in Hik. rewrite (vget_ok _ _ _ Hik). cbn [obind].
      replace (S (cd_front d + k)) with (cd_front d + S k) by lia. apply IH; [lia|].
      subst acc. clear - Hx. revert k Hx. induction l as [|a l IHl]; intros [|k] Hx; try discriminate.
      + cbn in *. congruence.
      + cbn [nth_error] in Hx. change (a :: (firstn k l ++ [x]) = a :: firstn (S k) l). f_equal. exact (IHl _ Hx).
  Qed.

  Lemma last_error_nth (l : list T) x : nth_error (l ++ [x]) (length l) = Some x.
  Proof. rewrite nth_error_app2 by lia. rewrite Nat.sub_diag. reflexivity. Qed.

  (** assembled *)
  Lemma deque_history n ops :
    match cd_run (cd_make tdef n) ops with
    | Ok d => let l := deque_after [] ops in
        cd_size d = length l /\
        cd_iterate d = Ok l /\
        (forall i x, nth_error l i = Some x -> cd_get d i = Ok x) /\
        cd_front_elem d = match l with [] => Throw | x :: _ => Ok x end /\
        cd_back d = match rev l with [] => Throw | x :: _ => Ok x end
    | Throw => False
    | UB => exists ops1 x ops2, ops = ops1 ++ DPushBack x :: ops2 /\ n <= length (deque_after [] ops1)
    end.
  Proof.
    pose proof (cd_run_inv ops _ _ (cd_inv_make n)) as H.
    destruct (cd_run (cd_make tdef n) ops) as [d| |]; [|exact H|].
    2: { destruct H as (o1 & x & o2 & E & Hle). exists o1, x, o2. split; [exact E|].
         unfold cd_make, cd_capacity in Hle. cbn [cd_buf] in Hle. rewrite repeat_length in Hle. exact Hle. }
    intros l. fold l in H. clearbody l. pose proof H as (Hl & Hs & H0 & Hf & Hi).
    split; [lia|]. split.
    { unfold cd_iterate. rewrite <- (Nat.add_0_r (cd_front d)). apply cd_iterate_inv; [exact H|lia|reflexivity]. }
    split; [intros i x; apply cd_get_inv; exact H|]. split.
    - unfold cd_front_elem. destruct l as [|x l]; [cbn in Hl; rewrite <- Hl; reflexivity|].
      cbn in Hl. replace (cd_size d =? 0) with false by lia. apply vget_ok.
      specialize (Hi 0 ltac:(lia)). rewrite Nat.add_0_r, Nat.mod_small in Hi by lia. exact Hi.
    - unfold cd_back. destruct l as [|y l0] using rev_ind; [cbn in Hl; rewrite <- Hl; reflexivity|].
      rewrite rev_app_distr. cbn [rev app]. rewrite app_length in Hl. cbn in Hl.
      replace (cd_size d =? 0) with false by lia. unfold umod. replace (cd_capacity d =? 0) with false by lia. cbn [obind].
      apply vget_ok. replace (cd_front d + cd_size d - 1) with (cd_front d + (cd_size d - 1)) by lia.
      rewrite Hi by lia. replace (cd_size d - 1) with (length l0) by lia. apply last_error_nth.
  Qed.

  (** reserve on contents that do not wrap around *)
  Lemma deque_reserve d l m :
    cd_iterate d = Ok l -> cd_inv d l -> cd_front d + cd_size d <= cd_capacity d -> cd_front d + cd_size d <= m -> cd_front d < m ->
    cd_inv (cd_reserve tdef d m) l.
  Proof.
    intros _ (Hl & Hs & H0 & Hf & Hi) Hu Hm Hfm. unfold cd_inv, cd_reserve, cd_capacity. cbn [cd_front cd_size cd_buf].
    assert (Hlen : length (vec_resize (cd_buf d) m tdef) = m).
    { unfold vec_resize. rewrite app_length, firstn_length, repeat_length. lia. }
    rewrite Hlen. repeat split; try lia.
    intros i Hlt. rewrite <- Hi by lia. rewrite !Nat.mod_small by lia.
    unfold vec_resize. unfold cd_capacity in *. rewrite nth_error_app1 by (rewrite firstn_length; lia).
    assert (Hk : cd_front d + i < m) by lia. revert Hk. generalize (cd_front d + i) as k. generalize (cd_buf d) as b. clear.
    intros b. revert m. induction b as [|a b IH]; intros [|m] [|k] H; try reflexivity; try lia.
    cbn. apply IH. lia.
  Qed.

  Lemma deque_reserve_history n ops d m :
    cd_run (cd_make tdef n) ops = Ok d ->
    cd_front d + cd_size d <= cd_capacity d -> cd_front d + cd_size d <= m -> cd_front d < m ->
    cd_iterate (cd_reserve tdef d m) = Ok (deque_after [] ops) /\ cd_capacity (cd_reserve tdef d m) = m.
  Proof.
    intros E H1 H2 H3. pose proof (cd_run_inv ops _ _ (cd_inv_make n)) as H. rewrite E in H.
    assert (Hinv : cd_inv (cd_reserve tdef d m) (deque_after [] ops)).
    { apply deque_reserve; try assumption. unfold cd_iterate. rewrite <- (Nat.add_0_r (cd_front d)).
      apply cd_iterate_inv; [exact H|lia|reflexivity]. }
    split.
    - unfold cd_iterate. rewrite <- (Nat.add_0_r (cd_front (cd_reserve tdef d m))).
      apply cd_iterate_inv; [exact Hinv|lia|reflexivity].
    - unfold cd_reserve, cd_capacity, vec_resize. cbn [cd_buf]. rewrite app_length, firstn_length, repeat_length. lia.
  Qed.
End DequeProofs.

Section BufferProofs.
  Context {T : Type} (tzero : T) (n ch : nat).
  Hypothesis Hn : 0 < n.
  Hypothesis Hch : 0 < ch.

  Definition valid_op (o : cbuf_op T) : Prop := match o with CSet c _ => c < ch | CAdvance => True end.

  (** [h]: frames, newest first *)
  Definition cb_inv (b : cbuf T) (h : list (list T)) : Prop :=
    exists k, length h = S k /\
    cb_frames b = n /\ cb_channels b = ch /\ length (cb_data b) = n * ch /\
    cb_in b = (k mod n) * ch /\ cb_out b = ((k - (n - 1)) mod n) * ch /\
    Forall (fun f => length f = ch) h /\
    forall i c, i < n -> c < ch ->
      nth_error (cb_data b) (((k + n - i) mod n) * ch + c) = nth_error (nth i h (repeat tzero ch)) c.

  Lemma block_lt b c : b < n -> c < ch -> b * ch + c < n * ch.
  Proof. intros H1 H2. assert ((b + 1) * ch <= n * ch) by (apply Nat.mul_le_mono_r; lia). lia. Qed.

  Lemma block_inj b c b' c' : c < ch -> c' < ch -> b * ch + c = b' * ch + c' -> b = b' /\ c = c'.
  Proof.
    intros Hc Hc' H. assert (b = b').
    { destruct (Nat.lt_trichotomy b b') as [Hl|[He|Hl]]; [|exact He|].
      - assert ((b + 1) * ch <= b' * ch) by (apply Nat.mul_le_mono_r; lia). lia.
      - assert ((b' + 1) * ch <= b * ch) by (apply Nat.mul_le_mono_r; lia). lia. }
    subst. lia.
  Qed.

  (** distinct ages below [n] are at distinct positions *)
  Lemma age_inj k i : i < n -> (k + n - i) mod n = k mod n -> i = 0.
  Proof.
    intros Hi H. destruct (Nat.eq_dec i 0) as [|Hne]; [assumption|]. exfalso.
    assert (E : k + n - i = k + (n - i)) by lia. rewrite E in H.
    pose proof (Nat.div_mod k n ltac:(lia)) as D1.
    pose proof (Nat.div_mod (k + (n - i)) n ltac:(lia)) as D2.
    rewrite H in D2. set (q1 := k / n) in *. set (q2 := (k + (n - i)) / n) in *.
    assert (D3 : n * q2 = n * q1 + (n - i)) by lia.
    destruct (Nat.le_gt_cases q2 q1) as [Hq|Hq].
    - assert (n * q2 <= n * q1) by (apply Nat.mul_le_mono_l; exact Hq). lia.
    - assert (n * (q1 + 1) <= n * q2) by (apply Nat.mul_le_mono_l; lia). lia.
  Qed.

  Lemma cb_set_inv b h c x : cb_inv b h -> c < ch ->
    exists b', cb_set b c x = Ok b' /\ cb_inv b' (frames_step tzero n ch h (CSet c x)).
  Proof.
    intros (k & Hk & Hf & Hc & Hl & Hi & Ho & Hall & Hd) Hclt. unfold cb_set.
    assert (Hkm : k mod n < n) by (apply Nat.mod_upper_bound; lia).
    assert (B : cb_in b + c < length (cb_data b)) by (rewrite Hi, Hl; apply block_lt; assumption).
    rewrite vset_ok by exact B. cbn [obind]. eexists. split; [reflexivity|].
    destruct h as [|f h]; [discriminate|]. cbn [frames_step].
    exists k. cbn [cb_frames cb_channels cb_in cb_out cb_data]. rewrite list_set_length.
    pose proof (Forall_inv Hall) as Hfl. pose proof (Forall_inv_tail Hall) as Hrest. cbn beta in Hfl.
    repeat split; try assumption.
    - constructor; [rewrite list_set_length; exact Hfl|exact Hrest].
    - intros i c' Hin Hc'. rewrite Hi.
      destruct (Nat.eq_dec i 0) as [->|Hne].
      + cbn [nth]. rewrite Nat.sub_0_r. rewrite <- Nat.add_mod_idemp_r, Nat.mod_same, Nat.add_0_r by lia.
        destruct (Nat.eq_dec c c') as [<-|Hcc].
        * rewrite nth_error_list_set_eq by (rewrite <- Hi; exact B). rewrite nth_error_list_set_eq by lia. reflexivity.
        * rewrite nth_error_list_set_neq by lia. rewrite nth_error_list_set_neq by lia.
          specialize (Hd 0 c' Hn Hc'). cbn [nth] in Hd. rewrite Nat.sub_0_r in Hd.
          rewrite <- Nat.add_mod_idemp_r, Nat.mod_same, Nat.add_0_r in Hd by lia. exact Hd.
      + rewrite nth_error_list_set_neq.
        * specialize (Hd i c' Hin Hc'). destruct i; [lia|]. exact Hd.
        * intros He. apply block_inj in He; [|exact Hclt|exact Hc']. destruct He as [He _].
          apply Hne. apply (age_inj k); [exact Hin|]. symmetry. exact He.
  Qed.

  Lemma step_mod j : (j mod n * ch + ch) mod (n * ch) = (S j mod n) * ch.
  Proof.
    replace (j mod n * ch + ch) with ((j mod n + 1) * ch) by lia.
    rewrite Nat.mul_mod_distr_r by lia. f_equal.
    rewrite Nat.add_mod_idemp_l by lia. f_equal. lia.
  Qed.

  Lemma cb_advance_inv b h : cb_inv b h ->
    exists b', cb_advance b = Ok b' /\ cb_inv b' (frames_step tzero n ch h CAdvance).
  Proof.
    intros (k & Hk & Hf & Hc & Hl & Hi & Ho & Hall & Hd). unfold cb_advance.
    rewrite Hf, Hc. unfold umod.
    assert (Hz : n * ch <> 0) by (intros Hz; apply Nat.eq_mul_0 in Hz; lia).
    replace (n * ch =? 0) with false by (symmetry; apply Nat.eqb_neq; exact Hz). cbn [obind].
    rewrite Hi, Ho, !step_mod.
    assert (Hinv : forall b', cb_frames b' = n -> cb_channels b' = ch -> cb_data b' = cb_data b ->
      cb_in b' = (S k mod n) * ch -> cb_out b' = ((S k - (n - 1)) mod n) * ch ->
      cb_inv b' (frames_step tzero n ch h CAdvance)).
    { intros b' Hf' Hc' Hd' Hi' Ho'. exists (S k). rewrite Hd'. 
      assert (Hfr : frames_step tzero n ch h CAdvance = nth (n - 1) h (repeat tzero ch) :: h) by (destruct h; reflexivity).
      rewrite Hfr. repeat split; try assumption.
      - cbn. congruence.
      - constructor; [|exact Hall].
        destruct (Nat.lt_ge_cases (n - 1) (length h)) as [Hlt|Hge].
        + apply (proj1 (Forall_forall _ _) Hall). apply nth_In. exact Hlt.
        + rewrite nth_overflow by exact Hge. apply repeat_length.
      - intros i c Hin Hclt. destruct i as [|i].
        + cbn [nth]. rewrite Nat.sub_0_r. rewrite <- (Hd (n - 1) c) by lia.
          f_equal. f_equal. f_equal.
          replace (k + n - (n - 1)) with (S k) by lia.
          rewrite <- Nat.add_mod_idemp_r, Nat.mod_same, Nat.add_0_r by lia. reflexivity.
        + cbn [nth]. rewrite <- (Hd i c) by lia. f_equal. }
    destruct (Nat.lt_ge_cases k (n - 1)) as [Hlt|Hge].
    - replace (k - (n - 1)) with 0 by lia. rewrite Nat.mod_0_l by lia. cbn [Nat.mul].
      rewrite (Nat.mod_small (S k)) by lia.
      replace (0 =? S k * ch) with false by (symmetry; apply Nat.eqb_neq; cbn; lia).
      eexists. split; [reflexivity|]. apply Hinv; cbn [cb_frames cb_channels cb_in cb_out cb_data]; try reflexivity; try assumption.
      + rewrite Nat.mod_small by lia. reflexivity.
      + replace (S k - (n - 1)) with 0 by lia. rewrite Nat.mod_0_l by lia. reflexivity.
    - assert (E : (k - (n - 1)) mod n = S k mod n).
      { replace (S k) with (k - (n - 1) + 1 * n) by lia. rewrite Nat.mod_add by lia. reflexivity. }
      rewrite E, Nat.eqb_refl.
      eexists. split; [reflexivity|]. apply Hinv; cbn [cb_frames cb_channels cb_in cb_out cb_data]; try reflexivity; try assumption.
      replace (S k - (n - 1)) with (S (k - (n - 1))) by lia.
      reflexivity.
  Qed.

  Lemma cb_call_inv b h o : cb_inv b h -> valid_op o ->
    exists b', cb_call b o = Ok b' /\ cb_inv b' (frames_step tzero n ch h o).
  Proof.
    intros H Ho. destruct o as [c x|]; cbn [cb_call].
    - apply cb_set_inv; assumption.
    - apply cb_advance_inv; assumption.
  Qed.

  Lemma cb_run_inv ops : Forall valid_op ops -> forall b h, cb_inv b h ->
    exists b', cb_run b ops = Ok b' /\ cb_inv b' (fold_left (frames_step tzero n ch) ops h).
  Proof.
    induction 1 as [|o ops Ho Hops IH]; intros b h H; cbn [cb_run fold_left].
    - eauto.
    - destruct (cb_call_inv b h o H Ho) as [b1 [E H1]]. rewrite E. cbn [obind]. apply IH. exact H1.
  Qed.

  Lemma cb_inv_make : cb_inv (cb_make tzero n ch) [repeat tzero ch].
  Proof.
    exists 0. cbn [cb_make cb_frames cb_channels cb_in cb_out cb_data].
    rewrite Nat.sub_0_l, Nat.mod_0_l by lia. rewrite repeat_length. repeat split.
    - constructor; [apply repeat_length|constructor].
    - intros i c Hi Hc. assert (Hrep : nth i [repeat tzero ch] (repeat tzero ch) = repeat tzero ch) by (destruct i as [|[|i]]; reflexivity).
      rewrite Hrep. rewrite !nth_error_repeat; [reflexivity|exact Hc|]. apply block_lt; [apply Nat.mod_upper_bound; lia|exact Hc].
  Qed.

  Lemma vec_get_nth_error {A} (l l' : list A) i j x : nth_error l i = nth_error l' j -> nth_error l' j = Some x -> vec_get l i = Ok x.
  Proof. intros H1 H2. apply vget_ok. congruence. Qed.

  Lemma buffer_history ops : Forall valid_op ops ->
    let h := frames_after tzero n ch ops in
    let k := length h - 1 in
    exists b, cb_run (cb_make tzero n ch) ops = Ok b /\
    (forall c, c < ch -> cb_back b c = Ok (nth c (nth 0 h []) tzero)) /\
    (forall c, c < ch -> cb_front b c = Ok (nth c (nth (Nat.min k (n - 1)) h []) tzero)) /\
    (cb_empty b = true <-> k = 0 \/ n = 1) /\
    cb_reset tzero b = cb_make tzero n ch.
  Proof.
    intros Hv h k. destruct (cb_run_inv ops Hv _ _ cb_inv_make) as [b [E Hinv]]. fold (frames_after tzero n ch ops) in Hinv. fold h in Hinv.
    exists b. split; [exact E|].
    destruct Hinv as (k' & Hk & Hf & Hc & Hl & Hi & Ho & Hall & Hd).
    assert (Hkk : k' = k) by lia. subst k'. clearbody h.
    assert (Hget : forall i c, i < n -> i <= k -> c < ch ->
      nth_error (cb_data b) (((k + n - i) mod n) * ch + c) = Some (nth c (nth i h []) tzero)).
    { intros i c Hin Hik Hclt. rewrite Hd by assumption.
      rewrite (nth_indep h _ []) by lia.
      apply nth_error_nth'. assert (Hlen : length (nth i h []) = ch).
      { apply (proj1 (Forall_forall _ _) Hall). apply nth_In. lia. } lia. }
    split; [|split; [|split]].
    - intros c Hclt. unfold cb_back. rewrite Hi. apply vget_ok.
      rewrite <- (Hget 0 c) by lia. f_equal. f_equal. f_equal. rewrite Nat.sub_0_r.
      rewrite <- (Nat.add_mod_idemp_r k n), Nat.mod_same, Nat.add_0_r by lia. reflexivity.
    - intros c Hclt. unfold cb_front. rewrite Ho. apply vget_ok.
      rewrite <- (Hget (Nat.min k (n - 1)) c) by lia. f_equal. f_equal. f_equal.
      replace (k + n - Nat.min k (n - 1)) with ((k - (n - 1)) + 1 * n) by lia. rewrite Nat.mod_add by lia. reflexivity.
    - unfold cb_empty. rewrite Hi, Ho. rewrite Nat.eqb_eq. split.
      + intros H. apply Nat.mul_cancel_r in H; [|lia].
        destruct (Nat.eq_dec k 0) as [|Hk0]; [left; assumption|]. destruct (Nat.eq_dec n 1) as [|Hn1]; [right; assumption|].
        exfalso. destruct (Nat.lt_ge_cases k n) as [Hlt|Hge].
        * rewrite (Nat.mod_small k) in H by lia. rewrite Nat.mod_small in H by lia. lia.
        * assert (Hx : n - 1 = 0); [|lia]. apply (age_inj (k - (n - 1) + (n - 1))); [lia|].
          replace (k - (n - 1) + (n - 1) + n - (n - 1)) with (k - (n - 1) + 1 * n) by lia.
          rewrite Nat.mod_add by lia. rewrite <- H. f_equal. lia.
      + intros [H|H].
        * rewrite H. reflexivity.
        * rewrite H. rewrite !Nat.mod_1_r. reflexivity.
    - unfold cb_reset, cb_make. rewrite Hf, Hc, Hl. reflexivity.
  Qed.
End BufferProofs.
