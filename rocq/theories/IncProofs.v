(** Proofs about the include resolution. *)
From Coq Require Import Ascii String List Arith Bool Lia.
From Verif Require Import Base BaseProofs Str StrSpec StrModel StrBase StrProofs CastModel CastProofs PnSpec PnModel PnProofs PnProofs2
  PathSpec PathModel PathProofs IncSpec IncModel.
Import ListNotations.

Lemma upd_split (pre : list (str * pn)) k c post f : upd_child (pre ++ (k, c) :: post) (length pre) f = pre ++ (k, f c) :: post.
Proof.
  unfold upd_child. rewrite nth_error_app2, Nat.sub_diag by lia. cbn [nth_error fst snd].
  induction pre as [|x pre IH]; cbn [app length list_set]; [reflexivity|]. f_equal. exact IH.
Qed.

Lemma child_split cs k i : child_index cs k = Some i ->
  exists pre c post, cs = pre ++ (k, c) :: post /\ i = length pre /\ nth_error cs i = Some (k, c).
Proof.
  intros H. apply child_index_some in H. destruct H as [H _]. rewrite nth_error_map in H.
  destruct (nth_error cs i) as [[k' c]|] eqn:E; [|discriminate]. injection H as ->.
  pose proof E as E2. apply nth_error_split in E2. destruct E2 as (pre & post & -> & <-). exists pre, c, post. auto.
Qed.

Lemma get_file c f : pn_get_key path_of_str c (lit "file") = Ok f <-> item c (lit "file") f.
Proof.
  unfold pn_get_key, get_child, try_get_child, item, first_child, pn_keys, pn_get, path_of_str.
  destruct (child_index (pn_children c) (lit "file")) as [i|] eqn:E.
  - destruct (child_split _ _ _ E) as (pre & n & post & _ & _ & En). apply child_index_some in E.
    cbn [obind]. unfold vec_get. rewrite En. cbn [obind snd]. split.
    + intros [= <-]. exists i, n. auto.
    + intros (j & m & Hj & Em & <-). assert (i = j) as <-; [|congruence].
      destruct E as [E1 E2], Hj as [J1 J2]. destruct (lt_eq_lt_dec i j) as [[L|L]|L]; [exfalso; exact (J2 _ L E1)|exact L|exfalso; exact (E2 _ L J1)].
  - apply child_index_none in E. cbn [obind]. split; [discriminate|]. intros (j & m & [J _] & _). apply nth_error_In in J. tauto.
Qed.

Lemma get_file_safe c : pn_get_key path_of_str c (lit "file") <> UB.
Proof.
  unfold pn_get_key, get_child, try_get_child, pn_get, path_of_str.
  destruct (child_index (pn_children c) (lit "file")) as [i|] eqn:E; [|discriminate].
  destruct (child_split _ _ _ E) as (pre & n & post & _ & _ & En). cbn [obind]. unfold vec_get. rewrite En. discriminate.
Qed.

Lemma get_merge c :
  (pn_get_key_def bool_of_str c (lit "merge_children") false = Ok true <-> wants_merge c) /\
  (pn_get_key_def bool_of_str c (lit "merge_children") false = Ok false <-> wants_insert c) /\
  pn_get_key_def bool_of_str c (lit "merge_children") false <> UB.
Proof.
  unfold wants_merge, wants_insert, pn_get_key_def, try_get_child, item, first_child, pn_keys.
  set (K := lit "merge_children").
  destruct (child_index (pn_children c) K) as [i|] eqn:E.
  - destruct (child_split _ _ _ E) as (pre & n & post & _ & _ & En). apply child_index_some in E.
    unfold vec_get. rewrite En. cbn [obind snd]. unfold pn_get, bool_of_str.
    destruct (bool_assembled true false (pn_value n)) as (_ & B1 & B2 & B3). fold yes_words in B1. fold no_words in B2.
    assert (U : forall j m w, (nth_error (map fst (pn_children c)) j = Some K /\
       forall j0, j0 < j -> nth_error (map fst (pn_children c)) j0 <> Some K) /\ nth_error (pn_children c) j = Some (K, m) /\ pn_value m = w -> w = pn_value n).
    { intros j m w (Hj & Em & <-). assert (i = j) as <-; [|congruence].
      destruct E as [E1 E2], Hj as [J1 J2]. destruct (lt_eq_lt_dec i j) as [[L|L]|L]; [exfalso; exact (J2 _ L E1)|exact L|exfalso; exact (E2 _ L J1)]. }
    assert (I : In K (map fst (pn_children c))) by (destruct E as [E _]; apply nth_error_In in E; exact E).
    destruct (from_str_bool (pn_value n) false) as [b ok] eqn:F; cbn [fst snd] in *.
    split; [|split].
    + split.
      * destruct ok; [|discriminate]. intros [= ->]. exists (pn_value n). split; [exists i, n; auto|]. apply B1. reflexivity.
      * intros (w & (j & m & H) & Hw). rewrite (U _ _ _ H) in Hw. apply B1 in Hw. injection Hw as -> ->. reflexivity.
    + split.
      * destruct ok; [|discriminate]. intros [= ->]. right. exists (pn_value n). split; [exists i, n; auto|]. apply B2. reflexivity.
      * intros [N|(w & (j & m & H) & Hw)]; [tauto|]. rewrite (U _ _ _ H) in Hw. apply B2 in Hw. injection Hw as -> ->. reflexivity.
    + destruct ok; discriminate.
  - apply child_index_none in E. split; [|split; [|discriminate]]; split; try discriminate; auto.
    intros (w & (j & m & [J _] & _) & _). apply nth_error_In in J. tauto.
Qed.

Lemma beside_total name f : exists d p, parent_path name = Ok d /\ join_path d f = Ok p.
Proof.
  assert (exists d, parent_path name = Ok d) as [d Hd].
  { unfold parent_path. destruct (last_separator_pos name) as [n|]; [|eexists; reflexivity].
    unfold substr. cbn. eexists. reflexivity. }
  destruct (open_dec d) as [O|O].
  - destruct (trimmed_total f) as [t Ht]. exists d, (d ++ slash :: t). split; [exact Hd|]. apply join_open; assumption.
  - exists d, (d ++ f). split; [exact Hd|]. apply join_closed. exact O.
Qed.

(** ** Counting directives *)
Section Include.
  Context (files : str -> outcome pn) (D : str).

  Fixpoint count (t : pn) : nat :=
    match t with
    | PN _ cs _ => list_sum (map (fun kc => (if str_eqb (fst kc) D then 1 else 0) + count (snd kc)) cs)
    end.
  Definition count1 (kc : str * pn) : nat := (if str_eqb (fst kc) D then 1 else 0) + count (snd kc).
  Definition countl (cs : list (str * pn)) : nat := list_sum (map count1 cs).
  Lemma count_eq v cs a : count (PN v cs a) = countl cs.
  Proof. reflexivity. Qed.
  Lemma countl_app a b : countl (a ++ b) = countl a + countl b.
  Proof. unfold countl. rewrite map_app, list_sum_app. reflexivity. Qed.
  Lemma countl_cons x b : countl (x :: b) = count1 x + countl b.
  Proof. reflexivity. Qed.

  Fixpoint size (t : pn) : nat :=
    match t with PN _ cs _ => S (list_sum (map (fun kc => size (snd kc)) cs)) end.
  Definition sizel (cs : list (str * pn)) : nat := list_sum (map (fun kc => size (snd kc)) cs).
  Lemma size_eq v cs a : size (PN v cs a) = S (sizel cs).
  Proof. reflexivity. Qed.

  Lemma count_clean t : count t = 0 <-> no_directive D t.
  Proof.
    induction t as [v cs a IH] using pn_ind'. rewrite count_eq.
    assert (countl cs = 0 <-> Forall (fun kc => fst kc <> D /\ no_directive D (snd kc)) cs) as ->.
    { induction cs as [|kc cs IHcs]; [split; [constructor|reflexivity]|].
      inversion IH as [|? ? H1 H2]; subst. rewrite countl_cons, Forall_cons_iff, <- IHcs by exact H2. unfold count1. rewrite <- H1.
      destruct (str_eqb (fst kc) D) eqn:E; [apply str_eqb_eq in E|apply str_eqb_neq in E]; split; intros H; try lia.
      - destruct H as [[H _] _]. contradiction.
      - split; [split; [exact E|lia]|lia]. }
    split; [constructor; assumption|]. intros H. inversion H. assumption.
  Qed.

  Lemma count_unread t : count (set_accessed_recursively false t) = count t.
  Proof.
    induction t as [v cs a IH] using pn_ind'. cbn [set_accessed_recursively]. rewrite !count_eq. unfold countl. rewrite map_map.
    f_equal. apply map_ext_Forall. eapply Forall_impl; [|exact IH]. intros kc H. unfold count1. cbn [fst snd]. rewrite H. reflexivity.
  Qed.

  Lemma count_merge : forall o t, count o = 0 -> count (merge t o false) = count t.
  Proof.
    induction o as [ov oc oa IH] using pn_ind'; intros [tv tc ta] Ho. rewrite merge_eq, !count_eq. rewrite count_eq in Ho. cbn [pn_children].
    revert tc; induction oc as [|kc oc IHoc]; intros tc; cbn [merge_loop]; [reflexivity|].
    inversion IH as [|? ? H1 H2]; subst. rewrite countl_cons in Ho. unfold count1 in Ho.
    rewrite IHoc; [|exact H2|lia]. destruct (child_index tc (fst kc)) as [i|] eqn:E.
    - destruct (child_split _ _ _ E) as (pre & c & post & -> & -> & _). rewrite upd_split, !countl_app, !countl_cons. unfold count1. cbn [fst snd].
      rewrite H1 by lia. reflexivity.
    - rewrite countl_app, countl_cons. unfold count1. cbn [fst snd]. cbn. lia.
  Qed.

  (** ** Results independent of fuel *)
  Definition load_to (n : nat) (name : str) (o : outcome pn) : Prop :=
    exists k, forall M, k <= M -> load_include files D M n name = o.
  Definition loop_to (n : nat) (name v : str) (a : bool) (before from : list (str * pn)) (o : outcome pn) : Prop :=
    exists k, forall m M, k <= m -> k <= M -> resolve_loop D (load_include files D M n) name m v a before from = o.

  Lemma loop_nil n name v a b : loop_to n name v a b [] (Ok (PN v b a)).
  Proof. exists 1. intros [|m] M H _; [lia|reflexivity]. Qed.

  Lemma loop_keep n name v a b k cv ccs ca c' r o : k <> D ->
    loop_to n name cv ca [] ccs (Ok c') -> loop_to n name v a (b ++ [(k, c')]) r o -> loop_to n name v a b ((k, PN cv ccs ca) :: r) o.
  Proof.
    intros Hk [k1 H1] [k2 H2]. exists (S (k1 + k2)). intros [|m] M Hm HM; [lia|]. cbn [resolve_loop fst snd].
    apply str_eqb_neq in Hk. rewrite Hk. rewrite H1 by lia. cbn [obind]. apply H2; lia.
  Qed.

  Lemma loop_keep_throw n name v a b k cv ccs ca r : k <> D ->
    loop_to n name cv ca [] ccs Throw -> loop_to n name v a b ((k, PN cv ccs ca) :: r) Throw.
  Proof.
    intros Hk [k1 H1]. exists (S k1). intros [|m] M Hm HM; [lia|]. cbn [resolve_loop fst snd].
    apply str_eqb_neq in Hk. rewrite Hk. rewrite H1 by lia. reflexivity.
  Qed.

  Lemma loop_clean n name : forall cs v a b, countl cs = 0 -> loop_to n name v a b cs (Ok (PN v (b ++ cs) a)).
  Proof.
    intros cs. remember (sizel cs) as s eqn:Es. revert cs Es. induction s as [s IH] using lt_wf_ind. intros [|[k [cv ccs ca]] r] Es v a b H.
    - rewrite app_nil_r. apply loop_nil.
    - subst s. rewrite countl_cons in H. unfold count1 in H. cbn [fst snd] in H. rewrite count_eq in H.
      destruct (str_eqb k D) eqn:E; [lia|]. apply str_eqb_neq in E.
      assert (Z : sizel ((k, PN cv ccs ca) :: r) = S (sizel ccs) + sizel r) by reflexivity.
      apply (loop_keep _ _ _ _ _ _ _ _ _ (PN cv ccs ca)); [exact E| |].
      + apply (IH (sizel ccs)); [lia|reflexivity|lia].
      + replace (b ++ (k, PN cv ccs ca) :: r) with ((b ++ [(k, PN cv ccs ca)]) ++ r) by (rewrite <- app_assoc; reflexivity).
        apply (IH (sizel r)); [lia|reflexivity|lia].
  Qed.

  Lemma step_loaded n name v a b c r p inc m o : refers name c p -> (if m : bool then wants_merge c else wants_insert c) ->
    load_to n p (Ok inc) ->
    (match pn_children inc with
     | [e] => if m then match merge (PN v (b ++ r) a) (snd e) false with PN v' cs a' => loop_to n name v' a' [] cs o end
              else loop_to n name v a b (e :: r) o
     | _ => o = Throw
     end) -> loop_to n name v a b ((D, c) :: r) o.
  Proof.
    intros (f & Hf & d & Hd & Hp) Hm [k1 H1] H.
    assert (Hg : pn_get_key_def bool_of_str c (lit "merge_children") false = Ok m).
    { destruct (get_merge c) as (G1 & G2 & _). destruct m; [apply G1|apply G2]; exact Hm. }
    assert (exists k2, forall m' M, k2 <= m' -> k2 <= M ->
      match pn_children inc with
      | [e] => if m then match merge (PN v (b ++ r) a) (snd e) false with
                         | PN v' cs a' => resolve_loop D (load_include files D M n) name m' v' a' [] cs end
               else resolve_loop D (load_include files D M n) name m' v a b (e :: r)
      | _ => Throw
      end = o) as [k2 H2].
    { destruct (pn_children inc) as [|e [|e2 l]]; [exists 0; auto| |exists 0; auto].
      destruct m; [destruct (merge (PN v (b ++ r) a) (snd e) false)|]; exact H. }
    exists (S (k1 + k2)). intros [|m'] M Hm' HM; [lia|]. cbn [resolve_loop fst snd]. rewrite str_eqb_refl.
    rewrite Hd. cbn [obind]. apply get_file in Hf. rewrite Hf. cbn [obind]. rewrite Hp. cbn [obind]. rewrite Hg. cbn [obind].
    rewrite H1 by lia. cbn [obind]. apply H2; lia.
  Qed.

  Lemma step_throw n name v a b c r :
    (forall p, refers name c p -> wants_merge c \/ wants_insert c -> load_to n p Throw) -> loop_to n name v a b ((D, c) :: r) Throw.
  Proof.
    intros H.
    assert (forall k, (exists m M, k <= m /\ k <= M /\ True) -> True) as _ by auto.
    destruct (pn_get_key path_of_str c (lit "file")) as [f| |] eqn:Ef.
    - destruct (beside_total name f) as (d & p & Hd & Hp).
      assert (Hr : refers name c p) by (exists f; split; [apply get_file; exact Ef|exists d; auto]).
      destruct (pn_get_key_def bool_of_str c (lit "merge_children") false) as [m| |] eqn:Em.
      + destruct (H p Hr) as [k Hk].
        { destruct (get_merge c) as (G1 & G2 & _). destruct m; [left; apply G1|right; apply G2]; exact Em. }
        exists (S k). intros [|m'] M Hm' HM; [lia|]. cbn [resolve_loop fst snd]. rewrite str_eqb_refl.
        rewrite Hd. cbn [obind]. rewrite Ef. cbn [obind]. rewrite Hp. cbn [obind]. rewrite Em. cbn [obind]. rewrite Hk by lia. reflexivity.
      + exists 1. intros [|m'] M Hm' HM; [lia|]. cbn [resolve_loop fst snd]. rewrite str_eqb_refl.
        rewrite Hd. cbn [obind]. rewrite Ef. cbn [obind]. rewrite Hp. cbn [obind]. rewrite Em. reflexivity.
      + exfalso. apply (proj2 (proj2 (get_merge c))). exact Em.
    - destruct (beside_total name []) as (d & p & Hd & Hp).
      exists 1. intros [|m'] M Hm' HM; [lia|]. cbn [resolve_loop fst snd]. rewrite str_eqb_refl.
      rewrite Hd. cbn [obind]. rewrite Ef. reflexivity.
    - exfalso. apply (get_file_safe c). exact Ef.
  Qed.

  Scheme loaded_mut := Induction for loaded Sort Prop
    with expanded_mut := Induction for expanded Sort Prop
    with expanded_list_mut := Induction for expanded_list Sort Prop.
  Combined Scheme loaded_ind3 from loaded_mut, expanded_mut, expanded_list_mut.

  Lemma clean_results :
    (forall n name t, loaded files D n name t -> count t = 0) /\
    (forall n name t t', expanded files D n name t t' -> count t' = 0) /\
    (forall n name cs cs', expanded_list files D n name cs cs' -> countl cs' = 0).
  Proof.
    apply (loaded_ind3 files D (fun n name t _ => count t = 0) (fun n name t t' _ => count t' = 0) (fun n name cs cs' _ => countl cs' = 0)).
    - intros. rewrite count_unread. assumption.
    - intros. rewrite count_eq. assumption.
    - auto.
    - reflexivity.
    - intros n name k c c' r r' Hk _ H1 _ H2. rewrite countl_cons. unfold count1. cbn [fst snd]. apply str_eqb_neq in Hk. rewrite Hk. lia.
    - intros n name c p rv e ra r r' _ _ _ H1 _ H2. rewrite count_eq, countl_cons in H1. rewrite countl_cons. cbn in *. lia.
  Qed.

  (** the model does what the spec says *)
  Lemma model_follows :
    (forall n name t, loaded files D n name t -> load_to n name (Ok t)) /\
    (forall n name t t', expanded files D n name t t' ->
       match t with PN v cs a => loop_to n name v a [] cs (Ok t') end) /\
    (forall n name cs cs', expanded_list files D n name cs cs' ->
       forall v a b r o, loop_to n name v a (b ++ cs') r o -> loop_to n name v a b (cs ++ r) o).
  Proof.
    destruct clean_results as (CL & _ & _).
    apply (loaded_ind3 files D (fun n name t _ => load_to n name (Ok t))
      (fun n name t t' _ => match t with PN v cs a => loop_to n name v a [] cs (Ok t') end)
      (fun n name cs cs' _ => forall v a b r o, loop_to n name v a (b ++ cs') r o -> loop_to n name v a b (cs ++ r) o)).
    - intros n name [v cs a] t' E _ [k H]. exists k. intros M HM. cbn [load_include]. rewrite E. cbn [obind]. rewrite H by assumption. reflexivity.
    - intros n name v cs cs' a _ H. specialize (H v a [] [] (Ok (PN v cs' a))). rewrite app_nil_r in H. apply H. apply loop_nil.
    - intros n name v before before' c after a p rv rk r ra t' _ H1 Hr Hm HL H2 _ H3.
      apply H1. cbn [app]. apply (step_loaded n name v a before' c after p (PN rv [(rk, r)] ra) true); [exact Hr|exact Hm|exact H2|].
      cbn [pn_children snd]. exact H3.
    - intros n name v a b r o H. rewrite app_nil_r in H. exact H.
    - intros n name k [cv ccs ca] c' r r' Hk _ H1 _ H2 v a b rest o H. cbn [app].
      apply (loop_keep _ _ _ _ _ _ _ _ _ c'); [exact Hk|exact H1|]. apply H2. rewrite <- app_assoc. exact H.
    - intros n name c p rv e ra r r' Hr Hi HL H1 _ H2 v a b rest o H. cbn [app].
      apply (step_loaded n name v a b c (r ++ rest) p (PN rv [e] ra) false); [exact Hr|exact Hi|exact H1|]. cbn [pn_children].
      apply CL in HL. rewrite count_eq, countl_cons in HL. unfold count1 in HL. destruct e as [k [cv ccs ca]]. cbn [fst snd] in HL.
      destruct (str_eqb k D) eqn:E; [lia|]. apply str_eqb_neq in E. rewrite count_eq in HL.
      apply (loop_keep _ _ _ _ _ _ _ _ _ (PN cv ccs ca)); [exact E|apply loop_clean; lia|]. apply H2. rewrite <- app_assoc. exact H.
  Qed.

  (** what happens to the children from the iterator on *)
  Definition progress (n : nat) (name v : str) (a : bool) (b cs : list (str * pn)) : Prop :=
    (exists cs', expanded_list files D n name cs cs') \/
    (exists pre pre' c post p rv rk r ra t', cs = pre ++ (D, c) :: post /\ expanded_list files D n name pre pre' /\
       refers name c p /\ wants_merge c /\ loaded files D n p (PN rv [(rk, r)] ra) /\
       expanded files D n name (merge (PN v (b ++ pre' ++ post) a) r false) t') \/
    loop_to n name v a b cs Throw.

  Lemma progress_node n name v a cs : progress n name v a [] cs ->
    (exists t', expanded files D n name (PN v cs a) t') \/ loop_to n name v a [] cs Throw.
  Proof.
    intros [[cs' H]|[(pre & pre' & c & post & p & rv & rk & r & ra & t' & -> & H1 & H2 & H3 & H4 & H5)|H]]; [left|left|right; exact H].
    - exists (PN v cs' a). constructor. exact H.
    - exists t'. eapply expanded_merge; eauto.
  Qed.

  Context (Hfiles : forall name, files name <> UB).

  Lemma progress_all n : (forall name, (exists t, loaded files D n name t) \/ load_to n name Throw) ->
    forall N S name v a b cs, countl b = 0 -> countl (b ++ cs) <= N -> sizel cs <= S -> progress n name v a b cs.
  Proof.
    intros HL. destruct clean_results as (CL & CE & _). destruct model_follows as (MF & ME & _).
    induction N as [N IHN] using lt_wf_ind. induction S as [S IHS] using lt_wf_ind.
    intros name v a b [|[k c] r] Hb HN HS.
    { left. exists []. constructor. }
    rewrite countl_app, countl_cons in HN. unfold count1 in HN. cbn [fst snd] in HN.
    assert (Z : sizel ((k, c) :: r) = size c + sizel r) by reflexivity.
    destruct (str_eqb k D) eqn:E.
    - apply str_eqb_eq in E. subst k.
      assert (Hd : (exists p inc, refers name c p /\ wants_merge c /\ loaded files D n p inc) \/
                   (exists p inc, refers name c p /\ wants_insert c /\ loaded files D n p inc) \/
                   (forall p, refers name c p -> wants_merge c \/ wants_insert c -> load_to n p Throw)).
      { destruct (pn_get_key path_of_str c (lit "file")) as [f| |] eqn:Ef.
        - destruct (beside_total name f) as (d & p & Hd & Hp).
          assert (Hr : refers name c p) by (exists f; split; [apply get_file; exact Ef|exists d; auto]).
          assert (U : forall q, refers name c q -> q = p).
          { intros q (f' & Hf' & d' & Hd' & Hp'). apply get_file in Hf'. congruence. }
          destruct (pn_get_key_def bool_of_str c (lit "merge_children") false) as [m| |] eqn:Em.
          + destruct (HL p) as [[t Ht]|Ht].
            * destruct m; [left|right; left]; exists p, t; (split; [exact Hr|split; [apply (get_merge c); exact Em|exact Ht]]).
            * right; right. intros q Hq _. rewrite (U q Hq). exact Ht.
          + right; right. intros q _ [Hm|Hm]; apply (get_merge c) in Hm; congruence.
          + exfalso. apply (proj2 (proj2 (get_merge c))). exact Em.
        - right; right. intros p (f & Hf & _) _. apply get_file in Hf. congruence.
        - exfalso. apply (get_file_safe c). exact Ef. }
      destruct Hd as [(p & [iv ics ia] & Hr & Hm & Ht)|[(p & [iv ics ia] & Hr & Hm & Ht)|Hd]].
      + destruct ics as [|[ek e] [|e2 l]].
        * right; right. apply (step_loaded n name v a b c r p (PN iv [] ia) true); [exact Hr|exact Hm|apply MF; exact Ht|reflexivity].
        * pose proof (CL _ _ _ Ht) as C. rewrite count_eq, countl_cons in C. unfold count1 in C. cbn [fst snd] in C.
          pose proof (count_merge e (PN v (b ++ r) a) ltac:(lia)) as CM. rewrite count_eq, countl_app in CM.
          destruct (merge (PN v (b ++ r) a) e false) as [v' cs' a'] eqn:EM. rewrite count_eq in CM.
          assert (P : progress n name v' a' [] cs').
          { apply (IHN (countl cs')) with (S := sizel cs'); [lia|reflexivity|cbn [app]; lia|lia]. }
          apply progress_node in P. destruct P as [[t' P]|P].
          -- right; left. exists [], [], c, r, p, iv, ek, e, ia, t'. cbn [app]. split; [reflexivity|]. split; [constructor|].
             split; [exact Hr|]. split; [exact Hm|]. split; [exact Ht|]. rewrite EM. exact P.
          -- right; right. apply (step_loaded n name v a b c r p (PN iv [(ek, e)] ia) true); [exact Hr|exact Hm|apply MF; exact Ht|].
             cbn [pn_children snd]. rewrite EM. exact P.
        * right; right. apply (step_loaded n name v a b c r p (PN iv ((ek, e) :: e2 :: l) ia) true); [exact Hr|exact Hm|apply MF; exact Ht|reflexivity].
      + destruct ics as [|[ek e] [|e2 l]].
        * right; right. apply (step_loaded n name v a b c r p (PN iv [] ia) false); [exact Hr|exact Hm|apply MF; exact Ht|reflexivity].
        * pose proof (CL _ _ _ Ht) as C. rewrite count_eq, countl_cons in C. unfold count1 in C. cbn [fst snd] in C.
          assert (Ke : str_eqb ek D = false) by (destruct (str_eqb ek D); [lia|reflexivity]).
          assert (P : progress n name v a (b ++ [(ek, e)]) r).
          { apply (IHN (countl ((b ++ [(ek, e)]) ++ r))) with (S := sizel r).
            - rewrite <- app_assoc, countl_app. cbn [app]. rewrite countl_cons. unfold count1. cbn [fst snd]. lia.
            - rewrite countl_app, countl_cons. unfold count1. cbn [fst snd]. rewrite Ke. change (countl []) with 0. lia.
            - lia.
            - lia. }
          destruct P as [[cs' P]|[(pre & pre' & c' & post & p' & rv & rk & r' & ra & t' & -> & H1 & H2 & H3 & H4 & H5)|P]].
          -- left. exists ((ek, e) :: cs'). apply (expanded_include _ _ n name c p iv (ek, e) ia); assumption.
          -- right; left. exists ((D, c) :: pre), ((ek, e) :: pre'), c', post, p', rv, rk, r', ra, t'.
             split; [reflexivity|]. split; [apply (expanded_include _ _ n name c p iv (ek, e) ia); assumption|].
             split; [exact H2|]. split; [exact H3|]. split; [exact H4|]. cbn [app]. rewrite <- app_assoc in H5. exact H5.
          -- right; right. apply (step_loaded n name v a b c r p (PN iv [(ek, e)] ia) false); [exact Hr|exact Hm|apply MF; exact Ht|].
             cbn [pn_children]. destruct e as [cv ccs ca]. rewrite count_eq in C.
             apply (loop_keep _ _ _ _ _ _ _ _ _ (PN cv ccs ca)); [apply str_eqb_neq; exact Ke|apply loop_clean; lia|exact P].
        * right; right. apply (step_loaded n name v a b c r p (PN iv ((ek, e) :: e2 :: l) ia) false); [exact Hr|exact Hm|apply MF; exact Ht|reflexivity].
      + right; right. apply step_throw. exact Hd.
    - assert (Hk : k <> D) by (apply str_eqb_neq; exact E). destruct c as [cv ccs ca]. rewrite size_eq in Z. rewrite count_eq in HN.
      assert (P : progress n name cv ca [] ccs).
      { destruct (Nat.eq_dec (countl ccs) N) as [En|En].
        - apply (IHS (sizel ccs)); [lia|reflexivity|cbn [app]; lia|lia].
        - apply (IHN (countl ccs)) with (S := sizel ccs); [lia|reflexivity|cbn [app]; lia|lia]. }
      apply progress_node in P. destruct P as [[c' P]|P].
      + pose proof (CE _ _ _ _ P) as Cc.
        assert (Q : progress n name v a (b ++ [(k, c')]) r).
        { assert (X : countl (b ++ [(k, c')]) = 0).
          { rewrite countl_app, countl_cons. unfold count1. cbn [fst snd]. rewrite E. change (countl []) with 0. lia. }
          apply (IHS (sizel r)); [lia|exact X|rewrite countl_app; lia|lia]. }
        destruct Q as [[cs' Q]|[(pre & pre' & c2 & post & p' & rv & rk & r' & ra & t' & -> & H1 & H2 & H3 & H4 & H5)|Q]].
        * left. exists ((k, c') :: cs'). constructor; assumption.
        * right; left. exists ((k, PN cv ccs ca) :: pre), ((k, c') :: pre'), c2, post, p', rv, rk, r', ra, t'.
          split; [reflexivity|]. split; [constructor; assumption|].
          split; [exact H2|]. split; [exact H3|]. split; [exact H4|]. cbn [app]. rewrite <- app_assoc in H5. exact H5.
        * right; right. apply (loop_keep _ _ _ _ _ _ _ _ _ c'); [exact Hk|apply (ME _ _ _ _ P)|exact Q].
      + right; right. apply loop_keep_throw; assumption.
  Qed.

  Lemma load_total n : forall name, (exists t, loaded files D n name t) \/ load_to n name Throw.
  Proof.
    induction n as [|n IH]; intros name.
    - right. exists 0. reflexivity.
    - destruct (files name) as [[v cs a]| |] eqn:E.
      + assert (P : progress n name v a [] cs) by (apply (progress_all n IH (countl cs) (sizel cs)); [reflexivity|cbn [app]; lia|lia]).
        apply progress_node in P. destruct P as [[t' P]|[k P]].
        * left. exists (set_accessed_recursively false t'). econstructor; eauto.
        * right. exists k. intros M HM. cbn [load_include]. rewrite E. cbn [obind]. rewrite P by assumption. reflexivity.
      + right. exists 0. intros M _. cbn [load_include]. rewrite E. reflexivity.
      + exfalso. exact (Hfiles _ E).
  Qed.

  (** more fuel changes nothing *)
  Lemma resolve_mono (l l' : str -> outcome pn) name : (forall p, l p <> UB -> l' p = l p) ->
    forall m m' v a b cs, m <= m' -> resolve_loop D l name m v a b cs <> UB ->
    resolve_loop D l' name m' v a b cs = resolve_loop D l name m v a b cs.
  Proof.
    intros Hl. induction m as [|m IH]; intros m' v a b cs Hm; [cbn; congruence|]. destruct m' as [|m']; [lia|].
    cbn [resolve_loop]. destruct cs as [|kc r]; [reflexivity|]. destruct (str_eqb (fst kc) D).
    - destruct (parent_path name) as [d| |]; cbn [obind]; [|reflexivity|reflexivity].
      destruct (pn_get_key path_of_str (snd kc) (lit "file")) as [f| |]; cbn [obind]; [|reflexivity|reflexivity].
      destruct (join_path d f) as [p| |]; cbn [obind]; [|reflexivity|reflexivity].
      destruct (pn_get_key_def bool_of_str (snd kc) (lit "merge_children") false) as [mg| |]; cbn [obind]; [|reflexivity|reflexivity].
      specialize (Hl p). destruct (l p) as [inc| |]; cbn [obind]; [rewrite Hl by discriminate|rewrite Hl by discriminate|congruence]; cbn [obind]; [|reflexivity].
      destruct (pn_children inc) as [|e [|e2 rr]]; [reflexivity| |reflexivity].
      destruct mg; [destruct (merge (PN v (b ++ r) a) (snd e) false)|]; apply IH; lia.
    - destruct (snd kc) as [cv ccs ca]. specialize (IH m') as IH'.
      destruct (resolve_loop D l name m cv ca [] ccs) as [c'| |] eqn:E; cbn [obind].
      + rewrite IH' by (try lia; congruence). rewrite E. cbn [obind]. apply IH'. lia.
      + rewrite IH' by (try lia; congruence). rewrite E. reflexivity.
      + congruence.
  Qed.

  Lemma load_mono : forall n m m' name, m <= m' -> load_include files D m n name <> UB ->
    load_include files D m' n name = load_include files D m n name.
  Proof.
    induction n as [|n IH]; intros m m' name Hm H; [reflexivity|]. cbn [load_include] in *.
    destruct (files name) as [[v cs a]| |]; cbn [obind] in *; [|reflexivity|reflexivity].
    rewrite (resolve_mono (load_include files D m n) (load_include files D m' n)) with (m := m).
    - reflexivity.
    - intros p. apply IH. exact Hm.
    - exact Hm.
    - intros E. rewrite E in H. apply H. reflexivity.
  Qed.

  Lemma loaded_of_load n k name t : load_include files D k n name = Ok t -> loaded files D n name t.
  Proof.
    intros H. destruct (load_total n name) as [[t' Ht]|[k' Ht]].
    - pose proof (proj1 model_follows _ _ _ Ht) as [k' Hk'].
      pose proof (load_mono n k (k + k') name ltac:(lia) ltac:(congruence)) as E. rewrite Hk' in E by lia. congruence.
    - pose proof (load_mono n k (k + k') name ltac:(lia) ltac:(congruence)) as E. rewrite Ht in E by lia. congruence.
  Qed.

  Lemma meaning_assembled name t :
    (exists fuel, load_file_with_include files D fuel name = Ok t) <-> loaded files D 100 name t.
  Proof.
    split.
    - intros [k H]. exact (loaded_of_load 100 k name t H).
    - intros H. apply (proj1 model_follows) in H. destruct H as [k H]. exists k. apply H. lia.
  Qed.

  Lemma terminates_assembled name :
    exists fuel o, o <> UB /\ forall m, fuel <= m -> load_file_with_include files D m name = o.
  Proof.
    destruct (load_total 100 name) as [[t Ht]|[k Ht]].
    - pose proof (proj1 model_follows _ _ _ Ht) as [k Hk]. exists k, (Ok t). split; [discriminate|exact Hk].
    - exists k, Throw. split; [discriminate|exact Ht].
  Qed.

  Lemma no_directive_assembled fuel name t : load_file_with_include files D fuel name = Ok t -> no_directive D t.
  Proof.
    intros H. apply count_clean. apply (proj1 clean_results 100 name). apply meaning_assembled. eauto.
  Qed.

  Lemma plain_assembled name t : files name = Ok t -> no_directive D t ->
    exists fuel, forall m, fuel <= m -> load_file_with_include files D m name = Ok (set_accessed_recursively false t).
  Proof.
    intros E H. apply count_clean in H. destruct t as [v cs a]. destruct (loop_clean 99 name cs v a [] H) as [k Hk].
    exists k. intros m Hm. unfold load_file_with_include. change 100 with (S 99). revert Hk. generalize 99 as n. intros n Hk. cbn [load_include]. rewrite E. cbn [obind]. rewrite Hk by assumption. reflexivity.
  Qed.

  (** ** Cycles *)
  Lemma directive_merge c : forall o t, count o = 0 -> directive_in D c t -> directive_in D c (merge t o false).
  Proof.
    induction o as [ov oc oa IH] using pn_ind'; intros [tv tc ta] Ho. rewrite merge_eq. rewrite count_eq in Ho. cbn [pn_children pn_value pn_flag].
    revert tc; induction oc as [|kc oc IHoc]; intros tc H; cbn [merge_loop]; [exact H|].
    inversion IH as [|? ? H1 H2]; subst. rewrite countl_cons in Ho. unfold count1 in Ho.
    assert (Kd : fst kc <> D) by (apply str_eqb_neq; destruct (str_eqb (fst kc) D); [lia|reflexivity]).
    apply IHoc; [exact H2|lia|]. destruct (child_index tc (fst kc)) as [i|] eqn:E.
    - destruct (child_split _ _ _ E) as (pre & x & post & -> & -> & _). rewrite upd_split.
      inversion H as [v cs a Hin|v cs a k n Hin Hk Hn]; subst.
      + apply dir_here. apply in_app_iff in Hin. apply in_app_iff. destruct Hin as [Hin|[Hin|Hin]]; [auto| |right; right; exact Hin].
        injection Hin as Hk _. congruence.
      + apply in_app_iff in Hin. destruct Hin as [Hin|[Hin|Hin]].
        * apply (dir_below D c _ _ _ k n); [apply in_app_iff; auto|exact Hk|exact Hn].
        * injection Hin as <- <-. apply (dir_below D c _ _ _ (fst kc) (merge x (snd kc) false)); [apply in_app_iff; right; left; reflexivity|exact Hk|].
          apply H1; [lia|exact Hn].
        * apply (dir_below D c _ _ _ k n); [apply in_app_iff; right; right; exact Hin|exact Hk|exact Hn].
    - inversion H as [v cs a Hin|v cs a k n Hin Hk Hn]; subst.
      + apply dir_here. apply in_app_iff. auto.
      + apply (dir_below D c _ _ _ k n); [apply in_app_iff; auto|exact Hk|exact Hn].
  Qed.

  Lemma refers_unique name c p q : refers name c p -> refers name c q -> p = q.
  Proof. intros (f & Hf & d & Hd & Hp) (f' & Hf' & d' & Hd' & Hp'). apply get_file in Hf, Hf'. congruence. Qed.

  Definition directive_inl (c : pn) (cs : list (str * pn)) : Prop :=
    In (D, c) cs \/ exists k n, In (k, n) cs /\ k <> D /\ directive_in D c n.
  Lemma directive_in_node c v cs a : directive_in D c (PN v cs a) <-> directive_inl c cs.
  Proof.
    split.
    - intros H. inversion H; subst; [left; assumption|right; eauto].
    - intros [H|(k & n & H1 & H2 & H3)]; [apply dir_here; exact H|eapply dir_below; eauto].
  Qed.
  Lemma directive_inl_app c l1 l2 : directive_inl c (l1 ++ l2) <-> directive_inl c l1 \/ directive_inl c l2.
  Proof.
    unfold directive_inl. rewrite in_app_iff. split.
    - intros [[H|H]|(k & n & H & H')]; [tauto|tauto|]. apply in_app_iff in H. destruct H; [left|right]; right; eauto.
    - intros [[H|(k & n & H & H')]|[H|(k & n & H & H')]]; [tauto| |tauto|]; right; exists k, n; rewrite in_app_iff; tauto.
  Qed.
  Lemma directive_inl_cons c k n l : directive_inl c ((k, n) :: l) <-> (k = D /\ n = c) \/ (k <> D /\ directive_in D c n) \/ directive_inl c l.
  Proof.
    unfold directive_inl. cbn [In]. split.
    - intros [[H|H]|(k' & n' & [H|H] & H')]; [injection H as -> ->; auto|tauto|injection H as -> ->; tauto|right; right; right; eauto].
    - intros [[-> ->]|[[H1 H2]|[H|(k' & n' & H & H')]]]; [tauto|right; exists k, n; auto|tauto|right; exists k', n'; tauto].
  Qed.

  Lemma no_load_of_cycle (S : str -> Prop) :
    (forall name, S name -> exists t c p, files name = Ok t /\ directive_in D c t /\ refers name c p /\ S p) ->
    (forall n name t, loaded files D n name t -> S name -> False) /\
    (forall n name t t', expanded files D n name t t' -> forall c p, directive_in D c t -> refers name c p -> S p -> False) /\
    (forall n name cs cs', expanded_list files D n name cs cs' -> forall c p, directive_inl c cs -> refers name c p -> S p -> False).
  Proof.
    intros HS. destruct clean_results as (CL & _ & _).
    apply (loaded_ind3 files D (fun n name t _ => S name -> False)
      (fun n name t t' _ => forall c p, directive_in D c t -> refers name c p -> S p -> False)
      (fun n name cs cs' _ => forall c p, directive_inl c cs -> refers name c p -> S p -> False)).
    - intros n name t t' E _ H Hs. destruct (HS name Hs) as (t2 & c & p & E2 & Hd & Hr & Hp). rewrite E in E2. injection E2 as <-.
      exact (H c p Hd Hr Hp).
    - intros n name v cs cs' a _ H c p Hd. apply H. apply directive_in_node in Hd. exact Hd.
    - intros n name v before before' c after a p rv rk r ra t' _ H1 Hr Hm HL H2 _ H3 c' p' Hd Hr' Hs.
      apply directive_in_node, directive_inl_app in Hd. destruct Hd as [Hd|Hd]; [exact (H1 c' p' Hd Hr' Hs)|].
      apply directive_inl_cons in Hd. destruct Hd as [[_ ->]|[[Hk _]|Hd]]; [|congruence|].
      + apply H2. rewrite (refers_unique _ _ _ _ Hr Hr'). exact Hs.
      + apply (H3 c' p'); [|exact Hr'|exact Hs]. apply directive_merge.
        * apply CL in HL. rewrite count_eq, countl_cons in HL. unfold count1 in HL. cbn [fst snd] in HL. lia.
        * apply directive_in_node, directive_inl_app. right. exact Hd.
    - intros n name c p [[]|(k & n' & [] & _)].
    - intros n name k c c' r r' Hk _ H1 _ H2 c2 p Hd Hr Hs. apply directive_inl_cons in Hd. destruct Hd as [[-> _]|[[_ Hd]|Hd]]; [congruence| |].
      + exact (H1 c2 p Hd Hr Hs).
      + exact (H2 c2 p Hd Hr Hs).
    - intros n name c p rv e ra r r' Hr Hi HL H1 _ H2 c2 p2 Hd Hr2 Hs. apply directive_inl_cons in Hd. destruct Hd as [[_ ->]|[[Hk _]|Hd]]; [|congruence|].
      + apply H1. rewrite (refers_unique _ _ _ _ Hr Hr2). exact Hs.
      + exact (H2 c2 p2 Hd Hr2 Hs).
  Qed.

  Lemma cycle_assembled (S : str -> Prop) :
    (forall name, S name -> exists t c p, files name = Ok t /\ directive_in D c t /\ refers name c p /\ S p) ->
    forall name, S name -> exists fuel, forall m, fuel <= m -> load_file_with_include files D m name = Throw.
  Proof.
    intros HS name Hs. destruct (load_total 100 name) as [[t Ht]|H]; [|exact H].
    exfalso. exact (proj1 (no_load_of_cycle S HS) _ _ _ Ht Hs).
  Qed.
End Include.
