(** Proofs about element streams, data files and debug recordings. *)
From Coq Require Import Ascii String List Arith Bool Lia ZifyBool ZifyNat.
From Verif Require Import Base BaseProofs Str StrBase StrModel AssocSpec AssocModel GridSpec GridModel GridProofs IoSpec IoModel.
Import ListNotations.

Section StreamProofs.
  Context {T V : Type} (to_v : T -> V) (of_v : V -> T).
  Definition overwritten (b : list V) (pos : nat) (xs : list V) : list V := firstn pos b ++ xs ++ skipn (pos + length xs) b.
  Lemma over_nil b pos : pos <= length b -> overwritten b pos [] = b.
  Proof. intros L. unfold overwritten. cbn. rewrite Nat.add_0_r. apply firstn_skipn. Qed.
  Lemma over_nth b pos xs k : pos + length xs <= length b ->
    nth_error (overwritten b pos xs) k = if (pos <=? k) && (k <? pos + length xs) then nth_error xs (k - pos) else nth_error b k.
  Proof.
    intros L. unfold overwritten. destruct (le_lt_dec pos k) as [P|P].
    - replace (pos <=? k) with true by lia. cbn [andb]. rewrite nth_error_app2 by (rewrite firstn_length; lia). rewrite firstn_length. replace (Nat.min pos (length b)) with pos by lia.
      destruct (k <? pos + length xs) eqn:E; [rewrite nth_error_app1 by lia; reflexivity|]. rewrite nth_error_app2 by lia.
      rewrite <- (firstn_skipn (pos + length xs) b) at 2. rewrite nth_error_app2 by (rewrite firstn_length; lia). rewrite firstn_length. f_equal. lia.
    - replace (pos <=? k) with false by lia. cbn [andb]. rewrite nth_error_app1 by (rewrite firstn_length; lia).
      rewrite <- (firstn_skipn pos b) at 2. rewrite nth_error_app1 by (rewrite firstn_length; lia). reflexivity.
  Qed.
  Lemma over_length b pos xs : pos + length xs <= length b -> length (overwritten b pos xs) = length b.
  Proof. intros L. unfold overwritten. rewrite !app_length, firstn_length, skipn_length. lia. Qed.
  Lemma nth_all_eq {A} (l m : list A) : (forall k, nth_error l k = nth_error m k) -> l = m.
  Proof.
    revert m. induction l as [|x l IH]; intros [|y m] H; try reflexivity; try (specialize (H 0); discriminate).
    f_equal; [specialize (H 0); cbn in H; congruence|]. apply IH. intros k. exact (H (S k)).
  Qed.
  Lemma over_app b pos xs ys : pos + length (xs ++ ys) <= length b -> overwritten (overwritten b pos xs) (pos + length xs) ys = overwritten b pos (xs ++ ys).
  Proof.
    intros L. rewrite app_length in L. apply nth_all_eq. intros k. rewrite over_nth by (rewrite over_length by lia; lia). rewrite !over_nth by (rewrite ?app_length; lia). rewrite app_length.
    destruct (pos + length xs <=? k) eqn:E1, (k <? pos + length xs + length ys) eqn:E2; cbn [andb].
    - replace (pos <=? k) with true by lia. replace (k <? pos + (length xs + length ys)) with true by lia. cbn [andb]. rewrite nth_error_app2 by lia. f_equal. lia.
    - replace (k <? pos + (length xs + length ys)) with false by lia. rewrite andb_false_r. replace (k <? pos + length xs) with false by lia. rewrite andb_false_r. reflexivity.
    - replace (k <? pos + length xs) with true by lia. destruct (pos <=? k) eqn:E3; cbn [andb]; [|reflexivity]. replace (k <? pos + (length xs + length ys)) with true by lia.
      rewrite nth_error_app1 by lia. reflexivity.
    - lia.
  Qed.
  Lemma put_ok b pos x : put to_v (b, pos) x = if pos <? length b then Ok (overwritten b pos [to_v x], pos + 1) else UB.
  Proof.
    unfold put. cbn [fst snd]. destruct (pos <? length b) eqn:E.
    - rewrite vec_set_ok by lia. cbn [obind]. do 2 f_equal. apply nth_all_eq. intros k. rewrite over_nth by (cbn [length]; lia). cbn [length].
      destruct (Nat.eq_dec k pos) as [->|N].
      + rewrite nth_error_list_set_eq by lia. replace ((pos <=? pos) && (pos <? pos + 1)) with true by lia. rewrite Nat.sub_diag. reflexivity.
      + rewrite nth_error_list_set_neq by congruence. replace ((pos <=? k) && (k <? pos + 1)) with false by lia. reflexivity.
    - unfold vec_set. rewrite E. reflexivity.
  Qed.
  (** a sequence of single elements *)
  Fixpoint puts (s : list V * nat) (xs : list T) : outcome (list V * nat) := match xs with [] => Ok s | x :: r => do s1 <- put to_v s x; puts s1 r end.
  Lemma puts_app xs ys : forall s, puts s (xs ++ ys) = do s1 <- puts s xs; puts s1 ys.
  Proof. induction xs as [|x xs IH]; intros s; [reflexivity|]. cbn. destruct (put to_v s x); cbn; [apply IH|reflexivity|reflexivity]. Qed.
  Lemma put_item_puts s i : put_item to_v s i = puts s (elements i).
  Proof.
    assert (E : forall o : outcome (list V * nat), (do s1 <- o; Ok s1) = o) by (intros [| |]; reflexivity).
    destruct i; cbn [put_item elements puts]; repeat (match goal with |- obind ?a _ = obind ?a _ => destruct a; cbn [obind]; [|reflexivity|reflexivity] end); rewrite ?E; reflexivity.
  Qed.
  Lemma put_all_puts l : forall s, put_all to_v s l = puts s (all_elements l).
  Proof.
    induction l as [|i l IH]; intros s; [reflexivity|]. cbn [put_all all_elements flat_map]. rewrite puts_app, put_item_puts. destruct (puts s (elements i)); cbn [obind]; [apply IH|reflexivity|reflexivity].
  Qed.
  Lemma puts_ok xs : forall b pos, puts (b, pos) xs = if (pos + length xs <=? length b) || (length xs =? 0) then Ok ((if length xs =? 0 then b else overwritten b pos (map to_v xs)), pos + length xs) else UB.
  Proof.
    induction xs as [|x xs IH]; intros b pos.
    - cbn. rewrite orb_true_r, Nat.add_0_r. reflexivity.
    - cbn [puts length]. rewrite put_ok. replace (S (length xs) =? 0) with false by lia. rewrite orb_false_r. destruct (pos <? length b) eqn:E.
      + cbn [obind]. rewrite IH. rewrite over_length by (cbn; lia). destruct (length xs =? 0) eqn:Z.
        * destruct xs; [|discriminate]. cbn [length]. rewrite orb_true_r. replace (pos + 1 <=? length b) with true by lia. cbn [map]. rewrite Nat.add_0_r. reflexivity.
        * rewrite orb_false_r. replace (pos + 1 + length xs <=? length b) with (pos + S (length xs) <=? length b) by lia.
          destruct (pos + S (length xs) <=? length b) eqn:F; [|reflexivity]. f_equal. f_equal; [|lia]. cbn [map].
          exact (over_app b pos [to_v x] (map to_v xs) ltac:(rewrite app_length, map_length; cbn; lia)).
      + cbn [obind]. replace (pos + S (length xs) <=? length b) with false by lia. reflexivity.
  Qed.
  Fixpoint gets (b : list V) (pos n : nat) : outcome (list T * nat) :=
    match n with O => Ok ([], pos) | S n => do x <- get of_v b pos; do y <- gets b (snd x) n; Ok (fst x :: fst y, snd y) end.
  Lemma get_ok b pos v : nth_error b pos = Some v -> get of_v b pos = Ok (of_v v, pos + 1).
  Proof. intros E. unfold get. rewrite (vec_get_ok _ _ _ E). reflexivity. Qed.
  Lemma get_all_ok l : forall b pos, (forall k v, nth_error (map to_v (all_elements l)) k = Some v -> nth_error b (pos + k) = Some v) ->
    (forall x, In x (all_elements l) -> of_v (to_v x) = x) -> get_all of_v b pos (map kind_of l) = Ok (l, pos + length (all_elements l)).
  Proof.
    induction l as [|i l IH]; intros b pos H R; [cbn; rewrite Nat.add_0_r; reflexivity|]. cbn [map get_all all_elements flat_map] in *. rewrite map_app in H. rewrite app_length.
    assert (G : get_item of_v b pos (kind_of i) = Ok (i, pos + length (elements i))).
    { destruct i as [x|x y z|w x y z]; cbn [kind_of get_item elements app map] in *.
      - rewrite (get_ok _ _ (to_v x)) by (rewrite <- (Nat.add_0_r pos); apply H; reflexivity). cbn [obind fst snd length]. rewrite R by (left; reflexivity). reflexivity.
      - rewrite (get_ok _ _ (to_v x)) by (rewrite <- (Nat.add_0_r pos); apply H; reflexivity). cbn [obind fst snd].
        rewrite (get_ok _ _ (to_v y)) by (apply (H 1); reflexivity). cbn [obind fst snd]. rewrite (get_ok _ _ (to_v z)) by (rewrite <- Nat.add_assoc; apply (H 2); reflexivity). cbn [obind fst snd length].
        rewrite !R by (cbn; auto). do 2 f_equal. lia.
      - rewrite (get_ok _ _ (to_v w)) by (rewrite <- (Nat.add_0_r pos); apply H; reflexivity). cbn [obind fst snd].
        rewrite (get_ok _ _ (to_v x)) by (apply (H 1); reflexivity). cbn [obind fst snd]. rewrite (get_ok _ _ (to_v y)) by (rewrite <- Nat.add_assoc; apply (H 2); reflexivity). cbn [obind fst snd].
        rewrite (get_ok _ _ (to_v z)) by (rewrite <- !Nat.add_assoc; apply (H 3); reflexivity). cbn [obind fst snd length].
        rewrite !R by (cbn; auto). do 2 f_equal. lia. }
    rewrite G. cbn [obind fst snd]. rewrite IH.
    - cbn [obind fst snd]. do 2 f_equal. fold (all_elements l). lia.
    - intros k v K. rewrite <- Nat.add_assoc. apply H. rewrite nth_error_app2 by (rewrite map_length; lia). rewrite map_length. replace (length (elements i) + k - length (elements i)) with k by lia. exact K.
    - intros x I. apply R. apply in_or_app. right. exact I.
  Qed.
  Lemma stream_assembled (b : list V) pos (l : list (item T)) :
    (pos + length (all_elements l) <= length b ->
      exists b', put_all to_v (b, pos) l = Ok (b', pos + length (all_elements l)) /\ length b' = length b /\
      (forall k x, nth_error (all_elements l) k = Some x -> nth_error b' (pos + k) = Some (to_v x)) /\
      (forall k, k < pos \/ pos + length (all_elements l) <= k -> nth_error b' k = nth_error b k) /\
      ((forall x, In x (all_elements l) -> of_v (to_v x) = x) -> get_all of_v b' pos (map kind_of l) = Ok (l, pos + length (all_elements l)))) /\
    (length b < pos + length (all_elements l) -> all_elements l <> [] -> put_all to_v (b, pos) l = UB).
  Proof.
    rewrite put_all_puts, puts_ok. split.
    - intros L. replace (pos + length (all_elements l) <=? length b) with true by lia. cbn [orb]. exists (overwritten b pos (map to_v (all_elements l))). split.
      { destruct (length (all_elements l) =? 0) eqn:Z; [|reflexivity]. destruct (all_elements l); [|discriminate]. cbn [map length] in *. rewrite over_nil by lia. reflexivity. }
      split; [apply over_length; rewrite map_length; exact L|]. split; [|split].
      + intros k x K. assert (k < length (all_elements l)) by (apply nth_error_Some; congruence). rewrite over_nth by (rewrite map_length; exact L). rewrite map_length.
        replace ((pos <=? pos + k) && (pos + k <? pos + length (all_elements l))) with true by lia. replace (pos + k - pos) with k by lia. rewrite nth_error_map, K. reflexivity.
      + intros k K. rewrite over_nth by (rewrite map_length; exact L). rewrite map_length. replace ((pos <=? k) && (k <? pos + length (all_elements l))) with false by lia. reflexivity.
      + intros R. apply get_all_ok; [|exact R]. intros k v K. assert (k < length (all_elements l)) by (rewrite <- (map_length to_v); apply nth_error_Some; congruence).
        rewrite over_nth by (rewrite map_length; exact L). rewrite map_length. replace ((pos <=? pos + k) && (pos + k <? pos + length (all_elements l))) with true by lia. replace (pos + k - pos) with k by lia. exact K.
    - intros L N. replace (pos + length (all_elements l) <=? length b) with false by lia. destruct (all_elements l); [congruence|]. reflexivity.
  Qed.
  Lemma push_assembled (b : list V) (xs : list T) : fold_left (push_back to_v) xs b = b ++ map to_v xs.
  Proof. revert b. induction xs as [|x xs IH]; intros b; cbn; [rewrite app_nil_r; reflexivity|]. rewrite IH. unfold push_back. rewrite <- app_assoc. reflexivity. Qed.
End StreamProofs.

(** ** reading vectors *)
Section ReaderProofs.
  Context {T : Type} (parse : str -> option T * nat).
  Lemma skip_spaces a r : spaces a -> skip_ws (a ++ r) = skip_ws r.
  Proof. induction a as [|c a IH]; intros S; [reflexivity|]. inversion S as [|? ? C S']; subst. cbn [app skip_ws]. apply in_set_In in C. rewrite C. apply IH. exact S'. Qed.
  Lemma skip_word w r : w <> [] -> Forall (fun c => ~ In c whitespace) w -> skip_ws (w ++ r) = w ++ r.
  Proof. destruct w as [|c w]; [congruence|]. intros _ F. apply Forall_inv in F. cbn [app skip_ws]. apply in_set_not_In in F. rewrite F. reflexivity. Qed.
  Lemma extract_word a w t c r : spaces a -> is_word parse w t -> In c whitespace -> extract parse (IS (a ++ w ++ c :: r) false false) = (IS (c :: r) false false, Some t).
  Proof.
    intros A (N & F & P & _) C. unfold extract. cbn [good eofbit failbit orb negb rest]. rewrite skip_spaces by exact A. rewrite skip_word by assumption.
    destruct (w ++ c :: r) as [|x y] eqn:E; [destruct w; discriminate|]. rewrite <- E, P by exact C. rewrite skipn_length_app. rewrite app_length. cbn [length]. replace (length w + S (length r) <=? length w) with false by lia. reflexivity.
  Qed.
  Lemma extract_last a w t : spaces a -> is_word parse w t -> extract parse (IS (a ++ w) false false) = (IS [] true false, Some t).
  Proof.
    intros A (N & F & _ & P). unfold extract. cbn [good eofbit failbit orb negb rest]. rewrite skip_spaces by exact A. rewrite <- (app_nil_r w) at 1. rewrite skip_word by assumption. rewrite app_nil_r.
    destruct w as [|x y] eqn:E; [congruence|]. rewrite <- E in *. rewrite P, skipn_all, Nat.leb_refl. reflexivity.
  Qed.
  Lemma extract_end a : spaces a -> extract parse (IS a false false) = (IS [] true true, None).
  Proof. intros A. unfold extract. cbn [good eofbit failbit orb negb rest]. rewrite <- (app_nil_r a), skip_spaces by exact A. reflexivity. Qed.
  (** reading words that are each followed by white space *)
  Lemma read_words l : well_spaced parse l -> forall lead tail v fuel, spaces lead -> length l < fuel -> exists lead', spaces lead' /\
    read_vector parse fuel (IS (lead ++ words_text l ++ tail) false false) v = read_vector parse (fuel - length l) (IS (lead' ++ tail) false false) (v ++ values l).
  Proof.
    induction l as [|[[w t] sep] l IH]; intros W lead tail v fuel A F.
    - exists lead. split; [exact A|]. cbn [words_text values map length app]. rewrite app_nil_r, Nat.sub_0_r. reflexivity.
    - inversion W as [|? ? (H1 & H2 & H3) W']; subst. cbn [fst snd] in *. destruct sep as [|c sep]; [congruence|]. destruct fuel as [|fuel]; [cbn in F; lia|]. cbn [length] in F.
      destruct (IH W' (c :: sep) tail (v ++ [t]) fuel H3 ltac:(lia)) as (lead' & L' & E). exists lead'. split; [exact L'|].
      cbn [read_vector good eofbit failbit orb negb words_text values map length fst snd]. rewrite <- !app_assoc. cbn [app]. rewrite (extract_word lead w t c) by (try assumption; apply Forall_inv in H3; exact H3).
      cbn [good eofbit failbit orb negb]. change (c :: sep ++ words_text l ++ tail) with ((c :: sep) ++ words_text l ++ tail). rewrite E. cbn [Nat.sub]. unfold values. rewrite <- app_assoc. reflexivity.
  Qed.
  Lemma read_vector_stop fuel s v : good s = false -> read_vector parse (S fuel) s v = Some (s, v).
  Proof. intros G. cbn. rewrite G. reflexivity. Qed.
  Lemma words_length l : well_spaced parse l -> length l + length l <= length (words_text l).
  Proof.
    induction l as [|[[w t] sep] l IH]; intros W; [cbn; lia|]. inversion W as [|? ? ((N & _) & H2 & H3) W']; subst. cbn [fst snd] in *. cbn [words_text length]. rewrite !app_length.
    destruct w; [congruence|]. destruct sep; [congruence|]. cbn [length]. specialize (IH W'). lia.
  Qed.
  Lemma data_assembled lead (l : list (str * T * str)) : spaces lead -> well_spaced parse l ->
    (forall ec, l <> [] -> read_data parse (Some (lead ++ words_text l)) ec = Ok (values l, [])) /\
    (forall ec w t, is_word parse w t -> l <> [] -> read_data parse (Some (lead ++ words_text l ++ w)) ec = Ok (values l, [])) /\
    (forall c r, ~ In c whitespace -> fst (parse (c :: r)) = None -> snd (parse (c :: r)) < length (c :: r) ->
       read_data parse (Some (lead ++ words_text l ++ c :: r)) false = Throw /\
       exists m, read_data parse (Some (lead ++ words_text l ++ c :: r)) true = Ok (values l, m) /\ In NotAllRead m).
  Proof.
    intros A W. pose proof (words_length l W) as WL. refine (conj _ (conj _ _)).
    - intros ec N. unfold read_data. destruct (read_words l W lead [] [] (S (S (length (lead ++ words_text l)))) A ltac:(rewrite app_length; lia)) as (lead' & L' & E).
      rewrite app_nil_r in E. rewrite E. rewrite app_nil_r. rewrite app_length. replace (S (S (length lead + length (words_text l))) - length l) with (S (S (length lead + length (words_text l) - length l))) by lia.
      cbn [read_vector good eofbit failbit orb negb]. rewrite extract_end by exact L'. cbn [good eofbit failbit orb negb app]. destruct (values l) eqn:Q; [destruct l; [congruence|discriminate]|]. reflexivity.
    - intros ec w t HW N. unfold read_data. destruct (read_words l W lead w [] (S (S (length (lead ++ words_text l ++ w)))) A ltac:(rewrite !app_length; lia)) as (lead' & L' & E).
      rewrite E. rewrite !app_length. replace (S (S (length lead + (length (words_text l) + length w))) - length l) with (S (S (length lead + (length (words_text l) + length w) - length l))) by lia.
      cbn [read_vector good eofbit failbit orb negb]. rewrite (extract_last _ _ t) by assumption. cbn [good eofbit failbit orb negb app]. destruct (values l) eqn:Q; [destruct l; [congruence|discriminate]|]. reflexivity.
    - intros c r C P1 P2. assert (X : read_vector parse (S (S (length (lead ++ words_text l ++ c :: r)))) (IS (lead ++ words_text l ++ c :: r) false false) [] = Some (IS (skipn (snd (parse (c :: r))) (c :: r)) false true, values l)).
      { destruct (read_words l W lead (c :: r) [] (S (S (length (lead ++ words_text l ++ c :: r)))) A ltac:(rewrite !app_length; lia)) as (lead' & L' & E). rewrite E.
        rewrite !app_length. match goal with |- read_vector parse (S (S ?n) - _) _ _ = _ => replace (S (S n) - length l) with (S (S (n - length l))) by lia end.
        cbn [read_vector good eofbit failbit orb negb]. unfold extract. cbn [good eofbit failbit orb negb rest]. rewrite skip_spaces by exact L'. cbn [skip_ws]. apply in_set_not_In in C. rewrite C.
        destruct (parse (c :: r)) as [o n]. cbn [fst snd] in *. subst o. replace (length (c :: r) <=? n) with false by lia. reflexivity. }
      unfold read_data. rewrite X. cbn [eofbit snd app]. split; [reflexivity|]. eexists. split; [reflexivity|]. left. reflexivity.
  Qed.
  Lemma missing_assembled : read_data parse None false = Throw /\ read_data parse None true = Ok ([], [CannotOpen]).
  Proof. split; reflexivity. Qed.
End ReaderProofs.

(** ** recordings *)
Section DebugProofs.
  Context {T L : Type} (leq : L -> L -> bool) (ldef : L) (tdef : T) (neq : T -> T -> bool) (sentinel : T) (Hleq : eq_test leq) (NS : neq sentinel sentinel = false).
  Definition or_sentinel (o : option T) : T := match o with Some x => x | None => sentinel end.
  (** frames [fs], last first, are what grid [g] shows *)
  Definition shows (g : grid T L) (fs : list (list (L * T))) : Prop :=
    g_rows g = length fs /\
    (forall f l c, f < length fs -> g_col_of g l = Some c -> g_cell g f c = or_sentinel (value_in leq (nth (length fs - 1 - f) fs []) l)) /\
    (forall fr l v, In fr fs -> value_in leq fr l = Some v -> g_col_of g l <> None /\ neq v sentinel = true).
  Lemma leq_same l : leq l l = true.
  Proof. apply Hleq. reflexivity. Qed.
  Lemma value_snoc (fr : list (L * T)) l v l' : value_in leq fr l = None -> value_in leq (fr ++ [(l, v)]) l' = if leq l l' then Some v else value_in leq fr l'.
  Proof.
    induction fr as [|[k x] fr IH]; intros N; [reflexivity|]. cbn [value_in app] in *. destruct (leq k l) eqn:E; [discriminate|]. destruct (leq k l') eqn:E'; [|apply IH; exact N].
    destruct (leq l l') eqn:E2; [|reflexivity]. apply Hleq in E', E2. subst. rewrite leq_same in E. discriminate.
  Qed.
  Lemma write_ok s g fs l v : st_inv leq s g -> shows g fs -> neq v sentinel = true -> exists s' g', dbg_write leq ldef neq sentinel s l v = Ok s' /\ st_inv leq s' g' /\ shows g' (record leq fs (l, v)) /\
    (forall l', g_col_of g' l' <> None <-> g_col_of g l' <> None \/ l' = l).
  Proof.
    intros I (S1 & S2 & S3) NV. unfold dbg_write.
    assert (X : exists s1 g1 c, st_find_or_add_channel leq ldef s l sentinel = (s1, Ok c) /\ st_inv leq s1 g1 /\ shows g1 fs /\ g_col_of g1 l = Some c /\
       (forall l', g_col_of g1 l' <> None <-> g_col_of g l' <> None \/ l' = l)).
    { pose proof I as [_ [Hr [Hc [_ [Hfind Hlab]]]]]. unfold st_find_or_add_channel. rewrite Hfind. destruct (g_col_of g l) as [c|] eqn:E.
      - exists s, g, c. refine (conj eq_refl (conj I (conj (conj S1 (conj S2 S3)) (conj E _)))). intros l'. split; [auto|]. intros [H| ->]; [exact H|congruence].
      - pose proof (st_new_channel leq ldef Hleq s g l sentinel I) as H. unfold grid_new_col in H. rewrite E in H. destruct H as (s1 & E1 & I1).
        eexists s1, _, (g_cols g). split; [exact E1|]. split; [exact I1|]. split; [|split].
        + split; [exact S1|]. cbn [label_col grid_resize g_rows g_cell g_col_of]. unfold set_label. split.
          * intros f l' c' F Q. destruct (leq l l') eqn:E2.
            -- injection Q as <-. apply Hleq in E2. subst l'. unfold in_grid. replace ((f <? g_rows g) && (g_cols g <? g_cols g)) with false by lia.
               destruct (value_in leq (nth (length fs - 1 - f) fs []) l) as [x|] eqn:V; [|reflexivity]. exfalso.
               destruct (S3 (nth (length fs - 1 - f) fs []) l x) as [B _]; [apply nth_In; lia|exact V|]. congruence.
            -- destruct (Hlab _ _ Q) as [C' _]. unfold in_grid. replace ((f <? g_rows g) && (c' <? g_cols g)) with true by lia. exact (S2 _ _ _ F Q).
          * intros fr l' x J V. destruct (S3 _ _ _ J V) as [B1 B2]. split; [|exact B2]. destruct (leq l l'); [discriminate|exact B1].
        + cbn [label_col grid_resize g_col_of]. unfold set_label. rewrite leq_same. reflexivity.
        + intros l'. cbn [label_col grid_resize g_col_of]. unfold set_label. destruct (leq l l') eqn:E2.
          * apply Hleq in E2. subst l'. split; [auto|discriminate].
          * split; [auto|]. intros [H| ->]; [exact H|]. rewrite leq_same in E2. discriminate. }
    destruct X as (s1 & g1 & c & E1 & I1 & (R1 & R2 & R3) & C1 & L1). rewrite E1. cbn [obind].
    pose proof I1 as [Wf [Hr [Hc [Hcell [Hfind Hlab]]]]]. destruct (Hlab _ _ C1) as [CC _].
    assert (Inj : forall l' , g_col_of g1 l' = Some c -> l' = l).
    { intros l' Q. destruct (Hlab _ _ Q) as [_ A1]. destruct (Hlab _ _ C1) as [_ A2]. congruence. }
    assert (fin : forall s2 g2, st_inv leq s2 g2 -> g_col_of g2 = g_col_of g1 -> g_cols g2 = g_cols g1 -> 0 < g_rows g2 -> exists s', st_put s2 (st_frames s2 - 1) c v = Ok s' /\ st_inv leq s' (grid_put g2 (g_rows g2 - 1) c v)).
    { intros s2 g2 I2 Q1 Q2 Q3. pose proof I2 as [_ [Hr2 _]]. rewrite Hr2. destruct (st_put_inv leq ldef s2 g2 (g_rows g2 - 1) c v I2) as (s' & A1 & A2 & _); [lia|lia|]. eauto. }
    assert (fresh : forall (F : exists b, (match st_data s1 with [] => Ok true | _ => do x <- st_get s1 (st_frames s1 - 1) c; Ok (neq x sentinel) end) = Ok b /\
        b = match fs with [] => true | f :: _ => match value_in leq f l with Some _ => true | None => false end end), exists s' g', 
        (do fresh <- (match st_data s1 with [] => Ok true | _ => do x <- st_get s1 (st_frames s1 - 1) c; Ok (neq x sentinel) end);
         let s2 := if (fresh : bool) then st_add_frame s1 sentinel else s1 in st_put s2 (st_frames s2 - 1) c v) = Ok s' /\ st_inv leq s' g' /\ shows g' (record leq fs (l, v)) /\ (forall l', g_col_of g' l' = g_col_of g1 l')).
    { intros (b & -> & ->). cbn [obind].
      assert (new : exists s' g', st_put (st_add_frame s1 sentinel) (st_frames (st_add_frame s1 sentinel) - 1) c v = Ok s' /\ st_inv leq s' g' /\ shows g' ([(l, v)] :: fs) /\ forall l', g_col_of g' l' = g_col_of g1 l').
      { pose proof (st_call_spec leq ldef tdef Hleq s1 g1 (SAddFrame sentinel) I1) as H. cbn [sto_spec st_call] in H. destruct H as (s2 & [= <-] & I2).
        destruct (fin _ _ I2 eq_refl eq_refl ltac:(cbn; lia)) as (s' & A1 & A2). eexists s', _. split; [exact A1|]. split; [exact A2|]. split; [|reflexivity].
        split; [cbn; congruence|]. cbn [grid_put grid_resize g_rows g_cols g_cell g_col_of length]. split.
        - intros f l' c' F Q. replace (S (g_rows g1) - 1) with (g_rows g1) by lia. destruct (Hlab _ _ Q) as [C' _]. destruct (f =? g_rows g1) eqn:EF.
          + replace (S (length fs) - 1 - f) with 0 by lia. cbn [nth value_in]. destruct (c' =? c) eqn:EC; cbn [andb].
            * assert (c' = c) by lia. subst c'. rewrite (Inj _ Q), leq_same. reflexivity.
            * unfold in_grid. replace (f <? g_rows g1) with false by lia. cbn [andb]. destruct (leq l l') eqn:E2; [|reflexivity]. apply Hleq in E2. subst l'. assert (c' = c) by congruence. lia.
          + cbn [andb]. unfold in_grid. replace (f <? g_rows g1) with true by lia. replace (c' <? g_cols g1) with true by lia. cbn [andb]. replace (S (length fs) - 1 - f) with (S (length fs - 1 - f)) by lia. cbn [nth]. apply R2; [lia|exact Q].
        - intros fr l' x [<-|J] V; [|exact (R3 _ _ _ J V)]. cbn [value_in] in V. destruct (leq l l') eqn:E2; [|discriminate]. injection V as <-. apply Hleq in E2. subst l'. split; [congruence|exact NV]. }
      destruct fs as [|f fs]; [exact new|]. cbn [record fst]. destruct (value_in leq f l) as [x|] eqn:V; [exact new|].
      destruct (fin _ _ I1 eq_refl eq_refl ltac:(cbn [length] in R1; lia)) as (s' & A1 & A2). eexists s', _. split; [exact A1|]. split; [exact A2|]. split; [|reflexivity].
      split; [exact R1|]. cbn [grid_put g_rows g_cell g_col_of length] in *. split.
      - intros f' l' c' F Q. specialize (R2 f' l' c' F Q). destruct (f' =? g_rows g1 - 1) eqn:EF.
        + replace (S (length fs) - 1 - f') with 0 in * by lia. cbn [nth] in *. rewrite value_snoc by exact V. destruct (c' =? c) eqn:EC; cbn [andb].
          * assert (c' = c) by lia. subst c'. rewrite (Inj _ Q), leq_same. reflexivity.
          * rewrite R2. destruct (leq l l') eqn:E2; [|reflexivity]. apply Hleq in E2. subst l'. assert (c' = c) by congruence. lia.
        + cbn [andb]. rewrite R2. replace (S (length fs) - 1 - f') with (S (length fs - 1 - f')) by lia. reflexivity.
      - intros fr l' x [<-|J] W; [|exact (R3 _ _ _ (or_intror J) W)]. rewrite value_snoc in W by exact V. destruct (leq l l') eqn:E2.
        + injection W as <-. apply Hleq in E2. subst l'. split; [congruence|exact NV].
        + exact (R3 _ _ _ (or_introl eq_refl) W). }
    destruct fresh as (s' & g' & A1 & A2 & A3 & A4).
    - unfold st_wf in Wf. destruct fs as [|f fs].
      + exists true. split; [|reflexivity]. assert (st_data s1 = []) as -> by (apply length_zero_iff_nil; rewrite Wf, Hr, R1; cbn; lia). reflexivity.
      + destruct (st_data s1) as [|d0 ds] eqn:ED.
        { exfalso. cbn in Wf. rewrite Hr, R1 in Wf. cbn in Wf. lia. }
        cbn [length] in R1. rewrite Hr, R1, Hcell by lia. cbn [obind]. eexists. split; [reflexivity|]. rewrite (R2 _ l) by (cbn [length]; try lia; exact C1). cbn [length]. replace (S (length fs) - 1 - (S (length fs) - 1)) with 0 by lia. cbn [nth].
        destruct (value_in leq f l) as [x|] eqn:V; cbn [or_sentinel]; [|exact NS]. exact (proj2 (R3 _ _ _ (or_introl eq_refl) V)).
    - exists s', g'. split; [exact A1|]. split; [exact A2|]. split; [exact A3|]. intros l'. rewrite A4. apply L1.
  Qed.
  Lemma run_ok h : forall s g fs, st_inv leq s g -> shows g fs -> (forall l v, In (l, v) h -> neq v sentinel = true) -> exists s' g', dbg_run leq ldef neq sentinel s h = Ok s' /\ st_inv leq s' g' /\
    shows g' (fold_left (record leq) h fs) /\ (forall l, g_col_of g' l <> None <-> g_col_of g l <> None \/ exists v, In (l, v) h).
  Proof.
    induction h as [|[l v] h IH]; intros s g fs I S N.
    - exists s, g. refine (conj eq_refl (conj I (conj S _))). intros l. split; [auto|]. intros [H|[v []]]. exact H.
    - cbn [dbg_run fold_left]. destruct (write_ok s g fs l v I S (N l v (or_introl eq_refl))) as (s1 & g1 & E & I1 & S1 & L1). rewrite E. cbn [obind].
      destruct (IH s1 g1 _ I1 S1 (fun l' v' J => N l' v' (or_intror J))) as (s2 & g2 & E2 & I2 & S2 & L2). exists s2, g2. refine (conj E2 (conj I2 (conj S2 _))).
      intros l'. rewrite L2, L1. split.
      + intros [[H| ->]|[x J]]; [auto|right; exists v; left; reflexivity|right; exists x; right; exact J].
      + intros [H|[x [[= <- <-]|J]]]; [auto|auto|right; exists x; exact J].
  Qed.
  Lemma debug_assembled h : (forall l v, In (l, v) h -> neq v sentinel = true) -> exists s, dbg_run leq ldef neq sentinel (st_make ldef 0 0 tdef) h = Ok s /\
    st_frames s = length (recording leq h) /\
    (forall l, st_find_channel leq s l <> None <-> exists v, In (l, v) h) /\
    (forall f l c, f < st_frames s -> st_find_channel leq s l = Some c ->
       st_get s f c = Ok (match value_in leq (nth f (recording leq h) []) l with Some v => v | None => sentinel end)).
  Proof.
    intros N. destruct (run_ok h (st_make ldef 0 0 tdef) (grid_empty tdef) [] (st_inv_make leq ldef tdef)) as (s & g & E & I & (S1 & S2 & S3) & LL).
    - split; [reflexivity|]. split; [intros f l c F; cbn in F; lia|intros fr l v []].
    - exact N.
    - exists s. split; [exact E|]. pose proof I as [_ [Hr [Hc [Hcell [Hfind Hlab]]]]]. unfold recording. rewrite rev_length. split; [congruence|]. split.
      + intros l. rewrite Hfind, LL. cbn [grid_empty g_col_of]. split; [intros [H|H]; [congruence|exact H]|auto].
      + intros f l c F Q. rewrite Hfind in Q. destruct (Hlab _ _ Q) as [C _]. rewrite Hcell by lia. f_equal. rewrite (S2 f l c) by (try lia; exact Q). rewrite rev_nth by lia.
        unfold or_sentinel. replace (length (fold_left (record leq) h []) - 1 - f) with (length (fold_left (record leq) h []) - S f) by lia. reflexivity.
  Qed.
End DebugProofs.
