(** Proofs about the conversions between property trees and geometric types. *)
From Coq Require Import Ascii String List Arith Bool NArith ZArith Lia.
From Verif Require Import Base BaseProofs Str StrSpec StrModel StrBase StrProofs CastSpec CastModel CastProofs PnSpec PnModel PnProofs PnProofs2 EulSpec UtilModel UtilProofs GpnSpec GpnModel.
Import ListNotations.

Lemma child_key_iff t k c : child_key t k = Ok c <-> child_is t k c.
Proof.
  unfold child_key, get_child, child_is. split.
  - destruct (try_get_child t k) as [i|] eqn:E; cbn [obind]; [|discriminate]. apply first_child_iff in E. unfold vec_get.
    destruct (nth_error (pn_children t) i) as [[k' c']|] eqn:En; cbn [obind snd]; [|discriminate]. intros H. inversion H; subst.
    exists i. split; [exact E|]. rewrite En. destruct E as [E _]. unfold pn_keys in E. rewrite nth_error_map, En in E. cbn in E. congruence.
  - intros (i & Hf & Hn). apply first_child_iff in Hf. rewrite Hf. cbn [obind]. unfold vec_get. rewrite Hn. reflexivity.
Qed.
Lemma child_key_cases t k : (exists c, child_key t k = Ok c /\ In k (pn_keys t)) \/ (child_key t k = Throw /\ ~ In k (pn_keys t)).
Proof.
  unfold child_key, get_child. destruct (try_get_child t k) as [i|] eqn:E; cbn [obind].
  - left. apply first_child_iff in E. pose proof (first_child_in _ _ _ E) as [Hin Hb]. unfold vec_get.
    destruct (nth_error (pn_children t) i) as [kc|] eqn:En; [|apply nth_error_None in En; unfold pn_size in Hb; lia].
    exists (snd kc). split; [reflexivity|exact Hin].
  - right. split; [reflexivity|]. apply child_index_none. exact E.
Qed.
Lemma try_child_key t k : try_get_child t k = None <-> child_key t k = Throw.
Proof.
  unfold child_key, get_child. destruct (try_get_child t k) as [i|] eqn:E; cbn [obind]; [|tauto]. split; [discriminate|].
  apply first_child_iff in E. apply first_child_in in E as [_ Hb]. unfold vec_get.
  destruct (nth_error (pn_children t) i) as [kc|] eqn:En; cbn [obind]; [discriminate|apply nth_error_None in En; unfold pn_size in Hb; lia].
Qed.
Lemma try_child_some t k i : try_get_child t k = Some i ->
  exists c, child_key t k = Ok c /\ forall (B : Type) (f : str * pn -> outcome B), (do kc <- vec_get (pn_children t) i; f kc) = f (k, c).
Proof.
  intros E. destruct (child_key_cases t k) as [(c & Ec & _)|(Ec & _)]; [|apply try_child_key in Ec; congruence].
  exists c. split; [exact Ec|]. intros B f. apply child_key_iff in Ec as (j & Hf & Hn). apply first_child_iff in Hf.
  assert (j = i) as -> by congruence. unfold vec_get. rewrite Hn. reflexivity.
Qed.
Lemma child_is_in t k c : child_is t k c -> In k (pn_keys t).
Proof. intros (i & Hf & _). apply (first_child_in _ _ _ Hf). Qed.
Lemma has_key_in t k : has_key t k = true <-> In k (pn_keys t).
Proof.
  unfold has_key. destruct (try_get_child t k) as [i|] eqn:E.
  - apply first_child_iff in E. apply first_child_in in E as [E _]. tauto.
  - apply child_index_none in E. split; [discriminate|]. intros H. exfalso. apply E. exact H.
Qed.
Lemma child_is_unique t k c d : child_is t k c -> child_is t k d -> c = d.
Proof. intros H1 H2. apply child_key_iff in H1, H2. congruence. Qed.

Section Conv.
  Context {V : Type} (conv : pn -> outcome (option V)).
  Lemma get_as_ok c v : get_as conv c = Ok v <-> conv c = Ok (Some v).
  Proof. unfold get_as. destruct (conv c) as [[w|]| |]; cbn [obind]; split; intros H; inversion H; reflexivity. Qed.
  Lemma get_as_key_ok t k v : get_as_key conv t k = Ok v <-> exists c, child_is t k c /\ conv c = Ok (Some v).
  Proof.
    unfold get_as_key. split.
    - destruct (child_key t k) as [c| |] eqn:E; cbn [obind]; try discriminate. intros H. exists c. split; [apply child_key_iff; exact E|apply get_as_ok; exact H].
    - intros (c & Hc & H). apply child_key_iff in Hc. rewrite Hc. cbn [obind]. apply get_as_ok. exact H.
  Qed.
  Lemma get_as_def_ok t k d v : get_as_def conv t k d = Ok v <->
    (exists c, child_is t k c /\ conv c = Ok (Some v)) \/ (~ In k (pn_keys t) /\ v = d).
  Proof.
    unfold get_as_def. destruct (try_get_child t k) as [i|] eqn:E.
    - destruct (try_child_some _ _ _ E) as (c & Ec & Hf). rewrite Hf. cbn [snd]. apply child_key_iff in Ec. rewrite get_as_ok. split.
      + intros H. left. exists c. auto.
      + intros [(c' & Hc' & H)|[Hn _]]; [rewrite (child_is_unique _ _ _ _ Ec Hc'); exact H|]. exfalso. apply Hn. apply (child_is_in _ _ _ Ec).
    - apply child_index_none in E. split.
      + intros H. inversion H. right. auto.
      + intros [(c & Hc & _)|[_ ->]]; [|reflexivity]. exfalso. apply E. apply (child_is_in _ _ _ Hc).
  Qed.
  Lemma get_as_idx_ok t i v : get_as_idx conv t i = Ok v <-> exists kc, nth_error (pn_children t) i = Some kc /\ conv (snd kc) = Ok (Some v).
  Proof.
    unfold get_as_idx, child_idx, get_child_at, pn_size. split.
    - destruct (Nat.ltb_spec i (length (pn_children t))) as [Hi|]; cbn [obind]; [|discriminate]. unfold vec_get.
      destruct (nth_error (pn_children t) i) as [kc|] eqn:E; cbn [obind]; [|discriminate]. intros H. exists kc. split; [reflexivity|apply get_as_ok; exact H].
    - intros (kc & E & H). assert (Hi : (i < length (pn_children t))%nat) by (apply nth_error_Some; congruence).
      apply Nat.ltb_lt in Hi. rewrite Hi. cbn [obind]. unfold vec_get. rewrite E. cbn [obind]. apply get_as_ok. exact H.
  Qed.
  (** no conversion of a child is undefined unless [conv] is *)
  Lemma get_as_key_total t k : (forall c, conv c <> UB) -> get_as_key conv t k <> UB.
  Proof.
    intros H. unfold get_as_key. destruct (child_key_cases t k) as [(c & -> & _)|(-> & _)]; cbn [obind]; [|discriminate].
    unfold get_as. specialize (H c). destruct (conv c) as [[v|]| |]; cbn [obind]; congruence.
  Qed.
  Lemma get_as_idx_total t i : (forall c, conv c <> UB) -> get_as_idx conv t i <> UB.
  Proof.
    intros H. unfold get_as_idx, child_idx, get_child_at, pn_size. destruct (Nat.ltb_spec i (length (pn_children t))) as [Hi|]; cbn [obind]; [|discriminate].
    unfold vec_get. apply nth_error_Some in Hi. destruct (nth_error (pn_children t) i) as [kc|]; [|congruence]. cbn [obind].
    unfold get_as. specialize (H (snd kc)). destruct (conv (snd kc)) as [[v|]| |]; cbn [obind]; congruence.
  Qed.

  Lemma fold_add (to_pn : V -> pn) l : forall t, fold_left (fun t x => add_child t [] (to_pn x)) l t =
    PN (pn_value t) (pn_children t ++ map (fun x => ([], to_pn x)) l) (pn_flag t).
  Proof.
    induction l as [|x l IH]; intros t; cbn [fold_left map].
    - rewrite app_nil_r. destruct t; reflexivity.
    - rewrite IH. unfold add_child. cbn [pn_value pn_children pn_flag]. rewrite <- app_assoc. reflexivity.
  Qed.
  Lemma list_loop_ok cs l : list_from_loop conv cs = Ok (Some l) <-> Forall2 (fun kc v => conv (snd kc) = Ok (Some v)) cs l.
  Proof.
    revert l. induction cs as [|kc cs IH]; intros l; cbn [list_from_loop].
    - split; intros H; [inversion H; constructor|inversion H; reflexivity].
    - split.
      + destruct (conv (snd kc)) as [[v|]| |] eqn:E; cbn [obind]; try discriminate.
        destruct (list_from_loop conv cs) as [[l'|]| |] eqn:El; cbn [obind]; try discriminate. intros H. inversion H; subst. constructor; [exact E|]. apply IH. reflexivity.
      + intros H. inversion H as [|? v ? l' Hv Hl]; subst. rewrite Hv. cbn [obind]. rewrite (proj2 (IH l') Hl). reflexivity.
  Qed.
  Lemma list_round_trip (to_pn : V -> pn) l : Forall (fun x => conv (to_pn x) = Ok (Some x)) l -> list_from_pn conv (list_to_pn to_pn l) = Ok (Some l).
  Proof.
    intros H. unfold list_from_pn, list_to_pn. rewrite fold_add. cbn [pn_children pn_empty app]. apply list_loop_ok.
    induction H as [|x l Hx Hl IH]; cbn [map]; constructor; auto.
  Qed.
  Lemma array_loop_ok t (arr0 : list V) n : forall i arr, length arr = length arr0 -> (i + n <= length arr)%nat -> (i + n <= pn_size t)%nat ->
    forall r, array_loop conv n i t arr = Ok (Some r) <->
      length r = length arr /\ (forall j, (i <= j < i + n)%nat -> exists kc v, nth_error (pn_children t) j = Some kc /\ conv (snd kc) = Ok (Some v) /\ nth_error r j = Some v) /\
      (forall j, ~ (i <= j < i + n)%nat -> nth_error r j = nth_error arr j).
  Proof.
    induction n as [|n IH]; intros i arr Hl H1 H2 r; cbn [array_loop].
    - split.
      + intros H. inversion H; subst. split; [reflexivity|]. split; [intros j Hj; lia|reflexivity].
      + intros (Hr & _ & Ho). do 2 f_equal. symmetry. apply list_eq_nth'. intros j. apply Ho. lia.
    - unfold vec_get. unfold pn_size in H2. destruct (nth_error (pn_children t) i) as [kc|] eqn:E; [|apply nth_error_None in E; lia]. cbn [obind].
      destruct (conv (snd kc)) as [[v|]| |] eqn:Ec; cbn [obind].
      2: { split; [discriminate|]. intros (_ & Hv & _). destruct (Hv i ltac:(lia)) as (kc' & v & E' & Ec' & _). congruence. }
      2: { split; [discriminate|]. intros (_ & Hv & _). destruct (Hv i ltac:(lia)) as (kc' & v & E' & Ec' & _). congruence. }
      2: { split; [discriminate|]. intros (_ & Hv & _). destruct (Hv i ltac:(lia)) as (kc' & v & E' & Ec' & _). congruence. }
      unfold vec_set. destruct (Nat.ltb_spec i (length arr)) as [Hi|]; [|lia]. cbn [obind].
      rewrite (IH (S i) (list_set arr i v)) by (rewrite ?list_set_length; unfold pn_size; lia). rewrite list_set_length. split.
      + intros (Hr & Hv & Ho). split; [exact Hr|]. split.
        * intros j Hj. destruct (Nat.eq_dec j i) as [->|]; [|apply Hv; lia]. exists kc, v. split; [exact E|]. split; [exact Ec|].
          rewrite Ho by lia. apply nth_error_list_set_eq. exact Hi.
        * intros j Hj. rewrite Ho by lia. apply nth_error_list_set_neq. lia.
      + intros (Hr & Hv & Ho). split; [exact Hr|]. split; [intros j Hj; apply Hv; lia|]. intros j Hj.
        destruct (Nat.eq_dec j i) as [->|].
        * destruct (Hv i ltac:(lia)) as (kc' & v' & E' & Ec' & ->). rewrite nth_error_list_set_eq by exact Hi. congruence.
        * rewrite nth_error_list_set_neq by lia. apply Ho. lia.
  Qed.
End Conv.

Section Numbers.
  Context {T : Type} (to_str : T -> str) (from_str : str -> option T).
  Notation num := (num_from_pn from_str).
  Lemma num_key_ok t k x : get_as_key num t k = Ok x <-> num_at from_str t k x.
  Proof.
    rewrite get_as_key_ok. unfold num_at, num_from_pn. split; intros (c & H1 & H2); exists c; (split; [exact H1|]); [inversion H2; reflexivity|rewrite H2; reflexivity].
  Qed.
  Lemma num_idx_ok t i x : get_as_idx num t i = Ok x <-> exists kc, nth_error (pn_children t) i = Some kc /\ from_str (pn_value (snd kc)) = Some x.
  Proof.
    rewrite get_as_idx_ok. unfold num_from_pn. split; intros (c & H1 & H2); exists c; (split; [exact H1|]); [inversion H2; reflexivity|rewrite H2; reflexivity].
  Qed.
  Lemma num_total c : num c <> UB.
  Proof. discriminate. Qed.
  Lemma is_array_iff t : is_array t = true <-> map fst (pn_children t) = repeat [] (pn_size t).
  Proof.
    unfold is_array, pn_size. induction (pn_children t) as [|[k c] cs IH]; cbn [forallb map length repeat fst]; [tauto|].
    rewrite andb_true_iff, IH. destruct k; split.
    - intros [_ ->]. reflexivity.
    - intros H. inversion H as [H1]. rewrite H1. auto.
    - intros [H _]. discriminate.
    - intros H. discriminate.
  Qed.

  Lemma three_ok t v : pn_size t = 3%nat -> three_from_pn from_str t = Ok (Some v) <-> describes_list from_str t v \/ describes_group from_str t v.
  Proof.
    intros Hs. unfold three_from_pn. destruct (is_array t) eqn:Ea.
    - apply is_array_iff in Ea. rewrite Hs in Ea. split.
      + destruct (get_as_idx num t 0) as [x| |] eqn:E0; cbn [obind]; try discriminate.
        destruct (get_as_idx num t 1) as [y| |] eqn:E1; cbn [obind]; try discriminate.
        destruct (get_as_idx num t 2) as [z| |] eqn:E2; cbn [obind]; try discriminate. intros H. inversion H; subst. left.
        apply num_idx_ok in E0 as (a & E0 & Ex). apply num_idx_ok in E1 as (b & E1 & Ey). apply num_idx_ok in E2 as (c & E2 & Ez).
        exists (snd a), (snd b), (snd c). split; [exact Ea|]. split; [|auto]. unfold pn_size in Hs.
        destruct (pn_children t) as [|a' [|b' [|c' [|]]]]; try discriminate. cbn in E0, E1, E2. cbn. congruence.
      + intros [(a & b & c & _ & Hc & Hx & Hy & Hz)|(_ & (c & Hc & _) & _)].
        * destruct (pn_children t) as [|a' [|b' [|c' [|]]]] eqn:Ec; try discriminate. cbn in Hc. inversion Hc; subst.
          rewrite (proj2 (num_idx_ok t 0 (t_x v))) by (exists a'; rewrite Ec; auto). cbn [obind].
          rewrite (proj2 (num_idx_ok t 1 (t_y v))) by (exists b'; rewrite Ec; auto). cbn [obind].
          rewrite (proj2 (num_idx_ok t 2 (t_z v))) by (exists c'; rewrite Ec; auto). cbn [obind]. destruct v; reflexivity.
        * exfalso. apply child_is_in in Hc. unfold pn_keys in Hc. rewrite Ea in Hc. cbn in Hc. intuition discriminate.
    - split.
      + destruct (get_as_key num t (lit "x")) as [x| |] eqn:E0; cbn [obind]; try discriminate.
        destruct (get_as_key num t (lit "y")) as [y| |] eqn:E1; cbn [obind]; try discriminate.
        destruct (get_as_key num t (lit "z")) as [z| |] eqn:E2; cbn [obind]; try discriminate. intros H. inversion H; subst. right.
        apply num_key_ok in E0, E1, E2. split; [exact Hs|auto].
      + intros [(a & b & c & Hk & _)|(_ & Hx & Hy & Hz)].
        * exfalso. assert (is_array t = true); [|congruence]. apply is_array_iff. rewrite Hs. exact Hk.
        * apply num_key_ok in Hx, Hy, Hz. rewrite Hx. cbn [obind]. rewrite Hy. cbn [obind]. rewrite Hz. cbn [obind]. destruct v; reflexivity.
  Qed.
  Lemma three_total t : three_from_pn from_str t <> UB /\ three_from_pn from_str t <> Ok None.
  Proof.
    unfold three_from_pn.
    assert (HI : forall i, get_as_idx num t i <> UB) by (intros i; apply get_as_idx_total, num_total).
    assert (HK : forall k, get_as_key num t k <> UB) by (intros i; apply get_as_key_total, num_total).
    destruct (is_array t).
    - pose proof (HI 0%nat). pose proof (HI 1%nat). pose proof (HI 2%nat).
      destruct (get_as_idx num t 0); cbn [obind]; [|split; congruence|split; congruence].
      destruct (get_as_idx num t 1); cbn [obind]; [|split; congruence|split; congruence].
      destruct (get_as_idx num t 2); cbn [obind]; split; congruence.
    - pose proof (HK (lit "x")). pose proof (HK (lit "y")). pose proof (HK (lit "z")).
      destruct (get_as_key num t (lit "x")); cbn [obind]; [|split; congruence|split; congruence].
      destruct (get_as_key num t (lit "y")); cbn [obind]; [|split; congruence|split; congruence].
      destruct (get_as_key num t (lit "z")); cbn [obind]; split; congruence.
  Qed.
  Lemma blanks_no_nul : ~ In nul (lit " " ++ [tab]).
  Proof. cbn. intros [H|[H|[]]]; discriminate. Qed.
  Lemma no_value_pieces v a l : pieces (one_of (lit " " ++ [tab])) v (a :: l) -> v <> [].
  Proof. intros H E. subst. apply (split_str_iff [] _ (a :: l) blanks_no_nul) in H. cbn in H. discriminate. Qed.
  Lemma has_value_iff t : has_value t = true <-> pn_value t <> [].
  Proof. unfold has_value. destruct (pn_value t); split; congruence. Qed.

  Lemma vec_from_ok t v : vec_from_pn from_str t = Ok (Some v) <-> describes_vec from_str t v.
  Proof.
    unfold vec_from_pn, describes_vec. destruct (Nat.eqb_spec (pn_size t) 3) as [Hs|Hs].
    - rewrite (three_ok _ _ Hs). split; [tauto|]. intros [H|[H|(H & _)]]; [auto|auto|]. exfalso. unfold pn_size in Hs. rewrite H in Hs. discriminate.
    - assert (HN : ~ (describes_list from_str t v \/ describes_group from_str t v)).
      { unfold pn_size in Hs. intros [(a & b & c & H & _)|(H & _)]; [|congruence]. apply (f_equal (@length _)) in H. rewrite map_length in H. cbn in H. congruence. }
      destruct (Nat.eqb_spec (pn_size t) 0) as [H0|H0]; cbn [andb].
      + unfold pn_size in H0. apply length_zero_iff_nil in H0. destruct (has_value t) eqn:Ev.
        * destruct (split_str_ok (pn_value t) _ blanks_no_nul) as (ps & Ep & Hp). rewrite Ep. cbn [obind]. split.
          -- destruct ps as [|a [|b [|c [|]]]]; try discriminate.
             destruct (from_str a) as [x|] eqn:Ea; [|discriminate]. destruct (from_str b) as [y|] eqn:Eb; [|discriminate].
             destruct (from_str c) as [z|] eqn:Ec; [|discriminate]. intros H. inversion H; subst. right. right. split; [exact H0|]. exists a, b, c. auto.
          -- intros [H|[H|(_ & a & b & c & Hq & Ea & Eb & Ec)]]; [tauto|tauto|]. apply (split_str_iff _ _ _ blanks_no_nul) in Hq.
             rewrite Ep in Hq. inversion Hq; subst. rewrite Ea, Eb, Ec. destruct v; reflexivity.
        * split; [discriminate|]. intros [H|[H|(_ & a & b & c & Hq & _)]]; [tauto|tauto|]. apply no_value_pieces in Hq. apply has_value_iff in Hq. congruence.
      + split; [discriminate|]. intros [H|[H|(H & _)]]; [tauto|tauto|]. unfold pn_size in H0. rewrite H in H0. cbn in H0. congruence.
  Qed.
  Lemma vec_from_total t : vec_from_pn from_str t <> UB /\ (vec_from_pn from_str t = Throw -> pn_size t = 3%nat) /\ (vec_from_pn from_str t = Ok None -> pn_size t <> 3%nat).
  Proof.
    unfold vec_from_pn. destruct (Nat.eqb_spec (pn_size t) 3) as [Hs|Hs].
    - pose proof (three_total t) as [H1 H2]. split; [exact H1|]. split; [auto|congruence].
    - destruct ((pn_size t =? 0)%nat && has_value t); [|repeat split; congruence].
      destruct (split_str_ok (pn_value t) _ blanks_no_nul) as (ps & -> & _). cbn [obind].
      destruct ps as [|a [|b [|c [|]]]]; repeat split; try congruence.
  Qed.
  Lemma scale_from_ok t v : scale_from_pn from_str t = Ok (Some v) <->
    describes_list from_str t v \/ describes_group from_str t v \/
    (pn_children t = [] /\ pn_value t <> [] /\ exists s, from_str (pn_value t) = Some s /\ v = T3 s s s).
  Proof.
    unfold scale_from_pn. destruct (Nat.eqb_spec (pn_size t) 3) as [Hs|Hs].
    - rewrite (three_ok _ _ Hs). split; [tauto|]. intros [H|[H|(H & _)]]; [auto|auto|]. exfalso. unfold pn_size in Hs. rewrite H in Hs. discriminate.
    - assert (HN : ~ (describes_list from_str t v \/ describes_group from_str t v)).
      { unfold pn_size in Hs. intros [(a & b & c & H & _)|(H & _)]; [|congruence]. apply (f_equal (@length _)) in H. rewrite map_length in H. cbn in H. congruence. }
      destruct (Nat.eqb_spec (pn_size t) 0) as [H0|H0]; cbn [andb].
      + unfold pn_size in H0. apply length_zero_iff_nil in H0. destruct (has_value t) eqn:Ev.
        * cbn [num_from_pn obind]. unfold num_from_pn. cbn [obind]. apply has_value_iff in Ev. split.
          -- destruct (from_str (pn_value t)) as [s|] eqn:E; [|discriminate]. intros H. inversion H; subst. right. right. split; [exact H0|]. split; [exact Ev|]. exists s. auto.
          -- intros [H|[H|(_ & _ & s & -> & ->)]]; [tauto|tauto|reflexivity].
        * split; [discriminate|]. intros [H|[H|(_ & H & _)]]; [tauto|tauto|]. apply has_value_iff in H. congruence.
      + split; [discriminate|]. intros [H|[H|(H & _)]]; [tauto|tauto|]. unfold pn_size in H0. rewrite H in H0. cbn in H0. congruence.
  Qed.

  Lemma child_is_hd k c r a v : child_is (PN v ((k, c) :: r) a) k c.
  Proof. apply child_key_iff. unfold child_key, get_child, try_get_child. cbn [pn_children child_index fst]. rewrite str_eqb_refl. reflexivity. Qed.
  Lemma child_is_tl k c k' c' r a v : k' <> k -> child_is (PN v r a) k c -> child_is (PN v ((k', c') :: r) a) k c.
  Proof.
    intros Hn H. apply child_key_iff. apply child_key_iff in H. revert H. unfold child_key, get_child, try_get_child. cbn [pn_children child_index fst].
    destruct (str_eqb k' k) eqn:E; [apply str_eqb_eq in E; congruence|]. destruct (child_index r k) as [i|]; cbn [option_map obind]; [|discriminate]. intros H; exact H.
  Qed.
  Lemma vec_to_pn_eq v : vec_to_pn to_str v = PN [] [(lit "x", num_to_pn to_str (t_x v)); (lit "y", num_to_pn to_str (t_y v)); (lit "z", num_to_pn to_str (t_z v))] false.
  Proof. reflexivity. Qed.
  Lemma quat_to_pn_eq q : quat_to_pn to_str q = PN [] [(lit "w", num_to_pn to_str (q_w q)); (lit "x", num_to_pn to_str (q_x q)); (lit "y", num_to_pn to_str (q_y q)); (lit "z", num_to_pn to_str (q_z q))] false.
  Proof. reflexivity. Qed.
  Lemma num_at_child t k x : child_is t k (num_to_pn to_str x) -> from_str (to_str x) = Some x -> num_at from_str t k x.
  Proof. intros H E. exists (num_to_pn to_str x). auto. Qed.

  Lemma vec_round_trip v : (forall x, In x [t_x v; t_y v; t_z v] -> from_str (to_str x) = Some x) -> vec_from_pn from_str (vec_to_pn to_str v) = Ok (Some v).
  Proof.
    intros H. apply vec_from_ok. right. left. rewrite vec_to_pn_eq. split; [reflexivity|].
    split; [|split]; (eapply num_at_child; [|apply H; cbn; tauto]).
    - apply child_is_hd.
    - apply child_is_tl; [discriminate|]. apply child_is_hd.
    - do 2 (apply child_is_tl; [discriminate|]). apply child_is_hd.
  Qed.
  Lemma vec_text_round_trip v :
    (forall x, In x [t_x v; t_y v; t_z v] -> from_str (to_str x) = Some x /\ to_str x <> [] /\ Forall (fun c => ~ one_of (lit " " ++ [tab]) c) (to_str x)) ->
    vec_from_pn from_str (pn_of_value (vec_to_str to_str v)) = Ok (Some v).
  Proof.
    intros H. apply vec_from_ok. right. right. split; [reflexivity|].
    destruct (H (t_x v) ltac:(cbn; tauto)) as (Hx & Hx1 & Hx2). destruct (H (t_y v) ltac:(cbn; tauto)) as (Hy & Hy1 & Hy2). destruct (H (t_z v) ltac:(cbn; tauto)) as (Hz & Hz1 & Hz2).
    exists (to_str (t_x v)), (to_str (t_y v)), (to_str (t_z v)). split; [|auto]. apply (split_str_iff _ _ _ blanks_no_nul).
    change (pn_value (pn_of_value (vec_to_str to_str v))) with (join (lit " ") [to_str (t_x v); to_str (t_y v); to_str (t_z v)]).
    apply split_join; [exact blanks_no_nul|discriminate| |].
    - constructor; [|constructor]. left. reflexivity.
    - repeat constructor; assumption.
  Qed.

  (** *** quaternions *)
  Section Quat.
    Context (order_from : str -> option euler_order) (from_euler : triple T -> euler_order -> quad T).
    Notation qfrom := (quat_from_pn from_str order_from from_euler).
    Lemma num_at_in t k x : num_at from_str t k x -> In k (pn_keys t).
    Proof. intros (c & H & _). apply (child_is_in _ _ _ H). Qed.
    Lemma vec_keys_no_order t v : describes_vec from_str t v -> ~ In (lit "order") (pn_keys t).
    Proof.
      intros [(a & b & c & Hk & _)|[(Hl & Hx & Hy & Hz)|(Hc & _)]] Ho.
      - unfold pn_keys in Ho. rewrite Hk in Ho. cbn in Ho. intuition discriminate.
      - apply num_at_in in Hx, Hy, Hz.
        assert (Hincl : (length [lit "x"; lit "y"; lit "z"; lit "order"] <= length (pn_keys t))%nat).
        { apply NoDup_incl_length; [|intros k [<-|[<-|[<-|[<-|[]]]]]; assumption].
          repeat constructor; cbn; intuition discriminate. }
        unfold pn_keys in Hincl. rewrite map_length, Hl in Hincl. cbn in Hincl. lia.
      - unfold pn_keys in Ho. rewrite Hc in Ho. exact Ho.
    Qed.
    Lemma vec_size t v : describes_vec from_str t v -> pn_size t = 3%nat \/ pn_size t = 0%nat.
    Proof.
      intros [(a & b & c & Hk & _)|[(Hl & _)|(Hc & _)]]; unfold pn_size.
      - left. rewrite <- (map_length fst), Hk. reflexivity.
      - auto.
      - rewrite Hc. auto.
    Qed.
    Lemma quat_from_ok t q : qfrom t = Ok (Some q) <-> describes_four from_str t q \/ exists v, describes_vec from_str t v /\ q = from_euler v XYZ.
    Proof.
      unfold quat_from_pn. destruct ((pn_size t =? 4)%nat && has_key t (lit "w")) eqn:Eb.
      - apply andb_true_iff in Eb as [E4 Ew]. apply Nat.eqb_eq in E4. split.
        + destruct (get_as_key num t (lit "w")) as [w| |] eqn:E0; cbn [obind]; try discriminate.
          destruct (get_as_key num t (lit "x")) as [x| |] eqn:E1; cbn [obind]; try discriminate.
          destruct (get_as_key num t (lit "y")) as [y| |] eqn:E2; cbn [obind]; try discriminate.
          destruct (get_as_key num t (lit "z")) as [z| |] eqn:E3; cbn [obind]; try discriminate. intros H. inversion H; subst.
          apply num_key_ok in E0, E1, E2, E3. left. split; [exact E4|]. auto.
        + intros [(_ & H0 & H1 & H2 & H3)|(v & Hv & _)]; [|apply vec_size in Hv; lia]. apply num_key_ok in H0, H1, H2, H3.
          rewrite H0. cbn [obind]. rewrite H1. cbn [obind]. rewrite H2. cbn [obind]. rewrite H3. cbn [obind]. destruct q; reflexivity.
      - assert (HN : ~ describes_four from_str t q).
        { intros (Hl & Hw & _). apply num_at_in in Hw. apply has_key_in in Hw. rewrite Hw in Eb. unfold pn_size in Eb. rewrite Hl in Eb. discriminate. }
        split.
        + destruct (vec_from_pn from_str t) as [[v|]| |] eqn:Ev; cbn [obind]; try discriminate. apply vec_from_ok in Ev.
          destruct (get_as_def _ t (lit "order") XYZ) as [o| |] eqn:Eo; cbn [obind]; try discriminate. intros H. inversion H; subst.
          apply get_as_def_ok in Eo as [(c & Hc & _)|[_ ->]]; [|right; exists v; auto].
          exfalso. apply (vec_keys_no_order _ _ Ev). apply (child_is_in _ _ _ Hc).
        + intros [H|(v & Hv & ->)]; [tauto|]. pose proof (vec_keys_no_order _ _ Hv) as Ho. apply vec_from_ok in Hv. rewrite Hv. cbn [obind].
          rewrite (proj2 (get_as_def_ok _ t (lit "order") XYZ XYZ)) by auto. reflexivity.
    Qed.
    Lemma quat_no_order t : In (lit "order") (pn_keys t) -> forall q, qfrom t <> Ok (Some q).
    Proof.
      intros Ho q H. apply quat_from_ok in H as [(Hl & Hw & Hx & Hy & Hz)|(v & Hv & _)]; [|exact (vec_keys_no_order _ _ Hv Ho)].
      apply num_at_in in Hw, Hx, Hy, Hz.
      assert (Hincl : (length [lit "w"; lit "x"; lit "y"; lit "z"; lit "order"] <= length (pn_keys t))%nat).
      { apply NoDup_incl_length; [|intros k [<-|[<-|[<-|[<-|[<-|[]]]]]]; assumption].
        repeat constructor; cbn; intuition discriminate. }
      unfold pn_keys in Hincl. rewrite map_length, Hl in Hincl. cbn in Hincl. lia.
    Qed.
    Lemma quat_round_trip q : (forall x, In x [q_w q; q_x q; q_y q; q_z q] -> from_str (to_str x) = Some x) -> qfrom (quat_to_pn to_str q) = Ok (Some q).
    Proof.
      intros H. apply quat_from_ok. left. rewrite quat_to_pn_eq. split; [reflexivity|].
      split; [|split; [|split]]; (eapply num_at_child; [|apply H; cbn; tauto]).
      - apply child_is_hd.
      - apply child_is_tl; [discriminate|]. apply child_is_hd.
      - do 2 (apply child_is_tl; [discriminate|]). apply child_is_hd.
      - do 3 (apply child_is_tl; [discriminate|]). apply child_is_hd.
    Qed.

    Lemma transform_lost p q : transform_to_pn to_str p q = Ok (quat_to_pn to_str q) /\
      transform_from_pn from_str order_from from_euler (quat_to_pn to_str q) = Throw.
    Proof. split; reflexivity. Qed.
    Lemma transform_from_ok t p q : transform_from_pn from_str order_from from_euler t = Ok (Some (p, q)) <->
      exists cp cq, child_is t (lit "p") cp /\ describes_vec from_str cp p /\ child_is t (lit "q") cq /\
        (describes_four from_str cq q \/ exists v, describes_vec from_str cq v /\ q = from_euler v XYZ).
    Proof.
      unfold transform_from_pn. split.
      - destruct (child_key t (lit "p")) as [cp| |] eqn:Ep; cbn [obind]; try discriminate.
        destruct (vec_from_pn from_str cp) as [[p'|]| |] eqn:Ev; cbn [obind]; try discriminate.
        destruct (child_key t (lit "q")) as [cq| |] eqn:Eq; cbn [obind]; try discriminate.
        destruct (qfrom cq) as [[q'|]| |] eqn:Eqq; cbn [obind]; try discriminate. intros H. inversion H; subst.
        apply child_key_iff in Ep, Eq. apply vec_from_ok in Ev. apply quat_from_ok in Eqq. exists cp, cq. auto.
      - intros (cp & cq & Hp & Hv & Hq & H). apply child_key_iff in Hp, Hq. apply vec_from_ok in Hv. apply quat_from_ok in H.
        rewrite Hp. cbn [obind]. rewrite Hv. cbn [obind]. rewrite Hq. cbn [obind]. rewrite H. reflexivity.
    Qed.
  End Quat.

  (** *** bounds *)
  Lemma bounds_text a b : (forall r, from_str (to_str a ++ lit ".." ++ r) = Some a) -> from_str (to_str b) = Some b ->
    first_occurrence (to_str a ++ lit "..") (lit "..") 0 (length (to_str a)) ->
    bounds_from_str from_str (bounds_to_str to_str (a, b)) = Ok (Some (a, b)).
  Proof.
    intros Ha Hb (_ & _ & Hf). unfold bounds_from_str, bounds_to_str. cbn [fst snd]. rewrite Ha.
    rewrite (proj2 (find_some (to_str a ++ lit ".." ++ to_str b) (lit "..") 0 (length (to_str a)))).
    - unfold substr. rewrite !app_length. replace (_ <=? _)%nat with true by (symmetry; apply Nat.leb_le; cbn; lia). cbn [obind].
      replace (skipn (length (to_str a) + 2) (to_str a ++ lit ".." ++ to_str b)) with (to_str b); [rewrite Hb; reflexivity|].
      rewrite app_assoc. replace (length (to_str a) + 2)%nat with (length (to_str a ++ lit "..")) by (rewrite app_length; reflexivity). symmetry. apply skipn_length_app.
    - split; [lia|]. split; [exists (to_str a), (to_str b); auto|]. intros j Hj (u & w & E & Hu). apply (Hf j Hj). subst j.
      rewrite app_assoc in E.
      assert (E2 : firstn (length u + 2) ((to_str a ++ lit "..") ++ to_str b) = u ++ lit "..").
      { rewrite E. rewrite app_assoc. rewrite firstn_app. rewrite firstn_all2 by (rewrite app_length; cbn; lia).
        replace (length u + 2 - length (u ++ lit ".."))%nat with 0%nat by (rewrite app_length; cbn; lia). cbn [firstn]. apply app_nil_r. }
      rewrite firstn_app in E2. rewrite app_length in E2. change (length (lit "..")) with 2%nat in E2.
      replace (length u + 2 - (length (to_str a) + 2))%nat with 0%nat in E2 by lia. cbn [firstn] in E2. rewrite app_nil_r in E2.
      exists u, (skipn (length u + 2) (to_str a ++ lit "..")). split; [|reflexivity].
      rewrite app_assoc. rewrite <- E2. symmetry. apply firstn_skipn.
  Qed.
  Lemma num_any_ok t k1 k2 d x : get_as_any_def num t [k1; k2] d = Ok x <-> num_under from_str t k1 k2 d x.
  Proof.
    unfold get_as_any_def, num_under. cbn [try_get_any_child]. destruct (try_get_child t k1) as [i|] eqn:E1.
    - destruct (try_child_some _ _ _ E1) as (c & Ec & Hf). rewrite Hf. cbn [snd]. rewrite get_as_ok. apply child_key_iff in Ec. pose proof (child_is_in _ _ _ Ec) as Hin. split.
      + intros H. left. exists c. split; [exact Ec|]. unfold num_from_pn in H. congruence.
      + intros [(c' & Hc' & H)|[[Hn _]|[Hn _]]]; [|tauto|tauto]. unfold num_from_pn. rewrite (child_is_unique _ _ _ _ Ec Hc'), H. reflexivity.
    - apply child_index_none in E1. fold (pn_keys t) in E1. destruct (try_get_child t k2) as [i|] eqn:E2.
      + destruct (try_child_some _ _ _ E2) as (c & Ec & Hf). rewrite Hf. cbn [snd]. rewrite get_as_ok. apply child_key_iff in Ec. pose proof (child_is_in _ _ _ Ec) as Hin. split.
        * intros H. right. left. split; [exact E1|]. exists c. split; [exact Ec|]. unfold num_from_pn in H. congruence.
        * intros [(c' & Hc' & H)|[[_ (c' & Hc' & H)]|(_ & Hn & _)]]; [apply child_is_in in Hc'; tauto| |tauto].
          unfold num_from_pn. rewrite (child_is_unique _ _ _ _ Ec Hc'), H. reflexivity.
      + apply child_index_none in E2. fold (pn_keys t) in E2. split.
        * intros H. inversion H; subst. auto.
        * intros [(c' & Hc' & H)|[[_ (c' & Hc' & H)]|(_ & _ & ->)]]; [apply child_is_in in Hc'; tauto|apply child_is_in in Hc'; tauto|reflexivity].
  Qed.
  Lemma bounds_group_ok t l u : pn_value t = [] -> bounds_from_pn from_str t = Ok (Some (l, u)) <->
    exists a b d0 d1, nth_error (map snd (pn_children t)) 0 = Some a /\ nth_error (map snd (pn_children t)) 1 = Some b /\
      from_str (pn_value a) = Some d0 /\ from_str (pn_value b) = Some d1 /\
      num_under from_str t (lit "min") (lit "lower") d0 l /\ num_under from_str t (lit "max") (lit "upper") d1 u.
  Proof.
    intros Hv. unfold bounds_from_pn, has_value. rewrite Hv. destruct (Nat.leb_spec 2 (pn_size t)) as [Hs|Hs].
    - split.
      + destruct (get_as_idx num t 0) as [d0| |] eqn:E0; cbn [obind]; try discriminate.
        destruct (get_as_any_def num t [lit "min"; lit "lower"] d0) as [l'| |] eqn:El; cbn [obind]; try discriminate.
        destruct (get_as_idx num t 1) as [d1| |] eqn:E1; cbn [obind]; try discriminate.
        destruct (get_as_any_def num t [lit "max"; lit "upper"] d1) as [u'| |] eqn:Eu; cbn [obind]; try discriminate. intros H. inversion H; subst.
        apply num_idx_ok in E0 as (a & Ea & Ha). apply num_idx_ok in E1 as (b & Eb & Hb). apply num_any_ok in El, Eu.
        exists (snd a), (snd b), d0, d1. rewrite !nth_error_map, Ea, Eb. cbn [option_map]. repeat (split; [assumption || reflexivity|]). exact Eu.
      + intros (a & b & d0 & d1 & Ea & Eb & Ha & Hb & Hl & Hu). rewrite nth_error_map in Ea, Eb.
        destruct (nth_error (pn_children t) 0) as [ka|] eqn:Ka; [|discriminate]. destruct (nth_error (pn_children t) 1) as [kb|] eqn:Kb; [|discriminate].
        cbn in Ea, Eb. inversion Ea; inversion Eb; subst.
        rewrite (proj2 (num_idx_ok t 0 d0)) by eauto. cbn [obind]. apply num_any_ok in Hl, Hu. rewrite Hl. cbn [obind].
        rewrite (proj2 (num_idx_ok t 1 d1)) by eauto. cbn [obind]. rewrite Hu. reflexivity.
    - split; [discriminate|]. intros (a & b & d0 & d1 & _ & Eb & _). assert (1 < length (map snd (pn_children t)))%nat by (apply nth_error_Some; congruence).
      rewrite map_length in *. unfold pn_size in Hs. lia.
  Qed.

  (** *** shapes *)
  Section Shapes.
    Context (half twice : T -> T) (sub : T -> T -> T) (unit_x : triple T).
    Notation sfrom := (shape_from_pn from_str half twice sub unit_x).
    Lemma type_key t c : child_is t (lit "type") c -> get_as_key (fun c => Ok (Some (pn_value c))) t (lit "type") = Ok (pn_value c).
    Proof. intros H. apply get_as_key_ok. exists c. auto. Qed.
    Lemma shape_read t c s : child_is t (lit "type") c -> pn_value c = shape_name s ->
      sfrom t = Ok (Some s) <-> dimensions from_str half twice sub unit_x t s.
    Proof.
      intros Hc Hn. unfold shape_from_pn. rewrite (type_key _ _ Hc). cbn [obind]. rewrite Hn.
      destruct s as [r|h|r h|r h|r h|n]; cbn [shape_name dimensions].
      - change (N.eqb (hash_string (lit "sphere")) (hash_literal (lit "sphere"))) with true. cbv iota. unfold sphere_from_pn.
        rewrite <- num_key_ok. destruct (get_as_key num t (lit "radius")) as [x| |]; cbn [obind]; split; intros H; inversion H; reflexivity.
      - change (N.eqb (hash_string (lit "box")) (hash_literal (lit "sphere"))) with false.
        change (N.eqb (hash_string (lit "box")) (hash_literal (lit "box"))) with true. cbv iota. unfold box_from_pn, map3. split.
        + destruct (get_as_key (vec_from_pn from_str) t (lit "dim")) as [d| |] eqn:E; cbn [obind]; try discriminate. intros H. inversion H; subst.
          apply get_as_key_ok in E as (c' & Hc' & E). apply vec_from_ok in E. exists c', d. auto.
        + intros (c' & d & Hc' & Hd & ->). apply vec_from_ok in Hd. rewrite (proj2 (get_as_key_ok _ t (lit "dim") d)) by eauto. reflexivity.
      - change (N.eqb (hash_string (lit "cylinder")) (hash_literal (lit "sphere"))) with false.
        change (N.eqb (hash_string (lit "cylinder")) (hash_literal (lit "box"))) with false.
        change (N.eqb (hash_string (lit "cylinder")) (hash_literal (lit "cylinder"))) with true. cbv iota. unfold cylinder_from_pn. rewrite <- !num_key_ok.
        destruct (get_as_key num t (lit "radius")) as [x| |]; cbn [obind]; [|split; [discriminate|intros [H _]; discriminate]..].
        destruct (get_as_key num t (lit "height")) as [y| |]; cbn [obind]; [|split; [discriminate|intros [_ H]; discriminate]..].
        split; [intros H; inversion H; auto|]. intros [H1 H2]. inversion H1; inversion H2; reflexivity.
      - change (N.eqb (hash_string (lit "capsule")) (hash_literal (lit "sphere"))) with false.
        change (N.eqb (hash_string (lit "capsule")) (hash_literal (lit "box"))) with false.
        change (N.eqb (hash_string (lit "capsule")) (hash_literal (lit "cylinder"))) with false.
        change (N.eqb (hash_string (lit "capsule")) (hash_literal (lit "capsule"))) with true. cbv iota. unfold capsule_from_pn. rewrite <- !num_key_ok.
        destruct (get_as_key num t (lit "radius")) as [x| |]; cbn [obind]; [|split; [discriminate|intros [H _]; discriminate]..].
        destruct (try_get_child t (lit "total_length")) as [i|] eqn:Ei.
        + destruct (try_child_some _ _ _ Ei) as (cl & Ecl & Hf). rewrite Hf. cbn [snd]. apply child_key_iff in Ecl. pose proof (child_is_in _ _ _ Ecl) as Hin. split.
          * destruct (get_as num cl) as [l| |] eqn:El; cbn [obind]; try discriminate. intros H. inversion H; subst. split; [reflexivity|]. left. exists l. split; [|reflexivity].
            exists cl. split; [exact Ecl|]. apply get_as_ok in El. unfold num_from_pn in El. congruence.
          * intros [H1 [(l & (cl' & Hcl' & Hl) & ->)|[Hn' _]]]; [|tauto]. inversion H1; subst. rewrite (child_is_unique _ _ _ _ Ecl Hcl').
            rewrite (proj2 (get_as_ok num cl' l)) by (unfold num_from_pn; rewrite Hl; reflexivity). reflexivity.
        + apply child_index_none in Ei. fold (pn_keys t) in Ei.
          destruct (get_as_key num t (lit "height")) as [y| |]; cbn [obind].
          * split; [intros H; inversion H; auto|]. intros [H1 [(l & (cl' & Hcl' & _) & _)|[_ H2]]]; [apply child_is_in in Hcl'; tauto|]. inversion H1; inversion H2; reflexivity.
          * split; [discriminate|]. intros [H1 [(l & (cl' & Hcl' & _) & _)|[_ H2]]]; [apply child_is_in in Hcl'; tauto|discriminate].
          * split; [discriminate|]. intros [H1 [(l & (cl' & Hcl' & _) & _)|[_ H2]]]; [apply child_is_in in Hcl'; tauto|discriminate].
      - change (N.eqb (hash_string (lit "cone")) (hash_literal (lit "sphere"))) with false.
        change (N.eqb (hash_string (lit "cone")) (hash_literal (lit "box"))) with false.
        change (N.eqb (hash_string (lit "cone")) (hash_literal (lit "cylinder"))) with false.
        change (N.eqb (hash_string (lit "cone")) (hash_literal (lit "capsule"))) with false.
        change (N.eqb (hash_string (lit "cone")) (hash_literal (lit "cone"))) with true. cbv iota. unfold cone_from_pn. rewrite <- !num_key_ok.
        destruct (get_as_key num t (lit "radius")) as [x| |]; cbn [obind]; [|split; [discriminate|intros [H _]; discriminate]..].
        destruct (get_as_key num t (lit "height")) as [y| |]; cbn [obind]; [|split; [discriminate|intros [_ H]; discriminate]..].
        split; [intros H; inversion H; auto|]. intros [H1 H2]. inversion H1; inversion H2; reflexivity.
      - change (N.eqb (hash_string (lit "plane")) (hash_literal (lit "sphere"))) with false.
        change (N.eqb (hash_string (lit "plane")) (hash_literal (lit "box"))) with false.
        change (N.eqb (hash_string (lit "plane")) (hash_literal (lit "cylinder"))) with false.
        change (N.eqb (hash_string (lit "plane")) (hash_literal (lit "capsule"))) with false.
        change (N.eqb (hash_string (lit "plane")) (hash_literal (lit "cone"))) with false.
        change (N.eqb (hash_string (lit "plane")) (hash_literal (lit "plane"))) with true. cbv iota. unfold plane_from_pn. split.
        + destruct (get_as_def (vec_from_pn from_str) t (lit "normal") unit_x) as [d| |] eqn:E; cbn [obind]; try discriminate. intros H. inversion H; subst.
          apply get_as_def_ok in E as [(c' & Hc' & E)|[H1 H2]]; [left; apply vec_from_ok in E; exists c'; auto|right; auto].
        + intros H. rewrite (proj2 (get_as_def_ok (vec_from_pn from_str) t (lit "normal") unit_x n)); [reflexivity|].
          destruct H as [(c' & Hc' & Hd)|H]; [left; apply vec_from_ok in Hd; exists c'; auto|auto].
    Qed.
    Lemma shape_unknown t : (~ In (lit "type") (pn_keys t) -> sfrom t = Throw) /\
      (forall c, child_is t (lit "type") c -> Forall (fun n => hash_string (pn_value c) <> hash_literal n) shape_names -> sfrom t = Ok None).
    Proof.
      split.
      - intros H. unfold shape_from_pn, get_as_key. destruct (child_key_cases t (lit "type")) as [(c & _ & Hin)|(-> & _)]; [tauto|reflexivity].
      - intros c Hc H. unfold shape_from_pn. rewrite (type_key _ _ Hc). cbn [obind]. cbv zeta. rewrite Forall_forall in H.
        assert (HN : forall n, In n ["sphere"; "box"; "cylinder"; "capsule"; "cone"; "plane"]%string -> N.eqb (hash_string (pn_value c)) (hash_literal (lit n)) = false).
        { intros n Hn. apply N.eqb_neq. apply H. apply in_map. exact Hn. }
        rewrite (HN "sphere"%string), (HN "box"%string), (HN "cylinder"%string), (HN "capsule"%string), (HN "cone"%string), (HN "plane"%string) by (cbn [In]; tauto). reflexivity.
    Qed.
    Lemma child_type name r : child_is (PN [] ((lit "type", pn_of_value (lit name)) :: r) false) (lit "type") (pn_of_value (lit name)).
    Proof. apply child_is_hd. Qed.
    Lemma shape_round_trip s : (forall x, In x (shape_numbers twice s) -> from_str (to_str x) = Some x) -> (forall h, s = Box h -> forall x, In x [t_x h; t_y h; t_z h] -> half (twice x) = x) ->
      sfrom (shape_to_pn to_str twice s) = Ok (Some s).
    Proof.
      intros Hn Hh. destruct s as [r|h|r h|r h|r h|n]; cbn [shape_numbers] in Hn.
      - apply (shape_read _ _ (Sphere r) (child_type "sphere" _) eq_refl). apply num_at_child; [|apply Hn; cbn; tauto]. apply child_is_tl; [discriminate|]. apply child_is_hd.
      - apply (shape_read _ _ (Box h) (child_type "box" _) eq_refl). cbn [dimensions]. exists (vec_to_pn to_str (map3 twice h)), (map3 twice h).
        split; [apply child_is_tl; [discriminate|]; apply child_is_hd|]. split; [apply vec_from_ok, vec_round_trip; exact Hn|].
        specialize (Hh h eq_refl). cbn [map3 t_x t_y t_z]. rewrite !Hh by (cbn; tauto). destruct h; reflexivity.
      - apply (shape_read _ _ (Cylinder r h) (child_type "cylinder" _) eq_refl). split; (apply num_at_child; [|apply Hn; cbn; tauto]); repeat (apply child_is_tl; [discriminate|]); apply child_is_hd.
      - apply (shape_read _ _ (Capsule r h) (child_type "capsule" _) eq_refl). split; [|right; split].
        + apply num_at_child; [|apply Hn; cbn; tauto]. repeat (apply child_is_tl; [discriminate|]); apply child_is_hd.
        + cbn. intuition discriminate.
        + apply num_at_child; [|apply Hn; cbn; tauto]. repeat (apply child_is_tl; [discriminate|]); apply child_is_hd.
      - apply (shape_read _ _ (Cone r h) (child_type "cone" _) eq_refl). split; (apply num_at_child; [|apply Hn; cbn; tauto]); repeat (apply child_is_tl; [discriminate|]); apply child_is_hd.
      - apply (shape_read _ _ (Plane n) (child_type "plane" _) eq_refl). left. exists (vec_to_pn to_str n).
        split; [apply child_is_tl; [discriminate|]; apply child_is_hd|]. apply vec_from_ok, vec_round_trip. exact Hn.
    Qed.
  End Shapes.
End Numbers.

(** *** integer bounds *)
Lemma from_str_prefix k s z r : int_text s z -> (kind_min k <= z <= kind_max k)%Z -> no_digit_head (c_str r) -> from_str_int k (s ++ r) = (z, true).
Proof.
  intros Ht Hk Hr. pose proof (int_text_no_nul s z Ht) as Hn. pose proof (from_str_value k s z Ht Hk) as Hv. unfold from_str_int in *.
  rewrite c_str_app by exact Hn. rewrite c_str_id in Hv by exact Hn.
  destruct Ht as (ws & sg & ds & sgn & -> & Hw & Hs & Hne & Hd & _).
  destruct (scan_ok ws sg sgn ds [] Hw Hs Hne Hd I) as (neg & v & E & Hv1 & Hs1). rewrite app_nil_r in E. rewrite E in Hv.
  destruct (scan_ok ws sg sgn ds (c_str r) Hw Hs Hne Hd Hr) as (neg' & v' & E' & Hv2 & Hs2). rewrite <- !app_assoc. rewrite E'.
  assert (v' = v) as -> by lia. assert (neg' = neg) as -> by (destruct neg, neg'; congruence). exact Hv.
Qed.
Lemma int_bounds_round_trip k a b : (kind_min k <= a <= kind_max k)%Z -> (kind_min k <= b <= kind_max k)%Z ->
  bounds_from_str (int_from k) (bounds_to_str (to_str_int k) (a, b)) = Ok (Some (a, b)).
Proof.
  intros Ha Hb. destruct (to_string_text a) as [Ht Hc]. apply bounds_text.
  - intros r. unfold int_from. rewrite (from_str_prefix k (to_str_int k a) a (lit ".." ++ r) Ht Ha); [reflexivity|]. intros H. vm_compute in H. lia.
  - unfold int_from. rewrite roundtrip_int by exact Hb. reflexivity.
  - unfold to_str_int. split; [lia|]. split; [exists (to_string a), []; split; [rewrite app_nil_r|]; reflexivity|]. intros j Hj (u & w & E & Hu).
    assert (E1 : nth_error (to_string a ++ lit "..") j = Some "."%char).
    { rewrite E. subst j. rewrite nth_error_app2 by lia. rewrite Nat.sub_diag. reflexivity. }
    rewrite nth_error_app1 in E1 by lia. apply nth_error_In in E1. rewrite Forall_forall in Hc. destruct (Hc _ E1) as (_ & H & _). congruence.
Qed.

(** *** assembled statements *)
Local Open Scope nat_scope.
Lemma vec_refused_assembled : forall (T : Type) (from_str : str -> option T) (t : pn),
  (forall v, ~ describes_vec from_str t v) ->
  (length (pn_children t) = 3 -> vec_from_pn from_str t = Throw) /\
  (length (pn_children t) <> 3 -> vec_from_pn from_str t = Ok None).
Proof.
  intros T from_str t H. destruct (vec_from_total from_str t) as (H1 & H2 & H3).
  destruct (vec_from_pn from_str t) as [[v|]| |] eqn:E.
  - exfalso. apply (H v). apply vec_from_ok. exact E.
  - split; [intros Hl; exfalso; apply (H3 eq_refl); exact Hl|reflexivity].
  - split; [reflexivity|]. intros Hl. exfalso. apply Hl. apply H2. reflexivity.
  - congruence.
Qed.
Lemma vec_round_trip_assembled : forall (T : Type) (to_str : T -> str) (from_str : str -> option T) (v : triple T),
  (forall x, In x [t_x v; t_y v; t_z v] -> from_str (to_str x) = Some x) ->
  vec_from_pn from_str (vec_to_pn to_str v) = Ok (Some v) /\
  ((forall x, In x [t_x v; t_y v; t_z v] -> to_str x <> [] /\ Forall (fun c => c <> " "%char /\ c <> tab) (to_str x)) ->
   vec_from_pn from_str (pn_of_value (vec_to_str to_str v)) = Ok (Some v)).
Proof.
  intros T to_str from_str v H. split; [exact (vec_round_trip to_str from_str v H)|]. intros Hn. apply vec_text_round_trip.
  intros x Hx. destruct (Hn x Hx) as [H1 H2]. split; [exact (H x Hx)|]. split; [exact H1|].
  eapply Forall_impl; [|exact H2]. intros c [Ha Hb] [E|[E|[]]]; congruence.
Qed.
Lemma transform_round_trip_refuted_assembled : forall (T : Type) (to_str : T -> str) (from_str : str -> option T) (order_from : str -> option euler_order) (from_euler : triple T -> euler_order -> quad T) (p p' : triple T) (q : quad T),
  exists t, transform_to_pn to_str p q = Ok t /\ transform_to_pn to_str p' q = Ok t /\ transform_from_pn from_str order_from from_euler t = Throw.
Proof.
  intros. exists (quat_to_pn to_str q). split; [|split]; reflexivity.
Qed.
Lemma list_read_assembled : forall (V : Type) (conv : pn -> outcome (option V)) (t : pn) (l : list V),
  list_from_pn conv t = Ok (Some l) <-> Forall2 (fun c v => conv c = Ok (Some v)) (map snd (pn_children t)) l.
Proof.
  intros V conv t l. unfold list_from_pn. rewrite list_loop_ok. generalize (pn_children t). intros cs. split.
  - intros H. induction H as [|kc v cs l Hv Hl IH]; cbn [map]; constructor; auto.
  - revert l. induction cs as [|kc cs IH]; intros l H; cbn [map] in H; inversion H; subst; constructor; auto.
Qed.
Lemma array_read_assembled : forall (V : Type) (conv : pn -> outcome (option V)) (t : pn) (arr r : list V),
  array_from_pn conv t arr = Ok (Some r) <->
  length r = length arr /\
  (forall j, j < length arr -> j < length (pn_children t) -> exists kc v, nth_error (pn_children t) j = Some kc /\ conv (snd kc) = Ok (Some v) /\ nth_error r j = Some v) /\
  (forall j, length (pn_children t) <= j -> nth_error r j = nth_error arr j).
Proof.
  intros V conv t arr r. unfold array_from_pn, pn_size.
  rewrite (array_loop_ok conv t arr (Nat.min (length arr) (length (pn_children t))) 0 arr eq_refl (Nat.le_min_l _ _) (Nat.le_min_r _ _) r).
  split; intros (H1 & H2 & H3); (split; [exact H1|]); split.
  - intros j Ha Hb. apply H2. split; [apply Nat.le_0_l|]. apply Nat.min_glb_lt; assumption.
  - intros j Hj. apply H3. intros [_ Hc]. apply Nat.min_glb_lt_iff in Hc as [_ Hc]. exact (Nat.lt_irrefl _ (Nat.lt_le_trans _ _ _ Hc Hj)).
  - intros j [_ Hj]. apply Nat.min_glb_lt_iff in Hj as [Ha Hb]. apply H2; assumption.
  - intros j Hj. destruct (Nat.lt_ge_cases j (length arr)) as [Ha|Ha].
    + apply H3. destruct (Nat.lt_ge_cases j (length (pn_children t))) as [Hb|Hb]; [|exact Hb]. exfalso. apply Hj. split; [apply Nat.le_0_l|]. apply Nat.min_glb_lt; assumption.
    + transitivity (@None V); [|symmetry]; apply nth_error_None; [rewrite H1|]; exact Ha.
Qed.
