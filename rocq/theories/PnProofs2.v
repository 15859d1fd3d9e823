From Coq Require Import Ascii String List Arith Bool NArith ZArith Lia.
From Coq Require Import ZifyBool ZifyNat ZifyN.
From Verif Require Import Base BaseProofs Str StrSpec StrModel StrBase StrProofs GridProofs CastSpec CastModel CastProofs PnSpec PnModel PnProofs.
Import ListNotations.

(** ** Same tree *)

Lemma same_refl t : same_tree t t.
Proof.
  induction t as [v cs a IH] using pn_ind'. constructor. induction IH as [|kc cs H _ IHcs]; constructor; auto.
Qed.

Lemma upd_same cs i f : (forall kc, nth_error cs i = Some kc -> same_tree (snd kc) (f (snd kc))) ->
  Forall2 (fun x y => fst x = fst y /\ same_tree (snd x) (snd y)) cs (upd_child cs i f).
Proof.
  revert i; induction cs as [|kc cs IH]; intros i H; unfold upd_child.
  - destruct i; constructor.
  - destruct i as [|i]; cbn [nth_error list_set].
    + constructor; [split; [reflexivity|apply H; reflexivity]|].
      clear. induction cs; constructor; auto using same_refl.
    + specialize (IH i H). unfold upd_child in IH. destruct (nth_error cs i) as [kc'|]; constructor; auto using same_refl.
Qed.

Lemma update_same t p f : (forall u, node_at t p = Some u -> same_tree u (f u)) -> same_tree t (update_at t p f).
Proof.
  revert t; induction p as [|i p IH]; intros [v cs a] H; cbn [update_at].
  - apply H. reflexivity.
  - cbn [pn_value pn_children pn_flag]. constructor. apply upd_same. intros kc Hkc. apply IH. intros u Hu. apply H.
    cbn [node_at pn_children]. rewrite Hkc. exact Hu.
Qed.

Lemma same_trans t : forall u w, same_tree t u -> same_tree u w -> same_tree t w.
Proof.
  induction t as [v cs a IH] using pn_ind'. intros u w H1 H2. inversion H1 as [v1 c1 c2 a1 a2 F1]; subst. inversion H2 as [v2 d1 d2 b1 b2 F2]; subst. constructor.
  clear H1 H2. revert c2 d2 F1 F2. induction IH as [|kc cs Hkc _ IHcs]; intros c2 d2 A B; inversion A as [|x y l l' [A1 A2] A3]; subst; inversion B as [|x' y' m m' [B1 B2] B3]; subst; constructor.
  - split; [congruence|eauto].
  - eapply IHcs; eauto.
Qed.

Lemma same_keys t u : same_tree t u -> pn_keys t = pn_keys u /\ pn_value t = pn_value u.
Proof.
  intros H. inversion H; subst. split; [|reflexivity]. unfold pn_keys. cbn [pn_children]. clear H.
  induction H0 as [|x y cs1 cs2 [H _] _ IH]; [reflexivity|]. cbn. congruence.
Qed.

Lemma same_node_at t u : same_tree t u -> forall p, 
  match node_at t p, node_at u p with Some x, Some y => same_tree x y | None, None => True | _, _ => False end.
Proof.
  intros H p. revert t u H; induction p as [|i p IH]; intros t u H; [exact H|].
  cbn [node_at]. inversion H; subst. cbn [pn_children]. clear H. revert i; induction H0 as [|x y cs1 cs2 [Hk Hs] _ IHc]; intros i.
  - destruct i; exact I.
  - destruct i as [|i]; cbn [nth_error]; [apply IH, Hs|apply IHc].
Qed.

Lemma pn_eqb_iff t : forall u, pn_eqb t u = true <-> same_tree t u.
Proof.
  induction t as [v cs a IH] using pn_ind'. intros [v2 cs2 a2]. cbn [pn_eqb]. rewrite !andb_true_iff, str_eqb_eq, Nat.eqb_eq.
  set (go := fix go (c1 c2 : list (str * pn)) : bool :=
       match c1, c2 with
       | x :: r1, y :: r2 => str_eqb (fst x) (fst y) && pn_eqb (snd x) (snd y) && go r1 r2
       | _, _ => true
       end).
  assert (Hgo : forall c2, length cs = length c2 /\ go cs c2 = true <-> Forall2 (fun x y => fst x = fst y /\ same_tree (snd x) (snd y)) cs c2).
  { clear a v v2 a2 cs2. induction IH as [|kc cs Hkc _ IHcs]; intros [|y c2]; cbn [go length].
    - split; [constructor|auto].
    - split; [intros [H _]; discriminate|intros H; inversion H].
    - split; [intros [H _]; discriminate|intros H; inversion H].
    - fold go. rewrite !andb_true_iff, str_eqb_eq, Hkc. specialize (IHcs c2). split.
      + intros (H1 & (H2 & H3) & H4). constructor; [auto|]. apply IHcs. split; [congruence|exact H4].
      + intros H. inversion H as [|? ? ? ? [E1 E2] E3]; subst. apply IHcs in E3. destruct E3 as [-> E3]. auto. }
  split.
  - intros ((-> & H1) & H2). constructor. apply Hgo. auto.
  - intros H. inversion H; subst. apply Hgo in H1. tauto.
Qed.

(** ** Erasing *)

Fixpoint erk (t : pn) (ks : list str) : pn * bool :=
  match ks with
  | [] => (t, false)
  | k :: r =>
    match r with
    | [] => erase t k
    | _ =>
      match try_get_query_key t k with
      | Some i =>
        match nth_error (pn_children t) i with
        | Some kc => let x := erk (snd kc) r in (PN (pn_value t) (upd_child (pn_children t) i (fun _ => fst x)) (pn_flag t), snd x)
        | None => (t, false)
        end
      | None => (t, false)
      end
    end
  end.

Lemma try_get_single t k : ~ In "."%char k -> try_get_query t k "."%char = Ok (option_map (fun i => [i]) (try_get_query_key t k)).
Proof.
  intros H. unfold try_get_query. cbn [try_get_query_loop].
  assert (Hq : query_parts "."%char k [k]) by (split; [discriminate|split; [reflexivity|constructor; [exact H|constructor]]]).
  apply query_parts_one in Hq. destruct Hq as [_ ->]. reflexivity.
Qed.

Lemma erase_loop_spec ks : forall fuel t q d, query_parts d q ks -> Forall (fun k : str => ~ In "."%char k) (removelast ks) -> length q < fuel ->
  erase_query_loop fuel t q d = Ok (erk t ks).
Proof.
  induction ks as [|k ks IH]; intros fuel t q d Hq Hdot Hf; [destruct Hq; congruence|].
  destruct fuel as [|f]; [lia|]. cbn [erase_query_loop].
  destruct ks as [|k2 ks].
  - apply query_parts_one in Hq. destruct Hq as [-> ->]. reflexivity.
  - apply query_parts_cons in Hq. destruct Hq as (q' & -> & Hq' & ->).
    destruct (step_query k d q') as [E1 E2]. rewrite E1. cbn [obind].
    rewrite app_length in Hf. cbn [length] in Hf.
    change (removelast (k :: k2 :: ks)) with (k :: removelast (k2 :: ks)) in Hdot. inversion Hdot; subst.
    rewrite try_get_single by assumption. cbn [obind].
    change (erk t (k :: k2 :: ks)) with
      (match try_get_query_key t k with
      | Some i =>
        match nth_error (pn_children t) i with
        | Some kc => let x := erk (snd kc) (k2 :: ks) in (PN (pn_value t) (upd_child (pn_children t) i (fun _ => fst x)) (pn_flag t), snd x)
        | None => (t, false)
        end
      | None => (t, false)
      end).
    destruct (try_get_query_key t k) as [i|] eqn:E; [|reflexivity]. cbn [option_map].
    pose proof (query_key_bound _ _ _ E) as Hb. apply nth_error_Some in Hb.
    destruct (nth_error (pn_children t) i) as [kc|] eqn:En; [|congruence].
    cbn [node_at]. rewrite En, E2. cbn [obind].
    rewrite (IH f (snd kc) q' d Hq' H2 ltac:(lia)). cbn [obind update_at]. reflexivity.
Qed.

Lemma list_erase_app {A} (a b : list A) x : list_erase (a ++ x :: b) (length a) = a ++ b.
Proof.
  unfold list_erase. rewrite firstn_length_app. f_equal. rewrite skipn_app.
  rewrite skipn_all2 by lia. replace (S (length a) - length a) with 1 by lia. reflexivity.
Qed.

Lemma erase_spec t k :
  (forall pre c post, pn_children t = pre ++ (k, c) :: post -> ~ In k (map fst pre) ->
     erase t k = (PN (pn_value t) (pre ++ post) true, true)) /\
  (~ In k (pn_keys t) -> erase t k = (PN (pn_value t) (pn_children t) true, false)).
Proof.
  split.
  - intros pre c post E Hp. unfold erase.
    assert (Hi : child_index (pn_children t) k = Some (length pre)).
    { apply child_index_some. rewrite E, map_app. cbn [map fst]. split.
      - rewrite nth_error_app2; rewrite map_length; [|lia]. rewrite Nat.sub_diag. reflexivity.
      - intros j Hj. rewrite nth_error_app1 by (rewrite map_length; exact Hj). intros H. apply nth_error_In in H. contradiction. }
    rewrite Hi, E, list_erase_app. reflexivity.
  - intros H. unfold erase. apply child_index_none in H. rewrite H. reflexivity.
Qed.

Lemma key_split (cs : list (str * pn)) (k : str) : In k (map fst cs) -> exists pre c post, cs = pre ++ (k, c) :: post /\ ~ In k (map fst pre).
Proof.
  induction cs as [|kc cs IH]; intros H; [destruct H|]. cbn [map] in H. destruct (str_eqb (fst kc) k) eqn:E.
  - apply str_eqb_eq in E. exists [], (snd kc), cs. split; [destruct kc; cbn in *; congruence|auto].
  - apply str_eqb_neq in E. destruct H as [H|H]; [congruence|]. destruct (IH H) as (pre & c & post & -> & Hn).
    exists (kc :: pre), c, post. split; [reflexivity|]. cbn [map]. intros [H1|H1]; congruence.
Qed.

Lemma erk_spec ks : forall t k,
  (forall pp u, addresses t ks pp -> node_at t pp = Some u -> In k (pn_keys u) ->
     snd (erk t (ks ++ [k])) = true /\ erased_at t (fst (erk t (ks ++ [k]))) pp k) /\
  ((~ exists pp u, addresses t ks pp /\ node_at t pp = Some u /\ In k (pn_keys u)) ->
     snd (erk t (ks ++ [k])) = false /\ same_tree t (fst (erk t (ks ++ [k])))).
Proof.
  induction ks as [|k0 ks IH]; intros t k.
  - cbn [app erk]. destruct (erase_spec t k) as [E1 E2]. split.
    + intros pp u Ha Hu Hk. inversion Ha; subst. cbn in Hu. injection Hu as <-.
      destruct (key_split _ _ Hk) as (pre & c & post & E & Hn). rewrite (E1 _ _ _ E Hn). split; [reflexivity|]. split.
      * exists t, pre, c, post. cbn. auto.
      * split; [intros x H; exfalso; apply H; exists x; reflexivity|cbn; lia].
    + intros H. rewrite E2.
      * split; [reflexivity|]. destruct t as [v cs a]. cbn [fst pn_value pn_children]. constructor. clear. induction cs; constructor; auto using same_refl.
      * intros Hk. apply H. exists [], t. repeat split; [constructor|exact Hk].
  - assert (Ee : erk t ((k0 :: ks) ++ [k]) = match try_get_query_key t k0 with
      | Some i =>
        match nth_error (pn_children t) i with
        | Some kc => let x := erk (snd kc) (ks ++ [k]) in (PN (pn_value t) (upd_child (pn_children t) i (fun _ => fst x)) (pn_flag t), snd x)
        | None => (t, false)
        end
      | None => (t, false)
      end) by (destruct ks; reflexivity).
    rewrite Ee. clear Ee. split.
    + intros pp u Ha Hu Hk. inversion Ha; subst. apply query_key_iff in H1. rewrite H1, H3.
      destruct (IH (snd kc) k) as [I1 _].
      assert (Hu' : node_at (snd kc) p = Some u) by (cbn [node_at] in Hu; rewrite H3 in Hu; exact Hu).
      destruct (I1 p u H5 Hu' Hk) as [J1 ((u0 & pre & c & post & J2 & J3 & J4 & J5) & J6 & J7)].
      split; [exact J1|]. cbn [fst].
      set (t' := PN _ _ _).
      assert (Hn : nth_error (pn_children t') i = Some (fst kc, fst (erk (snd kc) (ks ++ [k])))) by (unfold t'; cbn [pn_children]; rewrite (nth_upd_child_eq _ _ _ _ H3); reflexivity).
      assert (Hn' : forall j, j <> i -> nth_error (pn_children t') j = nth_error (pn_children t) j) by (intros j Hj; apply nth_upd_child_neq; congruence).
      split; [|split].
      * exists u0, pre, c, post. cbn [node_at]. rewrite H3, Hn. auto.
      * intros [|j x] N1 N2; [exfalso; apply N2; exists (i :: p); reflexivity|]. cbn [node_at].
        destruct (Nat.eq_dec j i) as [->|Hj]; [|rewrite Hn' by exact Hj; reflexivity]. rewrite Hn, H3. cbn [snd]. apply J6.
        -- intros (r & ->). apply N1. exists r. reflexivity.
        -- intros (r & ->). apply N2. exists r. reflexivity.
      * intros [|n] w Hl Hw.
        -- cbn in Hw. injection Hw as <-. exists t'. cbn. repeat split. unfold pn_keys, t'. cbn. apply upd_child_keys.
        -- cbn [firstn length] in *. cbn [node_at] in *. rewrite H3 in Hw. rewrite Hn. apply J7; [lia|exact Hw].
    + intros H. destruct (try_get_query_key t k0) as [i|] eqn:E.
      * destruct (nth_error (pn_children t) i) as [kc|] eqn:En; [|split; [reflexivity|apply same_refl]].
        destruct (IH (snd kc) k) as [_ I2]. destruct I2 as [J1 J2].
        { intros (pp & u & Ha & Hu & Hk). apply H. exists (i :: pp), u. split; [econstructor; [apply query_key_iff, E|exact En|exact Ha]|].
          split; [cbn [node_at]; rewrite En; exact Hu|exact Hk]. }
        split; [exact J1|]. cbn [fst]. destruct t as [v cs a]. cbn [pn_value pn_children pn_flag] in *. constructor.
        apply upd_same. intros kc' Hkc'. rewrite En in Hkc'. injection Hkc' as <-. exact J2.
      * split; [reflexivity|apply same_refl].
Qed.

Lemma erase_query_assembled t q d ks k : query_parts d q (ks ++ [k]) -> Forall (fun x : str => ~ In "."%char x) ks ->
  (forall pp u, addresses t ks pp -> node_at t pp = Some u -> In k (pn_keys u) ->
     exists t', erase_query t q d = Ok (t', true) /\ erased_at t t' pp k) /\
  ((~ exists pp u, addresses t ks pp /\ node_at t pp = Some u /\ In k (pn_keys u)) ->
     exists t', erase_query t q d = Ok (t', false) /\ same_tree t t').
Proof.
  intros Hq Hd. assert (E : erase_query t q d = Ok (erk t (ks ++ [k]))).
  { apply erase_loop_spec; [exact Hq| |lia]. rewrite removelast_last. exact Hd. }
  destruct (erk_spec ks t k) as [S1 S2]. rewrite E. destruct (erk t (ks ++ [k])) as [t' b]. cbn [fst snd] in *. split.
  - intros pp u H1 H2 H3. destruct (S1 pp u H1 H2 H3) as [-> H]. exists t'. auto.
  - intros H. destruct (S2 H) as [-> H']. exists t'. auto.
Qed.

(** ** Merging *)

Fixpoint assoc (cs : list (str * pn)) (k : str) : option pn :=
  match cs with [] => None | kc :: r => if str_eqb (fst kc) k then Some (snd kc) else assoc r k end.

Lemma assoc_index cs k : assoc cs k = match child_index cs k with Some i => option_map snd (nth_error cs i) | None => None end.
Proof.
  induction cs as [|kc cs IH]; [reflexivity|]. cbn [assoc child_index]. destruct (str_eqb (fst kc) k); [reflexivity|].
  rewrite IH. destruct (child_index cs k); reflexivity.
Qed.

Fixpoint merge_loop (ow : bool) (oc tc : list (str * pn)) : list (str * pn) :=
  match oc with
  | [] => tc
  | kc :: r =>
    merge_loop ow r (match child_index tc (fst kc) with
                     | Some i => upd_child tc i (fun c => merge c (snd kc) ow)
                     | None => tc ++ [(fst kc, snd kc)]
                     end)
  end.

Lemma merge_eq t ov oc oa ow :
  merge t (PN ov oc oa) ow = PN (if ow then ov else pn_value t) (merge_loop ow oc (pn_children t)) (pn_flag t).
Proof.
  cbn [merge]. f_equal. generalize (pn_children t) as tc. induction oc as [|kc oc IH]; intros tc; [reflexivity|].
  cbn [merge_loop]. rewrite <- IH. reflexivity.
Qed.

Lemma assoc_app cs k k0 c : assoc (cs ++ [(k0, c)]) k = match assoc cs k with Some x => Some x | None => if str_eqb k0 k then Some c else None end.
Proof. induction cs as [|kc cs IH]; cbn [app assoc fst snd]; [destruct (str_eqb k0 k); reflexivity|]. destruct (str_eqb (fst kc) k); [reflexivity|exact IH]. Qed.

Lemma assoc_upd cs k k0 i f : child_index cs k0 = Some i ->
  assoc (upd_child cs i f) k = if str_eqb k0 k then option_map f (assoc cs k0) else assoc cs k.
Proof.
  revert i; induction cs as [|kc cs IH]; intros i H; [discriminate|]. cbn [child_index] in H. cbn [assoc].
  destruct (str_eqb (fst kc) k0) eqn:E0.
  - injection H as <-. unfold upd_child. cbn [nth_error list_set assoc fst snd option_map].
    apply str_eqb_eq in E0. rewrite E0. destruct (str_eqb k0 k); reflexivity.
  - destruct (child_index cs k0) as [j|] eqn:Ej; [|discriminate]. injection H as <-.
    specialize (IH j eq_refl). unfold upd_child in *. cbn [nth_error]. destruct (nth_error cs j) as [kc'|] eqn:En.
    + cbn [list_set assoc]. destruct (str_eqb (fst kc) k) eqn:Ek.
      * apply str_eqb_eq in Ek. subst k. apply str_eqb_neq in E0. assert (En0 : str_eqb k0 (fst kc) = false) by (apply str_eqb_neq; congruence).
        rewrite En0. reflexivity.
      * exact IH.
    + apply nth_error_None in En. assert (Hj : nth_error (map fst cs) j = Some k0) by (apply child_index_some in Ej; apply Ej).
      assert (j < length (map fst cs)) by (apply nth_error_Some; congruence). rewrite map_length in H. lia.
Qed.

Lemma merge_loop_assoc ow oc : forall tc k, NoDup (map fst oc) ->
  assoc (merge_loop ow oc tc) k = match assoc tc k, assoc oc k with
    | Some c, Some o => Some (merge c o ow) | Some c, None => Some c | None, x => x end.
Proof.
  induction oc as [|kc oc IH]; intros tc k Hd; cbn [merge_loop].
  - cbn [assoc]. destruct (assoc tc k); reflexivity.
  - cbn [map] in Hd. inversion Hd as [|? ? Hni Hnd]; subst. rewrite IH by exact Hnd. cbn [assoc].
    assert (Hoc : str_eqb (fst kc) k = true -> assoc oc k = None).
    { intros E. apply str_eqb_eq in E. subst k. rewrite assoc_index. apply child_index_none in Hni. rewrite Hni. reflexivity. }
    destruct (child_index tc (fst kc)) as [i|] eqn:Ei.
    + rewrite (assoc_upd _ _ _ _ _ Ei). destruct (str_eqb (fst kc) k) eqn:E; [|reflexivity].
      rewrite (Hoc eq_refl). apply str_eqb_eq in E. subst k. rewrite assoc_index, Ei.
      assert (Hi : i < length tc).
      { apply child_index_some in Ei. destruct Ei as [Ei _]. rewrite <- (map_length fst tc). apply nth_error_Some. congruence. }
      apply nth_error_Some in Hi. destruct (nth_error tc i) as [x|]; [reflexivity|congruence].
    + rewrite assoc_app. destruct (str_eqb (fst kc) k) eqn:E.
      * rewrite (Hoc eq_refl). apply str_eqb_eq in E. subst k. rewrite assoc_index, Ei. reflexivity.
      * destruct (assoc tc k); reflexivity.
Qed.

Lemma new_keys_cons old k ks : new_keys old (k :: ks) = if in_dec (list_eq_dec ascii_dec) k old then new_keys old ks else k :: new_keys old ks.
Proof. unfold new_keys. cbn [filter]. destruct (in_dec (list_eq_dec ascii_dec) k old); reflexivity. Qed.

Lemma new_keys_ext old old' ks : (forall k, In k ks -> (In k old <-> In k old')) -> new_keys old ks = new_keys old' ks.
Proof.
  intros H. unfold new_keys. apply filter_ext_in. intros k Hk. specialize (H k Hk).
  destruct (in_dec (list_eq_dec ascii_dec) k old), (in_dec (list_eq_dec ascii_dec) k old'); tauto.
Qed.

Lemma merge_loop_keys ow oc : forall tc, NoDup (map fst oc) ->
  map fst (merge_loop ow oc tc) = map fst tc ++ new_keys (map fst tc) (map fst oc).
Proof.
  induction oc as [|kc oc IH]; intros tc Hd; cbn [merge_loop map].
  - unfold new_keys. cbn. rewrite app_nil_r. reflexivity.
  - cbn [map] in Hd. inversion Hd as [|? ? Hni Hnd]; subst. rewrite IH by exact Hnd. rewrite new_keys_cons.
    destruct (child_index tc (fst kc)) as [i|] eqn:Ei.
    + rewrite upd_child_keys. destruct (in_dec (list_eq_dec ascii_dec) (fst kc) (map fst tc)) as [|Hn]; [reflexivity|].
      apply child_index_none in Hn. congruence.
    + apply child_index_none in Ei. destruct (in_dec (list_eq_dec ascii_dec) (fst kc) (map fst tc)) as [|Hn]; [contradiction|].
      rewrite map_app, <- app_assoc. cbn [map fst app]. do 2 f_equal. apply new_keys_ext. intros k Hk. rewrite in_app_iff. cbn.
      split; [|tauto]. intros [H|[H|[]]]; [exact H|]. subst k. contradiction.
Qed.

Lemma at_keys_step t k ks u : at_keys t (k :: ks) u <-> exists c, assoc (pn_children t) k = Some c /\ at_keys c ks u.
Proof.
  rewrite assoc_index. split.
  - intros H. inversion H as [|t' k' i c ks' u' F1 F2 F3]; subst. exists c. split; [|assumption]. apply first_child_iff in F1. unfold try_get_child in F1.
    rewrite F1, F2. reflexivity.
  - intros (c & Hc & H). destruct (child_index (pn_children t) k) as [i|] eqn:Ei; [|discriminate].
    assert (Hf : first_child t k i) by (apply first_child_iff; exact Ei).
    destruct (nth_error (pn_children t) i) as [[k' c']|] eqn:En; [|discriminate]. cbn in Hc. injection Hc as ->.
    assert (k' = k). { destruct Hf as [Hf _]. unfold pn_keys in Hf. rewrite nth_error_map, En in Hf. cbn in Hf. congruence. } subst k'.
    econstructor; eauto.
Qed.

Lemma at_keys_fun t ks : forall u w, at_keys t ks u -> at_keys t ks w -> u = w.
Proof.
  revert t; induction ks as [|k ks IH]; intros t u w H1 H2; [inversion H1; inversion H2; congruence|].
  apply at_keys_step in H1. apply at_keys_step in H2. destruct H1 as (c & E & H1), H2 as (c' & E' & H2).
  rewrite E in E'. injection E' as <-. eauto.
Qed.

Lemma distinct_assoc t k c : distinct_keys t -> assoc (pn_children t) k = Some c -> distinct_keys c.
Proof.
  intros H. inversion H as [v cs a Hn Hf]; subst. cbn [pn_children]. clear H Hn. induction Hf as [|kc cs Hk _ IH]; [discriminate|].
  cbn [assoc]. destruct (str_eqb (fst kc) k); [intros [= <-]; exact Hk|exact IH].
Qed.

Lemma merge_paths ow ks : forall t o, distinct_keys o ->
  (forall u w, at_keys t ks u -> at_keys o ks w ->
     exists m, at_keys (merge t o ow) ks m /\ pn_value m = (if ow then pn_value w else pn_value u) /\
       pn_flag m = pn_flag u /\ pn_keys m = pn_keys u ++ new_keys (pn_keys u) (pn_keys w)) /\
  (forall u, at_keys t ks u -> (~ exists w, at_keys o ks w) -> at_keys (merge t o ow) ks u) /\
  (forall w, at_keys o ks w -> (~ exists u, at_keys t ks u) -> at_keys (merge t o ow) ks w) /\
  (forall m, at_keys (merge t o ow) ks m -> (exists u, at_keys t ks u) \/ (exists w, at_keys o ks w)).
Proof.
  induction ks as [|k ks IH]; intros t [ov oc oa] Hd; rewrite merge_eq.
  - split; [|split; [|split]].
    + intros u w H1 H2. inversion H1; inversion H2; subst. eexists. split; [constructor|]. cbn [pn_value pn_flag].
      split; [reflexivity|]. split; [reflexivity|]. unfold pn_keys. cbn [pn_children]. apply merge_loop_keys. inversion Hd; assumption.
    + intros u _ H. exfalso. apply H. eexists. constructor.
    + intros w _ H. exfalso. apply H. eexists. constructor.
    + intros m _. left. eexists. constructor.
  - assert (Ha : forall m, at_keys (PN (if ow then ov else pn_value t) (merge_loop ow oc (pn_children t)) (pn_flag t)) (k :: ks) m <->
      exists c, match assoc (pn_children t) k, assoc oc k with
        | Some c, Some o => Some (merge c o ow) | Some c, None => Some c | None, x => x end = Some c /\ at_keys c ks m).
    { intros m. rewrite at_keys_step. cbn [pn_children]. rewrite merge_loop_assoc by (inversion Hd; assumption). reflexivity. }
    assert (Hdk : forall o, assoc oc k = Some o -> distinct_keys o) by (intros o Ho; exact (distinct_assoc (PN ov oc oa) k o Hd Ho)).
    split; [|split; [|split]].
    + intros u w H1 H2. apply at_keys_step in H1. apply at_keys_step in H2. destruct H1 as (c & E1 & H1), H2 as (o & E2 & H2).
      cbn [pn_children] in E2. destruct (IH c o (Hdk o E2)) as [J _]. destruct (J u w H1 H2) as (m & Hm & Hr).
      exists m. split; [|exact Hr]. apply Ha. exists (merge c o ow). rewrite E1, E2. auto.
    + intros u H1 H2. apply at_keys_step in H1. destruct H1 as (c & E1 & H1). apply Ha. rewrite E1.
      destruct (assoc oc k) as [o|] eqn:E2.
      * exists (merge c o ow). split; [reflexivity|]. apply (proj1 (proj2 (IH c o (Hdk o eq_refl)))); [exact H1|].
        intros (w & Hw). apply H2. exists w. apply at_keys_step. exists o. auto.
      * exists c. auto.
    + intros w H1 H2. apply at_keys_step in H1. destruct H1 as (o & E1 & H1). cbn [pn_children] in E1. apply Ha. rewrite E1.
      destruct (assoc (pn_children t) k) as [c|] eqn:E2.
      * exists (merge c o ow). split; [reflexivity|]. apply (proj1 (proj2 (proj2 (IH c o (Hdk o E1))))); [exact H1|].
        intros (u & Hu). apply H2. exists u. apply at_keys_step. exists c. auto.
      * exists o. auto.
    + intros m H. apply Ha in H. destruct H as (x & Ex & Hm).
      destruct (assoc (pn_children t) k) as [c|] eqn:E1; destruct (assoc oc k) as [o|] eqn:E2; try discriminate.
      * injection Ex as <-. apply (proj2 (proj2 (proj2 (IH c o (Hdk o eq_refl))))) in Hm. destruct Hm as [(u & Hu)|(w & Hw)].
        -- left. exists u. apply at_keys_step. exists c. auto.
        -- right. exists w. apply at_keys_step. exists o. auto.
      * injection Ex as <-. left. exists m. apply at_keys_step. exists c. auto.
      * injection Ex as <-. right. exists m. apply at_keys_step. exists o. auto.
Qed.

Lemma merge_self ow t : distinct_keys t -> merge t t ow = t.
Proof.
  induction t as [v cs a IH] using pn_ind'. intros Hd. inversion Hd as [? ? ? Hn Hf]; subst.
  rewrite merge_eq. cbn [pn_value pn_children pn_flag]. replace (if ow then v else v) with v by (destruct ow; reflexivity). f_equal.
  assert (H : forall rest done, NoDup (map fst (done ++ rest)) -> Forall (fun kc => merge (snd kc) (snd kc) ow = snd kc) rest ->
    merge_loop ow rest (done ++ rest) = done ++ rest).
  { clear. induction rest as [|kc rest IH]; intros done Hn Hm; [reflexivity|]. cbn [merge_loop].
    assert (Ei : child_index (done ++ kc :: rest) (fst kc) = Some (length done)).
    { apply child_index_some. rewrite map_app in *. cbn [map] in *. split.
      - rewrite nth_error_app2; rewrite map_length; [|lia]. rewrite Nat.sub_diag. reflexivity.
      - intros j Hj. rewrite nth_error_app1 by (rewrite map_length; exact Hj). intros H. apply nth_error_In in H.
        apply NoDup_remove_2 in Hn. apply Hn. rewrite in_app_iff. auto. }
    rewrite Ei. inversion Hm as [|? ? Hk Hr]; subst.
    assert (Eu : upd_child (done ++ kc :: rest) (length done) (fun c => merge c (snd kc) ow) = done ++ kc :: rest).
    { unfold upd_child. rewrite nth_error_app2 by lia. rewrite Nat.sub_diag. cbn [nth_error]. rewrite Hk.
      rewrite list_set_app2 by lia. rewrite Nat.sub_diag. destruct kc; reflexivity. }
    rewrite Eu. specialize (IH (done ++ [kc])). rewrite <- app_assoc in IH. apply IH; [exact Hn|exact Hr]. }
  apply (H cs []); [exact Hn|]. clear - IH Hf. induction IH as [|kc cs H _ IHcs]; inversion Hf; subst; constructor; auto.
Qed.

(** children that are not the first with their key stay as they are *)
Lemma merge_loop_shadow ow oc : forall tc i kc, nth_error tc i = Some kc ->
  (~ In (fst kc) (map fst oc) \/ child_index tc (fst kc) <> Some i) -> nth_error (merge_loop ow oc tc) i = Some kc.
Proof.
  induction oc as [|o oc IH]; intros tc i kc Hi Hs; cbn [merge_loop]; [exact Hi|].
  assert (Hin : i < length tc) by (apply nth_error_Some; congruence).
  assert (Hkey : forall j, j < length tc -> nth_error (map fst tc) j <> None).
  { intros j Hj. apply nth_error_Some. rewrite map_length. exact Hj. }
  destruct (child_index tc (fst o)) as [j|] eqn:Ej.
  - assert (Hij : i <> j).
    { intros <-. apply child_index_some in Ej. destruct Ej as [E1 E2]. rewrite nth_error_map, Hi in E1. cbn in E1. injection E1 as E1.
      destruct Hs as [Hs|Hs].
      - apply Hs. left. congruence.
      - apply Hs. apply child_index_some. rewrite nth_error_map, Hi. cbn. split; [reflexivity|]. rewrite E1. exact E2. }
    apply IH; [rewrite nth_upd_child_neq by congruence; exact Hi|].
    destruct Hs as [Hs|Hs]; [left; cbn in Hs; tauto|right].
    intros Hc. apply Hs. apply child_index_some. apply child_index_some in Hc. rewrite upd_child_keys in Hc. exact Hc.
  - apply IH; [rewrite nth_error_app1 by exact Hin; exact Hi|].
    destruct Hs as [Hs|Hs]; [left; cbn in Hs; tauto|right].
    intros Hc. apply Hs. apply child_index_some. apply child_index_some in Hc. rewrite map_app in Hc. destruct Hc as [C1 C2]. split.
    + rewrite nth_error_app1 in C1 by (rewrite map_length; exact Hin). exact C1.
    + intros j' Hj'. specialize (C2 j' Hj'). rewrite nth_error_app1 in C2 by (rewrite map_length; lia). exact C2.
Qed.

Lemma merge_shadow t o ow i kc : nth_error (pn_children t) i = Some kc ->
  (~ In (fst kc) (pn_keys o) \/ ~ first_child t (fst kc) i) -> nth_error (pn_children (merge t o ow)) i = Some kc.
Proof.
  intros Hi Hs. destruct o as [ov oc oa]. rewrite merge_eq. cbn [pn_children]. apply merge_loop_shadow; [exact Hi|].
  destruct Hs as [Hs|Hs]; [left; exact Hs|right]. intros E. apply Hs. apply first_child_iff. exact E.
Qed.

(** ** Accessed flags *)

Lemma node_at_app t p q : node_at t (p ++ q) = match node_at t p with Some u => node_at u q | None => None end.
Proof.
  revert t; induction p as [|i p IH]; intros t; [reflexivity|]. cbn [app node_at]. destruct (nth_error (pn_children t) i); [apply IH|reflexivity].
Qed.

Lemma node_at_update_below t p f r u : node_at t p = Some u -> node_at (update_at t p f) (p ++ r) = node_at (f u) r.
Proof.
  revert t; induction p as [|i p IH]; intros t H; cbn [node_at update_at app] in *; [injection H as ->; reflexivity|].
  cbn [pn_children]. destruct (nth_error (pn_children t) i) as [kc|] eqn:E; [|discriminate].
  rewrite (nth_upd_child_eq _ _ _ _ E). cbn [snd]. apply IH, H.
Qed.

Lemma update_at_absent t p f : node_at t p = None -> update_at t p f = t.
Proof.
  revert t; induction p as [|i p IH]; intros [v cs a] H; cbn [node_at update_at pn_children pn_value pn_flag] in *; [discriminate|].
  f_equal. apply list_eq_nth'. intros j. destruct (Nat.eq_dec i j) as [->|Hn]; [|apply nth_upd_child_neq; exact Hn].
  destruct (nth_error cs j) as [kc|] eqn:E.
  - rewrite (nth_upd_child_eq _ _ _ _ E). rewrite IH by exact H. destruct kc; reflexivity.
  - apply nth_error_None. rewrite upd_child_length. apply nth_error_None. exact E.
Qed.

(** a node outside the updated subtree keeps its flag *)
Lemma flag_outside t p f x u : ~ is_prefix p x -> node_at t x = Some u ->
  exists u', node_at (update_at t p f) x = Some u' /\ pn_flag u' = pn_flag u.
Proof.
  revert t x; induction p as [|i p IH]; intros t x Hp Hx; [exfalso; apply Hp; exists x; reflexivity|].
  destruct x as [|j x].
  - cbn in Hx. injection Hx as <-. eexists. split; [reflexivity|]. reflexivity.
  - cbn [node_at update_at pn_children] in *. destruct (Nat.eq_dec i j) as [->|Hn].
    + destruct (nth_error (pn_children t) j) as [kc|] eqn:E; [|discriminate]. rewrite (nth_upd_child_eq _ _ _ _ E). cbn [snd].
      apply IH; [|exact Hx]. intros (r & ->). apply Hp. exists r. reflexivity.
    + rewrite nth_upd_child_neq by exact Hn. exists u. auto.
Qed.

Lemma mark_same b t : same_tree t (set_accessed_recursively b t).
Proof.
  induction t as [v cs a IH] using pn_ind'. cbn [set_accessed_recursively]. constructor.
  induction IH as [|kc cs H _ IHcs]; cbn [map]; constructor; auto.
Qed.

Lemma mark_flag b : forall r t u, node_at (set_accessed_recursively b t) r = Some u -> pn_flag u = b.
Proof.
  induction r as [|i r IH]; intros [v cs a] u H; cbn [node_at set_accessed_recursively pn_children] in H; [injection H as <-; reflexivity|].
  rewrite nth_error_map in H. destruct (nth_error cs i) as [kc|]; [|discriminate]. cbn in H. eapply IH. exact H.
Qed.

Lemma read_same t o : same_tree t (read_step t o).
Proof.
  assert (Hacc : forall u, same_tree u (access u)).
  { intros [v cs a]. unfold access. cbn. constructor. clear. induction cs; constructor; auto using same_refl. }
  destruct o as [p|p|p|p|p k|p i|p|p b|p]; cbn [read_step]; try apply same_refl; apply update_same; intros u _.
  - apply Hacc.
  - apply Hacc.
  - destruct (i <? pn_size u); [apply Hacc|apply same_refl].
  - destruct u as [v cs a]. cbn [pn_value pn_children]. constructor. clear v a. induction cs; cbn [map]; constructor; cbn [fst snd]; auto.
  - apply mark_same.
Qed.

Lemma run_same t h : same_tree t (run_reads t h).
Proof. induction h as [|o h IH]; cbn [run_reads fold_right]; [apply same_refl|]. eapply same_trans; [exact IH|apply read_same]. Qed.

Lemma same_sym t : forall u, same_tree t u -> same_tree u t.
Proof.
  induction t as [v cs a IH] using pn_ind'. intros u H. inversion H as [v1 c1 c2 a1 a2 F1]; subst. constructor. clear H.
  revert c2 F1. induction IH as [|kc cs Hkc _ IHcs]; intros c2 A; inversion A as [|x y l l' [A1 A2] A3]; subst; constructor.
  - split; [congruence|auto].
  - auto.
Qed.

Lemma is_prefix_dec (p x : list nat) : {is_prefix p x} + {~ is_prefix p x}.
Proof.
  destruct (list_eq_dec Nat.eq_dec (firstn (length p) x) p) as [E|E].
  - left. exists (skipn (length p) x). rewrite <- E at 1. rewrite firstn_skipn. reflexivity.
  - right. intros (r & ->). apply E. apply firstn_length_app.
Qed.

Lemma run_node t h x : (exists u, node_at t x = Some u) <-> (exists u, node_at (run_reads t h) x = Some u).
Proof.
  pose proof (same_node_at _ _ (run_same t h) x) as H. destruct (node_at t x), (node_at (run_reads t h) x); try tauto; split; intros (u & E); try discriminate; eauto.
Qed.

Lemma access_step t p x u : node_at t x = Some u ->
  exists u', node_at (update_at t p access) x = Some u' /\
    (x = p -> pn_flag u' = true) /\ (x <> p -> pn_flag u' = pn_flag u).
Proof.
  intros Hx. destruct (is_prefix_dec p x) as [(r & ->)|Hn].
  - rewrite node_at_app in Hx. destruct (node_at t p) as [w|] eqn:Ew; [|discriminate].
    rewrite (node_at_update_below _ _ _ _ _ Ew). destruct r as [|i r].
    + eexists. split; [reflexivity|]. split; [reflexivity|]. rewrite app_nil_r. congruence.
    + exists u. split; [exact Hx|]. split; [|reflexivity]. intros E. apply (f_equal (@length nat)) in E. rewrite app_length in E. cbn in E. lia.
  - destruct (flag_outside t p access x u Hn Hx) as (u' & H1 & H2). exists u'. split; [exact H1|].
    split; [|auto]. intros ->. exfalso. apply Hn. exists []. rewrite app_nil_r. reflexivity.
Qed.

Lemma step_flag t0 t o x u : same_tree t0 t -> node_at t x = Some u ->
  exists u', node_at (read_step t o) x = Some u' /\
    (reads t0 o x -> pn_flag u' = true) /\
    (forall p v, o = RMark p v -> is_prefix p x -> pn_flag u' = v) /\
    (~ reads t0 o x -> (forall p v, o = RMark p v -> ~ is_prefix p x) -> pn_flag u' = pn_flag u).
Proof.
  intros Hs Hx. destruct o as [p|p|p|p|p k|p i|p|p b|p]; cbn [read_step reads]; try (exists u; repeat split; auto; tauto || discriminate).
  - destruct (access_step t p x u Hx) as (u' & H1 & H2 & H3). exists u'. repeat split; auto. discriminate.
  - destruct (access_step t p x u Hx) as (u' & H1 & H2 & H3). exists u'. repeat split; auto. discriminate.
  - pose proof (same_node_at _ _ Hs p) as Hsp.
    destruct (node_at t p) as [w|] eqn:Ew.
    + destruct (node_at t0 p) as [w0|] eqn:Ew0; [|destruct Hsp].
      assert (Hl : length (pn_children w0) = pn_size w).
      { unfold pn_size. apply same_keys in Hsp. destruct Hsp as [Hk _]. unfold pn_keys in Hk. rewrite <- (map_length fst), Hk, map_length. reflexivity. }
      destruct (i <? pn_size w) eqn:Ei.
      * assert (E : update_at t p (fun u => if i <? pn_size u then access u else u) = update_at t p access).
        { clear - Ew Ei. revert t Ew. induction p as [|j p IH]; intros t Ew; cbn [node_at update_at] in *.
          - injection Ew as ->. rewrite Ei. reflexivity.
          - f_equal. apply upd_child_ext. intros kc Hkc. rewrite Hkc in Ew. apply IH. exact Ew. }
        rewrite E. destruct (access_step t p x u Hx) as (u' & H1 & H2 & H3). exists u'. split; [exact H1|].
        split; [intros [Hp _]; auto|]. split; [discriminate|]. intros Hn _. apply H3. intros Hp. apply Hn. split; [exact Hp|]. exists w0. split; [reflexivity|]. lia.
      * assert (E : update_at t p (fun u => if i <? pn_size u then access u else u) = t).
        { clear - Ew Ei. revert t Ew. induction p as [|j p IH]; intros t Ew; cbn [node_at update_at] in *.
          - injection Ew as ->. rewrite Ei. reflexivity.
          - destruct t as [v cs a]. cbn [pn_value pn_children pn_flag] in *. f_equal. unfold upd_child.
            destruct (nth_error cs j) as [kc|] eqn:En; [|reflexivity]. rewrite (IH _ Ew). apply list_eq_nth'. intros j'.
            destruct (Nat.eq_dec j j') as [->|Hn]; [rewrite nth_error_list_set_eq; [destruct kc; auto|apply nth_error_Some; congruence]|apply nth_error_list_set_neq; congruence]. }
        rewrite E. exists u. split; [exact Hx|]. split; [intros [_ (w' & E1 & E2)]; injection E1 as <-; lia|]. split; [discriminate|reflexivity].
    + rewrite update_at_absent by exact Ew. exists u. split; [exact Hx|].
      destruct (node_at t0 p) as [w0|]; [destruct Hsp|]. split; [intros [_ (w' & E1 & _)]; discriminate|]. split; [discriminate|reflexivity].
  - destruct (is_prefix_dec p x) as [(r & ->)|Hn].
    + rewrite node_at_app in Hx. destruct (node_at t p) as [w|] eqn:Ew; [|discriminate].
      rewrite (node_at_update_below _ _ _ _ _ Ew). destruct r as [|i r].
      * eexists. split; [reflexivity|]. split; [reflexivity|]. split; [discriminate|]. intros H. exfalso. apply H. left. apply app_nil_r.
      * cbn [node_at pn_children] in *. rewrite nth_error_map. destruct (nth_error (pn_children w) i) as [kc|]; [|discriminate]. cbn [option_map snd].
        destruct r as [|j r].
        -- eexists. split; [reflexivity|]. split; [reflexivity|]. split; [discriminate|]. intros H. exfalso. apply H. right. eauto.
        -- exists u. split; [exact Hx|]. split.
           ++ intros [E|(i' & E)]; apply (f_equal (@length nat)) in E; rewrite !app_length in E; cbn in E; lia.
           ++ split; [discriminate|reflexivity].
    + destruct (flag_outside t p (fun u => PN (pn_value u) (map (fun kc => (fst kc, access (snd kc))) (pn_children u)) true) x u Hn Hx) as (u' & H1 & H2).
      exists u'. split; [exact H1|]. split.
      * intros [->|(i & ->)]; exfalso; apply Hn; [exists []; rewrite app_nil_r; reflexivity|exists [i]; reflexivity].
      * split; [discriminate|]. auto.
  - destruct (is_prefix_dec p x) as [Hp|Hn].
    + pose proof Hp as (r & Er). subst x. rewrite node_at_app in Hx. destruct (node_at t p) as [w|] eqn:Ew; [|discriminate].
      rewrite (node_at_update_below _ _ _ _ _ Ew).
      pose proof (same_node_at _ _ (mark_same b w) r) as Hm. rewrite Hx in Hm.
      destruct (node_at (set_accessed_recursively b w) r) as [u'|] eqn:Eu; [|destruct Hm].
      exists u'. split; [reflexivity|]. split; [tauto|]. split.
      * intros p' v [= <- <-] _. eapply mark_flag. exact Eu.
      * intros _ H. exfalso. eapply H; eauto.
    + destruct (flag_outside t p (set_accessed_recursively b) x u Hn Hx) as (u' & H1 & H2). exists u'. split; [exact H1|].
      split; [tauto|]. split; [intros p' v [= <- <-] H; contradiction|auto].
Qed.

Lemma reads_dec t o x : reads t o x \/ ~ reads t o x.
Proof.
  destruct o; cbn [reads]; try tauto.
  - destruct (list_eq_dec Nat.eq_dec x p); auto.
  - destruct (list_eq_dec Nat.eq_dec x p); auto.
  - destruct (list_eq_dec Nat.eq_dec x p); [|tauto]. destruct (node_at t p) as [u|]; [|right; intros [_ (u & E & _)]; discriminate].
    destruct (Nat.lt_ge_cases i (length (pn_children u))); [left; split; eauto|].
    right. intros [_ (u' & E & Hl)]. injection E as <-. lia.
  - destruct (list_eq_dec Nat.eq_dec x p); [auto|]. destruct (is_prefix_dec p x) as [(r & ->)|Hn].
    + destruct r as [|i [|j r]].
      * exfalso. apply n. apply app_nil_r.
      * left. right. eauto.
      * right. intros [E|(i' & E)]; [contradiction|]. apply (f_equal (@length nat)) in E. rewrite !app_length in E. cbn in E. lia.
    + right. intros [E|(i & ->)]; [contradiction|]. apply Hn. exists [i]. reflexivity.
Qed.

Lemma flags_correct t h : forall x u, node_at (run_reads t h) x = Some u -> flag_after t x h (pn_flag u).
Proof.
  induction h as [|o h IH]; intros x u Hu; cbn [run_reads fold_right] in Hu.
  - constructor. exact Hu.
  - fold (run_reads t h) in Hu.
    assert (Hx : exists w, node_at (run_reads t h) x = Some w).
    { pose proof (same_node_at _ _ (read_same (run_reads t h) o) x) as H. rewrite Hu in H. destruct (node_at (run_reads t h) x); [eauto|destruct H]. }
    destruct Hx as (w & Hw). specialize (IH x w Hw).
    destruct (step_flag t (run_reads t h) o x w (run_same t h) Hw) as (u' & E & R1 & R2 & R3).
    rewrite Hu in E. injection E as <-.
    destruct (reads_dec t o x) as [Hr|Hr].
    + rewrite (R1 Hr). econstructor; eauto.
    + assert (Hm : (exists p v, o = RMark p v /\ is_prefix p x) \/ (forall p v, o = RMark p v -> ~ is_prefix p x)).
      { destruct o; try (right; intros; discriminate). destruct (is_prefix_dec p x); [left; eauto|right]. intros p' v [= <- _]. assumption. }
      destruct Hm as [(p & v & -> & Hp)|Hm].
      * rewrite (R2 p v eq_refl Hp). eapply fa_mark; eauto.
      * rewrite (R3 Hr Hm). apply fa_other; assumption.
Qed.

Lemma flag_after_fun t x h b b' : flag_after t x h b -> flag_after t x h b' -> b = b'.
Proof.
  intros H. revert b'. induction H as [u Hu|o h b Hr H IH|p v h b Hp H IH|o h b Hr Hm H IH]; intros b' H'; inversion H'; subst; auto; try congruence.
  all: try (cbn in *; contradiction).
  all: exfalso; eauto; try (eapply Hm; eauto); try (eapply H3; eauto).
Qed.

Lemma count_unaccessed_spec t :
  count_unaccessed t = length (filter (fun u => negb (pn_flag u) && match pn_value u with [] => false | _ => true end) (all_nodes t)).
Proof.
  induction t as [v cs a IH] using pn_ind'. cbn [count_unaccessed all_nodes].
  set (P := fun u => negb (pn_flag u) && match pn_value u with [] => false | _ => true end).
  assert (Hf : forall n, fold_left (fun n kc => n + count_unaccessed (snd kc)) cs n =
    n + length (filter P (flat_map (fun kc => all_nodes (snd kc)) cs))).
  { clear a v. induction IH as [|kc cs H _ IHcs]; intros n; cbn [fold_left flat_map]; [cbn; lia|].
    rewrite IHcs, H. rewrite filter_app, app_length. fold P. lia. }
  rewrite Hf. cbn [filter]. unfold is_accessed, has_value. replace (P (PN v cs a)) with (negb a && match v with [] => false | _ => true end) by reflexivity. cbn [pn_flag pn_value].
  destruct a, v; cbn [negb orb andb length]; lia.
Qed.

(** ** Searching *)

Definition go_pre := fix go (cs : list (str * pn)) (i : nat) : list (str * list nat) :=
       match cs with
       | [] => []
       | kc :: r => (fst kc, [i]) :: map (fun e => (fst e, i :: snd e)) (preorder (snd kc)) ++ go r (S i)
       end.
Lemma preorder_eq v cs a : preorder (PN v cs a) = go_pre cs 0.
Proof. reflexivity. Qed.

Definition go_find (k : str) := fix go (cs : list (str * pn)) (i : nat) : option (list nat) :=
       match cs with
       | [] => None
       | kc :: r =>
         if str_eqb (fst kc) k then Some [i]
         else match find_recursively (snd kc) k with Some p => Some (i :: p) | None => go r (S i) end
       end.

Lemma find_rec_spec t k : first_in k (preorder t) (find_recursively t k).
Proof.
  induction t as [v cs a IH] using pn_ind'. rewrite preorder_eq. change (find_recursively (PN v cs a) k) with (go_find k cs 0).
  generalize 0. induction IH as [|kc cs H _ IHcs]; intros i; cbn [go_pre go_find]; [constructor|].
  fold go_pre. fold (go_find k).
  destruct (str_eqb (fst kc) k) eqn:E.
  - apply str_eqb_eq in E. subst k. exists [], (map (fun e => (fst e, i :: snd e)) (preorder (snd kc)) ++ go_pre cs (S i)). split; [reflexivity|constructor].
  - apply str_eqb_neq in E. destruct (find_recursively (snd kc) k) as [p|] eqn:Ef; cbn [first_in] in H.
    + destruct H as (pre & post & H1 & H2). exists ((fst kc, [i]) :: map (fun e => (fst e, i :: snd e)) pre),
        (map (fun e => (fst e, i :: snd e)) post ++ go_pre cs (S i)). split.
      * rewrite H1, map_app. cbn [map app fst snd]. rewrite <- app_assoc. reflexivity.
      * constructor; [exact E|]. apply Forall_map. exact H2.
    + specialize (IHcs (S i)). destruct (go_find k cs (S i)) as [p|]; cbn [first_in] in *.
      * destruct IHcs as (pre & post & H1 & H2). rewrite H1. exists ((fst kc, [i]) :: map (fun e => (fst e, i :: snd e)) (preorder (snd kc)) ++ pre), post. split.
        -- cbn [app]. rewrite <- app_assoc. reflexivity.
        -- constructor; [exact E|]. apply Forall_app_iff. split; [apply Forall_map; exact H|exact H2].
      * constructor; [exact E|]. apply Forall_app_iff. split; [apply Forall_map; exact H|exact IHcs].
Qed.

Lemma preorder_complete t : forall k p, In (k, p) (preorder t) <-> key_at t p = Some k.
Proof.
  induction t as [v cs a IH] using pn_ind'. intros k p. rewrite preorder_eq.
  assert (H : forall n, In (k, p) (go_pre cs n) <-> exists i q kc, p = (n + i) :: q /\ nth_error cs i = Some kc /\
     match q with [] => fst kc = k | _ => key_at (snd kc) q = Some k end).
  { clear v a. induction IH as [|kc cs Hkc _ IHcs]; intros n; cbn [go_pre In].
    - split; [tauto|]. intros (i & q & kc & _ & E & _). destruct i; discriminate.
    - fold go_pre. rewrite in_app_iff, in_map_iff, IHcs. split.
      + intros [E|[((k' & q) & E & Hin)|(i & q & kc' & E1 & E2 & E3)]].
        * injection E as <- <-. exists 0, [], kc. rewrite Nat.add_0_r. repeat split.
        * cbn in E. injection E as <- <-. apply Hkc in Hin. exists 0, q, kc. rewrite Nat.add_0_r. split; [reflexivity|]. split; [reflexivity|].
          destruct q; [discriminate|exact Hin].
        * exists (S i), q, kc'. split; [rewrite E1; f_equal; lia|]. auto.
      + intros (i & q & kc' & E1 & E2 & E3). destruct i as [|i].
        * cbn in E2. injection E2 as <-. rewrite Nat.add_0_r in E1. destruct q as [|j q].
          -- left. congruence.
          -- right. left. exists (k, j :: q). split; [cbn; congruence|]. apply Hkc. exact E3.
        * right. right. exists i, q, kc'. split; [rewrite E1; f_equal; lia|]. auto. }
  rewrite (H 0). cbn [Nat.add]. split.
  - intros (i & q & kc & -> & E & Hq). cbn [key_at pn_children]. rewrite E. destruct q; [congruence|exact Hq].
  - destruct p as [|i q]; [discriminate|]. cbn [key_at pn_children]. destruct (nth_error cs i) as [kc|] eqn:E; [|discriminate].
    intros Hq. exists i, q, kc. split; [reflexivity|]. split; [exact E|]. destruct q; [congruence|exact Hq].
Qed.

Lemma path_eqb_iff p q : path_eqb p q = true <-> p = q.
Proof. unfold path_eqb. destruct (list_eq_dec Nat.eq_dec p q); split; congruence. Qed.

Lemma find_index_of_spec n i here target j :
  find_index_of n i here target = Some j <-> target = here ++ [j] /\ i <= j < i + n.
Proof.
  revert i; induction n as [|n IH]; intros i; cbn [find_index_of]; [split; [discriminate|lia]|].
  destruct (path_eqb (here ++ [i]) target) eqn:E.
  - apply path_eqb_iff in E. split.
    + intros [= <-]. split; [congruence|lia].
    + intros [H _]. rewrite H in E. apply app_inj_tail in E. f_equal. apply E.
  - rewrite IH. split; intros [H1 H2]; (split; [exact H1|]); [lia|].
    enough (i <> j) by lia. intros <-. subst target. rewrite (proj2 (path_eqb_iff _ _) eq_refl) in E. discriminate.
Qed.

Lemma find_parent_spec t : forall here target par i,
  find_parent t here target = Some (par, i) <-> exists r, target = here ++ r ++ [i] /\ par = here ++ r /\ node_at t (r ++ [i]) <> None.
Proof.
  induction t as [v cs a IH] using pn_ind'. intros here target par i. cbn [find_parent].
  destruct (find_index_of (length cs) 0 here target) as [j|] eqn:E.
  - apply find_index_of_spec in E. destruct E as [-> Hj]. split.
    + intros [= <- <-]. exists []. split; [reflexivity|]. split; [rewrite app_nil_r; reflexivity|]. cbn [app node_at pn_children].
      assert (Hn : nth_error cs j <> None) by (apply nth_error_Some; lia). destruct (nth_error cs j); [discriminate|congruence].
    + intros (r & E1 & -> & _). apply app_inv_head in E1. destruct r as [|x r].
      * cbn in E1. injection E1 as <-. rewrite app_nil_r. reflexivity.
      * destruct r; discriminate.
  - set (go := fix go (cs : list (str * pn)) (i : nat) : option (list nat * nat) :=
         match cs with
         | [] => None
         | kc :: r => match find_parent (snd kc) (here ++ [i]) target with Some x => Some x | None => go r (S i) end
         end).
    assert (H : forall n, go cs n = Some (par, i) <-> exists j kc r, nth_error cs j = Some kc /\
       target = here ++ (n + j) :: r ++ [i] /\ par = here ++ (n + j) :: r /\ node_at (snd kc) (r ++ [i]) <> None).
    { clear E. induction IH as [|kc cs Hkc _ IHcs]; intros n; cbn [go].
      - split; [discriminate|]. intros (j & kc & r & E & _). destruct j; discriminate.
      - fold go. specialize (IHcs (S n)).
        destruct (find_parent (snd kc) (here ++ [n]) target) as [[par' i']|] eqn:Ef.
        + apply Hkc in Ef. destruct Ef as (r & E1 & E2 & E3). split.
          * intros [= <- <-]. exists 0, kc, r. rewrite Nat.add_0_r. split; [reflexivity|]. rewrite E1, E2, <- !app_assoc. repeat split. exact E3.
          * intros (j & kc' & r' & F1 & F2 & F3 & F4). rewrite E1, <- app_assoc in F2. apply app_inv_head in F2.
            cbn [app] in F2. injection F2 as F2 F5. apply app_inj_tail in F5. destruct F5 as [-> ->].
            rewrite E2, F3, <- app_assoc. cbn [app]. rewrite <- F2. reflexivity.
        + rewrite IHcs. split.
          * intros (j & kc' & r & F1 & F2 & F3 & F4). exists (S j), kc', r. replace (n + S j) with (S n + j) by lia. auto.
          * intros (j & kc' & r & F1 & F2 & F3 & F4). destruct j as [|j].
            -- cbn in F1. injection F1 as <-. exfalso. rewrite Nat.add_0_r in *.
               assert (Hs : find_parent (snd kc) (here ++ [n]) target = Some (here ++ n :: r, i)).
               { apply Hkc. exists r. rewrite <- !app_assoc. auto. }
               congruence.
            -- exists j, kc', r. replace (S n + j) with (n + S j) by lia. auto. }
    change (go cs 0 = Some (par, i) <-> exists r, target = here ++ r ++ [i] /\ par = here ++ r /\ node_at (PN v cs a) (r ++ [i]) <> None).
    rewrite (H 0). split.
    + intros (j & kc & r & F1 & F2 & F3 & F4). exists (j :: r). split; [exact F2|]. split; [exact F3|]. cbn [app node_at pn_children]. rewrite F1. exact F4.
    + intros (r & F1 & F2 & F3). destruct r as [|j r].
      * exfalso. cbn [app node_at pn_children] in F3. assert (Hl : i < length cs) by (apply nth_error_Some; intros Hn; rewrite Hn in F3; congruence).
        assert (Hs : find_index_of (length cs) 0 here target = Some i) by (apply find_index_of_spec; split; [exact F1|lia]). congruence.
      * cbn [app node_at pn_children] in F3. destruct (nth_error cs j) as [kc|] eqn:En; [|congruence]. exists j, kc, r. auto.
Qed.

Lemma try_find_parent_spec t target par i :
  try_find_parent t target = Some (par, i) <-> target = par ++ [i] /\ exists u, node_at t target = Some u.
Proof.
  unfold try_find_parent. rewrite find_parent_spec. cbn [app]. split.
  - intros (r & -> & -> & H). split; [reflexivity|]. destruct (node_at t (r ++ [i])); [eauto|congruence].
  - intros (-> & u & H). exists par. repeat split. congruence.
Qed.

Lemma count_children_spec t : count_children t = length (preorder t).
Proof.
  induction t as [v cs a IH] using pn_ind'. rewrite preorder_eq. cbn [count_children].
  assert (H : forall n i, fold_left (fun n kc => n + count_children (snd kc)) cs (n + length cs) = n + length (go_pre cs i)).
  { clear v a. induction IH as [|kc cs H _ IHcs]; intros n i; cbn [fold_left go_pre length]; [reflexivity|].
    fold go_pre. rewrite app_length, map_length, <- H. specialize (IHcs (n + 1 + count_children (snd kc)) (S i)).
    replace (n + S (length cs) + count_children (snd kc)) with (n + 1 + count_children (snd kc) + length cs) by lia. lia. }
  apply (H 0 0).
Qed.

Lemma count_layers_spec t : (forall p u, node_at t p = Some u -> length p <= count_layers t) /\
  exists p u, node_at t p = Some u /\ length p = count_layers t.
Proof.
  induction t as [v cs a IH] using pn_ind'. cbn [count_layers].
  assert (Hge : forall (cs : list (str * pn)) d, d <= fold_left (fun d kc => Nat.max d (count_layers (snd kc) + 1)) cs d).
  { clear. induction cs as [|kc cs IH]; intros d; cbn [fold_left]; [lia|]. specialize (IH (Nat.max d (count_layers (snd kc) + 1))). lia. }
  assert (Hup : forall d i kc, nth_error cs i = Some kc -> count_layers (snd kc) + 1 <= fold_left (fun d kc => Nat.max d (count_layers (snd kc) + 1)) cs d).
  { clear IH a v. induction cs as [|kc0 cs IH]; intros d i kc H; [destruct i; discriminate|]. cbn [fold_left]. destruct i as [|i].
    - cbn in H. injection H as ->. specialize (Hge cs (Nat.max d (count_layers (snd kc) + 1))). lia.
    - apply (IH _ _ _ H). }
  assert (Hex : forall d, fold_left (fun d kc => Nat.max d (count_layers (snd kc) + 1)) cs d = d \/
     exists i kc, nth_error cs i = Some kc /\ fold_left (fun d kc => Nat.max d (count_layers (snd kc) + 1)) cs d = count_layers (snd kc) + 1).
  { clear IH a v Hup. induction cs as [|kc0 cs IH]; intros d; [left; reflexivity|]. cbn [fold_left].
    destruct (IH (Nat.max d (count_layers (snd kc0) + 1))) as [E|(i & kc & E1 & E2)].
    - rewrite E. destruct (Nat.max_spec d (count_layers (snd kc0) + 1)) as [[_ ->]|[_ ->]]; [right|left; reflexivity]. exists 0, kc0. auto.
    - right. exists (S i), kc. auto. }
  rewrite Forall_forall in IH. split.
  - intros [|i p] u H; [cbn; lia|]. cbn [node_at pn_children] in H. destruct (nth_error cs i) as [kc|] eqn:E; [|discriminate].
    pose proof (Hup 0 i kc E) as H1. destruct (IH kc (nth_error_In _ _ E)) as [H2 _]. specialize (H2 p u H). cbn [length]. lia.
  - destruct (Hex 0) as [->|(i & kc & E & ->)].
    + exists [], (PN v cs a). split; reflexivity.
    + destruct (IH kc (nth_error_In _ _ E)) as [_ (p & u & H1 & H2)]. exists (i :: p), u. cbn [node_at pn_children length]. rewrite E. split; [exact H1|lia].
Qed.

(** ** Queries for nodes *)

Lemma plain_node d t p ks : plain_path d t p ks -> exists u, node_at t p = Some u.
Proof. induction 1 as [t|t i kc p ks H1 _ _ _ _ IH]; [exists t; reflexivity|]. cbn [node_at]. rewrite H1. exact IH. Qed.

Lemma plain_addresses d t p ks : plain_path d t p ks -> addresses t ks p.
Proof. induction 1 as [t|t i kc p ks H1 H2 _ _ _ IH]; [constructor|]. econstructor; [left; exact H2|exact H1|exact IH]. Qed.

Lemma plain_parts d t p ks : plain_path d t p ks -> p <> [] -> query_parts d (join [d] ks) ks.
Proof.
  intros H Hp. split; [|split; [reflexivity|]].
  - inversion H; subst; [congruence|discriminate].
  - clear Hp. induction H; constructor; auto.
Qed.

Lemma join_nonempty (d : ascii) (k : str) (ks : list str) : k <> [] -> join [d] (k :: ks) <> [].
Proof. intros H. destruct ks; [exact H|]. cbn [join]. destruct k; [congruence|discriminate]. Qed.

Lemma find_query_none t : forall here target d, (~ exists r, target = here ++ r /\ node_at t r <> None) -> find_query_from t here target d = None.
Proof.
  induction t as [v cs a IH] using pn_ind'. intros here target d H. cbn [find_query_from].
  destruct (path_eqb here target) eqn:E.
  { apply path_eqb_iff in E. exfalso. apply H. exists []. rewrite app_nil_r. split; [congruence|discriminate]. }
  assert (Hn : forall n, (forall j kc r, nth_error cs j = Some kc -> target = here ++ (n + j) :: r -> node_at (snd kc) r = None) ->
    (fix go (cs : list (str * pn)) (i : nat) : option str :=
         match cs with
         | [] => None
         | kc :: r =>
           match find_query_from (snd kc) (here ++ [i]) target d with
           | Some s => Some (match s with [] => fst kc | _ => fst kc ++ d :: s end)
           | None => go r (S i)
           end
         end) cs n = None).
  { clear H E. induction IH as [|kc cs Hkc _ IHcs]; intros n Hn; [reflexivity|].
    rewrite Hkc.
    - apply IHcs. intros j kc' r Hj Ht. apply (Hn (S j) kc' r Hj). rewrite Ht. do 2 f_equal. lia.
    - intros (r & -> & Hr). apply Hr. apply (Hn 0 kc r eq_refl). rewrite Nat.add_0_r, <- app_assoc. reflexivity. }
  apply Hn. intros j kc r Hj ->. destruct (node_at (snd kc) r) eqn:En; [|reflexivity]. exfalso. apply H. exists (j :: r).
  split; [reflexivity|]. cbn [node_at pn_children]. rewrite Hj, En. discriminate.
Qed.

Lemma find_query_plain d t : forall here p ks, plain_path d t p ks -> find_query_from t here (here ++ p) d = Some (join [d] ks).
Proof.
  induction t as [v cs a IH] using pn_ind'. intros here p ks H. cbn [find_query_from].
  inversion H as [|? i kc q ks' H1 H2 H3 H4 H5]; subst.
  - rewrite app_nil_r, (proj2 (path_eqb_iff _ _) eq_refl). reflexivity.
  - replace (path_eqb here (here ++ i :: q)) with false.
    2: { symmetry. apply not_true_iff_false. rewrite path_eqb_iff. intros E. apply (f_equal (@length nat)) in E. rewrite app_length in E. cbn in E. lia. }
    cbn [pn_children] in H1. clear H H2.
    assert (Hn : forall n cs j, nth_error cs j = Some kc -> Forall (fun kc => forall here p ks, plain_path d (snd kc) p ks ->
          find_query_from (snd kc) here (here ++ p) d = Some (join [d] ks)) cs ->
      (fix go (cs : list (str * pn)) (i : nat) : option str :=
         match cs with
         | [] => None
         | kc :: r =>
           match find_query_from (snd kc) (here ++ [i]) (here ++ (n + j) :: q) d with
           | Some s => Some (match s with [] => fst kc | _ => fst kc ++ d :: s end)
           | None => go r (S i)
           end
         end) cs n = Some (join [d] (fst kc :: ks'))).
    { clear H1 IH cs a v i. intros n cs. revert n. induction cs as [|kc0 cs IHcs]; intros n j Hj HF; [destruct j; discriminate|].
      inversion HF as [|? ? HF1 HF2]; subst. destruct j as [|j].
      - cbn in Hj. injection Hj as ->. rewrite Nat.add_0_r.
        assert (E : find_query_from (snd kc) (here ++ [n]) (here ++ n :: q) d = Some (join [d] ks')).
        { specialize (HF1 (here ++ [n]) q ks' H5). rewrite <- app_assoc in HF1. exact HF1. }
        rewrite E. f_equal. destruct ks' as [|k2 ks']; [reflexivity|]. change (join [d] (fst kc :: k2 :: ks')) with (fst kc ++ d :: join [d] (k2 :: ks')).
        inversion H5 as [|t5 i5 kc5 p5 ks5 G1 G2 G3 G4 G5]; subst. pose proof (join_nonempty d (fst kc5) ks' G3) as Hj. destruct (join [d] (fst kc5 :: ks')) as [|c s]; [congruence|reflexivity].
      - rewrite find_query_none.
        + replace (n + S j) with (S n + j) by lia. apply IHcs; assumption.
        + intros (r & E & _). rewrite <- app_assoc in E. apply app_inv_head in E. cbn in E. injection E as E _. lia. }
    apply (Hn 0 cs i H1 IH).
Qed.

Lemma plain_split d t p ks : plain_path d t p ks -> forall p1 i, p = p1 ++ [i] ->
  exists u kc ks1, node_at t p1 = Some u /\ nth_error (pn_children u) i = Some kc /\ ks = ks1 ++ [fst kc] /\ plain_path d t p1 ks1.
Proof.
  induction 1 as [t|t j kc p ks H1 H2 H3 H4 H5 IH]; intros p1 i E; [destruct p1; discriminate|].
  destruct p1 as [|x p1]; cbn [app] in E.
  - injection E as -> ->. inversion H5; subst. exists t, kc, []. repeat split; [exact H1|constructor].
  - injection E as <- ->. destruct (IH p1 i eq_refl) as (u & kc' & ks1 & A1 & A2 & A3 & A4).
    exists u, kc', (fst kc :: ks1). split; [cbn [node_at]; rewrite H1; exact A1|]. split; [exact A2|]. split; [cbn; congruence|]. econstructor; eauto.
Qed.

Lemma join_app (d : ascii) (a b : list str) : a <> [] -> b <> [] -> join [d] (a ++ b) = join [d] a ++ d :: join [d] b.
Proof.
  intros Ha Hb. induction a as [|x a IH]; [congruence|]. destruct a as [|y a].
  - cbn [app join]. destruct b; [congruence|reflexivity].
  - change (join [d] ((x :: y :: a) ++ b)) with (x ++ d :: join [d] ((y :: a) ++ b)). rewrite IH by discriminate.
    change (join [d] (x :: y :: a)) with (x ++ d :: join [d] (y :: a)). rewrite <- app_assoc. reflexivity.
Qed.

Lemma plain_nonempty d t p ks : plain_path d t p ks -> Forall (fun k => k <> []) ks.
Proof. induction 1; constructor; auto. Qed.

Lemma make_query_plain t : forall p ks fuel s, plain_path "."%char t p ks -> p <> [] -> length p < fuel ->
  (s = [] \/ s <> []) -> make_query_loop fuel t p s = Ok (join ["."%char] (ks ++ match s with [] => [] | _ => [s] end)).
Proof.
  intros p. remember (length p) as n eqn:En. revert p En. induction n as [|n IH]; intros p En ks fuel s Hp Hne Hf Hs.
  - destruct p; [congruence|discriminate].
  - destruct fuel as [|f]; [lia|]. destruct (exists_last Hne) as (p1 & i & ->). cbn [make_query_loop].
    destruct (plain_split _ _ _ _ Hp p1 i eq_refl) as (u & kc & ks1 & A1 & A2 & -> & A4).
    assert (E : try_find_parent t (p1 ++ [i]) = Some (p1, i)).
    { apply try_find_parent_spec. split; [reflexivity|]. eapply plain_node. exact Hp. }
    rewrite E, A1, (vec_get_ok _ _ _ A2). cbn [obind].
    assert (Hk : fst kc <> []).
    { apply plain_nonempty in Hp. apply Forall_app_iff in Hp. destruct Hp as [_ Hp]. inversion Hp; assumption. }
    set (s' := match s with [] => fst kc | _ => fst kc ++ "."%char :: s end).
    assert (Hs' : s' <> []) by (unfold s'; destruct s; [exact Hk|destruct (fst kc); discriminate]).
    assert (Es : join ["."%char] ((ks1 ++ [fst kc]) ++ match s with [] => [] | _ => [s] end) = join ["."%char] (ks1 ++ [s'])).
    { rewrite <- app_assoc. unfold s'. destruct s as [|c s]; [reflexivity|]. cbn [app].
      destruct ks1 as [|k1 ks1]; [reflexivity|]. rewrite !join_app by discriminate. reflexivity. }
    rewrite Es. rewrite app_length in En. cbn in En. destruct p1 as [|x p1].
    + inversion A4; subst. reflexivity.
    + rewrite (IH (x :: p1) ltac:(lia) ks1 f s' A4 ltac:(discriminate) ltac:(lia) ltac:(auto)). destruct s'; [congruence|reflexivity].
Qed.

Lemma node_query_assembled d t p ks : plain_path d t p ks -> p <> [] ->
  find_query_to_node t p d = Some (join [d] ks) /\ try_get_query t (join [d] ks) d = Ok (Some p) /\
  (d = "."%char -> make_prop_node_query t p = Ok (join [d] ks)).
Proof.
  intros H Hp. split; [apply (find_query_plain d t [] p ks H)|]. split.
  - destruct (try_get_query_spec t (join [d] ks) d ks (plain_parts _ _ _ _ H Hp)) as (r & Er & Hr). rewrite Er. f_equal. apply Hr.
    eapply plain_addresses. exact H.
  - intros ->. unfold make_prop_node_query. rewrite (make_query_plain t p ks (S (length p)) [] H Hp ltac:(lia) ltac:(auto)).
    rewrite app_nil_r. reflexivity.
Qed.

(** ** Typed access *)

Lemma assoc_first t k c : assoc (pn_children t) k = Some c <-> exists i, first_child t k i /\ nth_error (pn_children t) i = Some (k, c).
Proof.
  split.
  - intros H. assert (Ha : at_keys t [k] c) by (apply at_keys_step; exists c; split; [exact H|constructor]).
    inversion Ha as [|t' k' i c' ks' u' F1 F2 F3]; subst. inversion F3; subst. eauto.
  - intros (i & H1 & H2). rewrite assoc_index. apply first_child_iff in H1. unfold try_get_child in H1. rewrite H1, H2. reflexivity.
Qed.

Section Typed.
  Context {T : Type} (from_str : str -> option T).

  Lemma get_key_assoc t k : pn_get_key from_str t k = match assoc (pn_children t) k with Some c => pn_get from_str c | None => Throw end.
  Proof.
    unfold pn_get_key, get_child, try_get_child. rewrite assoc_index. destruct (child_index (pn_children t) k) as [i|] eqn:E; [|reflexivity].
    cbn [obind]. apply child_index_some in E. destruct E as [E _]. unfold vec_get. rewrite nth_error_map in E.
    destruct (nth_error (pn_children t) i); [reflexivity|discriminate].
  Qed.
  Lemma get_key_def_assoc t k def : pn_get_key_def from_str t k def = match assoc (pn_children t) k with Some c => pn_get from_str c | None => Ok def end.
  Proof.
    unfold pn_get_key_def, try_get_child. rewrite assoc_index. destruct (child_index (pn_children t) k) as [i|] eqn:E; [|reflexivity].
    apply child_index_some in E. destruct E as [E _]. unfold vec_get. rewrite nth_error_map in E.
    destruct (nth_error (pn_children t) i); [reflexivity|discriminate].
  Qed.
End Typed.

  Lemma any_child_some t ks i : try_get_any_child t ks = Some i <->
    exists pre k post, ks = pre ++ k :: post /\ Forall (fun x => ~ In x (pn_keys t)) pre /\ first_child t k i.
  Proof.
    induction ks as [|k ks IH]; cbn [try_get_any_child].
    - split; [discriminate|]. intros (pre & k & post & E & _). destruct pre; discriminate.
    - destruct (try_get_child t k) as [j|] eqn:E.
      + apply first_child_iff in E. split.
        * intros [= <-]. exists [], k, ks. auto.
        * intros (pre & k' & post & E1 & E2 & E3). destruct pre as [|x pre].
          -- injection E1 as -> ->. apply first_child_iff in E. apply first_child_iff in E3. congruence.
          -- injection E1 as -> ->. inversion E2; subst. apply first_child_in in E. tauto.
      + apply child_index_none in E. fold (pn_keys t) in E. rewrite IH. split.
        * intros (pre & k' & post & -> & E2 & E3). exists (k :: pre), k', post. auto.
        * intros (pre & k' & post & E1 & E2 & E3). destruct pre as [|x pre].
          -- injection E1 as -> ->. apply first_child_in in E3. tauto.
          -- injection E1 as -> ->. inversion E2; subst. exists pre, k', post. auto.
  Qed.

Lemma set_child_assoc t k v k2 : assoc (pn_children (set_child t k v)) k2 = if str_eqb k k2 then Some v else assoc (pn_children t) k2.
Proof.
  unfold set_child, get_or_add_child, try_get_child. destruct (child_index (pn_children t) k) as [i|] eqn:E.
  - cbn [update_at pn_children]. rewrite (assoc_upd _ _ _ _ _ E). destruct (str_eqb k k2); [|reflexivity].
    rewrite assoc_index, E. apply child_index_some in E. destruct E as [E _]. rewrite nth_error_map in E.
    destruct (nth_error (pn_children t) i); [reflexivity|discriminate].
  - rewrite update_at_add. cbn [update_at add_child pn_children]. rewrite assoc_app. destruct (str_eqb k k2) eqn:Ek.
    + apply str_eqb_eq in Ek. subst k2. rewrite assoc_index, E. reflexivity.
    + destruct (assoc (pn_children t) k2); reflexivity.
Qed.

Lemma set_child_keys t k v : pn_keys (set_child t k v) = pn_keys t ++ new_keys (pn_keys t) [k].
Proof.
  unfold set_child, get_or_add_child, try_get_child. rewrite new_keys_cons. cbn [new_keys filter].
  destruct (child_index (pn_children t) k) as [i|] eqn:E.
  - unfold pn_keys at 1. cbn [update_at pn_children]. rewrite upd_child_keys.
    destruct (in_dec (list_eq_dec ascii_dec) k (pn_keys t)) as [|Hn]; [symmetry; apply app_nil_r|]. apply child_index_none in Hn. congruence.
  - rewrite update_at_add. unfold pn_keys at 1. cbn [update_at add_child pn_children]. rewrite map_app. apply child_index_none in E.
    destruct (in_dec (list_eq_dec ascii_dec) k (pn_keys t)) as [Hi|]; [contradiction|reflexivity].
Qed.

Lemma set_child_others t k v : (forall i kc, nth_error (pn_children t) i = Some kc -> ~ first_child t k i -> nth_error (pn_children (set_child t k v)) i = Some kc) /\
  pn_value (set_child t k v) = pn_value t.
Proof.
  unfold set_child, get_or_add_child. destruct (try_get_child t k) as [j|] eqn:E.
  - split; [|reflexivity]. intros i kc Hi Hn. cbn [update_at pn_children]. rewrite nth_upd_child_neq; [exact Hi|].
    intros ->. apply Hn. apply first_child_iff, E.
  - rewrite update_at_add. split; [|reflexivity]. intros i kc Hi _. cbn [update_at add_child pn_children].
    rewrite nth_error_app1; [exact Hi|]. apply nth_error_Some. congruence.
Qed.

Lemma vector_round_trip {T} (to_str : T -> str) (from_str : str -> option T) l :
  (forall x, In x l -> from_str (to_str x) = Some x) -> pn_get_vector from_str (pn_of_vector to_str l) = Ok l.
Proof.
  intros H. unfold pn_get_vector, pn_of_vector.
  assert (E : forall l t, pn_children (fold_left (fun t x => add_child t [] (pn_of_value (to_str x))) l t) = pn_children t ++ map (fun x => ([], pn_of_value (to_str x))) l).
  { clear. induction l as [|x l IH]; intros t; cbn [fold_left map]; [symmetry; apply app_nil_r|]. rewrite IH. cbn [add_child pn_children]. rewrite <- app_assoc. reflexivity. }
  rewrite E. cbn [pn_empty pn_children app]. induction l as [|x l IH]; [reflexivity|]. cbn [map vector_loop snd].
  unfold pn_get at 1. cbn [pn_of_value pn_value]. rewrite (H x) by (left; reflexivity). cbn [obind].
  rewrite IH by (intros y Hy; apply H; right; exact Hy). reflexivity.
Qed.

Lemma get_all_spec {T} (from_str : str -> option T) t k l : pn_get_all from_str t k = Ok l <->
  Forall2 (fun kc v => from_str (pn_value (snd kc)) = Some v) (filter (fun kc => str_eqb (fst kc) k) (pn_children t)) l.
Proof.
  unfold pn_get_all. revert l. induction (pn_children t) as [|kc cs IH]; intros l; cbn [get_all_loop filter].
  - split; [intros [= <-]; constructor|intros H; inversion H; reflexivity].
  - destruct (str_eqb (fst kc) k); [|apply IH]. unfold pn_get. destruct (from_str (pn_value (snd kc))) as [v|] eqn:Ev; cbn [obind].
    + destruct (get_all_loop from_str cs k) as [l'| |] eqn:El; cbn [obind].
      * split.
        -- intros [= <-]. constructor; [exact Ev|]. apply IH. reflexivity.
        -- intros H. inversion H; subst. apply IH in H4. congruence.
      * split; [discriminate|]. intros H. inversion H; subst. apply IH in H4. discriminate.
      * split; [discriminate|]. intros H. inversion H; subst. apply IH in H4. discriminate.
    + split; [discriminate|]. intros H. inversion H; subst. congruence.
Qed.

(** ** prop_node_from_arg *)
Lemma from_arg_spec name (l : list (str * option str)) :
  Forall (fun e => match snd e with Some v => str_begins_with_char v "-" = false | None => True end) l ->
  prop_node_from_arg name (flat_map (fun e => ("-"%char :: fst e) :: match snd e with Some v => [v] | None => [] end) l) =
  PN name (map (fun e => (fst e, pn_of_value (match snd e with Some v => v | None => [] end))) l) false.
Proof.
  intros H. unfold prop_node_from_arg.
  assert (G : forall l t pend, Forall (fun e => match snd e with Some v => str_begins_with_char v "-" = false | None => True end) l ->
    from_arg_loop (flat_map (fun e : str * option str => ("-"%char :: fst e) :: match snd e with Some v => [v] | None => [] end) l) t pend =
    PN (pn_value t) (pn_children t ++ map (fun e => (fst e, pn_of_value (match snd e with Some v => v | None => [] end))) l) (pn_flag t)).
  { clear. induction l as [|[k o] l IH]; intros t pend H; cbn [flat_map map app].
    - cbn [from_arg_loop]. rewrite app_nil_r. destruct t; reflexivity.
    - inversion H as [|? ? H1 H2]; subst. cbn [fst snd] in *.
      assert (Hb : forall s, str_begins_with_char ("-"%char :: s) "-" = true) by (intros; apply begins_with_char_iff; eauto).
      destruct o as [v|].
      + cbn [app from_arg_loop]. rewrite Hb, H1. cbn [tl]. rewrite update_at_add. rewrite IH by exact H2.
        cbn [update_at add_child pn_value pn_children pn_flag]. rewrite <- app_assoc. reflexivity.
      + cbn [app from_arg_loop]. rewrite Hb. cbn [tl]. rewrite IH by exact H2.
        cbn [add_child pn_value pn_children pn_flag]. rewrite <- app_assoc. reflexivity. }
  etransitivity; [exact (G l (pn_of_value name) None H)|reflexivity].
Qed.

(** ** Assembled *)
Lemma is_accessed_iff t : is_accessed t = true <-> pn_value t = [] \/ pn_flag t = true.
Proof. unfold is_accessed, has_value. destruct (pn_flag t), (pn_value t); cbn; split; auto; intros [H|H]; discriminate. Qed.

Lemma same_of_nodes t : forall u, (forall p, match node_at t p, node_at u p with
     | Some x, Some y => pn_value x = pn_value y /\ pn_keys x = pn_keys y | None, None => True | _, _ => False end) -> same_tree t u.
Proof.
  induction t as [v cs a IH] using pn_ind'. intros [v2 c2 a2] H.
  pose proof (H []) as H0. cbn [node_at pn_value] in H0. destruct H0 as [<- Hk]. constructor. unfold pn_keys in Hk. cbn [pn_children] in Hk.
  assert (Hs : forall i p, match nth_error cs i, nth_error c2 i with
    | Some x, Some y => match node_at (snd x) p, node_at (snd y) p with
       | Some x, Some y => pn_value x = pn_value y /\ pn_keys x = pn_keys y | None, None => True | _, _ => False end
    | _, _ => True end).
  { intros i p. specialize (H (i :: p)). cbn [node_at pn_children] in H. destruct (nth_error cs i), (nth_error c2 i); auto. }
  clear H. revert c2 Hk Hs. induction IH as [|kc cs Hkc _ IHcs]; intros [|y c2] Hk Hs; try discriminate; constructor.
  - split; [cbn in Hk; congruence|]. apply Hkc. intros p. apply (Hs 0 p).
  - apply IHcs; [cbn in Hk; congruence|]. intros i p. apply (Hs (S i) p).
Qed.

Lemma eq_assembled t u w :
  (pn_eqb t u = true <-> same_tree t u) /\ pn_eqb t t = true /\ (pn_eqb t u = true -> pn_eqb u t = true) /\
  (pn_eqb t u = true -> pn_eqb u w = true -> pn_eqb t w = true) /\
  (same_tree t u -> forall p, match node_at t p, node_at u p with
     | Some x, Some y => pn_value x = pn_value y /\ pn_keys x = pn_keys y | None, None => True | _, _ => False end) /\
  ((forall p, match node_at t p, node_at u p with
     | Some x, Some y => pn_value x = pn_value y /\ pn_keys x = pn_keys y | None, None => True | _, _ => False end) -> same_tree t u).
Proof.
  split; [apply pn_eqb_iff|]. split; [apply pn_eqb_iff, same_refl|]. split; [rewrite !pn_eqb_iff; apply same_sym|].
  split; [rewrite !pn_eqb_iff; apply same_trans|]. split; [|apply same_of_nodes].
  intros H p. pose proof (same_node_at _ _ H p) as Hp. destruct (node_at t p), (node_at u p); auto. apply same_keys in Hp. tauto.
Qed.

Lemma str_eqb_sym_neq k k2 : k2 <> k -> str_eqb k k2 = false.
Proof. intros H. apply str_eqb_neq. congruence. Qed.

Lemma set_get_assembled {T : Type} (to_str : T -> str) (from_str : str -> option T) (t : pn) (k : str) (x : T) :
  from_str (to_str x) = Some x ->
  let t' := set_child t k (pn_of_value (to_str x)) in
  pn_get_key from_str t' k = Ok x /\ (forall d, pn_get_key_def from_str t' k d = Ok x) /\
  (forall k2, k2 <> k -> pn_get_key from_str t' k2 = pn_get_key from_str t k2 /\
     (forall d, pn_get_key_def from_str t' k2 d = pn_get_key_def from_str t k2 d)) /\
  pn_keys t' = pn_keys t ++ new_keys (pn_keys t) [k] /\ pn_value t' = pn_value t /\
  (forall i kc, nth_error (pn_children t) i = Some kc -> ~ first_child t k i -> nth_error (pn_children t') i = Some kc).
Proof.
  intros Hx t'. split; [|split; [|split; [|split; [|split]]]].
  - unfold t'. rewrite get_key_assoc, set_child_assoc, str_eqb_refl. unfold pn_get. cbn [pn_of_value pn_value]. rewrite Hx. reflexivity.
  - intros d. unfold t'. rewrite get_key_def_assoc, set_child_assoc, str_eqb_refl. unfold pn_get. cbn [pn_of_value pn_value]. rewrite Hx. reflexivity.
  - intros k2 Hn. split; [|intros d]; unfold t'; rewrite ?get_key_assoc, ?get_key_def_assoc, set_child_assoc, str_eqb_sym_neq by exact Hn; reflexivity.
  - apply set_child_keys.
  - apply set_child_others.
  - apply set_child_others.
Qed.

Lemma get_assembled {T : Type} (from_str : str -> option T) (t : pn) (k : str) (d : T) :
  (forall i c, first_child t k i -> nth_error (pn_children t) i = Some (k, c) ->
     (forall x, from_str (pn_value c) = Some x -> pn_get_key from_str t k = Ok x /\ pn_get_key_def from_str t k d = Ok x) /\
     (from_str (pn_value c) = None -> pn_get_key from_str t k = Throw /\ pn_get_key_def from_str t k d = Throw)) /\
  (~ In k (pn_keys t) -> pn_get_key from_str t k = Throw /\ pn_get_key_def from_str t k d = Ok d).
Proof.
  rewrite get_key_assoc, get_key_def_assoc. split.
  - intros i c H1 H2. assert (E : assoc (pn_children t) k = Some c) by (apply assoc_first; eauto). rewrite E. unfold pn_get. split.
    + intros x ->. auto.
    + intros ->. auto.
  - intros H. rewrite assoc_index. apply child_index_none in H. rewrite H. auto.
Qed.

Lemma get_any_assembled {T : Type} (from_str : str -> option T) (t : pn) (pre : list str) (k : str) (post : list str) (i : nat) (c : pn) (d : T) :
  Forall (fun x => ~ In x (pn_keys t)) pre ->
  (first_child t k i -> nth_error (pn_children t) i = Some (k, c) ->
     forall x, from_str (pn_value c) = Some x ->
       pn_get_any from_str t (pre ++ k :: post) = Ok x /\ pn_get_any_def from_str t (pre ++ k :: post) d = Ok x) /\
  pn_get_any from_str t pre = Throw /\ pn_get_any_def from_str t pre d = Ok d.
Proof.
  intros Hp. split.
  - intros H1 H2 x Hx. assert (E : try_get_any_child t (pre ++ k :: post) = Some i) by (apply any_child_some; exists pre, k, post; auto).
    unfold pn_get_any, pn_get_any_def. rewrite E, (vec_get_ok _ _ _ H2). cbn [obind snd]. unfold pn_get. rewrite Hx. auto.
  - assert (E : try_get_any_child t pre = None).
    { destruct (try_get_any_child t pre) as [j|] eqn:E; [|reflexivity]. exfalso. apply any_child_some in E.
      destruct E as (a & k' & b & -> & _ & Hf). apply Forall_app_iff in Hp. destruct Hp as [_ Hp]. inversion Hp; subst. apply first_child_in in Hf. tauto. }
    unfold pn_get_any, pn_get_any_def. rewrite E. auto.
Qed.

Lemma erase_other_delimiter_refuted : exists t q d p,
  try_get_query t q d = Ok (Some p) /\ erase_query t q d = Ok (t, false).
Proof.
  exists (PN [] [(lit "a.b", PN [] [(lit "c", pn_of_value (lit "1"))] false)] false), (lit "a.b/c"), "/"%char, [0; 0].
  split; [reflexivity|]. reflexivity.
Qed.

Lemma erase_by_index_refuted : exists t q t',
  try_get_query t q "."%char = Ok (Some [0]) /\ erase_query t q "."%char = Ok (t', false) /\ same_tree t t'.
Proof.
  exists (PN [] [(lit "a", pn_of_value (lit "1"))] false), (lit "#1"), (PN [] [(lit "a", pn_of_value (lit "1"))] true).
  split; [reflexivity|]. split; [reflexivity|]. apply pn_eqb_iff. reflexivity.
Qed.

Lemma empty_overwrite_refuted : exists t, ~ same_tree t (merge t pn_empty true).
Proof.
  exists (pn_of_value (lit "1")). intros H. apply pn_eqb_iff in H. discriminate.
Qed.

Lemma self_duplicate_refuted : exists t, ~ same_tree t (merge t t true).
Proof.
  exists (PN [] [([], pn_of_value (lit "1")); ([], pn_of_value (lit "2"))] false). intros H. apply pn_eqb_iff in H. discriminate.
Qed.

Lemma array_refuted : exists t p q, find_query_to_node t p "."%char = Some q /\ make_prop_node_query t p = Ok q /\
  try_get_query t q "."%char = Ok (Some [0]) /\ p = [0; 1].
Proof.
  exists (PN [] [(lit "a", PN [] [([], pn_of_value (lit "1")); ([], pn_of_value (lit "2"))] false)] false), [0; 1], (lit "a").
  repeat split.
Qed.

Lemma from_arg_refuted : exists name a b,
  prop_node_from_arg name [a; b] = PN name [([], pn_of_value b)] false /\ a <> b /\
  prop_node_from_arg name [lit "-x"; lit "-1"] = PN name [(lit "x", pn_empty); (lit "1", pn_empty)] false.
Proof.
  exists (lit "p"), (lit "in"), (lit "out"). split; [reflexivity|]. split; [discriminate|reflexivity].
Qed.
