(** Lemmas about the model of settings. *)
From Coq Require Import Ascii String List Arith Bool ZArith Lia ZifyBool.
From Verif Require Import Base BaseProofs Str StrModel StrBase StrProofs CastSpec CastModel CastProofs StrSpec PnSpec PnModel PnProofs PnProofs2 IniProofs SetSpec SetModel.
Import ListNotations.

(** the node at a list of keys, as a function *)
Fixpoint find (t : pn) (ks : list str) : option pn :=
  match ks with [] => Some t | k :: r => match assoc (pn_children t) k with Some c => find c r | None => None end end.
Lemma find_app t a b : find t (a ++ b) = match find t a with Some u => find u b | None => None end.
Proof. revert t. induction a as [|k a IH]; intros t; [reflexivity|]. cbn [app find]. destruct (assoc (pn_children t) k); [apply IH|reflexivity]. Qed.
Lemma find_iff t ks u : find t ks = Some u <-> at_keys t ks u.
Proof.
  revert t. induction ks as [|k ks IH]; intros t; cbn [find].
  - split; [intros [= <-]; constructor|]. intros H. inversion H. reflexivity.
  - rewrite at_keys_step. split.
    + destruct (assoc (pn_children t) k) as [c|]; [|discriminate]. intros H. exists c. split; [reflexivity|]. apply IH. exact H.
    + intros (c & -> & H). apply IH. exact H.
Qed.
Lemma key_by_name t k : by_name k -> try_get_query_key t k = child_index (pn_children t) k.
Proof.
  intros H. unfold try_get_query_key, try_get_child. destruct (child_index (pn_children t) k); [reflexivity|]. destruct k as [|c k]; [reflexivity|].
  cbn in H. unfold hash. destruct (Ascii.eqb_spec c "#"%char); [congruence|reflexivity].
Qed.
Lemma addresses_find t ks p : Forall by_name ks -> addresses t ks p -> exists u, node_at t p = Some u /\ find t ks = Some u.
Proof.
  intros F H. induction H as [t|t k i kc ks p H1 H2 H3 IH]; [exists t; auto|]. inversion F; subst. destruct (IH H5) as (u & U1 & U2). exists u. cbn [node_at find]. rewrite H2.
  split; [exact U1|]. apply query_key_iff in H1. rewrite (key_by_name _ _ H4) in H1. rewrite assoc_index, H1, H2. exact U2.
Qed.
Lemma find_addresses t ks u : Forall by_name ks -> find t ks = Some u -> exists p, addresses t ks p.
Proof.
  intros F. revert t. induction ks as [|k ks IH]; intros t; cbn [find]; [intros _; exists []; constructor|]. inversion F; subst. rewrite assoc_index.
  destruct (child_index (pn_children t) k) as [i|] eqn:E; [|discriminate]. destruct (nth_error (pn_children t) i) as [kc|] eqn:En; [|discriminate]. cbn. intros Hf.
  destruct (IH H2 _ Hf) as [p Hp]. exists (i :: p). econstructor; [|exact En|exact Hp]. apply query_key_iff. rewrite key_by_name by assumption. exact E.
Qed.
Lemma query_node_find t id ks : names id ks -> query_node t id = Ok (find t ks).
Proof.
  intros [Q F]. unfold query_node. destruct (try_get_query_spec t id dot ks Q) as (r & -> & Hr). cbn [obind]. f_equal. destruct r as [p|].
  - destruct (addresses_find t ks p F (proj1 (Hr p) eq_refl)) as (u & U1 & U2). congruence.
  - destruct (find t ks) as [u|] eqn:E; [|reflexivity]. destruct (find_addresses t ks u F E) as [p Hp]. apply Hr in Hp. discriminate.
Qed.
Lemma child_node_find t k : child_node t k = find t [lit k].
Proof. unfold child_node, try_get_child. cbn [find]. rewrite assoc_index. destruct (child_index (pn_children t) (lit k)) as [i|]; [|reflexivity]. destruct (nth_error (pn_children t) i); reflexivity. Qed.
Lemma has_child_iff t k c : has_child t k c <-> child_node t k = Some c.
Proof. rewrite child_node_find. unfold has_child. symmetry. apply find_iff. Qed.
Lemma has_key_iff t k : has_key t (lit k) = match child_node t k with Some _ => true | None => false end.
Proof.
  unfold has_key, child_node, try_get_child. destruct (child_index (pn_children t) (lit k)) as [i|] eqn:E; [|reflexivity].
  apply child_index_some in E. destruct E as [E _]. destruct (nth_error (pn_children t) i) eqn:En; [reflexivity|]. rewrite nth_error_map, En in E. discriminate.
Qed.
Lemma find_setting_ok schema id ks : names id ks -> exists r, try_find_setting schema id = Ok r /\ forall s, r = Some s <-> setting schema ks s.
Proof.
  intros N. unfold try_find_setting. rewrite (query_node_find schema id ks N). cbn [obind]. eexists. split; [reflexivity|]. intros s.
  unfold setting. rewrite <- find_iff. destruct (find schema ks) as [u|]; [|split; [discriminate|intros [H _]; discriminate]].
  rewrite has_key_iff. destruct (child_node u "default") as [d|] eqn:E.
  - split; [intros [= <-]; split; [reflexivity|exists d; apply has_child_iff; exact E]|]. intros [H _]. congruence.
  - split; [discriminate|]. intros [[= <-] (d & Hd)]. apply has_child_iff in Hd. congruence.
Qed.

(** setting and erasing, one level at a time *)
Lemma child_index_none' cs k : child_index cs k = None -> ~ In k (map fst cs).
Proof. intros H. apply child_index_none in H. exact H. Qed.
Lemma assoc_none cs k : assoc cs k = None <-> ~ In k (map fst cs).
Proof.
  rewrite assoc_index. destruct (child_index cs k) as [i|] eqn:E.
  - apply child_index_some in E. destruct E as [E _]. split.
    + intros H. rewrite nth_error_map in E. destruct (nth_error cs i); discriminate.
    + intros H. exfalso. apply H. eapply nth_error_In. exact E.
  - split; [|reflexivity]. intros _. apply child_index_none. exact E.
Qed.
Lemma setk_level t k ks v : by_name k ->
  let t' := fst (setk t (k :: ks) v) in let c0 := match assoc (pn_children t) k with Some c => c | None => pn_empty end in
  (forall k', assoc (pn_children t') k' = if str_eqb k k' then Some (fst (setk c0 ks v)) else assoc (pn_children t) k') /\
  (pn_keys t' = pn_keys t \/ pn_keys t' = pn_keys t ++ [k] /\ ~ In k (pn_keys t)) /\ pn_value t' = pn_value t.
Proof.
  intros B. cbn [setk]. rewrite (key_by_name _ _ B). rewrite (assoc_index (pn_children t) k). destruct (child_index (pn_children t) k) as [i|] eqn:E.
  - pose proof E as E'. apply child_index_some in E. destruct E as [E _]. rewrite nth_error_map in E. destruct (nth_error (pn_children t) i) as [kc|] eqn:En; [|discriminate]. injection E as E.
    cbn [option_map fst pn_children pn_value]. split; [|split; [|reflexivity]; left; unfold pn_keys; cbn [pn_children]; apply upd_child_keys]. intros k'. rewrite (assoc_upd _ k' k i _ E').
    destruct (str_eqb k k') eqn:Ek; [|reflexivity]. apply str_eqb_eq in Ek. subst k'. rewrite assoc_index, E', En. reflexivity.
  - cbn [fst]. unfold add_child. cbn [pn_children pn_value]. split; [|split; [|reflexivity]].
    + intros k'. rewrite assoc_app. destruct (str_eqb k k') eqn:Ek.
      * apply str_eqb_eq in Ek. subst k'. rewrite assoc_index, E. reflexivity.
      * destruct (assoc (pn_children t) k'); reflexivity.
    + right. unfold pn_keys. cbn [pn_children]. rewrite map_app. split; [reflexivity|]. apply child_index_none'. exact E.
Qed.
Lemma find_empty ks : ks <> [] -> find pn_empty ks = None.
Proof. destruct ks; [congruence|reflexivity]. Qed.
Lemma setk_here ks : forall t v r, Forall by_name ks -> find (fst (setk t ks v)) (ks ++ r) = find v r.
Proof.
  induction ks as [|k ks IH]; intros t v r F; [reflexivity|]. inversion F; subst. cbn [app find]. destruct (setk_level t k ks v H1) as [L _]. rewrite L, str_eqb_refl. apply IH. assumption.
Qed.
Lemma setk_there ks : forall t v ks', Forall by_name ks -> ~ is_prefix ks ks' -> ~ is_prefix ks' ks -> find (fst (setk t ks v)) ks' = find t ks'.
Proof.
  induction ks as [|k ks IH]; intros t v ks' F N1 N2; [exfalso; apply N1; exists ks'; reflexivity|]. inversion F; subst.
  destruct ks' as [|k' ks']; [exfalso; apply N2; exists (k :: ks); reflexivity|]. cbn [find]. destruct (setk_level t k ks v H1) as [L _]. rewrite L.
  destruct (str_eqb k k') eqn:Ek; [|reflexivity]. apply str_eqb_eq in Ek. subst k'.
  assert (M1 : ~ is_prefix ks ks') by (intros (r & ->); apply N1; exists r; reflexivity).
  assert (M2 : ~ is_prefix ks' ks) by (intros (r & ->); apply N2; exists r; reflexivity).
  rewrite IH by assumption. destruct (assoc (pn_children t) k); [reflexivity|]. apply find_empty. intros ->. apply M2. exists ks. reflexivity.
Qed.
Lemma setk_keys p : forall t v k r u, Forall by_name (p ++ k :: r) -> find (fst (setk t (p ++ k :: r) v)) p = Some u ->
  match find t p with Some w => pn_keys u = pn_keys w \/ pn_keys u = pn_keys w ++ [k] /\ ~ In k (pn_keys w) | None => pn_keys u = [k] end.
Proof.
  induction p as [|k0 p IH]; intros t v k r u F; cbn [app find] in *; inversion F; subst.
  - intros [= <-]. destruct (setk_level t k r v H1) as (_ & K & _). exact K.
  - destruct (setk_level t k0 (p ++ k :: r) v H1) as [L _]. rewrite L, str_eqb_refl. intros H. specialize (IH _ _ _ _ _ H2 H).
    destruct (assoc (pn_children t) k0) as [c|]; [exact IH|]. destruct p as [|k1 p].
    + cbn [find] in IH. destruct IH as [IH|[IH _]]; [|exact IH]. exfalso. cbn [app] in *.
      destruct (setk_level pn_empty k r v ltac:(inversion H2; assumption)) as [L2 _]. assert (Hu : Some (fst (setk pn_empty (k :: r) v)) = Some u) by exact H. assert (Eu : u = fst (setk pn_empty (k :: r) v)) by congruence. rewrite Eu in IH.
      assert (X : assoc (pn_children (fst (setk pn_empty (k :: r) v))) k = None) by (apply assoc_none; change (~ In k (pn_keys (fst (setk pn_empty (k :: r) v)))); rewrite IH; intros []).
      rewrite L2, str_eqb_refl in X. discriminate.
    + rewrite find_empty in IH by discriminate. exact IH.
Qed.

Lemma setk_value p : forall t v k r u, Forall by_name (p ++ k :: r) -> find (fst (setk t (p ++ k :: r) v)) p = Some u ->
  pn_value u = match find t p with Some w => pn_value w | None => [] end.
Proof.
  induction p as [|k0 p IH]; intros t v k r u F; cbn [app find] in *; inversion F; subst.
  - intros Hu. assert (u = fst (setk t (k :: r) v)) as -> by congruence. apply (setk_level t k r v H1).
  - destruct (setk_level t k0 (p ++ k :: r) v H1) as [L _]. rewrite L, str_eqb_refl. intros H. specialize (IH _ _ _ _ _ H2 H). rewrite IH.
    destruct (assoc (pn_children t) k0) as [c|]; [reflexivity|]. destruct p; reflexivity.
Qed.

Lemma erk_level t k ks : by_name k -> ks <> [] ->
  (forall k', assoc (pn_children (fst (erk t (k :: ks)))) k' = if str_eqb k k' then option_map (fun c => fst (erk c ks)) (assoc (pn_children t) k) else assoc (pn_children t) k') /\
  pn_keys (fst (erk t (k :: ks))) = pn_keys t /\ pn_value (fst (erk t (k :: ks))) = pn_value t.
Proof.
  intros B N. destruct ks as [|k2 ks]; [congruence|]. set (rest := k2 :: ks).
  assert (E : erk t (k :: rest) = match try_get_query_key t k with
      | Some i =>
        match nth_error (pn_children t) i with
        | Some kc => let x := erk (snd kc) rest in (PN (pn_value t) (upd_child (pn_children t) i (fun _ => fst x)) (pn_flag t), snd x)
        | None => (t, false)
        end
      | None => (t, false)
      end) by reflexivity.
  rewrite E, (key_by_name _ _ B). destruct (child_index (pn_children t) k) as [i|] eqn:Ei.
  - pose proof Ei as E'. apply child_index_some in Ei. destruct Ei as [Ei _]. rewrite nth_error_map in Ei. destruct (nth_error (pn_children t) i) as [kc|] eqn:En; [|discriminate]. injection Ei as Ei.
    cbn [fst pn_children pn_value]. split; [|split; [unfold pn_keys; cbn [pn_children]; apply upd_child_keys|reflexivity]]. intros k'. rewrite (assoc_upd _ k' k i _ E').
    destruct (str_eqb k k') eqn:Ek; [|reflexivity]. apply str_eqb_eq in Ek. subst k'. rewrite assoc_index, E', En. reflexivity.
  - cbn [fst]. split; [|split; reflexivity]. intros k'. destruct (str_eqb k k') eqn:Ek; [|reflexivity]. apply str_eqb_eq in Ek. subst k'. rewrite assoc_index, Ei. reflexivity.
Qed.
Lemma assoc_split cs a c b k : cs = a ++ (k, c) :: b -> ~ In k (map fst a) -> ~ In k (map fst b) -> forall k', assoc (a ++ b) k' = if str_eqb k k' then None else assoc cs k'.
Proof.
  intros -> Na Nb k'. destruct (str_eqb k k') eqn:E.
  - apply str_eqb_eq in E. subst k'. apply assoc_none. rewrite map_app. intros H. apply in_app_or in H. tauto.
  - clear Na. induction a as [|x a IH]; cbn [app assoc]; [cbn [fst]; rewrite E; reflexivity|]. destruct (str_eqb (fst x) k'); [reflexivity|exact IH].
Qed.
Lemma erase_level t k : NoDup (pn_keys t) ->
  (forall k', assoc (pn_children (fst (erase t k))) k' = if str_eqb k k' then None else assoc (pn_children t) k') /\ NoDup (pn_keys (fst (erase t k))) /\ incl (pn_keys (fst (erase t k))) (pn_keys t) /\ pn_value (fst (erase t k)) = pn_value t.
Proof.
  intros ND. destruct (erase_spec t k) as [E1 E2]. destruct (in_dec (list_eq_dec ascii_dec) k (pn_keys t)) as [H|H].
  - destruct (key_split _ _ H) as (a & c & b & E & Na). rewrite (E1 _ _ _ E Na). cbn [fst pn_children]. unfold pn_keys in *. rewrite E, map_app in ND. cbn [map fst] in ND.
    apply NoDup_remove in ND. destruct ND as [ND Nk]. rewrite <- map_app in ND. split; [|split; [exact ND|split; [intros x Hx; cbn [pn_children] in Hx; rewrite map_app in Hx; rewrite E, map_app; apply in_app_or in Hx; apply in_or_app; cbn; tauto|reflexivity]]]. apply (assoc_split _ a c b k E Na). intros X. apply Nk. apply in_or_app. auto.
  - rewrite (E2 H). cbn [fst pn_children]. split; [|split; [exact ND|split; [intros x Hx; exact Hx|reflexivity]]]. intros k'. destruct (str_eqb k k') eqn:E; [|reflexivity]. apply str_eqb_eq in E. subst k'. apply assoc_none. exact H.
Qed.

(** the nodes above [ks] have distinct keys *)
Definition distinct_above (t : pn) (ks : list str) : Prop := forall p k r u, ks = p ++ k :: r -> find t p = Some u -> NoDup (pn_keys u).
Lemma distinct_step t k ks c : distinct_above t (k :: ks) -> assoc (pn_children t) k = Some c -> distinct_above c ks.
Proof. intros H E p k' r u -> Hu. apply (H (k :: p) k' r u); [reflexivity|]. cbn [find]. rewrite E. exact Hu. Qed.
Lemma erk_here ks : forall t, ks <> [] -> Forall by_name ks -> distinct_above t ks -> find (fst (erk t ks)) ks = None.
Proof.
  induction ks as [|k ks IH]; intros t N F H; [congruence|]. inversion F; subst. destruct ks as [|k2 ks].
  - cbn [erk find]. destruct (erase_level t k) as [L _]; [exact (H [] k [] t eq_refl eq_refl)|]. rewrite L, str_eqb_refl. reflexivity.
  - cbn [find]. destruct (erk_level t k (k2 :: ks) H2) as [L _]; [discriminate|]. rewrite L, str_eqb_refl. destruct (assoc (pn_children t) k) as [c|] eqn:E; [|reflexivity].
    cbn [option_map]. apply IH; [discriminate|assumption|]. exact (distinct_step _ _ _ _ H E).
Qed.
Lemma erk_there ks : forall t ks', ks <> [] -> Forall by_name ks -> distinct_above t ks -> ~ is_prefix ks ks' -> ~ is_prefix ks' ks -> find (fst (erk t ks)) ks' = find t ks'.
Proof.
  induction ks as [|k ks IH]; intros t ks' N F H N1 N2; [congruence|]. inversion F; subst.
  destruct ks' as [|k' ks']; [exfalso; apply N2; exists (k :: ks); reflexivity|]. cbn [find]. destruct ks as [|k2 ks].
  - cbn [erk]. destruct (erase_level t k) as [L _]; [exact (H [] k [] t eq_refl eq_refl)|]. rewrite L. destruct (str_eqb k k') eqn:E; [|reflexivity].
    apply str_eqb_eq in E. subst k'. exfalso. apply N1. exists ks'. reflexivity.
  - destruct (erk_level t k (k2 :: ks) H2) as [L _]; [discriminate|]. rewrite L. destruct (str_eqb k k') eqn:Ek; [|reflexivity]. apply str_eqb_eq in Ek. subst k'.
    destruct (assoc (pn_children t) k) as [c|] eqn:E; [|reflexivity]. cbn [option_map]. apply IH; [discriminate|assumption|exact (distinct_step _ _ _ _ H E)| |].
    + intros (r & ->). apply N1. exists r. reflexivity.
    + intros (r & Er). apply N2. exists r. cbn. congruence.
Qed.
Lemma erk_keys p : forall t k r u, Forall by_name (p ++ k :: r) -> distinct_above t (p ++ k :: r) -> find (fst (erk t (p ++ k :: r))) p = Some u ->
  exists w, find t p = Some w /\ NoDup (pn_keys u) /\ incl (pn_keys u) (pn_keys w) /\ pn_value u = pn_value w.
Proof.
  induction p as [|k0 p IH]; intros t k r u F H; cbn [app find] in *; inversion F; subst.
  - intros Hu. assert (u = fst (erk t (k :: r))) as -> by congruence. clear Hu. exists t. split; [reflexivity|]. assert (ND : NoDup (pn_keys t)) by exact (H [] k r t eq_refl eq_refl). destruct r as [|k2 r].
    + cbn [erk]. apply (erase_level t k ND).
    + destruct (erk_level t k (k2 :: r) H2) as (_ & -> & ->); [discriminate|]. split; [exact ND|]. split; [intros x Hx; exact Hx|reflexivity].
  - destruct (erk_level t k0 (p ++ k :: r) H2) as [L _]; [destruct p; discriminate|]. rewrite L, str_eqb_refl. destruct (assoc (pn_children t) k0) as [c|] eqn:E; [|discriminate].
    cbn [option_map]. intros Hu. apply (IH c k r u H3); [exact (distinct_step _ _ _ _ H E)|exact Hu].
Qed.
Lemma erase_query_erk t id ks : names id ks -> erase_query t id dot = Ok (erk t ks).
Proof.
  intros [Q F]. unfold erase_query. apply erase_loop_spec; [exact Q| |lia]. destruct Q as (N & _ & Fd). clear F.
  induction ks as [|k ks IH]; [constructor|]. destruct ks as [|k2 ks]; [constructor|]. change (removelast (k :: k2 :: ks)) with (k :: removelast (k2 :: ks)). inversion Fd; subst.
  constructor; [assumption|]. apply IH; [discriminate|assumption].
Qed.

Lemma names_parts id ks : names id ks -> ks <> [] /\ Forall by_name ks /\ Forall plain_key ks.
Proof.
  intros [(N & _ & F1) F2]. split; [exact N|]. split; [exact F2|]. apply Forall_forall. intros k Hk. rewrite Forall_forall in F1, F2. split; auto.
Qed.
Lemma join_app (d : str) a b : a <> [] -> b <> [] -> join d (a ++ b) = join d a ++ d ++ join d b.
Proof.
  intros Na Nb. induction a as [|x a IH]; [congruence|]. destruct a as [|y a].
  - destruct b as [|z b]; [congruence|]. reflexivity.
  - change (join d ((x :: y :: a) ++ b)) with (x ++ d ++ join d ((y :: a) ++ b)). rewrite IH by discriminate.
    change (join d (x :: y :: a)) with (x ++ d ++ join d (y :: a)). rewrite !app_assoc. reflexivity.
Qed.
Lemma names_app id k ks ks2 : names id ks -> names k ks2 -> names (id ++ dot :: k) (ks ++ ks2).
Proof.
  intros [(N1 & E1 & F1) G1] [(N2 & E2 & F2) G2]. split; [|apply Forall_app; auto]. split; [destruct ks; [congruence|discriminate]|]. split; [|apply Forall_app; auto].
  rewrite join_app by assumption. rewrite <- E1, <- E2. reflexivity.
Qed.
Lemma names_plain k : plain_key k -> names k [k].
Proof. intros [B N]. split; [|constructor; [exact B|constructor]]. split; [discriminate|]. split; [reflexivity|]. constructor; [exact N|constructor]. Qed.

(** data of settings: what is outside the settings are groups *)
Definition groups (schema data : pn) : Prop :=
  forall p u, find data p = Some u -> outside schema p -> NoDup (pn_keys u) /\ Forall plain_key (pn_keys u) /\ pn_value u = [].
Lemma outside_prefix schema a b : outside schema (a ++ b) -> outside schema a.
Proof. intros H x y s ->. apply (H x (y ++ b) s). rewrite app_assoc. reflexivity. Qed.
Lemma above_outside schema ks s p k r : separate schema -> setting schema ks s -> ks = p ++ k :: r -> outside schema p.
Proof. intros S H -> a b s' -> H'. rewrite <- app_assoc in H. specialize (S _ _ _ _ H' H). destruct b; discriminate. Qed.
Lemma groups_above schema data ks s : separate schema -> groups schema data -> setting schema ks s -> distinct_above data ks.
Proof. intros S G H p k r u E Hu. apply (G p u Hu). exact (above_outside _ _ _ _ _ _ S H E). Qed.
Lemma prefix_dec (a b : list str) : {r | b = a ++ r} + {~ is_prefix a b}.
Proof.
  revert b. induction a as [|x a IH]; intros b; [left; exists b; reflexivity|]. destruct b as [|y b]; [right; intros (r & H); discriminate|].
  destruct (list_eq_dec ascii_dec x y) as [->|N].
  - destruct (IH b) as [(r & ->)|N]; [left; exists r; reflexivity|right; intros (r & H); apply N; exists r; injection H as ->; reflexivity].
  - right. intros (r & H). injection H as -> _. congruence.
Qed.
Lemma groups_empty schema : groups schema pn_empty.
Proof.
  intros p u H _. destruct p; [|rewrite find_empty in H by discriminate; discriminate]. injection H as <-. split; [constructor|]. split; [constructor|reflexivity].
Qed.
Lemma groups_set schema data ks s v : separate schema -> setting schema ks s -> Forall plain_key ks -> groups schema data -> groups schema (fst (setk data ks v)).
Proof.
  intros S H P G p u Hu O. assert (B : Forall by_name ks) by (eapply Forall_impl; [|exact P]; intros k [K _]; exact K).
  destruct (prefix_dec ks p) as [(r & ->)|N1]; [exfalso; exact (O ks r s eq_refl H)|]. destruct (prefix_dec p ks) as [(r & ->)|N2].
  - destruct r as [|k r]; [exfalso; apply N1; exists []; rewrite !app_nil_r; reflexivity|]. pose proof (setk_keys p data v k r u B Hu) as K. pose proof (setk_value p data v k r u B Hu) as V.
    assert (Pk : plain_key k) by (rewrite Forall_forall in P; apply P, in_or_app; right; left; reflexivity).
    destruct (find data p) as [w|] eqn:E.
    + destruct (G p w E O) as (G1 & G2 & G3). rewrite V. destruct K as [->|[-> Nk]]; [auto|]. split; [apply NoDup_rev in G1; rewrite <- (rev_involutive (pn_keys w ++ [k])); apply NoDup_rev; rewrite rev_app_distr; cbn; constructor; [rewrite <- in_rev; exact Nk|exact G1]|].
      split; [apply Forall_app; auto|exact G3].
    + rewrite K, V. split; [constructor; [intros []|constructor]|]. split; [auto|reflexivity].
  - rewrite setk_there in Hu by assumption. exact (G p u Hu O).
Qed.
Lemma groups_erase schema data ks s : separate schema -> setting schema ks s -> ks <> [] -> Forall by_name ks -> groups schema data -> groups schema (fst (erk data ks)).
Proof.
  intros S H Nk B G p u Hu O. pose proof (groups_above _ _ _ _ S G H) as A.
  destruct (prefix_dec ks p) as [(r & ->)|N1]; [exfalso; exact (O ks r s eq_refl H)|]. destruct (prefix_dec p ks) as [(r & ->)|N2].
  - destruct r as [|k r]; [exfalso; apply N1; exists []; rewrite !app_nil_r; reflexivity|]. destruct (erk_keys p data k r u B A Hu) as (w & Hw & D & I & V).
    destruct (G p w Hw O) as (G1 & G2 & G3). split; [exact D|]. split; [|congruence]. apply Forall_forall. intros x Hx. rewrite Forall_forall in G2. apply G2, I, Hx.
  - rewrite erk_there in Hu by assumption. exact (G p u Hu O).
Qed.

Lemma pn_is_empty_iff v : pn_is_empty v = true <-> pn_value v = [] /\ pn_children v = [].
Proof.
  unfold pn_is_empty, has_value, pn_size. destruct (pn_value v), (pn_children v); cbn; split; intros H; try discriminate; try (destruct H; discriminate); auto.
Qed.
Lemma from_str_bool_iff s b : snd (from_str_bool s b) = true <-> In s (map lit ["1"; "true"; "yes"; "0"; "false"; "no"]%string).
Proof.
  unfold from_str_bool, equals_any. cbn [existsb map]. rewrite !orb_false_r.
  split.
  - destruct (str_eqb s (lit "1")) eqn:E1; [apply str_eqb_eq in E1; cbn; auto|]. destruct (str_eqb s (lit "true")) eqn:E2; [apply str_eqb_eq in E2; cbn; auto|].
    destruct (str_eqb s (lit "yes")) eqn:E3; [apply str_eqb_eq in E3; cbn; auto|]. cbn [orb].
    destruct (str_eqb s (lit "0")) eqn:E4; [apply str_eqb_eq in E4; cbn; auto|]. destruct (str_eqb s (lit "false")) eqn:E5; [apply str_eqb_eq in E5; cbn; auto 6|].
    destruct (str_eqb s (lit "no")) eqn:E6; [apply str_eqb_eq in E6; cbn; auto 7|]. cbn. discriminate.
  - intros [<-|[<-|[<-|[<-|[<-|[<-|[]]]]]]]; reflexivity.
Qed.

Section Facts.
  Context {D : Type} (to_d : str -> D * bool) (d_str : D -> str) (dle dlt : D -> D -> bool) (is_color is_vec3 : pn -> bool).
  Notation range_of := (range_of to_d).
  Notation type_fails := (type_fails to_d dle is_color is_vec3).
  Notation type_ok := (type_ok to_d dle is_color is_vec3).
  Notation try_set := (try_set to_d d_str dle dlt is_color is_vec3).
  Notation restricted := (restricted dle).

  Lemma type_fails_iff ty v : type_fails ty v = false <-> of_type to_d dle is_color is_vec3 ty v.
  Proof.
    assert (T : forall n (b : bool) (P : Prop), (b = true <-> P) -> (str_eqb ty (lit n) && negb b = false <-> (ty = lit n -> P))).
    { intros n b P H. destruct (str_eqb ty (lit n)) eqn:E; cbn [andb].
      - apply str_eqb_eq in E. destruct b; cbn; split; intros X; try reflexivity; try discriminate; try (intros _; apply H; reflexivity). specialize (X E). apply H in X. discriminate.
      - apply str_eqb_neq in E. split; [intros _ X; congruence|reflexivity]. }
    unfold SetModel.type_fails, of_type. rewrite !orb_false_iff.
    rewrite (T "float"%string _ (exists d, to_d (pn_value v) = (d, true) /\ ~ is_nan dle d)).
    2: { destruct (to_d (pn_value v)) as [d ok]. unfold is_nan. split.
         - intros H. apply andb_prop in H. destruct H as [-> H]. exists d. split; [reflexivity|congruence].
         - intros (d' & [= <- ->] & H). cbn. destruct (dle d d); [reflexivity|congruence]. }
    rewrite (T "int"%string _ (exists z, from_str_int KInt (pn_value v) = (z, true) /\ z <> kind_min KInt)).
    2: { destruct (from_str_int KInt (pn_value v)) as [z ok]. split.
         - intros H. apply andb_prop in H. destruct H as [-> H]. exists z. split; [reflexivity|lia].
         - intros (z' & [= <- ->] & H). cbn [andb]. lia. }
    rewrite (T "bool"%string _ _ (from_str_bool_iff _ _)).
    rewrite (T "color"%string (is_color v) _ (iff_refl _)), (T "vec3"%string (is_vec3 v) _ (iff_refl _)). tauto.
  Qed.
  Lemma allowed_iff s v : (match child_node s "allowed" with Some l => negb (existsb (fun kc => pn_eqb (snd kc) v) (pn_children l)) | None => false end) = false <-> allowed_ok s v.
  Proof.
    unfold allowed_ok. destruct (child_node s "allowed") as [l|] eqn:E.
    - rewrite negb_false_iff, existsb_exists. split.
      + intros ([k a] & H1 & H2) l' Hl. apply has_child_iff in Hl. assert (l' = l) as -> by congruence. exists k, a. split; [exact H1|]. apply pn_eqb_iff. exact H2.
      + intros H. apply has_child_iff in E. destruct (H l E) as (k & a & H1 & H2). exists (k, a). split; [exact H1|]. apply pn_eqb_iff. exact H2.
    - split; [|reflexivity]. intros _ l Hl. apply has_child_iff in Hl. congruence.
  Qed.
  Lemma type_iff s v : type_fails (match child_node s "type" with Some t => pn_value t | None => [] end) v = false <-> type_ok s v.
  Proof.
    unfold SetSpec.type_ok. destruct (child_node s "type") as [t|] eqn:E.
    - rewrite type_fails_iff. split; [intros H t' Ht; apply has_child_iff in Ht; congruence|]. intros H. apply H. apply has_child_iff. exact E.
    - split; [|reflexivity]. intros _ t Ht. apply has_child_iff in Ht. congruence.
  Qed.

  (** what try_set does with a setting *)
  Definition verdict (s dflt v : pn) : outcome (option (option pn)) :=
    if pn_eqb v dflt || pn_is_empty v then Ok (Some None)
    else if type_fails (match child_node s "type" with Some t => pn_value t | None => [] end) v then Ok None
    else if match child_node s "allowed" with Some l => negb (existsb (fun kc => pn_eqb (snd kc) v) (pn_children l)) | None => false end then Ok None
    else do r <- range_of s;
      match r with
      | Some b => do _ <- get_d to_d dflt; let d := fst (to_d (pn_value v)) in Ok (Some (Some (pn_of_value (d_str (if is_within dle b d then d else clamp_d dlt b d)))))
      | None => Ok (Some (Some v))
      end.
  Definition store (data : pn) (ks : list str) (o : option (option pn)) : pn * bool :=
    match o with None => (data, false) | Some None => (fst (erk data ks), true) | Some (Some u) => (fst (setk data ks u), true) end.
  Lemma try_set_verdict schema data id ks v s dflt : names id ks -> setting schema ks s -> child_node s "default" = Some dflt ->
    try_set schema data id v = obind (verdict s dflt v) (fun o => Ok (store data ks o)).
  Proof.
    intros N H Hd. unfold SetModel.try_set, verdict. destruct (find_setting_ok schema id ks N) as (r & -> & Hr). cbn [obind]. apply Hr in H. subst r. rewrite Hd.
    rewrite (erase_query_erk data id ks N). assert (Q : forall u, set_query data id u dot = Ok (setk data ks u)) by (intros u; apply set_query_spec; apply N).
    destruct (pn_eqb v dflt || pn_is_empty v); [reflexivity|]. destruct (type_fails _ v); [reflexivity|]. destruct (match child_node s "allowed" with Some l => _ | None => false end); [reflexivity|].
    destruct (range_of s) as [[b|]| |]; cbn [obind]; try reflexivity.
    - destruct (get_d to_d dflt); cbn [obind]; try reflexivity. rewrite Q. reflexivity.
    - rewrite Q. reflexivity.
  Qed.
  Lemma try_set_undefined schema data id ks v : names id ks -> (forall s, ~ setting schema ks s) -> try_set schema data id v = Ok (data, false).
  Proof.
    intros N H. unfold SetModel.try_set. destruct (find_setting_ok schema id ks N) as (r & -> & Hr). cbn [obind]. destruct r as [s|]; [|reflexivity]. exfalso. apply (H s). apply Hr. reflexivity.
  Qed.
  Lemma setting_dec schema ks : {s | setting schema ks s} + {forall s, ~ setting schema ks s}.
  Proof.
    destruct (find schema ks) as [s|] eqn:E.
    - destruct (child_node s "default") as [d|] eqn:Ed.
      + left. exists s. split; [apply find_iff; exact E|exists d; apply has_child_iff; exact Ed].
      + right. intros s' [H (d & Hd)]. apply find_iff in H. apply has_child_iff in Hd. congruence.
    - right. intros s' [H _]. apply find_iff in H. congruence.
  Qed.
  Lemma setting_fun schema ks s s' : setting schema ks s -> setting schema ks s' -> s = s'.
  Proof. intros [H _] [H' _]. apply find_iff in H, H'. congruence. Qed.
  Lemma not_prefix schema ks ks' s s' : separate schema -> setting schema ks s -> setting schema ks' s' -> ks <> ks' -> ~ is_prefix ks ks'.
  Proof. intros S H H' N (r & ->). apply N. rewrite (S _ _ _ _ H H'), app_nil_r. reflexivity. Qed.

  Lemma store_effect schema data ks s o : separate schema -> groups schema data -> setting schema ks s -> ks <> [] -> Forall plain_key ks ->
    let r := store data ks o in
    groups schema (fst r) /\ (o = None -> fst r = data) /\
    (forall k, o = Some k -> snd r = true /\ find (fst r) ks = k) /\
    (forall ks' s', setting schema ks' s' -> ks' <> ks -> find (fst r) ks' = find data ks').
  Proof.
    intros S G H N P. assert (B : Forall by_name ks) by (eapply Forall_impl; [|exact P]; intros k [K _]; exact K). cbn zeta. destruct o as [[u|]|]; cbn [store fst snd].
    - split; [exact (groups_set _ _ _ _ _ S H P G)|]. split; [discriminate|]. split.
      + intros k [= <-]. split; [reflexivity|]. rewrite <- (app_nil_r ks) at 2. rewrite setk_here by exact B. reflexivity.
      + intros ks' s' H' N'. apply setk_there; [exact B| |]; eapply not_prefix; eauto.
    - split; [exact (groups_erase _ _ _ _ S H N B G)|]. split; [discriminate|]. pose proof (groups_above _ _ _ _ S G H) as A. split.
      + intros k [= <-]. split; [reflexivity|]. apply erk_here; assumption.
      + intros ks' s' H' N'. apply erk_there; [exact N|exact B|exact A| |]; eapply not_prefix; eauto.
    - split; [exact G|]. split; [reflexivity|]. split; [discriminate|reflexivity].
  Qed.

  (** every setting in the data is one the schema accepts *)
  Definition accepted (s u : pn) : Prop := exists dflt v, child_node s "default" = Some dflt /\ verdict s dflt v = Ok (Some (Some u)).
  Definition covered (schema data : pn) : Prop := forall p u, p <> [] -> find data p = Some u -> exists ks s, setting schema ks s /\ (is_prefix p ks \/ is_prefix ks p).
  Definition legal (schema data : pn) : Prop := (forall ks s u, ks <> [] -> setting schema ks s -> find data ks = Some u -> accepted s u) /\ covered schema data.
  Lemma in_assoc_some cs k : In k (map fst cs) -> exists u, assoc cs k = Some u.
  Proof. intros H. destruct (assoc cs k) as [u|] eqn:E; [eauto|]. apply assoc_none in E. contradiction. Qed.
  Lemma key_prefix_dec (p q : list str) : is_prefix p q \/ ~ is_prefix p q.
  Proof.
    revert q. induction p as [|x p IH]; intros q; [left; exists q; reflexivity|]. destruct q as [|y q]; [right; intros (r & E); discriminate|].
    destruct (list_eq_dec ascii_dec x y) as [->|N]; [|right; intros (r & E); injection E; congruence]. destruct (IH q) as [(r & ->)|N]; [left; exists r; reflexivity|right; intros (r & E); apply N; injection E as ->; exists r; reflexivity].
  Qed.
  Lemma store_covered schema data ks s o : separate schema -> groups schema data -> setting schema ks s -> ks <> [] -> Forall plain_key ks -> covered schema data -> covered schema (fst (store data ks o)).
  Proof.
    intros S G H N P C p u Np Hu. assert (B : Forall by_name ks) by (eapply Forall_impl; [|exact P]; intros k [K _]; exact K).
    destruct (key_prefix_dec p ks) as [X|X1]; [exists ks, s; auto|]. destruct (key_prefix_dec ks p) as [X|X2]; [exists ks, s; auto|]. apply (C p u Np). rewrite <- Hu. destruct o as [[w|]|]; cbn [store fst]; symmetry.
    - apply setk_there; assumption.
    - apply erk_there; try assumption. exact (groups_above _ _ _ _ S G H).
    - reflexivity.
  Qed.
  Lemma setting_default schema ks s : setting schema ks s -> exists d, child_node s "default" = Some d.
  Proof. intros [_ (d & Hd)]. apply has_child_iff in Hd. eauto. Qed.
  Lemma try_set_ok schema data id ks v data' b : separate schema -> groups schema data -> names id ks -> try_set schema data id v = Ok (data', b) ->
    groups schema data' /\ (legal schema data -> legal schema data') /\ (b = false -> data' = data) /\
    (forall ks' s', setting schema ks' s' -> ks' <> ks -> find data' ks' = find data ks').
  Proof.
    intros S G N E. destruct (setting_dec schema ks) as [[s H]|H].
    - destruct (setting_default _ _ _ H) as [dflt Hd]. rewrite (try_set_verdict schema data id ks v s dflt N H Hd) in E. destruct (names_parts id ks N) as (N1 & N2 & N3).
      destruct (verdict s dflt v) as [o| |] eqn:Ev; cbn [obind] in E; try discriminate. destruct (store_effect schema data ks s o S G H N1 N3) as (G' & K1 & K2 & K3).
      assert (Es : store data ks o = (data', b)) by congruence. assert (E1 : fst (store data ks o) = data') by (rewrite Es; reflexivity). assert (E2 : snd (store data ks o) = b) by (rewrite Es; reflexivity).
      rewrite E1, E2 in *. split; [exact G'|]. split; [|split].
      + intros [L C]. split; [|rewrite <- E1; exact (store_covered schema data ks s o S G H N1 N3 C)]. intros ks' s' u Nn H' Hu. destruct (list_eq_dec (list_eq_dec ascii_dec) ks' ks) as [->|Nk]; [|rewrite (K3 _ _ H' Nk) in Hu; exact (L _ _ _ Nn H' Hu)].
        assert (s' = s) as -> by exact (setting_fun _ _ _ _ H' H). destruct o as [[w|]|].
        * destruct (K2 _ eq_refl) as [_ K]. assert (w = u) as -> by congruence. exists dflt, v. auto.
        * destruct (K2 _ eq_refl) as [_ K]. congruence.
        * rewrite (K1 eq_refl) in Hu. exact (L _ _ _ Nn H Hu).
      + intros ->. destruct o as [o|]; [destruct (K2 _ eq_refl); discriminate|]. exact (K1 eq_refl).
      + exact K3.
    - rewrite (try_set_undefined schema data id ks v N H) in E. injection E as <- <-. auto.
  Qed.

  Notation set_recursive := (set_recursive to_d d_str dle dlt is_color is_vec3).
  Notation load_children := (load_children to_d d_str dle dlt is_color is_vec3).
  Lemma set_recursive_ok schema : separate schema -> forall v data id ks data', named_file v -> names id ks -> groups schema data -> set_recursive schema data id v = Ok data' ->
    groups schema data' /\ (legal schema data -> legal schema data').
  Proof.
    intros S. induction v as [val cs a IH] using pn_ind'. intros data id ks data' F N G E. cbn [SetModel.set_recursive] in E.
    destruct (find_setting_ok schema id ks N) as (r & Er & Hr). rewrite Er in E. cbn [obind] in E. destruct r as [s|].
    - destruct (try_set schema data id (PN val cs a)) as [[d b]| |] eqn:Et; cbn [obind fst] in E; try discriminate. injection E as <-. destruct (try_set_ok schema data id ks _ _ _ S G N Et) as (G' & L' & _). auto.
    - inversion F as [? ? ? Fc]; subst. clear F Er Hr. revert data G E. induction cs as [|kc cs IHcs]; intros data G E; [injection E as <-; auto|].
      inversion IH as [|? ? I1 I2]; subst. inversion Fc as [|? ? [(ks2 & Nk) Fk] Fc']; subst.
      destruct (set_recursive schema data (id ++ dot :: fst kc) (snd kc)) as [d| |] eqn:Ed; cbn [obind] in E; try discriminate.
      destruct (I1 data _ (ks ++ ks2) d Fk (names_app _ _ _ _ N Nk) G Ed) as [G1 L1]. destruct (IHcs I2 Fc' d G1 E) as [G2 L2]. auto.
  Qed.
  Lemma load_children_ok schema : separate schema -> forall cs data data', Forall (fun kc : str * pn => (exists ks, names (fst kc) ks) /\ named_file (snd kc)) cs -> groups schema data -> load_children schema data cs = Ok data' ->
    groups schema data' /\ (legal schema data -> legal schema data').
  Proof.
    intros S. induction cs as [|kc cs IH]; intros data data' F G E; cbn [SetModel.load_children] in E; [injection E as <-; auto|]. inversion F as [|? ? [(ks & N) Fk] F']; subst.
    destruct (str_eqb (fst kc) (lit "version")).
    - destruct (from_str_version (pn_value (snd kc)) _) as [x| |]; cbn [obind] in E; try discriminate. destruct (snd x); [|discriminate]. exact (IH _ _ F' G E).
    - destruct (set_recursive schema data (fst kc) (snd kc)) as [d| |] eqn:Ed; cbn [obind] in E; try discriminate.
      destruct (set_recursive_ok schema S _ _ _ _ _ Fk N G Ed) as [G1 L1]. destruct (IH _ _ F' G1 E) as [G2 L2]. auto.
  Qed.
  Notation set_run := (set_run to_d d_str dle dlt is_color is_vec3).
  Lemma set_run_ok schema : separate schema -> forall ops data data', Forall named_op ops -> groups schema data -> set_run schema data ops = Ok data' ->
    groups schema data' /\ (legal schema data -> legal schema data').
  Proof.
    intros S. induction ops as [|op ops IH]; intros data data' F G E; cbn [SetModel.set_run] in E; [injection E as <-; auto|]. inversion F as [|? ? F1 F2]; subst.
    destruct (set_step _ _ _ _ _ _ schema data op) as [d| |] eqn:Ed; cbn [obind] in E; try discriminate.
    assert (K : groups schema d /\ (legal schema data -> legal schema d)).
    { destruct op as [id v|[f|]]; cbn [set_step load] in Ed.
      - destruct F1 as (ks & N). destruct (try_set schema data id v) as [[d' b]| |] eqn:Et; cbn [obind fst] in Ed; try discriminate. injection Ed as <-.
        destruct (try_set_ok schema data id ks _ _ _ S G N Et) as (G' & L' & _). auto.
      - cbn in F1. inversion F1 as [? cs ? Fc]; subst. exact (load_children_ok schema S _ _ _ Fc G Ed).
      - injection Ed as <-. assert (X : forall ks u, ks <> [] -> find (pn_clear data) ks = Some u -> False) by (intros [|k ks] u N H; [congruence|discriminate]). split.
        + intros p u Hu O. destruct p as [|k p]; [|exfalso; apply (X (k :: p) u); [discriminate|exact Hu]]. injection Hu as <-. split; [constructor|]. split; [constructor|reflexivity].
        + intros L. split; [intros ks s u Nn H Hu; destruct (X ks u Nn Hu)|intros p u Np Hu; destruct (X p u Np Hu)]. }
    destruct K as [G1 L1]. destruct (IH _ _ F2 G1 E) as [G2 L2]. auto.
  Qed.

  (** loading a file *)
  Definition outcome_at (s dflt : pn) (file : option pn) (before after : option pn) : Prop :=
    match file with
    | Some w => exists o, verdict s dflt w = Ok o /\ after = match o with Some k => k | None => before end
    | None => after = before
    end.
  Definition loads (schema : pn) (p : list str) (v data data' : pn) : Prop :=
    groups schema data' /\ forall ks s dflt, setting schema ks s -> child_node s "default" = Some dflt ->
      (forall q, ks = p ++ q -> outcome_at s dflt (find v q) (find data ks) (find data' ks)) /\ (~ is_prefix p ks -> find data' ks = find data ks).
  Fixpoint run_children (step : pn -> str * pn -> outcome pn) (data : pn) (cs : list (str * pn)) : outcome pn :=
    match cs with [] => Ok data | kc :: r => do d <- step data kc; run_children step d r end.
  Lemma run_children_ok schema step p : forall cs data data', (forall s, ~ setting schema p s) -> NoDup (map fst cs) ->
    (forall kc d d', In kc cs -> groups schema d -> step d kc = Ok d' -> loads schema (p ++ [fst kc]) (snd kc) d d') -> groups schema data -> run_children step data cs = Ok data' ->
    loads schema p (PN [] cs false) data data'.
  Proof.
    induction cs as [|kc cs IH]; intros data data' NS ND St G E; cbn [run_children] in E.
    - injection E as <-. split; [exact G|]. intros ks s dflt H Hd. split; [|reflexivity]. intros [|k q] ->; [exfalso; rewrite app_nil_r in H; exact (NS s H)|]. reflexivity.
    - inversion ND as [|? ? Nk ND']; subst. destruct (step data kc) as [d| |] eqn:Es; cbn [obind] in E; try discriminate.
      destruct (St kc data d (or_introl eq_refl) G Es) as [G1 L1]. destruct (IH d data' NS ND' (fun kc' a b Hi => St kc' a b (or_intror Hi)) G1 E) as [G2 L2].
      split; [exact G2|]. intros ks s dflt H Hd. destruct (L1 ks s dflt H Hd) as [A1 A2]. destruct (L2 ks s dflt H Hd) as [B1 B2]. split.
      + intros [|k q] ->; [exfalso; rewrite app_nil_r in H; exact (NS s H)|]. specialize (B1 (k :: q) eq_refl). cbn [find pn_children assoc] in *.
        destruct (str_eqb (fst kc) k) eqn:Ek.
        * apply str_eqb_eq in Ek. subst k. assert (assoc cs (fst kc) = None) as En by (apply assoc_none; exact Nk). rewrite En in B1. cbn in B1. rewrite B1.
          specialize (A1 q). rewrite <- app_assoc in A1. exact (A1 eq_refl).
        * apply str_eqb_neq in Ek. rewrite A2 in B1; [exact B1|]. intros (r & Er). rewrite <- app_assoc in Er. apply app_inv_head in Er. cbn in Er. congruence.
      + intros Np. rewrite (B2 Np). apply A2. intros (r & ->). apply Np. exists (fst kc :: r). rewrite <- app_assoc. reflexivity.
  Qed.
  Lemma loads_value schema p v v' cs a a' data data' : loads schema p (PN v cs a) data data' -> (forall s, ~ setting schema p s) -> loads schema p (PN v' cs a') data data'.
  Proof.
    intros [G L] NS. split; [exact G|]. intros ks s dflt H Hd. destruct (L ks s dflt H Hd) as [A B]. split; [|exact B].
    intros [|k q] ->; [exfalso; rewrite app_nil_r in H; exact (NS s H)|]. exact (A (k :: q) eq_refl).
  Qed.
  Lemma recursive_loads schema : separate schema -> forall v data id p data', names id p -> (forall a b s, p = a ++ b -> b <> [] -> ~ setting schema a s) ->
    (forall q u, find v q = Some u -> outside schema (p ++ q) -> NoDup (pn_keys u) /\ Forall plain_key (pn_keys u)) -> groups schema data ->
    set_recursive schema data id v = Ok data' -> loads schema p v data data'.
  Proof.
    intros S. induction v as [val cs a IH] using pn_ind'. intros data id p data' N Ab T G E.
    assert (E2 : set_recursive schema data id (PN val cs a) = do s <- try_find_setting schema id;
      match s with Some _ => do r <- try_set schema data id (PN val cs a); Ok (fst r) | None => run_children (fun d kc => set_recursive schema d (id ++ dot :: fst kc) (snd kc)) data cs end).
    { cbn [SetModel.set_recursive]. destruct (try_find_setting schema id) as [[x|]| |]; cbn [obind]; try reflexivity. clear. revert data. induction cs as [|kc cs IHc]; intros data; [reflexivity|]. cbn [run_children].
      destruct (set_recursive schema data (id ++ dot :: fst kc) (snd kc)); cbn [obind]; [apply IHc|reflexivity|reflexivity]. }
    rewrite E2 in E. clear E2. destruct (find_setting_ok schema id p N) as (r & Er & Hr). rewrite Er in E. cbn [obind] in E. destruct (names_parts id p N) as (N1 & N2 & N3). destruct r as [s0|].
    - assert (H0 : setting schema p s0) by (apply Hr; reflexivity). destruct (setting_default _ _ _ H0) as [d0 Hd0].
      rewrite (try_set_verdict schema data id p _ s0 d0 N H0 Hd0) in E. destruct (verdict s0 d0 (PN val cs a)) as [o| |] eqn:Ev; cbn [obind] in E; try discriminate.
      assert (Es : fst (store data p o) = data') by congruence. destruct (store_effect schema data p s0 o S G H0 N1 N3) as (G' & K1 & K2 & K3). rewrite Es in *.
      split; [exact G'|]. intros ks s dflt H Hd. split.
      + intros q ->. assert (q = []) as -> by exact (S _ _ _ _ H0 H). rewrite app_nil_r in *. assert (s = s0) as -> by exact (setting_fun _ _ _ _ H H0). assert (dflt = d0) as -> by congruence.
        cbn [find outcome_at]. exists o. split; [exact Ev|]. destruct o as [k|]; [destruct (K2 k eq_refl) as [_ K]; exact K|rewrite (K1 eq_refl); reflexivity].
      + intros Np. apply (K3 _ _ H). intros ->. apply Np. exists []. rewrite app_nil_r. reflexivity.
    - assert (NS : forall s, ~ setting schema p s) by (intros s Hs; apply Hr in Hs; discriminate). clear Er Hr.
      assert (Op : outside schema p).
      { intros x y s E3 Hs. destruct y as [|k y]; [rewrite app_nil_r in E3; subst; exact (NS s Hs)|]. apply (Ab x (k :: y) s E3); [discriminate|exact Hs]. }
      destruct (T [] (PN val cs a) eq_refl ltac:(rewrite app_nil_r; exact Op)) as [ND PK]. unfold pn_keys in ND, PK. cbn [pn_children] in ND, PK.
      eapply loads_value; [|exact NS]. eapply run_children_ok; [exact NS|exact ND| |exact G|exact E].
      intros kc d d' Hi Gd Ed. rewrite Forall_forall in IH, PK. assert (Pk : plain_key (fst kc)) by (apply PK, in_map, Hi).
      apply (IH kc Hi d (id ++ dot :: fst kc) (p ++ [fst kc]) d'); [apply names_app; [exact N|apply names_plain; exact Pk]| | |exact Gd|exact Ed].
      + intros x y s E3 Ny Hs. destruct (exists_last Ny) as (y' & z & ->). rewrite app_assoc in E3. apply app_inj_tail in E3. destruct E3 as [E3 _]. apply (Op x y' s E3 Hs).
      + intros q u Hu Oq. apply (T (fst kc :: q) u); [|rewrite <- app_assoc in Oq; exact Oq]. cbn [find pn_children].
        assert (assoc cs (fst kc) = Some (snd kc)) as ->; [|exact Hu]. clear - ND Hi. induction cs as [|x cs IHc]; [destruct Hi|]. cbn [assoc]. inversion ND; subst. destruct Hi as [->|Hi]; [rewrite str_eqb_refl; reflexivity|].
        destruct (str_eqb (fst x) (fst kc)) eqn:E; [|exact (IHc H2 Hi)]. apply str_eqb_eq in E. exfalso. apply H1. rewrite E. apply in_map. exact Hi.
  Qed.
  Lemma load_loads schema data f data' : separate schema -> (forall s, ~ setting schema [] s) -> tidy schema f -> ~ In (lit "version") (pn_keys f) -> groups schema data ->
    load to_d d_str dle dlt is_color is_vec3 schema data (Some f) = Ok data' -> loads schema [] f data data'.
  Proof.
    intros S NS T NV G E. cbn [load] in E.
    assert (E2 : forall cs d, ~ In (lit "version") (map fst cs) -> load_children schema d cs = run_children (fun d kc => set_recursive schema d (fst kc) (snd kc)) d cs).
    { induction cs as [|kc cs IHc]; intros d Nv; [reflexivity|]. cbn [SetModel.load_children run_children]. destruct (str_eqb (fst kc) (lit "version")) eqn:Ek; [apply str_eqb_eq in Ek; exfalso; apply Nv; left; exact Ek|].
      destruct (set_recursive schema d (fst kc) (snd kc)); cbn [obind]; try reflexivity. apply IHc. intros X. apply Nv. right. exact X. }
    rewrite E2 in E by exact NV.
    assert (O : outside schema []) by (intros x y s E3 Hs; destruct x; [exact (NS s Hs)|discriminate]).
    destruct (T [] f (at_here f) O) as [ND PK]. destruct f as [val cs a]. unfold pn_keys in *. cbn [pn_children] in *.
    eapply loads_value; [|exact NS]. eapply run_children_ok; [exact NS|exact ND| |exact G|exact E].
    intros kc d d' Hi Gd Ed. rewrite Forall_forall in PK. assert (Pk : plain_key (fst kc)) by (apply PK, in_map, Hi).
    apply (recursive_loads schema S (snd kc) d (fst kc) ([] ++ [fst kc]) d'); [apply names_plain; exact Pk| | |exact Gd|exact Ed].
    - intros x y s E3 Ny Hs. destruct x as [|x1 x]; [exact (NS s Hs)|]. destruct x; [destruct y; [congruence|discriminate]|discriminate].
    - intros q u Hu Oq. apply (T (fst kc :: q) u); [|exact Oq]. apply find_iff. cbn [find pn_children].
      assert (assoc cs (fst kc) = Some (snd kc)) as ->; [|exact Hu]. clear - ND Hi. induction cs as [|x cs IHc]; [destruct Hi|]. cbn [assoc]. inversion ND; subst. destruct Hi as [->|Hi]; [rewrite str_eqb_refl; reflexivity|].
      destruct (str_eqb (fst x) (fst kc)) eqn:E; [|exact (IHc H2 Hi)]. apply str_eqb_eq in E. exfalso. apply H1. rewrite E. apply in_map. exact Hi.
  Qed.

  (** no setting of the schema makes try_set throw *)
  Definition usable (schema : pn) : Prop := forall ks s dflt, setting schema ks s -> has_child s "default" dflt ->
    exists r, range_of s = Ok r /\ (r = None \/ exists d, get_d to_d dflt = Ok d).
  Lemma verdict_total schema ks s dflt v : usable schema -> setting schema ks s -> child_node s "default" = Some dflt -> exists o, verdict s dflt v = Ok o.
  Proof.
    intros U H Hd. apply has_child_iff in Hd. destruct (U ks s dflt H Hd) as (r & Er & Hr). unfold verdict. destruct (pn_eqb v dflt || pn_is_empty v); [eauto|]. destruct (type_fails _ v); [eauto|].
    destruct (match child_node s "allowed" with Some l => _ | None => false end); [eauto|]. rewrite Er. cbn [obind]. destruct r as [b|]; [|eauto]. destruct Hr as [Hr|(d & ->)]; [discriminate|]. cbn [obind]. eauto.
  Qed.
  Lemma run_children_total step : forall cs data, (forall kc d, In kc cs -> exists d', step d kc = Ok d') -> exists data', run_children step data cs = Ok data'.
  Proof.
    induction cs as [|kc cs IH]; intros data St; cbn [run_children]; [eauto|]. destruct (St kc data (or_introl eq_refl)) as [d ->]. cbn [obind]. apply IH. intros kc' d' Hi. apply St. right. exact Hi.
  Qed.
  Lemma assoc_in cs (kc : str * pn) : NoDup (map fst cs) -> In kc cs -> assoc cs (fst kc) = Some (snd kc).
  Proof.
    intros ND Hi. induction cs as [|x cs IHc]; [destruct Hi|]. cbn [assoc]. inversion ND; subst. destruct Hi as [->|Hi]; [rewrite str_eqb_refl; reflexivity|].
    destruct (str_eqb (fst x) (fst kc)) eqn:E; [|exact (IHc H2 Hi)]. apply str_eqb_eq in E. exfalso. apply H1. rewrite E. apply in_map. exact Hi.
  Qed.
  Lemma recursive_total schema : usable schema -> forall v data id p, names id p -> (forall a b s, p = a ++ b -> b <> [] -> ~ setting schema a s) ->
    (forall q u, find v q = Some u -> outside schema (p ++ q) -> NoDup (pn_keys u) /\ Forall plain_key (pn_keys u)) ->
    exists data', set_recursive schema data id v = Ok data'.
  Proof.
    intros U. induction v as [val cs a IH] using pn_ind'. intros data id p N Ab T.
    assert (E2 : set_recursive schema data id (PN val cs a) = do s <- try_find_setting schema id;
      match s with Some _ => do r <- try_set schema data id (PN val cs a); Ok (fst r) | None => run_children (fun d kc => set_recursive schema d (id ++ dot :: fst kc) (snd kc)) data cs end).
    { cbn [SetModel.set_recursive]. destruct (try_find_setting schema id) as [[x|]| |]; cbn [obind]; try reflexivity. clear. revert data. induction cs as [|kc cs IHc]; intros data; [reflexivity|]. cbn [run_children].
      destruct (set_recursive schema data (id ++ dot :: fst kc) (snd kc)); cbn [obind]; [apply IHc|reflexivity|reflexivity]. }
    rewrite E2. clear E2. destruct (find_setting_ok schema id p N) as (r & -> & Hr). cbn [obind]. destruct r as [s0|].
    - assert (H0 : setting schema p s0) by (apply Hr; reflexivity). destruct (setting_default _ _ _ H0) as [d0 Hd0].
      rewrite (try_set_verdict schema data id p _ s0 d0 N H0 Hd0). destruct (verdict_total schema p s0 d0 (PN val cs a) U H0 Hd0) as [o ->]. cbn [obind]. eauto.
    - assert (NS : forall s, ~ setting schema p s) by (intros s Hs; apply Hr in Hs; discriminate).
      assert (Op : outside schema p).
      { intros x y s E3 Hs. destruct y as [|k y]; [rewrite app_nil_r in E3; subst; exact (NS s Hs)|]. apply (Ab x (k :: y) s E3); [discriminate|exact Hs]. }
      destruct (T [] (PN val cs a) eq_refl ltac:(rewrite app_nil_r; exact Op)) as [ND PK]. unfold pn_keys in ND, PK. cbn [pn_children] in ND, PK.
      apply run_children_total. intros kc d Hi. rewrite Forall_forall in IH, PK. assert (Pk : plain_key (fst kc)) by (apply PK, in_map, Hi).
      apply (IH kc Hi d (id ++ dot :: fst kc) (p ++ [fst kc])); [apply names_app; [exact N|apply names_plain; exact Pk]| |].
      + intros x y s E3 Ny Hs. destruct (exists_last Ny) as (y' & z & ->). rewrite app_assoc in E3. apply app_inj_tail in E3. destruct E3 as [E3 _]. apply (Op x y' s E3 Hs).
      + intros q u Hu Oq. apply (T (fst kc :: q) u); [|rewrite <- app_assoc in Oq; exact Oq]. cbn [find pn_children]. rewrite (assoc_in cs kc ND Hi). exact Hu.
  Qed.
  Lemma load_total schema data f : usable schema -> (forall s, ~ setting schema [] s) -> tidy schema f -> ~ In (lit "version") (pn_keys f) ->
    exists data', load to_d d_str dle dlt is_color is_vec3 schema data (Some f) = Ok data'.
  Proof.
    intros U NS T NV. cbn [load].
    assert (E2 : forall cs d, ~ In (lit "version") (map fst cs) -> load_children schema d cs = run_children (fun d kc => set_recursive schema d (fst kc) (snd kc)) d cs).
    { induction cs as [|kc cs IHc]; intros d Nv; [reflexivity|]. cbn [SetModel.load_children run_children]. destruct (str_eqb (fst kc) (lit "version")) eqn:Ek; [apply str_eqb_eq in Ek; exfalso; apply Nv; left; exact Ek|].
      destruct (set_recursive schema d (fst kc) (snd kc)); cbn [obind]; try reflexivity. apply IHc. intros X. apply Nv. right. exact X. }
    rewrite E2 by exact NV.
    assert (O : outside schema []) by (intros x y s E3 Hs; destruct x; [exact (NS s Hs)|discriminate]).
    destruct (T [] f (at_here f) O) as [ND PK]. destruct f as [val cs a]. unfold pn_keys in *. cbn [pn_children] in *.
    apply run_children_total. intros kc d Hi. rewrite Forall_forall in PK. assert (Pk : plain_key (fst kc)) by (apply PK, in_map, Hi).
    apply (recursive_total schema U (snd kc) d (fst kc) ([] ++ [fst kc])); [apply names_plain; exact Pk| |].
    - intros x y s E3 Ny Hs. destruct x as [|x1 x]; [exact (NS s Hs)|]. destruct x; [destruct y; [congruence|discriminate]|discriminate].
    - intros q u Hu Oq. apply (T (fst kc :: q) u); [|exact Oq]. apply find_iff. cbn [find pn_children]. rewrite (assoc_in cs kc ND Hi). exact Hu.
  Qed.

  (** assembled statements *)
  Hypothesis dlt_dle : forall a b, dlt a b = dle a b && negb (dle b a).
  Hypothesis dle_total : forall a b, dle a a = true -> dle b b = true -> dle a b = true \/ dle b a = true.
  Hypothesis dle_number : forall a b, dle a b = true -> dle a a = true /\ dle b b = true.
  Lemma restricted_ok lo hi d : dle lo lo = true -> dle hi hi = true -> restricted lo hi d (if is_within dle (lo, hi) d then d else clamp_d dlt (lo, hi) d).
  Proof.
    intros Hl Hh. unfold SetSpec.restricted, is_nan, is_within, clamp_d. cbn [fst snd]. rewrite !dlt_dle. destruct (dle d d) eqn:Ed.
    - pose proof (dle_total lo d Hl Ed). pose proof (dle_total d hi Ed Hh). destruct (dle lo d), (dle d hi), (dle d lo), (dle hi d); cbn [andb negb]; intuition congruence.
    - left. split; [reflexivity|]. assert (N1 : dle d lo = false) by (destruct (dle d lo) eqn:E; [apply dle_number in E; destruct E; congruence|reflexivity]).
      assert (N2 : dle hi d = false) by (destruct (dle hi d) eqn:E; [apply dle_number in E; destruct E; congruence|reflexivity]). rewrite N1, N2. cbn [andb]. destruct (dle lo d && dle d hi); reflexivity.
  Qed.

  Lemma ordinary_iff v dflt : pn_eqb v dflt || pn_is_empty v = false <-> ordinary_value v dflt.
  Proof.
    unfold ordinary_value. rewrite <- pn_eqb_iff, <- pn_is_empty_iff, orb_false_iff. destruct (pn_eqb v dflt), (pn_is_empty v); intuition congruence.
  Qed.
  Lemma get_node_ok schema data id ks s dflt : names id ks -> setting schema ks s -> child_node s "default" = Some dflt ->
    get_node schema data id = Ok (match find data ks with Some u => u | None => dflt end).
  Proof.
    intros N H Hd. unfold get_node. rewrite (query_node_find data id ks N). cbn [obind]. destruct (find data ks); [reflexivity|].
    destruct (find_setting_ok schema id ks N) as (r & -> & Hr). apply Hr in H. subst r. cbn [obind]. rewrite Hd. reflexivity.
  Qed.
  Lemma verdict_cases s dflt v r : range_of s = Ok r -> (r = None \/ exists d, get_d to_d dflt = Ok d) ->
    (~ ordinary_value v dflt /\ verdict s dflt v = Ok (Some None)) \/
    (ordinary_value v dflt /\ ~ (type_ok s v /\ allowed_ok s v) /\ verdict s dflt v = Ok None) \/
    (ordinary_value v dflt /\ type_ok s v /\ allowed_ok s v /\ exists u, verdict s dflt v = Ok (Some (Some u)) /\
      match r with None => u = v | Some b => u = pn_of_value (d_str (if is_within dle b (fst (to_d (pn_value v))) then fst (to_d (pn_value v)) else clamp_d dlt b (fst (to_d (pn_value v))))) end).
  Proof.
    intros Er Hr. unfold verdict. destruct (pn_eqb v dflt || pn_is_empty v) eqn:E1.
    - left. split; [|reflexivity]. rewrite <- ordinary_iff. congruence.
    - apply ordinary_iff in E1. right. destruct (type_fails _ v) eqn:E2.
      + left. split; [exact E1|]. split; [|reflexivity]. intros [H _]. apply type_iff in H. congruence.
      + apply type_iff in E2. destruct (match child_node s "allowed" with Some l => _ | None => false end) eqn:E3.
        * left. split; [exact E1|]. split; [|reflexivity]. intros [_ H]. apply allowed_iff in H. congruence.
        * apply allowed_iff in E3. right. split; [exact E1|]. split; [exact E2|]. split; [exact E3|]. rewrite Er. cbn [obind]. destruct r as [b|].
          -- destruct Hr as [Hr|(d & ->)]; [discriminate|]. cbn [obind]. eauto.
          -- eauto.
  Qed.
  Lemma set_assembled schema ops data id ks v s dflt r : separate schema -> Forall named_op ops -> set_run schema pn_empty ops = Ok data ->
    names id ks -> setting schema ks s -> has_child s "default" dflt -> range_of s = Ok r -> (r = None \/ exists d, get_d to_d dflt = Ok d) ->
    exists data' b, try_set schema data id v = Ok (data', b) /\
      (b = true <-> (same_tree v dflt \/ pn_value v = [] /\ pn_children v = []) \/ type_ok s v /\ allowed_ok s v) /\
      (b = false -> data' = data) /\
      (same_tree v dflt \/ pn_value v = [] /\ pn_children v = [] -> get_node schema data' id = Ok dflt) /\
      (ordinary_value v dflt -> b = true -> match r with
        | None => get_node schema data' id = Ok v
        | Some (lo, hi) => dle lo lo = true -> dle hi hi = true -> exists d', get_node schema data' id = Ok (PN (d_str d') [] false) /\ restricted lo hi (fst (to_d (pn_value v))) d'
        end) /\
      (forall id' ks' s', names id' ks' -> setting schema ks' s' -> ks' <> ks -> get_node schema data' id' = get_node schema data id').
  Proof.
    intros S F R N H Hd Er Hr. apply has_child_iff in Hd. destruct (set_run_ok schema S ops _ _ F (groups_empty schema) R) as [G _]. destruct (names_parts id ks N) as (N1 & N2 & N3).
    rewrite (try_set_verdict schema data id ks v s dflt N H Hd).
    assert (O : same_tree v dflt \/ pn_value v = [] /\ pn_children v = [] <-> ~ ordinary_value v dflt).
    { rewrite <- ordinary_iff, <- pn_is_empty_iff, <- pn_eqb_iff. destruct (pn_eqb v dflt), (pn_is_empty v); cbn; intuition congruence. }
    assert (OT : forall data', (forall ks' s', setting schema ks' s' -> ks' <> ks -> find data' ks' = find data ks') ->
       forall id' ks' s', names id' ks' -> setting schema ks' s' -> ks' <> ks -> get_node schema data' id' = get_node schema data id').
    { intros data' K id' ks' s' N' H' Nk. destruct (setting_default _ _ _ H') as [d' Hd']. rewrite (get_node_ok schema data' id' ks' s' d' N' H' Hd'), (get_node_ok schema data id' ks' s' d' N' H' Hd'), (K ks' s' H' Nk). reflexivity. }
    destruct (verdict_cases s dflt v r Er Hr) as [(V1 & ->)|[(V1 & V2 & ->)|(V1 & V2 & V3 & u & -> & Eu)]]; cbn [obind].
    - destruct (store_effect schema data ks s (Some None) S G H N1 N3) as (_ & _ & K2 & K3). destruct (K2 None eq_refl) as [_ K]. cbn [store fst] in *. eexists. eexists. split; [reflexivity|].
      split; [split; [intros _; left; apply O; exact V1|reflexivity]|]. split; [discriminate|]. split; [intros _; rewrite (get_node_ok schema _ id ks s dflt N H Hd), K; reflexivity|]. split; [intros X; contradiction|]. apply OT. exact K3.
    - cbn [store]. eexists. eexists. split; [reflexivity|]. split; [split; [discriminate|intros [X|X]; [apply O in X|]; contradiction]|]. split; [reflexivity|].
      split; [intros X; apply O in X; contradiction|]. split; [discriminate|]. reflexivity.
    - destruct (store_effect schema data ks s (Some (Some u)) S G H N1 N3) as (_ & _ & K2 & K3). destruct (K2 (Some u) eq_refl) as [_ K]. cbn [store fst] in *. eexists. eexists. split; [reflexivity|].
      split; [split; [intros _; right; auto|reflexivity]|]. split; [discriminate|]. split; [intros X; apply O in X; contradiction|]. split; [|apply OT; exact K3].
      intros _ _. rewrite (get_node_ok schema _ id ks s dflt N H Hd), K. destruct r as [[lo hi]|]; [|congruence]. intros Hl Hh. rewrite Eu. eexists. split; [reflexivity|]. apply restricted_ok; assumption.
  Qed.
  Lemma undefined_assembled schema data id ks v : names id ks -> (forall s, ~ setting schema ks s) -> try_set schema data id v = Ok (data, false).
  Proof. apply try_set_undefined. Qed.
  Lemma valid_assembled schema ops data : separate schema -> Forall named_op ops -> set_run schema pn_empty ops = Ok data ->
    (forall ks s dflt r u, ks <> [] -> setting schema ks s -> has_child s "default" dflt -> range_of s = Ok r -> at_keys data ks u -> match r with
       | None => ordinary_value u dflt /\ type_ok s u /\ allowed_ok s u
       | Some (lo, hi) => dle lo hi = true -> exists d, u = PN (d_str d) [] false /\ (is_nan dle d \/ dle lo d = true /\ dle d hi = true)
       end) /\
    (forall p u, at_keys data p u -> outside schema p -> pn_value u = []) /\
    (forall p u, p <> [] -> at_keys data p u -> exists ks s, setting schema ks s /\ (is_prefix p ks \/ is_prefix ks p)).
  Proof.
    intros S F R. destruct (set_run_ok schema S ops _ _ F (groups_empty schema) R) as [G L].
    assert (L0 : legal schema pn_empty) by (split; [intros ks s u Nk _ Hu|intros ks u Nk Hu]; rewrite find_empty in Hu by exact Nk; discriminate). specialize (L L0); destruct L as [L LC]. split.
    - intros ks s dflt r u Nk H Hd Er Hu. apply find_iff in Hu. apply has_child_iff in Hd. destruct (L ks s u Nk H Hu) as (d0 & v & Hd0 & Ev). assert (d0 = dflt) as -> by congruence.
      assert (Hr : r = None \/ exists d, get_d to_d dflt = Ok d).
      { destruct r as [b|]; [right|auto]. unfold verdict in Ev. rewrite Er in Ev. destruct (pn_eqb v dflt || pn_is_empty v); [discriminate|]. destruct (type_fails _ v); [discriminate|].
        destruct (match child_node s "allowed" with Some l => _ | None => false end); [discriminate|]. cbn [obind] in Ev. destruct (get_d to_d dflt); try discriminate. eauto. }
      destruct (verdict_cases s dflt v r Er Hr) as [(_ & E)|[(_ & _ & E)|(V1 & V2 & V3 & w & E & Ew)]]; rewrite E in Ev; try discriminate. injection Ev as ->.
      destruct r as [[lo hi]|]; [|subst u; auto]. intros Hlh. destruct (dle_number _ _ Hlh) as [Hl Hh]. eexists. split; [exact Ew|].
      pose proof (restricted_ok lo hi (fst (to_d (pn_value v))) Hl Hh) as X. destruct X as [[X1 X2]|[[X1 X2]|[[X1 X2]|(X1 & X2 & X3)]]].
      + left. unfold is_nan in *. rewrite X2. exact X1.
      + right. rewrite X2. auto.
      + right. rewrite X2. auto.
      + right. rewrite X3. auto.
    - split; [intros ks u Hu O; apply find_iff in Hu; apply (G ks u Hu O)|]. intros p u Np Hu. apply find_iff in Hu. exact (LC p u Np Hu).
  Qed.
  Lemma root_not_setting schema ks s : separate schema -> ks <> [] -> setting schema ks s -> forall s', ~ setting schema [] s'.
  Proof. intros S N H s' H'. apply N. exact (S [] ks s' s H' H). Qed.
  Lemma load_assembled schema ops data f : separate schema -> usable schema -> (forall s, ~ setting schema [] s) -> Forall named_op ops -> set_run schema pn_empty ops = Ok data ->
    tidy schema f -> ~ In (lit "version") (pn_keys f) ->
    exists data', load to_d d_str dle dlt is_color is_vec3 schema data (Some f) = Ok data' /\ forall id ks s, names id ks -> setting schema ks s ->
      (forall v, at_keys f ks v -> exists data1 b, try_set schema data id v = Ok (data1, b) /\ get_node schema data' id = get_node schema data1 id) /\
      ((forall v, ~ at_keys f ks v) -> get_node schema data' id = get_node schema data id).
  Proof.
    intros S U NS F R T NV. destruct (set_run_ok schema S ops _ _ F (groups_empty schema) R) as [G _]. destruct (load_total schema data f U NS T NV) as [data' E]. exists data'. split; [exact E|].
    destruct (load_loads schema data f data' S NS T NV G E) as [_ L]. intros id ks s N H. destruct (setting_default _ _ _ H) as [dflt Hd]. destruct (L ks s dflt H Hd) as [A _]. specialize (A ks eq_refl).
    destruct (names_parts id ks N) as (N1 & N2 & N3). rewrite !(get_node_ok schema _ id ks s dflt N H Hd). split.
    - intros v Hv. apply find_iff in Hv. rewrite Hv in A. cbn in A. destruct A as (o & Ev & A). rewrite (try_set_verdict schema data id ks v s dflt N H Hd), Ev. cbn [obind].
      destruct (store_effect schema data ks s o S G H N1 N3) as (_ & K1 & K2 & _). exists (fst (store data ks o)), (snd (store data ks o)). split; [destruct (store data ks o); reflexivity|].
      rewrite (get_node_ok schema _ id ks s dflt N H Hd), A. destruct o as [k|]; [destruct (K2 k eq_refl) as [_ ->]; reflexivity|rewrite (K1 eq_refl); reflexivity].
    - intros Hn. assert (find f ks = None) as En by (destruct (find f ks) as [v|] eqn:Ef; [exfalso; apply (Hn v), find_iff, Ef|reflexivity]). rewrite En in A. cbn in A. rewrite A. reflexivity.
  Qed.
  Lemma load_children_app schema cs1 : forall cs2 data, load_children schema data (cs1 ++ cs2) = do d <- load_children schema data cs1; load_children schema d cs2.
  Proof.
    induction cs1 as [|kc cs IH]; intros cs2 data; [reflexivity|]. cbn [SetModel.load_children app]. destruct (str_eqb (fst kc) (lit "version")).
    - destruct (from_str_version (pn_value (snd kc)) _) as [x| |]; cbn [obind]; [|reflexivity|reflexivity]. destruct (snd x); [apply IH|reflexivity].
    - destruct (set_recursive schema data (fst kc) (snd kc)); cbn [obind]; [apply IH|reflexivity|reflexivity].
  Qed.
  Lemma saved_load schema data d cur : ~ In (lit "version") (pn_keys d) -> (exists w, from_str_version (to_str_version cur) (Ver 0 0 0 0 []) = Ok (w, true)) ->
    load to_d d_str dle dlt is_color is_vec3 schema data (Some (saved d cur)) = load to_d d_str dle dlt is_color is_vec3 schema data (Some d).
  Proof.
    intros N (w & W). unfold saved. destruct (_ && _); [reflexivity|]. rewrite (set_child_new _ _ _ N). cbn [load pn_children]. rewrite load_children_app.
    destruct (load_children schema data (pn_children d)); cbn [obind]; [|reflexivity|reflexivity]. cbn [SetModel.load_children fst snd]. rewrite str_eqb_refl. cbn [pn_of_value pn_value]. rewrite W. reflexivity.
  Qed.
  Hypothesis text_again : forall d, exists d2, to_d (d_str d) = (d2, true) /\ dle d2 d2 = dle d d.
  Hypothesis text_between : forall a b c, dle a b = true -> dle b c = true -> dlt a b = true \/ dlt b c = true -> d_str a = d_str c -> d_str b = d_str a.
  Hypothesis text_some : forall d, d_str d <> [].
  Hypothesis int_number : forall t z, from_str_int KInt t = (z, true) -> dle (fst (to_d t)) (fst (to_d t)) = true.
  Lemma verdict_again s dflt v u r : range_of s = Ok r -> reloadable to_d d_str dle is_color is_vec3 r s dflt -> verdict s dflt v = Ok (Some (Some u)) ->
    (r <> None -> d_str (fst (to_d (pn_value u))) = pn_value u) ->
    verdict s dflt u = Ok (Some (Some u)) \/ (verdict s dflt u = Ok (Some None) /\ same_tree u dflt).
  Proof.
    intros Er Rl Ev Fm. assert (Hr : r = None \/ exists d, get_d to_d dflt = Ok d).
    { destruct r as [[lo hi]|]; [right|auto]. destruct Rl as (_ & (d & Hd) & _). exists d. unfold get_d. rewrite Hd. reflexivity. }
    destruct (verdict_cases s dflt v r Er Hr) as [(_ & X)|[(_ & _ & X)|(V1 & V2 & V3 & w & X & Ew)]]; rewrite X in Ev; try discriminate. injection Ev as ->.
    destruct r as [[lo hi]|]; [|subst u; auto]. destruct Rl as (Hlh & _ & Na & Ty & Tr). destruct (dle_number _ _ Hlh) as [Hl Hh].
    pose proof (restricted_ok lo hi (fst (to_d (pn_value v))) Hl Hh) as Rs. set (d1 := if is_within dle (lo, hi) (fst (to_d (pn_value v))) then fst (to_d (pn_value v)) else clamp_d dlt (lo, hi) (fst (to_d (pn_value v)))) in *.
    destruct (text_again d1) as (d2 & T1 & T3). subst u. cbn [pn_of_value pn_value] in Fm. rewrite T1 in Fm. cbn [fst] in Fm. pose proof (Fm ltac:(discriminate)) as T2.
    assert (In1 : is_nan dle d1 \/ dle lo d1 = true /\ dle d1 hi = true).
    { destruct Rs as [[X1 X2]|[[X1 X2]|[[X1 X2]|(X1 & X2 & X3)]]]; [left; rewrite X2; exact X1|right; rewrite X2; auto|right; rewrite X2; auto|right; rewrite X3; auto]. }
    assert (Tok : type_ok s (pn_of_value (d_str d1))).
    { destruct In1 as [Nn|[I1 I2]]; [|exact (Tr d1 I1 I2)]. intros t Ht. exfalso. assert (Ev : d1 = fst (to_d (pn_value v))).
      { destruct Rs as [[X1 X2]|[[X1 X2]|[[X1 X2]|(X1 & X2 & X3)]]]; [exact X2|unfold is_nan in Nn; rewrite X2 in Nn; congruence|unfold is_nan in Nn; rewrite X2 in Nn; congruence|exact X3]. }
      specialize (V2 t Ht). destruct (Ty t Ht) as [E|[E|[]]]; symmetry in E; destruct V2 as (F & I & _).
      - destruct (F E) as (d & Hd & Hn). apply Hn. rewrite Ev, Hd in Nn. exact Nn.
      - destruct (I E) as (z & Hz & _). apply int_number in Hz. unfold is_nan in Nn. rewrite Ev in Nn. congruence. }
    assert (Al : allowed_ok s (pn_of_value (d_str d1))) by (intros l Hal; exfalso; exact (Na l Hal)).
    destruct (verdict_cases s dflt (pn_of_value (d_str d1)) _ Er Hr) as [(O & Y)|[(_ & O & Y)|(_ & _ & _ & w & Y & Ew)]].
    - right. split; [exact Y|]. apply pn_eqb_iff. destruct (pn_eqb (pn_of_value (d_str d1)) dflt) eqn:E1; [reflexivity|]. exfalso. apply O, ordinary_iff. rewrite E1. cbn [orb].
      destruct (pn_is_empty (pn_of_value (d_str d1))) eqn:E2; [|reflexivity]. exfalso. apply pn_is_empty_iff in E2. exact (text_some d1 (proj1 E2)).
    - exfalso. apply O. auto.
    - left. rewrite Y. subst w. cbn [pn_of_value pn_value]. rewrite T1. cbn [fst]. do 4 f_equal. destruct In1 as [Nn|[I1 I2]].
      + unfold is_nan in Nn. assert (N2 : dle d2 d2 = false) by congruence. unfold is_within, clamp_d. cbn [fst snd]. rewrite !dlt_dle.
        assert (Z : forall x, dle d2 x = false) by (intros x; destruct (dle d2 x) eqn:E; [apply dle_number in E; destruct E; congruence|reflexivity]).
        assert (Z2 : forall x, dle x d2 = false) by (intros x; destruct (dle x d2) eqn:E; [apply dle_number in E; destruct E; congruence|reflexivity]).
        rewrite !Z, !Z2. cbn [andb]. exact T2.
      + assert (N2 : dle d2 d2 = true) by (rewrite T3; apply dle_number in I1; apply I1).
        unfold is_within, clamp_d. cbn [fst snd]. pose proof (dle_total lo d2 Hl N2) as G1. pose proof (dle_total d2 hi N2 Hh) as G2. destruct (dle lo d2) eqn:E1.
        * destruct (dle d2 hi) eqn:E2; cbn [andb]; [exact T2|]. destruct G2 as [G2|G2]; [discriminate|]. assert (Lt : dlt hi d2 = true) by (rewrite dlt_dle, G2, E2; reflexivity).
          destruct (dlt d2 lo) eqn:E3; [rewrite dlt_dle, E1, andb_false_r in E3; discriminate|]. rewrite Lt. apply (text_between d1 hi d2); [exact I2|exact G2|right; exact Lt|symmetry; exact T2].
        * cbn [andb]. destruct G1 as [G1|G1]; [discriminate|]. assert (Lt : dlt d2 lo = true) by (rewrite dlt_dle, G1, E1; reflexivity). rewrite Lt. rewrite <- T2.
          apply (text_between d2 lo d1); [exact G1|exact I1|left; exact Lt|exact T2].
  Qed.
  Lemma same_tree_refl t : same_tree t t.
  Proof. induction t as [v cs a IH] using pn_ind'. constructor. induction cs as [|kc cs IHc]; [constructor|]. inversion IH; subst. constructor; auto. Qed.
  Lemma same_tree_sym t : forall u, same_tree t u -> same_tree u t.
  Proof.
    induction t as [v cs a IH] using pn_ind'. intros u H. inversion H as [? ? cs2 ? a2 F]; subst. constructor. clear H. induction F as [|x y cs cs2 [H1 H2] F IHf]; [constructor|]. inversion IH; subst. constructor; [split; [congruence|auto]|auto].
  Qed.
  Lemma reload_assembled schema ops data cur : separate schema -> (forall s, ~ setting schema [] s) ->
    (forall ks s dflt, setting schema ks s -> has_child s "default" dflt -> exists r, range_of s = Ok r /\ reloadable to_d d_str dle is_color is_vec3 r s dflt) ->
    (forall ks s, ~ setting schema (lit "version" :: ks) s) -> Forall named_op ops -> set_run schema pn_empty ops = Ok data -> (exists w, from_str_version (to_str_version cur) (Ver 0 0 0 0 []) = Ok (w, true)) ->
    (forall ks s r u, setting schema ks s -> range_of s = Ok (Some r) -> at_keys data ks u -> d_str (fst (to_d (pn_value u))) = pn_value u) ->
    exists data', load to_d d_str dle dlt is_color is_vec3 schema pn_empty (Some (saved data cur)) = Ok data' /\ forall id ks s, names id ks -> setting schema ks s ->
      exists u u', get_node schema data id = Ok u /\ get_node schema data' id = Ok u' /\ same_tree u' u.
  Proof.
    intros S NS NR NV F R W FM. destruct (set_run_ok schema S ops _ _ F (groups_empty schema) R) as [G L].
    assert (L0 : legal schema pn_empty) by (split; [intros ks s u Nk _ Hu|intros ks u Nk Hu]; rewrite find_empty in Hu by exact Nk; discriminate). specialize (L L0); destruct L as [L LC].
    assert (NK : ~ In (lit "version") (pn_keys data)).
    { intros X. apply in_assoc_some in X. destruct X as [u Hu]. destruct (LC [lit "version"] u ltac:(discriminate)) as (ks & s & H & [(r & ->)|(r & E)]); [cbn [find]; rewrite Hu; reflexivity|exact (NV _ _ H)|].
      destruct ks as [|k ks]; [exact (NS _ H)|]. injection E as <- E. symmetry in E. apply app_eq_nil in E. destruct E as [-> ->]. exact (NV _ _ H). }
    rewrite (saved_load schema pn_empty data cur NK W).
    assert (U : usable schema).
    { intros ks s dflt H Hd. destruct (NR _ _ _ H Hd) as (r & Er & Rl). exists r. split; [exact Er|]. destruct r as [[lo hi]|]; [right|auto]. destruct Rl as (_ & (d & Hd2) & _). exists d. unfold get_d. rewrite Hd2. reflexivity. }
    assert (T : tidy schema data) by (intros p u Hu O; apply find_iff in Hu; destruct (G p u Hu O) as (G1 & G2 & _); auto).
    destruct (load_total schema pn_empty data U NS T NK) as [data' E]. exists data'. split; [exact E|].
    destruct (load_loads schema pn_empty data data' S NS T NK (groups_empty schema) E) as [_ L']. intros id ks s N H. destruct (setting_default _ _ _ H) as [dflt Hd]. destruct (L' ks s dflt H Hd) as [A _]. specialize (A ks eq_refl).
    destruct (names_parts id ks N) as (N1 & _ & _). rewrite !(get_node_ok schema _ id ks s dflt N H Hd). eexists. eexists. split; [reflexivity|]. split; [reflexivity|]. destruct (find data ks) as [u|] eqn:Eu; cbn in A.
    - destruct A as (o & Ev & A). destruct (L ks s u N1 H Eu) as (d0 & v & Hd0 & Ev0). assert (d0 = dflt) as -> by congruence.
      destruct (NR ks s dflt H) as (r & Er & Rl); [apply has_child_iff; exact Hd|].
      assert (FM' : r <> None -> d_str (fst (to_d (pn_value u))) = pn_value u) by (destruct r as [r|]; [intros _; exact (FM ks s r u H Er (proj1 (find_iff _ _ _) Eu))|congruence]).
      destruct (verdict_again s dflt v u r Er Rl Ev0 FM') as [X|[X Sm]]; rewrite X in Ev; injection Ev as <-; rewrite A; [apply same_tree_refl|].
      apply same_tree_sym. exact Sm.
    - rewrite A, find_empty by exact N1. apply same_tree_refl.
  Qed.
End Facts.

Lemma get_assembled schema data id ks s dflt : names id ks -> setting schema ks s -> has_child s "default" dflt ->
  (forall u, at_keys data ks u -> get_node schema data id = Ok u) /\ ((forall u, ~ at_keys data ks u) -> get_node schema data id = Ok dflt).
Proof.
  intros N H Hd. apply has_child_iff in Hd. rewrite (get_node_ok schema data id ks s dflt N H Hd). split.
  - intros u Hu. apply find_iff in Hu. rewrite Hu. reflexivity.
  - intros Hn. destruct (find data ks) as [u|] eqn:E; [|reflexivity]. exfalso. apply (Hn u), find_iff, E.
Qed.
Lemma range_assembled (D : Type) (to_d : str -> D * bool) s :
  ((forall n, ~ has_child s "range" n) -> range_of to_d s = Ok None) /\
  (forall n lo hi a b, has_child s "range" n -> pn_value n = a ++ lit ".." ++ b -> first_occurrence (pn_value n) (lit "..") 0 (List.length a) ->
     to_d (pn_value n) = (lo, true) -> to_d b = (hi, true) -> range_of to_d s = Ok (Some (lo, hi))) /\
  (forall n lo hi x y k1 k2, has_child s "range" n -> pn_value n = [] -> pn_children n = [(lit k1, x); (lit k2, y)] -> In (k1, k2) [("min", "max"); ("lower", "upper"); ("", "")]%string ->
     to_d (pn_value x) = (lo, true) -> to_d (pn_value y) = (hi, true) -> range_of to_d s = Ok (Some (lo, hi))).
Proof.
  unfold range_of. split; [|split].
  - intros H. destruct (child_node s "range") as [n|] eqn:E; [exfalso; apply (H n), has_child_iff, E|reflexivity].
  - intros n lo hi a b H E F L Hb. apply has_child_iff in H. rewrite H. unfold bounds_from_pn. assert (has_value n = true) as ->.
    { unfold has_value. rewrite E. destruct a; reflexivity. }
    unfold bounds_from_str. rewrite L. apply find_some in F. rewrite F, E. rewrite app_assoc. replace (List.length a + 2) with (List.length (a ++ lit "..")) by (rewrite app_length; reflexivity).
    rewrite substr_end. cbn [obind]. rewrite Hb. reflexivity.
  - intros [v cs f] lo hi x y k1 k2 H E C I Hx Hy. cbn [pn_value pn_children] in *. subst v cs. apply has_child_iff in H. rewrite H.
    unfold bounds_from_pn, has_value, pn_size. cbn [pn_value pn_children List.length Nat.leb].
    unfold get_d_at, get_d_any, get_d, get_child_at, try_get_any_child, try_get_child, vec_get, pn_size. cbn [pn_children List.length Nat.ltb Nat.leb obind nth_error].
    destruct I as [[= <- <-]|[[= <- <-]|[[= <- <-]|[]]]]; cbn; rewrite Hx, Hy; cbn; rewrite ?Hx, ?Hy; reflexivity.
Qed.

(** checking that no setting is inside another one *)
Definition has_def (t : pn) : bool := match child_node t "default" with Some _ => true | None => false end.
Fixpoint no_def (t : pn) : bool := negb (has_def t) && match t with PN _ cs _ => forallb (fun kc => no_def (snd kc)) cs end.
Fixpoint sep (t : pn) : bool := match t with PN _ cs _ => if has_def t then forallb (fun kc => no_def (snd kc)) cs else forallb (fun kc => sep (snd kc)) cs end.
Lemma assoc_In cs k (c : pn) : assoc cs k = Some c -> exists kc, In kc cs /\ snd kc = c.
Proof. induction cs as [|x cs IH]; cbn [assoc]; [discriminate|]. destruct (str_eqb (fst x) k); [intros [= <-]; exists x; cbn; auto|]. intros H. destruct (IH H) as (kc & I & E). exists kc. cbn. auto. Qed.
Lemma no_def_ok ks : forall t s, no_def t = true -> ~ setting t ks s.
Proof.
  induction ks as [|k ks IH]; intros [v cs a] s H [A (d & Hd)]; cbn [no_def] in H; apply andb_prop in H; destruct H as [H1 H2].
  - inversion A; subst. apply has_child_iff in Hd. unfold has_def in H1. rewrite Hd in H1. discriminate.
  - apply find_iff in A. cbn [find pn_children] in A. destruct (assoc cs k) as [c|] eqn:E; [|discriminate]. destruct (assoc_In _ _ _ E) as (kc & I & <-).
    rewrite forallb_forall in H2. apply (IH (snd kc) s (H2 kc I)). split; [apply find_iff; exact A|eauto].
Qed.
Lemma separate_check schema : sep schema = true -> separate schema.
Proof.
  intros H ks. revert schema H. induction ks as [|k ks IH]; intros [v cs a] H r s s' [A (d & Hd)] [A' (d' & Hd')]; cbn [sep] in H.
  - inversion A; subst. assert (has_def (PN v cs a) = true) as E by (apply has_child_iff in Hd; unfold has_def; rewrite Hd; reflexivity). rewrite E in H.
    destruct r as [|k r]; [reflexivity|]. exfalso. apply find_iff in A'. cbn [app find pn_children] in A'. destruct (assoc cs k) as [c|] eqn:Ec; [|discriminate]. destruct (assoc_In _ _ _ Ec) as (kc & I & <-).
    rewrite forallb_forall in H. apply (no_def_ok r (snd kc) s' (H kc I)). split; [apply find_iff; exact A'|eauto].
  - apply find_iff in A, A'. cbn [app find pn_children] in A, A'. destruct (assoc cs k) as [c|] eqn:Ec; [|discriminate]. destruct (assoc_In _ _ _ Ec) as (kc & I & <-). destruct (has_def _).
    + rewrite forallb_forall in H. exfalso. apply (no_def_ok ks (snd kc) s (H kc I)). split; [apply find_iff; exact A|eauto].
    + rewrite forallb_forall in H. apply (IH (snd kc) (H kc I) r s s'); split; [apply find_iff; exact A|eauto|apply find_iff; exact A'|eauto].
Qed.
Lemma setting_check schema ks s : find schema ks = Some s -> has_def s = true -> setting schema ks s.
Proof. intros H D. split; [apply find_iff; exact H|]. unfold has_def in D. destruct (child_node s "default") as [d|] eqn:E; [|discriminate]. exists d. apply has_child_iff. exact E. Qed.
Lemma setting_found schema ks s : setting schema ks s -> find schema ks = Some s /\ has_def s = true.
Proof. intros [A (d & Hd)]. apply find_iff in A. apply has_child_iff in Hd. split; [exact A|]. unfold has_def. rewrite Hd. reflexivity. Qed.
