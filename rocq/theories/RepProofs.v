(** The structure of a profiler's report. *)
From Coq Require Import Ascii String List Arith Bool ZArith Lia ZifyBool Sorting.Sorted Sorting.Permutation.
From Flocq Require Import Core IEEE754.BinarySingleNaN.
From Verif Require Import Base BaseProofs Str PnSpec PnModel PnProofs PnProofs2 ProfSpec ProfModel ProfProofs FltModel DurModel TxtSpec TxtModel RepSpec RepModel.
Import ListNotations.
Local Open Scope Z_scope.

Definition sorts (order : (nat -> Z) -> list nat -> list nat) : Prop :=
  forall key l, Permutation (order key l) l /\ StronglySorted (fun a b => key b <= key a) (order key l).

Lemma sum_by_names (f : act -> Z) (ns : list nat) (L : list act) : NoDup ns -> (forall a, In a L -> In (act_name a) ns) ->
  sum_of (fun n => sum_of f (filter (fun a => act_name a =? n)%nat L)) ns = sum_of f L.
Proof.
  intros N. induction L as [|a L IH]; intros C.
  - clear. induction ns as [|n ns IH]; [reflexivity|exact IH].
  - assert (C' : forall b, In b L -> In (act_name b) ns) by (intros b Hb; apply C; right; exact Hb). rewrite sum_cons.
    rewrite <- (IH C'). assert (Ca : In (act_name a) ns) by (apply C; left; reflexivity). clear IH C C'.
    induction ns as [|n ns IHn]; [destruct Ca|]. inversion N as [|? ? N1 N2]; subst. rewrite !sum_cons.
    destruct (Nat.eqb_spec (act_name a) n) as [E|E].
    + assert (X : sum_of (fun n => sum_of f (filter (fun b => act_name b =? n)%nat (a :: L))) ns = sum_of (fun n => sum_of f (filter (fun b => act_name b =? n)%nat L)) ns).
      { clear Ca N2 IHn N. subst n. induction ns as [|m ns IHm]; [reflexivity|]. rewrite !sum_cons. cbn [filter].
        assert ((act_name a =? m)%nat = false) as -> by (apply Nat.eqb_neq; intros Em; apply N1; left; congruence).
        f_equal. apply IHm. intros H. apply N1. right. exact H. }
      rewrite X. cbn [filter]. assert ((act_name a =? n)%nat = true) as -> by lia. rewrite sum_cons. lia.
    + destruct Ca as [Ca|Ca]; [congruence|]. rewrite (IHn N2 Ca). cbn [filter]. assert ((act_name a =? n)%nat = false) as -> by lia. lia.
Qed.
Lemma map_outcome_ok {A B} (f : A -> outcome B) (g : A -> B) l : (forall x, In x l -> f x = Ok (g x)) -> map_outcome f l = Ok (map g l).
Proof. induction l as [|x l IH]; intros H; [reflexivity|]. cbn [map_outcome map]. rewrite (H x (or_introl eq_refl)), IH by (intros y Hy; apply H; right; exact Hy). reflexivity. Qed.
Lemma map_outcome_rel {A B} (f : A -> outcome B) (R : A -> B -> Prop) l : (forall x, In x l -> exists y, f x = Ok y /\ R x y) -> exists ys, map_outcome f l = Ok ys /\ Forall2 R l ys.
Proof.
  induction l as [|x l IH]; intros H; [exists []; split; [reflexivity|constructor]|]. destruct (H x (or_introl eq_refl)) as (y & E & P). destruct IH as (ys & E' & P'); [intros z Hz; apply H; right; exact Hz|].
  exists (y :: ys). cbn [map_outcome]. rewrite E, E'. split; [reflexivity|constructor; assumption].
Qed.
Lemma fold_add l : forall z, fold_left Z.add l z = z + sum_of (fun x => x) l.
Proof. induction l as [|x l IH]; intros z; [cbn; lia|]. cbn [fold_left]. rewrite IH, sum_cons. lia. Qed.
Lemma sum_scale {X} (f : X -> Z) k l : sum_of (fun x => k * f x) l = k * sum_of f l.
Proof. induction l as [|x l IH]; [cbn; lia|]. rewrite !sum_cons, IH. lia. Qed.
Lemma sum_counts L : sum_of act_count L = Z.of_nat (length L) + sum_of act_count (flat_map act_inner L).
Proof.
  induction L as [|[n f l t] L IH]; [reflexivity|]. rewrite sum_cons. cbn [flat_map act_inner length]. rewrite sum_app, IH. cbn [act_count]. lia.
Qed.

Section Sections.
  Context (l : list section) (T : tree l) (label : nat) (t0 t1 : Z) (acts : list act).
  Context (Root : exists s, nth_error l 0 = Some s /\ s_name s = label)
    (Figs : forall i s q, nth_error l i = Some s -> call_path l i q -> s_total s = total_at t0 t1 acts q /\ s_count s = count_at acts q /\ exclusive_time l i s = own_at t0 t1 acts q)
    (Kids : forall i q n, call_path l i q -> (acts_at (q ++ [n]) acts <> [] <-> exists j s, nth_error l j = Some s /\ s_parent s = Some i /\ s_name s = n)).
  Definition name_of (j : nat) : nat := match nth_error l j with Some s => s_name s | None => 0%nat end.
  Lemma children_spec i j : In j (get_children l i) <-> exists s, nth_error l j = Some s /\ s_parent s = Some i.
  Proof.
    unfold get_children. rewrite filter_In, in_seq. unfold is_child. split.
    - intros [_ H]. destruct (nth_error l j) as [s|] eqn:E; [|discriminate]. exists s. split; [reflexivity|]. destruct (s_parent s) as [q|]; [|discriminate]. f_equal. lia.
    - intros (s & E & P). split; [assert (j < length l)%nat by (apply nth_error_Some; congruence); lia|]. rewrite E, P. apply Nat.eqb_refl.
  Qed.
  Lemma child_later i j : In j (get_children l i) -> (i < j < length l)%nat.
  Proof.
    intros H. apply children_spec in H. destruct H as (s & E & P). split; [|apply nth_error_Some; congruence]. destruct j as [|j]; [destruct (tr_root l T) as (s' & E' & P'); congruence|].
    destruct (tr_parent l T j s E) as (p & P' & L). assert (p = i) by congruence. lia.
  Qed.
  Lemma child_path i q j : call_path l i q -> In j (get_children l i) -> call_path l j (q ++ [name_of j]).
  Proof. intros P H. apply children_spec in H. destruct H as (s & E & Ps). unfold name_of. rewrite E. econstructor; eauto. Qed.
  Lemma children_nodup i : NoDup (get_children l i).
  Proof. apply NoDup_filter, seq_NoDup. Qed.
  Lemma names_nodup i ks : Permutation ks (get_children l i) -> NoDup (map name_of ks).
  Proof.
    intros P. assert (N : NoDup ks) by (apply (Permutation_NoDup (Permutation_sym P)), children_nodup). assert (I : forall j, In j ks -> In j (get_children l i)) by (intros j; apply Permutation_in, P). clear P.
    induction ks as [|j ks IH]; [constructor|]. inversion N as [|? ? N1 N2]; subst. cbn [map]. constructor; [|apply IH; [exact N2|intros k Hk; apply I; right; exact Hk]].
    intros H. apply in_map_iff in H. destruct H as (k & E & Hk). apply N1. assert (Ij := I j (or_introl eq_refl)). assert (Ik := I k (or_intror Hk)). apply children_spec in Ij, Ik. destruct Ij as (s & Es & Ps), Ik as (s' & Es' & Ps').
    unfold name_of in E. rewrite Es, Es' in E. replace j with k; [exact Hk|]. apply (tr_unique l T k j s' s); congruence.
  Qed.
  Lemma names_called i q ks n : call_path l i q -> Permutation ks (get_children l i) -> (In n (map name_of ks) <-> acts_at (q ++ [n]) acts <> []).
  Proof.
    intros P Pk. rewrite (Kids i q n P), in_map_iff. split.
    - intros (j & E & I). apply (Permutation_in _ Pk), children_spec in I. destruct I as (s & Es & Ps). exists j, s. unfold name_of in E. rewrite Es in E. auto.
    - intros (j & s & Es & Ps & E). exists j. unfold name_of. rewrite Es. split; [exact E|]. apply (Permutation_in _ (Permutation_sym Pk)), children_spec. eauto.
  Qed.

  Lemma overhead_ok estimate : forall fuel i q, call_path l i q -> (length l - i < fuel)%nat -> total_overhead fuel l estimate i = Ok (estimate * activations_at acts q).
  Proof.
    induction fuel as [|fuel IH]; intros i q P L; [lia|]. cbn [total_overhead]. destruct (path_in l i q P) as [s E]. unfold vec_get. rewrite E. cbn [obind]. destruct (Figs i s q E P) as (_ & C & _).
    rewrite (map_outcome_ok _ (fun j => estimate * activations_at acts (q ++ [name_of j]))).
    2: { intros j H. apply IH; [apply (child_path i q j P H)|]. pose proof (child_later i j H). lia. }
    cbn [obind]. f_equal. rewrite fold_add, sum_map, sum_scale, C. set (L0 := match q with [] => acts | _ => flat_map act_inner (acts_at q acts) end).
    assert (X : sum_of (fun j => activations_at acts (q ++ [name_of j])) (get_children l i) = sum_of act_count L0).
    { rewrite <- (sum_by_names act_count (map name_of (get_children l i)) L0).
      - rewrite sum_map. apply sum_ext. intros j _. unfold activations_at. destruct (q ++ [name_of j]) eqn:Eq; [destruct q; discriminate Eq|]. rewrite <- Eq, acts_at_snoc. reflexivity.
      - apply (names_nodup i). reflexivity.
      - intros a H. apply (names_called i q (get_children l i) (act_name a) P (Permutation_refl _)). rewrite acts_at_snoc. fold L0. intros N. assert (In a (filter (fun b => act_name b =? act_name a)%nat L0)) by (apply filter_In; split; [exact H|lia]). rewrite N in *. contradiction. }
    rewrite X. unfold L0, activations_at, count_at. destruct q as [|n q]; [change (Z.of_nat 1) with 1; ring|]. rewrite (sum_counts (acts_at (n :: q) acts)). ring.
  Qed.

  Context (order : (nat -> Z) -> list nat -> list nat) (Sorts : sorts order) (names : nat -> str) (estimate : Z) (minimum : f64) (tag : bool).
  Let whole := t1 - t0.
  Definition is_expanded (q : list nat) : Prop := Bleb minimum (share (total_at t0 t1 acts q) (t1 - t0)) = true.
  Definition has_line (q : list nat) (key v : str) : Prop :=
    key = (if tag then level_tag (share (own_at t0 t1 acts q) (t1 - t0)) else []) ++ names (last q label) /\
    v = section_value (t1 - t0) (total_at t0 t1 acts q) (own_at t0 t1 acts q) (count_at acts q) (estimate * activations_at acts q).
  Lemma name_last i q s : call_path l i q -> nth_error l i = Some s -> s_name s = last q label.
  Proof. intros P E. inversion P as [s' E'|i' s' p q' E' Ps Pq]; subst; [destruct Root as (s0 & E0 & <-); cbn; congruence|]. rewrite last_last. congruence. Qed.
  Lemma sorted_map ks q : StronglySorted (fun a b => total_of l b <= total_of l a) ks -> (forall j, In j ks -> call_path l j (q ++ [name_of j])) ->
    StronglySorted (fun n m => total_at t0 t1 acts (q ++ [m]) <= total_at t0 t1 acts (q ++ [n])) (map name_of ks).
  Proof.
    assert (TT : forall j, call_path l j (q ++ [name_of j]) -> total_of l j = total_at t0 t1 acts (q ++ [name_of j])).
    { intros j P. destruct (path_in _ _ _ P) as [s E]. unfold total_of. rewrite E. apply (Figs j s _ E P). }
    induction 1 as [|j ks _ IH F]; intros H; cbn [map]; constructor; [apply IH; intros k Hk; apply H; right; exact Hk|].
    apply Forall_map. rewrite Forall_forall in *. intros k Hk. rewrite <- (TT j), <- (TT k); [apply F, Hk|apply H; right; exact Hk|apply H; left; reflexivity].
  Qed.
  Lemma section_reported : forall fuel i q, call_path l i q -> (length l - i < fuel)%nat -> exists kc, report_section fuel order names l estimate minimum tag i = Ok kc /\ reported t0 t1 acts is_expanded has_line q kc.
  Proof.
    induction fuel as [|fuel IH]; intros i q P L; [lia|]. cbn [report_section]. destruct (path_in l i q P) as [s E]. destruct Root as (r & Er & _). unfold vec_get. rewrite E, Er. cbn [obind].
    destruct (Figs i s q E P) as (F1 & F2 & F3). destruct (Figs 0%nat r [] Er (path_root l r Er)) as (R1 & _). cbn [total_at] in R1.
    rewrite (overhead_ok estimate (S (length l)) i q P ltac:(lia)). cbn [obind]. rewrite R1, F1, F2, F3, (name_last i q s P E).
    destruct (Sorts (total_of l) (get_children l i)) as [Perm Desc]. set (ks := order (total_of l) (get_children l i)) in *.
    assert (In' : forall j, In j ks -> In j (get_children l i)) by (intros j; apply Permutation_in, Perm).
    destruct (Bleb minimum (share (total_at t0 t1 acts q) (t1 - t0))) eqn:Ex.
    - destruct (map_outcome_rel (report_section fuel order names l estimate minimum tag) (fun j kc => reported t0 t1 acts is_expanded has_line (q ++ [name_of j]) kc) ks) as (cs & Em & Fm).
      { intros j Hj. apply IH; [apply (child_path i q j P), In', Hj|]. pose proof (child_later i j (In' j Hj)). lia. }
      rewrite Em. cbn [obind]. eexists. split; [reflexivity|]. apply (rep_node _ _ _ _ _ q _ _ (map name_of ks) cs).
      + split; reflexivity.
      + intros _. split; [apply (names_nodup i ks Perm)|]. split; [intros n; apply (names_called i q ks n P Perm)|]. apply sorted_map; [exact Desc|]. intros j Hj. apply (child_path i q j P), In', Hj.
      + intros N. exfalso. apply N. exact Ex.
      + clear - Fm. induction Fm; cbn [map]; constructor; assumption.
    - cbn [obind]. eexists. split; [reflexivity|]. apply (rep_node _ _ _ _ _ q _ _ [] []); [split; reflexivity| |reflexivity|constructor]. intros X. unfold is_expanded in X. congruence.
  Qed.
End Sections.

Lemma session_sections P label t0 acts t1 P' : p_enabled P = false -> p_current P = None -> prof_session P label t0 (flat_map calls acts) t1 = Ok P' ->
  p_enabled P' = false /\ tree (p_sections P') /\ (exists s, nth_error (p_sections P') 0 = Some s /\ s_name s = label) /\
  (forall i s q, nth_error (p_sections P') i = Some s -> call_path (p_sections P') i q -> s_total s = total_at t0 t1 acts q /\ s_count s = count_at acts q /\ exclusive_time (p_sections P') i s = own_at t0 t1 acts q) /\
  (forall i q n, call_path (p_sections P') i q -> (acts_at (q ++ [n]) acts <> [] <-> exists j s, nth_error (p_sections P') j = Some s /\ s_parent s = Some i /\ s_name s = n)).
Proof.
  intros En Cu E. assert (I : idle P) by (split; assumption). destruct (session_ok P label t0 acts t1 I) as (P2 & A & E2 & [I1 I2] & T & R & A0 & K & Rt). assert (P2 = P') as -> by congruence. clear E2.
  split; [exact I1|]. split; [exact T|]. split; [exact Rt|]. split.
  - intros i s q Hs Pq. assert (X := exclusive_assembled P label t0 acts t1 P' I E i s q Hs Pq). assert (Y : own_at t0 t1 acts q = exclusive_time (p_sections P') i s) by (rewrite X; destruct q; reflexivity). rewrite Y. clear X Y. destruct q as [|n q].
    + pose proof (figures_of _ _ _ _ _ R Hs Pq) as F. rewrite A0 in F. injection F as F1 F2 F3. cbn [total_at count_at]. auto.
    + destruct (section_figures acts (p_sections P') A i s (n :: q) R K Hs Pq) as (F1 & F2 & _); [discriminate|]. auto.
  - intros i q n Pq. assert (N2 : q ++ [n] <> []) by (destruct q; discriminate). split.
    + intros N. specialize (K _ N2). destruct (A (q ++ [n])) as [v|] eqn:Ev; [|unfold plus in K; destruct (acts_at _ acts); [congruence|discriminate]].
      apply R in Ev. destruct Ev as (j & c & Pj & Hj & _). inversion Pj as [? ? Ex Ey|? c' p q0 Hc' Hp Hq Ex Ey]; [destruct q; discriminate|]. apply snoc_inj in Ey. destruct Ey as [-> Ey].
      assert (p = i) as -> by exact (path_index _ _ _ Hq T _ Pq). exists j, c'. auto.
    + intros (j & s & Hj & Ps & <-). apply (section_figures acts (p_sections P') A j s (q ++ [s_name s]) R K Hj); [|exact N2]. econstructor; eauto.
Qed.

Lemma report_structure order names estimate minimum tag P label t0 acts t1 t P' : sorts order -> p_enabled P = false -> p_current P = None -> prof_session P label t0 (flat_map calls acts) t1 = Ok P' ->
  exists kc, prof_report order names estimate P' minimum tag t = Ok (PN [] [kc] false, P') /\ reported t0 t1 acts (is_expanded t0 t1 acts minimum) (has_line label t0 t1 acts names estimate tag) [] kc.
Proof.
  intros So En Cu E. destruct (session_sections P label t0 acts t1 P' En Cu E) as (En' & T & Rt & Figs & Kids). destruct Rt as (s & Hs & Hl).
  destruct (section_reported (p_sections P') T label t0 t1 acts (ex_intro _ s (conj Hs Hl)) Figs Kids order So names estimate minimum tag (S (length (p_sections P'))) 0 [] (path_root _ s Hs) ltac:(lia)) as (kc & Ek & Rk).
  exists kc. unfold prof_report. rewrite En'. cbn [obind]. rewrite Ek. split; [reflexivity|exact Rk].
Qed.

(** a report without stopping first stops *)
Lemma report_stops order names estimate minimum tag p t p' : p_enabled p = true -> prof_stop p t = Ok p' -> p_enabled p' = false -> prof_report order names estimate p minimum tag t = prof_report order names estimate p' minimum tag t.
Proof. intros E S' E'. unfold prof_report. rewrite E, E', S'. reflexivity. Qed.

Lemma reported_weaken t0 t1 acts (ex ex' : list nat -> Prop) (line line' : list nat -> str -> str -> Prop) : (forall q, q = [] \/ acts_at q acts <> [] -> ex q <-> ex' q) -> (forall q, ex q \/ ~ ex q) -> (forall q k v, q = [] \/ acts_at q acts <> [] -> line q k v -> line' q k v) ->
  forall t q k, q = [] \/ acts_at q acts <> [] -> reported t0 t1 acts ex line q (k, t) -> reported t0 t1 acts ex' line' q (k, t).
Proof.
  intros X D L t. induction t as [v cs a IH] using pn_ind'. intros q k Q H. inversion H as [? ? ? ns ? Hl H1 H2 Hc]; subst. apply (rep_node _ _ _ _ _ q k v ns cs); [apply (L q k v Q), Hl|intros E; apply H1, (X q Q), E|intros E; apply H2; intros E'; apply E, (X q Q), E'|].
  assert (C : forall n, In n ns -> acts_at (q ++ [n]) acts <> []). { intros n I. destruct (D q) as [E|E]; [apply (H1 E), I|]. rewrite (H2 E) in I. destruct I. }
  clear - IH Hc C. induction Hc as [|n [k' t'] ns cs H _ IHc]; constructor.
  - inversion IH as [|? ? I1 I2]; subst. apply (I1 (q ++ [n]) k'); [right; apply C; left; reflexivity|exact H].
  - inversion IH as [|? ? I1 I2]; subst. apply IHc; [exact I2|]. intros m Hm. apply C. right. exact Hm.
Qed.
Lemma reported_keys t0 t1 acts (ex : list nat -> Prop) (line : list nat -> str -> str -> Prop) (G : str -> Prop) : (forall q k v, line q k v -> G k) ->
  forall t q k, reported t0 t1 acts ex line q (k, t) -> G k /\ forall d, Forall (fun e => G (snd (fst e))) (outline d t).
Proof.
  intros L t. induction t as [v cs a IH] using pn_ind'. intros q k H. inversion H as [? ? ? ns ? Hl H1 H2 Hc]; subst. split; [apply (L q k v Hl)|]. intros d. cbn [outline]. clear - IH Hc.
  induction Hc as [|n [k' t'] ns cs H _ IHc]; [constructor|]. inversion IH as [|? ? I1 I2]; subst. cbn [flat_map fst snd] in *. destruct (I1 _ _ H) as [K F]. constructor; [exact K|]. apply Forall_app. split; [apply F|apply IHc, I2].
Qed.

(** * bounds of the figures *)
Definition good (a : act) : Prop := let 'Act _ f l t := a in in_order f l t.
Lemma order_good c L c' : in_order c L c' -> Forall good L /\ 0 <= sum_of duration L <= c' - c.
Proof.
  induction 1 as [c c' H|c n f l t r c' H Hl IHl Hr IHr]; [split; [constructor|cbn; lia]|]. destruct IHl as [_ L2], IHr as [R1 R2]. split; [constructor; assumption|]. rewrite sum_cons. cbn [duration]. lia.
Qed.
Lemma good_duration a : good a -> 0 <= duration a /\ Forall good (act_inner a) /\ sum_of duration (act_inner a) <= duration a.
Proof. destruct a as [n f l t]. cbn [good duration act_inner]. intros H. apply order_good in H. destruct H as [H1 H2]. split; [lia|]. split; [exact H1|lia]. Qed.
Lemma path_bound q : forall L, Forall good L -> 0 <= sum_of own (acts_at q L) <= sum_of duration (acts_at q L) /\ sum_of duration (acts_at q L) <= sum_of duration L.
Proof.
  assert (Own : forall L, Forall good L -> 0 <= sum_of own L <= sum_of duration L /\ 0 <= sum_of duration L).
  { induction 1 as [|a L Ga _ IH]; [cbn; lia|]. rewrite !sum_cons. unfold own at 1 3. destruct (good_duration a Ga) as (D1 & D2 & D3). assert (0 <= sum_of duration (act_inner a)) by (clear - D2; induction D2 as [|b L0 Gb _ IHb]; [cbn; lia|]; rewrite sum_cons; destruct (good_duration b Gb); lia). lia. }
  induction q as [|n q IH]; intros L G; [cbn; split; [lia|apply Own, G]|]. cbn [acts_at].
  assert (Gf : Forall good (filter (fun a => act_name a =? n)%nat L)) by (apply Forall_forall; intros a Ia; apply filter_In in Ia; rewrite Forall_forall in G; apply G, Ia).
  assert (Sf : sum_of duration (filter (fun a => act_name a =? n)%nat L) <= sum_of duration L).
  { clear - G. induction G as [|a L Ga _ IHG]; [cbn; lia|]. cbn [filter]. destruct (good_duration a Ga) as (D1 & _). destruct (act_name a =? n)%nat; rewrite !sum_cons; lia. }
  destruct q as [|m q]; [split; [apply Own, Gf|exact Sf]|]. set (F := filter _ L) in *.
  assert (Gi : Forall good (flat_map act_inner F) /\ sum_of duration (flat_map act_inner F) <= sum_of duration F).
  { clear - Gf. induction Gf as [|a L0 Ga _ IHG]; [split; [constructor|cbn; lia]|]. destruct (good_duration a Ga) as (D1 & D2 & D3), IHG as [I1 I2]. cbn [flat_map]. rewrite sum_app, sum_cons. split; [apply Forall_app; split; assumption|lia]. }
  destruct (IH (flat_map act_inner F) (proj1 Gi)) as [H1 H2]. split; [exact H1|lia].
Qed.
Lemma figures_bound t0 t1 acts q : in_order t0 acts t1 -> 0 <= own_at t0 t1 acts q <= total_at t0 t1 acts q /\ total_at t0 t1 acts q <= t1 - t0.
Proof.
  intros O. destruct (order_good _ _ _ O) as [G B]. unfold own_at, total_at. destruct q as [|n q]; [lia|]. destruct (path_bound (n :: q) acts G) as [H1 H2]. lia.
Qed.
Lemma activations_positive acts q : q = [] \/ acts_at q acts <> [] -> 0 < activations_at acts q /\ (0 < count_at acts q)%nat.
Proof.
  assert (P : forall a, 0 < act_count a).
  { fix IH 1. intros [m f l t]. assert (Q : 0 <= sum_of act_count l); [|cbn [act_count]; lia]. induction l as [|b l IHl]; [apply Z.le_refl|]. rewrite sum_cons. pose proof (IH b) as B. lia. }
  assert (S : forall l, 0 <= sum_of act_count l) by (induction l as [|a l IH]; [cbn; lia|]; rewrite sum_cons; pose proof (P a); lia).
  intros Q. unfold activations_at, count_at. destruct q as [|n q]; [pose proof (S acts); lia|]. destruct Q as [Q|Q]; [discriminate Q|]. destruct (acts_at (n :: q) acts) as [|a l]; [congruence|]. rewrite sum_cons. cbn [length]. pose proof (P a). pose proof (S l). lia.
Qed.
