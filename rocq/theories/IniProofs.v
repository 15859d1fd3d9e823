(** Proofs about the INI serializer. *)
From Coq Require Import Ascii String List Arith Bool Lia.
From Verif Require Import Base BaseProofs Str StrSpec StrModel StrBase StrProofs PnSpec PnModel PnProofs IniSpec IniModel.
Import ListNotations.

Lemma trim_id s : no_outer_blanks s -> trim_str s whitespace = Ok s.
Proof.
  intros [H1 H2]. destruct (trim_ok s whitespace) as (t & u & -> & (l & E1 & Hl & _) & (r & E2 & Hr & _)).
  assert (l = []) as ->.
  { destruct l as [|c l]; [reflexivity|]. exfalso. inversion Hl as [|? ? Hc _]; subst. exact (H1 c _ eq_refl Hc). }
  cbn [app] in E1. subst u.
  destruct r as [|c r] using rev_ind; [rewrite app_nil_r in E2; congruence|].
  exfalso. apply Forall_app_iff in Hr. destruct Hr as [_ Hr]. inversion Hr as [|? ? Hc _]; subst.
  exact (H2 c (t ++ r) (app_assoc _ _ _) Hc).
Qed.

Lemma key_value_id k v : ~ In "="%char k -> no_outer_blanks k -> no_outer_blanks v ->
  make_key_value_str (k ++ "="%char :: v) (lit "=") = Ok (k, v).
Proof.
  intros Hk H1 H2. unfold make_key_value_str. change (c_str (lit "=")) with (lit "=").
  destruct (find_first_of_spec (k ++ "="%char :: v) (lit "=")) as [[H _]|(a & c & b & E & Hc & Ha & ->)].
  - exfalso. apply Forall_app_iff in H. destruct H as [_ H]. inversion H as [|? ? N _]. apply N. left. reflexivity.
  - destruct Hc as [<-|[]].
    destruct (split_prefix (fun x => ~ one_of (lit "=") x) _ _ _ _ _ _ E) as (<- & _ & <-).
    + apply Forall_forall. intros x Hx [<-|[]]. exact (Hk Hx).
    + intros N. apply N. left. reflexivity.
    + exact Ha.
    + intros N. apply N. left. reflexivity.
    + rewrite substr_front. cbn [obind]. rewrite (trim_id _ H1). cbn [obind]. unfold mid_str. rewrite substr_after. cbn [obind].
      rewrite (trim_id _ H2). reflexivity.
Qed.

Lemma getline_line n l rest : ~ In lf l -> length l <= n -> getline n (l ++ lf :: rest) = (l, rest, AtLine).
Proof.
  revert n. induction l as [|c l IH]; intros n Hl L; cbn [app getline].
  - rewrite Ascii.eqb_refl. reflexivity.
  - destruct (Ascii.eqb_spec c lf) as [->|_]; [exfalso; apply Hl; left; reflexivity|].
    destruct n as [|n]; [cbn in L; lia|]. rewrite IH; [reflexivity|intros N; apply Hl; right; exact N|cbn in L; lia].
Qed.

Fixpoint ini_lines (s : ini_state) (ls : list str) : outcome ini_state :=
  match ls with
  | [] => Ok s
  | l :: r => do s' <- ini_process s l; ini_lines s' r
  end.

Lemma loop_lines ls : Forall ini_line ls -> forall fuel s, length (text_of ls) < fuel -> ini_loop fuel (text_of ls) s = ini_lines s ls.
Proof.
  induction 1 as [|l ls [[Hl _] Hlen] _ IH]; intros fuel s L; (destruct fuel as [|f]; [lia|]); cbn [ini_loop ini_lines].
  - reflexivity.
  - unfold text_of. cbn [flat_map]. rewrite <- app_assoc. cbn [app]. rewrite (getline_line _ _ _ Hl Hlen).
    destruct (ini_process s l) as [s'| |]; cbn [obind]; try reflexivity. apply IH.
    unfold text_of in *. cbn [flat_map] in L. rewrite !app_length in L. cbn [length] in L. lia.
Qed.

Lemma read_lines root ls : Forall ini_line ls -> read_ini root (text_of ls) = omap ini_root (ini_lines (IniSt root None) ls).
Proof. intros H. unfold read_ini. rewrite (loop_lines ls H); [reflexivity|lia]. Qed.

Lemma ini_lines_app s a b : ini_lines s (a ++ b) = do s' <- ini_lines s a; ini_lines s' b.
Proof.
  revert s. induction a as [|l a IH]; intros s; cbn [app ini_lines]; [reflexivity|].
  destruct (ini_process s l); cbn [obind]; auto.
Qed.

Lemma process_ignored s l : ini_ignored l -> ini_process s l = Ok s.
Proof. intros [->|[r ->]]; reflexivity. Qed.

Lemma nth_last {A} (l : list A) x d : nth (length (l ++ [x]) - 1) (l ++ [x]) d = x.
Proof. rewrite app_length. cbn [length]. replace (length l + 1 - 1) with (length l) by lia. rewrite app_nth2, Nat.sub_diag by lia. reflexivity. Qed.

Lemma process_item s k v : ini_item k v -> ini_process s (k ++ "="%char :: v) = Ok (ini_set s k v).
Proof.
  intros (Hk & Hv & Bk & Bv & Heq & Hsemi & Hgrp & _). unfold ini_process.
  rewrite c_str_id by (intros N; apply in_app_or in N; destruct N as [N|[N|N]]; [exact (proj2 Hk N)|discriminate N|exact (proj2 Hv N)]).
  destruct (k ++ "="%char :: v) as [|c line] eqn:E; [destruct k; discriminate|].
  assert (Hc : Ascii.eqb c ";"%char = false).
  { destruct (Ascii.eqb_spec c ";"%char) as [->|]; [|reflexivity]. exfalso. destruct k as [|x k]; [discriminate E|].
    injection E as -> _. exact (Hsemi k eq_refl). }
  rewrite Hc.
  assert (Hg : Ascii.eqb c "["%char && Ascii.eqb (nth (length (c :: line) - 1) (c :: line) nul) "]"%char = false).
  { destruct (Ascii.eqb_spec c "["%char) as [->|]; [|reflexivity]. cbn [andb].
    destruct (Ascii.eqb_spec (nth (length ("["%char :: line) - 1) ("["%char :: line) nul) "]"%char) as [N|]; [|reflexivity].
    exfalso. rewrite <- E in N. apply Hgrp. split; [destruct k as [|x k]; [discriminate E|injection E as -> _; exists k; reflexivity]|].
    destruct v as [|x v] using rev_ind.
    - rewrite nth_last in N. discriminate N.
    - replace (k ++ "="%char :: v ++ [x]) with ((k ++ "="%char :: v) ++ [x]) in N by (rewrite <- app_assoc; reflexivity).
      rewrite nth_last in N. subst x. exists v. reflexivity. }
  rewrite <- andb_assoc, Hg, andb_false_r. rewrite <- E. rewrite (key_value_id _ _ Heq Bk Bv). cbn [obind fst snd].
  replace (str_eqb k (k ++ "="%char :: v)) with false; [reflexivity|]. symmetry. apply str_eqb_neq. intros N.
  apply (f_equal (@length ascii)) in N. rewrite app_length in N. cbn in N. lia.
Qed.

Lemma process_group s g : g <> [] -> ~ In nul g ->
  ini_process s ("["%char :: g ++ ["]"%char]) = Ok (IniSt (add_child (ini_root s) g pn_empty) (Some (pn_size (ini_root s)))).
Proof.
  intros Hne Hn. unfold ini_process.
  rewrite c_str_id.
  2:{ intros [N|N]; [discriminate N|]. apply in_app_or in N. destruct N as [N|[N|[]]]; [exact (Hn N)|discriminate N]. }
  set (line := "["%char :: g ++ ["]"%char]).
  assert (L : length line = length g + 2) by (subst line; cbn [length]; rewrite app_length; cbn; lia).
  replace (Ascii.eqb "["%char ";"%char) with false by reflexivity. unfold line at 1. cbn match. fold line.
  assert (N : nth (length line - 1) line nul = "]"%char).
  { change line with (("["%char :: g) ++ ["]"%char]). apply nth_last. }
  rewrite N, L. replace (2 <? length g + 2) with true; [|symmetry; apply Nat.ltb_lt; destruct g; [congruence|cbn; lia]].
  cbn [andb Ascii.eqb Bool.eqb]. replace (Ascii.eqb "["%char "["%char && Ascii.eqb "]"%char "]"%char) with true by reflexivity.
  replace (length g + 2 - 2) with (length g) by lia.
  subst line. pose proof (substr_mid ["["%char] g ["]"%char]) as S. cbn [app length] in S. rewrite S. reflexivity.
Qed.

Definition item_line (e : str * pn) : str := fst e ++ "="%char :: pn_value (snd e).
Definition group_lines (g : str * pn) : list str := ("["%char :: fst g ++ ["]"%char]) :: map item_line (pn_children (snd g)).

Lemma text_app a b : text_of (a ++ b) = text_of a ++ text_of b.
Proof. apply flat_map_app. Qed.

Lemma text_items es : text_of (map item_line es) = flat_map ini_pair es.
Proof.
  unfold text_of. induction es as [|e es IH]; cbn [map flat_map]; [reflexivity|]. rewrite IH. f_equal. unfold item_line, ini_pair. rewrite <- app_assoc. reflexivity.
Qed.

Lemma write_lines t items groups :
  pn_children t = items ++ groups ->
  Forall (fun e => leaf (snd e) /\ pn_value (snd e) <> []) items ->
  Forall (fun g => pn_children (snd g) <> []) groups ->
  write_ini t = text_of (map item_line items ++ flat_map group_lines groups).
Proof.
  intros E Hi Hg. unfold write_ini. rewrite E, flat_map_app, text_app. f_equal.
  - rewrite text_items. clear E. induction Hi as [|[k [v cs b]] es [H1 H2] _ IH]; [reflexivity|]. cbn [flat_map]. rewrite IH. f_equal.
    unfold leaf in H1. cbn [snd pn_children pn_value] in *. subst cs. unfold ini_entry, pn_size, has_value. cbn [snd pn_children length pn_value].
    cbn [Nat.ltb Nat.leb]. destruct v; [congruence|reflexivity].
  - clear E. induction Hg as [|g gs H _ IH]; [reflexivity|]. cbn [flat_map]. rewrite IH, text_app. f_equal.
    unfold ini_entry, pn_size, group_lines. destruct (pn_children (snd g)) as [|e es] eqn:E; [congruence|]. rewrite <- E.
    replace (0 <? length (pn_children (snd g))) with true by (rewrite E; reflexivity).
    unfold text_of at 1. cbn [flat_map]. change (flat_map (fun l => l ++ [lf]) (map item_line (pn_children (snd g)))) with (text_of (map item_line (pn_children (snd g)))).
    rewrite text_items. cbn [app]. rewrite <- !app_assoc. reflexivity.
Qed.

(** what was read so far: the same children without flags *)
Definition unread (e : str * pn) : str * pn := (fst e, pn_of_value (pn_value (snd e))).

Lemma upd_last cs k c f : upd_child (cs ++ [(k, c)]) (length cs) f = cs ++ [(k, f c)].
Proof.
  unfold upd_child. rewrite nth_error_app2, Nat.sub_diag by lia. cbn [nth_error fst snd].
  induction cs as [|x cs IH]; cbn [app length list_set]; [reflexivity|]. rewrite IH. reflexivity.
Qed.

Lemma set_child_new n k v : ~ In k (pn_keys n) ->
  set_child n k (pn_of_value v) = PN (pn_value n) (pn_children n ++ [(k, pn_of_value v)]) (pn_flag n).
Proof.
  intros H. unfold set_child, get_or_add_child, try_get_child. rewrite (proj2 (child_index_none _ _) H).
  cbn [update_at]. destruct n as [w cs a]. unfold add_child, pn_size. cbn [pn_value pn_children pn_flag]. rewrite upd_last. reflexivity.
Qed.

Definition extend (n : pn) (es : list (str * pn)) : pn := PN (pn_value n) (pn_children n ++ map unread es) (pn_flag n).

Lemma items_root es : forall n,
  Forall (fun e => ini_item (fst e) (pn_value (snd e))) es -> NoDup (pn_keys n ++ map fst es) ->
  ini_lines (IniSt n None) (map item_line es) = Ok (IniSt (extend n es) None).
Proof.
  induction es as [|e es IH]; intros n H N; cbn [map ini_lines].
  - unfold extend. cbn [map]. rewrite app_nil_r. destruct n; reflexivity.
  - inversion H as [|? ? He Hes]; subst. unfold item_line at 1. rewrite (process_item _ _ _ He). cbn [obind]. unfold ini_set. cbn [ini_group ini_root update_at].
    cbn [map] in N. assert (Hk : ~ In (fst e) (pn_keys n)) by (apply NoDup_remove_2 in N; intros Hi; apply N, in_or_app; left; exact Hi).
    rewrite (set_child_new _ _ _ Hk). rewrite IH.
    + unfold extend. cbn [pn_value pn_children pn_flag map]. unfold unread at 2. rewrite <- app_assoc. reflexivity.
    + exact Hes.
    + unfold pn_keys in *. cbn [pn_children]. rewrite map_app, <- app_assoc. exact N.
Qed.

Lemma items_group es : forall rv cs k n a,
  Forall (fun e => ini_item (fst e) (pn_value (snd e))) es -> NoDup (pn_keys n ++ map fst es) ->
  ini_lines (IniSt (PN rv (cs ++ [(k, n)]) a) (Some (length cs))) (map item_line es) =
  Ok (IniSt (PN rv (cs ++ [(k, extend n es)]) a) (Some (length cs))).
Proof.
  induction es as [|e es IH]; intros rv cs k n a H N; cbn [map ini_lines].
  - unfold extend. cbn [map]. rewrite app_nil_r. destruct n; reflexivity.
  - inversion H as [|? ? He Hes]; subst. unfold item_line at 1. rewrite (process_item _ _ _ He). cbn [obind]. unfold ini_set.
    cbn [ini_group ini_root update_at pn_value pn_children pn_flag]. rewrite upd_last.
    cbn [map] in N. assert (Hk : ~ In (fst e) (pn_keys n)) by (apply NoDup_remove_2 in N; intros Hi; apply N, in_or_app; left; exact Hi).
    rewrite (set_child_new _ _ _ Hk). rewrite IH.
    + unfold extend. cbn [pn_value pn_children pn_flag map]. unfold unread at 2. rewrite <- app_assoc. reflexivity.
    + exact Hes.
    + unfold pn_keys in *. cbn [pn_children]. rewrite map_app, <- app_assoc. exact N.
Qed.

Definition regroup (g : str * pn) : str * pn := (fst g, extend pn_empty (pn_children (snd g))).

Lemma groups_read groups : forall rv cs a gr,
  Forall (fun g => fst g <> [] /\ ~ In nul (fst g) /\ NoDup (map fst (pn_children (snd g))) /\
    Forall (fun e => ini_item (fst e) (pn_value (snd e))) (pn_children (snd g))) groups ->
  exists gr', ini_lines (IniSt (PN rv cs a) gr) (flat_map group_lines groups) = Ok (IniSt (PN rv (cs ++ map regroup groups) a) gr').
Proof.
  induction groups as [|g groups IH]; intros rv cs a gr H; cbn [flat_map ini_lines map].
  - exists gr. rewrite app_nil_r. reflexivity.
  - inversion H as [|? ? (H1 & H2 & H3 & H4) Hg]; subst. unfold group_lines at 1. cbn [app ini_lines].
    rewrite (process_group _ _ H1 H2). cbn [obind ini_root]. unfold add_child, pn_size. cbn [pn_value pn_children pn_flag].
    rewrite ini_lines_app. rewrite items_group; [|exact H4|exact H3]. cbn [obind].
    destruct (IH rv (cs ++ [regroup g]) a (Some (length cs)) Hg) as [gr' E]. exists gr'.
    rewrite <- app_assoc in E. exact E.
Qed.

Lemma same_leaf e : leaf (snd e) -> same_tree (snd e) (snd (unread e)).
Proof. destruct e as [k [v cs b]]. unfold leaf. cbn [snd pn_children]. intros ->. constructor. constructor. Qed.

Lemma same_items es : Forall (fun e => leaf (snd e)) es -> Forall2 (fun x y => fst x = fst y /\ same_tree (snd x) (snd y)) es (map unread es).
Proof. induction 1 as [|e es H _ IH]; constructor; [split; [reflexivity|apply same_leaf, H]|exact IH]. Qed.

Lemma item_line_ok e : ini_item (fst e) (pn_value (snd e)) -> ini_line (item_line e).
Proof.
  intros ((H1 & H2) & (H3 & H4) & _ & _ & _ & _ & _ & L). unfold item_line. split; [split|].
  - intros N. apply in_app_or in N. destruct N as [N|[N|N]]; [exact (H1 N)|discriminate N|exact (H3 N)].
  - intros N. apply in_app_or in N. destruct N as [N|[N|N]]; [exact (H2 N)|discriminate N|exact (H4 N)].
  - rewrite app_length. cbn [length]. lia.
Qed.

Lemma round_trip_assembled t : ini_tree t -> exists t', read_ini pn_empty (write_ini t) = Ok t' /\ same_tree t t'.
Proof.
  intros (Hv & items & groups & E & Nd & Hi & Hg).
  assert (Hi1 : Forall (fun e => leaf (snd e) /\ pn_value (snd e) <> []) items) by (revert Hi; apply Forall_impl; tauto).
  assert (Hi2 : Forall (fun e => ini_item (fst e) (pn_value (snd e))) items) by (revert Hi; apply Forall_impl; tauto).
  assert (Hi3 : Forall (fun e => leaf (snd e)) items) by (revert Hi; apply Forall_impl; tauto).
  rewrite (write_lines t items groups E Hi1); [|revert Hg; apply Forall_impl; tauto].
  rewrite read_lines.
  - rewrite ini_lines_app, (items_root items pn_empty Hi2 Nd). cbn [obind].
    change (extend pn_empty items) with (PN [] (map unread items) false).
    destruct (groups_read groups [] (map unread items) false None) as [gr' ->].
    { revert Hg. apply Forall_impl. intros g (_ & _ & H3 & H4 & (_ & H5) & _ & H7).
      split; [exact H4|]. split; [exact H5|]. split; [exact H3|]. revert H7. apply Forall_impl. tauto. }
    cbn [omap ini_root]. eexists. split; [reflexivity|]. destruct t as [v cs b]. cbn [pn_value pn_children] in *. subst v cs.
    constructor. apply Forall2_app; [apply same_items, Hi3|].
    clear Hi Hi1 Hi2 Hi3 Nd. induction Hg as [|g gs H _ IH]; constructor; [|exact IH]. split; [reflexivity|].
    destruct g as [k [v cs a]]. cbn [fst snd pn_value pn_children] in *. destruct H as (-> & _ & _ & _ & _ & _ & H7).
    constructor. cbn [pn_children]. apply same_items. revert H7. apply Forall_impl. tauto.
  - apply Forall_app. split; [apply Forall_map; revert Hi2; apply Forall_impl; intros e; apply item_line_ok|].
    apply Forall_flat_map. revert Hg. apply Forall_impl. intros g (_ & _ & _ & _ & (H5 & H6) & L & H7). constructor.
    + split; [split|].
      * intros [N|N]; [discriminate N|]. apply in_app_or in N. destruct N as [N|[N|[]]]; [exact (H5 N)|discriminate N].
      * intros [N|N]; [discriminate N|]. apply in_app_or in N. destruct N as [N|[N|[]]]; [exact (H6 N)|discriminate N].
      * cbn [length]. rewrite app_length. cbn [length]. unfold str in *. lia.
    + apply Forall_map. revert H7. apply Forall_impl. intros e [_ H]. apply item_line_ok, H.
Qed.

(** ** Blank lines and comments *)
Lemma ignored_assembled root a l b : Forall ini_line a -> ini_line l -> Forall ini_line b -> ini_ignored l ->
  read_ini root (text_of (a ++ l :: b)) = read_ini root (text_of (a ++ b)).
Proof.
  intros Ha Hl Hb Hi. rewrite !read_lines; [|apply Forall_app; auto|apply Forall_app; split; [exact Ha|constructor; assumption]].
  f_equal. rewrite !ini_lines_app. destruct (ini_lines _ a); cbn [obind ini_lines]; try reflexivity.
  rewrite (process_ignored _ _ Hi). reflexivity.
Qed.

(** a last line without line break reads the same *)
Lemma last_line_assembled root ls l : Forall ini_line ls -> ini_line l ->
  read_ini root (text_of ls ++ l) = read_ini root (text_of (ls ++ [l])).
Proof.
  intros Hls Hl. rewrite read_lines by (apply Forall_app; split; [exact Hls|constructor; [exact Hl|constructor]]).
  unfold read_ini. f_equal.
  assert (G : forall fuel s, length (text_of ls ++ l) < fuel -> ini_loop fuel (text_of ls ++ l) s = ini_lines s (ls ++ [l])).
  { induction Hls as [|x ls [[Hx _] Lx] _ IH]; intros fuel s L; (destruct fuel as [|f]; [lia|]); cbn [app ini_lines ini_loop].
    - cbn [text_of flat_map app].
      assert (E : getline 1023 l = (l, [], AtEof)).
      { destruct Hl as [[Hn _] Ll]. clear -Hn Ll. revert Ll. generalize 1023 as n. induction l as [|c l IH]; intros n Ll; [reflexivity|].
        cbn [getline]. destruct (Ascii.eqb_spec c lf) as [->|_]; [exfalso; apply Hn; left; reflexivity|].
        destruct n as [|n]; [cbn in Ll; lia|]. rewrite IH; [reflexivity|intros N; apply Hn; right; exact N|cbn in Ll; lia]. }
      rewrite E. destruct (ini_process s l); reflexivity.
    - unfold text_of. cbn [flat_map]. rewrite <- !app_assoc. cbn [app]. rewrite (getline_line _ _ _ Hx Lx).
      destruct (ini_process s x) as [s'| |]; cbn [obind]; try reflexivity. apply IH.
      unfold text_of in *. cbn [flat_map] in L. rewrite !app_length in L. cbn [length] in L. rewrite app_length. lia. }
  apply G. lia.
Qed.
