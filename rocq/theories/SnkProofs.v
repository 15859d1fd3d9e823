(** Proofs about what log sinks write. *)
From Coq Require Import Ascii String List Arith Bool Lia.
From Verif Require Import Base BaseProofs Str StrSpec StrModel StrBase StrProofs Conc LogSpec LogModel LogProofs SnkSpec SnkModel.
Import ListNotations.

(** * text *)
Lemma pieces_ext {A} (p q : A -> Prop) s ls : (forall c, p c <-> q c) -> pieces p s ls -> pieces q s ls.
Proof.
  intros E H. assert (F : forall l, Forall p l -> Forall q l) by (intros l; apply Forall_impl; intros a; apply E).
  assert (N : forall l, Forall (fun c => ~ p c) l -> Forall (fun c => ~ q c) l) by (intros l; apply Forall_impl; intros a; rewrite (E a); auto).
  induction H; constructor; auto. apply E. assumption.
Qed.
Lemma breaks_iff c : one_of [cr; lf] c <-> breaks c.
Proof. unfold one_of, breaks. cbn. intuition. Qed.
Lemma insert_all cs : forall t, fold_left insert cs (OS t None true) = OS (t ++ concat cs) None true.
Proof.
  induction cs as [|c cs IH]; intros t; [cbn; rewrite app_nil_r; reflexivity|]. cbn [fold_left concat]. unfold insert at 2. cbn [os_good os_room os_text].
  rewrite IH, app_assoc. reflexivity.
Qed.
Lemma chunks_lines (p : str) ls : concat (flat_map (fun line => [p; line; [lf]]) ls) = concat (map (fun line => p ++ line ++ [lf]) ls).
Proof. induction ls as [|l ls IH]; [reflexivity|]. cbn [flat_map map]. rewrite concat_app, IH. cbn [concat]. rewrite app_nil_r. reflexivity. Qed.
Lemma prefix_ok fmt l now : (show_level fmt = true -> l <= never) -> get_log_prefix fmt l now = Ok (prefix_of (show_time fmt) (show_level fmt) now l).
Proof.
  intros H. destruct fmt as [a b]. unfold get_log_prefix, prefix_of. cbn [show_time show_level] in *. destruct b; [|rewrite app_nil_r; reflexivity].
  specialize (H eq_refl). unfold never in H. do 8 (destruct l as [|l]; [cbn; rewrite <- ?app_assoc; reflexivity|]). lia.
Qed.
Lemma console_ok fmt l now msg : (show_level fmt = true -> l <= never) ->
  exists cs, console_chunks fmt l now msg = Ok cs /\ console_lines (show_time fmt) (show_level fmt) (now, l, msg) (concat cs).
Proof.
  intros H. unfold console_chunks. rewrite (prefix_ok _ _ _ H). cbn [obind].
  destruct (split_str_ok msg [cr; lf]) as (ps & E & Hp); [vm_compute; intuition discriminate|]. rewrite E. cbn [obind].
  eexists. split; [reflexivity|]. rewrite chunks_lines. constructor. eapply pieces_ext; [|exact Hp]. exact breaks_iff.
Qed.

Lemma stream_run k fmt xs : k <> KConsole -> forall t, sink_run k fmt xs (OS t None true) = Ok (OS (t ++ concat (map stream_line (entries xs))) None true).
Proof.
  intros Hk. induction xs as [|[now [l m|]] xs IH]; intros t; cbn [sink_run].
  - cbn. rewrite app_nil_r. reflexivity.
  - replace (handle k fmt l now m (OS t None true)) with (@Ok os (OS (t ++ stream_line (now, l, m)) None true)).
    + cbn [obind]. rewrite IH. unfold entries. cbn [flat_map entry_of fst snd]. cbn [app map concat]. rewrite <- app_assoc. reflexivity.
    + destruct k; [|congruence|]; cbn [handle os_good]; rewrite insert_all; cbn [stream_chunks concat stream_line]; rewrite app_nil_r; reflexivity.
  - rewrite IH. reflexivity.
Qed.
Lemma console_run fmt xs : (show_level fmt = true -> Forall (fun e => snd (fst e) <= never) (entries xs)) -> forall t,
  exists w, sink_run KConsole fmt xs (OS t None true) = Ok (OS (t ++ w) None true) /\ console_text (show_time fmt) (show_level fmt) (entries xs) w.
Proof.
  induction xs as [|[now [l m|]] xs IH]; intros H t; cbn [sink_run].
  - exists []. rewrite app_nil_r. split; [reflexivity|constructor].
  - unfold entries in H. cbn [flat_map entry_of fst snd app] in H. fold (entries xs) in H.
    destruct (console_ok fmt l now m) as (cs & E & L); [intros S; specialize (H S); inversion H; assumption|].
    cbn [handle]. rewrite E. cbn [obind]. rewrite insert_all.
    destruct (IH ltac:(intros S; specialize (H S); inversion H; assumption) (t ++ concat cs)) as (w & Ew & Hw).
    exists (concat cs ++ w). rewrite Ew, <- app_assoc. split; [reflexivity|]. unfold entries. cbn [flat_map entry_of fst snd app]. constructor; assumption.
  - destruct (IH H t) as (w & Ew & Hw). exists w. split; assumption.
Qed.

(** nothing but line breaks is dropped *)
Lemma pieces_kept {A} (sep : A -> Prop) (f : A -> bool) : (forall c, f c = false <-> sep c) -> forall s ls, pieces sep s ls -> concat ls = filter f s.
Proof.
  intros Hf. assert (D : forall s, Forall sep s -> filter f s = []).
  { induction 1 as [|c s Hc _ IH]; [reflexivity|]. cbn. rewrite (proj2 (Hf c) Hc). exact IH. }
  assert (K : forall s, Forall (fun c => ~ sep c) s -> filter f s = s).
  { induction 1 as [|c s Hc _ IH]; [reflexivity|]. cbn. destruct (f c) eqn:E; [rewrite IH; reflexivity|]. exfalso. apply Hc, Hf, E. }
  intros s ls H. induction H as [s Hs|s p Hs Hp Hn|s p c r ps Hs Hp Hn Hc Hr IH].
  - rewrite D by exact Hs. reflexivity.
  - rewrite filter_app, D, K by assumption. cbn. apply app_nil_r.
  - rewrite !filter_app, (D s), (K p), <- IH by assumption. reflexivity.
Qed.

(** * devices with room for [n] bytes *)
Definition filled (n : nat) (full : str) (o : os) : Prop :=
  os_text o = firstn n full /\ (os_good o = true -> os_room o = Some (n - length full) /\ length full <= n) /\ (os_good o = false -> n < length full).
Lemma filled_insert n full o c : filled n full o -> filled n (full ++ c) (insert o c).
Proof.
  intros (H1 & H2 & H3). unfold insert. destruct (os_good o) eqn:G.
  - destruct (H2 eq_refl) as [Hr Hl]. rewrite Hr. unfold filled. cbn [os_text os_good os_room]. split; [|split].
    + rewrite H1, firstn_app. f_equal.
    + intros E. apply Nat.leb_le in E. rewrite app_length. split; [f_equal; lia|lia].
    + intros E. apply Nat.leb_gt in E. rewrite app_length. lia.
  - specialize (H3 eq_refl). split; [|split].
    + rewrite H1, firstn_app. replace (n - length full) with 0 by lia. cbn. rewrite app_nil_r. reflexivity.
    + congruence.
    + intros _. rewrite app_length. lia.
Qed.
Lemma filled_all n cs : forall full o, filled n full o -> filled n (full ++ concat cs) (fold_left insert cs o).
Proof.
  induction cs as [|c cs IH]; intros full o H; [cbn; rewrite app_nil_r; exact H|]. cbn [fold_left concat]. rewrite app_assoc. apply IH, filled_insert, H.
Qed.
Lemma filled_skip n full o c : filled n full o -> os_good o = false -> filled n (full ++ c) o.
Proof.
  intros (H1 & H2 & H3) G. specialize (H3 G). split; [|split].
  - rewrite H1, firstn_app. replace (n - length full) with 0 by lia. cbn. rewrite app_nil_r. reflexivity.
  - congruence.
  - intros _. rewrite app_length. lia.
Qed.
Lemma filled_run k fmt n xs : forall full o o' full', filled n full o -> sink_run k fmt xs (OS full None true) = Ok full' ->
  sink_run k fmt xs o = Ok o' -> filled n (os_text full') o'.
Proof.
  induction xs as [|[now [l m|]] xs IH]; intros full o o' full' F H1 H2; cbn [sink_run] in H1, H2.
  - injection H1 as <-. injection H2 as <-. exact F.
  - destruct k; cbn [handle os_good] in H1, H2.
    + cbn [obind] in H1, H2. rewrite insert_all in H1. eapply IH; [|exact H1|exact H2]. apply filled_all, F.
    + destruct (console_chunks fmt l now m) as [cs| |]; cbn [obind] in H1, H2; try discriminate. rewrite insert_all in H1.
      eapply IH; [|exact H1|exact H2]. apply filled_all, F.
    + cbn [obind] in H1. rewrite insert_all in H1. destruct (os_good o) eqn:G; cbn [obind] in H2.
      * eapply IH; [|exact H1|exact H2]. apply filled_all, F.
      * eapply IH; [|exact H1|exact H2]. apply filled_skip; assumption.
  - eapply IH; eassumption.
Qed.
Lemma run_ok k fmt xs : (k = KConsole -> show_level fmt = true -> Forall (fun e => snd (fst e) <= never) (entries xs)) -> forall o,
  exists o', sink_run k fmt xs o = Ok o'.
Proof.
  induction xs as [|[now [l m|]] xs IH]; intros H o; cbn [sink_run]; [eexists; reflexivity| |apply IH, H].
  assert (H' : k = KConsole -> show_level fmt = true -> Forall (fun e => snd (fst e) <= never) (entries xs)).
  { intros K S. specialize (H K S). inversion H. assumption. }
  destruct k; cbn [handle].
  - cbn [obind]. apply IH, H'.
  - destruct (console_ok fmt l now m) as (cs & E & _); [intros S; specialize (H eq_refl S); inversion H; assumption|]. rewrite E. cbn [obind]. apply IH, H'.
  - destruct (os_good o); cbn [obind]; apply IH, H'.
Qed.
Lemma room_prefix k fmt n xs : (k = KConsole -> show_level fmt = true -> Forall (fun e => snd (fst e) <= never) (entries xs)) ->
  exists o o', sink_run k fmt xs (fresh_stream None true) = Ok o /\ sink_run k fmt xs (fresh_stream (Some n) true) = Ok o' /\
    os_text o' = firstn n (os_text o).
Proof.
  intros H. destruct (run_ok k fmt xs H (fresh_stream None true)) as [o E]. destruct (run_ok k fmt xs H (fresh_stream (Some n) true)) as [o' E'].
  exists o, o'. split; [exact E|]. split; [exact E'|].
  refine (proj1 (filled_run k fmt n xs [] _ _ _ _ E E')). split; [destruct n; reflexivity|]. split; [intros _; cbn; split; [f_equal|]; lia|discriminate].
Qed.
Lemma unopened k fmt xs room o : k <> KConsole -> sink_run k fmt xs (fresh_stream room false) = Ok o -> os_text o = [].
Proof.
  intros Hk. assert (G : forall o0, os_good o0 = false -> sink_run k fmt xs o0 = Ok o -> o = o0).
  { induction xs as [|[now [l m|]] xs IH]; intros o0 G H; cbn [sink_run] in H; [congruence| |apply IH; assumption].
    destruct k; [|congruence|]; cbn [handle] in H.
    - cbn [obind] in H. replace (fold_left insert (stream_chunks now m) o0) with o0 in H; [apply IH; assumption|].
      cbn [stream_chunks fold_left]. unfold insert. rewrite G. rewrite ?G. reflexivity.
    - rewrite G in H. cbn [obind] in H. apply IH; assumption. }
  intros H. rewrite (G (fresh_stream room false) eq_refl H). reflexivity.
Qed.

(** * with the log: a sink that is constructed first and then gets messages *)
Definition message_call (x : nat * (level * text)) : nat * log_op := (fst x, Message (fst (snd x)) (snd (snd x))).
Lemma messages_seen static s l owner : forall ms,
  expected static s (Some (l, AllThreads, owner, true)) (map message_call ms) =
  map (fun x => Received (fst (snd x)) (snd (snd x))) (filter (fun x => l <=? fst (snd x)) ms).
Proof.
  induction ms as [|[me [lv t]] ms IH]; [reflexivity|]. cbn [map expected message_call fst snd seen view_after interested].
  rewrite IH. cbn [filter fst snd]. rewrite andb_true_r. destruct (l <=? lv); reflexivity.
Qed.
Lemma messages_allowed s0 v : forall ms, allowed s0 v (map message_call ms).
Proof. induction ms as [|[me [lv t]] ms IH]; [exact I|]. exists v. split; [reflexivity|exact IH]. Qed.

(** * threads *)
Definition current (t : sthread) (w : list str) : list (list str) :=
  match s_pc t with SIdle => [] | SWant b => [b] | SWrite r => [w ++ r] end.
Definition writing (t : sthread) : bool := match s_pc t with SWrite _ => true | _ => false end.
(** [h]: the messages written so far, with their threads; [c]: the thread that is writing, and the part it has written *)
Definition part (c : option (nat * list str)) : list str := match c with Some (_, w) => w | None => [] end.
Definition sink_inv (calls : list (list (list str))) (out : str) (ts : list sthread) (h : list (nat * list str)) (c : option (nat * list str)) : Prop :=
  length ts = length calls /\
  out = concat (map (fun x => concat (snd x)) h) ++ concat (part c) /\
  (forall j w, c = Some (j, w) -> exists t, nth_error ts j = Some t /\ writing t = true) /\
  forall i t, nth_error ts i = Some t ->
    (writing t = true -> exists w, c = Some (i, w)) /\
    nth_error calls i = Some (by_thread i h ++ current t (part c) ++ s_todo t).
Lemma by_thread_app {A} i (h k : list (nat * A)) : by_thread i (h ++ k) = by_thread i h ++ by_thread i k.
Proof. unfold by_thread. rewrite filter_app, map_app. reflexivity. Qed.
Lemma by_thread_one {A} i j (b : A) : by_thread i [(j, b)] = if j =? i then [b] else [].
Proof. unfold by_thread. cbn. destruct (j =? i); reflexivity. Qed.
Lemma writing_holds t : writing t = true <-> sholds true t = Exclusive.
Proof. unfold writing, sholds. destruct (s_pc t); split; congruence. Qed.
Lemma current_idle t w w' : writing t = false -> current t w = current t w'.
Proof. unfold writing, current. destruct (s_pc t); congruence. Qed.

Lemma sink_inv_step calls out ts out' ts' h c : exclusive_access (sholds true) ts ->
  cstep (sholds true) slocal (fun _ _ => False) (out, ts) (out', ts') -> sink_inv calls out ts h c ->
  exists h' c', sink_inv calls out' ts' h' c'.
Proof.
  intros X H (I1 & I2 & I4 & I3). inversion H as [? ? k p ? p' Hk Hl Ha|]; subst; [|contradiction].
  assert (Lk : k < length ts) by (apply nth_error_Some; congruence).
  destruct (I3 k p Hk) as (Ip & Ic).
  assert (Other : forall i t, nth_error (list_set ts k p') i = Some t -> i <> k -> nth_error ts i = Some t).
  { intros i t Hi N. rewrite nth_error_list_set_neq in Hi by congruence. exact Hi. }
  assert (Same : forall t, nth_error (list_set ts k p') k = Some t -> t = p').
  { intros t Hi. rewrite nth_error_list_set_eq in Hi by exact Lk. congruence. }
  assert (New : nth_error (list_set ts k p') k = Some p') by (apply nth_error_list_set_eq; exact Lk).
  (* another thread is not writing while this one is *)
  assert (Alone : writing p = true -> forall i t, nth_error ts i = Some t -> i <> k -> writing t = false).
  { intros W i t Hi N. apply writing_holds in W. pose proof (X k i p t ltac:(congruence) Hk Hi W) as F.
    destruct (writing t) eqn:E; [|reflexivity]. apply writing_holds in E. congruence. }
  inversion Hl; subst; cbn [s_pc s_todo] in *.
  - (* begin *)
    exists h, c. split; [rewrite list_set_length; exact I1|]. split; [reflexivity|]. split.
    + intros j w Hc. destruct (I4 j w Hc) as (t & Hj & Ht). destruct (Nat.eq_dec j k) as [->|N].
      * rewrite Hk in Hj. injection Hj as <-. discriminate.
      * exists t. rewrite nth_error_list_set_neq by congruence. auto.
    + intros i t Hi. destruct (Nat.eq_dec i k) as [->|N]; [|exact (I3 i t (Other i t Hi N))]. rewrite (Same t Hi). split; [discriminate|exact Ic].
  - (* lock *)
    assert (Hn : c = None).
    { cbn in Ha. destruct Ha as [Ha|Ha]; [discriminate|]. destruct c as [[j w]|]; [|reflexivity]. exfalso.
      destruct (I4 j w eq_refl) as (q & Ej & Hw). destruct (Nat.eq_dec j k) as [->|N].
      - rewrite Hk in Ej. injection Ej as <-. discriminate.
      - pose proof (Ha j q N Ej). apply writing_holds in Hw. congruence. }
    subst c. exists h, (Some (k, [])). split; [rewrite list_set_length; exact I1|]. split; [reflexivity|]. split.
    + intros j w [= <- <-]. eexists. split; [exact New|reflexivity].
    + intros i t Hi. destruct (Nat.eq_dec i k) as [->|N].
      * rewrite (Same t Hi). split; [intros _; eexists; reflexivity|exact Ic].
      * destruct (I3 i t (Other i t Hi N)) as (A & B). split; [intros W; destruct (A W); discriminate|exact B].
  - (* write *)
    destruct (Ip eq_refl) as (w & ->). cbn [part] in *. exists h, (Some (k, w ++ [c0])). split; [rewrite list_set_length; exact I1|]. split.
    { cbn [part]. rewrite concat_app. cbn [concat]. rewrite app_nil_r, app_assoc. reflexivity. }
    split; [intros j w' [= <- <-]; eexists; split; [exact New|reflexivity]|].
    intros i t Hi. destruct (Nat.eq_dec i k) as [->|N].
    + rewrite (Same t Hi). split; [intros _; eexists; reflexivity|]. cbn [current s_pc s_todo part] in *. rewrite <- app_assoc. exact Ic.
    + pose proof (Alone eq_refl i t (Other i t Hi N) N) as W. destruct (I3 i t (Other i t Hi N)) as (A & B). split; [congruence|].
      cbn [part] in *. rewrite (current_idle t _ w W). exact B.
  - (* end *)
    destruct (Ip eq_refl) as (w & ->). cbn [part current s_pc s_todo] in *. exists (h ++ [(k, w)]), None. split; [rewrite list_set_length; exact I1|]. split.
    { rewrite map_app, concat_app. cbn [map concat snd part]. rewrite !app_nil_r. reflexivity. }
    split; [discriminate|]. intros i t Hi. destruct (Nat.eq_dec i k) as [->|N].
    + rewrite (Same t Hi). split; [discriminate|]. rewrite by_thread_app, by_thread_one, Nat.eqb_refl. cbn [current s_pc s_todo app]. rewrite app_nil_r in Ic.
      rewrite <- app_assoc. exact Ic.
    + pose proof (Alone eq_refl i t (Other i t Hi N) N) as W. destruct (I3 i t (Other i t Hi N)) as (A & B). split; [congruence|].
      rewrite by_thread_app, by_thread_one. replace (k =? i) with false by (symmetry; apply Nat.eqb_neq; congruence). rewrite app_nil_r.
      rewrite (current_idle t _ w W). exact B.
Qed.
Lemma sink_start calls : sink_inv calls [] (sink_threads calls) [] None.
Proof.
  split; [apply map_length|]. split; [reflexivity|]. split; [discriminate|]. intros i t H. unfold sink_threads in H. rewrite nth_error_map in H.
  destruct (nth_error calls i) as [l|]; [|discriminate]. injection H as <-. split; [discriminate|reflexivity].
Qed.
Lemma start_free locked calls : exclusive_access (sholds locked) (sink_threads calls).
Proof. apply exclusive_init. apply Forall_forall. intros t H. apply in_map_iff in H. destruct H as (l & <- & _). reflexivity. Qed.
Lemma sink_reach_inv calls s : csteps (sholds true) slocal (fun _ _ => False) ([], sink_threads calls) s ->
  exclusive_access (sholds true) (snd s) /\ exists h c, sink_inv calls (fst s) (snd s) h c.
Proof.
  intros H. remember ([], sink_threads calls) as s0 eqn:E0. induction H as [s|s [o1 t1] [o2 t2] H IH Hs]; subst.
  - split; [apply start_free|]. exists [], None. apply sink_start.
  - specialize (IH eq_refl). destruct IH as (X & h & c & I). split; [eapply exclusive_step; [exact Hs|exact X]|]. cbn [fst snd] in *.
    eapply sink_inv_step; eassumption.
Qed.
Lemma whole_messages calls out ts : sink_reach true calls out ts ->
  exists (h : list (nat * list str)) (w : list str), out = concat (map (fun x => concat (snd x)) h) ++ concat w /\
    (forall i l, nth_error calls i = Some l -> exists r, l = by_thread i h ++ r) /\
    (w = [] \/ exists i r l, nth_error calls i = Some (by_thread i h ++ (w ++ r) :: l)) /\
    (Forall s_finished ts -> w = [] /\ forall i l, nth_error calls i = Some l -> l = by_thread i h).
Proof.
  intros H. destruct (sink_reach_inv _ _ H) as (_ & h & c & I1 & I2 & I4 & I3). cbn [fst snd] in *. exists h, (part c). split; [exact I2|]. split; [|split].
  - intros i l Hi. destruct (nth_error ts i) as [t|] eqn:Et.
    + destruct (I3 i t Et) as (_ & B). rewrite B in Hi. injection Hi as <-. eexists. reflexivity.
    + exfalso. apply nth_error_None in Et. assert (i < length calls) by (apply nth_error_Some; congruence). lia.
  - destruct c as [[j w]|]; [right|left; reflexivity]. destruct (I4 j w eq_refl) as (t & Hj & W). destruct (I3 j t Hj) as (_ & B).
    unfold writing in W. unfold current in B. destruct (s_pc t) as [| |r]; try discriminate. exists j, r, (s_todo t). cbn [part app] in *. exact B.
  - intros F. rewrite Forall_forall in F. assert (c = None) as ->.
    { destruct c as [[j w]|]; [|reflexivity]. destruct (I4 j w eq_refl) as (t & Hj & W). pose proof (F t (nth_error_In _ _ Hj)) as [P _]. unfold writing in W. rewrite P in W. discriminate. }
    split; [reflexivity|]. intros i l Hi. destruct (nth_error ts i) as [t|] eqn:Et.
    + destruct (I3 i t Et) as (_ & B). pose proof (F t (nth_error_In _ _ Et)) as [P Q]. unfold current in B. rewrite P, Q in B. cbn [app] in B. rewrite app_nil_r in B. congruence.
    + exfalso. apply nth_error_None in Et. assert (i < length calls) by (apply nth_error_Some; congruence). lia.
Qed.
Lemma sink_progress locked calls out ts : sink_reach locked calls out ts -> Exists (fun t => ~ s_finished t) ts ->
  exists s', cstep (sholds locked) slocal (fun _ _ => False) (out, ts) s'.
Proof.
  intros _ H. apply (progress (sholds locked) slocal (fun _ _ => False) s_finished).
  - intros t [P _]. unfold sholds. rewrite P. reflexivity.
  - intros g [[|b|[|c r]] todo] F.
    + destruct todo as [|b todo]; [destruct F; split; reflexivity|]. do 2 eexists. split; [constructor|]. left. reflexivity.
    + do 2 eexists. split; [constructor|]. left. reflexivity.
    + do 2 eexists. split; [constructor|]. right. left. reflexivity.
    + do 2 eexists. split; [constructor|]. right. right. reflexivity.
  - apply Exists_exists in H. destruct H as (t & Hi & Ht). apply In_nth_error in Hi. destruct Hi as [i Hi]. exists i, t. auto.
Qed.
Lemma console_race_free calls out ts : sink_reach true calls out ts -> race_free (sholds true) slocal (fun g => g) (fun d _ => d) ts.
Proof.
  intros H. destruct (sink_reach_inv _ _ H) as (X & _). apply race_free_by_lock; [exact X| |].
  - intros g p g' p' L N. inversion L; subst; try reflexivity. destruct N. reflexivity.
  - intros g p g' p' d L F1 F2. inversion L; subst; try discriminate; eexists; constructor.
Qed.
