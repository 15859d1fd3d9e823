(** Further theorems about the containers: positions in a flat_map, results of the calls on label vectors, storages and tables, containers made with a size,
    the last element of a constant deque, and resizing a ring buffer. *)
From Coq Require Import List Arith Bool NArith Lia Sorted.
From Verif Require Import Base BaseProofs FlatSpec FlatModel FlatProofs AssocSpec AssocModel AssocProofs GridSpec GridModel GridProofs RingSpec RingModel RingProofs PnProofs.
Import ListNotations.

(** ** flat_map *)
Lemma nth_error_firstn_lt {A} (l : list A) : forall m j, j < m -> nth_error (firstn m l) j = nth_error l j.
Proof. induction l as [|x l IH]; intros [|m] [|j] H; try lia; try reflexivity. cbn. apply IH. lia. Qed.
Lemma nth_error_repeat_lt {A} (x : A) n j : nth_error (repeat x n) j = if j <? n then Some x else None.
Proof. destruct (Nat.ltb_spec j n) as [H|H]; [rewrite (nth_error_nth' _ x) by (rewrite repeat_length; exact H); rewrite nth_repeat; reflexivity|apply nth_error_None; rewrite repeat_length; exact H]. Qed.
Lemma sorted_bounds {K V} (klt keq : K -> K -> bool) : total_order klt keq -> forall (m : list (K * V)), increasing klt (map fst m) -> forall (f : K -> bool),
  (forall a b, klt a b = true -> f b = true -> f a = true) ->
  let p := partition_search (fun e => f (fst e)) m in
  p <= length m /\ forall i k v, nth_error m i = Some (k, v) -> (f k = true <-> i < p).
Proof.
  intros O m I f D. cbn zeta. rewrite partition_search_prefix.
  - split; [apply prefix_len_le|]. intros i k v E. destruct (prefix_len_partitioned (fun e => f (fst e)) m) as [L P].
    { revert I. clear - D. induction m as [|[k v] m IH]; intros I; cbn [mono_list]; [exact Logic.I|]. inversion I as [|a b I1 I2]; subst. split; [|apply IH; exact I1].
      intros F. rewrite Forall_map in I2. rewrite Forall_forall in *. intros e He. specialize (I2 e He). cbn in *. destruct (f (fst e)) eqn:Fe; [|reflexivity]. rewrite (D _ _ I2 Fe) in F. discriminate. }
    specialize (P i (k, v) E). cbn [fst] in P. rewrite P. apply Nat.ltb_lt.
  - revert I. clear - D. induction m as [|[k v] m IH]; intros I; cbn [mono_list]; [exact Logic.I|]. inversion I as [|a b I1 I2]; subst. split; [|apply IH; exact I1].
    intros F. rewrite Forall_map in I2. rewrite Forall_forall in *. intros e He. specialize (I2 e He). cbn in *. destruct (f (fst e)) eqn:Fe; [|reflexivity]. rewrite (D _ _ I2 Fe) in F. discriminate.
Qed.
(** C01: in every reachable map, lower_bound( k ) is the first entry whose key is not before [k], upper_bound( k ) the first whose key is after [k] *)
Theorem C01_bounds (K V : Type) (klt keq : K -> K -> bool) (vdef : V) : total_order klt keq -> forall (ops : list (map_op K V)) (k : K),
  let m := fold_left (fm_step klt keq vdef) ops [] in
  fm_lower_bound klt m k <= length m /\ fm_upper_bound klt m k <= length m /\
  (forall i k' v, nth_error m i = Some (k', v) -> (klt k' k = true <-> i < fm_lower_bound klt m k)) /\
  (forall i k' v, nth_error m i = Some (k', v) -> (klt k k' = true <-> fm_upper_bound klt m k <= i)).
Proof.
  intros O ops k. cbn zeta. destruct (flat_map_refines_map klt keq vdef O ops) as [I _]. set (m := fold_left _ _ _) in *.
  destruct (sorted_bounds klt keq O m I (fun x => klt x k)) as [A B]. { intros a b. apply (to_trans _ _ O). }
  destruct (sorted_bounds klt keq O m I (fun x => negb (klt k x))) as [C D].
  { intros a b H1 H2. destruct (klt k a) eqn:E; [|reflexivity]. rewrite (to_trans _ _ O _ _ _ E H1) in H2. discriminate. }
  split; [exact A|]. split; [exact C|]. split; [exact B|]. intros i k' v E. specialize (D i k' v E). unfold fm_upper_bound. destruct (klt k k'); cbn in D.
  - split; [intros _|reflexivity]. apply Nat.nlt_ge. intros Q. apply D in Q. discriminate.
  - split; [discriminate|]. intros Q. assert (N : i < partition_search (fun kvp => negb (klt k (fst kvp))) m) by (apply D; reflexivity). lia.
Qed.
Print Assumptions C01_bounds.
Example C01_bounds_ex : let m := fold_left (fm_step Nat.ltb Nat.eqb 0) [MAssign 5 50; MAssign 2 20; MAssign 9 90] [] in
  (fm_lower_bound Nat.ltb m 5, fm_upper_bound Nat.ltb m 5, fm_lower_bound Nat.ltb m 6, fm_upper_bound Nat.ltb m 6) = (1, 2, 2, 2).
Proof. reflexivity. Qed.

(** ** label_vector *)
(** C07: which calls are refused: a label that was recorded is not given again, positions are inside, and the size does not shrink *)
Theorem C07_results (L : Type) (leq : L -> L -> bool) (ldef : L) : eq_test leq -> forall ops : list (label_op L),
  let v := fold_left (lv_step leq ldef) ops {| lv_labels := []; lv_index := [] |} in
  let '(n, log) := label_log leq ops in
  (forall l, (~ In l (map fst log) -> lv_find_or_throw leq v l = Throw /\ exists v', lv_add leq v l = Ok (v', n)) /\ (In l (map fst log) -> lv_add leq v l = Throw)) /\
  (forall l i, In (l, i) log -> lv_find_or_throw leq v l = Ok i) /\
  (forall i l, (i < n /\ ~ In l (map fst log) -> exists v', lv_set leq v i l = Ok (v', i)) /\ (~ (i < n /\ ~ In l (map fst log)) -> lv_set leq v i l = Throw)) /\
  (forall m, (n <= m -> exists v', lv_resize ldef v m = Ok v' /\ length (lv_labels v') = m /\ forall l i, lv_get v i = Ok l -> lv_get v' i = Ok l) /\ (m < n -> lv_resize ldef v m = Throw)).
Proof.
  intros E ops. cbn zeta. pose proof (label_vector_history leq ldef E ops) as H. cbn zeta in H. destruct (label_log leq ops) as [n log]. set (v := fold_left _ _ _) in *. destruct H as (H1 & H2 & _ & _).
  assert (N : forall l, ~ In l (map fst log) -> lv_find leq v l = None). { intros l Q. destruct (lv_find leq v l) as [i|] eqn:F; [|reflexivity]. exfalso. apply Q. apply H2 in F. apply (in_map fst) in F. exact F. }
  assert (Y : forall l, In l (map fst log) -> exists i, lv_find leq v l = Some i). { intros l Q. apply in_map_iff in Q. destruct Q as ([l' i] & <- & Q). exists i. apply H2. exact Q. }
  split; [|split; [|split]].
  - intros l. split.
    + intros Q. unfold lv_find_or_throw, lv_add. rewrite (N l Q). split; [reflexivity|]. rewrite app_length, Nat.add_sub, H1. eexists. reflexivity.
    + intros Q. destruct (Y l Q) as [i F]. unfold lv_add. rewrite F. reflexivity.
  - intros l i Q. unfold lv_find_or_throw. apply H2 in Q. rewrite Q. reflexivity.
  - intros i l. unfold lv_set. rewrite H1. split.
    + intros [Q1 Q2]. rewrite (N l Q2). apply Nat.ltb_lt in Q1. rewrite Q1. eexists. reflexivity.
    + intros Q. destruct (Nat.ltb_spec i n) as [Q1|Q1]; [|reflexivity]. destruct (lv_find leq v l) as [j|] eqn:F; [reflexivity|]. exfalso. apply Q. split; [exact Q1|]. intros Z. destruct (Y l Z). congruence.
  - intros m. unfold lv_resize. rewrite H1. split.
    + intros Q. apply Nat.leb_le in Q. rewrite Q. apply Nat.leb_le in Q. eexists. split; [reflexivity|]. cbn [lv_labels]. split; [unfold vec_resize; rewrite app_length, firstn_length, repeat_length; lia|].
      intros l i G. unfold lv_get, vec_get in *. cbn [lv_labels]. destruct (nth_error (lv_labels v) i) as [x|] eqn:X; [|discriminate]. injection G as ->. unfold vec_resize.
      assert (Li : i < length (lv_labels v)) by (apply nth_error_Some; congruence). rewrite firstn_all2 by lia. rewrite nth_error_app1 by exact Li. rewrite X. reflexivity.
    + intros Q. replace (n <=? m) with false by (symmetry; apply Nat.leb_gt; exact Q). reflexivity.
Qed.
Print Assumptions C07_results.
Example C07_results_ex : let v := fold_left (lv_step Nat.eqb 0) [LAdd 5; LResize 2] {| lv_labels := []; lv_index := [] |} in
  label_log Nat.eqb [LAdd 5; LResize 2] = (2, [(5, 0)]) /\ lv_set Nat.eqb v 2 7 = Throw /\ lv_set Nat.eqb v 1 5 = Throw /\ lv_find_or_throw Nat.eqb v 7 = Throw /\ lv_resize 0 v 1 = Throw.
Proof. repeat split. Qed.

(** ** handles *)
(** C62: erasing a handle takes out its element and nothing else, and is defined for the handles of existing elements only *)
Theorem C62_erase_one (T : Type) (l : list T) (h : N) :
  (forall x, hv_get l h = Ok x -> exists A B, l = A ++ x :: B /\ N.of_nat (length A) = h /\ hv_erase l h = Ok (A ++ B, h)) /\
  ((N.of_nat (length l) <= h)%N -> hv_erase l h = UB) /\
  (forall b e, hv_erase_span l b e = UB <-> ~ (b <= e <= N.of_nat (length l))%N).
Proof.
  split; [|split].
  - intros x G. unfold hv_get, vec_get in G. destruct (nth_error l (N.to_nat h)) as [y|] eqn:E; [|discriminate]. injection G as ->. apply nth_error_split in E. destruct E as (A & B & -> & LA). exists A, B.
    split; [reflexivity|]. split; [rewrite LA, N2Nat.id; reflexivity|]. unfold hv_erase. rewrite app_length. cbn [length]. replace (h <? _)%N with true by lia. f_equal. f_equal. unfold list_erase. rewrite <- LA. rewrite firstn_app, firstn_all, Nat.sub_diag. cbn [firstn]. rewrite app_nil_r. f_equal.
    rewrite skipn_app. rewrite skipn_all2 by lia. replace (S (length A) - length A) with 1 by lia. reflexivity.
  - intros Q. unfold hv_erase. replace (h <? _)%N with false by lia. reflexivity.
  - intros b e. unfold hv_erase_span. destruct ((b <=? e) && (e <=? N.of_nat (length l)))%N eqn:E; split; try discriminate; try reflexivity; [intros Q; exfalso; apply Q; lia|intros _ Q; lia].
Qed.
Print Assumptions C62_erase_one.
Example C62_erase_one_ex : hv_get [10; 11; 12] 1 = Ok 11 /\ hv_erase [10; 11; 12] 1 = Ok ([10; 12], 1%N) /\ hv_erase [10; 11; 12] 3 = UB.
Proof. repeat split. Qed.

(** ** storages and tables made with a size *)
Section Made.
  Context {T L : Type} (leq : L -> L -> bool) (ldef : L) (tdef : T).
  Lemma flat_lt r c n m : r < n -> c < m -> r * m + c < n * m.
  Proof. intros A B. assert (S r * m <= n * m) by (apply Nat.mul_le_mono_r; lia). cbn in H. lia. Qed.
  Lemma st_made fr ch v : st_inv leq (st_make ldef fr ch v) (grid_resize (grid_empty tdef) fr ch v).
  Proof.
    split; [unfold st_wf, st_channels, st_make; cbn; rewrite !repeat_length; reflexivity|]. unfold sto_shows, grid_resize, in_grid, grid_empty, st_channels, st_make, lv_of_size. cbn [st_frames st_labels lv_labels g_rows g_cols g_cell g_col_of].
    rewrite repeat_length. split; [reflexivity|]. split; [reflexivity|]. split; [|split; [reflexivity|discriminate]].
    intros f c Hf Hc. unfold st_get, st_channels, vec_get. cbn [st_data st_labels lv_labels]. rewrite repeat_length. rewrite (nth_error_nth' _ v); [|rewrite repeat_length, (Nat.mul_comm ch); apply flat_lt; assumption]. rewrite nth_repeat. reflexivity.
  Qed.
  Lemma tb_made rows cols : tb_inv leq (tb_make ldef tdef rows cols) (grid_resize (grid_empty tdef) rows cols tdef).
  Proof.
    split; [unfold tb_wf, tb_row_size, tb_col_size, tb_make; cbn; rewrite !repeat_length; reflexivity|]. unfold grid_resize, in_grid, grid_empty, tb_make. cbn [tb_rows tb_cols g_rows g_cols g_cell g_col_of g_row_of].
    split; [split; [apply repeat_length|split; [reflexivity|discriminate]]|]. split; [split; [apply repeat_length|split; [reflexivity|discriminate]]|].
    intros r c Hr Hc. unfold tb_get, tb_row_size, tb_col_size, vec_get. cbn [tb_rows tb_cols lv_of_size lv_labels tb_data]. rewrite !repeat_length. replace ((r <? rows) && (c <? cols)) with true by lia.
    rewrite (nth_error_nth' _ tdef); [|rewrite repeat_length; apply flat_lt; assumption]. rewrite nth_repeat. reflexivity.
  Qed.
  Lemma st_data_index s g l data : eq_test leq -> st_inv leq s g ->
    match g_col_of g l with
    | Some _ => snd (st_add_channel_data leq ldef tdef s l data) = Throw
    | None => snd (st_add_channel_data leq ldef tdef s l data) = Ok (g_cols g)
    end.
  Proof.
    intros E I. pose proof (st_call_spec leq ldef tdef E s g (SAddChannelData l data) I) as H. cbn [sto_spec st_call] in H. pose proof I as [Hwf [Hr [Hc [Hcell [Hfind Hlab]]]]]. destruct (g_col_of g l) as [i|] eqn:G.
    - destruct (st_add_channel_data leq ldef tdef s l data) as [s' r]. cbn [snd]. destruct r; [discriminate H|reflexivity|discriminate H].
    - destruct H as (s' & H & _). revert H. unfold st_add_channel_data.
      destruct (st_resize_inv leq ldef s g (Nat.max (st_frames s) (length data)) (st_channels s + 1) tdef I) as (s1 & E1 & I1 & _); [lia|lia|]. rewrite E1.
      destruct (lv_set leq (st_labels s1) (st_channels s1 - 1) l) as [[lb i]| |] eqn:E2; try discriminate. destruct (st_fill_channel _ _ data) as [s3| |]; try discriminate. intros _. cbn [snd]. f_equal.
      assert (Z : length (lv_labels lb) = st_channels s1). { unfold lv_set in E2. destruct (_ && _); [|discriminate]. injection E2 as <- _. cbn [lv_labels]. apply list_set_length. }
      unfold st_channels at 1. cbn [st_labels]. rewrite Z. destruct I1 as [_ [_ [Hc1 _]]]. rewrite Hc1. cbn [grid_resize g_cols]. lia.
  Qed.
End Made.

(** C08: the history of a storage that was made with a number of frames and channels *)
Theorem C08_storage_made (T L : Type) (leq : L -> L -> bool) (ldef : L) (tdef : T) : eq_test leq -> forall (fr ch : nat) (v : T) (ops : list (sto_op T L)) (g : grid T L),
  spec_run (sto_spec leq tdef) (grid_resize (grid_empty tdef) fr ch v) ops = Some g ->
  exists s, st_run leq ldef tdef (st_make ldef fr ch v) ops = Ok s /\ st_frames s = g_rows g /\ st_channels s = g_cols g /\
    (forall f c, f < g_rows g -> c < g_cols g -> st_get s f c = Ok (g_cell g f c)) /\
    (forall c, c < g_cols g -> st_get_channel tdef s c = Ok (map (fun f => g_cell g f c) (seq 0 (g_rows g)))) /\
    (forall l, st_find_channel leq s l = g_col_of g l) /\ (forall l i, g_col_of g l = Some i -> lv_get (st_labels s) i = Ok l) /\
    (forall l x, snd (st_add_channel leq ldef s l x) = match g_col_of g l with Some _ => Throw | None => Ok (g_cols g) end) /\
    (forall l d, snd (st_add_channel_data leq ldef tdef s l d) = match g_col_of g l with Some _ => Throw | None => Ok (g_cols g) end) /\
    (forall l x, snd (st_find_or_add_channel leq ldef s l x) = Ok (match g_col_of g l with Some i => i | None => g_cols g end)).
Proof.
  intros E fr ch v ops g H. destruct (st_run_spec leq ldef tdef E ops _ _ _ (st_made leq ldef tdef fr ch v) H) as (s & R & I). exists s. split; [exact R|]. pose proof I as [_ [Hr [Hc [Hcell [Hfind Hlab]]]]].
  assert (A : forall l x, snd (st_add_channel leq ldef s l x) = match g_col_of g l with Some _ => Throw | None => Ok (g_cols g) end).
  { intros l x. pose proof (st_new_channel leq ldef E s g l x I) as N. unfold grid_new_col in N. destruct (g_col_of g l); [destruct N as (s' & ->)|destruct N as (s' & -> & _)]; reflexivity. }
  split; [exact Hr|]. split; [exact Hc|]. split; [exact Hcell|]. split; [intros c Hcl; apply (st_get_channel_inv leq); assumption|]. split; [exact Hfind|]. split; [intros l i Hl; apply Hlab, Hl|]. split; [exact A|]. split.
  - intros l d. pose proof (st_data_index leq ldef tdef s g l d E I) as D. destruct (g_col_of g l); exact D.
  - intros l x. unfold st_find_or_add_channel. rewrite Hfind. specialize (A l x). destruct (g_col_of g l); [reflexivity|exact A].
Qed.
Print Assumptions C08_storage_made.
Example C08_storage_made_ex : exists g s, spec_run (sto_spec Nat.eqb 0) (grid_resize (grid_empty 0) 2 3 7) [SPut 1 2 9; SAddChannel 5 4] = Some g /\
  st_run Nat.eqb 0 0 (st_make 0 2 3 7) [SPut 1 2 9; SAddChannel 5 4] = Ok s /\ st_data s = [7; 7; 7; 4;  7; 7; 9; 4].
Proof. eexists _, _. split; [reflexivity|]. split; [vm_compute; reflexivity|reflexivity]. Qed.

(** C10: the history of a table that was made with a size; when the behaviour is undefined there was a resize to more rows with at least one column *)
Theorem C10_table_made (T L : Type) (leq : L -> L -> bool) (ldef : L) (tdef : T) : eq_test leq -> forall (rows cols : nat) (ops : list (tab_op T L)),
  match tb_run leq ldef tdef (tb_make ldef tdef rows cols) ops with
  | Ok t => exists g, spec_run (tab_spec leq) (grid_resize (grid_empty tdef) rows cols tdef) ops = Some g /\ tb_row_size t = g_rows g /\ tb_col_size t = g_cols g /\
      (forall r c, tb_get t r c = if in_grid g r c then Ok (g_cell g r c) else Throw) /\
      (forall l, tb_find_row leq t l = g_row_of g l) /\ (forall l, tb_find_column leq t l = g_col_of g l) /\
      (forall l v, omap snd (tb_add_row leq t l v) = match g_row_of g l with Some _ => Throw | None => Ok (g_rows g) end) /\
      (forall l v, snd (tb_add_column leq ldef tdef t l v) = match g_col_of g l with Some _ => Throw | None => Ok (g_cols g) end) /\
      (forall r c v, tb_resize ldef tdef t r c v = UB <-> g_rows g < r /\ g_cols g <= c /\ 0 < c)
  | Throw => spec_run (tab_spec leq) (grid_resize (grid_empty tdef) rows cols tdef) ops = None
  | UB => exists r c v, In (TResize r c v) ops
  end.
Proof.
  intros E rows cols ops. pose proof (tb_run_spec leq ldef tdef E ops _ _ (tb_made leq ldef tdef rows cols)) as H. destruct (tb_run _ _ _ _ ops) as [t| |]; try exact H. destruct H as (g & S1 & I).
  exists g. split; [exact S1|]. pose proof I as (Hwf & Hrl & Hcl & Hcell). pose proof (proj1 Hrl) as Hrs. pose proof (proj1 Hcl) as Hcs. fold (tb_row_size t) in Hrs. fold (tb_col_size t) in Hcs. split; [exact Hrs|]. split; [exact Hcs|]. split.
  { intros r c. destruct (in_grid g r c) eqn:Eg; [unfold in_grid in Eg; apply Hcell; lia|]. unfold tb_get. rewrite Hrs, Hcs. unfold in_grid in Eg. rewrite Eg. reflexivity. }
  split; [apply Hrl|]. split; [apply Hcl|]. split; [|split].
  - intros l v. pose proof (tb_add_row_spec leq E t g l v I) as A. unfold grid_new_row in A. destruct (g_row_of g l); [rewrite A; reflexivity|]. destruct A as (t' & -> & _). reflexivity.
  - intros l v. pose proof (tb_add_col_spec leq ldef tdef E t g l v I) as A. unfold grid_new_col in A. destruct (g_col_of g l); [destruct A as (t' & ->)|destruct A as (t' & -> & _)]; reflexivity.
  - intros r c v. destruct (Nat.ltb_spec r (g_rows g)) as [A|A]; [|destruct (Nat.ltb_spec c (g_cols g)) as [B|B]].
    + unfold tb_resize. rewrite Hrs, Hcs. replace (r <? g_rows g) with true by lia. split; [discriminate|lia].
    + unfold tb_resize. rewrite Hrs, Hcs. replace (c <? g_cols g) with true by lia. rewrite orb_true_r. split; [discriminate|lia].
    + pose proof (tb_resize_ok leq ldef tdef t g r c v I A B) as R. destruct ((g_rows g <? r) && (0 <? c)) eqn:Q; [split; [lia|intros _; exact R]|]. destruct R as (t' & -> & _). split; [discriminate|lia].
Qed.
Print Assumptions C10_table_made.
Example C10_table_made_ex : omap (@tb_data nat nat) (tb_run Nat.eqb 0 0 (tb_make 0 0 2 3) [TPut 1 2 9; TAddRow 5 4; TAddCol 6 8]) = Ok [0; 0; 0; 8;  0; 0; 9; 8;  4; 4; 4; 8].
Proof. reflexivity. Qed.

(** ** circular_deque and circular_buffer *)
(** C11: back() of a constant deque is an exception when it is empty and gives the first element when the buffer is full; otherwise it gives a place of the buffer that holds no element *)
Theorem C11_const_back (T : Type) (tdef : T) (n : nat) (ops : list (deque_op T)) (d : cdeque T) : cd_run (cd_make tdef n) ops = Ok d ->
  let l := deque_after [] ops in
  (l = [] -> cd_back_const d = Throw) /\
  (l <> [] -> length l = cd_capacity d -> cd_back_const d = cd_front_elem d) /\
  (l <> [] -> length l < cd_capacity d -> exists i, i < cd_capacity d /\ cd_back_const d = vec_get (cd_buf d) i /\ forall j, j < length l -> (cd_front d + j) mod cd_capacity d <> i).
Proof.
  intros R. cbn zeta. pose proof (cd_run_inv ops _ _ (cd_inv_make tdef n)) as H. rewrite R in H. destruct H as (L & Lc & C0 & C1 & _). set (l := deque_after [] ops) in *. unfold cd_back_const, cd_front_elem. split; [|split].
  - intros E. rewrite <- L, E. reflexivity.
  - intros E F. assert (P : 0 < length l) by (destruct l; [congruence|cbn; lia]). replace (cd_size d =? 0) with false by lia. unfold umod. replace (cd_capacity d =? 0) with false by lia. cbn [obind]. rewrite <- L, F.
    replace (cd_front d + cd_capacity d) with (cd_front d + 1 * cd_capacity d) by lia. rewrite Nat.mod_add by lia. rewrite Nat.mod_small by (apply C1; lia). reflexivity.
  - intros E F. assert (P : 0 < length l) by (destruct l; [congruence|cbn; lia]). replace (cd_size d =? 0) with false by lia. unfold umod. replace (cd_capacity d =? 0) with false by lia. cbn [obind]. eexists. split; [apply Nat.mod_upper_bound; lia|]. split; [reflexivity|].
    intros j Hj. rewrite !ring_mod by (try (apply C1; lia); lia). specialize (C1 ltac:(lia)). destruct (Nat.ltb_spec (cd_front d + j) (cd_capacity d)), (Nat.ltb_spec (cd_front d + cd_size d) (cd_capacity d)); lia.
Qed.
Print Assumptions C11_const_back.
Example C11_const_back_ex : exists d, cd_run (cd_make 0 3) [DPushBack 1; DPushBack 2] = Ok d /\ cd_back d = Ok 2 /\ cd_back_const d = Ok 0.
Proof. eexists. repeat split. Qed.

(** C12: resizing is refused unless the buffer is empty(); then it gives a new buffer of the new size with the current frame as its only frame *)
Theorem C12_resize (T : Type) (tzero : T) (n ch : nat) : 0 < n -> 0 < ch -> forall ops : list (cbuf_op T), Forall (fun o => match o with CSet c _ => c < ch | CAdvance => True end) ops ->
  forall b, cb_run (cb_make tzero n ch) ops = Ok b ->
  (cb_empty b = false -> forall n' ch', cb_resize tzero b n' ch' = Throw) /\
  (cb_empty b = true -> forall n' ch', 0 < n' -> ch <= ch' ->
     cb_resize tzero b n' ch' = cb_run (cb_make tzero n' ch') (map (fun c => CSet c (nth c (nth 0 (frames_after tzero n ch ops) []) tzero)) (seq 0 ch))).
Proof.
  intros Hn Hch ops V b R. destruct (cb_run_inv tzero n ch Hn Hch ops V _ _ (cb_inv_make tzero n ch Hn Hch)) as (b1 & R1 & I). rewrite R in R1. injection R1 as <-.
  destruct (buffer_history tzero n ch Hn Hch ops V) as (b2 & R2 & _ & _ & B & _). rewrite R in R2. injection R2 as <-. change (fold_left (frames_step tzero n ch) ops [repeat tzero ch]) with (frames_after tzero n ch ops) in I. set (h := frames_after tzero n ch ops) in *.
  destruct I as (k & Hk & Hf & Hc & Hl & Hi & Ho & Hall & Hd). unfold cb_empty in *. split.
  - intros E n' ch'. unfold cb_resize. rewrite E. reflexivity.
  - intros E n' ch' Hn' Hc'. unfold cb_resize. rewrite E. assert (K : k mod n = 0 /\ (k = 0 \/ n = 1)). { apply B in E. replace k with (length h - 1) by lia. destruct E as [E|E]; [rewrite E; split; [apply Nat.mod_small; lia|left; reflexivity]|rewrite E; split; [apply Nat.mod_1_r|right; reflexivity]]. }
    destruct K as [K0 K]. assert (Z : cb_in b = 0 /\ cb_out b = 0). { apply Nat.eqb_eq in E. rewrite <- E, Hi, K0. split; reflexivity. } destruct Z as [-> ->].
    set (fr := nth 0 h []). assert (Lf : length fr = ch). { subst fr. apply (proj1 (Forall_forall _ _) Hall). apply nth_In. lia. }
    assert (D : cb_data b = fr ++ repeat tzero (n * ch - ch)).
    { apply list_eq_nth'. intros j. destruct (Nat.lt_ge_cases j ch) as [J|J].
      - rewrite nth_error_app1 by lia. pose proof (Hd 0 j Hn J) as Q. rewrite Nat.sub_0_r in Q. replace (k + n) with (k + 1 * n) in Q by lia. rewrite Nat.mod_add, K0 in Q by lia. cbn [Nat.mul Nat.add] in Q. rewrite Q. subst fr. f_equal. apply nth_indep. lia.
      - rewrite nth_error_app2 by lia. rewrite Lf. destruct (Nat.lt_ge_cases j (n * ch)) as [J2|J2].
        + destruct K as [->|K]; [|rewrite K in J2; lia]. pose proof (Nat.div_mod j ch ltac:(lia)) as DM. pose proof (Nat.mod_upper_bound j ch ltac:(lia)) as MB. set (q := j / ch) in *. set (c := j mod ch) in *.
          assert (Q1 : q < n). { apply Nat.nle_gt. intros Q. assert (n * ch <= q * ch) by (apply Nat.mul_le_mono_r; exact Q). nia. } assert (Q0 : 0 < q). { destruct q; [nia|lia]. }
          pose proof (Hd (n - q) c ltac:(lia) MB) as X. replace (0 + n - (n - q)) with q in X by lia. rewrite Nat.mod_small in X by exact Q1. replace (q * ch + c) with j in X by nia. rewrite X. rewrite (nth_overflow h) by lia.
          rewrite (nth_error_nth' _ tzero) by (rewrite repeat_length; lia). rewrite (nth_error_nth' (repeat tzero (n * ch - ch)) tzero) by (rewrite repeat_length; nia). rewrite !nth_repeat. reflexivity.
        + rewrite (proj2 (nth_error_None _ _)) by lia. symmetry. apply nth_error_None. rewrite repeat_length. lia. }
    assert (W : forall m, m <= ch -> cb_run (cb_make tzero n' ch') (map (fun c => CSet c (nth c fr tzero)) (seq 0 m)) = Ok {| cb_frames := n'; cb_channels := ch'; cb_in := 0; cb_out := 0; cb_data := firstn m fr ++ repeat tzero (n' * ch' - m) |}).
    { induction m as [|m IH]; intros Hm; [cbn; rewrite Nat.sub_0_r; reflexivity|]. rewrite seq_S, map_app. cbn [Nat.add map].
      assert (APP : forall (x y : list (cbuf_op T)) b0, cb_run b0 (x ++ y) = (do b1 <- cb_run b0 x; cb_run b1 y)). { induction x as [|o x IHx]; intros y b0; [reflexivity|]. cbn [app cb_run]. destruct (cb_call b0 o); cbn [obind]; [apply IHx|reflexivity|reflexivity]. }
      rewrite APP, IH by lia. cbn [obind cb_run cb_call]. unfold cb_set. cbn [cb_data cb_in cb_frames cb_channels cb_out Nat.add].
      assert (M : m < n' * ch') by nia. unfold vec_set. rewrite app_length, firstn_length, repeat_length. replace (m <? Nat.min m (length fr) + (n' * ch' - m)) with true by lia. cbn [obind]. f_equal. f_equal.
      apply list_eq_nth'. intros j. rewrite nth_error_list_set, app_length, firstn_length, repeat_length.
      destruct (Nat.eqb_spec m j) as [->|NJ]; [replace (j <? Nat.min j (length fr) + (n' * ch' - j)) with true by lia|]; cbn [andb].
      - rewrite nth_error_app1 by (rewrite firstn_length; lia). rewrite nth_error_firstn_lt by lia. symmetry. apply nth_error_nth'. lia.
      - destruct (Nat.lt_ge_cases j m) as [J|J].
        + rewrite !nth_error_app1 by (rewrite firstn_length; lia). rewrite !nth_error_firstn_lt by lia. reflexivity.
        + rewrite !nth_error_app2 by (rewrite firstn_length; lia). rewrite !firstn_length. replace (Nat.min m (length fr)) with m by lia. replace (Nat.min (S m) (length fr)) with (S m) by lia.
          destruct (Nat.lt_ge_cases j (n' * ch')) as [J2|J2].
          * rewrite (nth_error_nth' _ tzero) by (rewrite repeat_length; lia). rewrite (nth_error_nth' (repeat tzero (n' * ch' - S m)) tzero) by (rewrite repeat_length; lia). rewrite !nth_repeat. reflexivity.
          * rewrite !(proj2 (nth_error_None _ _)) by (rewrite repeat_length; lia). reflexivity. }
    subst fr. rewrite W by lia. f_equal. f_equal. rewrite D. set (fr := nth 0 h []) in *. unfold vec_resize. rewrite app_length, repeat_length, Lf.
    apply list_eq_nth'. intros j. destruct (Nat.lt_ge_cases j (ch)) as [J|J].
    + rewrite nth_error_app1 by (rewrite firstn_length, app_length, repeat_length; nia). rewrite nth_error_firstn_lt by nia. rewrite nth_error_app1 by lia. rewrite nth_error_app1 by (rewrite firstn_length; lia). rewrite nth_error_firstn_lt by lia. reflexivity.
    + rewrite (nth_error_app2 (firstn (ch) fr)) by (rewrite firstn_length; lia). rewrite firstn_length, nth_error_repeat_lt. replace (Nat.min ch (length fr)) with (ch) by lia.
      assert (M1 : ch <= n' * ch') by nia. assert (M2 : ch <= n * ch) by nia. set (N := n' * ch') in *. destruct (Nat.lt_ge_cases j (Nat.min N (ch + (n * ch - ch)))) as [J2|J2].
      * rewrite nth_error_app1 by (rewrite firstn_length, app_length, repeat_length; lia). rewrite nth_error_firstn_lt by lia. replace (j - ch <? N - ch) with true by lia.
        rewrite nth_error_app2 by lia. rewrite nth_error_repeat_lt. replace (j - length fr <? n * ch - ch) with true by lia. reflexivity.
      * rewrite nth_error_app2 by (rewrite firstn_length, app_length, repeat_length; lia). rewrite firstn_length, app_length, repeat_length, nth_error_repeat_lt. destruct (Nat.ltb_spec (j - Nat.min N (length fr + (n * ch - ch))) (N - (ch + (n * ch - ch)))), (Nat.ltb_spec (j - ch) (N - ch)); try reflexivity; lia.
Qed.
Print Assumptions C12_resize.
Example C12_resize_ex : exists b b', cb_run (cb_make 0 3 2) [CSet 0 5; CSet 1 6] = Ok b /\ cb_empty b = true /\ cb_resize 0 b 2 3 = Ok b' /\ cb_data b' = [5; 6; 0; 0; 0; 0].
Proof. eexists _, _. repeat split. Qed.
(** with fewer channels the values of the channels that are gone show up in the next frames *)
Theorem C12_fewer_channels_refuted : exists b b' b'', cb_run (cb_make 0 3 2) [CSet 0 5; CSet 1 6] = Ok b /\ cb_resize 0 b 3 1 = Ok b' /\ cb_run b' [CAdvance] = Ok b'' /\ cb_back b'' 0 = Ok 6.
Proof. eexists _, _, _. repeat split. Qed.
Print Assumptions C12_fewer_channels_refuted.
