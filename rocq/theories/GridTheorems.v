(** Properties C08, C09, C10, C63: storage and table. *)
From Coq Require Import List Arith Bool ZArith Lia.
From Verif Require Import Base AssocSpec AssocModel GridSpec GridModel GridProofs.
Import ListNotations.

(** C08: for every sequence of calls within their contracts the storage shows exactly the cells, sizes and
    channel labels of the abstract grid: what was written stays at its (frame, channel), new cells hold the fill value.
    A call outside its contract (shrinking, label in use, wrong length) throws. *)
Theorem C08_storage_history :
  forall (T L : Type) (leq : L -> L -> bool) (ldef : L) (tdef : T), eq_test leq ->
  forall (ops : list (sto_op T L)) (g : grid T L),
  spec_run (sto_spec leq tdef) (grid_empty tdef) ops = Some g ->
  exists s, st_run leq ldef tdef (st_make ldef 0 0 tdef) ops = Ok s /\
    st_frames s = g_rows g /\ st_channels s = g_cols g /\
    (forall f c, f < g_rows g -> c < g_cols g -> st_get s f c = Ok (g_cell g f c)) /\
    (forall c, c < g_cols g -> st_get_channel tdef s c = Ok (map (fun f => g_cell g f c) (seq 0 (g_rows g)))) /\
    (forall l, st_find_channel leq s l = g_col_of g l) /\
    (forall l i, g_col_of g l = Some i -> lv_get (st_labels s) i = Ok l) /\
    (forall o, sto_spec leq tdef g o = None ->
       match o with SPut _ _ _ => True | _ => st_call leq ldef tdef s o = Throw end).
Proof. exact @storage_history. Qed.
Print Assumptions C08_storage_history.

Example C08_example :
  let ops := [SAddChannel 7 0; SAddFrame 1; SAddFrameData [2]; SPut 0 0 9; SAddChannel 8 5; SResize 3 3 4;
              SFindOrAdd 7 0; SAddChannelData 9 [10; 11; 12; 13]] in
  exists g, spec_run (sto_spec Nat.eqb 0) (grid_empty 0) ops = Some g /\ g_rows g = 4 /\ g_cols g = 4 /\
  g_cell g 0 0 = 9 /\ g_cell g 1 0 = 2 /\ g_cell g 1 1 = 5 /\ g_cell g 2 2 = 4 /\ g_cell g 3 3 = 13 /\
  omap (@st_data nat nat) (st_run Nat.eqb 0 0 (st_make 0 0 0 0) ops)
  = Ok [9; 5; 4; 10;  2; 5; 4; 11;  4; 4; 4; 12;  0; 0; 0; 13].
Proof. eexists. repeat split. Qed.

(** C63: a call that throws is not without effect: adding a channel whose label exists grows the storage. *)
Theorem C63_storage_add_channel_refuted :
  exists (s : sto nat nat) l v,
  snd (st_add_channel Nat.eqb 0 s l v) = Throw /\ st_channels (fst (st_add_channel Nat.eqb 0 s l v)) <> st_channels s /\
  exists ops, st_run Nat.eqb 0 0 (st_make 0 0 0 0) ops = Ok s.
Proof.
  exists {| st_frames := 0; st_labels := {| lv_labels := [7]; lv_index := [(7, 0)] |}; st_data := [] |}, 7, 0.
  split; [reflexivity|]. split; [cbv; discriminate|]. exists [SAddChannel 7 0]. reflexivity.
Qed.
Print Assumptions C63_storage_add_channel_refuted.

(** likewise for a table column *)
Theorem C63_table_add_column_refuted :
  exists (t : tab nat nat) l v,
  snd (tb_add_column Nat.eqb 0 0 t l v) = Throw /\ tb_col_size (fst (tb_add_column Nat.eqb 0 0 t l v)) <> tb_col_size t /\
  exists ops, tb_run Nat.eqb 0 0 (tb_make 0 0 0 0) ops = Ok t.
Proof.
  exists {| tb_rows := {| lv_labels := []; lv_index := [] |};
            tb_cols := {| lv_labels := [7]; lv_index := [(7, 0)] |}; tb_data := [] |}, 7, 0.
  split; [reflexivity|]. split; [cbv; discriminate|]. exists [TAddCol 7 0]. reflexivity.
Qed.
Print Assumptions C63_table_add_column_refuted.

(** C09 (partial): on a non-decreasing column the returned frame is at least as near as every other frame,
    frame 0 excepted when the value lies after frame 0 and not after frame 1. *)
Theorem C09_find_frame_index_partial :
  forall (col : list Z) (v : Z),
  non_decreasing col -> col <> [] ->
  exists i x, find_frame_index col v = Ok (Some i) /\ nth_error col i = Some x /\
  forall j y, nth_error col j = Some y ->
    (j = 0 -> (v <= y)%Z \/ exists y1, nth_error col 1 = Some y1 /\ (y1 < v)%Z) ->
    (Z.abs (x - v) <= Z.abs (y - v))%Z.
Proof. exact find_frame_nearest. Qed.
Print Assumptions C09_find_frame_index_partial.

Example C09_example :
  find_frame_index [0; 10; 20; 30]%Z 14 = Ok (Some 1) /\ find_frame_index [0; 10; 20; 30]%Z 16 = Ok (Some 2) /\
  find_frame_index [0; 10; 20; 30]%Z 99 = Ok (Some 3) /\ find_frame_index [0; 10; 20; 30]%Z (-5) = Ok (Some 0) /\
  non_decreasing [0; 10; 20; 30]%Z.
Proof.
  repeat split.
  intros i j x y Hij Hx Hy.
  destruct i as [|[|[|[|i]]]], j as [|[|[|[|j]]]]; cbn in Hx, Hy; try lia; try (destruct i; discriminate); try (destruct j; discriminate);
    injection Hx as <-; injection Hy as <-; lia.
Qed.

(** Missing: the first frame is not returned for a value just after it. *)
Theorem C09_first_frame_refuted :
  exists col v, non_decreasing col /\
  exists i x j y, find_frame_index col v = Ok (Some i) /\ nth_error col i = Some x /\ nth_error col j = Some y /\
  (Z.abs (y - v) < Z.abs (x - v))%Z.
Proof.
  exists [0; 10]%Z, 1%Z. split.
  - intros i j x y Hij Hx Hy.
    destruct i as [|[|i]], j as [|[|j]]; cbn in Hx, Hy; try lia; try (destruct i; discriminate); try (destruct j; discriminate);
      injection Hx as <-; injection Hy as <-; lia.
  - exists 1, 10%Z, 0, 0%Z. repeat split.
Qed.
Print Assumptions C09_first_frame_refuted.

(** C10 (partial): for every sequence of calls on a table: if all return, the table shows the abstract grid (cells,
    sizes, labels; access outside the sizes throws); an exception means that some call was outside its contract;
    undefined behaviour needs an explicit resize. *)
Theorem C10_table_history_partial :
  forall (T L : Type) (leq : L -> L -> bool) (ldef : L) (tdef : T), eq_test leq ->
  forall ops : list (tab_op T L),
  match tb_run leq ldef tdef (tb_make ldef tdef 0 0) ops with
  | Ok t => exists g, spec_run (tab_spec leq) (grid_empty tdef) ops = Some g /\
      tb_row_size t = g_rows g /\ tb_col_size t = g_cols g /\
      (forall r c, tb_get t r c = if in_grid g r c then Ok (g_cell g r c) else Throw) /\
      (forall l, tb_find_row leq t l = g_row_of g l) /\
      (forall l, tb_find_column leq t l = g_col_of g l) /\
      (forall l i, g_row_of g l = Some i -> lv_get (tb_rows t) i = Ok l) /\
      (forall l i, g_col_of g l = Some i -> lv_get (tb_cols t) i = Ok l)
  | Throw => spec_run (tab_spec leq) (grid_empty tdef) ops = None
  | UB => exists rows cols v, In (TResize rows cols v) ops
  end.
Proof. exact @table_history. Qed.
Print Assumptions C10_table_history_partial.

Example C10_example :
  let ops := [TAddCol 1 0; TAddRow 5 7; TAddRow 6 8; TAddCol 2 9; TPut 1 0 3; TGetOrAddCol 1 0; TResize 2 3 4] in
  omap (@tb_data nat nat) (tb_run Nat.eqb 0 0 (tb_make 0 0 0 0) ops) = Ok [7; 9; 4;  3; 9; 4].
Proof. reflexivity. Qed.

(** Missing: a resize that adds rows writes outside the buffer. *)
Theorem C10_resize_rows_refuted :
  exists (t : tab nat nat) rows cols v,
  (exists ops, tb_run Nat.eqb 0 0 (tb_make 0 0 0 0) ops = Ok t) /\
  tb_row_size t <= rows /\ tb_col_size t <= cols /\ tb_resize 0 0 t rows cols v = UB.
Proof.
  exists {| tb_rows := {| lv_labels := [5]; lv_index := [(5, 0)] |};
            tb_cols := {| lv_labels := [7]; lv_index := [(7, 0)] |}; tb_data := [3] |}, 2, 1, 0.
  split; [|cbv; repeat split; repeat constructor]. exists [TAddCol 7 0; TAddRow 5 3]. reflexivity.
Qed.
Print Assumptions C10_resize_rows_refuted.
