(** Model of /repo/xo/container/storage.h, storage_tools.h, table.h. *)
From Coq Require Import List Arith Bool ZArith.
From Verif Require Import Base AssocSpec AssocModel GridSpec.
Import ListNotations.

(** ** storage *)
Section Storage.
  Context {T L : Type} (leq : L -> L -> bool) (ldef : L) (tdef : T).

  (** storage.h 162-164 *)
  Record sto := { st_frames : nat; st_labels : lvec (L := L); st_data : list T }.

  (** storage.h 93 *)
  Definition st_channels (s : sto) : nat := length (lv_labels (st_labels s)).

  (** storage.h 44 *)
  Definition st_make (frames channels : nat) (value : T) : sto :=
    {| st_frames := frames; st_labels := lv_of_size ldef channels; st_data := repeat value (channels * frames) |}.

  (** storage.h 105-106 (no bounds check): reading and writing a sample *)
  Definition st_get (s : sto) (f c : nat) : outcome T := vec_get (st_data s) (f * st_channels s + c).
  Definition st_put (s : sto) (f c : nat) (x : T) : outcome sto :=
    do d <- vec_set (st_data s) (f * st_channels s + c) x;
    Ok {| st_frames := st_frames s; st_labels := st_labels s; st_data := d |}.

  (** storage.h 132-134: copy loops of the reorganisation *)
  Definition st_copy_frame (oc nc : nat) (old : list T) (fi : nat) (nd : list T) : outcome (list T) :=
    ofor_up oc 0 (fun ci nd => do x <- vec_get old (oc * fi + ci); vec_set nd (nc * fi + ci) x) nd.
  Definition st_copy (frames oc nc : nat) (old nd : list T) : outcome (list T) :=
    ofor_up frames 0 (st_copy_frame oc nc old) nd.

  (** storage.h 126-147 *)
  Definition st_resize (s : sto) (nframes nchannels : nat) (value : T) : outcome sto :=
    if (nframes <? st_frames s) || (nchannels <? st_channels s) then Throw
    else if st_channels s <? nchannels then
      do d <- (if 1 <? st_frames s
               then st_copy (st_frames s) (st_channels s) nchannels (st_data s)
                      (repeat value (nchannels * nframes))
               else Ok (vec_resize (st_data s) (nframes * nchannels) value));
      do lb <- lv_resize ldef (st_labels s) nchannels;
      Ok {| st_frames := nframes; st_labels := lb; st_data := d |}
    else
      Ok {| st_frames := nframes; st_labels := st_labels s;
            st_data := vec_resize (st_data s) (nframes * nchannels) value |}.

  (** storage.h 48-51; the state after an exception is part of the result:
      the label is set after the resize *)
  Definition st_add_channel (s : sto) (label : L) (value : T) : sto * outcome nat :=
    match st_resize s (st_frames s) (st_channels s + 1) value with
    | Ok s1 =>
      match lv_set leq (st_labels s1) (st_channels s1 - 1) label with
      | Ok (lb, i) => ({| st_frames := st_frames s1; st_labels := lb; st_data := st_data s1 |}, Ok i)
      | Throw => (s1, Throw)
      | UB => (s1, UB)
      end
    | Throw => (s, Throw)
    | UB => (s, UB)
    end.

  (** storage.h 58: writing the samples of the new channel *)
  Definition st_fill_channel (s : sto) (cidx : nat) (data : list T) : outcome sto :=
    ofor_up (length data) 0 (fun fi s => do x <- vec_get data fi; st_put s fi cidx x) s.

  (** storage.h 54-60 *)
  Definition st_add_channel_data (s : sto) (label : L) (data : list T) : sto * outcome nat :=
    match st_resize s (Nat.max (st_frames s) (length data)) (st_channels s + 1) tdef with
    | Ok s1 =>
      match lv_set leq (st_labels s1) (st_channels s1 - 1) label with
      | Ok (lb, i) =>
        let s2 := {| st_frames := st_frames s1; st_labels := lb; st_data := st_data s1 |} in
        match st_fill_channel s2 (st_channels s2 - 1) data with
        | Ok s3 => (s3, Ok (st_channels s2 - 1))
        | Throw => (s2, Throw)
        | UB => (s2, UB)
        end
      | Throw => (s1, Throw)
      | UB => (s1, UB)
      end
    | Throw => (s, Throw)
    | UB => (s, UB)
    end.

  (** storage.h 63-66 *)
  Definition st_find_channel (s : sto) (label : L) : option nat := lv_find leq (st_labels s) label.

  (** storage.h 69-72 *)
  Definition st_find_or_add_channel (s : sto) (label : L) (value : T) : sto * outcome nat :=
    match st_find_channel s label with
    | Some i => (s, Ok i)
    | None => st_add_channel s label value
    end.

  (** storage.h 81 *)
  Definition st_add_frame (s : sto) (value : T) : sto :=
    {| st_frames := S (st_frames s); st_labels := st_labels s;
       st_data := vec_resize (st_data s) (length (st_data s) + st_channels s) value |}.

  (** storage.h 84-90: std::copy to data_.end() - channel_size() *)
  Definition st_add_frame_data (s : sto) (data : list T) : outcome sto :=
    if length data =? st_channels s then
      let d := vec_resize (st_data s) (length (st_data s) + st_channels s) tdef in
      do d' <- ofor_up (length data) 0
                 (fun i d => do x <- vec_get data i; vec_set d (length d - st_channels s + i) x) d;
      Ok {| st_frames := S (st_frames s); st_labels := st_labels s; st_data := d' |}
    else Throw.

  (** storage.h 149-154 *)
  Definition st_get_channel (s : sto) (c : nat) : outcome (list T) :=
    ofor_up (st_frames s) 0 (fun fi vec => do x <- st_get s fi c; vec_set vec fi x) (repeat tdef (st_frames s)).

  (** storage.h 102 *)
  Definition st_clear (s : sto) : sto :=
    {| st_frames := 0; st_labels := lv_clear (st_labels s); st_data := [] |}.

  (** one call; an exception ends the sequence *)
  Definition st_call (s : sto) (o : sto_op T L) : outcome sto :=
    match o with
    | SPut f c x => st_put s f c x
    | SResize fr ch v => st_resize s fr ch v
    | SAddChannel l v => let (s', r) := st_add_channel s l v in omap (fun _ => s') r
    | SAddChannelData l d => let (s', r) := st_add_channel_data s l d in omap (fun _ => s') r
    | SFindOrAdd l v => let (s', r) := st_find_or_add_channel s l v in omap (fun _ => s') r
    | SAddFrame v => Ok (st_add_frame s v)
    | SAddFrameData d => st_add_frame_data s d
    | SClear => Ok (st_clear s)
    end.
  Fixpoint st_run (s : sto) (ops : list (sto_op T L)) : outcome sto :=
    match ops with [] => Ok s | o :: t => do s' <- st_call s o; st_run s' t end.
End Storage.
Arguments sto T L : clear implicits.

(** ** find_frame_index, storage_tools.h 24-49, on the list of values of the searched channel
    (one per frame; the storage is empty() iff it has no frames, given at least one channel).
    Values are integers here; the C++ code is used with double. *)
Section FindFrame.
  (** storage_tools.h 33-41; [fuel] = number of frames *)
  Fixpoint ff_search (col : list Z) (v : Z) (fuel first count : nat) : outcome nat :=
    match fuel with
    | O => if count =? 0 then Ok first else UB
    | S fl =>
      if count =? 0 then Ok first
      else
        let step := Nat.div2 count in
        let idx := first + step in
        do x <- vec_get col idx;
        if (x <? v)%Z then ff_search col v fl (idx + 1) (count - (step + 1))
        else ff_search col v fl first step
    end.

  (** [None] is no_index *)
  Definition find_frame_index (col : list Z) (v : Z) : outcome (option nat) :=
    match col with
    | [] => Ok None
    | _ =>
      do lb <- ff_search col v (length col) 0 (length col);
      let first := Nat.min lb (length col - 1) in
      if 1 <? first then
        do p <- vec_get col (first - 1);
        do q <- vec_get col first;
        if (v - p <? q - v)%Z then Ok (Some (first - 1)) else Ok (Some first)
      else Ok (Some first)
    end.
End FindFrame.

(** ** table *)
Section Table.
  Context {T L : Type} (leq : L -> L -> bool) (ldef : L) (tdef : T).

  (** table.h 79-81 *)
  Record tab := { tb_rows : lvec (L := L); tb_cols : lvec (L := L); tb_data : list T }.

  (** table.h 59-60 *)
  Definition tb_row_size (t : tab) : nat := length (lv_labels (tb_rows t)).
  Definition tb_col_size (t : tab) : nat := length (lv_labels (tb_cols t)).

  (** table.h 20 *)
  Definition tb_make (rows cols : nat) : tab :=
    {| tb_rows := lv_of_size ldef rows; tb_cols := lv_of_size ldef cols; tb_data := repeat tdef (rows * cols) |}.

  (** table.h 63-64: checked access *)
  Definition tb_get (t : tab) (r c : nat) : outcome T :=
    if (r <? tb_row_size t) && (c <? tb_col_size t) then vec_get (tb_data t) (r * tb_col_size t + c) else Throw.
  Definition tb_put (t : tab) (r c : nat) (x : T) : outcome tab :=
    if (r <? tb_row_size t) && (c <? tb_col_size t) then
      do d <- vec_set (tb_data t) (r * tb_col_size t + c) x;
      Ok {| tb_rows := tb_rows t; tb_cols := tb_cols t; tb_data := d |}
    else Throw.

  (** table.h 52-54: in-place reorganisation, from the last cell to the first *)
  Definition tb_move_row (orows ocols cols : nat) (dv : T) (ri : nat) (d : list T) : outcome (list T) :=
    ofor_down cols (fun ci d =>
      if (ri <? orows) && (ci <? ocols)
      then do x <- vec_get d (ocols * ri + ci); vec_set d (cols * ri + ci) x
      else vec_set d (cols * ri + ci) dv) d.
  Definition tb_move (orows ocols rows cols : nat) (dv : T) (d : list T) : outcome (list T) :=
    ofor_down rows (tb_move_row orows ocols cols dv) d.

  (** table.h 47-57: the buffer is resized to (current rows) x (new columns) *)
  Definition tb_resize (t : tab) (rows cols : nat) (dv : T) : outcome tab :=
    if (rows <? tb_row_size t) || (cols <? tb_col_size t) then Throw
    else
      let d := vec_resize (tb_data t) (tb_row_size t * cols) tdef in
      do d' <- tb_move (tb_row_size t) (tb_col_size t) rows cols dv d;
      do cl <- lv_resize ldef (tb_cols t) cols;
      do rl <- lv_resize ldef (tb_rows t) rows;
      Ok {| tb_rows := rl; tb_cols := cl; tb_data := d' |}.

  (** table.h 23-27: the label is added first (throws if known) *)
  Definition tb_add_row (t : tab) (label : L) (dv : T) : outcome (tab * nat) :=
    do r <- lv_add leq (tb_rows t) label;
    let rl := fst r in
    let rows := length (lv_labels rl) in
    Ok ({| tb_rows := rl; tb_cols := tb_cols t; tb_data := vec_resize (tb_data t) (rows * tb_col_size t) dv |},
        rows - 1).

  (** table.h 29-32; the state after an exception is part of the result *)
  Definition tb_add_column (t : tab) (label : L) (dv : T) : tab * outcome nat :=
    match tb_resize t (tb_row_size t) (tb_col_size t + 1) dv with
    | Ok t1 =>
      match lv_set leq (tb_cols t1) (tb_col_size t1 - 1) label with
      | Ok (cl, i) => ({| tb_rows := tb_rows t1; tb_cols := cl; tb_data := tb_data t1 |}, Ok i)
      | Throw => (t1, Throw)
      | UB => (t1, UB)
      end
    | Throw => (t, Throw)
    | UB => (t, UB)
    end.

  (** table.h 34-35 *)
  Definition tb_find_row (t : tab) (l : L) : option nat := lv_find leq (tb_rows t) l.
  Definition tb_find_column (t : tab) (l : L) : option nat := lv_find leq (tb_cols t) l.

  (** table.h 37-45 *)
  Definition tb_get_or_add_row (t : tab) (l : L) (dv : T) : outcome (tab * nat) :=
    match tb_find_row t l with Some i => Ok (t, i) | None => tb_add_row t l dv end.
  Definition tb_get_or_add_column (t : tab) (l : L) (dv : T) : tab * outcome nat :=
    match tb_find_column t l with Some i => (t, Ok i) | None => tb_add_column t l dv end.

  (** one call; an exception ends the sequence *)
  Definition tb_call (t : tab) (o : tab_op T L) : outcome tab :=
    match o with
    | TPut r c x => tb_put t r c x
    | TAddRow l v => omap fst (tb_add_row t l v)
    | TAddCol l v => let (t', r) := tb_add_column t l v in omap (fun _ => t') r
    | TGetOrAddRow l v => omap fst (tb_get_or_add_row t l v)
    | TGetOrAddCol l v => let (t', r) := tb_get_or_add_column t l v in omap (fun _ => t') r
    | TResize r c v => tb_resize t r c v
    end.
  Fixpoint tb_run (t : tab) (ops : list (tab_op T L)) : outcome tab :=
    match ops with [] => Ok t | o :: r => do t' <- tb_call t o; tb_run t' r end.
End Table.
Arguments tab T L : clear implicits.
