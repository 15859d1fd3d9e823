(** Specification vocabulary for two-dimensional containers; independent of the models. *)
From Coq Require Import List Arith Bool ZArith.
Import ListNotations.

(** A labelled grid: sizes, cells (meaningful inside the sizes only), position of each known label. *)
Record grid (T L : Type) := {
  g_rows : nat;
  g_cols : nat;
  g_cell : nat -> nat -> T;
  g_row_of : L -> option nat;
  g_col_of : L -> option nat
}.
Arguments g_rows {T L}. Arguments g_cols {T L}. Arguments g_cell {T L}.
Arguments g_row_of {T L}. Arguments g_col_of {T L}.

Section Grid.
  Context {T L : Type} (leq : L -> L -> bool).
  Local Notation grid := (grid T L).

  Definition grid_empty (v : T) : grid :=
    {| g_rows := 0; g_cols := 0; g_cell := fun _ _ => v; g_row_of := fun _ => None; g_col_of := fun _ => None |}.

  Definition in_grid (g : grid) (r c : nat) : bool := (r <? g_rows g) && (c <? g_cols g).

  (** one cell changed *)
  Definition grid_put (g : grid) (r c : nat) (x : T) : grid :=
    {| g_rows := g_rows g; g_cols := g_cols g;
       g_cell := fun r' c' => if (r' =? r) && (c' =? c) then x else g_cell g r' c';
       g_row_of := g_row_of g; g_col_of := g_col_of g |}.

  (** new sizes; cells that existed are kept, new ones hold [v] *)
  Definition grid_resize (g : grid) (rows cols : nat) (v : T) : grid :=
    {| g_rows := rows; g_cols := cols;
       g_cell := fun r c => if in_grid g r c then g_cell g r c else v;
       g_row_of := g_row_of g; g_col_of := g_col_of g |}.

  Definition set_label (f : L -> option nat) (l : L) (i : nat) : L -> option nat :=
    fun x => if leq l x then Some i else f x.

  Definition label_row (g : grid) (l : L) (i : nat) : grid :=
    {| g_rows := g_rows g; g_cols := g_cols g; g_cell := g_cell g;
       g_row_of := set_label (g_row_of g) l i; g_col_of := g_col_of g |}.
  Definition label_col (g : grid) (l : L) (i : nat) : grid :=
    {| g_rows := g_rows g; g_cols := g_cols g; g_cell := g_cell g;
       g_row_of := g_row_of g; g_col_of := set_label (g_col_of g) l i |}.

  (** a new last row / column with label [l], filled with [v]; [None] when the label is already used *)
  Definition grid_new_row (g : grid) (l : L) (v : T) : option grid :=
    match g_row_of g l with
    | Some _ => None
    | None => Some (label_row (grid_resize g (S (g_rows g)) (g_cols g) v) l (g_rows g))
    end.
  Definition grid_new_col (g : grid) (l : L) (v : T) : option grid :=
    match g_col_of g l with
    | Some _ => None
    | None => Some (label_col (grid_resize g (g_rows g) (S (g_cols g)) v) l (g_cols g))
    end.

  (** ** calls on a storage: rows are frames, columns are channels *)
  Inductive sto_op : Type :=
  | SPut (f c : nat) (x : T)                   (* s( f, c ) = x *)
  | SResize (frames channels : nat) (v : T)    (* s.resize( frames, channels, v ) *)
  | SAddChannel (l : L) (v : T)                (* s.add_channel( l, v ) *)
  | SAddChannelData (l : L) (data : list T)    (* s.add_channel( l, data ) *)
  | SFindOrAdd (l : L) (v : T)                 (* s.find_or_add_channel( l, v ) *)
  | SAddFrame (v : T)                          (* s.add_frame( v ) *)
  | SAddFrameData (data : list T)              (* s.add_frame( data ) *)
  | SClear.

  (** [None]: the call violates its contract (position out of range, shrinking, label in use, wrong length).
      [dv] is the default value T() *)
  Definition sto_spec (dv : T) (g : grid) (o : sto_op) : option grid :=
    match o with
    | SPut f c x => if in_grid g f c then Some (grid_put g f c x) else None
    | SResize fr ch v =>
      if (g_rows g <=? fr) && (g_cols g <=? ch) then Some (grid_resize g fr ch v) else None
    | SAddChannel l v => grid_new_col g l v
    | SAddChannelData l data =>
      match g_col_of g l with
      | Some _ => None
      | None =>
        let g1 := grid_resize g (Nat.max (g_rows g) (length data)) (S (g_cols g)) dv in
        let g2 := {| g_rows := g_rows g1; g_cols := g_cols g1;
                     g_cell := fun r c => if (c =? g_cols g) && (r <? length data)
                                          then nth r data dv else g_cell g1 r c;
                     g_row_of := g_row_of g1; g_col_of := g_col_of g1 |} in
        Some (label_col g2 l (g_cols g))
      end
    | SFindOrAdd l v => match g_col_of g l with Some _ => Some g | None => grid_new_col g l v end
    | SAddFrame v => Some (grid_resize g (S (g_rows g)) (g_cols g) v)
    | SAddFrameData data =>
      if length data =? g_cols g then
        Some {| g_rows := S (g_rows g); g_cols := g_cols g;
                g_cell := fun r c => if r =? g_rows g then nth c data dv else g_cell g r c;
                g_row_of := g_row_of g; g_col_of := g_col_of g |}
      else None
    | SClear => Some (grid_empty dv)
    end.

  (** ** calls on a table *)
  Inductive tab_op : Type :=
  | TPut (r c : nat) (x : T)
  | TAddRow (l : L) (v : T)
  | TAddCol (l : L) (v : T)
  | TGetOrAddRow (l : L) (v : T)
  | TGetOrAddCol (l : L) (v : T)
  | TResize (rows cols : nat) (v : T).

  Definition tab_spec (g : grid) (o : tab_op) : option grid :=
    match o with
    | TPut r c x => if in_grid g r c then Some (grid_put g r c x) else None
    | TAddRow l v => grid_new_row g l v
    | TAddCol l v => grid_new_col g l v
    | TGetOrAddRow l v => match g_row_of g l with Some _ => Some g | None => grid_new_row g l v end
    | TGetOrAddCol l v => match g_col_of g l with Some _ => Some g | None => grid_new_col g l v end
    | TResize rows cols v =>
      if (g_rows g <=? rows) && (g_cols g <=? cols) then Some (grid_resize g rows cols v) else None
    end.

  (** a sequence of calls *)
  Fixpoint spec_run {O} (step : grid -> O -> option grid) (g : grid) (ops : list O) : option grid :=
    match ops with
    | [] => Some g
    | o :: t => match step g o with Some g' => spec_run step g' t | None => None end
    end.
End Grid.
Arguments sto_op T L : clear implicits.
Arguments tab_op T L : clear implicits.

(** values of successive frames never decrease *)
Definition non_decreasing (col : list Z) : Prop :=
  forall i j x y, i <= j -> nth_error col i = Some x -> nth_error col j = Some y -> (x <= y)%Z.
