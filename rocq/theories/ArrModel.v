(** Model of /repo/xo/container/dynarray.h, with the memory it allocates. *)
From Coq Require Import List Arith Bool.
From Verif Require Import Base ArrSpec.
Import ListNotations.

Section Model.
Context {T : Type} (junk : T) (eqb : T -> T -> bool).

(** The heap: the blocks made by new T[n], in order; [None] after delete[]. *)
Definition heap := list (option (list T)).
(** A pointer: null, or a block and an offset. *)
Definition pointer := option (nat * nat).
(** dynarray.h 52-53: the owned block and [end_], a plain pointer. *)
Record array := Array { data : option nat; fin : pointer }.
(** Program state: the heap and the variables. *)
Record state := State { mem : heap; vars : nat -> option array }.
Definition set_var (s : state) (i : nat) (a : option array) : state := State (mem s) (fun j => if j =? i then a else vars s j).
Definition set_mem (s : state) (h : heap) : state := State h (vars s).

Definition var (s : state) (i : nat) : outcome array := match vars s i with Some a => Ok a | None => UB end.
Definition begin_ (a : array) : pointer := option_map (fun b => (b, 0)) (data a).

(** Difference of two pointers: defined for two null pointers and within one block. *)
Definition minus (p q : pointer) : outcome nat :=
  match p, q with
  | None, None => Ok 0
  | Some (b, i), Some (c, j) => if (b =? c) && (j <=? i) then Ok (i - j) else UB
  | _, _ => UB
  end.
Definition same (p q : pointer) : bool :=
  match p, q with
  | None, None => true
  | Some (b, i), Some (c, j) => (b =? c) && (i =? j)
  | _, _ => false
  end.

(** size(), dynarray.h 41; empty(), 40. *)
Definition size (a : array) : outcome nat := minus (fin a) (begin_ a).
Definition empty (a : array) : bool := same (begin_ a) (fin a).

(** new T[n]: the values are whatever T's default constructor makes. delete[]: undefined unless the block is live. *)
Definition alloc (s : state) (n : nat) : state * nat := (set_mem s (mem s ++ [Some (repeat junk n)]), length (mem s)).
Definition free (s : state) (b : option nat) : outcome state :=
  match b with
  | None => Ok s
  | Some b => match nth_error (mem s) b with Some (Some _) => Ok (set_mem s (list_set (mem s) b None)) | _ => UB end
  end.
Definition block (s : state) (b : nat) : outcome (list T) := match nth_error (mem s) b with Some (Some l) => Ok l | _ => UB end.

(** Reading [begin, end) of an array; writing [l] from its start on. *)
Definition read_all (s : state) (a : array) : outcome (list T) :=
  do n <- size a;
  match data a with
  | None => Ok []
  | Some b => do l <- block s b; if n <=? length l then Ok (firstn n l) else UB
  end.
Definition write_front (s : state) (a : array) (l : list T) : outcome state :=
  match l, data a with
  | [], _ => Ok s
  | _, None => UB
  | _, Some b => do old <- block s b; if length l <=? length old then Ok (set_mem s (list_set (mem s) b (Some (l ++ skipn (length l) old)))) else UB
  end.
(** assign, 43: std::fill from begin to end. *)
Definition fill (s : state) (a : array) (v : T) : outcome state :=
  do l <- read_all s a; write_front s a (map (fun _ => v) l).

(** Constructors, 18-21. *)
Definition construct_empty (s : state) (i : nat) : outcome state := Ok (set_var s i (Some (Array None None))).
Definition construct (s : state) (i n : nat) (v : T) : outcome state :=
  let (s1, b) := alloc s n in
  let a := Array (Some b) (Some (b, n)) in
  fill (set_var s1 i (Some a)) a v.
Definition construct_copy (s : state) (i j : nat) : outcome state :=
  do o <- var s j;
  do n <- size o;
  let (s1, b) := alloc s n in
  let a := Array (Some b) (Some (b, n)) in
  do l <- read_all s1 o;
  write_front (set_var s1 i (Some a)) a l.
Definition construct_move (s : state) (i j : nat) : outcome state :=
  do o <- var s j;
  Ok (set_var (set_var s j (Some (Array None (fin o)))) i (Some (Array (data o) (fin o)))).

(** Copy assignment, 22: [o.size()] is evaluated again after [data_] has been replaced, and [o] may be the same object. *)
Definition assign_copy (s : state) (i j : nat) : outcome state :=
  do this <- var s i;
  do o <- var s j;
  do n <- size o;
  let (s1, b) := alloc s n in
  do s2 <- free s1 (data this);
  let s3 := set_var s2 i (Some (Array (Some b) (fin this))) in
  do o' <- var s3 j;
  do n' <- size o';
  let a := Array (Some b) (Some (b, n')) in
  let s4 := set_var s3 i (Some a) in
  do o'' <- var s4 j;
  do l <- read_all s4 o'';
  write_front s4 a l.
(** Move assignment, 23: a unique_ptr moved to itself keeps its pointer. *)
Definition assign_move (s : state) (i j : nat) : outcome state :=
  do this <- var s i;
  do o <- var s j;
  if i =? j then Ok s else
  do s1 <- free s (data this);
  Ok (set_var (set_var s1 j (Some (Array None (fin o)))) i (Some (Array (data o) (fin o)))).

(** resize, 45; clear, 46. *)
Definition resize (s : state) (i n : nat) (v : T) : outcome state :=
  do this <- var s i;
  let (s1, b) := alloc s n in
  do s2 <- free s1 (data this);
  let a := Array (Some b) (Some (b, n)) in
  fill (set_var s2 i (Some a)) a v.
Definition clear (s : state) (i : nat) : outcome state :=
  do this <- var s i;
  do s1 <- free s (data this);
  Ok (set_var s1 i (Some (Array None None))).
(** operator[], 26-27; at, 29-30. *)
Definition get (s : state) (a : array) (k : nat) : outcome T :=
  match data a with None => UB | Some b => do l <- block s b; vec_get l k end.
Definition at_ (s : state) (a : array) (k : nat) : outcome T :=
  do n <- size a; if n <=? k then Throw else get s a k.
Definition set_at (s : state) (i k : nat) (v : T) : outcome state :=
  do a <- var s i;
  match data a with None => UB | Some b => do l <- block s b; do l' <- vec_set l k v; Ok (set_mem s (list_set (mem s) b (Some l'))) end.
(** The destructor, 24: the unique_ptr deletes its block. *)
Definition destroy (s : state) (i : nat) : outcome state :=
  do a <- var s i;
  do s1 <- free s (data a);
  Ok (set_var s1 i None).

(** operator==, 56-65; [n] counts the indices left. *)
Fixpoint eq_loop (s : state) (a b : array) (n k : nat) : outcome bool :=
  match n with
  | O => Ok true
  | S m => do x <- get s a k; do y <- get s b k; if eqb x y then eq_loop s a b m (S k) else Ok false
  end.
Definition equal (s : state) (a b : array) : outcome bool :=
  do n <- size a; do m <- size b; if n =? m then eq_loop s a b n 0 else Ok false.

Definition step (s : state) (a : action) : outcome state :=
  match a with
  | New i n v => construct s i n v
  | NewEmpty i => construct_empty s i
  | NewCopy i j => construct_copy s i j
  | NewMove i j => construct_move s i j
  | Assign i j => assign_copy s i j
  | MoveAssign i j => assign_move s i j
  | Resize i n v => resize s i n v
  | Clear i => clear s i
  | Fill i v => do x <- var s i; fill s x v
  | SetAt i k v => set_at s i k v
  | Destroy i => destroy s i
  end.
Fixpoint run (s : state) (p : list action) : outcome state :=
  match p with [] => Ok s | a :: r => do s' <- step s a; run s' r end.
Definition start : state := State [] (fun _ => None).

(** What can be observed of a variable: it behaves as the list [l]. *)
Definition shows (s : state) (i : nat) (l : list T) : Prop := exists a, vars s i = Some a /\ size a = Ok (length l) /\ (empty a = true <-> l = []) /\
  (forall k, k < length l -> exists x, nth_error l k = Some x /\ get s a k = Ok x /\ at_ s a k = Ok x) /\ (forall k, length l <= k -> at_ s a k = Throw).
End Model.
