(** Model of /repo/xo/container/circular_deque.h and circular_buffer.h. *)
From Coq Require Import List Arith Bool.
From Verif Require Import Base RingSpec.
Import ListNotations.

(** integer % : undefined for a zero divisor *)
Definition umod (a b : nat) : outcome nat := if b =? 0 then UB else Ok (a mod b).

Section Deque.
  Context {T : Type} (tdef : T).

  (** circular_deque.h 79-81 *)
  Record cdeque := { cd_front : nat; cd_size : nat; cd_buf : list T }.

  (** circular_deque.h 16 *)
  Definition cd_make (n : nat) : cdeque := {| cd_front := 0; cd_size := 0; cd_buf := repeat tdef n |}.

  (** circular_deque.h 47 *)
  Definition cd_capacity (d : cdeque) : nat := length (cd_buf d).

  (** buffer_.insert( begin + i, value ): undefined beyond end() *)
  Definition buf_insert (b : list T) (i : nat) (x : T) : outcome (list T) :=
    if i <=? length b then Ok (list_insert b i x) else UB.

  (** circular_deque.h 19-22 (back() as in 34: size_ has already been incremented) *)
  Definition cd_push_back (d : cdeque) (x : T) : outcome cdeque :=
    let size := S (cd_size d) in
    if cd_capacity d <? size then
      do b <- buf_insert (cd_buf d) (cd_front d + size - 1) x;
      Ok {| cd_front := cd_front d; cd_size := size; cd_buf := b |}
    else
      do i <- umod (cd_front d + size - 1) (cd_capacity d);
      do b <- vec_set (cd_buf d) i x;
      Ok {| cd_front := cd_front d; cd_size := size; cd_buf := b |}.

  (** circular_deque.h 23-26 *)
  Definition cd_push_front (d : cdeque) (x : T) : outcome cdeque :=
    let size := S (cd_size d) in
    if cd_capacity d <? size then
      do b <- buf_insert (cd_buf d) (cd_front d) x;
      Ok {| cd_front := cd_front d; cd_size := size; cd_buf := b |}
    else
      do f <- umod (cd_front d + cd_capacity d - 1) (cd_capacity d);
      do b <- vec_set (cd_buf d) f x;
      Ok {| cd_front := f; cd_size := size; cd_buf := b |}.

  (** circular_deque.h 28-29 *)
  Definition cd_get (d : cdeque) (idx : nat) : outcome T :=
    do i <- umod (cd_front d + idx) (length (cd_buf d)); vec_get (cd_buf d) i.

  (** circular_deque.h 31 *)
  Definition cd_pop_back (d : cdeque) : outcome cdeque :=
    if cd_size d =? 0 then Throw
    else Ok {| cd_front := cd_front d; cd_size := cd_size d - 1; cd_buf := cd_buf d |}.

  (** circular_deque.h 32 *)
  Definition cd_pop_front (d : cdeque) : outcome cdeque :=
    if cd_size d =? 0 then Throw
    else
      do f <- umod (cd_front d + 1) (cd_capacity d);
      Ok {| cd_front := f; cd_size := cd_size d - 1; cd_buf := cd_buf d |}.

  (** circular_deque.h 34: back() on a non-const object *)
  Definition cd_back (d : cdeque) : outcome T :=
    if cd_size d =? 0 then Throw
    else do i <- umod (cd_front d + cd_size d - 1) (cd_capacity d); vec_get (cd_buf d) i.

  (** circular_deque.h 35: back() on a const object *)
  Definition cd_back_const (d : cdeque) : outcome T :=
    if cd_size d =? 0 then Throw
    else do i <- umod (cd_front d + cd_size d) (cd_capacity d); vec_get (cd_buf d) i.

  (** circular_deque.h 37-38 *)
  Definition cd_front_elem (d : cdeque) : outcome T :=
    if cd_size d =? 0 then Throw else vec_get (cd_buf d) (cd_front d).

  (** circular_deque.h 44 *)
  Definition cd_clear (d : cdeque) : cdeque := {| cd_front := 0; cd_size := 0; cd_buf := cd_buf d |}.

  (** circular_deque.h 46 *)
  Definition cd_reserve (d : cdeque) (n : nat) : cdeque :=
    {| cd_front := cd_front d; cd_size := cd_size d; cd_buf := vec_resize (cd_buf d) n tdef |}.

  (** circular_deque.h 64, 73-76: iteration from front_ to front_+size_, each position modulo the buffer size *)
  Definition cd_iterate (d : cdeque) : outcome (list T) :=
    ofor_up (cd_size d) (cd_front d)
      (fun index acc => do i <- umod index (length (cd_buf d)); do x <- vec_get (cd_buf d) i; Ok (acc ++ [x])) [].
End Deque.
Arguments cdeque T : clear implicits.

Section Buffer.
  Context {T : Type} (tzero : T).

  (** circular_buffer.h 55-59 *)
  Record cbuf := { cb_frames : nat; cb_channels : nat; cb_in : nat; cb_out : nat; cb_data : list T }.

  (** circular_buffer.h 14-17, 29-34: vector::resize value-initialises *)
  Definition cb_make (frames channels : nat) : cbuf :=
    {| cb_frames := frames; cb_channels := channels; cb_in := 0; cb_out := 0;
       cb_data := repeat tzero (frames * channels) |}.

  (** circular_buffer.h 29-34 *)
  Definition cb_resize (b : cbuf) (frames channels : nat) : outcome cbuf :=
    if cb_in b =? cb_out b then
      Ok {| cb_frames := frames; cb_channels := channels; cb_in := cb_in b; cb_out := cb_out b;
            cb_data := vec_resize (cb_data b) (frames * channels) tzero |}
    else Throw.

  (** circular_buffer.h 19 (and 24) *)
  Definition cb_set (b : cbuf) (c : nat) (x : T) : outcome cbuf :=
    do d <- vec_set (cb_data b) (cb_in b + c) x;
    Ok {| cb_frames := cb_frames b; cb_channels := cb_channels b; cb_in := cb_in b; cb_out := cb_out b; cb_data := d |}.

  (** circular_buffer.h 20-23 *)
  Definition cb_front (b : cbuf) (c : nat) : outcome T := vec_get (cb_data b) (cb_out b + c).
  Definition cb_back (b : cbuf) (c : nat) : outcome T := vec_get (cb_data b) (cb_in b + c).

  (** circular_buffer.h 27 *)
  Definition cb_empty (b : cbuf) : bool := cb_in b =? cb_out b.

  (** circular_buffer.h 38-42 *)
  Definition cb_advance (b : cbuf) : outcome cbuf :=
    do i <- umod (cb_in b + cb_channels b) (cb_frames b * cb_channels b);
    if cb_out b =? i then
      do o <- umod (cb_out b + cb_channels b) (cb_frames b * cb_channels b);
      Ok {| cb_frames := cb_frames b; cb_channels := cb_channels b; cb_in := i; cb_out := o; cb_data := cb_data b |}
    else
      Ok {| cb_frames := cb_frames b; cb_channels := cb_channels b; cb_in := i; cb_out := cb_out b; cb_data := cb_data b |}.

  (** circular_buffer.h 49-52 *)
  Definition cb_reset (b : cbuf) : cbuf :=
    {| cb_frames := cb_frames b; cb_channels := cb_channels b; cb_in := 0; cb_out := 0;
       cb_data := repeat tzero (length (cb_data b)) |}.
End Buffer.
Arguments cbuf T : clear implicits.

Section Calls.
  Context {T : Type} (tdef : T).

  Definition cd_call (d : cdeque T) (o : deque_op T) : outcome (cdeque T) :=
    match o with
    | DPushBack x => cd_push_back d x
    | DPushFront x => cd_push_front d x
    | DPopBack => cd_pop_back d
    | DPopFront => cd_pop_front d
    | DClear => Ok (cd_clear d)
    end.
  (** a sequence of calls; exceptions are caught by the caller, the deque is then unchanged *)
  Fixpoint cd_run (d : cdeque T) (ops : list (deque_op T)) : outcome (cdeque T) :=
    match ops with
    | [] => Ok d
    | o :: t => match cd_call d o with Ok d' => cd_run d' t | Throw => cd_run d t | UB => UB end
    end.

  Definition cb_call (b : cbuf T) (o : cbuf_op T) : outcome (cbuf T) :=
    match o with CSet c x => cb_set b c x | CAdvance => cb_advance b end.
  Fixpoint cb_run (b : cbuf T) (ops : list (cbuf_op T)) : outcome (cbuf T) :=
    match ops with [] => Ok b | o :: t => do b' <- cb_call b o; cb_run b' t end.
End Calls.
