(** Specification vocabulary for ring buffers. *)
From Coq Require Import List Arith Bool.
From Verif Require Import Base.
Import ListNotations.

(** calls on a double-ended queue *)
Inductive deque_op (T : Type) : Type :=
| DPushBack (x : T) | DPushFront (x : T) | DPopBack | DPopFront | DClear.
Arguments DPushBack {T}. Arguments DPushFront {T}. Arguments DPopBack {T}. Arguments DPopFront {T}. Arguments DClear {T}.

(** effect on the queue's contents; popping an empty queue is an exception *)
Definition deque_step {T} (l : list T) (o : deque_op T) : outcome (list T) :=
  match o with
  | DPushBack x => Ok (l ++ [x])
  | DPushFront x => Ok (x :: l)
  | DPopBack => match l with [] => Throw | _ => Ok (removelast l) end
  | DPopFront => match l with [] => Throw | _ :: t => Ok t end
  | DClear => Ok []
  end.

(** contents after a sequence of calls; a call that throws has no effect on the contents *)
Definition deque_apply {T} (l : list T) (o : deque_op T) : list T :=
  match deque_step l o with Ok l' => l' | _ => l end.
Definition deque_after {T} (l : list T) (ops : list (deque_op T)) : list T := fold_left deque_apply ops l.

(** calls on a circular_buffer *)
Inductive cbuf_op (T : Type) : Type :=
| CSet (c : nat) (x : T)   (* b.set( c, x ) *)
| CAdvance.
Arguments CSet {T}. Arguments CAdvance {T}.

(** All frames written so far, newest first; a frame is the list of its channel values.
    A frame started by advance() first shows the frame that was started [n] frames earlier, zeros if there is none. *)
Definition frames_step {T} (zero : T) (n nch : nat) (h : list (list T)) (o : cbuf_op T) : list (list T) :=
  match o, h with
  | CSet c x, f :: t => list_set f c x :: t
  | CAdvance, _ => nth (n - 1) h (repeat zero nch) :: h
  | _, [] => []
  end.
Definition frames_after {T} (zero : T) (n nch : nat) (ops : list (cbuf_op T)) : list (list T) :=
  fold_left (frames_step zero n nch) ops [repeat zero nch].
