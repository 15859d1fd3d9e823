(** Model of /repo/xo/container/deprecated/circular_frame_buffer.h. *)
From Coq Require Import List Arith Bool ZArith.
From Verif Require Import Base AssocSpec AssocModel CfbSpec.
Import ListNotations.

Section CircularFrameBuffer.
  Context {T L : Type} (d : T) (leq : L -> L -> bool) (ldef : L).
  (** circular_frame_buffer.h 84-87 *)
  Record cfb := { frame_size : nat; frame_capacity : nat; cfb_data : list T; labels : @lvec L }.
  (** 30 *)
  Definition channel_size (b : cfb) : nat := length (lv_labels (labels b)).
  (** 13-17 *)
  Definition cfb_make (channels frames : nat) : cfb := {| frame_size := 0; frame_capacity := frames; cfb_data := repeat d (frames * channels); labels := lv_of_size ldef channels |}.
  (** 27: the number after adding *)
  Definition add_frame (b : cfb) : cfb * nat :=
    let n := S (frame_size b) in ({| frame_size := n; frame_capacity := frame_capacity b; cfb_data := cfb_data b; labels := labels b |}, n).
  (** subtraction of size_t *)
  Definition usub (a b : nat) : Z := ((Z.of_nat a - Z.of_nat b) mod 2 ^ 64)%Z.
  (** x % frame_capacity_, undefined for 0 *)
  Definition slot (b : cfb) (x : Z) : outcome nat := if frame_capacity b =? 0 then UB else Ok (Z.to_nat (x mod Z.of_nat (frame_capacity b))).
  (** 81-82: an offset into data_ *)
  Definition offset (b : cfb) (frame channel : nat) : nat := frame * channel_size b + channel.
  (** 47: a frame by its number; the version for a constant buffer (48) returns nothing, which is undefined *)
  Definition at_frame (b : cfb) (frame channel : nat) : outcome nat := do s <- slot b (Z.of_nat frame); Ok (offset b s channel).
  (** 51-52: the most recent frame *)
  Definition at_last (b : cfb) (channel : nat) : outcome nat := do s <- slot b (usub (frame_size b) 1); Ok (offset b s channel).
  (** 55-56: frames back *)
  Definition at_reverse (b : cfb) (frame channel : nat) : outcome nat := do s <- slot b ((Z.of_nat (frame_size b) - Z.of_nat frame - 1) mod 2 ^ 64)%Z; Ok (offset b s channel).
  (** 59-66: with a check; the subtraction is one of size_t *)
  Definition at_checked (b : cfb) (frame channel : nat) : outcome nat :=
    if (usub (frame_size b) (frame_capacity b) <=? Z.of_nat frame)%Z && (frame <? frame_size b) && (channel <? channel_size b) then at_frame b frame channel else Throw.
  (** reading and writing through the reference that an accessor gives *)
  Definition read_at (b : cfb) (o : outcome nat) : outcome T := do i <- o; vec_get (cfb_data b) i.
  Definition write_at (b : cfb) (o : outcome nat) (v : T) : outcome cfb :=
    do i <- o; do l <- vec_set (cfb_data b) i v; Ok {| frame_size := frame_size b; frame_capacity := frame_capacity b; cfb_data := l; labels := labels b |}.
  (** 39-44 for any arithmetic: [mix] is (1 - pos) * a + pos * b *)
  Definition interpolated {P} (mix : P -> T -> T -> T) (b : cfb) (frame0 channel : nat) (pos : P) : outcome T :=
    if (frame0 <? frame_size b) && (channel <? channel_size b)
    then do a <- read_at b (at_frame b frame0 channel); do c <- read_at b (at_frame b (frame0 + 1) channel); Ok (mix pos a c) else Throw.
  (** 69-73; the labels throw if there would be fewer, after data and capacity have changed *)
  Definition resize_all (b : cfb) (nframes nchannels : nat) : outcome cfb :=
    do l <- lv_resize ldef (labels b) nchannels; Ok {| frame_size := frame_size b; frame_capacity := nframes; cfb_data := repeat d (nframes * nchannels); labels := l |}.
  (** 75-78 *)
  Definition resize_frames (b : cfb) (nframes : nat) : cfb := {| frame_size := frame_size b; frame_capacity := nframes; cfb_data := repeat d (nframes * channel_size b); labels := labels b |}.
  (** 21; the capacity becomes the number of frames *)
  Definition add_channel (b : cfb) (label : L) : outcome (cfb * nat) :=
    do b' <- resize_all b (frame_size b) (channel_size b + 1);
    do r <- lv_set leq (labels b') (channel_size b' - 1) label;
    Ok ({| frame_size := frame_size b'; frame_capacity := frame_capacity b'; cfb_data := cfb_data b'; labels := fst r |}, snd r).
  (** 24 *)
  Definition find_channel (b : cfb) (label : L) : option nat := lv_find leq (labels b) label.

  (** 27, 47, 51 and 55 as calls *)
  Definition step (b : cfb) (o : call T) : outcome cfb :=
    match o with
    | CAdd => Ok (fst (add_frame b))
    | CFrame f c v => write_at b (at_frame b f c) v
    | CLast c v => write_at b (at_last b c) v
    | CReverse k c v => write_at b (at_reverse b k c) v
    end.
  Fixpoint run (b : cfb) (os : list (call T)) : outcome cfb := match os with [] => Ok b | o :: r => do b' <- step b o; run b' r end.
End CircularFrameBuffer.
Arguments cfb T L : clear implicits.
