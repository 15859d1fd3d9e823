(** A recording of frames of which only the last few are kept; independent of the model. *)
From Coq Require Import List Arith Bool Lia.
Import ListNotations.

Section Recording.
  Context {T : Type} (d : T) (cap : nat).
  (** what happens to a recording: a frame is added, or the value of a channel in a frame is set *)
  Inductive event : Type := Added | Put (frame channel : nat) (v : T).
  (** events, the latest first *)
  Fixpoint frames (h : list event) : nat := match h with [] => 0 | Added :: r => S (frames r) | Put _ _ _ :: r => frames r end.
  (** the value of a channel in a frame: the last one set; a frame starts with the values of the one it takes the place of *)
  Fixpoint held (h : list event) (f c : nat) : T :=
    match h with
    | [] => d
    | Put g c' v :: r => if (g =? f) && (c' =? c) then v else held r f c
    | Added :: r => if f =? frames r then (if f <? cap then d else held r (f - cap) c) else held r f c
    end.
  (** frames that are kept when there have been [n] *)
  Definition kept (n f : nat) : Prop := f < n /\ n <= f + cap.

  (** calls: a frame is added, or a value is assigned to a frame given by its number, to the most recent one, or to one that is [k] frames back *)
  Inductive call : Type := CAdd | CFrame (f c : nat) (v : T) | CLast (c : nat) (v : T) | CReverse (k c : nat) (v : T).
  Definition event_of (h : list event) (o : call) : event :=
    match o with CAdd => Added | CFrame f c v => Put f c v | CLast c v => Put (frames h - 1) c v | CReverse k c v => Put (frames h - 1 - k) c v end.
  Fixpoint recorded (h : list event) (os : list call) : list event := match os with [] => h | o :: r => recorded (event_of h o :: h) r end.
  (** only channels that exist and frames that are kept are accessed *)
  Definition allowed1 (nch : nat) (h : list event) (o : call) : Prop :=
    match o with CAdd => True | CFrame f c _ => kept (frames h) f /\ c < nch | CLast c _ => 0 < frames h /\ c < nch | CReverse k c _ => k < cap /\ k < frames h /\ c < nch end.
  Fixpoint allowed (nch : nat) (h : list event) (os : list call) : Prop := match os with [] => True | o :: r => allowed1 nch h o /\ allowed nch (event_of h o :: h) r end.
End Recording.
Arguments event T : clear implicits.
Arguments call T : clear implicits.
