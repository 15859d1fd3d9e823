(** What is promised about frames and positions in floating point, in terms of real numbers. *)
From Coq Require Import List Arith ZArith Reals.
From Flocq Require Import Core IEEE754.BinarySingleNaN.
From Verif Require Import Base GridModel DblSpec.
Import ListNotations.
Local Open Scope R_scope.

Section Numbers.
  Context {prec emax : Z}.
  Notation num := (binary_float prec emax).
  (** the samples of one channel in the order of the frames, never decreasing *)
  Definition ascending (xs : list num) : Prop := Forall (fun x => ordinary x) xs /\ forall i j a b, (i <= j)%nat -> nth_error xs i = Some a -> nth_error xs j = Some b -> B2R a <= B2R b.
  (** what reading the channel [ch] of all frames gives *)
  Definition channel_is {L : Type} (s : sto num L) (ch : nat) (xs : list num) : Prop :=
    length xs = st_frames s /\ forall i x, nth_error xs i = Some x -> st_get s i ch = Ok x.
  (** how far a sample is from a value *)
  Definition distance (a v : num) : R := Rabs (B2R a - B2R v).
  (** [v] at the position [x] after [k] on the straight line from [a] to [b] *)
  Definition straight (k : Z) (a b : num) (x : R) : R := B2R a + (x - IZR k) * (B2R b - B2R a).
End Numbers.
