(** The real values of a colour of floats; independent of the model. *)
From Coq Require Import Reals List.
From Flocq Require Import IEEE754.BinarySingleNaN.
From Verif Require Import ColSpec HsvSpec.
Import ListNotations.
Local Open Scope R_scope.

Definition channels (c : rgba (binary_float 24 128)) : rgba R := C4 (B2R (c_r c)) (B2R (c_g c)) (B2R (c_b c)) (B2R (c_a c)).
(** an opaque colour whose channels are floats between 0 and 1 *)
Definition opaque (c : rgba (binary_float 24 128)) : Prop := unit_float (c_r c) /\ unit_float (c_g c) /\ unit_float (c_b c) /\ unit_float (c_a c) /\ B2R (c_a c) = 1.
(** [v] is the largest of red, green and blue *)
Definition is_largest (c : rgba (binary_float 24 128)) (v : R) : Prop := In v (map B2R [c_r c; c_g c; c_b c]) /\ forall x, In x (map B2R [c_r c; c_g c; c_b c]) -> x <= v.
