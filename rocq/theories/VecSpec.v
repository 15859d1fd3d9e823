(** Vectors and quaternions of real numbers: lengths, products and rotations; independent of the model. *)
From Coq Require Import ZArith Reals.
From Flocq Require Import Core IEEE754.BinarySingleNaN.
Local Open Scope R_scope.

Section Numbers.
  Context {prec emax : Z}.
  Notation num := (binary_float prec emax).
  (** finite, and its square far from overflow *)
  Definition moderate (a : num) : Prop := is_finite a = true /\ Rabs (B2R a) <= bpow radix2 (emax / 2 - 3).
  (** the sum of squares is far from underflow *)
  Definition not_tiny (s : R) : Prop := bpow radix2 (12 - emax) <= s.
End Numbers.

(** the matrix of a quaternion applied to a vector, by components *)
Definition rot_x (w x y z a b c : R) : R := (1 - 2 * (y * y + z * z)) * a + 2 * (x * y - w * z) * b + 2 * (x * z + w * y) * c.
Definition rot_y (w x y z a b c : R) : R := 2 * (x * y + w * z) * a + (1 - 2 * (x * x + z * z)) * b + 2 * (y * z - w * x) * c.
Definition rot_z (w x y z a b c : R) : R := 2 * (x * z - w * y) * a + 2 * (y * z + w * x) * b + (1 - 2 * (x * x + y * y)) * c.
(** squared lengths *)
Definition sq3 (a b c : R) : R := a * a + b * b + c * c.
Definition sq4 (w x y z : R) : R := w * w + x * x + y * y + z * z.
(** Hamilton's product, by components *)
Definition ham_w (w x y z w' x' y' z' : R) : R := w * w' - x * x' - y * y' - z * z'.
Definition ham_x (w x y z w' x' y' z' : R) : R := w * x' + x * w' + y * z' - z * y'.
Definition ham_y (w x y z w' x' y' z' : R) : R := w * y' - x * z' + y * w' + z * x'.
Definition ham_z (w x y z w' x' y' z' : R) : R := w * z' + x * y' - y * x' + z * w'.
