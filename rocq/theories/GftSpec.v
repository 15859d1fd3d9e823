(** What it means that a floating-point number, or several together, are the same up to six digits; independent of the model. *)
From Coq Require Import List ZArith Reals SpecFloat.
From Verif Require Import Str FltSpec GpnSpec.
Import ListNotations.

(** [y] is what is left of [x]: a number of the type with the same sign, at most a hundred-thousandth off; a number of at most six digits, an infinity and what is not a number are unchanged *)
Definition kept (f : format) (x y : spec_float) : Prop :=
  of_format f y /\
  (finite x -> finite y /\ negative y = negative x /\ (Rabs (value y - value x) <= / 100000 * Rabs (value x))%R) /\
  ((finite x -> six_digits (value x)) -> y = x).
Definition kept_triple (f : format) (v w : triple spec_float) : Prop := kept f (t_x v) (t_x w) /\ kept f (t_y v) (t_y w) /\ kept f (t_z v) (t_z w).
Definition kept_quad (f : format) (p q : quad spec_float) : Prop := kept f (q_w p) (q_w q) /\ kept f (q_x p) (q_x q) /\ kept f (q_y p) (q_y q) /\ kept f (q_z p) (q_z q).
(** all coordinates are numbers of the type *)
Definition typed_triple (f : format) (v : triple spec_float) : Prop := of_format f (t_x v) /\ of_format f (t_y v) /\ of_format f (t_z v).
Definition typed_quad (f : format) (q : quad spec_float) : Prop := of_format f (q_w q) /\ of_format f (q_x q) /\ of_format f (q_y q) /\ of_format f (q_z q).

(** half the size of a box is kept as well, but for half of the smallest number; twice that size must not be too large for the type *)
Definition kept_half (f : format) (x y : spec_float) : Prop :=
  of_format f y /\ finite y /\ (Rabs (value y - value x) <= / 100000 * Rabs (value x) + / 2 * powerRZ 2 (bottom f))%R /\ (six_digits (2 * value x) -> value y = value x).
Definition can_double (f : format) (x : spec_float) : Prop := of_format f x /\ finite x /\ (Rabs (2 * value x) < powerRZ 2 (top f))%R.
Definition kept_shape (f : format) (s s' : shape spec_float) : Prop :=
  match s, s' with
  | Sphere r, Sphere r' => kept f r r'
  | Box h, Box h' => kept_half f (t_x h) (t_x h') /\ kept_half f (t_y h) (t_y h') /\ kept_half f (t_z h) (t_z h')
  | Cylinder r h, Cylinder r' h' | Capsule r h, Capsule r' h' | Cone r h, Cone r' h' => kept f r r' /\ kept f h h'
  | Plane n, Plane n' => kept_triple f n n'
  | _, _ => False
  end.
Definition typed_shape (f : format) (s : shape spec_float) : Prop :=
  match s with
  | Sphere r => of_format f r
  | Box h => can_double f (t_x h) /\ can_double f (t_y h) /\ can_double f (t_z h)
  | Cylinder r h | Capsule r h | Cone r h => of_format f r /\ of_format f h
  | Plane n => typed_triple f n
  end.
