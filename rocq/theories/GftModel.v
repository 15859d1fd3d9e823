(** The number type of GpnModel as float or double: /repo/xo/string/string_cast.cpp 10-22 and 75-87 for the texts, and the arithmetic of shape.cpp 17, 32 and 85 in /repo/xo/shape (float). *)
From Coq Require Import Ascii String List ZArith SpecFloat.
From Verif Require Import Base Str FltSpec FltModel PnSpec PnModel GpnSpec GpnModel.
Import ListNotations.
Local Open Scope Z_scope.

(** string_cast.cpp 10-22 as a parser: the number read, or nothing when from_str returns false *)
Definition float_from (f : format) (s : str) : option spec_float := let (x, ok) := from_str_float f s in if ok then Some x else None.
(** a power of two as a number of the type *)
Definition power_of_two (f : format) (e : Z) : spec_float := S754_finite false (Z.to_pos (2 ^ (bits f - 1))) (e - (bits f - 1)).
(** shape.cpp 17: 0.5f * x *)
Definition times_half (f : format) (x : spec_float) : spec_float := SFmul (bits f) (top f) (power_of_two f (-1)) x.
(** shape.cpp 85 and 32: 2 * x, the integer becomes a float *)
Definition times_two (f : format) (x : spec_float) : spec_float := SFmul (bits f) (top f) (power_of_two f 1) x.
(** shape.cpp 32 *)
Definition minus (f : format) (x y : spec_float) : spec_float := SFsub (bits f) (top f) x y.
(** vec3.h: unit_x *)
Definition unit_x (f : format) : triple spec_float := T3 (power_of_two f 0) (S754_zero false) (S754_zero false).

Definition vec_text (v : triple spec_float) : str := vec_to_str to_str_float v.
Definition vec_tree (v : triple spec_float) : pn := vec_to_pn to_str_float v.
Definition read_vec (f : format) (t : pn) : outcome (option (triple spec_float)) := vec_from_pn (float_from f) t.
Definition quat_tree (q : quad spec_float) : pn := quat_to_pn to_str_float q.
Definition bounds_text (b : spec_float * spec_float) : str := bounds_to_str to_str_float b.
Definition read_bounds (f : format) (s : str) : outcome (option (spec_float * spec_float)) := bounds_from_str (float_from f) s.
(** shapes have floats *)
Definition shape_tree (s : shape spec_float) : pn := shape_to_pn to_str_float (times_two f_float) s.
Definition read_shape (t : pn) : outcome (option (shape spec_float)) :=
  shape_from_pn (float_from f_float) (times_half f_float) (times_two f_float) (minus f_float) (unit_x f_float) t.
(** prop_node.h 284-298 for vector< float > and vector< double > *)
Definition numbers_tree (l : list spec_float) : pn := list_to_pn (num_to_pn to_str_float) l.
Definition read_numbers (f : format) (t : pn) : outcome (option (list spec_float)) := list_from_pn (num_from_pn (float_from f)) t.
