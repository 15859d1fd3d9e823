(** Model of the numbers in settings of /repo/xo/system/settings.cpp with double, strtod and snprintf %g. *)
From Coq Require Import Ascii String List Bool ZArith SpecFloat.
From Flocq Require Import IEEE754.BinarySingleNaN.
From Verif Require Import Base Str PnSpec FltSpec FltModel DurModel SetSpec SetModel.
Import ListNotations.

(** string_cast.cpp 10-22 for double *)
Definition read_double (s : str) : f64 * bool := let (x, ok) := from_str_float f_double s in (sf64 x, ok).
(** string_cast.cpp 75-87 for double *)
Definition write_double (d : f64) : str := to_str_float (B2SF d).
(** bounds.h 66-86 and prop_node.h 356-361 for double *)
Definition double_range (s : pn) : outcome (option (f64 * f64)) := range_of read_double s.
(** settings.cpp 29-100 and 107-126 with the comparisons <= and < of double; [is_color] and [is_vec3] tell which nodes convert to a color and to a vec3 *)
Definition double_run (is_color is_vec3 : pn -> bool) : pn -> pn -> list set_op -> outcome pn := set_run read_double write_double Bleb Bltb is_color is_vec3.
Definition double_load (is_color is_vec3 : pn -> bool) : pn -> pn -> option pn -> outcome pn := load read_double write_double Bleb Bltb is_color is_vec3.
