(** Model of /repo/xo/utility/color.cpp 63-85 with IEEE binary32 floats, rounded to nearest even. *)
From Coq Require Import List Arith Bool ZArith.
From Flocq Require Import Core IEEE754.BinarySingleNaN.
From Verif Require Import Base ColSpec ColModel DblModel FrmModel.
Import ListNotations.

Notation fadd := (DblModel.add 24 128 prec32 emax32).
Notation fsub := (DblModel.sub 24 128 prec32 emax32).
Notation fmul := (DblModel.mul 24 128 prec32 emax32).
Notation fdiv := (DblModel.div 24 128 prec32 emax32).
Notation fle := (DblModel.le 24 128).
Notation flt := (DblModel.lt 24 128).
Notation fconst := (DblModel.const 24 128 prec32 emax32).
Notation ffloor := (FrmModel.floor 24 128 emax32).
Notation ffmod := (DblModel.fmod 24 128 prec32 emax32).
(** an integer as a float *)
Definition fint (n : Z) : f32 := fconst n 0.
(** color.cpp 63-85; the comparisons are between doubles, to which floats convert exactly; if fmod and the division are of doubles, rounding the quotient to float afterwards gives the same number, since 53 > 2 * 24 + 1; the last colour is made by the constructor from doubles, which sets a to pb (color.h 12) *)
Definition hsv (H0 S V : f32) : rgba f32 :=
  let H := fdiv (ffmod H0 (fint 360)) (fint 60) in
  let fract := fsub H (ffloor H) in
  let P := fmul V (fsub (fint 1) S) in
  let Q := fmul V (fsub (fint 1) (fmul S fract)) in
  let T := fmul V (fsub (fint 1) (fmul S (fsub (fint 1) fract))) in
  if fle (fint 0) H && flt H (fint 1) then C4 V T P (fint 1)
  else if fle (fint 1) H && flt H (fint 2) then C4 Q V P (fint 1)
  else if fle (fint 2) H && flt H (fint 3) then C4 P V T (fint 1)
  else if fle (fint 3) H && flt H (fint 4) then C4 P Q V (fint 1)
  else if fle (fint 4) H && flt H (fint 5) then C4 T P V (fint 1)
  else if fle (fint 5) H && flt H (fint 6) then C4 V P Q (fint 1)
  else C4 (fint 0) (fint 0) (fint 0) (fint 0).
