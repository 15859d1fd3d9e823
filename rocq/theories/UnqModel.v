(** Model of /repo/xo/utility/color.cpp 87-95 and 133-137 with IEEE binary32 floats, rounded to nearest even after every operation (no fused operations). *)
From Coq Require Import List Arith Bool ZArith.
From Flocq Require Import Core IEEE754.BinarySingleNaN.
From Verif Require Import Base ColSpec ColModel DblModel FrmModel VecModel HsvModel.
Import ListNotations.

Notation fclamped := (DblModel.clamped 24 128).
Notation fsqrt := (VecModel.sqrt 24 128 prec32 emax32).
(** color.cpp 136: the constants 0.299f, 0.587f and 0.114f *)
Definition weight_r : f32 := fconst 10032775 (-25).
Definition weight_g : f32 := fconst 9848226 (-24).
Definition weight_b : f32 := fconst 15300821 (-27).
(** color.cpp 133-137 *)
Definition brightness (c : rgba f32) : f32 :=
  fsqrt (fadd (fadd (fmul (fmul weight_r (c_r c)) (c_r c)) (fmul (fmul weight_g (c_g c)) (c_g c))) (fmul (fmul weight_b (c_b c)) (c_b c))).
(** color.cpp 89 *)
Definition hues : list Z := [0; 120; 240; 45; 195; 310; 20; 75; 165; 215; 275; 330]%Z.
(** color.cpp 87-95; the quotient of integers is rounded to float before the sum *)
Definition unique_color (idx : Z) (b : f32) : outcome (rgba f32) :=
  do hue <- vec_get hues (Z.to_nat (idx mod Z.of_nat (length hues)));
  let sat := fdiv (fint 1) (fadd (fint 1) (fint (idx / Z.of_nat (length hues)))) in
  let pbr := brightness (hsv (fint hue) sat (fint 1)) in
  let val := fclamped (fdiv b pbr) b (fint 1) in
  Ok (hsv (fint hue) sat val).
