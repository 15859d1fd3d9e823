(** Models of interpolation.h, piecewise_linear_function.h, piecewise_constant_function.h and regular_piecewise_linear_function.h in /repo/xo/numerical; numbers are real numbers. *)
From Coq Require Import List Arith Bool ZArith Reals.
From Coq Require Import Floats.SpecFloat.
From Verif Require Import Base FlatSpec FlatModel NumSpec NumModel IplSpec.
Import ListNotations.
Local Open Scope R_scope.

(** interpolation.h 9-11 *)
Definition lerp (v1 v2 t : R) : R := v1 + t * (v2 - v1).
(** interpolation.h 9-11 for doubles *)
Definition lerp_double (v1 v2 t : double) : double := d_add v1 (d_mul t (d_sub v2 v1)).
(** interpolation.h 14-16 *)
Definition lerp_precise (v1 v2 t : R) : R := (t - 1) * v1 + t * v2.
(** std::map::upper_bound: position of the first key > [key] *)
Fixpoint map_upper_bound (m : list (R * R)) (key : R) : nat := match m with [] => 0%nat | (k, _) :: r => if Rlt_dec key k then 0%nat else S (map_upper_bound r key) end.
(** interpolation.h 18-35 *)
Definition lerp_map (m : list (R * R)) (key : R) : outcome R :=
  match m with
  | [] => Throw
  | _ =>
    let ub := map_upper_bound m key in
    if (ub =? length m)%nat then do e <- vec_get m (ub - 1); Ok (snd e)
    else if (ub =? 0)%nat then do e <- vec_get m ub; Ok (snd e)
    else do lo <- vec_get m (ub - 1); do hi <- vec_get m ub; let t := (key - fst lo) / (fst hi - fst lo) in Ok (lerp (snd lo) (snd hi) t)
  end.
(** interpolation.h 18-35 with an integer key_type: the division is an integer division *)
Fixpoint map_upper_bound_int (m : list (Z * R)) (key : Z) : nat := match m with [] => 0%nat | (k, _) :: r => if (key <? k)%Z then 0%nat else S (map_upper_bound_int r key) end.
Definition lerp_map_int (m : list (Z * R)) (key : Z) : outcome R :=
  match m with
  | [] => Throw
  | _ =>
    let ub := map_upper_bound_int m key in
    if (ub =? length m)%nat then do e <- vec_get m (ub - 1); Ok (snd e)
    else if (ub =? 0)%nat then do e <- vec_get m ub; Ok (snd e)
    else do lo <- vec_get m (ub - 1); do hi <- vec_get m ub; let t := ((key - fst lo) ÷ (fst hi - fst lo))%Z in Ok (lerp (snd lo) (snd hi) (IZR t))
  end.
(** static_cast< int > of a whole number *)
Definition int_cast (z : Z) : outcome Z := if in_signed 32 z then Ok z else UB.
(** interpolation.h 37-58 *)
Definition lerp_span (l : list R) (index : R) : outcome R :=
  match l with
  | [] => Throw
  | _ =>
    if Rle_dec index 0 then vec_get l 0
    else
      do index_lb <- int_cast (Int_part index);
      if (Z.of_nat (length l) <=? index_lb + 1)%Z then vec_get l (length l - 1)
      else do a <- vec_get l (Z.to_nat index_lb); do b <- vec_get l (Z.to_nat index_lb + 1); Ok (lerp a b (index - IZR index_lb))
  end.

(** piecewise_linear_function.h 16, piecewise_constant_function.h 15 *)
Definition insert_point (data : list (R * R)) (p : R * R) : list (R * R) := fm_assign Rltb Reqb 0 data (fst p) (snd p).
Definition insert_points (pts : list (R * R)) : list (R * R) := fold_left insert_point pts [].
(** piecewise_linear_function.h 18-31 *)
Definition piecewise_linear (data : list (R * R)) (x : R) : outcome R :=
  if (2 <=? length data)%nat then
    let it := fm_lower_bound Rltb data x in
    let it1 := if (it =? length data)%nat then (it - 1)%nat else if (it =? 0)%nat then (it + 1)%nat else it in
    do p0 <- vec_get data (it1 - 1); do p1 <- vec_get data it1;
    let t := (x - fst p0) / (fst p1 - fst p0) in Ok (lerp (snd p0) (snd p1) t)
  else Throw.
(** piecewise_constant_function.h 17-27 *)
Definition piecewise_constant (data : list (R * R)) (x : R) : outcome R :=
  match data with
  | [] => Throw
  | _ =>
    let it := fm_upper_bound Rltb data x in
    if (it =? length data)%nat then do e <- vec_get data (length data - 1); Ok (snd e)
    else if (it =? 0)%nat then do e <- vec_get data 0; Ok (snd e)
    else do e <- vec_get data (it - 1); Ok (snd e)
  end.
(** regular_piecewise_linear_function.h 12-19 and 31-33 *)
Record regular := Regular { r_base : R; r_step : R; r_data : list R }.
Definition make_regular (n : nat) (x_min x_max : R) (fn : R -> R) : regular :=
  let step := (x_max - x_min) / INR (n - 1) in Regular x_min step (map (fun i => fn (x_min + INR i * step)) (seq 0 n)).
(** regular_piecewise_linear_function.h 21-28 *)
Definition regular_eval (f : regular) (x : R) : outcome R :=
  let x_idx := (x - r_base f) / r_step f in
  do i <- int_cast (Int_part x_idx);
  let xlb := clamped Z.ltb i 0%Z (Z.of_nat (length (r_data f)) - 2)%Z in
  let wub := x_idx - IZR xlb in
  do a <- vec_get (r_data f) (Z.to_nat xlb); do b <- vec_get (r_data f) (Z.to_nat xlb + 1);
  Ok ((1 - wub) * a + wub * b).
