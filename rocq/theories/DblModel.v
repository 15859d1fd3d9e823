(** Model of parts of /repo/xo/numerical (math.h, bounds.h, interpolation.h, piecewise_linear_function.h, average.h) for T = float and T = double.
    Numbers are Flocq's binary floating-point numbers of any precision, rounded to nearest even. *)
From Coq Require Import List Arith Bool ZArith.
From Flocq Require Import Core IEEE754.BinarySingleNaN.
From Verif Require Import Base.
Import ListNotations.
Local Open Scope Z_scope.

Section Numbers.
  Context (prec emax : Z) (Hp : Prec_gt_0 prec) (He : Prec_lt_emax prec emax).
  Notation num := (binary_float prec emax).
  Definition add (a b : num) : num := @Bplus prec emax Hp He mode_NE a b.
  Definition sub (a b : num) : num := @Bminus prec emax Hp He mode_NE a b.
  Definition mul (a b : num) : num := @Bmult prec emax Hp He mode_NE a b.
  Definition div (a b : num) : num := @Bdiv prec emax Hp He mode_NE a b.
  (** a < b, a <= b; both false for NaN *)
  Definition lt (a b : num) : bool := Bltb a b.
  Definition le (a b : num) : bool := Bleb a b.
  (** T( m * 2^e ) *)
  Definition const (m e : Z) : num := binary_normalize prec emax Hp He mode_NE m e false.
  (** std::fmod: the exact remainder, with the sign of the first argument *)
  Definition fmod (x y : num) : num :=
    match x, y with
    | B754_nan, _ | _, B754_nan | B754_infinity _, _ | _, B754_zero _ => B754_nan
    | _, B754_infinity _ | B754_zero _, _ => x
    | B754_finite sx mx ex _, B754_finite _ my ey _ =>
        let e := Z.min ex ey in
        let r := (Zpos mx * 2 ^ (ex - e)) mod (Zpos my * 2 ^ (ey - e)) in
        binary_normalize prec emax Hp He mode_NE (if sx then - r else r) e sx
    end.

  (** math.h 9, 13 *)
  Definition min (a b : num) : num := if lt a b then a else b.
  Definition max (a b : num) : num := if lt a b then b else a.
  (** math.h 43 *)
  Definition midpoint (a b : num) : num := add a (div (sub b a) (const 2 0)).
  (** math.h 86-87, 91-92 *)
  Definition clamped (v lower upper : num) : num := if lt v lower then lower else if lt upper v then upper else v.
  (** math.h 128-132, 135 *)
  Definition wrapped (v lower upper : num) : num :=
    if le (const 0 0) (sub v lower) then add (fmod (sub v lower) (sub upper lower)) lower
    else add (fmod (sub v lower) (sub upper lower)) upper.

  (** bounds.h 11-61 *)
  Record bounds := Bounds { lower : num; upper : num }.
  (** line 20 *)
  Definition is_within (b : bounds) (v : num) : bool := le (lower b) v && le v (upper b).
  (** line 22 *)
  Definition center (b : bounds) : num := mul (const 1 (-1)) (add (lower b) (upper b)).
  (** line 25 *)
  Definition get_violation (b : bounds) (v : num) : num :=
    if lt v (lower b) then sub v (lower b) else if lt (upper b) v then sub v (upper b) else const 0 0.
  (** lines 28-34 *)
  Definition check (b : bounds) (v : num) : bool * num :=
    if lt v (lower b) then (false, sub v (lower b)) else if lt (upper b) v then (false, sub v (upper b)) else (true, const 0 0).
  (** lines 36, 37 *)
  Definition extend (b : bounds) (v : num) : bounds := Bounds (min (lower b) v) (max (upper b) v).
  Definition extend_bounds (b c : bounds) : bounds := Bounds (min (lower b) (lower c)) (max (upper b) (upper c)).
  (** line 40 *)
  Definition bounds_clamped (b : bounds) (v : num) : num := clamped v (lower b) (upper b).

  (** interpolation.h 9-11 *)
  Definition lerp (a b t : num) : num := add a (mul t (sub b a)).
  (** interpolation.h 18-35 on a std::map or flat_map, a list with increasing keys; [before] is the element before the rest of the list *)
  Definition between (a b : num * num) (x : num) : num := lerp (snd a) (snd b) (div (sub x (fst a)) (sub (fst b) (fst a))).
  Fixpoint lerp_after (before : num * num) (rest : list (num * num)) (x : num) : num :=
    match rest with
    | [] => snd before
    | p :: r => if lt x (fst p) then between before p x else lerp_after p r x
    end.
  Definition lerp_map (points : list (num * num)) (x : num) : outcome num :=
    match points with
    | [] => Throw
    | p :: r => if lt x (fst p) then Ok (snd p) else Ok (lerp_after p r x)
    end.
  (** piecewise_linear_function.h 18-31: [a] and [b] are neighbours; the piece is the first whose end is not below x, or the last *)
  Fixpoint piece (a b : num * num) (rest : list (num * num)) (x : num) : num :=
    if lt (fst b) x then match rest with [] => between a b x | c :: r => piece b c r x end else between a b x.
  Definition piecewise (points : list (num * num)) (x : num) : outcome num :=
    match points with
    | a :: b :: r => Ok (piece a b r x)
    | _ => Throw
    end.

  (** average.h 8-22: the sum of the weighted values and the sum of the weights *)
  Record average := Average { tot_v : num; tot_w : num }.
  Definition average_init : average := Average (const 0 0) (const 0 0).
  Definition average_add (a : average) (v w : num) : average := Average (add (tot_v a) (mul w v)) (add (tot_w a) w).
  Definition average_get (a : average) : num := if lt (const 0 0) (tot_w a) then div (tot_v a) (tot_w a) else const 0 0.
  (** any number of values with the default weight *)
  Definition average_of (vs : list num) : average := fold_left (fun a v => average_add a v (const 1 0)) vs average_init.
End Numbers.
