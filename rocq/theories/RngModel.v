(** Models of /repo/xo/utility/frange.h, numerical/function_tools.h and numerical/console_plot.h. *)
From Coq Require Import Ascii String List Arith Bool ZArith Reals.
From Flocq Require Import Core IEEE754.BinarySingleNaN.
From Verif Require Import Base Str NumModel ColModel RngSpec.
Import ListNotations.

(** ** frange.h; [val] computes an element, [inc] adds one, [neq] compares *)
Section Range.
  Context {T V : Type} (neq : T -> T -> bool) (inc : T -> T) (val : T -> T -> T -> T -> V).
  (** 41 *)
  Record frange := FR { fr_min : T; fr_max : T; fr_max_step : T }.
  (** 28-35: the range's numbers are the same for all its iterators *)
  Definition deref (r : frange) (step : T) : V := val step (fr_min r) (fr_max r) (fr_max_step r).
  (** a range-based for loop from [step] to [stop] (30, 33, 34); None: not finished after [fuel] steps *)
  Fixpoint visit (r : frange) (fuel : nat) (step stop : T) : option (list V) :=
    match fuel with
    | 0 => None
    | S f => if neq stop step then option_map (cons (deref r step)) (visit r f (inc step) stop) else Some []
    end.
  (** 37-38 *)
  Definition elements (zero : T) (r : frange) (fuel : nat) : option (list V) := visit r fuel zero (inc (fr_max_step r)).
  (** function_tools.h 11-17; reserve does not change the result *)
  Definition evaluate_function (f : V -> V) (zero : T) (r : frange) (fuel : nat) : option (list V) := option_map (map f) (elements zero r fuel).
End Range.
Arguments frange T : clear implicits.
Arguments FR {T}.

(** ** over the real numbers; an element is None if it is 0/0 or the like *)
Open Scope R_scope.
(** std::round *)
Definition round_R (x : R) : R := if Rlt_dec x 0 then - floor_R (- x + / 2) else floor_R (x + / 2).
Definition val_R (step lo hi n : R) : option R := if Req_EM_T n 0 then None else Some (lo + step * (hi - lo) / n).
Definition neq_R (a b : R) : bool := negb (Reqb a b).
Definition inc_R (a : R) : R := a + 1.
(** frange.h 15-18; division by an increment of zero is not modelled *)
Definition range_by (lower upper increment : R) : frange R := FR lower upper (round_R ((upper - lower) / increment)).
Definition range_steps (lower upper : R) (steps : Z) : frange R := FR lower upper (IZR (steps - 1)).
Definition elements_R : frange R -> nat -> option (list (option R)) := elements neq_R inc_R val_R 0.
(** frange.h 39: converting a negative number is undefined *)
Definition range_size (r : frange R) : outcome nat := if Rlt_dec (fr_max_step r) 0 then UB else Ok (Z.to_nat (Int_part (fr_max_step r))).
(** frange.h 31: the new step, and what the expression it++ gives *)
Definition post_increment (r : frange R) (step : R) : R * R := (step + 1, fr_max_step r - 1).
Close Scope R_scope.

(** ** over binary32 floats *)
Definition f32_add (a b : f32) : f32 := @Bplus 24 128 prec32 emax32 mode_NE a b.
Definition f32_sub (a b : f32) : f32 := @Bminus 24 128 prec32 emax32 mode_NE a b.
Definition val_32 (step lo hi n : f32) : f32 := f32_add lo (f32_div (f32_mul step (f32_sub hi lo)) n).
Definition neq_32 (a b : f32) : bool := negb (Beqb a b).
Definition inc_32 (a : f32) : f32 := f32_add a (f32_of_Z 1).
Definition range_steps_32 (lower upper : f32) (steps : Z) : frange f32 := FR lower upper (f32_of_Z (steps - 1)).
Definition elements_32 : frange f32 -> nat -> option (list f32) := elements neq_32 inc_32 val_32 (f32_of_Z 0).

(** ** console_plot.h, over the real numbers *)
Open Scope R_scope.
Section Plot.
  (** numeric_limits<T>::max() and ::min(), the latter being the smallest positive normal number *)
  Context (huge tiny : R).
  (** static_cast<int> of a floor *)
  Definition int_of (x : R) : outcome Z :=
    let z := Int_part x in if ((- 2 ^ 31 <=? z) && (z <? 2 ^ 31))%Z then Ok z else UB.
  (** 29-34: the values of one function; one column only: the sample is 0/0, not modelled further *)
  Definition samples (f : R -> R) (x_min x_span : R) (width : nat) : list R :=
    map (fun xi => f (x_min + INR xi * x_span / (INR width - 1))) (seq 0 width).
  (** 22-35 *)
  Definition std_min (a b : R) : R := if Rlt_dec b a then b else a.
  Definition std_max (a b : R) : R := if Rlt_dec a b then b else a.
  Definition y_lowest (ys : list (list R)) : R := fold_left std_min (concat ys) huge.
  Definition y_highest (ys : list (list R)) : R := fold_left std_max (concat ys) tiny.
  (** 38-41; signed overflow in 41 is undefined *)
  Definition grid_x (width : nat) (x_min x_span x : R) : outcome Z := int_of (/ 2 + (INR width - 1) * (x - x_min) / x_span).
  Definition grid_y (height : nat) (y_min y_span y : R) : outcome Z :=
    if Req_EM_T y_span 0 then UB else
    do k <- int_of (/ 2 + (INR height - 1) * (y - y_min) / y_span); if (Z.of_nat height - 1 - k <? 2 ^ 31)%Z then Ok (Z.of_nat height - 1 - k)%Z else UB.
  (** str[r] = s and str[r][c] = a, undefined out of bounds *)
  Definition set_line (lines : list str) (r : Z) (s : str) : outcome (list str) :=
    if (r <? 0)%Z then UB else vec_set lines (Z.to_nat r) s.
  Definition set_cell (lines : list str) (r c : Z) (a : ascii) : outcome (list str) :=
    if ((r <? 0) || (c <? 0))%Z then UB else
    do s <- vec_get lines (Z.to_nat r); do s' <- vec_set s (Z.to_nat c) a; vec_set lines (Z.to_nat r) s'.
  Definition plot_char (i : nat) : ascii := nth (i mod 4) (map ascii_of_nat [219; 178; 177; 176]%nat) zero.
  (** 57-61 *)
  Fixpoint plot_points (height : nat) (y_min y_span : R) (a : ascii) (ys : list R) (xi : nat) (lines : list str) : outcome (list str) :=
    match ys with
    | [] => Ok lines
    | y :: r => do yi <- grid_y height y_min y_span y; do l <- set_cell lines yi (Z.of_nat xi) a; plot_points height y_min y_span a r (S xi) l
    end.
  Fixpoint plot_functions (height : nat) (y_min y_span : R) (yss : list (list R)) (fni : nat) (lines : list str) : outcome (list str) :=
    match yss with
    | [] => Ok lines
    | ys :: r => do l <- plot_points height y_min y_span (plot_char fni) ys 0 lines; plot_functions height y_min y_span r (S fni) l
    end.
  (** 53-54 *)
  Definition axis_char (height yi : nat) (yi0 : Z) : ascii :=
    if (yi =? 0)%nat then ascii_of_nat 194 else if (Z.of_nat yi =? yi0)%Z then ascii_of_nat 197 else if (yi =? height - 1)%nat then ascii_of_nat 193 else ascii_of_nat 179.
  Fixpoint draw_axis (height : nat) (yi0 xi0 : Z) (rows : list nat) (lines : list str) : outcome (list str) :=
    match rows with
    | [] => Ok lines
    | yi :: r => do l <- set_cell lines (Z.of_nat yi) xi0 (axis_char height yi yi0); draw_axis height yi0 xi0 r l
    end.
  (** 11-65: the lines printed *)
  Definition console_plot (fns : list (R -> R)) (x_min x_max : R) (width height : Z) : outcome (list str) :=
    if ((width <? 1) || (height <? 1))%Z then Ok [lit "width and height must be > 1"]
    else if Rle_dec x_max x_min then Ok [lit "x_min must be smaller than x_max"]
    else
      let w := Z.to_nat width in let h := Z.to_nat height in
      let x_span := x_max - x_min in
      if (w =? 1)%nat && negb (length fns =? 0)%nat then UB else
      let ys := map (fun f => samples f x_min x_span w) fns in
      let y_min := y_lowest ys in let y_span := y_highest ys - y_min in
      let line := repeat (ascii_of_nat 196) w in
      let str0 := repeat (repeat " "%char w) h in
      do yi0 <- grid_y h y_min y_span 0;
      do str1 <- set_line str0 0 line;
      do str2 <- set_line str1 (Z.of_nat h - 1) line;
      do str3 <- (if ((0 <=? yi0) && (yi0 <? Z.of_nat h))%Z then set_line str2 yi0 line else Ok str2);
      do xi0 <- grid_x w x_min x_span 0;
      do str4 <- (if Rle_dec x_min 0 then if Rle_dec 0 x_max then draw_axis h yi0 xi0 (seq 0 h) str3 else Ok str3 else Ok str3);
      plot_functions h y_min y_span ys 0 str4.
End Plot.
Close Scope R_scope.
