(** Models of container_algorithms.h and data_algorithms.h in /repo/xo/container and regression.h in /repo/xo/numerical; numbers are real numbers. The standard algorithms are parameters, for which StatSpec has the contracts. *)
From Coq Require Import List Arith Bool ZArith Reals.
From Verif Require Import Base SigSpec StatSpec.
Import ListNotations.
Local Open Scope R_scope.

(** container_algorithms.h 13-18 and 20-25 *)
Definition accumulate (l : list R) (init : R) : R := fold_left (fun init b => init + b) l init.
Definition accumulate_op {A B} (op : A -> B -> A) (l : list B) (init : A) : A := fold_left op l init.
(** container_algorithms.h 37-41 *)
Definition average (l : list R) (v : R) : outcome R := match l with [] => Throw | _ => Ok (accumulate l v / INR (length l)) end.
(** container_algorithms.h 59-67 *)
Definition mean_var (l : list R) : outcome (R * R) :=
  match l with [] => Throw | _ => do mean <- average l 0; let acc := fold_left (fun acc i => acc + (i - mean) * (i - mean)) l 0 in Ok (mean, acc / INR (length l)) end.
(** container_algorithms.h 73-81 *)
Definition mean_std (l : list R) : outcome (R * R) :=
  match l with [] => Throw | _ => do mean <- average l 0; let acc := fold_left (fun acc i => acc + (i - mean) * (i - mean)) l 0 in Ok (mean, sqrt (acc / INR (length l))) end.
(** container_algorithms.h 87-92; [sort] is std::sort with the comparison of the lambda *)
Definition sorted_indices {A} (sort : (nat -> nat -> bool) -> list nat -> list nat) (d : A) (cont : list A) (pred : A -> A -> bool) : list nat :=
  sort (fun i1 i2 => pred (nth i1 cont d) (nth i2 cont d)) (seq 0 (length cont)).
(** std::max_element and std::min_element: the first largest / smallest *)
Fixpoint max_from (best : nat) (best_v : R) (i : nat) (l : list R) : nat := match l with [] => best | v :: r => if Rlt_dec best_v v then max_from i v (S i) r else max_from best best_v (S i) r end.
Definition max_element (l : list R) : nat := match l with [] => 0%nat | v :: r => max_from 0 v 1 r end.
Fixpoint min_from (best : nat) (best_v : R) (i : nat) (l : list R) : nat := match l with [] => best | v :: r => if Rlt_dec v best_v then min_from i v (S i) r else min_from best best_v (S i) r end.
Definition min_element (l : list R) : nat := match l with [] => 0%nat | v :: r => min_from 0 v 1 r end.
(** container_algorithms.h 98-110 *)
Definition min_value (l : list R) : outcome R := vec_get l (min_element l).
Definition max_value (l : list R) : outcome R := vec_get l (max_element l).
(** container_algorithms.h 116-123 *)
Definition median_slow (partial_sort_copy : list R -> list R -> list R) (l : list R) : outcome R :=
  let n := length l in
  if (0 <? n)%nat then
    let v := partial_sort_copy l (repeat 0 (n / 2 + 1)) in
    if (n mod 2 =? 1)%nat then vec_get v (n / 2)
    else do a <- vec_get v (n / 2); do b <- vec_get v (n / 2 - 1); Ok ((a + b) / 2)
  else Throw.
(** container_algorithms.h 125-133; the value only, the container is reordered *)
Definition median (nth_element : list R -> nat -> list R) (l : list R) : outcome R :=
  match l with
  | [] => Throw
  | _ =>
    let n := length l in let h := (n / 2)%nat in let l' := nth_element l h in
    if (n mod 2 =? 1)%nat then vec_get l' h
    else do a <- vec_get l' h; do b <- max_value (firstn h l'); Ok ((a + b) / 2)
  end.
(** container_algorithms.h 147-152 *)
Definition top_average (partial_sort_copy : list R -> list R -> list R) (l : list R) (count : nat) : outcome R := average (partial_sort_copy l (repeat 0 count)) 0.

(** a division by zero, of which the result (infinite or not a number) is not modelled *)
Definition div_checked (a b : R) : outcome R := if Req_EM_T b 0 then UB else Ok (a / b).
(** regression.h 11-30: offset and slope *)
Definition linear_regression (xs ys : list R) : outcome (R * R) :=
  if (length xs =? length ys)%nat then
    do avgx <- average xs 0; do avgy <- average ys 0;
    let num := fold_left (fun num p => num + (fst p - avgx) * (snd p - avgy)) (combine xs ys) 0 in
    let den := fold_left (fun den p => den + (fst p - avgx) * (fst p - avgx)) (combine xs ys) 0 in
    do slope <- div_checked num den; Ok (avgy - slope * avgx, slope)
  else Throw.
(** regression.h 32-47 *)
Definition linear_regression_step (ys : list R) (x_begin x_step : R) : outcome (R * R) :=
  let n := length ys in
  let avgx := x_begin + (INR (n - 1) * x_step) / 2 in
  do avgy <- average ys 0;
  let num := fst (fold_left (fun '(num, xval) y => (num + (xval - avgx) * (y - avgy), xval + x_step)) ys (0, x_begin)) in
  let x_hsiz := INR (n - 1) * x_step / 2 in
  do den <- div_checked (x_hsiz * (x_hsiz + x_step) * (2 * x_hsiz + x_step)) (3 * x_step);
  do slope <- div_checked num den; Ok (avgy - slope * avgx, slope).
(** regression.h 53-66 *)
Fixpoint differences (ys : list R) : list R := match ys with a :: ((b :: _) as r) => (b - a) :: differences r | _ => [] end.
Definition linear_median_regression (nth_element : list R -> nat -> list R) (ys : list R) (x_begin x_step : R) : outcome (R * R) :=
  if (2 <=? length ys)%nat then
    do m <- median nth_element (differences ys); do medslope <- div_checked m x_step;
    do medy <- median nth_element ys;
    let medx := x_begin + x_step * INR (length ys - 1) / 2 in
    Ok (medy - medslope * medx, medslope)
  else Throw.
(** regression.h 68-98; the slopes from point [i] to all others *)
Fixpoint collect (f : nat -> outcome R) (js : list nat) : outcome (list R) := match js with [] => Ok [] | j :: r => do v <- f j; do vs <- collect f r; Ok (v :: vs) end.
Definition slopes_from (xs ys : list R) (i : nat) : outcome (list R) :=
  collect (fun j => do yj <- vec_get ys j; do yi <- vec_get ys i; do xj <- vec_get xs j; do xi <- vec_get xs i; div_checked (yj - yi) (xj - xi)) (seq 0 i ++ seq (S i) (length xs - S i)).
Definition repeated_median_regression (nth_element : list R -> nat -> list R) (xs ys : list R) : outcome (R * R) :=
  let n := length xs in
  if ((2 <=? n) && (n =? length ys))%nat then
    do sl2 <- collect (fun i => do sl1 <- slopes_from xs ys i; median nth_element sl1) (seq 0 n);
    do slope <- median nth_element sl2;
    do intercepts <- collect (fun i => do yi <- vec_get ys i; do xi <- vec_get xs i; Ok (yi - slope * xi)) (seq 0 n);
    do offset <- median nth_element intercepts; Ok (offset, slope)
  else Throw.

(** data_algorithms.h 9-21; the frames of a storage are lists of [channels] values *)
Definition compute_channel_means (channels : nat) (frames : list (list R)) : list R :=
  map (fun m => m / INR (length frames)) (fold_left (fun means fr => map (fun col => nth col means 0 + nth col fr 0) (seq 0 channels)) frames (repeat 0 channels)).
(** data_algorithms.h 23-42 *)
Definition compute_covariance (channels : nat) (frames : list (list R)) : nat -> nat -> R :=
  let means := compute_channel_means channels frames in
  fun row col => fold_left (fun v fr => v + (nth row fr 0 - nth row means 0) * (nth col fr 0 - nth col means 0)) frames 0 / INR (length frames).
