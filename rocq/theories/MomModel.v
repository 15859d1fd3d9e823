(** Model of /repo/xo/container/container_algorithms.h, /repo/xo/utility/data_algorithms.h and /repo/xo/numerical/polynomial.h for T = float and T = double.
    Numbers are Flocq's binary floating-point numbers of any precision, rounded to nearest even after every operation (no fused operations, no extended precision). The standard algorithms are parameters, for which MomSpec has the contracts. *)
From Coq Require Import List Arith Bool ZArith.
From Flocq Require Import Core IEEE754.BinarySingleNaN.
From Verif Require Import Base DblModel VecModel.
Import ListNotations.

Section Numbers.
  Context (prec emax : Z) (Hp : Prec_gt_0 prec) (He : Prec_lt_emax prec emax).
  Notation num := (binary_float prec emax).
  Notation add := (DblModel.add prec emax Hp He).
  Notation sub := (DblModel.sub prec emax Hp He).
  Notation mul := (DblModel.mul prec emax Hp He).
  Notation div := (DblModel.div prec emax Hp He).
  Notation const := (DblModel.const prec emax Hp He).
  Notation lt := (DblModel.lt prec emax).

  (** container_algorithms.h 13-18 *)
  Definition accumulate (l : list num) (init : num) : num := fold_left (fun init b => add init b) l init.
  (** the number of elements (a ptrdiff_t or size_t), converted to T *)
  Definition count (n : nat) : num := const (Z.of_nat n) 0.
  (** container_algorithms.h 37-41 *)
  Definition average (l : list num) (v : num) : outcome num := match l with [] => Throw | _ => Ok (div (accumulate l v) (count (length l))) end.
  (** container_algorithms.h 59-67 *)
  Definition mean_var (l : list num) : outcome (num * num) :=
    match l with
    | [] => Throw
    | _ => do mean <- average l (const 0 0); let acc := fold_left (fun acc i => add acc (mul (sub i mean) (sub i mean))) l (const 0 0) in Ok (mean, div acc (count (length l)))
    end.
  (** container_algorithms.h 73-81 *)
  Definition mean_std (l : list num) : outcome (num * num) :=
    match l with
    | [] => Throw
    | _ => do mean <- average l (const 0 0); let acc := fold_left (fun acc i => add acc (mul (sub i mean) (sub i mean))) l (const 0 0) in Ok (mean, VecModel.sqrt prec emax Hp He (div acc (count (length l))))
    end.
  (** container_algorithms.h 98-110; std::max_element and std::min_element give the first largest and smallest *)
  Fixpoint max_from (best : nat) (best_v : num) (i : nat) (l : list num) : nat := match l with [] => best | v :: r => if lt best_v v then max_from i v (S i) r else max_from best best_v (S i) r end.
  Definition max_element (l : list num) : nat := match l with [] => 0 | v :: r => max_from 0 v 1 r end.
  Fixpoint min_from (best : nat) (best_v : num) (i : nat) (l : list num) : nat := match l with [] => best | v :: r => if lt v best_v then min_from i v (S i) r else min_from best best_v (S i) r end.
  Definition min_element (l : list num) : nat := match l with [] => 0 | v :: r => min_from 0 v 1 r end.
  Definition min_value (l : list num) : outcome num := vec_get l (min_element l).
  Definition max_value (l : list num) : outcome num := vec_get l (max_element l).
  (** container_algorithms.h 116-123 *)
  Definition median_slow (partial_sort_copy : list num -> list num -> list num) (l : list num) : outcome num :=
    let n := length l in
    if 0 <? n then
      let v := partial_sort_copy l (repeat (const 0 0) (n / 2 + 1)) in
      if n mod 2 =? 1 then vec_get v (n / 2)
      else do a <- vec_get v (n / 2); do b <- vec_get v (n / 2 - 1); Ok (div (add a b) (const 2 0))
    else Throw.
  (** container_algorithms.h 125-141; the value only, the container is reordered *)
  Definition median (nth_element : list num -> nat -> list num) (l : list num) : outcome num :=
    match l with
    | [] => Throw
    | _ =>
      let n := length l in let h := n / 2 in let l' := nth_element l h in
      if n mod 2 =? 1 then vec_get l' h
      else do a <- vec_get l' h; do b <- max_value (firstn h l'); Ok (div (add a b) (const 2 0))
    end.

  (** data_algorithms.h 9-21; the frames of a storage are lists of [channels] values *)
  Definition compute_channel_means (channels : nat) (frames : list (list num)) : list num :=
    map (fun m => div m (count (length frames))) (fold_left (fun means fr => map (fun col => add (nth col means (const 0 0)) (nth col fr (const 0 0))) (seq 0 channels)) frames (repeat (const 0 0) channels)).
  (** data_algorithms.h 23-42, the value at [row], [col] *)
  Definition compute_covariance (channels : nat) (frames : list (list num)) (row col : nat) : num :=
    let means := compute_channel_means channels frames in
    div (fold_left (fun v fr => add v (mul (sub (nth row fr (const 0 0)) (nth row means (const 0 0))) (sub (nth col fr (const 0 0)) (nth col means (const 0 0))))) frames (const 0 0)) (count (length frames)).

  (** polynomial.h 17-22; [c0] is the first coefficient and [cs] are the others *)
  Definition polynomial_eval (c0 : num) (cs : list num) (v : num) : num :=
    fst (fold_left (fun '(result, factor) c => (add result (mul factor c), mul factor v)) cs (c0, v)).
  (** polynomial.h 39 *)
  Definition intersect_y (offset slope y : num) : num := div (sub y offset) slope.
End Numbers.
