(** Vocabulary for ranges of numbers and plots. *)
From Coq Require Import Ascii List Arith Bool ZArith Reals.
From Verif Require Import Base Str.
Import ListNotations.
Open Scope R_scope.

(** [n]+1 values from [lower] to [upper] with equal distances *)
Definition evenly (lower upper : R) (n : nat) (l : list R) : Prop :=
  length l = S n /\ forall k, (k <= n)%nat -> nth_error l k = Some (lower + INR k * ((upper - lower) / INR n)).
(** [n] is an integer nearest to [x] *)
Definition nearest_nat (x : R) (n : nat) : Prop := Rabs (x - INR n) <= / 2.

(** row [r] of [height] rows, counted from the top, is nearest to value [y] when the bottom row is [lo] and the top row [hi] *)
Definition row_for (height : nat) (lo hi y : R) (r : Z) : Prop :=
  Rabs (IZR r - (INR height - 1) * (hi - y) / (hi - lo)) <= / 2.
(** column [c] of [width] columns is nearest to [x] *)
Definition column_for (width : nat) (x_min x_max x : R) (c : Z) : Prop :=
  Rabs (IZR c - (INR width - 1) * (x - x_min) / (x_max - x_min)) <= / 2.
(** where column [c] is on the x axis *)
Definition sample (width : nat) (x_min x_max : R) (c : nat) : R := x_min + INR c * ((x_max - x_min) / (INR width - 1)).

(** the lowest and highest of the values plotted *)
Definition values_plotted (fns : list (R -> R)) (width : nat) (x_min x_max : R) : list R :=
  concat (map (fun f => map (fun c => f (sample width x_min x_max c)) (seq 0 width)) fns).
Definition least (l : list R) (m : R) : Prop := In m l /\ forall y, In y l -> m <= y.
Definition greatest (l : list R) (m : R) : Prop := In m l /\ forall y, In y l -> y <= m.

Definition cell (lines : list str) (r c : nat) : option ascii := match nth_error lines r with Some s => nth_error s c | None => None end.
Definition fits_int (z : Z) : Prop := (- 2 ^ 31 <= z < 2 ^ 31)%Z.
(** the symbol of the i-th function, and the line drawing characters of code page 437 *)
Definition symbol (i : nat) : ascii := ascii_of_nat (nth (i mod 4)%nat [219; 178; 177; 176]%nat 0%nat).
Definition h_line : ascii := ascii_of_nat 196.
Definition v_line : ascii := ascii_of_nat 179.
Definition v_top : ascii := ascii_of_nat 194.
Definition v_cross : ascii := ascii_of_nat 197.
Definition v_bottom : ascii := ascii_of_nat 193.
(** what is seen in row [r] and column [c] behind the functions; [zy], [zx]: row and column of zero; [axis]: zero is on the x axis *)
Definition background (height : nat) (zy zx : Z) (axis : bool) (r c : nat) : ascii :=
  if axis && (Z.of_nat c =? zx)%Z then
    if (r =? 0)%nat then v_top else if (Z.of_nat r =? zy)%Z then v_cross else if (r =? height - 1)%nat then v_bottom else v_line
  else if (r =? 0)%nat || (r =? height - 1)%nat || (Z.of_nat r =? zy)%Z then h_line else " "%char.
