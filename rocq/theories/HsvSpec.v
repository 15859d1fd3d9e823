(** Hues and shades over the reals; independent of the model. *)
From Coq Require Import Reals ZArith.
From Flocq Require Import IEEE754.BinarySingleNaN.
Local Open Scope R_scope.

Definition clamp01 (x : R) : R := Rmax 0 (Rmin 1 x).
(** how much of each colour is missing at hue [h], in sixths of a turn: red is complete around 0 and 6, green around 2, blue around 4 *)
Definition no_red (h : R) : R := clamp01 (2 - Rabs (h - 3)).
Definition no_green (h : R) : R := clamp01 (Rabs (h - 2) - 1).
Definition no_blue (h : R) : R := clamp01 (Rabs (h - 4) - 1).
(** [h] is the hue of [degrees] in sixths of a turn *)
Definition hue_of (degrees h : R) : Prop := 0 <= h < 6 /\ exists n : Z, degrees = 60 * h + 360 * IZR n.
(** a float between 0 and 1 *)
Definition unit_float (x : binary_float 24 128) : Prop := is_finite x = true /\ 0 <= B2R x <= 1.
Definition within_float (l h x : binary_float 24 128) : Prop := is_finite x = true /\ B2R l <= B2R x <= B2R h.
