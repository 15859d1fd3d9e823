(** Curves in space; independent of the models. *)
From Coq Require Import List Arith Reals.
From Coquelicot Require Import Coquelicot.
From Verif Require Import GeoSpec ShpSpec.
Import ListNotations.
Local Open Scope R_scope.

(** [v] is the velocity of the curve [f] at time [t] *)
Definition velocity (f : R -> vec3) (t : R) (v : vec3) : Prop :=
  is_derive (fun s => vx (f s)) t (vx v) /\ is_derive (fun s => vy (f s)) t (vy v) /\ is_derive (fun s => vz (f s)) t (vz v).
(** the curve at [n + 1] equally spaced times from [t0] to [t1] *)
Definition samples (f : R -> vec3) (t0 t1 : R) (n : nat) : list vec3 := map (fun i => f (t0 + (t1 - t0) * INR i / INR n)) (seq 0 (S n)).
(** increasing times *)
Definition increasing (ts : list R) : Prop := forall i j, (i < j < length ts)%nat -> nth i ts 0 < nth j ts 0.
