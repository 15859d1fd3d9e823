(** What the report of a profiler should say; independent of the model of profiler.cpp. *)
From Coq Require Import Ascii String List Arith Bool ZArith Reals Sorting.Sorted.
From Verif Require Import Base Str CastSpec PnSpec ProfSpec DurSpec.
Import ListNotations.

(** the number of activations inside an activation, with itself *)
Fixpoint act_count (a : act) : Z := let 'Act _ _ l _ := a in (1 + sum_of act_count l)%Z.

Section History.
  Context (t0 t1 : Z) (acts : list act).
  Local Open Scope Z_scope.
  (** figures of a call path; the empty path is the whole measurement *)
  Definition total_at (q : list nat) : Z := match q with [] => t1 - t0 | _ => sum_of duration (acts_at q acts) end.
  Definition own_at (q : list nat) : Z := match q with [] => t1 - t0 - sum_of duration acts | _ => sum_of own (acts_at q acts) end.
  Definition count_at (q : list nat) : nat := match q with [] => 1%nat | _ => length (acts_at q acts) end.
  Definition activations_at (q : list nat) : Z := match q with [] => 1 + sum_of act_count acts | _ => sum_of act_count (acts_at q acts) end.

  (** the node reported for call path [q]: when it is expanded, all that was called from there, once each, those that took longest first *)
  Inductive reported (expanded : list nat -> Prop) (line : list nat -> str -> str -> Prop) : list nat -> str * pn -> Prop :=
  | rep_node q key v ns cs : line q key v ->
      (expanded q -> NoDup ns /\ (forall n, In n ns <-> acts_at (q ++ [n]) acts <> []) /\ StronglySorted (fun n m => total_at (q ++ [m]) <= total_at (q ++ [n])) ns) ->
      (~ expanded q -> ns = []) ->
      Forall2 (fun n c => reported expanded line (q ++ [n]) c) ns cs -> reported expanded line q (key, PN v cs false).

  (** the percentage [x] of the whole time that [t] is, but for rounding in double precision *)
  Definition percentage (t : Z) (x : R) : Prop := (Rabs (x - 100 * IZR t / IZR (t1 - t0)) <= 100 * IZR t / IZR (t1 - t0) * / 2 ^ 48)%R.
End History.

(** the level of a line, by the percentage of the time spent in the section itself *)
Definition level_of (x : R) (d : Z) : Prop :=
  ((x < 1)%R /\ d = 2%Z) \/ ((1 <= x < 5)%R /\ d = 3%Z) \/ ((5 <= x < 15)%R /\ d = 4%Z) \/ ((15 <= x)%R /\ d = 5%Z).

(** a text with blanks in front, up to a width *)
Definition filled (w : nat) (t s : str) : Prop := s = repeat " "%char (w - length t) ++ t.
(** a number rounded to [d] decimals; [slack] is for rounding in double precision *)
Definition rounded_to (d : nat) (x slack : R) (k : Z) : Prop := (Rabs (IZR k - x * 10 ^ d) <= / 2 + slack)%R.
(** a filled text of a number with [d] decimals *)
Definition shows_number (w d : nat) (x slack : R) (s : str) : Prop :=
  exists k t, (0 <= k)%Z /\ rounded_to d x slack k /\ match d with O => plain_number t k | _ => fixed_text k d t end /\ filled w t s.
(** the text of a section: milliseconds, percentages with and without what is called from there, count, nanoseconds per call, percentage of overhead *)
Definition section_text (whole total own : Z) (count : nat) (overhead : Z) (v : str) : Prop :=
  exists a b c n e f, v = a ++ lit "ms " ++ b ++ lit "% (" ++ c ++ lit "%) " ++ n ++ lit " " ++ e ++ lit "ns ~" ++ f ++ lit "% OH" /\
  let ms := (IZR total / 10 ^ 6)%R in let p := (100 * IZR total / IZR whole)%R in let x := (100 * IZR own / IZR whole)%R in
  let ns := (IZR own / INR count)%R in let o := (100 * IZR overhead / IZR total)%R in
  shows_number 6 0 ms (ms / 2 ^ 48) a /\ shows_number 6 2 p (p * 10 ^ 2 / 2 ^ 48) b /\ shows_number 5 2 x (x * 10 ^ 2 / 2 ^ 48) c /\
  (exists t, plain_number t (Z.of_nat count) /\ filled 6 t n) /\
  shows_number 6 0 (Rmin 999999 ns) (Rmin 999999 ns / 2 ^ 48) e /\
  ((0 < total)%Z -> shows_number 2 0 (Rmin 99 o) (Rmin 99 o / 2 ^ 48) f) /\ (total = 0%Z -> (0 < overhead)%Z -> f = lit "99").
