(** * C201 unique colours with real floats *)
From Coq Require Import List Arith Bool ZArith Reals Lra Lia.
From Flocq Require Import Core IEEE754.BinarySingleNaN.
From Verif Require Import Base ColSpec ColModel DblSpec DblModel DblProofs HsvSpec HsvModel HsvProofs UnqSpec UnqModel UnqProofs.
Import ListNotations.
Local Open Scope R_scope.

(** ** every index gives a valid opaque colour with the asked brightness to 1/100000, or, where the hue is too dark for that, the brightest colour of that hue *)
Theorem C201_brightness : forall (idx : Z) (b : f32), (0 <= idx < 2 ^ 64)%Z -> is_finite b = true -> 0 < B2R b <= 1 -> exists c v y,
  unique_color idx b = Ok c /\ opaque c /\ is_largest c v /\ B2R b <= v <= 1 /\ is_brightness (channels c) y /\ y <= B2R b + / 100000 /\ (B2R b - / 100000 <= y \/ v = 1).
Proof.
  intros idx b I Fb Bb. destruct (unique_for idx b (proj1 I)) as (h & _ & BH & E). destruct (color_for_ok h (idx / 12) b BH) as (v & y & A & B & C & D & F & G); [split; [apply Z.div_pos; lia|]; apply Z.le_trans with idx; [apply Z.div_le_upper_bound; lia|lia]|exact Fb|exact Bb|].
  destruct e_small as (E0 & E1 & _). exists (color_for h (idx / 12) b), v, y. split; [exact E|]. split; [exact A|]. split; [exact B|]. split; [exact C|]. split; [exact D|]. split; [lra|]. destruct G as [G|G]; [left; lra|right; exact G].
Qed.
Print Assumptions C201_brightness.

(** ** the first 4800 colours all differ, even between brightnesses *)
Theorem C201_distinct_partial : forall (i j : Z) (b b' : f32) c d, (0 <= i < 4800)%Z -> (0 <= j < 4800)%Z -> i <> j ->
  is_finite b = true -> / 10 <= B2R b <= 1 -> is_finite b' = true -> / 10 <= B2R b' <= 1 -> unique_color i b = Ok c -> unique_color j b' = Ok d ->
  ~ (B2R (c_r c) = B2R (c_r d) /\ B2R (c_g c) = B2R (c_g d) /\ B2R (c_b c) = B2R (c_b d)).
Proof. intros i j b b' c d I J N F B F' B' C D (R & G & X). exact (colors_differ i j b b' c d I J N F B F' B' C D R G X). Qed.
Print Assumptions C201_distinct_partial.

(** ** later ones need not: two indices whose saturations differ by less than a float can tell get the same colour *)
Theorem C201_distinct_refuted : unique_color 49680 (fint 1) = unique_color 49692 (fint 1) /\ exists c, unique_color 49680 (fint 1) = Ok c /\ opaque c.
Proof.
  split.
  - assert (O : forall x y : rgba f32, B2SF (c_r x) = B2SF (c_r y) -> B2SF (c_g x) = B2SF (c_g y) -> B2SF (c_b x) = B2SF (c_b y) -> B2SF (c_a x) = B2SF (c_a y) -> x = y).
    { intros [a b c d] [a' b' c' d']; cbn [c_r c_g c_b c_a]; intros A B C D. f_equal; apply same_bits; assumption. }
    assert (E : forall i, (0 <= i)%Z -> forall h, vec_get hues (Z.to_nat (i mod 12)) = Ok h -> unique_color i (fint 1) = Ok (color_for h (i / 12) (fint 1))).
    { intros i I h Hh. destruct (unique_for i (fint 1) I) as (h' & A & _ & B). rewrite A in Hh. injection Hh as ->. exact B. }
    rewrite (E 49680%Z ltac:(lia) 0%Z eq_refl), (E 49692%Z ltac:(lia) 0%Z eq_refl). f_equal. apply O; vm_compute; reflexivity.
  - destruct (fint_ok 1 ltac:(lia)) as [E1 F1]. destruct (C201_brightness 49680 (fint 1)) as (c & v & y & A & B & _); [lia|exact F1|rewrite E1; lra|]. exists c. split; assumption.
Qed.
Print Assumptions C201_distinct_refuted.

(** ** the first three are pure red, pure green and pure blue *)
Theorem C201_primary : forall (i : Z) (b : f32), (0 <= i < 3)%Z -> is_finite b = true -> 0 < B2R b <= 1 -> exists c v, unique_color i b = Ok c /\ B2R b <= v <= 1 /\
  map B2R [c_r c; c_g c; c_b c] = match i with 0%Z => [v; 0; 0] | 1%Z => [0; v; 0] | _ => [0; 0; v] end.
Proof. exact primary. Qed.
Print Assumptions C201_primary.

(** half brightness is a float that all of this applies to; red 1 is brighter than one half, so it is the channel that is lowered *)
Example C201_case : exists b : f32, is_finite b = true /\ / 10 <= B2R b <= 1 /\ exists c d v, unique_color 0 b = Ok c /\ unique_color 4799 b = Ok d /\ map B2R [c_r c; c_g c; c_b c] = [v; 0; 0] /\ B2R b <= v <= 1 /\ opaque d.
Proof.
  exists (fconst 1 (-1)). destruct (const_half 24 128 prec32 emax32 three) as [A B]. split; [exact B|]. split; [rewrite A; lra|].
  destruct (C201_primary 0 (fconst 1 (-1))) as (c & v & C1 & C2 & C3); [lia|exact B|rewrite A; lra|]. destruct (C201_brightness 4799 (fconst 1 (-1))) as (d & w & y & D1 & D2 & _); [lia|exact B|rewrite A; lra|].
  exists c, d, v. repeat (split; [assumption|]). assumption.
Qed.
