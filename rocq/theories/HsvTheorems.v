(** * C200 colours from hue, saturation and value, in real floats *)
From Coq Require Import List Arith Bool ZArith Reals Lra Lia.
From Flocq Require Import Core IEEE754.BinarySingleNaN.
From Verif Require Import Base ColSpec ColModel DblSpec DblModel DblProofs FrmModel FrmProofs HsvSpec HsvModel HsvProofs.
Import ListNotations.
Local Open Scope R_scope.

(** ** every hue from 0 on, however large, gives a valid opaque colour: its largest channel is the value itself, and its smallest is what the saturation leaves of it *)
Theorem C200_range : forall H S V : f32, is_finite H = true -> 0 <= B2R H -> unit_float S -> unit_float V ->
  let c := hsv H S V in exists least, unit_float least /\ within_float least V (c_r c) /\ within_float least V (c_g c) /\ within_float least V (c_b c) /\
  In V [c_r c; c_g c; c_b c] /\ In least [c_r c; c_g c; c_b c] /\ Rabs (B2R least - B2R V * (1 - B2R S)) <= / 1000000 /\ is_finite (c_a c) = true /\ B2R (c_a c) = 1.
Proof.
  intros H S V F P HS HV. destruct (turn_ok H F P) as (h & _ & G & B & _). destruct (six_cases _ B) as (k & K & X). cbv zeta. rewrite (hsv_sector H S V k G K X). destruct (fract_ok _ k G ltac:(lia) X) as [U _].
  destruct (sector_range V S _ k HV HS U K) as (R1 & R2 & R3 & R4 & R5 & R6). destruct (base_ok V S HV HS) as (_ & _ & E). destruct u_eta as (U1 & U2 & U3). exists (low V S). split; [|split; [exact R1|split; [exact R2|split; [exact R3|split; [exact R4|split; [exact R5|]]]]]].
  - apply (prod_ok V (fsub (fint 1) S) HV). apply (co_ok S HS).
  - split; [unfold low; lra|]. rewrite R6. destruct (fint_ok 1 ltac:(lia)) as [A B']. split; assumption.
Qed.
Print Assumptions C200_range.

(** ** each channel is the value less what its hue lacks, to one millionth; red is complete around 0 degrees, green around 120 and blue around 240 *)
Theorem C200_close : forall H S V : f32, is_finite H = true -> 0 <= B2R H -> unit_float S -> unit_float V -> exists h, hue_of (B2R H) h /\
  let c := hsv H S V in
  Rabs (B2R (c_r c) - B2R V * (1 - B2R S * no_red h)) <= / 1000000 /\
  Rabs (B2R (c_g c) - B2R V * (1 - B2R S * no_green h)) <= / 1000000 /\
  Rabs (B2R (c_b c) - B2R V * (1 - B2R S * no_blue h)) <= / 1000000.
Proof.
  intros H S V F P HS HV. destruct (turn_ok H F P) as (h & HH & G & B & E & _). destruct (six_cases _ B) as (k & K & X). exists h. split; [exact HH|]. cbv zeta. rewrite (hsv_sector H S V k G K X).
  destruct (sector_close V S _ k HV HS G K X) as (R1 & R2 & R3). destruct u_eta as (U1 & U2 & U3). set (c := sector k V S _) in *. destruct HS as [_ HS], HV as [_ HV].
  assert (M : forall x m m', Rabs (m - m') <= Rabs (B2R (turn H) - h) -> near (4 * (u + eta)) x (B2R V) (B2R S) m -> Rabs (B2R x - B2R V * (1 - B2R S * m')) <= / 1000000).
  { intros x m m' D N. pose proof (near_move _ _ x _ _ m m' HV HS (Rle_trans _ _ _ D E) N) as Q. unfold near in Q. lra. }
  split; [|split]; (eapply M; [|eassumption]); [apply no_red_lip|apply no_green_lip|apply no_blue_lip].
Qed.
Print Assumptions C200_close.

(** ** whole turns make no difference at all *)
Theorem C200_period : forall (H H' S V : f32) (n : Z), is_finite H = true -> is_finite H' = true -> 0 <= B2R H -> 0 <= B2R H' -> B2R H' = B2R H + 360 * IZR n -> unit_float S -> unit_float V ->
  let c := hsv H S V in let d := hsv H' S V in B2R (c_r c) = B2R (c_r d) /\ B2R (c_g c) = B2R (c_g d) /\ B2R (c_b c) = B2R (c_b d) /\ B2R (c_a c) = B2R (c_a d).
Proof.
  intros H H' S V n F F' P P' E HS HV. destruct (turn_ok H F P) as (h & HH & G & B & _ & _ & R). destruct (turn_ok H' F' P') as (h' & HH' & G' & B' & _ & _ & R'). rewrite (hue_unique _ _ _ _ n HH' HH E) in R'. rewrite <- R in R'.
  destruct (six_cases _ B) as (k & K & X). cbv zeta. rewrite (hsv_sector H S V k G K X). pose proof X as X'. rewrite <- R' in X'. rewrite (hsv_sector H' S V k G' K X').
  destruct (fract_ok _ k G ltac:(lia) X) as [U W]. destruct (fract_ok _ k G' ltac:(lia) X') as [U' W']. apply sector_value; try assumption. rewrite W, W', R'. reflexivity.
Qed.
Print Assumptions C200_period.

(** ** without saturation every hue gives exactly the grey of the value *)
Theorem C200_grey : forall H S V : f32, is_finite H = true -> 0 <= B2R H -> unit_float S -> B2R S = 0 -> unit_float V ->
  let c := hsv H S V in B2R (c_r c) = B2R V /\ B2R (c_g c) = B2R V /\ B2R (c_b c) = B2R V.
Proof.
  intros H S V F P HS Z HV. destruct (turn_ok H F P) as (h & _ & G & B & _). destruct (six_cases _ B) as (k & K & X). cbv zeta. rewrite (hsv_sector H S V k G K X). destruct (fract_ok _ k G ltac:(lia) X) as [U _].
  destruct (sector_range V S _ k HV HS U K) as ((_ & R1) & (_ & R2) & (_ & R3) & _). rewrite (low_grey V S HV HS Z) in *. lra.
Qed.
Print Assumptions C200_grey.

(** ** hues below 0 are not wrapped: they give transparent black, whatever the saturation and value *)
Theorem C200_negative_refuted : forall H S V : f32, is_finite H = true -> -360 < B2R H <= -1 -> let c := hsv H S V in B2R (c_r c) = 0 /\ B2R (c_g c) = 0 /\ B2R (c_b c) = 0 /\ B2R (c_a c) = 0.
Proof.
  intros H S V F B. destruct (turn_negative H F B) as [G N]. cbv zeta. rewrite (hsv_negative H S V G N). destruct (fint_ok 0 ltac:(lia)) as [E _]. cbn [c_r c_g c_b c_a]. rewrite E. repeat split; reflexivity.
Qed.
Print Assumptions C200_negative_refuted.

(** 480 degrees, half saturated, value 1: green is complete, red and blue are half there *)
Example C200_case : exists S : f32, B2R S = / 2 /\ unit_float S /\ hsv (fint 480) S (fint 1) = C4 S (fint 1) S (fint 1).
Proof.
  exists (fconst 1 (-1)). destruct (const_half 24 128 prec32 emax32 three) as [A B]. split; [exact A|]. split; [split; [exact B|rewrite A; lra]|].
  assert (E : forall x y : f32, B2SF x = B2SF y -> x = y) by (intros x y; apply B2SF_inj).
  assert (forall a b c d a' b' c' d' : f32, B2SF a = B2SF a' -> B2SF b = B2SF b' -> B2SF c = B2SF c' -> B2SF d = B2SF d' -> C4 a b c d = C4 a' b' c' d') as C by (intros; f_equal; apply E; assumption).
  assert (forall x : rgba f32, x = C4 (c_r x) (c_g x) (c_b x) (c_a x)) as W by (intros []; reflexivity). rewrite (W (hsv _ _ _)). apply C; vm_compute; reflexivity.
Qed.
Example C200_period_case : is_finite (fint 480) = true /\ B2R (fint 480) = B2R (fint 120) + 360 * IZR 1. Proof. destruct (fint_ok 480 ltac:(lia)) as [A B]. destruct (fint_ok 120 ltac:(lia)) as [C _]. split; [exact B|rewrite A, C; lra]. Qed.
Example C200_negative_case : forall S V, let c := hsv (fconst (-60) 0) S V in B2R (c_r c) = 0 /\ B2R (c_g c) = 0 /\ B2R (c_b c) = 0 /\ B2R (c_a c) = 0.
Proof.
  intros S V. assert (E : F2R (Defs.Float radix2 (-60) 0) = -60) by (unfold F2R; cbn; ring). pose proof lim_big. destruct (const_ok 24 128 prec32 emax32 three (-60) 0) as [A B]; rewrite ?E in *; [rewrite Rabs_left; lra| |apply C200_negative_refuted; [exact B|rewrite A; lra]].
  replace (-60) with (- (60)) by lra. apply generic_format_opp, (int_format 60). lia.
Qed.
