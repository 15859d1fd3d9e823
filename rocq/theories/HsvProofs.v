(** Lemmas about colours from hues in floats. *)
From Coq Require Import List Arith Bool ZArith Reals Lra Lia SpecFloat.
From Flocq Require Import Core IEEE754.BinarySingleNaN.
From Verif Require Import Base ColSpec ColModel DblSpec DblModel DblProofs FrmModel FrmProofs HsvSpec HsvModel.
Import ListNotations.
Local Open Scope R_scope.

Lemma three : (3 <= 24)%Z. Proof. lia. Qed.
Notation rnd := (DblProofs.rnd 24 128).
Notation fx := (fexp 24 128).
Notation u := (DblProofs.u 24).
Notation eta := (DblProofs.eta 24 128).
Notation lim := (limit 128).

Lemma u_value : u = / 16777216. Proof. unfold DblProofs.u. cbn. lra. Qed.
Lemma eta_small : 0 < eta <= / 1000000 * u.
Proof.
  unfold DblProofs.eta, DblProofs.u. change (emin 24 128 - 1)%Z with (-150)%Z. split; [apply bpow_gt_0|]. replace (bpow radix2 (-150)) with (bpow radix2 (-126) * bpow radix2 (- (24))) by (rewrite <- bpow_plus; reflexivity).
  apply Rmult_le_compat_r; [apply bpow_ge_0|]. apply Rle_trans with (bpow radix2 (-20)); [apply bpow_le; lia|]. cbn. lra.
Qed.
Lemma lim_big : 1000 <= lim.
Proof. unfold limit. apply Rle_trans with (bpow radix2 10); [cbn; lra|apply bpow_le; lia]. Qed.
Lemma int_format n : (0 <= n <= 1000)%Z -> generic_format radix2 fx (IZR n).
Proof. intros N. apply (integer_format 24 128 emax32 three). cbn. lia. Qed.
Lemma fint_ok n : (0 <= n <= 1000)%Z -> B2R (fint n) = IZR n /\ is_finite (fint n) = true.
Proof.
  intros N. assert (E : F2R (Defs.Float radix2 n 0) = IZR n) by (unfold F2R; cbn; ring). assert (IZR 0 <= IZR n <= IZR 1000) by (split; apply IZR_le; lia). pose proof lim_big.
  destruct (const_ok 24 128 prec32 emax32 three n 0) as [A B]; rewrite E in *; [rewrite Rabs_pos_eq; lra|apply int_format; exact N|]. split; assumption.
Qed.
Lemma rnd_between x a b : generic_format radix2 fx a -> generic_format radix2 fx b -> a <= x <= b -> a <= rnd x <= b.
Proof. intros A B [L1 L2]. split; [apply (rnd_lb 24 128 prec32)|apply (rnd_ub 24 128 prec32)]; assumption. Qed.
Lemma unit_rnd x : 0 <= x <= 1 -> 0 <= rnd x <= 1.
Proof. intros H. apply rnd_between; [apply (int_format 0); lia|apply (int_format 1); lia|exact H]. Qed.
Lemma unit_err x : 0 <= x <= 1 -> Rabs (rnd x - x) <= u + eta.
Proof.
  intros H. eapply Rle_trans; [apply (rnd_err 24 128 prec32)|]. rewrite (Rabs_pos_eq x) by lra. pose proof (u_pos 24 three). nra.
Qed.

Lemma u_eta : 0 < u /\ 0 < eta /\ 11 * u + 11 * eta <= / 1000000.
Proof. pose proof u_value. pose proof eta_small. split; [lra|]. split; [tauto|]. nra. Qed.
Lemma num_form (a : f32) : generic_format radix2 fx (B2R a). Proof. apply num_format. Qed.

(** one minus a number, and a product of numbers between 0 and 1 *)
Lemma co_ok (a : f32) : unit_float a -> unit_float (fsub (fint 1) a) /\ B2R (fsub (fint 1) a) = rnd (1 - B2R a).
Proof.
  intros [F A]. destruct (fint_ok 1 ltac:(lia)) as [E G]. pose proof lim_big. destruct (sub_ok 24 128 prec32 emax32 three (fint 1) a G F) as [X Y]; [rewrite E, Rabs_pos_eq; lra|]. rewrite E in X.
  split; [|exact X]. split; [exact Y|]. rewrite X. apply unit_rnd. lra.
Qed.
Lemma unit_mul x y : 0 <= x <= 1 -> 0 <= y <= 1 -> 0 <= x * y <= 1 /\ x * y <= x /\ x * y <= y.
Proof. intros A B. repeat split; nra. Qed.
Lemma prod_ok (a b : f32) : unit_float a -> unit_float b -> unit_float (fmul a b) /\ B2R (fmul a b) = rnd (B2R a * B2R b).
Proof.
  intros [F A] [G B]. pose proof lim_big. pose proof (unit_mul _ _ A B) as (M & _). destruct (mul_ok 24 128 prec32 emax32 three a b F G) as [X Y]; [rewrite Rabs_pos_eq; lra|].
  split; [|exact X]. split; [exact Y|]. rewrite X. apply unit_rnd. lra.
Qed.
Definition channel (V S w : f32) : f32 := fmul V (fsub (fint 1) (fmul S w)).
Lemma err_chain (v s w a b c : R) : 0 <= v <= 1 -> Rabs (a - s * w) <= u + eta -> Rabs (b - (1 - a)) <= u + eta -> Rabs (c - v * b) <= u + eta -> Rabs (c - v * (1 - s * w)) <= 3 * (u + eta).
Proof.
  intros V A B C. replace (c - v * (1 - s * w)) with ((c - v * b) + (v * ((b - (1 - a)) - (a - s * w)))) by ring. eapply Rle_trans; [apply Rabs_triang|]. rewrite Rabs_mult, (Rabs_pos_eq v) by lra.
  assert (Rabs (b - (1 - a) - (a - s * w)) <= 2 * (u + eta)). { unfold Rminus at 1. eapply Rle_trans; [apply Rabs_triang|]. rewrite Rabs_Ropp. lra. }
  pose proof (Rabs_pos (b - (1 - a) - (a - s * w))). nra.
Qed.
Lemma channel_ok (V S w : f32) : unit_float V -> unit_float S -> unit_float w ->
  within_float (fmul V (fsub (fint 1) S)) V (channel V S w) /\ Rabs (B2R (channel V S w) - B2R V * (1 - B2R S * B2R w)) <= 3 * (u + eta).
Proof.
  intros HV HS Hw. destruct (prod_ok S w HS Hw) as [PU PE]. destruct (co_ok _ PU) as [CU CE]. destruct (prod_ok V _ HV CU) as [XU XE]. destruct (co_ok S HS) as [SU SE]. destruct (prod_ok V _ HV SU) as [QU QE].
  destruct HV as [FV BV], HS as [FS BS], Hw as [Fw Bw]. destruct PU as [FP BP], CU as [FC BC], XU as [FX BX], SU as [FSU BSU]. pose proof (unit_mul _ _ BS Bw) as (M0 & M1 & M2). pose proof (unit_mul _ _ BV BC) as (N0 & N1 & N2).
  unfold channel. split.
  - split; [exact FX|]. split.
    + rewrite XE, QE. apply (rnd_le 24 128 prec32). apply Rmult_le_compat_l; [lra|]. rewrite SE, CE. apply (rnd_le 24 128 prec32). apply Rplus_le_compat_l, Ropp_le_contravar. rewrite PE. apply (rnd_ub 24 128 prec32); [apply num_form|exact M1].
    + rewrite XE. apply (rnd_ub 24 128 prec32); [apply num_form|exact N1].
  - apply err_chain with (a := B2R (fmul S w)) (b := B2R (fsub (fint 1) (fmul S w))); [exact BV| | |]; [rewrite PE|rewrite CE|rewrite XE]; apply unit_err; lra.
Qed.
Lemma base_ok (V S : f32) : unit_float V -> unit_float S ->
  within_float (fmul V (fsub (fint 1) S)) V V /\ within_float (fmul V (fsub (fint 1) S)) V (fmul V (fsub (fint 1) S)) /\ Rabs (B2R (fmul V (fsub (fint 1) S)) - B2R V * (1 - B2R S)) <= 3 * (u + eta).
Proof.
  intros HV HS. destruct (co_ok S HS) as [SU SE]. destruct (prod_ok V _ HV SU) as [QU QE]. destruct HV as [FV BV], HS as [FS BS], SU as [FSU BSU], QU as [FQ BQ]. pose proof (unit_mul _ _ BV BSU) as (N0 & N1 & N2).
  assert (L : B2R (fmul V (fsub (fint 1) S)) <= B2R V) by (rewrite QE; apply (rnd_ub 24 128 prec32); [apply num_form|exact N1]).
  split; [split; [exact FV|lra]|]. split; [split; [exact FQ|lra]|].
  assert (A : Rabs (B2R (fmul V (fsub (fint 1) S)) - B2R V * B2R (fsub (fint 1) S)) <= u + eta) by (rewrite QE; apply unit_err; lra).
  assert (B : Rabs (B2R (fsub (fint 1) S) - (1 - B2R S)) <= u + eta) by (rewrite SE; apply unit_err; lra).
  set (q := B2R (fmul V (fsub (fint 1) S))) in *. set (b := B2R (fsub (fint 1) S)) in *. set (v := B2R V) in *. set (s := B2R S) in *.
  replace (q - v * (1 - s)) with ((q - v * b) + v * (b - (1 - s))) by ring. eapply Rle_trans; [apply Rabs_triang|]. rewrite (Rabs_mult v), (Rabs_pos_eq v) by lra. pose proof (Rabs_pos (b - (1 - s))). destruct u_eta as (U1 & U2 & _). nra.
Qed.

(** the hue *)
Definition turn (H0 : f32) : f32 := fdiv (ffmod H0 (fint 360)) (fint 60).
Lemma top_format (x : f32) : B2R x < 360 -> B2R x <= 360 - bpow radix2 (-15).
Proof.
  intros L. replace (360 - bpow radix2 (-15)) with (pred radix2 fx 360).
  - apply pred_ge_gt; [apply fexp_correct; exact prec32|apply num_form|apply (int_format 360); lia|exact L].
  - rewrite pred_eq_pos by lra. unfold pred_pos. assert (M : mag_val radix2 360 (mag radix2 360) = 9%Z) by (apply mag_unique; rewrite Rabs_pos_eq by lra; cbn; lra). rewrite M.
    rewrite Req_bool_false by (cbn; lra). unfold ulp. rewrite Req_bool_false by lra. unfold cexp. rewrite M. reflexivity.
Qed.
Lemma turn_ok (H0 : f32) : is_finite H0 = true -> 0 <= B2R H0 -> exists h, hue_of (B2R H0) h /\ is_finite (turn H0) = true /\ 0 <= B2R (turn H0) < 6 /\ Rabs (B2R (turn H0) - h) <= 6 * u + eta /\ turn H0 = fdiv (ffmod H0 (fint 360)) (fint 60) /\ B2R (turn H0) = rnd h.
Proof.
  intros F P. destruct (fint_ok 360 ltac:(lia)) as [E3 F3]. destruct (fint_ok 60 ltac:(lia)) as [E6 F6]. destruct (fmod_ok 24 128 prec32 emax32 three H0 (fint 360) F F3) as (n & A & B & C & D & G & K); [rewrite E3; lra|].
  rewrite E3 in *. set (m := ffmod H0 (fint 360)) in *. rewrite (Rabs_pos_eq 360) in C by lra.
  assert (M : 0 <= B2R m). { destruct (Rle_lt_dec 0 (B2R m)) as [|N]; [assumption|]. destruct P as [P|P]; [nra|]. rewrite <- P in D. rewrite Rabs_R0 in D. pose proof (Rabs_pos (B2R m)). rewrite Rabs_left in D by exact N. lra. }
  rewrite Rabs_pos_eq in C by exact M. pose proof (top_format m C) as T. pose proof lim_big.
  destruct (div_ok 24 128 prec32 emax32 three m (fint 60) B) as [X Y]; [rewrite E6; lra|rewrite E6, Rabs_pos_eq; lra|]. rewrite E6 in X.
  assert (T' : B2R m / 60 <= 6 - bpow radix2 (-21)). { replace (bpow radix2 (-15)) with (64 * bpow radix2 (-21)) in T by (change 64 with (bpow radix2 6); rewrite <- bpow_plus; reflexivity). pose proof (bpow_gt_0 radix2 (-21)). lra. }
  exists (B2R m / 60). split; [split; [lra|]|]. { exists n. rewrite A. field. }
  split; [exact Y|]. split.
  - unfold turn. fold m. rewrite X. split; [apply (rnd_lb 24 128 prec32); [apply (int_format 0); lia|lra]|]. apply Rle_lt_trans with (6 - bpow radix2 (-21)); [|pose proof (bpow_gt_0 radix2 (-21)); lra].
    apply (rnd_ub 24 128 prec32); [|exact T']. replace (6 - bpow radix2 (-21)) with (F2R (Defs.Float radix2 12582911 (-21))) by (unfold F2R; cbn; lra).
    apply generic_format_F2R. intros _. unfold cexp. rewrite mag_F2R by lia. assert (Q : mag_val radix2 (IZR 12582911) (mag radix2 (IZR 12582911)) = 24%Z) by (apply mag_unique; rewrite Rabs_pos_eq by (apply IZR_le; lia); cbn; lra). cbn [Fnum Fexp]. rewrite Q. unfold fexp, emin. lia.
  - split; [|split; [reflexivity|exact X]]. unfold turn. fold m. rewrite X. eapply Rle_trans; [apply (rnd_err 24 128 prec32)|]. rewrite Rabs_pos_eq by lra. pose proof (u_pos 24 three). nra.
Qed.

Definition fract (H : f32) : f32 := fsub H (ffloor H).
Definition low (V S : f32) : f32 := fmul V (fsub (fint 1) S).
Lemma fract_ok (H : f32) k : is_finite H = true -> (0 <= k <= 1000)%Z -> IZR k <= B2R H < IZR k + 1 -> unit_float (fract H) /\ B2R (fract H) = B2R H - IZR k.
Proof. intros F K B. destruct (part_ok 24 128 prec32 emax32 three H k F (proj1 K) B) as (_ & _ & E & G). unfold fract. split; [|exact E]. split; [exact G|]. rewrite E. lra. Qed.
Lemma in_sector (H : f32) j : is_finite H = true -> (0 <= j <= 100)%Z -> fle (fint j) H && flt H (fint (j + 1)) = Rle_bool (IZR j) (B2R H) && Rlt_bool (B2R H) (IZR j + 1).
Proof.
  intros F J. destruct (fint_ok j ltac:(lia)) as [E G]. destruct (fint_ok (j + 1) ltac:(lia)) as [E' G']. rewrite (le_finite 24 128 _ _ G F), (lt_finite 24 128 _ _ F G'), E, E', plus_IZR. reflexivity.
Qed.
Lemma sector_hit (H : f32) j k : is_finite H = true -> (0 <= j <= 100)%Z -> (0 <= k <= 100)%Z -> IZR k <= B2R H < IZR k + 1 -> fle (fint j) H && flt H (fint (j + 1)) = (j =? k)%Z.
Proof.
  intros F J K B. rewrite in_sector by assumption. destruct (Z.eqb_spec j k) as [->|N].
  - rewrite Rle_bool_true, Rlt_bool_true by lra. reflexivity.
  - destruct (Z.lt_ge_cases j k) as [L|L].
    + rewrite (Rlt_bool_false (B2R H)); [apply andb_false_r|]. assert (IZR (j + 1) <= IZR k) by (apply IZR_le; lia). rewrite plus_IZR in H0. lra.
    + rewrite Rle_bool_false; [reflexivity|]. assert (IZR (k + 1) <= IZR j) by (apply IZR_le; lia). rewrite plus_IZR in H0. lra.
Qed.
(** the colour in sector [k] *)
Definition sector (k : Z) (V S f : f32) : rgba f32 :=
  let P := low V S in let Q := channel V S f in let T := channel V S (fsub (fint 1) f) in
  match k with
  | 0%Z => C4 V T P (fint 1) | 1%Z => C4 Q V P (fint 1) | 2%Z => C4 P V T (fint 1) | 3%Z => C4 P Q V (fint 1) | 4%Z => C4 T P V (fint 1) | _ => C4 V P Q (fint 1) end.
Lemma six_cases x : 0 <= x < 6 -> exists k, (0 <= k <= 5)%Z /\ IZR k <= x < IZR k + 1.
Proof.
  intros X. exists (Zfloor x). pose proof (Zfloor_lb x). pose proof (Zfloor_ub x). split; [|lra]. split; [apply Zfloor_lub; lra|]. assert (Zfloor x < 6)%Z; [|lia]. apply lt_IZR. lra.
Qed.
Lemma hsv_sector (H0 S V : f32) k : is_finite (turn H0) = true -> (0 <= k <= 5)%Z -> IZR k <= B2R (turn H0) < IZR k + 1 -> hsv H0 S V = sector k V S (fract (turn H0)).
Proof.
  intros F K B. unfold hsv. fold (turn H0). fold (fract (turn H0)).
  pose proof (sector_hit _ 0 k F ltac:(lia) ltac:(lia) B) as E0. pose proof (sector_hit _ 1 k F ltac:(lia) ltac:(lia) B) as E1. pose proof (sector_hit _ 2 k F ltac:(lia) ltac:(lia) B) as E2.
  pose proof (sector_hit _ 3 k F ltac:(lia) ltac:(lia) B) as E3. pose proof (sector_hit _ 4 k F ltac:(lia) ltac:(lia) B) as E4. pose proof (sector_hit _ 5 k F ltac:(lia) ltac:(lia) B) as E5.
  cbn [Z.add Pos.add Pos.succ] in *. cbv zeta. rewrite E0, E1, E2, E3, E4, E5.
  assert (C : (k = 0 \/ k = 1 \/ k = 2 \/ k = 3 \/ k = 4 \/ k = 5)%Z) by lia. destruct C as [->|[->|[->|[->|[->| ->]]]]]; reflexivity.
Qed.

Lemma clamp01_lip x y : Rabs (clamp01 x - clamp01 y) <= Rabs (x - y).
Proof. unfold clamp01, Rmax, Rmin, Rabs. repeat (destruct Rle_dec || destruct Rcase_abs); lra. Qed.
Lemma abs_lip a x y : Rabs (Rabs (x - a) - Rabs (y - a)) <= Rabs (x - y).
Proof. unfold Rabs. repeat destruct Rcase_abs; lra. Qed.
Lemma no_red_lip x y : Rabs (no_red x - no_red y) <= Rabs (x - y).
Proof. unfold no_red. eapply Rle_trans; [apply clamp01_lip|]. replace (2 - Rabs (x - 3) - (2 - Rabs (y - 3))) with (- (Rabs (x - 3) - Rabs (y - 3))) by ring. rewrite Rabs_Ropp. apply abs_lip. Qed.
Lemma no_green_lip x y : Rabs (no_green x - no_green y) <= Rabs (x - y).
Proof. unfold no_green. eapply Rle_trans; [apply clamp01_lip|]. replace (Rabs (x - 2) - 1 - (Rabs (y - 2) - 1)) with (Rabs (x - 2) - Rabs (y - 2)) by ring. apply abs_lip. Qed.
Lemma no_blue_lip x y : Rabs (no_blue x - no_blue y) <= Rabs (x - y).
Proof. unfold no_blue. eapply Rle_trans; [apply clamp01_lip|]. replace (Rabs (x - 4) - 1 - (Rabs (y - 4) - 1)) with (Rabs (x - 4) - Rabs (y - 4)) by ring. apply abs_lip. Qed.
Ltac shade := unfold no_red, no_green, no_blue, clamp01, Rmax, Rmin, Rabs; repeat (destruct Rle_dec || destruct Rcase_abs); lra.

Definition near (e : R) (x : f32) (v s m : R) : Prop := Rabs (B2R x - v * (1 - s * m)) <= e.
Lemma near_move e d x v s m m' : 0 <= v <= 1 -> 0 <= s <= 1 -> Rabs (m - m') <= d -> near e x v s m -> near (e + d) x v s m'.
Proof.
  unfold near. intros V S D N. replace (B2R x - v * (1 - s * m')) with ((B2R x - v * (1 - s * m)) + - (v * s) * (m - m')) by ring. eapply Rle_trans; [apply Rabs_triang|]. rewrite Rabs_mult, Rabs_Ropp, (Rabs_pos_eq (v * s)) by nra.
  pose proof (Rabs_pos (m - m')). pose proof (unit_mul v s V S). nra.
Qed.
Lemma near_top (V S : f32) m : unit_float V -> m = 0 -> near (4 * (u + eta)) V (B2R V) (B2R S) m.
Proof. intros _ ->. unfold near. replace (B2R V - B2R V * (1 - B2R S * 0)) with 0 by ring. rewrite Rabs_R0. destruct u_eta as (A & B & _). lra. Qed.
Lemma near_low (V S : f32) m : unit_float V -> unit_float S -> m = 1 -> near (4 * (u + eta)) (low V S) (B2R V) (B2R S) m.
Proof. intros HV HS ->. unfold near, low. destruct (base_ok V S HV HS) as (_ & _ & E). rewrite Rmult_1_r. destruct u_eta as (A & B & _). lra. Qed.
Lemma near_fall (V S f : f32) m : unit_float V -> unit_float S -> unit_float f -> m = B2R f -> near (4 * (u + eta)) (channel V S f) (B2R V) (B2R S) m.
Proof. intros HV HS Hf ->. unfold near. destruct (channel_ok V S f HV HS Hf) as [_ E]. destruct u_eta as (A & B & _). lra. Qed.
Lemma near_rise (V S f : f32) m : unit_float V -> unit_float S -> unit_float f -> m = 1 - B2R f -> near (4 * (u + eta)) (channel V S (fsub (fint 1) f)) (B2R V) (B2R S) m.
Proof.
  intros HV HS Hf ->. destruct (co_ok f Hf) as [CU CE]. destruct (channel_ok V S _ HV HS CU) as [_ E]. replace (4 * (u + eta)) with (3 * (u + eta) + (u + eta)) by ring.
  apply near_move with (m := B2R (fsub (fint 1) f)); [apply HV|apply HS| |exact E]. rewrite CE. apply unit_err. destruct Hf; lra.
Qed.
Lemma sector_close (V S H : f32) k : unit_float V -> unit_float S -> is_finite H = true -> (0 <= k <= 5)%Z -> IZR k <= B2R H < IZR k + 1 ->
  let c := sector k V S (fract H) in let e := 4 * (u + eta) in
  near e (c_r c) (B2R V) (B2R S) (no_red (B2R H)) /\ near e (c_g c) (B2R V) (B2R S) (no_green (B2R H)) /\ near e (c_b c) (B2R V) (B2R S) (no_blue (B2R H)).
Proof.
  intros HV HS F K B. cbv zeta. destruct (fract_ok H k F ltac:(lia) B) as [U E].
  assert (C : (k = 0 \/ k = 1 \/ k = 2 \/ k = 3 \/ k = 4 \/ k = 5)%Z) by lia.
  destruct C as [->|[->|[->|[->|[->| ->]]]]]; cbn [sector c_r c_g c_b] in *; (repeat split); (apply near_top || apply near_low || apply near_rise || apply near_fall); try assumption; try rewrite E; shade.
Qed.
Lemma sector_range (V S f : f32) k : unit_float V -> unit_float S -> unit_float f -> (0 <= k <= 5)%Z ->
  let c := sector k V S f in
  within_float (low V S) V (c_r c) /\ within_float (low V S) V (c_g c) /\ within_float (low V S) V (c_b c) /\ In V [c_r c; c_g c; c_b c] /\ In (low V S) [c_r c; c_g c; c_b c] /\ c_a c = fint 1.
Proof.
  intros HV HS Hf K. cbv zeta. destruct (base_ok V S HV HS) as (A & B & _). destruct (channel_ok V S f HV HS Hf) as [Q _]. destruct (channel_ok V S _ HV HS (proj1 (co_ok f Hf))) as [T _].
  assert (C : (k = 0 \/ k = 1 \/ k = 2 \/ k = 3 \/ k = 4 \/ k = 5)%Z) by lia.
  destruct C as [->|[->|[->|[->|[->| ->]]]]]; cbn [sector c_r c_g c_b c_a]; (split; [assumption|]); (split; [assumption|]); (split; [assumption|]); (split; [cbn [In]; tauto|]); (split; [cbn [In]; tauto|reflexivity]).
Qed.

(** equal values of the numbers give equal values of the channels *)
Definition same_values (c d : rgba f32) : Prop := B2R (c_r c) = B2R (c_r d) /\ B2R (c_g c) = B2R (c_g d) /\ B2R (c_b c) = B2R (c_b d) /\ B2R (c_a c) = B2R (c_a d).
Lemma channel_value (V S f : f32) : unit_float V -> unit_float S -> unit_float f -> B2R (channel V S f) = rnd (B2R V * rnd (1 - rnd (B2R S * B2R f))).
Proof.
  intros HV HS Hf. destruct (prod_ok S f HS Hf) as [A A']. destruct (co_ok _ A) as [B B']. destruct (prod_ok V _ HV B) as [_ C']. unfold channel. rewrite C', B', A'. reflexivity.
Qed.
Lemma sector_value (V S f g : f32) k : unit_float V -> unit_float S -> unit_float f -> unit_float g -> B2R f = B2R g -> same_values (sector k V S f) (sector k V S g).
Proof.
  intros HV HS Hf Hg E. assert (Q : B2R (channel V S f) = B2R (channel V S g)) by (rewrite !channel_value, E by assumption; reflexivity).
  assert (T : B2R (channel V S (fsub (fint 1) f)) = B2R (channel V S (fsub (fint 1) g))). { destruct (co_ok f Hf) as [A A']. destruct (co_ok g Hg) as [B B']. rewrite !channel_value, A', B', E by assumption. reflexivity. }
  unfold sector. destruct k as [|p|p]; [repeat split; assumption| |repeat split; assumption]. repeat (destruct p as [p|p|]; try (repeat split; assumption)).
Qed.
Lemma hue_unique x y h h' n : hue_of x h -> hue_of y h' -> x = y + 360 * IZR n -> h = h'.
Proof.
  intros [B [a A]] [B' [a' A']] E. assert (D : h - h' = IZR (6 * (n + a' - a))) by (rewrite mult_IZR, minus_IZR, plus_IZR; lra).
  assert (Z : (-1 < n + a' - a < 1)%Z). { split; apply lt_IZR; rewrite mult_IZR in D; lra. } replace (n + a' - a)%Z with 0%Z in D by lia. cbn in D. lra.
Qed.
Lemma low_grey (V S : f32) : unit_float V -> unit_float S -> B2R S = 0 -> B2R (low V S) = B2R V.
Proof.
  intros HV HS E. destruct (co_ok S HS) as [A A']. destruct (prod_ok V _ HV A) as [_ C']. unfold low. rewrite C', A', E, Rminus_0_r, (rnd_exact 24 128 1) by (apply (int_format 1); lia). rewrite Rmult_1_r. apply rnd_exact, num_form.
Qed.
Lemma turn_negative (H0 : f32) : is_finite H0 = true -> -360 < B2R H0 <= -1 -> is_finite (turn H0) = true /\ B2R (turn H0) < 0.
Proof.
  intros F P. destruct (fint_ok 360 ltac:(lia)) as [E3 F3]. destruct (fint_ok 60 ltac:(lia)) as [E6 F6]. destruct (fmod_ok 24 128 prec32 emax32 three H0 (fint 360) F F3) as (n & A & B & C & D & G & K); [rewrite E3; lra|].
  rewrite E3 in *. set (m := ffmod H0 (fint 360)) in *. rewrite (Rabs_pos_eq 360) in C by lra.
  assert (N0 : IZR n <= 0) by nra. assert (M0 : B2R m <= 0) by nra. assert (N1 : -1 < IZR n) by nra. assert (n = 0)%Z. { apply Z.le_antisymm; [apply le_IZR; exact N0|]. assert (-1 < n)%Z by (apply lt_IZR; exact N1). lia. }
  subst n. assert (M : B2R m = B2R H0) by (rewrite A; cbn; ring). pose proof lim_big.
  destruct (div_ok 24 128 prec32 emax32 three m (fint 60) B) as [X Y]; [rewrite E6; lra|rewrite E6, M, Rabs_left; lra|]. rewrite E6, M in X. unfold turn. fold m. split; [exact Y|]. rewrite X.
  apply Rle_lt_trans with (- bpow radix2 (-6)); [|pose proof (bpow_gt_0 radix2 (-6)); lra]. apply (rnd_ub 24 128 prec32); [apply generic_format_opp, (bpow_format 24 128 three); cbn; lia|]. cbn. lra.
Qed.
Lemma hsv_negative (H0 S V : f32) : is_finite (turn H0) = true -> B2R (turn H0) < 0 -> hsv H0 S V = C4 (fint 0) (fint 0) (fint 0) (fint 0).
Proof.
  intros F N. unfold hsv. fold (turn H0). assert (E : forall j, (0 <= j <= 100)%Z -> fle (fint j) (turn H0) = false).
  { intros j J. destruct (fint_ok j ltac:(lia)) as [E G]. rewrite (le_finite 24 128 _ _ G F), E. apply Rle_bool_false. assert (IZR 0 <= IZR j) by (apply IZR_le; lia). lra. }
  cbv zeta. rewrite !E by lia. reflexivity.
Qed.
