(** Clamping, wrapping, interpolation and averages of floating-point numbers of any precision, double and float among them. *)
From Coq Require Import List Arith Bool ZArith Reals Lra Lia Sorting.Sorted.
From Flocq Require Import Core IEEE754.BinarySingleNaN.
From Verif Require Import Base DblSpec DblModel DblProofs.
Import ListNotations.
Local Open Scope R_scope.

Section Any.
  Context (prec emax : Z) (Hp : Prec_gt_0 prec) (He : Prec_lt_emax prec emax) (H3 : (3 <= prec)%Z).
  Notation num := (binary_float prec emax).
  Notation eps := (unit_error prec).
  Notation eta := (tiny prec emax).
  Lemma eta_is : eta = DblProofs.eta prec emax.
  Proof. reflexivity. Qed.

  (** * C167 *)
  (** every number that is not NaN, infinities included, is put between the bounds, and only changed when it is outside *)
  Theorem C167_clamp : forall v l h : num, is_nan v = false -> le prec emax l h = true ->
    let r := clamped prec emax v l h in
    le prec emax l r = true /\ le prec emax r h = true /\ (le prec emax l v = true -> le prec emax v h = true -> r = v) /\ (lt prec emax v l = true -> r = l) /\ (lt prec emax h v = true -> r = h).
  Proof. apply clamp_ok. Qed.
  Theorem C167_extend : forall (b : bounds prec emax) (v : num), is_nan v = false -> is_within prec emax b (lower _ _ b) = true ->
    let c := extend prec emax b v in is_within prec emax c v = true /\ forall w, is_within prec emax b w = true -> is_within prec emax c w = true.
  Proof.
    intros b v N W. cbv zeta. unfold is_within, extend in *. cbn [lower upper]. apply andb_true_iff in W. destruct W as [_ W]. destruct (le_nan _ _ _ _ W) as [N1 N2].
    destruct (min_ok _ _ (lower _ _ b) v N1 N) as (A1 & A2 & _). destruct (max_ok _ _ (upper _ _ b) v N2 N) as (B1 & B2 & _). split; [apply andb_true_iff; auto|].
    intros w K. apply andb_true_iff in K. destruct K as [K1 K2]. apply andb_true_iff. split; [apply (le_trans _ _ _ _ _ A1 K1)|apply (le_trans _ _ _ _ _ K2 B1)].
  Qed.
  (** the tightest: the new ends are old ends or the value *)
  Theorem C167_extend_least : forall (b c : bounds prec emax) (v : num), is_nan v = false -> is_within prec emax b (lower _ _ b) = true ->
    is_within prec emax c v = true -> is_within prec emax c (lower _ _ b) = true -> is_within prec emax c (upper _ _ b) = true ->
    forall w, is_within prec emax (extend prec emax b v) w = true -> is_within prec emax c w = true.
  Proof.
    intros b c v N W V L U w K. unfold is_within, extend in *. cbn [lower upper] in *. apply andb_true_iff in W, V, L, U, K. destruct W as [_ W], V as [V1 V2], L as [L1 L2], U as [U1 U2], K as [K1 K2]. destruct (le_nan _ _ _ _ W) as [N1 N2].
    destruct (min_ok _ _ (lower _ _ b) v N1 N) as (_ & _ & A). destruct (max_ok _ _ (upper _ _ b) v N2 N) as (_ & _ & B). apply andb_true_iff. split.
    - destruct A as [A|A]; rewrite A in K1; [apply (le_trans _ _ _ _ _ L1 K1)|apply (le_trans _ _ _ _ _ V1 K1)].
    - destruct B as [B|B]; rewrite B in K2; [apply (le_trans _ _ _ _ _ K2 U2)|apply (le_trans _ _ _ _ _ K2 V2)].
  Qed.
  (** how far a number is outside: zero exactly when it is inside, with the right sign, and right to half a unit in the last place; check() agrees *)
  Theorem C167_violation : forall (b : bounds prec emax) (v : num), ordinary v -> ordinary (lower _ _ b) -> ordinary (upper _ _ b) -> B2R (lower _ _ b) <= B2R (upper _ _ b) ->
    let r := get_violation prec emax Hp He b v in
    is_finite r = true /\ check prec emax Hp He b v = (is_within prec emax b v, r) /\
    (B2R v < B2R (lower _ _ b) -> B2R r < 0 /\ Rabs (B2R r - (B2R v - B2R (lower _ _ b))) <= eps * Rabs (B2R v - B2R (lower _ _ b))) /\
    (B2R (upper _ _ b) < B2R v -> 0 < B2R r /\ Rabs (B2R r - (B2R v - B2R (upper _ _ b))) <= eps * Rabs (B2R v - B2R (upper _ _ b))) /\
    (is_within prec emax b v = true -> B2R r = 0).
  Proof.
    intros b v V L U O. cbv zeta. destruct (violation_ok prec emax Hp He H3 b v V L U O) as (A & B & C & D). split; [exact A|]. assert (W : is_within prec emax b v = true <-> B2R (lower _ _ b) <= B2R v <= B2R (upper _ _ b)).
    { unfold is_within. rewrite andb_true_iff, !le_finite by (apply V || apply L || apply U). split; intros [X Y]; split; try (apply Rle_bool_true; assumption); [destruct (Rle_bool_spec (B2R (lower _ _ b)) (B2R v)); [assumption|discriminate]|destruct (Rle_bool_spec (B2R v) (B2R (upper _ _ b))); [assumption|discriminate]]. }
    split; [|split; [exact B|split; [exact C|intros X; apply D, W, X]]]. unfold check, get_violation, is_within. rewrite (lt_finite _ _ v _ (proj1 V) (proj1 L)), (lt_finite _ _ _ v (proj1 U) (proj1 V)), !le_finite by (apply V || apply L || apply U).
    destruct (Rlt_bool_spec (B2R v) (B2R (lower _ _ b))) as [X|X]; [rewrite Rle_bool_false by exact X; reflexivity|]. rewrite Rle_bool_true by exact X. destruct (Rlt_bool_spec (B2R (upper _ _ b)) (B2R v)) as [Y|Y]; [rewrite Rle_bool_false by exact Y; reflexivity|]. rewrite Rle_bool_true by exact Y. reflexivity.
  Qed.
  Theorem C167_middle : forall a b : num, ordinary a -> ordinary b ->
    is_finite (midpoint prec emax Hp He a b) = true /\ Rmin (B2R a) (B2R b) <= B2R (midpoint prec emax Hp He a b) <= Rmax (B2R a) (B2R b) /\
    (B2R a <= B2R b -> is_finite (center prec emax Hp He (Bounds _ _ a b)) = true /\ B2R a <= B2R (center prec emax Hp He (Bounds _ _ a b)) <= B2R b).
  Proof. intros a b A B. destruct (midpoint_ok prec emax Hp He H3 a b A B) as [X Y]. split; [exact X|]. split; [exact Y|]. intros L. apply (center_ok prec emax Hp He H3 (Bounds _ _ a b) A B L). Qed.

  (** * C168 *)
  (** the remainder is exact *)
  Theorem C168_remainder : forall x y : num, is_finite x = true -> is_finite y = true -> B2R y <> 0 ->
    exists n : Z, B2R (fmod prec emax Hp He x y) = B2R x - IZR n * B2R y /\ is_finite (fmod prec emax Hp He x y) = true /\ Rabs (B2R (fmod prec emax Hp He x y)) < Rabs (B2R y) /\ 0 <= B2R x * B2R (fmod prec emax Hp He x y).
  Proof. intros x y X Y N. destruct (fmod_ok prec emax Hp He H3 x y X Y N) as (n & A & B & C & _ & D & _). exists n. auto. Qed.
  (** a wrapped number is between the bounds, whatever the number, and differs from it by a whole number of ranges, up to rounding *)
  Theorem C168_wrap : forall v l h : num, ordinary v -> ordinary l -> ordinary h -> B2R l < B2R h -> let r := wrapped prec emax Hp He v l h in
    is_finite r = true /\ B2R l <= B2R r <= B2R h /\
    exists n : Z, Rabs (B2R r - (B2R v - IZR n * (B2R h - B2R l))) <= eps * (Rabs (B2R v - B2R l) + Rabs (IZR n) * (B2R h - B2R l) + Rmax (Rabs (B2R l)) (Rabs (B2R h))).
  Proof. intros v l h V L H O. apply (wrap_ok prec emax Hp He H3 v l h V L H O). Qed.

  (** * C169 *)
  Theorem C169_lerp : forall a b t : num, ordinary a -> ordinary b -> is_finite t = true -> 0 <= B2R t <= 1 -> let r := lerp prec emax Hp He a b t in
    is_finite r = true /\ (B2R t = 0 -> B2R r = B2R a) /\ (B2R a = B2R b -> B2R r = B2R a) /\
    Rabs (B2R r - (B2R a + B2R t * (B2R b - B2R a))) <= eps * (Rabs (B2R a) + 4 * Rabs (B2R b - B2R a)) + 2 * eta.
  Proof.
    intros a b t A B F T. cbv zeta. split; [apply (lerp_value prec emax Hp He H3 a b t A B F T)|]. split; [intros Z; apply (lerp_0 prec emax Hp He H3 a b t A B F Z)|]. split; [intros E; apply (lerp_same prec emax Hp He H3 a b t A B F T E)|apply (lerp_err prec emax Hp He H3 a b t A B F T)].
  Qed.
  Theorem C169_lerp_monotone : forall a b s t : num, ordinary a -> ordinary b -> is_finite s = true -> is_finite t = true -> 0 <= B2R s -> B2R s <= B2R t -> B2R t <= 1 ->
    (B2R a <= B2R b -> B2R (lerp prec emax Hp He a b s) <= B2R (lerp prec emax Hp He a b t)) /\ (B2R b <= B2R a -> B2R (lerp prec emax Hp He a b t) <= B2R (lerp prec emax Hp He a b s)).
  Proof. intros a b s t A B S T Z L O. apply (lerp_mono prec emax Hp He H3 a b s t A B S T Z L O). Qed.
  (** interpolation in a map: exact at every key, constant outside the keys *)
  Theorem C169_map_keys : forall (points : list (num * num)) p, curve points -> In p points -> exists v, lerp_map prec emax Hp He points (fst p) = Ok v /\ B2R v = B2R (snd p) /\ is_finite v = true.
  Proof. intros points p C I. apply (map_key prec emax Hp He H3 points p C I). Qed.
  Theorem C169_map_outside : forall (points : list (num * num)) first last rest before x, curve points -> points = first :: rest -> points = before ++ [last] -> ordinary x ->
    (B2R x < B2R (fst first) -> lerp_map prec emax Hp He points x = Ok (snd first)) /\ (B2R (fst last) <= B2R x -> lerp_map prec emax Hp He points x = Ok (snd last)).
  Proof.
    intros points f l r b x C E1 E2 X. split; intros O.
    - rewrite E1 in *. apply (map_first prec emax Hp He f r x); [destruct C as [F _]; inversion F; assumption|exact X|exact O].
    - rewrite E2 in *. apply (map_last prec emax Hp He b l x C X O).
  Qed.
  (** between neighbouring keys the value is on the line, up to rounding, and moves with x *)
  Theorem C169_map_line : forall (l : list (num * num)) p q r x, curve (l ++ p :: q :: r) -> ordinary x -> B2R (fst p) <= B2R x < B2R (fst q) ->
    exists v exact, lerp_map prec emax Hp He (l ++ p :: q :: r) x = Ok v /\ is_finite v = true /\ on_line p q (B2R x) exact /\
      Rabs (B2R v - exact) <= eps * (Rabs (B2R (snd p)) + 8 * Rabs (B2R (snd q) - B2R (snd p))) + eta * (2 + Rabs (B2R (snd q) - B2R (snd p))).
  Proof.
    intros l p q r x C X B. destruct (increasing_app _ _ _ _ _ _ C) as (P & Q & L & _). destruct (between_ok prec emax Hp He H3 p q x P Q X L ltac:(lra)) as (F & _ & E).
    eexists _, _. split; [apply (map_between prec emax Hp He l p q r x C X B)|]. split; [exact F|]. split; [|exact E]. unfold on_line. field. lra.
  Qed.
  Theorem C169_map_monotone : forall (l : list (num * num)) p q r x y v w, curve (l ++ p :: q :: r) -> ordinary x -> ordinary y -> B2R (fst p) <= B2R x -> B2R x <= B2R y -> B2R y < B2R (fst q) ->
    lerp_map prec emax Hp He (l ++ p :: q :: r) x = Ok v -> lerp_map prec emax Hp He (l ++ p :: q :: r) y = Ok w ->
    (B2R (snd p) <= B2R (snd q) -> B2R v <= B2R w) /\ (B2R (snd q) <= B2R (snd p) -> B2R w <= B2R v).
  Proof.
    intros l p q r x y v w C X Y A B D V W. destruct (increasing_app _ _ _ _ _ _ C) as (P & Q & L & _). rewrite (map_between prec emax Hp He l p q r x C X) in V by lra. rewrite (map_between prec emax Hp He l p q r y C Y) in W by lra. injection V as <-. injection W as <-.
    apply (between_mono prec emax Hp He H3 p q x y P Q X Y L); lra.
  Qed.
  (** piecewise linear functions: on the line between neighbours, exact at the first point and within rounding at the others *)
  Theorem C169_pieces_line : forall (l : list (num * num)) p q r x, curve (l ++ p :: q :: r) -> ordinary x -> B2R (fst p) < B2R x <= B2R (fst q) ->
    exists v exact, piecewise prec emax Hp He (l ++ p :: q :: r) x = Ok v /\ is_finite v = true /\ on_line p q (B2R x) exact /\
      Rabs (B2R v - exact) <= eps * (Rabs (B2R (snd p)) + 8 * Rabs (B2R (snd q) - B2R (snd p))) + eta * (2 + Rabs (B2R (snd q) - B2R (snd p))).
  Proof.
    intros l p q r x C X B. destruct (increasing_app _ _ _ _ _ _ C) as (P & Q & L & _). destruct (between_ok prec emax Hp He H3 p q x P Q X L ltac:(lra)) as (F & _ & E).
    eexists _, _. split; [apply (piecewise_between prec emax Hp He l p q r x C X B)|]. split; [exact F|]. split; [|exact E]. unfold on_line. field. lra.
  Qed.
  Theorem C169_pieces_points : forall (l : list (num * num)) p q r, curve (l ++ p :: q :: r) ->
    (exists v, piecewise prec emax Hp He (l ++ p :: q :: r) (fst q) = Ok v /\ Rabs (B2R v - B2R (snd q)) <= eps * (Rabs (B2R (snd p)) + 4 * Rabs (B2R (snd q) - B2R (snd p))) + 2 * eta) /\
    (l = [] -> exists v, piecewise prec emax Hp He (p :: q :: r) (fst p) = Ok v /\ B2R v = B2R (snd p)).
  Proof.
    intros l p q r C. destruct (increasing_app _ _ _ _ _ _ C) as (P & Q & L & _). split.
    - eexists. split; [apply (piecewise_between prec emax Hp He l p q r (fst q) C (proj1 Q)); lra|]. apply (between_end prec emax Hp He H3 p q (fst q) P Q (proj1 Q) L eq_refl).
    - intros ->. eexists. split; [apply (piecewise_first prec emax Hp He p q r (fst p) Q (proj1 P)); lra|]. apply (between_ok prec emax Hp He H3 p q (fst p) P Q (proj1 P) L); lra.
  Qed.

  (** * C170 *)
  Lemma sum_total (vs : list num) : sum vs = total prec emax vs.
  Proof. induction vs as [|v vs IH]; [reflexivity|]. unfold sum in *. cbn [map fold_right total]. rewrite IH. reflexivity. Qed.
  Lemma sum_weight (vs : list num) : sum_abs vs = DblProofs.weight prec emax vs.
  Proof. induction vs as [|v vs IH]; [reflexivity|]. unfold sum_abs in *. cbn [map fold_right DblProofs.weight]. rewrite IH. reflexivity. Qed.
  Theorem C170_mean : forall vs : list num, vs <> [] -> Forall (fun v => is_finite v = true) vs -> sum_abs vs <= bpow radix2 (emax - 3) -> (Z.of_nat (length vs) <= 2 ^ (prec - 1))%Z ->
    let m := average_get prec emax Hp He (average_of prec emax Hp He vs) in let n := INR (length vs) in
    is_finite m = true /\ Rabs (B2R m - sum vs / n) <= (2 * n + 2) * eps * (sum_abs vs / n) + eta.
  Proof. intros vs N F W L. rewrite sum_total, sum_weight in *. apply (average_mean prec emax Hp He H3 vs N F W L). Qed.
  Theorem C170_count : forall vs : list num, Forall (fun v => is_finite v = true) vs -> sum_abs vs <= bpow radix2 (emax - 3) -> (Z.of_nat (length vs) <= 2 ^ (prec - 1))%Z ->
    B2R (tot_w _ _ (average_of prec emax Hp He vs)) = INR (length vs).
  Proof. intros vs F W L. rewrite sum_weight in W. apply (average_sum prec emax Hp He H3 vs F W L). Qed.
  Theorem C170_none : B2R (average_get prec emax Hp He (average_of prec emax Hp He [])) = 0.
  Proof.
    unfold average_of, average_get, average_init. cbn [fold_left tot_w tot_v]. destruct (const_0 prec emax Hp He H3) as [Z F]. rewrite lt_finite by exact F. rewrite Rlt_bool_false by lra. exact Z.
  Qed.
End Any.

(** * double and float *)
Definition p53 : Prec_gt_0 53 := eq_refl.
Definition e1024 : Prec_lt_emax 53 1024 := eq_refl.
Definition p24 : Prec_gt_0 24 := eq_refl.
Definition e128 : Prec_lt_emax 24 128 := eq_refl.
Definition dbl (m e : Z) : binary_float 53 1024 := const 53 1024 p53 e1024 m e.
Definition flo (m e : Z) : binary_float 24 128 := const 24 128 p24 e128 m e.
Definition d0_1 := dbl 7205759403792794 (-56).
Definition d0_2 := dbl 7205759403792794 (-55).
(** the hypotheses are met: by computing, a number is ordinary when its exponent is small enough *)
Lemma ordinary_by_exponent prec emax (Hp : (3 <= prec)%Z) s m e (B : SpecFloat.bounded prec emax m e = true) : (e + prec <= emax - 3)%Z -> ordinary (B754_finite s m e B : binary_float prec emax).
Proof.
  intros H. split; [reflexivity|]. destruct (bounded_facts prec emax Hp m e B) as [_ M]. cbn [B2R]. rewrite <- F2R_Zabs, abs_cond_Zopp. apply Rle_trans with (bpow radix2 (prec + e)); [|apply bpow_le; lia]. unfold F2R. cbn [Fnum Fexp Z.abs].
  rewrite bpow_plus. apply Rmult_le_compat_r; [apply bpow_ge_0|]. rewrite <- IZR_Zpower by lia. apply IZR_le. change (radix2 ^ prec)%Z with (2 ^ prec)%Z. lia.
Qed.
Lemma ordinary_by_computing prec emax (a : binary_float prec emax) : (3 <= prec)%Z -> match B2SF a with SpecFloat.S754_finite _ _ e => (e + prec <=? emax - 3)%Z | SpecFloat.S754_zero _ => true | _ => false end = true -> ordinary a.
Proof.
  intros H. destruct a as [s|s| |s m e B]; cbn [B2SF]; intros E; try discriminate E; [split; [reflexivity|cbn [B2R]; rewrite Rabs_R0; apply bpow_ge_0]|]. apply ordinary_by_exponent; [exact H|apply Z.leb_le, E].
Qed.
Ltac ordinary := apply ordinary_by_computing; [discriminate|vm_compute; reflexivity].
(** the same number, with the same sign *)
Definition same {prec emax} (a b : binary_float prec emax) : Prop := B2SF a = B2SF b.
Lemma less_by_computing prec emax (a b : binary_float prec emax) : is_finite a = true -> is_finite b = true -> lt prec emax a b = true -> B2R a < B2R b.
Proof. intros A B L. rewrite lt_finite in L by assumption. destruct (Rlt_bool_spec (B2R a) (B2R b)); [assumption|discriminate]. Qed.
Ltac less := apply less_by_computing; vm_compute; reflexivity.

Definition unit_bounds : bounds 53 1024 := Bounds 53 1024 (dbl (-1) 0) d0_2.
Example C167_violation_ex : ordinary (dbl 3 0) /\ ordinary (lower _ _ unit_bounds) /\ ordinary (upper _ _ unit_bounds) /\ B2R (lower _ _ unit_bounds) < B2R (upper _ _ unit_bounds) /\ B2R (upper _ _ unit_bounds) < B2R (dbl 3 0).
Proof. cbn [lower upper unit_bounds]. split; [ordinary|]. split; [ordinary|]. split; [ordinary|]. split; less. Qed.
Example C167_clamp_ex : let inf : binary_float 53 1024 := B754_infinity false in same (clamped 53 1024 inf d0_1 d0_2) d0_2 /\ same (clamped 53 1024 (B754_infinity true) d0_1 d0_2) d0_1.
Proof. vm_compute. split; reflexivity. Qed.
Example C167_extend_ex : is_within 53 1024 (Bounds 53 1024 d0_1 d0_2) d0_1 = true /\ same (upper _ _ (extend 53 1024 (Bounds 53 1024 d0_1 d0_2) (dbl 3 0))) (dbl 3 0).
Proof. vm_compute. split; reflexivity. Qed.
(** NaN is left as it is by clamping, and check() takes it to be inside although is_within() does not *)
Theorem C167_nan_refuted : let nan : binary_float 53 1024 := B754_nan in
  same (clamped 53 1024 nan d0_1 d0_2) nan /\ is_within 53 1024 (Bounds 53 1024 d0_1 d0_2) nan = false /\ fst (check 53 1024 p53 e1024 (Bounds 53 1024 d0_1 d0_2) nan) = true.
Proof. vm_compute. repeat split; reflexivity. Qed.
(** the center of bounds both above half of the largest number is infinite, the midpoint of the same numbers is not *)
Definition large : binary_float 53 1024 := dbl 1 1023.
Theorem C167_center_refuted : same (center 53 1024 p53 e1024 (Bounds 53 1024 large large)) (B754_infinity false) /\ same (midpoint 53 1024 p53 e1024 large large) large.
Proof. vm_compute. split; reflexivity. Qed.

Example C168_wrap_ex : ordinary (dbl (-30) 0) /\ ordinary (dbl 0 0) /\ ordinary (dbl 360 0) /\ B2R (dbl 0 0) < B2R (dbl 360 0) /\ same (wrapped 53 1024 p53 e1024 (dbl (-30) 0) (dbl 0 0) (dbl 360 0)) (dbl 330 0).
Proof. split; [ordinary|]. split; [ordinary|]. split; [ordinary|]. split; [less|]. vm_compute. reflexivity. Qed.
Example C168_remainder_ex : same (fmod 53 1024 p53 e1024 (dbl (-1000) 0) d0_1) (dbl (-7205759403788794) (-56)) /\ B2R d0_1 <> 0.
Proof. split; [vm_compute; reflexivity|]. assert (L : B2R (dbl 0 0) < B2R d0_1) by less. unfold dbl at 1 in L. rewrite (proj1 (const_0 53 1024 p53 e1024 ltac:(discriminate))) in L. lra. Qed.
(** the upper bound itself is reached, by a number just below the lower bound *)
Theorem C168_upper_refuted : same (wrapped 53 1024 p53 e1024 (dbl (-1) (-100)) (dbl 0 0) (dbl 360 0)) (dbl 360 0).
Proof. vm_compute. reflexivity. Qed.

Definition three_points : list (binary_float 53 1024 * binary_float 53 1024) := [(dbl (-1) 0, dbl (-7205759403792794) (-55)); (dbl 1 0, d0_1); (dbl 2 0, d0_2)].
Example C169_curve_ex : curve three_points.
Proof.
  unfold three_points. split; [repeat (apply Forall_cons; [split; cbn [fst snd]; ordinary|]); apply Forall_nil|]. repeat (apply SSorted_cons || apply Forall_cons || apply SSorted_nil || apply Forall_nil); cbn [fst]; less.
Qed.
Example C169_lerp_ex : same (lerp 53 1024 p53 e1024 d0_1 d0_2 (dbl 1 (-1))) (dbl 5404319552844596 (-55)).
Proof. vm_compute. reflexivity. Qed.
(** at the end, from -0.2 to 0.1, the interpolated number is larger than 0.1; the piecewise linear function is therefore not 0.1 at its second point, and a map with increasing numbers gives a larger number just before the key than at the key *)
Definition just_below_1 : binary_float 53 1024 := dbl 9007199254740991 (-53).
Theorem C169_end_refuted : B2R d0_1 < B2R (lerp 53 1024 p53 e1024 (dbl (-7205759403792794) (-55)) d0_1 (dbl 1 0)).
Proof. less. Qed.
Theorem C169_points_refuted : exists v, piecewise 53 1024 p53 e1024 three_points (dbl 1 0) = Ok v /\ B2R d0_1 < B2R v.
Proof.
  assert (H : match piecewise 53 1024 p53 e1024 three_points (dbl 1 0) with Ok v => is_finite v && lt _ _ d0_1 v | _ => false end = true) by (vm_compute; reflexivity). destruct (piecewise _ _ _ _ three_points _) as [v| |]; try discriminate H. apply andb_true_iff in H.
  exists v. split; [reflexivity|]. apply less_by_computing; [vm_compute; reflexivity|apply H|apply H].
Qed.
Theorem C169_monotone_refuted : exists v w, lerp_map 53 1024 p53 e1024 three_points just_below_1 = Ok v /\ lerp_map 53 1024 p53 e1024 three_points (dbl 1 0) = Ok w /\ B2R just_below_1 < B2R (dbl 1 0) /\ B2R w < B2R v.
Proof.
  assert (H : match lerp_map 53 1024 p53 e1024 three_points just_below_1, lerp_map 53 1024 p53 e1024 three_points (dbl 1 0) with Ok v, Ok w => (is_finite v && is_finite w) && lt _ _ w v | _, _ => false end = true) by (vm_compute; reflexivity).
  destruct (lerp_map _ _ _ _ three_points just_below_1) as [v| |]; try discriminate H. destruct (lerp_map _ _ _ _ three_points (dbl 1 0)) as [w| |]; try discriminate H. apply andb_true_iff in H. destruct H as [F L]. apply andb_true_iff in F.
  exists v, w. split; [reflexivity|]. split; [reflexivity|]. split; [less|]. apply less_by_computing; [apply F|apply F|exact L].
Qed.
(** the same in single precision *)
Theorem C169_float_refuted : B2R (flo 13421773 (-27)) < B2R (lerp 24 128 p24 e128 (flo (-1) 0) (flo 13421773 (-27)) (flo 1 0)).
Proof. less. Qed.

Example C170_mean_ex : let vs := [dbl 1 0; dbl 2 0] in Forall (fun v => is_finite v = true) vs /\ sum_abs vs <= bpow radix2 (1024 - 3) /\ (Z.of_nat (length vs) <= 2 ^ (53 - 1))%Z /\ same (average_get 53 1024 p53 e1024 (average_of 53 1024 p53 e1024 vs)) (dbl 3 (-1)).
Proof.
  cbv zeta. split; [repeat constructor|]. split; [|split; [vm_compute; discriminate|vm_compute; reflexivity]]. unfold sum_abs, dbl. cbn [map fold_right]. rewrite (proj1 (const_1 53 1024 p53 e1024 ltac:(discriminate))), (proj1 (const_2 53 1024 p53 e1024 ltac:(discriminate))), !Rabs_pos_eq by lra.
  apply Rle_trans with (bpow radix2 2); [cbn; lra|apply bpow_le; discriminate].
Qed.
(** the average of ten equal numbers can be smaller than all of them *)
Theorem C170_between_refuted : B2R (average_get 53 1024 p53 e1024 (average_of 53 1024 p53 e1024 (repeat d0_1 10))) < B2R d0_1.
Proof. less. Qed.

Print Assumptions C167_clamp.
Print Assumptions C167_extend.
Print Assumptions C167_extend_least.
Print Assumptions C167_violation.
Print Assumptions C167_middle.
Print Assumptions C167_nan_refuted.
Print Assumptions C167_center_refuted.
Print Assumptions C168_remainder.
Print Assumptions C168_wrap.
Print Assumptions C168_upper_refuted.
Print Assumptions C169_lerp.
Print Assumptions C169_lerp_monotone.
Print Assumptions C169_map_keys.
Print Assumptions C169_map_outside.
Print Assumptions C169_map_line.
Print Assumptions C169_map_monotone.
Print Assumptions C169_pieces_line.
Print Assumptions C169_pieces_points.
Print Assumptions C169_end_refuted.
Print Assumptions C169_points_refuted.
Print Assumptions C169_monotone_refuted.
Print Assumptions C169_float_refuted.
Print Assumptions C170_mean.
Print Assumptions C170_count.
Print Assumptions C170_none.
Print Assumptions C170_between_refuted.
