(** Proofs about the colour model. *)
From Coq Require Import Ascii String List Arith Bool NArith ZArith Reals Lra Lia Permutation Sorted ZifyBool ZifyNat ZifyN.
From Flocq Require Import Core IEEE754.BinarySingleNaN.
From Verif Require Import Base BaseProofs Str StrSpec StrBase StrModel StrProofs CastModel CastProofs PnSpec PnModel PnProofs FlatSpec FlatModel FlatProofs NumSpec NumModel NumProofs IplProofs UtilProofs GpnSpec GpnModel GpnProofs ColSpec ColModel.
Import ListNotations.

(** ** bytes and binary32 *)
Lemma get_byte_div x s : get_byte x s = ((x / 2 ^ s) mod 256)%N.
Proof. unfold get_byte. rewrite N.shiftr_div_pow2. change 255%N with (N.ones 8). rewrite N.land_ones. reflexivity. Qed.

Lemma get_byte_lt x s : (get_byte x s < 256)%N.
Proof. rewrite get_byte_div. apply N.mod_lt. discriminate. Qed.

Lemma byte_back_all : forallb (fun b => match float_to_byte (f32_mul inv255 (f32_of_Z (Z.of_nat b))) with Ok n => (n =? N.of_nat b)%N | _ => false end) (seq 0 256) = true.
Proof. vm_compute. reflexivity. Qed.

Lemma byte_back b : (b < 256)%N -> float_to_byte (f32_mul inv255 (f32_of_Z (Z.of_N b))) = Ok b.
Proof.
  intros H. pose proof byte_back_all as A. rewrite forallb_forall in A.
  specialize (A (N.to_nat b)). rewrite N_nat_Z in A. rewrite N2Nat.id in A.
  assert (I : In (N.to_nat b) (seq 0 256)) by (apply in_seq; lia). apply A in I.
  destruct (float_to_byte _) as [n| |]; try discriminate. apply N.eqb_eq in I. congruence.
Qed.

Lemma lor_add a n b : (b < 2 ^ n)%N -> N.lor (N.shiftl a n) b = (a * 2 ^ n + b)%N.
Proof.
  intros H. rewrite <- N.shiftl_mul_pow2.
  assert (D : N.land (N.shiftl a n) b = 0%N).
  { apply N.bits_inj. intros i. rewrite N.land_spec, N.bits_0. destruct (N.lt_ge_cases i n) as [L|L].
    - rewrite N.shiftl_spec_low by exact L. reflexivity.
    - destruct (N.eq_dec b 0) as [->|Z]; [rewrite N.bits_0, andb_false_r; reflexivity|].
      rewrite (N.bits_above_log2 b i), andb_false_r; [reflexivity|]. apply N.log2_lt_pow2 in H; lia. }
  rewrite N.add_nocarry_lxor by exact D. symmetry. apply N.lxor_lor, D.
Qed.

Lemma hex_rgb_back x : (x < 2 ^ 24)%N -> hex_rgb_from_color (color_from_hex_rgb x) = Ok x.
Proof.
  intros H. unfold hex_rgb_from_color, color_from_hex_rgb, hex_channel. cbn [c_r c_g c_b].
  rewrite !byte_back by apply get_byte_lt. cbn [obind]. f_equal. unfold shl32. rewrite !get_byte_div.
  change (2 ^ 16)%N with 65536%N. change (2 ^ 8)%N with 256%N. change (2 ^ 0)%N with 1%N. change (2 ^ 24)%N with 16777216%N in H. change (2 ^ 32)%N with 4294967296%N.
  rewrite N.div_1_r.
  assert (R : (x / 65536 mod 256 = x / 65536)%N) by (apply N.mod_small; apply N.div_lt_upper_bound; lia).
  rewrite R.
  rewrite (N.mod_small (N.shiftl (x / 65536) 16)) by (rewrite N.shiftl_mul_pow2; change (2 ^ 16)%N with 65536%N; pose proof (N.mul_div_le x 65536); lia).
  rewrite (N.mod_small (N.shiftl _ 8)) by (rewrite N.shiftl_mul_pow2; change (2 ^ 8)%N with 256%N; pose proof (N.mod_lt (x / 256) 256); lia).
  rewrite <- N.lor_assoc. rewrite (lor_add (x / 256 mod 256) 8) by (change (2 ^ 8)%N with 256%N; apply N.mod_lt; lia).
  rewrite lor_add.
  - change (2 ^ 16)%N with (256 * 256)%N. change (2 ^ 8)%N with 256%N. change 65536%N with (256 * 256)%N. rewrite <- N.div_div by lia.
    pose proof (N.div_mod x 256). pose proof (N.div_mod (x / 256) 256). lia.
  - change (2 ^ 16)%N with 65536%N. change (2 ^ 8)%N with 256%N. pose proof (N.mod_lt (x / 256) 256). pose proof (N.mod_lt x 256). lia.
Qed.

Lemma hex_rgba_back x : (x < 2 ^ 32)%N -> hex_rgba_from_color (color_from_hex_rgba x) = Ok x.
Proof.
  intros H. unfold hex_rgba_from_color, color_from_hex_rgba, hex_channel. cbn [c_r c_g c_b c_a].
  rewrite !byte_back by apply get_byte_lt. cbn [obind]. f_equal. unfold shl32. rewrite !get_byte_div.
  change (2 ^ 24)%N with 16777216%N. change (2 ^ 16)%N with 65536%N. change (2 ^ 8)%N with 256%N. change (2 ^ 0)%N with 1%N. change (2 ^ 32)%N with 4294967296%N in *.
  rewrite N.div_1_r.
  assert (R : (x / 16777216 mod 256 = x / 16777216)%N) by (apply N.mod_small; apply N.div_lt_upper_bound; lia).
  rewrite R.
  rewrite (N.mod_small (N.shiftl (x / 16777216) 24)) by (rewrite N.shiftl_mul_pow2; change (2 ^ 24)%N with 16777216%N; pose proof (N.mul_div_le x 16777216); lia).
  rewrite (N.mod_small (N.shiftl _ 16)) by (rewrite N.shiftl_mul_pow2; change (2 ^ 16)%N with 65536%N; pose proof (N.mod_lt (x / 65536) 256); lia).
  rewrite (N.mod_small (N.shiftl _ 8)) by (rewrite N.shiftl_mul_pow2; change (2 ^ 8)%N with 256%N; pose proof (N.mod_lt (x / 256) 256); lia).
  rewrite <- !N.lor_assoc. rewrite (lor_add (x / 256 mod 256) 8) by (change (2 ^ 8)%N with 256%N; apply N.mod_lt; lia).
  change (2 ^ 8)%N with 256%N.
  pose proof (N.mod_lt (x / 256) 256 ltac:(lia)) as M1. pose proof (N.mod_lt x 256 ltac:(lia)) as M0. pose proof (N.mod_lt (x / 65536) 256 ltac:(lia)) as M2.
  rewrite (lor_add (x / 65536 mod 256) 16) by (change (2 ^ 16)%N with 65536%N; lia). change (2 ^ 16)%N with 65536%N.
  rewrite lor_add by (change (2 ^ 24)%N with 16777216%N; lia). change (2 ^ 24)%N with 16777216%N.
  pose proof (N.div_mod x 256 ltac:(lia)) as D0. pose proof (N.div_mod (x / 256) 256 ltac:(lia)) as D1. pose proof (N.div_mod (x / 65536) 256 ltac:(lia)) as D2.
  change 65536%N with (256 * 256)%N in D2. rewrite <- N.div_div in D2 by lia.
  change 16777216%N with (256 * (256 * 256))%N. change 65536%N with (256 * 256)%N. rewrite <- !N.div_div by lia. lia.
Qed.

Lemma rgb_channels x i : (i = 0 \/ i = 8 \/ i = 16 \/ i = 24)%N -> get_byte x i = byte_of x (i / 8).
Proof.
  intros H. rewrite get_byte_div. unfold byte_of. f_equal. f_equal. destruct H as [->|[->|[->| ->]]]; reflexivity.
Qed.

Definition v32 (x : f32) : R := B2R x.

Lemma of_Z_0 : B2R (f32_of_Z 0) = 0%R /\ is_finite (f32_of_Z 0) = true. Proof. split; [|reflexivity]. vm_compute. reflexivity. Qed.
Lemma of_Z_1 : B2R (f32_of_Z 1) = 1%R /\ is_finite (f32_of_Z 1) = true.
Proof.
  split; [|vm_compute; reflexivity].
  assert (E : B2SF (f32_of_Z 1) = SpecFloat.S754_finite false 8388608 (-23)) by (vm_compute; reflexivity).
  rewrite <- SF2R_B2SF, E. cbn. unfold F2R. cbn. lra.
Qed.
Lemma of_Z_255 : B2R (f32_of_Z 255) = 255%R /\ is_finite (f32_of_Z 255) = true.
Proof.
  split; [|vm_compute; reflexivity].
  assert (E : B2SF (f32_of_Z 255) = SpecFloat.S754_finite false 16711680 (-16)) by (vm_compute; reflexivity).
  rewrite <- SF2R_B2SF, E. cbn. unfold F2R. cbn. lra.
Qed.

Notation rnd32 := (round radix2 (SpecFloat.fexp 24 128) ZnearestE).
Lemma fexp_FLT : forall e, SpecFloat.fexp 24 128 e = FLT_exp (-149) 24 e. Proof. reflexivity. Qed.

Local Instance valid32 : Valid_exp (SpecFloat.fexp 24 128) := fexp_correct 24 128 prec32.
Local Instance mono32 : Monotone_exp (SpecFloat.fexp 24 128) := fexp_monotone 24 128.

Lemma mul_ok c : is_finite c = true -> (0 <= B2R c <= 1)%R ->
  let p := f32_mul c (f32_of_Z 255) in
  is_finite p = true /\ (0 <= B2R p <= 255)%R /\ (Rabs (B2R p - B2R c * 255) <= / 65536)%R.
Proof.
  intros F B p. unfold p, f32_mul. destruct of_Z_255 as [V Fv].
  pose proof (@Bmult_correct 24 128 prec32 emax32 mode_NE c (f32_of_Z 255)) as M.
  cbn [round_mode] in M. rewrite V in M.
  assert (G255 : generic_format radix2 (SpecFloat.fexp 24 128) 255).
  { rewrite <- V. apply generic_format_B2R. }
  assert (L0 : (0 <= rnd32 (B2R c * 255))%R).
  { rewrite <- (round_0 radix2 (SpecFloat.fexp 24 128) ZnearestE). apply round_le; [typeclasses eauto|typeclasses eauto|lra]. }
  assert (L1 : (rnd32 (B2R c * 255) <= 255)%R).
  { rewrite <- (round_generic radix2 (SpecFloat.fexp 24 128) ZnearestE 255 G255) at 2. apply round_le; [typeclasses eauto|typeclasses eauto|lra]. }
  rewrite Rlt_bool_true in M.
  2:{ rewrite Rabs_pos_eq by exact L0. eapply Rle_lt_trans; [exact L1|]. apply Rlt_trans with (bpow radix2 8); [cbn; lra|]. apply bpow_lt. lia. }
  destruct M as (E & Fp & _). rewrite F, Fv in Fp. split; [exact Fp|]. rewrite E. split; [lra|].
  eapply Rle_trans; [apply error_le_half_ulp; typeclasses eauto|].
  apply Rle_trans with (/ 2 * ulp radix2 (SpecFloat.fexp 24 128) (bpow radix2 8))%R.
  - apply Rmult_le_compat_l; [lra|]. apply ulp_le; [typeclasses eauto|typeclasses eauto|]. rewrite Rabs_pos_eq by lra. rewrite Rabs_pos_eq by apply bpow_ge_0. cbn. lra.
  - rewrite ulp_bpow. cbn. lra.
Qed.

Lemma round_cast_ok p : is_finite p = true -> (0 <= B2R p <= 255)%R ->
  exists b, round_cast_u32 p = Ok b /\ (b <= 255)%N /\ (Rabs (IZR (Z.of_N b) - B2R p) <= / 2)%R.
Proof.
  intros F B. unfold round_cast_u32, f32_round.
  destruct (@Bnearbyint_correct 24 128 emax32 mode_NA p) as (E & Fr & _).
  rewrite Fr, F. pose proof (@Btrunc_correct 24 128 emax32 (@Bnearbyint 24 128 emax32 mode_NA p)) as T.
  rewrite E in T. cbn [round_mode] in T. rewrite !round_FIX_IZR in T. apply eq_IZR in T. rewrite Ztrunc_IZR in T. rewrite T.
  assert (L0 : (0 <= ZnearestA (B2R p))%Z).
  { apply Z.le_trans with (ZnearestA (IZR 0)); [rewrite (Zrnd_IZR ZnearestA 0); lia|apply Zrnd_le; [typeclasses eauto|apply B]]. }
  assert (L1 : (ZnearestA (B2R p) <= 255)%Z).
  { apply Z.le_trans with (ZnearestA (IZR 255)); [apply Zrnd_le; [typeclasses eauto|apply B]|rewrite (Zrnd_IZR ZnearestA 255); lia]. }
  replace ((0 <=? ZnearestA (B2R p))%Z && (ZnearestA (B2R p) <? 2 ^ 32)%Z) with true by lia.
  eexists. split; [reflexivity|]. split; [lia|]. rewrite Z2N.id by exact L0. rewrite Rabs_minus_sym. apply Znearest_half.
Qed.

Lemma clamped_finite v : is_finite v = true ->
  is_finite (f32_clamped v (f32_of_Z 0) (f32_of_Z 1)) = true /\ B2R (f32_clamped v (f32_of_Z 0) (f32_of_Z 1)) = Rmax 0 (Rmin 1 (B2R v)).
Proof.
  intros F. destruct of_Z_0 as [V0 F0], of_Z_1 as [V1 F1]. unfold f32_clamped.
  rewrite !Bltb_correct by assumption. rewrite V0, V1.
  destruct (Rlt_bool_spec (B2R v) 0) as [L|L]; [split; [exact F0|]; rewrite V0; rewrite Rmin_right by lra; rewrite Rmax_left by lra; reflexivity|].
  destruct (Rlt_bool_spec 1 (B2R v)) as [L'|L']; [split; [exact F1|]; rewrite V1; rewrite Rmin_left by lra; rewrite Rmax_right by lra; reflexivity|].
  split; [exact F|]. rewrite Rmin_right by lra. rewrite Rmax_right by lra. reflexivity.
Qed.

Lemma clamp_unit x : (0 <= Rmax 0 (Rmin 1 x) <= 1)%R.
Proof. split; [apply Rmax_l|]. apply Rmax_lub; [lra|apply Rmin_l]. Qed.

Lemma float_to_byte_finite v : is_finite v = true ->
  exists b, float_to_byte v = Ok b /\ (b <= 255)%N /\ (Rabs (IZR (Z.of_N b) - 255 * Rmax 0 (Rmin 1 (B2R v))) <= / 2 + / 65536)%R.
Proof.
  intros F. unfold float_to_byte. destruct (clamped_finite v F) as [Fc Vc].
  destruct (mul_ok _ Fc) as (Fp & Bp & Ep); [rewrite Vc; apply clamp_unit|].
  destruct (round_cast_ok _ Fp Bp) as (b & Eb & Lb & Rb). exists b. split; [exact Eb|]. split; [exact Lb|].
  rewrite Vc in Ep. set (x := Rmax 0 (Rmin 1 (B2R v))) in *. set (p := B2R (f32_mul _ _)) in *.
  replace (IZR (Z.of_N b) - 255 * x)%R with ((IZR (Z.of_N b) - p) + (p - x * 255))%R by ring.
  eapply Rle_trans; [apply Rabs_triang|]. lra.
Qed.

Lemma float_to_byte_inf s : float_to_byte (B754_infinity s) = Ok (if s then 0 else 255)%N.
Proof. destruct s; vm_compute; reflexivity. Qed.
Lemma float_to_byte_nan : float_to_byte B754_nan = UB.
Proof. vm_compute. reflexivity. Qed.

(** ** comparison *)
Section Compare.
  Context {T : Type} (ok : T -> Prop) (ltb leb eqb : T -> T -> bool).
  Context (O : ordered ok ltb leb) (Eq : forall a b, ok a -> ok b -> eqb a b = negb (ltb a b) && negb (ltb b a)).
  Definition ok4 (c : rgba T) : Prop := ok (c_r c) /\ ok (c_g c) /\ ok (c_b c) /\ ok (c_a c).
  Notation lt4 := (lex_less (fun x y => ltb x y = true)).

  Lemma eqb_iff a b : ok a -> ok b -> eqb a b = true <-> ltb a b = false /\ ltb b a = false.
  Proof. intros A B. rewrite Eq by assumption. destruct (ltb a b), (ltb b a); cbn; intuition congruence. Qed.
  Lemma lt_asym a b : ok a -> ok b -> ltb a b = true -> ltb b a = false.
  Proof. intros A B H. destruct (ltb b a) eqn:E; [|reflexivity]. rewrite <- (or_irrefl _ _ _ O a A). symmetry. apply (or_trans _ _ _ O a b a); assumption. Qed.
  Lemma not_true b : b <> true <-> b = false. Proof. destruct b; intuition congruence. Qed.

  Lemma color_less_iff a b : ok4 a -> ok4 b -> color_less ltb eqb a b = true <-> lt4 a b.
  Proof.
    intros (A1 & A2 & A3 & A4) (B1 & B2 & B3 & B4). unfold color_less, lex_less. cbv zeta. rewrite !not_true.
    rewrite !Eq by assumption.
    destruct (ltb (c_r a) (c_r b)) eqn:R1, (ltb (c_r b) (c_r a)) eqn:R2; try (rewrite (lt_asym _ _ A1 B1 R1) in R2; discriminate R2);
      cbn [negb andb]; [intuition congruence|intuition congruence|].
    destruct (ltb (c_g a) (c_g b)) eqn:G1, (ltb (c_g b) (c_g a)) eqn:G2; try (rewrite (lt_asym _ _ A2 B2 G1) in G2; discriminate G2);
      cbn [negb andb]; [intuition congruence|intuition congruence|].
    destruct (ltb (c_b a) (c_b b)) eqn:L1, (ltb (c_b b) (c_b a)) eqn:L2; try (rewrite (lt_asym _ _ A3 B3 L1) in L2; discriminate L2);
      cbn [negb andb]; intuition congruence.
  Qed.
  Lemma color_eq_iff a b : ok4 a -> ok4 b -> color_eq eqb a b = true <-> color_less ltb eqb a b = false /\ color_less ltb eqb b a = false.
  Proof.
    intros (A1 & A2 & A3 & A4) (B1 & B2 & B3 & B4). unfold color_less, color_eq.
    rewrite !Eq by assumption.
    destruct (ltb (c_r a) (c_r b)) eqn:R1, (ltb (c_r b) (c_r a)) eqn:R2; try (rewrite (lt_asym _ _ A1 B1 R1) in R2; discriminate R2); cbn [negb andb]; try (intuition congruence).
    destruct (ltb (c_g a) (c_g b)) eqn:G1, (ltb (c_g b) (c_g a)) eqn:G2; try (rewrite (lt_asym _ _ A2 B2 G1) in G2; discriminate G2); cbn [negb andb]; try (intuition congruence).
    destruct (ltb (c_b a) (c_b b)) eqn:L1, (ltb (c_b b) (c_b a)) eqn:L2; try (rewrite (lt_asym _ _ A3 B3 L1) in L2; discriminate L2); cbn [negb andb]; try (intuition congruence).
    destruct (ltb (c_a a) (c_a b)) eqn:M1, (ltb (c_a b) (c_a a)) eqn:M2; cbn [negb andb]; intuition congruence.
  Qed.
  Definition eqv (x y : T) : Prop := ltb x y = false /\ ltb y x = false.
  Lemma eqv_l x y z : ok x -> ok y -> ok z -> eqv x y -> ltb x z = ltb y z.
  Proof.
    intros X Y Z [E1 E2]. destruct (ltb x z) eqn:F, (ltb y z) eqn:G; try reflexivity.
    - rewrite (or_negtrans _ _ _ O x y z X Y Z E1 G) in F. discriminate.
    - rewrite (or_negtrans _ _ _ O y x z Y X Z E2 F) in G. discriminate.
  Qed.
  Lemma eqv_r x y z : ok x -> ok y -> ok z -> eqv x y -> ltb z x = ltb z y.
  Proof.
    intros X Y Z [E1 E2]. destruct (ltb z x) eqn:F, (ltb z y) eqn:G; try reflexivity.
    - rewrite (or_negtrans _ _ _ O z y x Z Y X G E2) in F. discriminate.
    - rewrite (or_negtrans _ _ _ O z x y Z X Y F E1) in G. discriminate.
  Qed.
  Lemma trich x y : ok x -> ok y -> (ltb x y = true /\ ltb y x = false) \/ (ltb x y = false /\ ltb y x = true) \/ eqv x y.
  Proof.
    intros X Y. destruct (ltb x y) eqn:F, (ltb y x) eqn:G.
    - rewrite (lt_asym _ _ X Y F) in G. discriminate.
    - auto.
    - auto.
    - right. right. split; assumption.
  Qed.
  Lemma color_less_ordered : ordered ok4 (color_less ltb eqb) (fun a b => negb (color_less ltb eqb b a)).
  Proof.
    assert (I : forall a, ok4 a -> color_less ltb eqb a a = false).
    { intros a (A1 & A2 & A3 & A4). unfold color_less. rewrite !Eq by assumption. rewrite !(or_irrefl _ _ _ O) by assumption. reflexivity. }
    assert (S : forall x y z f g h : T, ok x -> ok y -> ok z -> True) by auto. clear S.
    (* one level of the comparison: [n] decides when the channels are equivalent *)
    assert (L : forall (x y z : T) (nxy nyz nxz nyx nzy nzx : bool), ok x -> ok y -> ok z ->
      let l u v n := if eqb u v then n else ltb u v in
      ((nxy = true -> nyz = true -> nxz = true) -> (l x y nxy = true -> l y z nyz = true -> l x z nxz = true)) /\
      ((nxy = false -> nyz = false -> nxz = false) -> (l x y nxy = false -> l y z nyz = false -> l x z nxz = false))).
    { intros x y z nxy nyz nxz _ _ _ X Y Z l. unfold l. rewrite !Eq by assumption.
      destruct (trich x y X Y) as [[P1 P2]|[[P1 P2]|P]], (trich y z Y Z) as [[Q1 Q2]|[[Q1 Q2]|Q]].
      all: try (rewrite (eqv_l _ _ z X Y Z P), (eqv_r _ _ z X Y Z P) in * ); try (rewrite <- (eqv_l _ _ x Y Z X Q), <- (eqv_r _ _ x Y Z X Q) in * ).
      all: try destruct P as [P1 P2]; try destruct Q as [Q1 Q2].
      all: rewrite ?P1, ?P2, ?Q1, ?Q2; cbn [negb andb].
      all: try (split; intros; congruence).
      - assert (E : ltb x z = true) by (apply (or_trans _ _ _ O x y z); assumption). pose proof (lt_asym _ _ X Z E) as E2. rewrite E, E2. cbn. split; intros; congruence.
      - assert (E : ltb z x = true) by (apply (or_trans _ _ _ O z y x); assumption). pose proof (lt_asym _ _ Z X E) as E2. rewrite E, E2. cbn. split; intros; congruence.
      - split; intros; auto. }
    split.
    - exact I.
    - intros a b c (A1 & A2 & A3 & A4) (B1 & B2 & B3 & B4) (C1 & C2 & C3 & C4). unfold color_less.
      apply (L _ _ _ _ _ _ false false false A1 B1 C1). apply (L _ _ _ _ _ _ false false false A2 B2 C2). apply (L _ _ _ _ _ _ false false false A3 B3 C3).
      apply (or_trans _ _ _ O); assumption.
    - intros a b c (A1 & A2 & A3 & A4) (B1 & B2 & B3 & B4) (C1 & C2 & C3 & C4). unfold color_less.
      apply (L _ _ _ _ _ _ false false false A1 B1 C1). apply (L _ _ _ _ _ _ false false false A2 B2 C2). apply (L _ _ _ _ _ _ false false false A3 B3 C3).
      apply (or_negtrans _ _ _ O); assumption.
    - reflexivity.
  Qed.
  Lemma clamp_channel_ok l u v : ok l -> ok u -> ok v -> leb l u = true ->
    leb l (clamp_channel ltb l u v) = true /\ leb (clamp_channel ltb l u v) u = true /\ (leb l v = true -> leb v u = true -> clamp_channel ltb l u v = v).
  Proof.
    intros Ol Ou Ov Hlu. unfold clamp_channel. rewrite (or_le _ _ _ O l v Ol Ov), (or_le _ _ _ O v u Ov Ou).
    destruct (ltb v l) eqn:E1; cbn [negb].
    - split; [rewrite (or_le _ _ _ O) by assumption; rewrite (or_irrefl _ _ _ O) by assumption; reflexivity|]. split; [exact Hlu|discriminate].
    - destruct (ltb u v) eqn:E2; cbn [negb].
      + split; [exact Hlu|]. split; [rewrite (or_le _ _ _ O) by assumption; rewrite (or_irrefl _ _ _ O) by assumption; reflexivity|discriminate].
      + rewrite !(or_le _ _ _ O) by assumption. rewrite E1, E2. auto.
  Qed.
End Compare.

(** ** hue, saturation, value *)
Local Open Scope R_scope.
Lemma Rleb_iff a b : Rleb a b = true <-> a <= b.
Proof. unfold Rleb. destruct (Rle_dec a b); split; intros; try congruence; lra. Qed.
Lemma in_sector a h b : Rleb a h && Rltb h b = true <-> a <= h < b.
Proof. rewrite andb_true_iff, Rleb_iff, Rltb_iff. tauto. Qed.
Lemma not_in_sector a h b : Rleb a h && Rltb h b = false <-> ~ (a <= h < b).
Proof. rewrite <- in_sector. symmetry. apply not_true. Qed.

Definition sector (h x y z : R) : Prop :=
  (0 <= h < 1 /\ x = 0 /\ y = 1 - h /\ z = 1) \/ (1 <= h < 2 /\ x = h - 1 /\ y = 0 /\ z = 1) \/ (2 <= h < 3 /\ x = 1 /\ y = 0 /\ z = 3 - h) \/
  (3 <= h < 4 /\ x = 1 /\ y = h - 3 /\ z = 0) \/ (4 <= h < 5 /\ x = 5 - h /\ y = 1 /\ z = 0) \/ (5 <= h < 6 /\ x = 0 /\ y = 1 /\ z = h - 5).

Lemma C4_eq (a b : rgba R) : c_r a = c_r b -> c_g a = c_g b -> c_b a = c_b b -> c_a a = c_a b -> a = b.
Proof. destruct a, b. cbn. intros -> -> -> ->. reflexivity. Qed.

Lemma hsv_form H : 0 <= H -> exists h x y z, h = fmod H 360 / 60 /\ 0 <= h < 6 /\ sector h x y z /\
  forall S V, color_from_hsv H S V = C4 (V * (1 - S * x)) (V * (1 - S * y)) (V * (1 - S * z)) 1.
Proof.
  intros HH. destruct (fmod_nonneg H 360 ltac:(lra) HH) as (B & _).
  unfold color_from_hsv. cbv zeta. set (h := fmod H 360 / 60). assert (Bh : 0 <= h < 6) by (unfold h; lra).
  clearbody h. exists h.
  destruct (Rleb 0 h && Rltb h 1) eqn:S0; [apply in_sector in S0|apply not_in_sector in S0].
  { exists 0, (1 - h), 1. split; [reflexivity|]. split; [exact Bh|]. split; [left; tauto|]. intros S V. rewrite (floor_unique h 0) by lra. unfold color_f. apply C4_eq; cbn; ring. }
  destruct (Rleb 1 h && Rltb h 2) eqn:S1; [apply in_sector in S1|apply not_in_sector in S1].
  { exists (h - 1), 0, 1. split; [reflexivity|]. split; [exact Bh|]. split; [unfold sector; tauto|]. intros S V. rewrite (floor_unique h 1) by lra. unfold color_f. apply C4_eq; cbn; ring. }
  destruct (Rleb 2 h && Rltb h 3) eqn:S2; [apply in_sector in S2|apply not_in_sector in S2].
  { exists 1, 0, (3 - h). split; [reflexivity|]. split; [exact Bh|]. split; [unfold sector; tauto|]. intros S V. rewrite (floor_unique h 2) by lra. unfold color_f. apply C4_eq; cbn; ring. }
  destruct (Rleb 3 h && Rltb h 4) eqn:S3; [apply in_sector in S3|apply not_in_sector in S3].
  { exists 1, (h - 3), 0. split; [reflexivity|]. split; [exact Bh|]. split; [unfold sector; tauto|]. intros S V. rewrite (floor_unique h 3) by lra. unfold color_f. apply C4_eq; cbn; ring. }
  destruct (Rleb 4 h && Rltb h 5) eqn:S4; [apply in_sector in S4|apply not_in_sector in S4].
  { exists (5 - h), 1, 0. split; [reflexivity|]. split; [exact Bh|]. split; [unfold sector; tauto|]. intros S V. rewrite (floor_unique h 4) by lra. unfold color_f. apply C4_eq; cbn; ring. }
  destruct (Rleb 5 h && Rltb h 6) eqn:S5; [apply in_sector in S5|apply not_in_sector in S5; lra].
  exists 0, 1, (h - 5). split; [reflexivity|]. split; [exact Bh|]. split; [unfold sector; tauto|]. intros S V. rewrite (floor_unique h 5) by lra. unfold color_f. apply C4_eq; cbn; ring.
Qed.

Definition wave (k : R) : R := Rmax 0 (Rmin 1 (Rmin k (4 - k))).
Lemma wave_low k : k <= 0 -> wave k = 0.
Proof. intros H. unfold wave. apply Rmax_left. eapply Rle_trans; [apply Rmin_r|]. eapply Rle_trans; [apply Rmin_l|exact H]. Qed.
Lemma wave_up k : 0 <= k <= 1 -> wave k = k.
Proof. intros H. unfold wave. rewrite (Rmin_left k) by lra. rewrite Rmin_right by lra. rewrite Rmax_right by lra. reflexivity. Qed.
Lemma wave_flat k : 1 <= k <= 3 -> wave k = 1.
Proof. intros H. unfold wave. rewrite (Rmin_left 1) by (apply Rmin_glb; lra). rewrite Rmax_right by lra. reflexivity. Qed.
Lemma wave_down k : 3 <= k <= 4 -> wave k = 4 - k.
Proof. intros H. unfold wave. rewrite (Rmin_right k) by lra. rewrite Rmin_right by lra. rewrite Rmax_right by lra. reflexivity. Qed.
Lemma wave_off k : 4 <= k -> wave k = 0.
Proof. intros H. unfold wave. apply Rmax_left. eapply Rle_trans; [apply Rmin_r|]. eapply Rle_trans; [apply Rmin_r|lra]. Qed.
Lemma channel_intro n H S V x k w : 0 <= k < 6 -> (exists z, k = n + H / 60 + 6 * IZR z) -> wave k = w -> x = V * (1 - S * w) -> hsv_channel n H S V x.
Proof. intros B Z W E. exists k. split; [exact B|]. split; [exact Z|]. fold (wave k). rewrite W, E. ring. Qed.

Lemma hsv_channels H S V : 0 <= H -> is_hsv (color_from_hsv H S V) H S V.
Proof.
  intros HH. destruct (hsv_form H HH) as (h & x & y & z & Eh & Bh & Sec & F). rewrite F. unfold is_hsv. cbn [c_r c_g c_b c_a].
  destruct (fmod_nonneg H 360 ltac:(lra) HH) as (_ & (zz & Ez)).
  assert (P : h = H / 60 + 6 * IZR zz) by (rewrite Eh, Ez; field).
  assert (Q : forall n d : Z, exists z', h + IZR n + 6 * IZR d = IZR n + H / 60 + 6 * IZR z').
  { intros n d. exists (zz + d)%Z. rewrite plus_IZR. lra. }
  assert (M1 : exists z', h - 1 = 5 + H / 60 + 6 * IZR z') by (destruct (Q 5%Z (-1)%Z) as (z' & E); exists z'; lra).
  assert (M2 : exists z', h + 5 = 5 + H / 60 + 6 * IZR z') by (destruct (Q 5%Z 0%Z) as (z' & E); exists z'; lra).
  assert (M3 : exists z', h + 3 = 3 + H / 60 + 6 * IZR z') by (destruct (Q 3%Z 0%Z) as (z' & E); exists z'; lra).
  assert (M4 : exists z', h - 3 = 3 + H / 60 + 6 * IZR z') by (destruct (Q 3%Z (-1)%Z) as (z' & E); exists z'; lra).
  assert (M5 : exists z', h + 1 = 1 + H / 60 + 6 * IZR z') by (destruct (Q 1%Z 0%Z) as (z' & E); exists z'; lra).
  assert (M6 : exists z', h - 5 = 1 + H / 60 + 6 * IZR z') by (destruct (Q 1%Z (-1)%Z) as (z' & E); exists z'; lra).
  assert (E1 : hsv_channel 5 H S V (V * (1 - S * x))).
  { unfold sector in Sec. destruct (Rlt_dec h 1).
    - apply (channel_intro _ _ _ _ _ (h + 5) 0); [lra|exact M2|apply wave_off; lra|]. replace x with 0 by lra. ring.
    - apply (channel_intro _ _ _ _ _ (h - 1) x); [lra|exact M1| |ring].
      destruct Sec as [?|[?|[?|[?|[?|?]]]]]; [lra|rewrite wave_up; lra|rewrite wave_flat; lra|rewrite wave_flat; lra|rewrite wave_down; lra|rewrite wave_off; lra]. }
  assert (E2 : hsv_channel 3 H S V (V * (1 - S * y))).
  { unfold sector in Sec. destruct (Rlt_dec h 3).
    - apply (channel_intro _ _ _ _ _ (h + 3) y); [lra|exact M3| |ring].
      destruct Sec as [?|[?|[?|[?|[?|?]]]]]; try lra; [rewrite wave_down; lra|rewrite wave_off; lra|rewrite wave_off; lra].
    - apply (channel_intro _ _ _ _ _ (h - 3) y); [lra|exact M4| |ring].
      destruct Sec as [?|[?|[?|[?|[?|?]]]]]; try lra; [rewrite wave_up; lra|rewrite wave_flat; lra|rewrite wave_flat; lra]. }
  assert (E3 : hsv_channel 1 H S V (V * (1 - S * z))).
  { unfold sector in Sec. destruct (Rlt_dec h 5).
    - apply (channel_intro _ _ _ _ _ (h + 1) z); [lra|exact M5| |ring].
      destruct Sec as [?|[?|[?|[?|[?|?]]]]]; try lra; [rewrite wave_flat; lra|rewrite wave_flat; lra|rewrite wave_down; lra|rewrite wave_off; lra|rewrite wave_off; lra].
    - apply (channel_intro _ _ _ _ _ (h - 5) z); [lra|exact M6| |ring].
      destruct Sec as [?|[?|[?|[?|[?|?]]]]]; try lra. rewrite wave_up; lra. }
  tauto.
Qed.

Lemma sector_unit h x y z : sector h x y z -> (0 <= x <= 1 /\ 0 <= y <= 1 /\ 0 <= z <= 1) /\ (x = 0 \/ y = 0 \/ z = 0) /\ (x = 1 \/ y = 1 \/ z = 1).
Proof. unfold sector. intros [?|[?|[?|[?|[?|?]]]]]; (split; [lra|]); split; tauto || lra. Qed.
Lemma sector_inj h h' x y z : sector h x y z -> sector h' x y z -> h = h'.
Proof. unfold sector. intros [?|[?|[?|[?|[?|?]]]]] [?|[?|[?|[?|[?|?]]]]]; lra. Qed.

Lemma channel_range S V w : 0 <= S <= 1 -> 0 <= V -> 0 <= w <= 1 -> V * (1 - S) <= V * (1 - S * w) <= V.
Proof.
  intros HS HV Hw.
  assert (B : 0 <= S * w <= S) by (split; [apply Rmult_le_pos; lra|]; rewrite <- (Rmult_1_r S) at 2; apply Rmult_le_compat_l; lra).
  split; [apply Rmult_le_compat_l; lra|]. rewrite <- (Rmult_1_r V) at 2. apply Rmult_le_compat_l; lra.
Qed.
Lemma hsv_extremes H S V : 0 <= H -> 0 <= S <= 1 -> 0 <= V ->
  largest_channel (color_from_hsv H S V) = V /\ smallest_channel (color_from_hsv H S V) = V * (1 - S).
Proof.
  intros HH HS HV. destruct (hsv_form H HH) as (h & x & y & z & Eh & Bh & Sec & F). rewrite F.
  destruct (sector_unit _ _ _ _ Sec) as ((Bx & By & Bz) & Z0 & Z1). unfold largest_channel, smallest_channel. cbn [c_r c_g c_b].
  pose proof (channel_range S V x HS HV Bx) as Rx. pose proof (channel_range S V y HS HV By) as Ry. pose proof (channel_range S V z HS HV Bz) as Rz.
  assert (A0 : forall w, w = 0 -> V * (1 - S * w) = V) by (intros w ->; ring).
  assert (A1 : forall w, w = 1 -> V * (1 - S * w) = V * (1 - S)) by (intros w ->; ring).
  split.
  - apply Rle_antisym; [repeat apply Rmax_lub; lra|]. destruct Z0 as [Z|[Z|Z]]; apply A0 in Z; rewrite <- Z at 1.
    + apply Rmax_l.
    + eapply Rle_trans; [apply Rmax_l|apply Rmax_r].
    + eapply Rle_trans; [apply Rmax_r|apply Rmax_r].
  - apply Rle_antisym; [|repeat apply Rmin_glb; lra]. destruct Z1 as [Z|[Z|Z]]; apply A1 in Z; rewrite <- Z.
    + apply Rmin_l.
    + eapply Rle_trans; [apply Rmin_r|apply Rmin_l].
    + eapply Rle_trans; [apply Rmin_r|apply Rmin_r].
Qed.
Lemma hsv_unit H S V : 0 <= H -> 0 <= S <= 1 -> 0 <= V <= 1 -> unit_channels (color_from_hsv H S V).
Proof.
  intros HH HS HV. destruct (hsv_form H HH) as (h & x & y & z & Eh & Bh & Sec & F). rewrite F.
  destruct (sector_unit _ _ _ _ Sec) as ((Bx & By & Bz) & _). unfold unit_channels. cbn [c_r c_g c_b c_a].
  assert (P : 0 <= V * (1 - S)) by (apply Rmult_le_pos; lra). assert (HV' : 0 <= V) by lra.
  pose proof (channel_range S V x HS HV' Bx). pose proof (channel_range S V y HS HV' By). pose proof (channel_range S V z HS HV' Bz). lra.
Qed.
Lemma hsv_negative H S V : H < 0 -> (~ exists k : Z, H = IZR k * 360) -> color_from_hsv H S V = C4 0 0 0 0.
Proof.
  intros HH Hn. destruct (fmod_neg H 360 ltac:(lra) HH) as (B & _).
  assert (N : fmod H 360 <> 0) by (intros E; apply Hn; apply (fmod_neg_zero H 360); [lra|exact HH|exact E]).
  unfold color_from_hsv. cbv zeta. set (h := fmod H 360 / 60). assert (Bh : h < 0) by (unfold h; lra). clearbody h.
  assert (X : forall a b, 0 <= a -> Rleb a h && Rltb h b = false) by (intros a b Ha; apply not_in_sector; lra).
  rewrite !X by lra. reflexivity.
Qed.
Lemma hsv_periodic H S V (k : nat) : 0 <= H -> color_from_hsv (H + INR k * 360) S V = color_from_hsv H S V.
Proof.
  intros HH. unfold color_from_hsv. cbv zeta.
  replace (fmod (H + INR k * 360) 360) with (fmod H 360); [reflexivity|].
  unfold fmod, trunc_R. pose proof (pos_INR k) as P.
  assert (Q : 0 <= H / 360) by lra. replace ((H + INR k * 360) / 360) with (H / 360 + IZR (Z.of_nat k)) by (rewrite <- INR_IZR_INZ; field).
  rewrite INR_IZR_INZ in *. destruct (Rlt_dec (H / 360) 0); [lra|]. destruct (Rlt_dec (H / 360 + IZR (Z.of_nat k)) 0); [lra|]. rewrite floor_add. ring.
Qed.
Lemma hsv_determines H1 S1 V1 H2 S2 V2 : 0 <= H1 < 360 -> 0 <= H2 < 360 -> 0 < S1 <= 1 -> 0 < S2 <= 1 -> 0 < V1 -> 0 < V2 ->
  color_from_hsv H1 S1 V1 = color_from_hsv H2 S2 V2 -> H1 = H2 /\ S1 = S2 /\ V1 = V2.
Proof.
  intros B1 B2 HS1 HS2 HV1 HV2 E.
  destruct (hsv_extremes H1 S1 V1 ltac:(lra) ltac:(lra) ltac:(lra)) as [L1 M1].
  destruct (hsv_extremes H2 S2 V2 ltac:(lra) ltac:(lra) ltac:(lra)) as [L2 M2]. rewrite E in L1, M1.
  assert (EV : V1 = V2) by lra. subst V2. rewrite M2 in M1. assert (ES : S1 = S2) by (apply (Rmult_eq_reg_l V1) in M1; lra). subst S2.
  split; [|tauto].
  assert (F : forall H, 0 <= H < 360 -> fmod H 360 = H).
  { intros H B. unfold fmod, trunc_R. destruct (Rlt_dec (H / 360) 0); [lra|]. rewrite (floor_unique _ 0) by lra. ring. }
  destruct (hsv_form H1 ltac:(lra)) as (h1 & x1 & y1 & z1 & Eh1 & _ & Sec1 & F1). destruct (hsv_form H2 ltac:(lra)) as (h2 & x2 & y2 & z2 & Eh2 & _ & Sec2 & F2).
  rewrite F in Eh1, Eh2 by assumption. rewrite F1, F2 in E. injection E as X Y Z.
  assert (Inj : forall a b, V1 * (1 - S1 * a) = V1 * (1 - S1 * b) -> a = b).
  { intros a b G. apply (Rmult_eq_reg_l V1) in G; [|lra]. apply (Rmult_eq_reg_l S1); lra. }
  apply Inj in X, Y, Z. subst x2 y2 z2. pose proof (sector_inj _ _ _ _ _ Sec1 Sec2). lra.
Qed.

(** ** brightness and distinct colours *)
Lemma brightness_iff c y : perceived_brightness c = y <-> is_brightness c y.
Proof.
  unfold perceived_brightness, is_brightness.
  set (r := c_r c). set (g := c_g c). set (b := c_b c).
  assert (E : 0.299 * r * r + 0.587 * g * g + 0.114 * b * b = 299 / 1000 * (r * r) + 587 / 1000 * (g * g) + 114 / 1000 * (b * b)).
  { replace 0.299 with (299 / 1000) by lra. replace 0.587 with (587 / 1000) by lra. replace 0.114 with (114 / 1000) by lra. ring. }
  rewrite E. assert (P : 0 <= 299 / 1000 * (r * r) + 587 / 1000 * (g * g) + 114 / 1000 * (b * b)).
  { pose proof (Rle_0_sqr r). pose proof (Rle_0_sqr g). pose proof (Rle_0_sqr b). unfold Rsqr in *. lra. }
  split.
  - intros <-. split; [apply sqrt_pos|]. apply sqrt_sqrt, P.
  - intros [Hy Hs]. rewrite <- Hs. apply sqrt_square, Hy.
Qed.
Lemma brightness_scale H S V : 0 <= H -> 0 <= V -> perceived_brightness (color_from_hsv H S V) = V * perceived_brightness (color_from_hsv H S 1).
Proof.
  intros HH HV. apply brightness_iff.
  pose proof (proj1 (brightness_iff (color_from_hsv H S 1) _) eq_refl) as [P Q]. set (p := perceived_brightness _) in *. clearbody p.
  destruct (hsv_form H HH) as (h & x & y & z & _ & _ & _ & F). rewrite F in *. unfold is_brightness. cbn [c_r c_g c_b] in *.
  split; [apply Rmult_le_pos; assumption|]. replace (V * p * (V * p)) with (V * V * (p * p)) by ring. rewrite Q. ring.
Qed.
Lemma brightness_full H S : 0 <= H -> 0 <= S <= 1 -> 0 < perceived_brightness (color_from_hsv H S 1) <= 1.
Proof.
  intros HH HS. pose proof (proj1 (brightness_iff (color_from_hsv H S 1) _) eq_refl) as [P Q]. set (p := perceived_brightness _) in *. clearbody p.
  destruct (hsv_unit H S 1 HH HS ltac:(lra)) as (U1 & U2 & U3 & _).
  destruct (hsv_form H HH) as (h & x & y & z & _ & _ & Sec & F). rewrite F in *. cbn [c_r c_g c_b] in *.
  destruct (sector_unit _ _ _ _ Sec) as (_ & Z0 & _).
  set (a := 1 * (1 - S * x)) in *. set (b := 1 * (1 - S * y)) in *. set (d := 1 * (1 - S * z)) in *.
  assert (O : a = 1 \/ b = 1 \/ d = 1) by (unfold a, b, d; destruct Z0 as [->|[->| ->]]; [left|right; left|right; right]; ring).
  assert (Sq : forall t, 0 <= t <= 1 -> 0 <= t * t <= 1) by (intros t Ht; split; [apply Rmult_le_pos; lra|]; replace 1 with (1 * 1) by ring; apply Rmult_le_compat; lra).
  pose proof (Sq a U1). pose proof (Sq b U2). pose proof (Sq d U3).
  assert (One : a * a = 1 \/ b * b = 1 \/ d * d = 1) by (destruct O as [->|[->| ->]]; [left|right; left|right; right]; ring).
  clearbody a b d. split.
  - destruct (Req_dec p 0) as [->|N]; [|lra]. rewrite Rmult_0_l in Q. lra.
  - apply Rnot_lt_le. intros C. assert (1 < p * p) by (rewrite <- (Rmult_1_l 1); apply Rmult_le_0_lt_compat; lra). lra.
Qed.
Lemma brightness_white v : 0 <= v -> perceived_brightness (color_white v) = v.
Proof. intros H. apply brightness_iff. split; [exact H|]. cbn. field. Qed.
Lemma brightness_unit c : unit_channels c -> 0 <= perceived_brightness c <= 1.
Proof.
  intros (U1 & U2 & U3 & _). pose proof (proj1 (brightness_iff c _) eq_refl) as [P Q]. set (p := perceived_brightness _) in *. clearbody p.
  assert (Sq : forall t, 0 <= t <= 1 -> 0 <= t * t <= 1) by (intros t Ht; split; [apply Rmult_le_pos; lra|]; replace 1 with (1 * 1) by ring; apply Rmult_le_compat; lra).
  pose proof (Sq _ U1). pose proof (Sq _ U2). pose proof (Sq _ U3). split; [exact P|].
  apply Rnot_lt_le. intros C. assert (1 < p * p) by (rewrite <- (Rmult_1_l 1); apply Rmult_le_0_lt_compat; lra). lra.
Qed.

Definition hue_of (i : nat) : R := nth (i mod 12) standard_hue 0.
Definition sat_of (i : nat) : R := 1 / (1 + INR (i / 12)).
Lemma hue_get i : vec_get standard_hue (i mod length standard_hue) = Ok (hue_of i).
Proof.
  change (length standard_hue) with 12%nat. unfold hue_of. pose proof (Nat.mod_upper_bound i 12 ltac:(lia)) as B. set (k := (i mod 12)%nat) in *. clearbody k.
  do 12 (destruct k as [|k]; [reflexivity|]). lia.
Qed.
Lemma hue_range i : 0 <= hue_of i < 360.
Proof.
  unfold hue_of. pose proof (Nat.mod_upper_bound i 12 ltac:(lia)) as B. set (k := (i mod 12)%nat) in *. clearbody k.
  do 12 (destruct k as [|k]; [cbn; lra|]). lia.
Qed.
Lemma hue_inj i j : hue_of i = hue_of j -> (i mod 12 = j mod 12)%nat.
Proof.
  unfold hue_of. pose proof (Nat.mod_upper_bound i 12 ltac:(lia)) as B. set (k := (i mod 12)%nat) in *. clearbody k.
  pose proof (Nat.mod_upper_bound j 12 ltac:(lia)) as B'. set (l := (j mod 12)%nat) in *. clearbody l.
  do 12 (destruct k as [|k]; [do 12 (destruct l as [|l]; [cbn; intros; try reflexivity; exfalso; lra|]); lia|]). lia.
Qed.
Lemma sat_range i : 0 < sat_of i <= 1.
Proof.
  unfold sat_of. pose proof (pos_INR (i / 12)) as P. split; [apply Rdiv_lt_0_compat; lra|].
  apply (Rmult_le_reg_r (1 + INR (i / 12))); [lra|]. replace (1 / (1 + INR (i / 12)) * (1 + INR (i / 12))) with 1 by (field; lra). lra.
Qed.
Lemma sat_inj i j : sat_of i = sat_of j -> (i / 12 = j / 12)%nat.
Proof.
  unfold sat_of. pose proof (pos_INR (i / 12)) as P. pose proof (pos_INR (j / 12)) as Q. intros E. apply INR_eq.
  assert (F : 1 + INR (i / 12) = 1 + INR (j / 12)) by (rewrite <- (Rinv_inv (1 + INR (i / 12))), <- (Rinv_inv (1 + INR (j / 12))); f_equal; unfold Rdiv in E; lra). lra.
Qed.
Definition val_of (i : nat) (b : R) : R := clamp_channel Rltb b 1 (b / perceived_brightness (color_from_hsv (hue_of i) (sat_of i) 1)).
Lemma unique_color_form i b : make_unique_color i b = Ok (color_from_hsv (hue_of i) (sat_of i) (val_of i b)).
Proof. unfold make_unique_color. rewrite hue_get. reflexivity. Qed.
Lemma val_ok i b : 0 < b <= 1 -> let p := perceived_brightness (color_from_hsv (hue_of i) (sat_of i) 1) in
  b <= val_of i b <= 1 /\ val_of i b * p <= b /\ (val_of i b * p = b \/ val_of i b = 1).
Proof.
  intros Hb p. unfold val_of. fold p. pose proof (hue_range i). pose proof (sat_range i).
  assert (P : 0 < p <= 1) by (apply brightness_full; lra). clearbody p.
  assert (L : b <= b / p). { apply (Rmult_le_reg_r p); [lra|]. replace (b / p * p) with b by (field; lra). rewrite <- (Rmult_1_r b) at 2. apply Rmult_le_compat_l; lra. }
  unfold clamp_channel. destruct (Rltb (b / p) b) eqn:E1; [apply Rltb_iff in E1; lra|].
  assert (M : b / p * p = b) by (field; lra).
  destruct (Rltb 1 (b / p)) eqn:E2; [apply Rltb_iff in E2|apply Rltb_false in E2].
  - split; [lra|]. split; [|right; reflexivity]. apply Rlt_le. rewrite <- M. apply Rmult_lt_compat_r; lra.
  - split; [lra|]. split; [lra|left; exact M].
Qed.
Lemma unique_color_assembled i b : 0 < b <= 1 -> exists c hue sat v y,
  make_unique_color i b = Ok c /\ unit_channels c /\ is_hsv c hue sat v /\ 0 <= hue < 360 /\ 0 < sat <= 1 /\ 0 < v <= 1 /\
  is_brightness c y /\ y <= b /\ (y = b \/ v = 1).
Proof.
  intros Hb. exists (color_from_hsv (hue_of i) (sat_of i) (val_of i b)), (hue_of i), (sat_of i), (val_of i b), (perceived_brightness (color_from_hsv (hue_of i) (sat_of i) (val_of i b))).
  pose proof (hue_range i) as Hh. pose proof (sat_range i) as Hs. destruct (val_ok i b Hb) as (V1 & V2 & V3).
  split; [apply unique_color_form|]. split; [apply hsv_unit; lra|]. split; [apply hsv_channels; lra|]. split; [exact Hh|]. split; [exact Hs|]. split; [lra|].
  split; [apply brightness_iff; reflexivity|]. rewrite brightness_scale by lra. tauto.
Qed.
Lemma unique_color_distinct i j b b' : (i <> j)%nat -> 0 < b <= 1 -> 0 < b' <= 1 -> make_unique_color i b <> make_unique_color j b'.
Proof.
  intros N Hb Hb' E. rewrite !unique_color_form in E. injection E as E.
  pose proof (hue_range i). pose proof (sat_range i). pose proof (hue_range j). pose proof (sat_range j).
  destruct (val_ok i b Hb) as (V1 & _). destruct (val_ok j b' Hb') as (V1' & _).
  apply hsv_determines in E; try lra. destruct E as (Eh & Es & _). apply hue_inj in Eh. apply sat_inj in Es. apply N.
  rewrite (Nat.div_mod i 12), (Nat.div_mod j 12) by lia. congruence.
Qed.

(** ** gradient *)
Definition chan := rgba R -> R.
Lemma Rlt_total : total_order Rltb Reqb.
Proof.
  split.
  - intros a. apply Rltb_false. lra.
  - intros a b c. rewrite !Rltb_iff. lra.
  - intros a b. rewrite !Rltb_false. lra.
  - intros a b. unfold Reqb. destruct (Req_EM_T a b); split; congruence.
Qed.

Section Gradient.
  Context (m : list (R * rgba R)) (Inc : increasing Rltb (map fst m)).
  Lemma pos_lt i j a b : nth_error m i = Some a -> nth_error m j = Some b -> (i < j)%nat -> fst a < fst b.
  Proof.
    intros Ha Hb L. clear -Inc Ha Hb L. revert i j Ha Hb L. unfold increasing in Inc. induction m as [|x t IH]; intros [|i] [|j] Ha Hb L; cbn in *; try discriminate; try lia.
    - inversion Ha; subst. inversion Inc as [|? ? _ F]; subst. rewrite Forall_forall in F. apply Rltb_iff, F, in_map, (nth_error_In _ _ Hb).
    - inversion Inc as [|? ? S _]; subst. apply (IH S i j); auto. lia.
  Qed.
  Lemma ub_spec v : let u := fm_upper_bound Rltb m v in (u <= length m)%nat /\
    (forall i a, nth_error m i = Some a -> (i < u)%nat -> fst a <= v) /\ (forall i a, nth_error m i = Some a -> (u <= i)%nat -> v < fst a).
  Proof.
    cbv zeta. unfold fm_upper_bound. set (before := fun kvp : R * rgba R => negb (Rltb v (fst kvp))).
    assert (M : mono_list before m).
    { clear -Inc. subst before. unfold increasing in Inc. induction m as [|x t IH]; cbn in *; [exact I|]. inversion Inc as [|? ? S F]; subst.
      split; [|apply IH, S]. rewrite Forall_forall in F. intros Hx. rewrite Forall_forall. intros y Hy.
      specialize (F (fst y) (in_map fst _ _ Hy)). apply Rltb_iff in F. destruct (Rltb v (fst x)) eqn:E; cbn in Hx; [|discriminate]. apply Rltb_iff in E. replace (Rltb v (fst y)) with true; [reflexivity|]. symmetry. apply Rltb_iff. lra. }
    rewrite partition_search_prefix by exact M.
    split; [apply prefix_len_le|].
    pose proof (prefix_len_partitioned before m M) as [_ P].
    split; intros i a Ha L; specialize (P i a Ha); unfold before in P at 1.
    - apply Rltb_false. apply Nat.ltb_lt in L. rewrite L in P. destruct (Rltb v (fst a)); [discriminate|reflexivity].
    - apply Rltb_iff. apply Nat.ltb_ge in L. rewrite L in P. destruct (Rltb v (fst a)); [reflexivity|discriminate].
  Qed.
  Lemma gm_eval v i lo : nth_error m i = Some lo -> fst lo <= v -> (forall hi, nth_error m (S i) = Some hi -> v < fst hi) ->
    gradient_at m v = Ok (match nth_error m (S i) with None => snd lo | Some hi => lerp_color (snd lo) (snd hi) ((v - fst lo) / (fst hi - fst lo)) end).
  Proof.
    intros Hl Lv Hh. destruct (ub_spec v) as (U1 & U2 & U3).
    assert (EU : fm_upper_bound Rltb m v = S i).
    { set (u := fm_upper_bound Rltb m v) in *. destruct (Nat.lt_trichotomy u (S i)) as [L|[E|L]]; [|exact E|].
      - specialize (U3 i lo Hl ltac:(lia)). lra.
      - destruct (nth_error m (S i)) as [hi|] eqn:E; [|apply nth_error_None in E; lia].
        specialize (U2 (S i) hi E L). specialize (Hh hi eq_refl). lra. }
    unfold gradient_at. destruct m as [|x t] eqn:Em; [destruct i; discriminate|]. rewrite <- Em in *. rewrite EU.
    replace (S i - 1)%nat with i by lia. unfold vec_get. rewrite Hl.
    destruct (Nat.eqb_spec (S i) (length m)) as [E|E]; cbn [obind].
    - replace (nth_error m (S i)) with (@None (R * rgba R)); [reflexivity|]. symmetry. apply nth_error_None. lia.
    - cbn [Nat.eqb]. destruct (nth_error m (S i)) as [hi|] eqn:E2; [reflexivity|]. apply nth_error_None in E2. lia.
  Qed.
  Lemma gm_before v hd : nth_error m 0 = Some hd -> v < fst hd -> gradient_at m v = Ok (snd hd).
  Proof.
    intros Hl Lv. destruct (ub_spec v) as (U1 & U2 & U3).
    assert (EU : fm_upper_bound Rltb m v = 0%nat).
    { destruct (fm_upper_bound Rltb m v) as [|u]; [reflexivity|]. specialize (U2 0%nat hd Hl ltac:(lia)). lra. }
    unfold gradient_at. destruct m as [|x t] eqn:Em; [discriminate|]. rewrite <- Em in *. rewrite EU. rewrite Em at 1. cbn [length Nat.eqb]. unfold vec_get. rewrite Hl. reflexivity.
  Qed.
  Lemma lerp_color_at a b t : mixed a b t (lerp_color a b t).
  Proof. unfold mixed, lerp_color, color_add, color_scale, color_sub, color_f. cbn. repeat split; ring. Qed.
  Lemma lerp_color_0 a b : lerp_color a b 0 = a.
  Proof. apply C4_eq; unfold lerp_color, color_add, color_scale, color_sub, color_f; cbn; ring. Qed.
  Lemma gm_stop v c : In (v, c) m -> gradient_at m v = Ok c.
  Proof.
    intros H. apply In_nth_error in H as [i Hi]. rewrite (gm_eval v i (v, c) Hi); cbn [fst snd]; [|lra|intros hi Hh; apply (pos_lt i (S i) (v, c) hi Hi Hh); lia].
    destruct (nth_error m (S i)) as [hi|] eqn:E; [|reflexivity]. f_equal.
    unfold Rdiv. rewrite Rminus_diag_eq by reflexivity. rewrite Rmult_0_l. apply lerp_color_0.
  Qed.
  Lemma gm_first v x c : first_stop m x -> In (x, c) m -> v <= x -> gradient_at m v = Ok c.
  Proof.
    intros [_ F] Hin L. destruct (Req_dec v x) as [->|N]; [apply gm_stop; exact Hin|].
    apply In_nth_error in Hin as [i Hi]. destruct i as [|i]; [apply (gm_before v (x, c) Hi); cbn; lra|].
    destruct (nth_error m 0) as [hd|] eqn:E; [|apply nth_error_None in E; assert (nth_error m (S i) <> None) as A by congruence; apply nth_error_Some in A; lia].
    pose proof (pos_lt 0 (S i) hd (x, c) E Hi ltac:(lia)) as A. cbn in A. specialize (F (fst hd) (in_map fst _ _ (nth_error_In _ _ E))). lra.
  Qed.
  Lemma gm_last v x c : last_stop m x -> In (x, c) m -> x <= v -> gradient_at m v = Ok c.
  Proof.
    intros [_ F] Hin L. apply In_nth_error in Hin as [i Hi].
    assert (E : nth_error m (S i) = None).
    { destruct (nth_error m (S i)) as [hi|] eqn:E; [|reflexivity]. pose proof (pos_lt i (S i) (x, c) hi Hi E ltac:(lia)) as A. cbn in A.
      specialize (F (fst hi) (in_map fst _ _ (nth_error_In _ _ E))). lra. }
    rewrite (gm_eval v i (x, c) Hi); cbn [fst snd]; [rewrite E; reflexivity|exact L|rewrite E; discriminate].
  Qed.
  Lemma gm_between v x1 c1 x2 c2 : next_stop m x1 x2 -> In (x1, c1) m -> In (x2, c2) m -> x1 <= v <= x2 -> exists c, gradient_at m v = Ok c /\ mixed c1 c2 ((v - x1) / (x2 - x1)) c.
  Proof.
    intros (Lx & _ & _ & F) H1 H2 B. destruct (Req_dec v x2) as [->|N].
    - exists c2. split; [apply gm_stop; exact H2|]. replace ((x2 - x1) / (x2 - x1)) with 1 by (field; lra). unfold mixed. repeat split; ring.
    - apply In_nth_error in H1 as [i Hi]. apply In_nth_error in H2 as [j Hj].
      assert (L : (i < j)%nat).
      { destruct (Nat.lt_trichotomy i j) as [L|[->|L]]; [exact L| |].
        - rewrite Hi in Hj. inversion Hj. lra.
        - pose proof (pos_lt j i _ _ Hj Hi L) as A. cbn in A. lra. }
      destruct (nth_error m (S i)) as [hi|] eqn:E; [|apply nth_error_None in E; assert (nth_error m j <> None) as A by congruence; apply nth_error_Some in A; lia].
      assert (EJ : j = S i).
      { destruct (Nat.eq_dec j (S i)) as [e|n]; [exact e|]. pose proof (pos_lt i (S i) _ _ Hi E ltac:(lia)) as A. pose proof (pos_lt (S i) j _ _ E Hj ltac:(lia)) as A'. cbn in A, A'.
        specialize (F (fst hi) (in_map fst _ _ (nth_error_In _ _ E))). lra. }
      subst j. rewrite Hj in E. inversion E; subst hi.
      rewrite (gm_eval v i (x1, c1) Hi); cbn [fst snd]; [rewrite Hj; cbn [fst snd]|lra|rewrite Hj; intros h Hh; inversion Hh; cbn; lra].
      eexists. split; [reflexivity|]. apply lerp_color_at.
  Qed.
End Gradient.

Lemma gradient_assembled stops v : NoDup (map fst stops) ->
  (color_gradient stops v = Throw <-> stops = []) /\
  (forall c, In (v, c) stops -> color_gradient stops v = Ok c) /\
  (forall x c, first_stop stops x -> In (x, c) stops -> v <= x -> color_gradient stops v = Ok c) /\
  (forall x c, last_stop stops x -> In (x, c) stops -> x <= v -> color_gradient stops v = Ok c) /\
  (forall x1 c1 x2 c2, next_stop stops x1 x2 -> In (x1, c1) stops -> In (x2, c2) stops -> x1 <= v <= x2 ->
    exists c, color_gradient stops v = Ok c /\ mixed c1 c2 ((v - x1) / (x2 - x1)) c).
Proof.
  intros ND. unfold color_gradient. pose proof (fm_of_list_inc Rltb Reqb Rlt_total stops ND) as Inc.
  pose proof (fm_of_list_perm Rltb stops) as P. set (m := fm_of_list Rltb stops) in *.
  assert (I : forall e, In e stops -> In e m) by (intros e He; apply (Permutation_in _ (Permutation_sym P) He)).
  assert (K : forall k, In k (map fst m) <-> In k (map fst stops)) by (intros k; split; apply Permutation_in, Permutation_map; [exact P|apply Permutation_sym, P]).
  refine (conj _ (conj _ (conj _ (conj _ _)))).
  - split.
    + intros H. destruct stops as [|s t]; [reflexivity|]. exfalso.
      destruct m as [|x r] eqn:Em; [apply Permutation_nil in P; discriminate|].
      destruct (Rlt_dec v (fst x)) as [L|L]; [rewrite (gm_before _ Inc v x eq_refl L) in H; discriminate|].
      (* the last stop not after v *)
      destruct (ub_spec _ Inc v) as (U1 & U2 & U3). set (u := fm_upper_bound Rltb (x :: r) v) in *.
      assert (U : (0 < u)%nat) by (destruct u; [specialize (U3 0%nat x eq_refl ltac:(lia)); lra|lia]).
      destruct (nth_error (x :: r) (u - 1)) as [lo|] eqn:E; [|apply nth_error_None in E; lia].
      rewrite (gm_eval _ Inc v (u - 1) lo E) in H; [discriminate| |].
      * apply (U2 _ _ E). lia.
      * intros hi Hh. apply (U3 _ _ Hh). lia.
    + intros ->. reflexivity.
  - intros c H. apply (gm_stop m Inc), I, H.
  - intros x c [F1 F2] H L. apply (gm_first m Inc v x); [|apply I, H|exact L]. split; [apply K, F1|]. intros x' Hx. apply F2, K, Hx.
  - intros x c [F1 F2] H L. apply (gm_last m Inc v x); [|apply I, H|exact L]. split; [apply K, F1|]. intros x' Hx. apply F2, K, Hx.
  - intros x1 c1 x2 c2 (L & F1 & F2 & F3) H1 H2 B. apply (gm_between m Inc v x1 c1 x2 c2); [|apply I, H1|apply I, H2|exact B].
    split; [exact L|]. split; [apply K, F1|]. split; [apply K, F2|]. intros x Hx. apply F3, K, Hx.
Qed.

(** ** arithmetic *)
Lemma arithmetic_assembled (c1 c2 c3 : rgba R) (s t : R) :
  color_add c1 c2 = color_add c2 c1 /\ color_add c1 (color_add c2 c3) = color_add (color_add c1 c2) c3 /\
  color_add (color_sub c1 c2) c2 = c1 /\ color_scale Float 1 c1 = c1 /\
  color_scale Float s (color_scale Float t c1) = color_scale Float (s * t) c1 /\
  color_scale Float s (color_add c1 c2) = color_add (color_scale Float s c1) (color_scale Float s c2) /\
  color_scale Float (s + t) c1 = color_add (color_scale Float s c1) (color_scale Float t c1) /\
  each (fun x y => y = s * x) c1 (color_scale Float s c1).
Proof. unfold color_scale, color_add, color_sub, color_f, each. repeat split; try (apply C4_eq; cbn; ring); cbn; ring. Qed.
Close Scope R_scope.

(** ** text *)
Lemma to_lower_ok s : ascii_text s -> to_lower s = Ok (lower_case s).
Proof.
  induction 1 as [|c s Hc Hs IH]; [reflexivity|]. cbn [to_lower lower_case map]. rewrite IH. unfold tolower, lower_char.
  destruct ((65 <=? N_of_ascii c) && (N_of_ascii c <=? 90))%N; cbn [obind]; [reflexivity|].
  replace (N_of_ascii c <? 128)%N with true by lia. reflexivity.
Qed.
Lemma lower_length s : length (lower_case s) = length s. Proof. apply map_length. Qed.

Lemma hex_char c v : hex_value c = Some v -> (N_of_ascii c < 128)%N /\ hex_value (lower_char c) = Some v /\ isspace (lower_char c) = false /\
  lower_char c <> "-"%char /\ lower_char c <> "+"%char /\ lower_char c <> nul /\ lower_char c <> "x"%char /\ lower_char c <> "X"%char /\ lower_char c <> "r"%char /\ lower_char c <> "h"%char /\ (v < 16)%N.
Proof.
  destruct c as [b0 b1 b2 b3 b4 b5 b6 b7].
  destruct b7; [destruct b0, b1, b2, b3, b4, b5, b6; discriminate|].
  destruct b0, b1, b2, b3, b4, b5, b6; intros H; try discriminate; inversion H; subst; repeat split; try reflexivity; discriminate.
Qed.

Lemma hex_number_lower s : forall acc n, hex_number acc s = Some n -> ascii_text s /\ hex_number acc (lower_case s) = Some n /\ scan_hex acc (lower_case s) = n /\ Forall (fun c => c <> nul) (lower_case s).
Proof.
  induction s as [|c s IH]; intros acc n H; cbn [hex_number lower_case map scan_hex] in *.
  - inversion H. subst. repeat split; constructor.
  - destruct (hex_value c) as [d|] eqn:E; [|discriminate]. destruct (hex_char c d E) as (A & B & _ & _ & _ & N & _).
    rewrite B. destruct (IH _ _ H) as (I1 & I2 & I3 & I4). repeat split; try assumption; constructor; assumption.
Qed.
Lemma hex_number_bound s : forall acc n, hex_number acc s = Some n -> (n < (acc + 1) * 16 ^ N.of_nat (length s))%N.
Proof.
  induction s as [|c s IH]; intros acc n H; cbn [hex_number length] in *.
  - inversion H. subst. cbn. lia.
  - destruct (hex_value c) as [d|] eqn:E; [|discriminate]. destruct (hex_char c d E) as (_ & _ & _ & _ & _ & _ & _ & _ & _ & _ & Hd).
    apply IH in H. rewrite Nat2N.inj_succ, N.pow_succ_r'. eapply N.lt_le_trans; [exact H|].
    rewrite N.mul_assoc. apply N.mul_le_mono_r. lia.
Qed.

Lemma begins_false s sub c r d t : s = c :: r -> sub = d :: t -> c <> d -> str_begins_with s sub = false.
Proof.
  intros -> -> N. destruct (str_begins_with (c :: r) (d :: t)) eqn:E; [|reflexivity]. exfalso. apply begins_with_iff in E as (q & E). inversion E. contradiction.
Qed.


Lemma c_str_ne s : Forall (fun c => c <> nul) s -> c_str s = s.
Proof. induction 1 as [|c s Hc Hs IH]; [reflexivity|]. cbn [c_str]. destruct (Ascii.eqb_spec c nul); [contradiction|]. rewrite IH. reflexivity. Qed.

Lemma stoul16_hex p ds n : hex_prefix p -> ds <> [] -> hex_number 0 ds = Some n -> (n < 2 ^ 64)%N -> stoul16 (lower_case (p ++ ds)) = Some n.
Proof.
  intros Hp Hne Hn Hb. destruct (hex_number_lower ds 0 n Hn) as (_ & H2 & H3 & H4).
  destruct ds as [|c ds]; [contradiction|]. cbn [hex_number] in Hn. destruct (hex_value c) as [d|] eqn:E; [|discriminate].
  destruct (hex_char c d E) as (_ & B & Sp & Mi & Pl & Nu & X1 & X2 & _).
  unfold lower_case in *. rewrite map_app. unfold stoul16.
  destruct Hp as [->|Hp].
  - cbn [map app] in *. rewrite c_str_ne by exact H4. cbn [skip_space]. rewrite Sp. cbn [scan_sign].
    destruct (Ascii.eqb_spec (lower_char c) "-"); [contradiction|]. destruct (Ascii.eqb_spec (lower_char c) "+"); [contradiction|].
    assert (P0 : forall x, (x = "x"%char \/ x = "X"%char) -> str_begins_with (lower_char c :: map lower_char ds) ["0"%char; x] = false).
    { intros x Hx. destruct (str_begins_with _ _) eqn:F; [|reflexivity]. apply begins_with_iff in F as (q & F). cbn [app] in F. inversion F as [[F1 F2]].
      destruct ds as [|c2 ds]; cbn [map] in F2; [discriminate|]. inversion F2 as [[F3 F4]]. cbn [hex_number] in Hn. destruct (hex_value c2) as [d2|] eqn:E2; [|discriminate].
      destruct (hex_char c2 d2 E2) as (_ & _ & _ & _ & _ & _ & Y1 & Y2 & _). rewrite F3 in Y1, Y2. destruct Hx; contradiction. }
    change (lit "0x") with ["0"%char; "x"%char]. change (lit "0X") with ["0"%char; "X"%char]. rewrite !P0 by auto. cbn [andb].
    cbn [starts_hex]. rewrite B. rewrite H3. replace (n <? 2 ^ 64)%N with true by lia. reflexivity.
  - assert (EP : map lower_char p = lit "0x") by (destruct Hp as [->| ->]; reflexivity). rewrite EP.
    rewrite c_str_ne. 2:{ apply Forall_app. split; [|exact H4]. repeat constructor; discriminate. }
    change (skip_space (lit "0x" ++ map lower_char (c :: ds))) with (lit "0x" ++ map lower_char (c :: ds)).
    change (scan_sign (lit "0x" ++ map lower_char (c :: ds))) with (false, lit "0x" ++ map lower_char (c :: ds)).
    cbv beta iota zeta.
    assert (BW : str_begins_with (lit "0x" ++ map lower_char (c :: ds)) (lit "0x") = true) by (apply begins_with_iff; eexists; reflexivity).
    rewrite BW. change (skipn 2 (lit "0x" ++ map lower_char (c :: ds))) with (map lower_char (c :: ds)).
    assert (SH : starts_hex (map lower_char (c :: ds)) = true) by (cbn [map starts_hex]; rewrite B; reflexivity). rewrite SH. cbn [andb]. rewrite SH, H3.
    replace (n <? 2 ^ 64)%N with true by lia. reflexivity.
Qed.

Section FromTree.
  Context {T : Type} (stof : str -> option T) (from_str : str -> option T) (div255 div100 : T -> T) (zero one : T).
  Context (hsv : T -> T -> T -> rgba T) (hex_rgb hex_rgba : N -> rgba T).
  Notation of_text := (color_from_text stof div255 div100 one hsv hex_rgb hex_rgba).
  Notation of_tree := (color_from_pn stof from_str div255 div100 zero one hsv hex_rgb hex_rgba).

  Lemma text_hex p ds n c : hex_prefix p -> ds <> [] -> (length ds <= 8)%nat -> hex_number 0 ds = Some n ->
    of_text (p ++ ds) c = Ok (if (length ds =? 8)%nat then hex_rgba n else hex_rgb n, true).
  Proof.
    intros Hp Hne Hl Hn.
    assert (Hb : (n < 2 ^ 32)%N).
    { pose proof (hex_number_bound _ _ _ Hn) as B. eapply N.lt_le_trans; [exact B|]. rewrite N.mul_1_l. change (2 ^ 32)%N with (16 ^ 8)%N. apply N.pow_le_mono_r; lia. }
    destruct (hex_number_lower ds 0 n Hn) as (A & _). unfold color_from_text.
    assert (AT : ascii_text (p ++ ds)).
    { apply Forall_app. split; [|exact A]. destruct Hp as [->|[->| ->]]; repeat constructor. }
    rewrite to_lower_ok by exact AT. cbn [obind].
    assert (First : exists c0 r, lower_case (p ++ ds) = c0 :: r /\ c0 <> "r"%char /\ c0 <> "h"%char).
    { destruct Hp as [->|[->| ->]]; cbn [app].
      - destruct ds as [|c0 ds]; [contradiction|]. cbn [hex_number] in Hn. destruct (hex_value c0) as [d|] eqn:E; [|discriminate].
        destruct (hex_char c0 d E) as (_ & _ & _ & _ & _ & _ & _ & _ & X3 & X4 & _). exists (lower_char c0), (lower_case ds). auto.
      - eexists _, _. split; [reflexivity|]. split; discriminate.
      - eexists _, _. split; [reflexivity|]. split; discriminate. }
    destruct First as (c0 & r & EL & N1 & N2).
    rewrite (begins_false _ (lit "rgb") c0 r _ _ EL eq_refl N1), (begins_false _ (lit "hsv") c0 r _ _ EL eq_refl N2). cbn [orb].
    rewrite (stoul16_hex p ds n Hp Hne Hn) by (change (2 ^ 64)%N with (2 ^ 32 * 2 ^ 32)%N; lia). cbn [of_opt obind caught].
    rewrite N.mod_small by exact Hb. rewrite lower_length, app_length.
    assert (ND : (if str_begins_with (lower_case (p ++ ds)) (lit "0x") then length p + length ds - 2 else length p + length ds)%nat = length ds).
    { destruct Hp as [->|Hp].
      - cbn [app length plus]. destruct (str_begins_with _ _) eqn:F; [|reflexivity]. exfalso. apply begins_with_iff in F as (q & F).
        destruct ds as [|c1 ds]; [discriminate|]. cbn [lower_case map] in F. cbn in F. inversion F as [[F1 F2]].
        destruct ds as [|c2 ds]; cbn [map] in F2; [discriminate|]. inversion F2 as [[F3 F4]]. cbn [hex_number] in Hn. destruct (hex_value c1); [|discriminate]. destruct (hex_value c2) as [d2|] eqn:E2; [|discriminate].
        destruct (hex_char c2 d2 E2) as (_ & _ & _ & _ & _ & _ & Y1 & _). contradiction.
      - assert (EP : lower_case p = lit "0x" /\ length p = 2%nat) by (destruct Hp as [->| ->]; split; reflexivity). destruct EP as [EP EL2]. unfold lower_case in *. rewrite map_app, EP.
        replace (str_begins_with _ _) with true by (symmetry; apply begins_with_iff; eexists; reflexivity). lia. }
    rewrite ND. reflexivity.
  Qed.

  Lemma seps_no_nul : ~ In nul seps.
  Proof. cbn. intros H. repeat destruct H as [H|H]; discriminate || contradiction. Qed.

  Lemma text_words s c c' k : ascii_text s -> (k = lit "rgb" \/ k = lit "hsv") -> (exists r, lower_case s = k ++ r) ->
    (of_text s c = Ok (c', true) <-> exists w a b d x y z, pieces (one_of seps) (lower_case s) [w; a; b; d] /\ stof a = Some x /\ stof b = Some y /\ stof d = Some z /\
      c' = if str_eqb k (lit "rgb") then C4 (div255 x) (div255 y) (div255 z) one else hsv x (div100 y) (div100 z)) /\
    (of_text s c = Ok (c', true) \/ exists c'', of_text s c = Ok (c'', true) \/ of_text s c = Ok (c, false)).
  Proof.
    intros A Hk (r & Er). unfold color_from_text. rewrite to_lower_ok by exact A. cbn [obind].
    assert (BW : str_begins_with (lower_case s) k = true) by (apply begins_with_iff; eauto).
    assert (NotBoth : k = lit "hsv" -> str_begins_with (lower_case s) (lit "rgb") = false) by (intros ->; rewrite Er; reflexivity).
    assert (Cond : str_begins_with (lower_case s) (lit "rgb") || str_begins_with (lower_case s) (lit "hsv") = true) by (destruct Hk as [->| ->]; rewrite BW; [reflexivity|apply orb_true_r]).
    rewrite Cond. destruct (split_str_ok (lower_case s) seps seps_no_nul) as (ps & Es & Hps). fold seps. rewrite Es. cbn [obind].
    assert (Key : forall x y z, (if str_begins_with (lower_case s) (lit "rgb") then C4 (div255 x) (div255 y) (div255 z) one else hsv x (div100 y) (div100 z)) = (if str_eqb k (lit "rgb") then C4 (div255 x) (div255 y) (div255 z) one else hsv x (div100 y) (div100 z))).
    { intros x y z. destruct Hk as [->| ->]; [rewrite BW; reflexivity|rewrite NotBoth by reflexivity; reflexivity]. }
    assert (Run : forall w a b d, ps = [w; a; b; d] ->
      (match ps with [_; a; b; d] => if str_begins_with (lower_case s) (lit "rgb") then do x <- of_opt (stof a); do y <- of_opt (stof b); do z <- of_opt (stof d); Ok (C4 (div255 x) (div255 y) (div255 z) one, true)
        else if str_begins_with (lower_case s) (lit "hsv") then do x <- of_opt (stof a); do y <- of_opt (stof b); do z <- of_opt (stof d); Ok (hsv x (div100 y) (div100 z), true) else Ok (c, false)
        | _ => Ok (c, false) end) =
      do x <- of_opt (stof a); do y <- of_opt (stof b); do z <- of_opt (stof d); Ok (if str_eqb k (lit "rgb") then C4 (div255 x) (div255 y) (div255 z) one else hsv x (div100 y) (div100 z), true)).
    { intros w a b d ->. destruct Hk as [->| ->]; [rewrite BW; reflexivity|rewrite NotBoth by reflexivity; rewrite BW; reflexivity]. }
    destruct ps as [|w [|a [|b [|d [|e ps]]]]].
    1-4,6: split; [split; [discriminate|intros (w' & a' & b' & d' & x & y & z & Hp & _); pose proof (pieces_fun _ _ _ _ Hp Hps); discriminate]|right; exists c; right; reflexivity].
    rewrite (Run w a b d eq_refl). clear Run. split.
    - split.
      + destruct (stof a) as [x|] eqn:Ea; cbn [of_opt obind caught]; [|discriminate]. destruct (stof b) as [y|] eqn:Eb; cbn [of_opt obind caught]; [|discriminate].
        destruct (stof d) as [z|] eqn:Ed; cbn [of_opt obind caught]; [|discriminate]. intros H. inversion H. exists w, a, b, d, x, y, z. auto 6.
      + intros (w' & a' & b' & d' & x & y & z & Hp & Ea & Eb & Ed & Ec). pose proof (pieces_fun _ _ _ _ Hp Hps) as E. inversion E; subst.
        rewrite Ea, Eb, Ed. reflexivity.
    - destruct (stof a) as [x|]; cbn [of_opt obind caught]; [|right; exists c; right; reflexivity]. destruct (stof b) as [y|]; cbn [of_opt obind caught]; [|right; exists c; right; reflexivity].
      destruct (stof d) as [z|]; cbn [of_opt obind caught]; [|right; exists c; right; reflexivity]. right. eexists. left. reflexivity.
  Qed.
  Lemma text_total s c : ascii_text s -> (exists c', of_text s c = Ok (c', true)) \/ of_text s c = Ok (c, false).
  Proof.
    intros A. unfold color_from_text. rewrite to_lower_ok by exact A. cbn [obind].
    destruct (_ || _).
    - destruct (split_str_ok (lower_case s) seps seps_no_nul) as (ps & Es & Hps). fold seps. rewrite Es. cbn [obind].
      destruct ps as [|w [|a [|b [|d [|e ps]]]]]; auto.
      destruct (str_begins_with _ _); [|destruct (str_begins_with _ _); [|auto]].
      all: destruct (stof a) as [x|]; cbn [of_opt obind caught]; [|auto]; destruct (stof b) as [y|]; cbn [of_opt obind caught]; [|auto]; destruct (stof d) as [z|]; cbn [of_opt obind caught]; [|auto]; left; eexists; reflexivity.
    - destruct (stoul16 _); cbn [of_opt obind caught]; [left; eexists; reflexivity|auto].
  Qed.

  Lemma lower_first x : hex_value x = None -> isspace x = false -> x <> "+"%char -> x <> "-"%char ->
    hex_value (lower_char x) = None /\ isspace (lower_char x) = false /\ lower_char x <> "+"%char /\ lower_char x <> "-"%char.
  Proof.
    destruct x as [b0 b1 b2 b3 b4 b5 b6 b7]. destruct b0, b1, b2, b3, b4, b5, b6, b7; intros H1 H2 H3 H4; try discriminate; try congruence; repeat split; try reflexivity; try discriminate; congruence.
  Qed.
  Lemma text_refused s c : ascii_text s -> (forall r, lower_case s <> lit "rgb" ++ r) -> (forall r, lower_case s <> lit "hsv" ++ r) ->
    (forall x r, s = x :: r -> hex_value x = None /\ isspace x = false /\ x <> "+"%char /\ x <> "-"%char) -> of_text s c = Ok (c, false).
  Proof.
    intros A R1 R2 F. unfold color_from_text. rewrite to_lower_ok by exact A. cbn [obind].
    assert (B1 : str_begins_with (lower_case s) (lit "rgb") = false) by (match goal with |- ?b = _ => destruct b eqn:E end; [apply begins_with_iff in E as (r & E); elim (R1 r); exact E|reflexivity]).
    assert (B2 : str_begins_with (lower_case s) (lit "hsv") = false) by (match goal with |- ?b = _ => destruct b eqn:E end; [apply begins_with_iff in E as (r & E); elim (R2 r); exact E|reflexivity]).
    rewrite B1, B2. cbn [orb]. assert (St : stoul16 (lower_case s) = None).
    { destruct s as [|x r]; [reflexivity|]. destruct (F x r eq_refl) as (H1 & H2 & H3 & H4). destruct (lower_first x H1 H2 H3 H4) as (L1 & L2 & L3 & L4).
      unfold stoul16. cbn [lower_case map c_str]. destruct (Ascii.eqb_spec (lower_char x) nul) as [E|E]; [reflexivity|]. cbn [skip_space]. rewrite L2. cbn [scan_sign].
      destruct (Ascii.eqb_spec (lower_char x) "-"); [contradiction|]. destruct (Ascii.eqb_spec (lower_char x) "+"); [contradiction|].
      assert (P0 : forall y, str_begins_with (lower_char x :: c_str (map lower_char r)) ["0"%char; y] = false).
      { intros y. match goal with |- ?b = _ => destruct b eqn:G end; [|reflexivity]. apply begins_with_iff in G as (q & G). inversion G as [[G1 G2]]. rewrite G1 in L1. discriminate. }
      change (lit "0x") with ["0"%char; "x"%char]. change (lit "0X") with ["0"%char; "X"%char]. rewrite !P0. cbn [andb starts_hex]. rewrite L1. reflexivity. }
    rewrite St. reflexivity.
  Qed.

  Lemma get_num_ok t k d x : get_num from_str t k d = Ok x <-> num_or from_str t (lit k) d x.
  Proof.
    unfold get_num. rewrite get_as_def_ok. unfold num_or, num_at, num_from_pn. split; (intros [(c & H1 & H2)|H]; [left; exists c; split; [exact H1|congruence]|right; exact H]).
  Qed.
  Lemma get_num_at_ok t i x : get_num_at from_str t i = Ok x <-> exists kc, nth_error (pn_children t) i = Some kc /\ from_str (pn_value (snd kc)) = Some x.
  Proof. apply num_idx_ok. Qed.
  Lemma get_num_total t k d : get_num from_str t k d <> UB.
  Proof.
    unfold get_num, get_as_def. destruct (try_get_child t (lit k)) as [i|] eqn:E; [|discriminate].
    destruct (try_child_some _ _ _ E) as (c & _ & Hf). rewrite Hf. unfold get_as, num_from_pn. cbn [obind snd]. destruct (from_str _); discriminate.
  Qed.
  Lemma get_num_at_total t i : get_num_at from_str t i <> UB.
  Proof. apply get_as_idx_total. discriminate. Qed.

  Lemma tree_hsv t c c' : pn_value t = [] -> (In (lit "h") (pn_keys t) \/ In (lit "s") (pn_keys t) \/ In (lit "v") (pn_keys t)) ->
    (of_tree t c = Ok (c', true) <-> exists h s v, num_or from_str t (lit "h") zero h /\ num_or from_str t (lit "s") one s /\ num_or from_str t (lit "v") one v /\ c' = hsv h s v) /\
    ((exists c'', of_tree t c = Ok (c'', true)) \/ of_tree t c = Ok (c, false)).
  Proof.
    intros Hv Hk. unfold color_from_pn, has_value. rewrite Hv.
    assert (K : has_key t (lit "h") || has_key t (lit "s") || has_key t (lit "v") = true).
    { rewrite !orb_true_iff, !has_key_in. tauto. }
    rewrite K. destruct (get_num from_str t "h" zero) as [h| |] eqn:E1; cbn [obind caught]; [|split; [split; [discriminate|]|auto]|destruct (get_num_total _ _ _ E1)].
    2:{ intros (h & s & v & H & _). apply get_num_ok in H. congruence. }
    destruct (get_num from_str t "s" one) as [s| |] eqn:E2; cbn [obind caught]; [|split; [split; [discriminate|]|auto]|destruct (get_num_total _ _ _ E2)].
    2:{ intros (? & s & v & _ & H & _). apply get_num_ok in H. congruence. }
    destruct (get_num from_str t "v" one) as [v| |] eqn:E3; cbn [obind caught]; [|split; [split; [discriminate|]|auto]|destruct (get_num_total _ _ _ E3)].
    2:{ intros (? & ? & v & _ & _ & H & _). apply get_num_ok in H. congruence. }
    split; [|left; eexists; reflexivity]. split.
    - intros H. inversion H. exists h, s, v. rewrite <- !get_num_ok. auto.
    - intros (h' & s' & v' & H1 & H2 & H3 & ->). apply get_num_ok in H1, H2, H3. congruence.
  Qed.

  Lemma named_ok t k i x : (do d <- get_num_at from_str t i; get_num from_str t k d) = Ok x <-> named_or_at from_str t (lit k) i x.
  Proof.
    unfold named_or_at. split.
    - destruct (get_num_at from_str t i) as [d| |] eqn:E; cbn [obind]; try discriminate. intros H. apply get_num_at_ok in E as (kc & E1 & E2). exists kc, d.
      apply get_num_ok in H. auto.
    - intros (kc & d & H1 & H2 & H3). assert (E : get_num_at from_str t i = Ok d) by (apply get_num_at_ok; eauto). rewrite E. cbn [obind]. apply get_num_ok. exact H3.
  Qed.
  Lemma named_total t k i : (do d <- get_num_at from_str t i; get_num from_str t k d) <> UB.
  Proof. destruct (get_num_at from_str t i) as [d| |] eqn:E; cbn [obind]; [apply get_num_total|discriminate|destruct (get_num_at_total _ _ E)]. Qed.

  Lemma tree_list t c c' : pn_value t = [] -> ~ In (lit "h") (pn_keys t) -> ~ In (lit "s") (pn_keys t) -> ~ In (lit "v") (pn_keys t) ->
    (of_tree t c = Ok (c', true) <->
      (3 <= length (pn_children t))%nat /\ named_or_at from_str t (lit "r") 0 (c_r c') /\ named_or_at from_str t (lit "g") 1 (c_g c') /\ named_or_at from_str t (lit "b") 2 (c_b c') /\
      (if (4 <=? length (pn_children t))%nat then named_or_at from_str t (lit "a") 3 (c_a c') else c_a c' = c_a c)) /\
    (exists c'' r, of_tree t c = Ok (c'', r)).
  Proof.
    intros Hv H1 H2 H3. unfold color_from_pn, has_value. rewrite Hv.
    assert (K : has_key t (lit "h") || has_key t (lit "s") || has_key t (lit "v") = false).
    { destruct (has_key t (lit "h")) eqn:E1; [apply has_key_in in E1; contradiction|]. destruct (has_key t (lit "s")) eqn:E2; [apply has_key_in in E2; contradiction|].
      destruct (has_key t (lit "v")) eqn:E3; [apply has_key_in in E3; contradiction|]. reflexivity. }
    rewrite K. unfold pn_size. destruct (Nat.leb_spec 3 (length (pn_children t))) as [L|L]; [|split; [split; [discriminate|intros (G & _); lia]|eexists _, _; reflexivity]].
    assert (Assoc : forall (B : Type) (i : nat) k (f : T -> outcome B), (do d <- get_num_at from_str t i; do x <- get_num from_str t k d; f x) = do x <- (do d <- get_num_at from_str t i; get_num from_str t k d); f x).
    { intros B i k f. destruct (get_num_at from_str t i); reflexivity. }
    rewrite !Assoc. pose proof (named_ok t "r" 0) as R. pose proof (named_total t "r" 0) as RT. destruct (do d <- get_num_at from_str t 0; get_num from_str t "r" d) as [r| |]; cbn [obind caught]; [|split; [split; [discriminate|]|eexists _, _; reflexivity]|contradiction].
    2:{ intros (_ & G & _). apply R in G. discriminate. }
    rewrite !Assoc. pose proof (named_ok t "g" 1) as Gr. pose proof (named_total t "g" 1) as GT. destruct (do d <- get_num_at from_str t 1; get_num from_str t "g" d) as [g| |]; cbn [obind caught]; [|split; [split; [discriminate|]|eexists _, _; reflexivity]|contradiction].
    2:{ intros (_ & _ & G & _). apply Gr in G. discriminate. }
    rewrite !Assoc. pose proof (named_ok t "b" 2) as Bl. pose proof (named_total t "b" 2) as BT. destruct (do d <- get_num_at from_str t 2; get_num from_str t "b" d) as [b| |]; cbn [obind caught]; [|split; [split; [discriminate|]|eexists _, _; reflexivity]|contradiction].
    2:{ intros (_ & _ & _ & G & _). apply Bl in G. discriminate. }
    destruct (4 <=? length (pn_children t))%nat.
    - rewrite !Assoc. pose proof (named_ok t "a" 3) as Al. pose proof (named_total t "a" 3) as AT. destruct (do d <- get_num_at from_str t 3; get_num from_str t "a" d) as [a| |]; cbn [obind caught]; [|split; [split; [discriminate|]|eexists _, _; reflexivity]|contradiction].
      2:{ intros (_ & _ & _ & _ & G). apply Al in G. discriminate. }
      split; [|eexists _, _; reflexivity]. split.
      + intros H. inversion H. cbn [c_r c_g c_b c_a]. split; [exact L|]. split; [apply R; reflexivity|]. split; [apply Gr; reflexivity|]. split; [apply Bl; reflexivity|apply Al; reflexivity].
      + intros (_ & G1 & G2 & G3 & G4). apply R in G1. apply Gr in G2. apply Bl in G3. apply Al in G4. destruct c'; cbn in *. congruence.
    - cbn [c_a]. split; [|eexists _, _; reflexivity]. split.
      + intros H. inversion H. cbn [c_r c_g c_b c_a]. split; [exact L|]. split; [apply R; reflexivity|]. split; [apply Gr; reflexivity|]. split; [apply Bl; reflexivity|reflexivity].
      + intros (_ & G1 & G2 & G3 & G4). apply R in G1. apply Gr in G2. apply Bl in G3. destruct c'; cbn in *. congruence.
  Qed.
End FromTree.

(** ** the channels of a hexadecimal colour *)
Definition close_to_byte (b : N) (x : f32) : bool :=
  match B2SF x with
  | SpecFloat.S754_finite false m e => ((e <=? 0) && (Z.abs (255 * Z.pos m - Z.of_N b * 2 ^ (- e)) * 2 ^ 23 <=? 255 * 2 ^ (- e)))%Z
  | SpecFloat.S754_zero _ => (b =? 0)%N
  | _ => false
  end.
Lemma close_to_byte_ok b x : close_to_byte b x = true -> is_finite x = true /\ (Rabs (B2R x - IZR (Z.of_N b) / 255) <= / 2 ^ 23)%R.
Proof.
  unfold close_to_byte. destruct x as [s|s| |s m e H]; cbn [B2SF is_finite B2R]; try discriminate.
  - intros E. apply N.eqb_eq in E. subst b. split; [reflexivity|]. cbn [Z.of_N]. replace (0 - 0 / 255)%R with 0%R by field. rewrite Rabs_R0. lra.
  - destruct s; [discriminate|]. intros E. split; [reflexivity|]. apply andb_prop in E as [E1 E2]. apply Z.leb_le in E1, E2.
    unfold F2R. cbn [Fnum Fexp cond_Zopp]. assert (EB : (bpow radix2 e * IZR (2 ^ (- e)) = 1)%R).
    { change 2%Z with (radix_val radix2). rewrite IZR_Zpower by lia. rewrite <- bpow_plus. replace (e + - e)%Z with 0%Z by lia. reflexivity. }
    set (P := IZR (2 ^ (- e))) in *. assert (HP : (0 < P)%R) by (apply IZR_lt; apply Z.pow_pos_nonneg; lia).
    apply IZR_le in E2. rewrite !mult_IZR, abs_IZR, minus_IZR, !mult_IZR in E2. fold P in E2. change (2 ^ 23)%Z with 8388608%Z in E2.
    set (M := IZR (Z.pos m)) in *. set (B := IZR (Z.of_N b)) in *. set (q := bpow radix2 e) in *. assert (Eq : q = (/ P)%R) by (apply (Rmult_eq_reg_r P); [rewrite EB; field; lra|lra]).
    replace (M * q - B / 255)%R with ((255 * M - B * P) * / (255 * P))%R by (rewrite Eq; field; lra).
    rewrite Rabs_mult, (Rabs_pos_eq (/ (255 * P))) by (apply Rlt_le, Rinv_0_lt_compat; lra).
    apply (Rmult_le_reg_r (255 * P)); [lra|]. rewrite Rmult_assoc, Rinv_l, Rmult_1_r by lra. lra.
Qed.
Lemma hex_channel_all : forallb (fun b => close_to_byte (N.of_nat b) (f32_mul inv255 (f32_of_Z (Z.of_nat b)))) (seq 0 256) = true.
Proof. vm_compute. reflexivity. Qed.
Lemma hex_channel_close x i : is_finite (hex_channel x i) = true /\ (Rabs (B2R (hex_channel x i) - IZR (Z.of_N (get_byte x i)) / 255) <= / 2 ^ 23)%R.
Proof.
  apply close_to_byte_ok. unfold hex_channel. pose proof (get_byte_lt x i) as L. set (b := get_byte x i) in *. clearbody b.
  pose proof hex_channel_all as A. rewrite forallb_forall in A. specialize (A (N.to_nat b)). rewrite N_nat_Z, N2Nat.id in A. apply A. apply in_seq. lia.
Qed.
Lemma one_exact : B2R (f32_of_Z 1) = 1%R. Proof. apply of_Z_1. Qed.
Lemma full_byte x i : get_byte x i = 255%N -> B2R (hex_channel x i) = 1%R.
Proof.
  intros E. unfold hex_channel. rewrite E.
  assert (F : B2SF (f32_mul inv255 (f32_of_Z (Z.of_N 255))) = SpecFloat.S754_finite false 8388608 (-23)) by (vm_compute; reflexivity).
  rewrite <- SF2R_B2SF, F. cbn. unfold F2R. cbn. lra.
Qed.

Lemma hex_channels_assembled x :
  (let c := color_from_hex_rgb x in near_byte (byte_of x 2) (c_r c) /\ near_byte (byte_of x 1) (c_g c) /\ near_byte (byte_of x 0) (c_b c) /\ B2R (c_a c) = 1%R) /\
  (let c := color_from_hex_rgba x in near_byte (byte_of x 3) (c_r c) /\ near_byte (byte_of x 2) (c_g c) /\ near_byte (byte_of x 1) (c_b c) /\ near_byte (byte_of x 0) (c_a c)).
Proof.
  assert (N : forall i, (i = 0 \/ i = 8 \/ i = 16 \/ i = 24)%N -> near_byte (byte_of x (i / 8)) (hex_channel x i)).
  { intros i Hi. rewrite <- rgb_channels by exact Hi. unfold near_byte. destruct (hex_channel_close x i) as [F C]. split; [exact F|]. split; [exact C|]. apply full_byte. }
  cbn [c_r c_g c_b c_a color_from_hex_rgb color_from_hex_rgba]. cbv zeta.
  refine (conj (conj (N 16%N _) (conj (N 8%N _) (conj (N 0%N _) one_exact))) (conj (N 24%N _) (conj (N 16%N _) (conj (N 8%N _) (N 0%N _))))); auto.
Qed.
Lemma nearest_byte_assembled v :
  (is_finite v = true -> exists b, float_to_byte v = Ok b /\ (b <= 255)%N /\ (Rabs (IZR (Z.of_N b) - 255 * Rmax 0 (Rmin 1 (B2R v))) <= / 2 + / 65536)%R) /\
  (v = B754_infinity false -> float_to_byte v = Ok 255%N) /\ (v = B754_infinity true -> float_to_byte v = Ok 0%N).
Proof.
  split; [apply float_to_byte_finite|]. split; intros ->; apply float_to_byte_inf.
Qed.
Lemma nan_byte : exists v : f32, float_to_byte v = UB.
Proof. exists B754_nan. apply float_to_byte_nan. Qed.

Local Open Scope R_scope.
Lemma hsv_assembled H S V : 0 <= H -> 0 <= S <= 1 -> 0 <= V <= 1 ->
  let c := color_from_hsv H S V in
  is_hsv c H S V /\ largest_channel c = V /\ smallest_channel c = V * (1 - S) /\ unit_channels c /\ forall k : nat, color_from_hsv (H + INR k * 360) S V = c.
Proof.
  intros HH HS HV c. destruct (hsv_extremes H S V HH HS ltac:(lra)) as [E1 E2].
  refine (conj (hsv_channels H S V HH) (conj E1 (conj E2 (conj (hsv_unit H S V HH HS HV) _)))). intros k. apply hsv_periodic, HH.
Qed.
Lemma negative_hue : exists H S V, 0 <= S <= 1 /\ 0 <= V <= 1 /\ ~ is_hsv (color_from_hsv H S V) H S V /\ color_from_hsv H S V <> color_from_hsv (H + 360) S V.
Proof.
  exists (- 60), 1, 1. split; [lra|]. split; [lra|].
  rewrite hsv_negative; [|lra|]. 2:{ intros (k & E). assert (K : IZR (6 * k) = IZR (-1)) by (rewrite mult_IZR; lra). apply eq_IZR in K. lia. }
  split; [intros (_ & _ & _ & A); cbn in A; lra|]. intros E.
  destruct (hsv_form (- 60 + 360) ltac:(lra)) as (h & x & y & z & _ & _ & _ & F). rewrite F in E. injection E. intros. lra.
Qed.
Lemma named_assembled br sat :
  color_red br sat = color_from_hsv 0 sat br /\ color_orange br sat = color_from_hsv 30 sat br /\ color_yellow br sat = color_from_hsv 60 sat br /\ color_green br sat = color_from_hsv 120 sat br /\
  color_cyan br sat = color_from_hsv 180 sat br /\ color_blue br sat = color_from_hsv 240 sat br /\ color_magenta br sat = color_from_hsv 300 sat br /\ color_white br = color_from_hsv 0 0 br.
Proof.
  assert (F : forall H, 0 <= H < 360 -> fmod H 360 = H).
  { intros H B. unfold fmod, trunc_R. destruct (Rlt_dec (H / 360) 0); [lra|]. rewrite (floor_unique _ 0) by lra. ring. }
  assert (G : forall H, 0 <= H < 360 -> exists h x y z, h = H / 60 /\ sector h x y z /\ forall S V, color_from_hsv H S V = C4 (V * (1 - S * x)) (V * (1 - S * y)) (V * (1 - S * z)) 1).
  { intros H B. destruct (hsv_form H ltac:(lra)) as (h & x & y & z & E & _ & Sec & K). rewrite F in E by exact B. exists h, x, y, z. auto. }
  assert (Half : 0.5 * br + 0.5 * br * (1 - sat) = br * (1 - sat * / 2)) by lra.
  repeat split.
  - destruct (G 0 ltac:(lra)) as (h & x & y & z & E & Sec & ->). unfold sector in Sec. assert (x = 0 /\ y = 1 /\ z = 1) as (-> & -> & ->) by lra. apply C4_eq; cbn; ring.
  - destruct (G 30 ltac:(lra)) as (h & x & y & z & E & Sec & ->). unfold sector in Sec. assert (x = 0 /\ y = / 2 /\ z = 1) as (-> & -> & ->) by lra. apply C4_eq; cbn [c_r c_g c_b c_a color_orange color_f]; try (rewrite Half; ring); ring.
  - destruct (G 60 ltac:(lra)) as (h & x & y & z & E & Sec & ->). unfold sector in Sec. assert (x = 0 /\ y = 0 /\ z = 1) as (-> & -> & ->) by lra. apply C4_eq; cbn; ring.
  - destruct (G 120 ltac:(lra)) as (h & x & y & z & E & Sec & ->). unfold sector in Sec. assert (x = 1 /\ y = 0 /\ z = 1) as (-> & -> & ->) by lra. apply C4_eq; cbn; ring.
  - destruct (G 180 ltac:(lra)) as (h & x & y & z & E & Sec & ->). unfold sector in Sec. assert (x = 1 /\ y = 0 /\ z = 0) as (-> & -> & ->) by lra. apply C4_eq; cbn; ring.
  - destruct (G 240 ltac:(lra)) as (h & x & y & z & E & Sec & ->). unfold sector in Sec. assert (x = 1 /\ y = 1 /\ z = 0) as (-> & -> & ->) by lra. apply C4_eq; cbn; ring.
  - destruct (G 300 ltac:(lra)) as (h & x & y & z & E & Sec & ->). unfold sector in Sec. assert (x = 0 /\ y = 1 /\ z = 0) as (-> & -> & ->) by lra. apply C4_eq; cbn; ring.
  - destruct (G 0 ltac:(lra)) as (h & x & y & z & E & Sec & ->). unfold sector in Sec. assert (x = 0 /\ y = 1 /\ z = 1) as (-> & -> & ->) by lra. apply C4_eq; cbn; ring.
Qed.
Lemma scale_double : exists c, color_scale Double 1 c <> c.
Proof. exists (C4 0 0 0 1). intros E. injection E. lra. Qed.
Lemma brightness_assembled c : is_brightness c (perceived_brightness c) /\ (unit_channels c -> 0 <= perceived_brightness c <= 1) /\ forall v, 0 <= v -> perceived_brightness (color_white v) = v.
Proof. refine (conj (proj1 (brightness_iff c _) eq_refl) (conj (brightness_unit c) brightness_white)). Qed.
Close Scope R_scope.

Lemma order_assembled {T} (ok : T -> Prop) ltb leb eqb : ordered ok ltb leb -> (forall a b, ok a -> ok b -> eqb a b = negb (ltb a b) && negb (ltb b a)) ->
  let all c := ok (c_r c) /\ ok (c_g c) /\ ok (c_b c) /\ ok (c_a c) in
  ordered all (color_less ltb eqb) (fun a b => negb (color_less ltb eqb b a)) /\
  forall a b, all a -> all b ->
    (color_less ltb eqb a b = true <-> lex_less (fun x y => ltb x y = true) a b) /\
    (color_eq eqb a b = true <-> color_less ltb eqb a b = false /\ color_less ltb eqb b a = false) /\
    color_ne eqb a b = negb (color_eq eqb a b).
Proof.
  intros O E all. split; [apply (color_less_ordered ok ltb leb eqb O E)|]. intros a b A B.
  refine (conj (color_less_iff ok ltb leb eqb O E a b A B) (conj (color_eq_iff ok ltb leb eqb O E a b A B) eq_refl)).
Qed.
Lemma clamp_assembled {T} (ok : T -> Prop) ltb leb (c : rgba T) l u : ordered ok ltb leb -> ok (c_r c) -> ok (c_g c) -> ok (c_b c) -> ok (c_a c) -> ok l -> ok u -> leb l u = true ->
  each (fun x y => leb l y = true /\ leb y u = true /\ (leb l x = true -> leb x u = true -> y = x)) c (color_clamp ltb c l u).
Proof. intros O A B C D L U H. unfold each, color_clamp. cbn [c_r c_g c_b c_a]. repeat apply conj; apply (clamp_channel_ok ok ltb leb O); assumption. Qed.

Lemma partly_changed : exists (stof from_str : str -> option Z) div255 div100 zero one hsv hex_rgb hex_rgba t c c',
  color_from_pn stof from_str div255 div100 zero one hsv hex_rgb hex_rgba t c = Ok (c', false) /\ c' <> c.
Proof.
  exists (fun _ => None), (fun s => match s with [c] => if isdigit c then Some (Z.of_N (N_of_ascii c - 48)) else None | _ => None end), (fun x => x), (fun x => x), 0%Z, 1%Z,
    (fun a b c => C4 a b c 1%Z), (fun _ => C4 0 0 0 1)%Z, (fun _ => C4 0 0 0 1)%Z,
    (PN [] [([], PN (lit "7") [] false); ([], PN (lit "8") [] false); ([], PN (lit "x") [] false)] false), (C4 0 0 0 1)%Z, (C4 7 8 0 1)%Z.
  split; [vm_compute; reflexivity|discriminate].
Qed.
