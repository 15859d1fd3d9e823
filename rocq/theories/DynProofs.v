From Coq Require Import List Arith Bool Reals Lra Lia Psatz.
From Verif Require Import Base BaseProofs NumModel StatModel GeoSpec GeoModel GeoProofs DynSpec DynModel.
Import ListNotations.
Local Open Scope R_scope.

Lemma ofor_up_inv : forall S n first (body : nat -> S -> outcome S) (P : nat -> S -> Prop) s, P first s ->
  (forall i t, (first <= i < first + n)%nat -> P i t -> exists t', body i t = Ok t' /\ P (Datatypes.S i) t') -> exists s', ofor_up n first body s = Ok s' /\ P (first + n)%nat s'.
Proof.
  intros S. induction n as [|n IH]; intros first body P s H0 H; cbn [ofor_up].
  - exists s. rewrite Nat.add_0_r. auto.
  - destruct (H first s) as (t & E & Ht); [lia|exact H0|]. rewrite E. cbn [obind]. destruct (IH (Datatypes.S first) body P t Ht) as (s' & E' & Hs); [intros i u Hi; apply H; lia|].
    exists s'. split; [exact E'|]. replace (first + Datatypes.S n)%nat with (Datatypes.S first + n)%nat by lia. exact Hs.
Qed.
Lemma get_comp : forall v i, (i < length v)%nat -> vec_get v i = Ok (comp v i).
Proof. intros v i H. unfold vec_get, comp. rewrite (nth_error_nth' v 0 H). reflexivity. Qed.
Lemma set_comp : forall v i x, (i < length v)%nat -> exists v', vec_set v i x = Ok v' /\ length v' = length v /\ forall j, comp v' j = if (j =? i)%nat then x else comp v j.
Proof.
  intros v i x H. unfold vec_set. destruct (Nat.ltb_spec i (length v)); [|lia]. eexists. split; [reflexivity|]. split; [apply list_set_length|].
  intros j. unfold comp. destruct (Nat.eqb_spec j i) as [->|N].
  - apply nth_error_nth. apply nth_error_list_set_eq. exact H.
  - destruct (Nat.lt_ge_cases j (length v)) as [L|L].
    + apply nth_error_nth. rewrite nth_error_list_set_neq by auto. apply nth_error_nth'. exact L.
    + rewrite !nth_overflow; [reflexivity|exact L|rewrite list_set_length; exact L].
Qed.
Lemma reqb_iff : forall a b, Reqb a b = true <-> a = b.
Proof. intros a b. unfold Reqb. destruct (Req_EM_T a b); split; congruence. Qed.

Lemma zip_assembled : forall op v1 v2, (length v1 <> length v2 -> dv_zip op v1 v2 = Throw /\ dv_zip_in op v1 v2 = Throw) /\
  (length v1 = length v2 -> exists r, dv_zip op v1 v2 = Ok r /\ dv_zip_in op v1 v2 = Ok r /\ by_component op v1 v2 r).
Proof.
  intros op v1 v2. unfold dv_zip, dv_zip_in. destruct (Nat.eqb_spec (length v1) (length v2)) as [E|E]; split; intros H; try congruence; try (split; reflexivity).
  destruct (ofor_up_inv _ (length v1) 0 (fun i r => do a <- vec_get v1 i; do b <- vec_get v2 i; vec_set r i (op a b))
    (fun i r => length r = length v1 /\ forall j, (j < i)%nat -> comp r j = op (comp v1 j) (comp v2 j)) (repeat 0 (length v1))) as (r & Er & Lr & Hr).
  { split; [apply repeat_length|]. intros j Hj. lia. }
  { intros i t Hi (Lt & Ht). rewrite !get_comp by lia. cbn [obind]. destruct (set_comp t i (op (comp v1 i) (comp v2 i))) as (t' & E' & L' & C'); [lia|]. exists t'. split; [exact E'|]. split; [lia|].
    intros j Hj. rewrite C'. destruct (Nat.eqb_spec j i) as [->|]; [reflexivity|]. apply Ht. lia. }
  destruct (ofor_up_inv _ (length v1) 0 (fun i r => do a <- vec_get r i; do b <- vec_get v2 i; vec_set r i (op a b))
    (fun i r => length r = length v1 /\ forall j, comp r j = if (j <? i)%nat then op (comp v1 j) (comp v2 j) else comp v1 j) v1) as (r2 & Er2 & Lr2 & Hr2).
  { split; [reflexivity|]. intros j. reflexivity. }
  { intros i t Hi (Lt & Ht). rewrite !get_comp by lia. cbn [obind]. destruct (set_comp t i (op (comp t i) (comp v2 i))) as (t' & E' & L' & C'); [lia|]. exists t'. split; [exact E'|]. split; [lia|].
    intros j. rewrite C'. destruct (Nat.eqb_spec j i) as [->|].
    - rewrite !Ht. destruct (Nat.ltb_spec i (S i)), (Nat.ltb_spec i i); try lia. reflexivity.
    - rewrite Ht. destruct (Nat.ltb_spec j (S i)), (Nat.ltb_spec j i); try lia; reflexivity. }
  exists r. split; [exact Er|]. rewrite Nat.add_0_l in Hr, Hr2. replace r with r2.
  - split; [exact Er2|]. split; [exact Lr2|]. intros i Hi. rewrite Hr2. destruct (Nat.ltb_spec i (length v1)); [reflexivity|lia].
  - apply (nth_ext _ _ 0 0); [lia|]. intros i Hi. change (comp r2 i = comp r i). rewrite Hr2, Hr by lia. destruct (Nat.ltb_spec i (length v1)); [reflexivity|lia].
Qed.
Lemma self_add_assembled : forall v, exists r, dv_add_self v = Ok r /\ by_component Rplus v v r.
Proof.
  intros v. unfold dv_add_self.
  destruct (ofor_up_inv _ (length v) 0 (fun i r => do a <- vec_get r i; do b <- vec_get r i; vec_set r i (a + b))
    (fun i r => length r = length v /\ forall j, comp r j = if (j <? i)%nat then comp v j + comp v j else comp v j) v) as (r & Er & Lr & Hr).
  { split; [reflexivity|]. intros j. reflexivity. }
  { intros i t Hi (Lt & Ht). rewrite !get_comp by lia. cbn [obind]. destruct (set_comp t i (comp t i + comp t i)) as (t' & E' & L' & C'); [lia|]. exists t'. split; [exact E'|]. split; [lia|].
    intros j. rewrite C'. destruct (Nat.eqb_spec j i) as [->|].
    - rewrite !Ht. destruct (Nat.ltb_spec i (S i)), (Nat.ltb_spec i i); try lia. reflexivity.
    - rewrite Ht. destruct (Nat.ltb_spec j (S i)), (Nat.ltb_spec j i); try lia; reflexivity. }
  exists r. split; [exact Er|]. split; [exact Lr|]. intros i Hi. rewrite Hr. cbn [plus]. rewrite Nat.add_0_l. destruct (Nat.ltb_spec i (length v)); [reflexivity|lia].
Qed.

Lemma eq_loop_spec : forall v1 v2 n i, length v1 = length v2 -> (i + n = length v1)%nat -> exists b, dv_eq_loop v1 v2 n i = Ok b /\ (b = true <-> forall j, (i <= j)%nat -> comp v1 j = comp v2 j).
Proof.
  intros v1 v2. induction n as [|n IH]; intros i L E; cbn [dv_eq_loop].
  - exists true. split; [reflexivity|]. split; [|reflexivity]. intros _ j Hj. unfold comp. rewrite !nth_overflow by lia. reflexivity.
  - rewrite !get_comp by lia. cbn [obind]. destruct (Reqb (comp v1 i) (comp v2 i)) eqn:Q.
    + apply reqb_iff in Q. destruct (IH (S i) L) as (b & Eb & Hb); [lia|]. exists b. split; [exact Eb|]. rewrite Hb. split; intros H j Hj; [|apply H; lia].
      destruct (Nat.eq_dec j i) as [->|]; [exact Q|apply H; lia].
    + exists false. split; [reflexivity|]. split; [discriminate|]. intros H. rewrite (proj2 (reqb_iff _ _) (H i (le_n i))) in Q. discriminate.
Qed.
Lemma eq_assembled : forall v1 v2, (length v1 <> length v2 -> dv_eq v1 v2 = Throw) /\ (length v1 = length v2 -> exists b, dv_eq v1 v2 = Ok b /\ (b = true <-> v1 = v2)).
Proof.
  intros v1 v2. unfold dv_eq. destruct (Nat.eqb_spec (length v1) (length v2)) as [E|E]; split; intros H; try congruence.
  destruct (eq_loop_spec v1 v2 (length v1) 0 E) as (b & Eb & Hb); [lia|]. exists b. split; [exact Eb|]. rewrite Hb. split; [|intros ->; reflexivity].
  intros G. apply (nth_ext _ _ 0 0); [exact E|]. intros i Hi. apply (G i). lia.
Qed.

Lemma comp_map : forall f v i, (i < length v)%nat -> comp (map f v) i = f (comp v i).
Proof. intros f v i H. unfold comp. rewrite (nth_indep _ 0 (f 0)) by (rewrite map_length; exact H). apply map_nth. Qed.
Lemma scale_assembled : forall s v, length (dv_scale s v) = length v /\ length (dv_neg v) = length v /\
  (forall i, (i < length v)%nat -> comp (dv_scale s v) i = s * comp v i /\ comp (dv_neg v) i = - comp v i) /\
  (s = 0 -> dv_div v s = UB) /\ (s <> 0 -> exists r, dv_div v s = Ok r /\ length r = length v /\ forall i, (i < length v)%nat -> comp r i = comp v i / s).
Proof.
  intros s v. unfold dv_scale, dv_neg. rewrite !map_length. split; [reflexivity|]. split; [reflexivity|]. split.
  - intros i Hi. rewrite !comp_map by exact Hi. split; [ring|reflexivity].
  - unfold dv_div, div_checked. destruct (Req_EM_T s 0) as [Z|N]; split; intros H; try congruence; [reflexivity|]. cbn [obind]. eexists. split; [reflexivity|]. unfold dv_scale. rewrite map_length. split; [reflexivity|].
    intros i Hi. rewrite comp_map by exact Hi. field. exact N.
Qed.

Lemma sum_ext : forall f g n, (forall i, (i < n)%nat -> f i = g i) -> sum_to f n = sum_to g n.
Proof. induction n as [|n IH]; intros H; cbn; [reflexivity|]. rewrite IH, H by (intros; try apply H; lia). reflexivity. Qed.
Lemma sum_shift : forall n f, sum_to f (S n) = f 0%nat + sum_to (fun i => f (S i)) n.
Proof. induction n as [|n IH]; intros f; [cbn; ring|]. change (sum_to f (S (S n))) with (sum_to f (S n) + f (S n)). rewrite IH. cbn. ring. Qed.
Lemma sum_plus : forall f g n, sum_to (fun i => f i + g i) n = sum_to f n + sum_to g n.
Proof. induction n as [|n IH]; cbn; [ring|]. rewrite IH. ring. Qed.
Lemma sum_scal : forall f s n, sum_to (fun i => s * f i) n = s * sum_to f n.
Proof. induction n as [|n IH]; cbn; [ring|]. rewrite IH. ring. Qed.
Lemma sum_nonneg : forall f n, (forall i, 0 <= f i) -> 0 <= sum_to f n.
Proof. induction n as [|n IH]; intros H; cbn; [lra|]. specialize (IH H). specialize (H n). lra. Qed.

Lemma sq_loop_spec : forall v a, sq_loop v a = a + inner v v.
Proof.
  induction v as [|e v IH]; intros a; cbn [sq_loop]; [unfold inner; cbn; ring|]. rewrite IH. unfold inner. cbn [length]. rewrite sum_shift. 
  change (fun i => comp (e :: v) (S i) * comp (e :: v) (S i)) with (fun i => comp v i * comp v i). change (comp (e :: v) 0) with e. ring.
Qed.
Lemma sum_loop_spec : forall f v1 v2, length v1 = length v2 -> dv_sum f v1 v2 = Ok (sum_to (fun i => f (comp v1 i) (comp v2 i)) (length v1)).
Proof.
  intros f v1 v2 E. unfold dv_sum. rewrite E, Nat.eqb_refl, <- E.
  destruct (ofor_up_inv _ (length v1) 0 (fun i sum => do a <- vec_get v1 i; do b <- vec_get v2 i; Ok (sum + f a b)) (fun i s => s = sum_to (fun i => f (comp v1 i) (comp v2 i)) i) 0) as (s & Es & Hs).
  - reflexivity.
  - intros i t Hi ->. rewrite !get_comp by lia. cbn [obind]. eexists. split; reflexivity.
  - rewrite Es, Hs. reflexivity.
Qed.
Lemma inner_nonneg : forall v, 0 <= inner v v.
Proof. intros v. apply sum_nonneg. intros i. pose proof (Rle_0_sqr (comp v i)). unfold Rsqr in *. lra. Qed.
Lemma inner_zero : forall v, inner v v = 0 -> forall i, (i < length v)%nat -> comp v i = 0.
Proof.
  intros v. unfold inner. intros H. assert (G : forall n, sum_to (fun i => comp v i * comp v i) n = 0 -> forall i, (i < n)%nat -> comp v i = 0).
  { induction n as [|n IH]; cbn; intros E i Hi; [lia|]. pose proof (Rle_0_sqr (comp v n)) as S1. unfold Rsqr in S1.
    assert (S2 : 0 <= sum_to (fun i => comp v i * comp v i) n) by (apply sum_nonneg; intros k; pose proof (Rle_0_sqr (comp v k)); unfold Rsqr in *; lra).
    destruct (Nat.eq_dec i n) as [->|]; [|apply IH; [lra|lia]]. assert (comp v n * comp v n = 0) by lra. apply Rmult_integral in H0. tauto. }
  apply G. exact H.
Qed.
Lemma cauchy_sum : forall f g n, Rsqr (sum_to (fun i => f i * g i) n) <= sum_to (fun i => f i * f i) n * sum_to (fun i => g i * g i) n.
Proof.
  intros f g. induction n as [|n IH]; [cbn; unfold Rsqr; lra|]. cbn [sum_to]. set (S := sum_to (fun i => f i * g i) n) in *. set (A := sum_to (fun i => f i * f i) n) in *. set (B := sum_to (fun i => g i * g i) n) in *.
  assert (HA : 0 <= A) by (apply sum_nonneg; intros k; pose proof (Rle_0_sqr (f k)); unfold Rsqr in *; lra).
  assert (HB : 0 <= B) by (apply sum_nonneg; intros k; pose proof (Rle_0_sqr (g k)); unfold Rsqr in *; lra).
  set (a := f n). set (b := g n). clearbody S A B a b.
  assert (K : 2 * S * a * b <= A * (b * b) + B * (a * a)).
  { apply Rsqr_incr_0_var.
    - unfold Rsqr in *. assert (G : 0 <= (A * B - S * S) * (a * a * (b * b))).
      { apply Rmult_le_pos; [lra|]. apply Rmult_le_pos; [pose proof (Rle_0_sqr a)|pose proof (Rle_0_sqr b)]; unfold Rsqr in *; lra. }
      pose proof (Rle_0_sqr (A * (b * b) - B * (a * a))) as Q. unfold Rsqr in Q. nra.
    - pose proof (Rle_0_sqr a). pose proof (Rle_0_sqr b). unfold Rsqr in *. assert (0 <= A * (b * b)) by (apply Rmult_le_pos; lra). assert (0 <= B * (a * a)) by (apply Rmult_le_pos; lra). lra. }
  unfold Rsqr in *. nra.
Qed.
Lemma cauchy_assembled : forall u v, length u = length v -> Rabs (inner u v) <= magnitude u * magnitude v.
Proof.
  intros u v E. unfold magnitude. rewrite <- sqrt_mult by apply inner_nonneg. rewrite <- sqrt_Rsqr_abs. apply sqrt_le_1_alt. unfold inner. rewrite <- E. apply cauchy_sum.
Qed.
Lemma length_dv_ok : forall v, length_dv v = magnitude v.
Proof. intros v. unfold length_dv, squared_length, magnitude. rewrite sq_loop_spec, Rplus_0_l. reflexivity. Qed.
Lemma is_null_spec : forall v, is_null v = true <-> forall i, (i < length v)%nat -> comp v i = 0.
Proof.
  induction v as [|e v IH]; cbn [is_null].
  - split; [intros _ i Hi; cbn in Hi; lia|reflexivity].
  - destruct (Reqb e 0) eqn:Q.
    + apply reqb_iff in Q. rewrite IH. split; intros H i Hi.
      * destruct i as [|i]; [exact Q|]. apply (H i). cbn in Hi. lia.
      * apply (H (S i)). cbn. lia.
    + split; [discriminate|]. intros H. specialize (H 0%nat). cbn in H. rewrite (proj2 (reqb_iff e 0)) in Q by (apply H; lia). discriminate.
Qed.
Lemma length_assembled : forall v, length_dv v = magnitude v /\ squared_length v = inner v v /\ 0 <= length_dv v /\ (is_null v = true <-> length_dv v = 0).
Proof.
  intros v. split; [apply length_dv_ok|]. split; [unfold squared_length; rewrite sq_loop_spec; ring|]. split; [apply sqrt_pos|]. rewrite is_null_spec, length_dv_ok. split.
  - intros H. unfold magnitude. replace (inner v v) with 0; [apply sqrt_0|]. unfold inner. symmetry. rewrite (sum_ext _ (fun _ => 0 * 0)); [rewrite sum_scal; ring|]. intros i Hi. rewrite H by exact Hi. reflexivity.
  - intros H. apply inner_zero. apply sqrt_eq_0; [apply inner_nonneg|exact H].
Qed.
Lemma dot_assembled : forall u v, (length u <> length v -> dv_dot u v = Throw /\ dv_distance u v = Throw) /\
  (length u = length v -> dv_dot u v = Ok (inner u v) /\ exists w, dv_sub u v = Ok w /\ dv_distance u v = Ok (magnitude w)).
Proof.
  intros u v. split; intros E.
  - unfold dv_distance, dv_dot, dv_sum. destruct (Nat.eqb_spec (length u) (length v)); [congruence|]. split; reflexivity.
  - split; [apply sum_loop_spec; exact E|]. destruct (proj2 (zip_assembled Rminus u v) E) as (w & Ew & _ & L & C). exists w. split; [exact Ew|]. unfold dv_distance. rewrite sum_loop_spec by exact E. cbn [obind].
    f_equal. unfold magnitude. f_equal. unfold inner. rewrite L. apply sum_ext. intros i Hi. rewrite C by exact Hi. reflexivity.
Qed.
Lemma triangle_assembled : forall a b c, length a = length b -> length b = length c -> exists x y z, dv_distance a c = Ok x /\ dv_distance a b = Ok y /\ dv_distance b c = Ok z /\ x <= y + z.
Proof.
  intros a b c E1 E2. destruct (dot_assembled a c) as (_ & D1). destruct (dot_assembled a b) as (_ & D2). destruct (dot_assembled b c) as (_ & D3).
  destruct (D1 (eq_trans E1 E2)) as (_ & w & W & D). destruct (D2 E1) as (_ & u & U & Du). destruct (D3 E2) as (_ & v & V & Dv). do 3 eexists. repeat split; [exact D|exact Du|exact Dv|].
  destruct (proj2 (zip_assembled Rminus a c) (eq_trans E1 E2)) as (w' & W' & _ & Lw & Cw). change (dv_zip Rminus) with dv_sub in W'. rewrite W in W'. injection W' as <-.
  destruct (proj2 (zip_assembled Rminus a b) E1) as (u' & U' & _ & Lu & Cu). change (dv_zip Rminus) with dv_sub in U'. rewrite U in U'. injection U' as <-.
  destruct (proj2 (zip_assembled Rminus b c) E2) as (v' & V' & _ & Lv & Cv). change (dv_zip Rminus) with dv_sub in V'. rewrite V in V'. injection V' as <-.
  assert (Luv : length u = length v) by congruence. pose proof (cauchy_assembled u v Luv) as K. apply Rsqr_incr_0_var; [|unfold magnitude; pose proof (sqrt_pos (inner u u)); pose proof (sqrt_pos (inner v v)); lra].
  assert (Q : inner w w = inner u u + 2 * inner u v + inner v v).
  { unfold inner. rewrite <- Luv, Lw, Lu, <- sum_scal, <- !sum_plus. apply sum_ext. intros i Hi. rewrite Cw, Cu, Cv by lia. ring. }
  unfold Rsqr. unfold magnitude in *. rewrite sqrt_sqrt by apply inner_nonneg. rewrite Q.
  replace ((sqrt (inner u u) + sqrt (inner v v)) * (sqrt (inner u u) + sqrt (inner v v))) with (sqrt (inner u u) * sqrt (inner u u) + 2 * (sqrt (inner u u) * sqrt (inner v v)) + sqrt (inner v v) * sqrt (inner v v)) by ring.
  rewrite !sqrt_sqrt by apply inner_nonneg. pose proof (Rle_abs (inner u v)). lra.
Qed.
Lemma normalize_assembled : forall epsilon v, 0 <= epsilon ->
  (epsilon < magnitude v -> exists r, dv_normalize epsilon v = Ok (r, magnitude v) /\ magnitude r = 1 /\ length r = length v /\ forall i, (i < length v)%nat -> comp r i = comp v i / magnitude v) /\
  (magnitude v <= epsilon -> dv_normalize epsilon v = Ok (v, magnitude v)).
Proof.
  intros epsilon v He. unfold dv_normalize. rewrite length_dv_ok. split; intros H.
  - destruct (Rlt_dec epsilon (magnitude v)) as [_|]; [|lra]. destruct (scale_assembled (magnitude v) v) as (_ & _ & _ & _ & D). destruct D as (r & Er & Lr & Cr); [lra|]. rewrite Er. cbn [obind]. exists r. split; [reflexivity|]. split; [|auto].
    assert (P : 0 < magnitude v) by lra. assert (S : magnitude v * magnitude v = inner v v) by (apply sqrt_sqrt, inner_nonneg). unfold magnitude at 1. replace (inner r r) with 1; [apply sqrt_1|]. unfold inner. rewrite Lr.
    rewrite (sum_ext _ (fun i => / (magnitude v * magnitude v) * (comp v i * comp v i))) by (intros i Hi; rewrite Cr by exact Hi; field; lra).
    rewrite sum_scal. change (sum_to (fun i => comp v i * comp v i) (length v)) with (inner v v). rewrite S. field. rewrite <- S. apply Rmult_integral_contrapositive. lra.
  - destruct (Rlt_dec epsilon (magnitude v)); [lra|reflexivity].
Qed.

(** Matrices. *)
Section Mat.
Context {T : Type} (dflt : T).
Implicit Types m : dynmat T.
Lemma cell_lt : forall cols rows c r, (c < cols)%nat -> (r < rows)%nat -> (r * cols + c < rows * cols)%nat.
Proof. intros. nia. Qed.
Lemma cell_inj : forall cols c r c' r', (c < cols)%nat -> (c' < cols)%nat -> (r * cols + c)%nat = (r' * cols + c')%nat -> c = c' /\ r = r'.
Proof. intros cols c r c' r' H H' E. destruct (Nat.lt_trichotomy r r') as [L|[->|L]]; [nia|lia|nia]. Qed.
Lemma new_shape : forall cols rows (v : T), shaped (mat_new cols rows v) cols rows.
Proof. intros. split; [reflexivity|]. cbn. apply repeat_length. Qed.
Lemma nth_repeat_ok : forall n (v : T) i, (i < n)%nat -> nth_error (repeat v n) i = Some v.
Proof. induction n as [|n IH]; intros v i H; [lia|]. destruct i as [|i]; [reflexivity|]. apply IH. lia. Qed.
Lemma new_get : forall cols rows (v : T) c r, (c < cols)%nat -> (r < rows)%nat -> mat_get (mat_new cols rows v) c r = Ok v.
Proof. intros. unfold mat_get, vec_get, mat_new. cbn [m_data m_cols]. rewrite nth_repeat_ok; [reflexivity|]. apply cell_lt; assumption. Qed.
Lemma rows_ok : forall m cols rows, shaped m cols rows -> mat_rows m = if (cols =? 0)%nat then 0%nat else rows.
Proof.
  intros m cols rows (C & L). unfold mat_rows, mat_empty. destruct (m_data m) as [|x d] eqn:E.
  - cbn in L. destruct (Nat.eqb_spec cols 0); [reflexivity|]. destruct rows; [reflexivity|]. nia.
  - destruct (Nat.eqb_spec cols 0) as [->|N]; [cbn [length] in L; nia|]. rewrite L, C. apply Nat.div_mul. exact N.
Qed.
Lemma get_in : forall m cols rows c r, shaped m cols rows -> (c < cols)%nat -> (r < rows)%nat -> exists x, mat_get m c r = Ok x.
Proof.
  intros m cols rows c r (C & L) Hc Hr. unfold mat_get, vec_get. rewrite C. destruct (nth_error (m_data m) (r * cols + c)) as [x|] eqn:E; [eauto|]. apply nth_error_None in E. pose proof (cell_lt cols rows c r Hc Hr). lia.
Qed.
Lemma set_in : forall m cols rows c r v, shaped m cols rows -> (c < cols)%nat -> (r < rows)%nat -> exists m', mat_set m c r v = Ok m' /\ shaped m' cols rows /\
  mat_get m' c r = Ok v /\ forall c' r', (c' < cols)%nat -> (c', r') <> (c, r) -> mat_get m' c' r' = mat_get m c' r'.
Proof.
  intros m cols rows c r v (C & L) Hc Hr. unfold mat_set, vec_set. rewrite C. pose proof (cell_lt cols rows c r Hc Hr) as K. destruct (Nat.ltb_spec (r * cols + c) (length (m_data m))); [|lia]. cbn [obind].
  eexists. split; [reflexivity|]. split; [split; [reflexivity|cbn; rewrite list_set_length; exact L]|]. unfold mat_get, vec_get. cbn [m_data m_cols]. rewrite C. split.
  - rewrite nth_error_list_set_eq by lia. reflexivity.
  - intros c' r' Hc' N. rewrite nth_error_list_set_neq; [reflexivity|]. intros E. destruct (cell_inj cols c r c' r' Hc Hc'); [lia|congruence].
Qed.
Lemma table_assembled : forall m cols rows, shaped m cols rows -> (0 < cols)%nat ->
  m_cols m = cols /\ mat_rows m = rows /\ (mat_empty m = true <-> rows = 0%nat) /\
  (forall c r v, (c < cols)%nat -> (r < rows)%nat -> exists m', mat_set m c r v = Ok m' /\ shaped m' cols rows /\ mat_get m' c r = Ok v /\
     forall c' r', (c' < cols)%nat -> (c', r') <> (c, r) -> mat_get m' c' r' = mat_get m c' r').
Proof.
  intros m cols rows S H. split; [apply S|]. split; [|split].
  - rewrite (rows_ok m cols rows S). destruct (Nat.eqb_spec cols 0); [lia|reflexivity].
  - destruct S as (C & L). unfold mat_empty. destruct (m_data m) as [|x d]; cbn [length] in L; split; intros E; try congruence; [nia|subst; lia].
  - intros c r v Hc Hr. apply set_in; assumption.
Qed.
Lemma resize_assembled : forall m cols rows newcols newrows, shaped m cols rows -> exists m', mat_resize dflt m newcols newrows = Ok m' /\ shaped m' newcols newrows /\
  (forall c r, (c < cols)%nat -> (r < rows)%nat -> (c < newcols)%nat -> (r < newrows)%nat -> mat_get m' c r = mat_get m c r) /\
  (forall c r, (c < newcols)%nat -> (r < newrows)%nat -> (cols <= c \/ rows <= r)%nat -> mat_get m' c r = Ok dflt).
Proof.
  intros m cols rows newcols newrows S. unfold mat_resize. rewrite (rows_ok m cols rows S). pose proof S as (C & L). rewrite C. set (rw := if (cols =? 0)%nat then 0%nat else rows).
  destruct (ofor_up_inv _ (Nat.min rw newrows) 0 (fun r nm => ofor_up (Nat.min cols newcols) 0 (fun c nm => do x <- mat_get m c r; mat_set nm c r x) nm)
    (fun k nm => shaped nm newcols newrows /\ forall c r, (c < newcols)%nat -> (r < newrows)%nat -> mat_get nm c r = if ((r <? k) && (c <? cols))%nat then mat_get m c r else Ok dflt) (mat_new newcols newrows dflt)) as (m' & E & S' & G).
  - split; [apply new_shape|]. intros c r Hc Hr. cbn. apply new_get; assumption.
  - intros k nm Hk (Sn & Gn).
    destruct (ofor_up_inv _ (Nat.min cols newcols) 0 (fun c nm => do x <- mat_get m c k; mat_set nm c k x)
      (fun j nm => shaped nm newcols newrows /\ forall c r, (c < newcols)%nat -> (r < newrows)%nat -> mat_get nm c r = if ((r <? k) && (c <? cols) || (r =? k) && (c <? j))%nat then mat_get m c r else Ok dflt) nm) as (m2 & E2 & S2 & G2).
    + split; [exact Sn|]. intros c r Hc Hr. rewrite Gn by assumption. replace (c <? 0)%nat with false by reflexivity. rewrite andb_false_r, orb_false_r. reflexivity.
    + intros j t Hj (St & Gt). assert (Hjc : (j < cols)%nat) by lia. assert (Hkr : (k < rows)%nat) by (unfold rw in Hk; destruct (cols =? 0)%nat; lia).
      destruct (get_in m cols rows j k S Hjc Hkr) as (x & Ex). rewrite Ex. cbn [obind]. destruct (set_in t newcols newrows j k x St) as (t' & Et & St' & Gj & Go); [lia|lia|]. exists t'. split; [exact Et|]. split; [exact St'|].
      intros c r Hc Hr. destruct (Nat.eq_dec c j) as [->|Nc], (Nat.eq_dec r k) as [->|Nr].
      * rewrite Gj, Ex, Nat.eqb_refl. destruct (Nat.ltb_spec j (Datatypes.S j)); [|lia]. rewrite orb_true_r. reflexivity.
      * rewrite Go, Gt by (auto; congruence). destruct (Nat.eqb_spec r k); [congruence|]. reflexivity.
      * rewrite Go, Gt by (auto; congruence). destruct (Nat.eqb_spec k k); [|congruence]. destruct (Nat.ltb_spec c j), (Nat.ltb_spec c (Datatypes.S j)); try lia; reflexivity.
      * rewrite Go, Gt by (auto; congruence). destruct (Nat.eqb_spec r k); [congruence|]. reflexivity.
    + exists m2. split; [exact E2|]. split; [exact S2|]. intros c r Hc Hr. rewrite G2 by assumption. cbn [Nat.add].
      destruct (Nat.ltb_spec r k), (Nat.ltb_spec r (Datatypes.S k)), (Nat.eqb_spec r k), (Nat.ltb_spec c cols), (Nat.ltb_spec c (Nat.min cols newcols)); cbn; try lia; reflexivity.
  - exists m'. split; [exact E|]. split; [exact S'|]. cbn [Nat.add] in G. split.
    + intros c r Hc Hr Hnc Hnr. rewrite G by assumption. unfold rw. destruct (Nat.eqb_spec cols 0); [lia|]. destruct (Nat.ltb_spec r (Nat.min rows newrows)), (Nat.ltb_spec c cols); try lia. reflexivity.
    + intros c r Hnc Hnr Ho. rewrite G by assumption. unfold rw. destruct (Nat.eqb_spec cols 0).
      * destruct (Nat.ltb_spec c cols); [lia|]. rewrite andb_false_r. reflexivity.
      * destruct (Nat.ltb_spec r (Nat.min rows newrows)), (Nat.ltb_spec c cols); try lia; reflexivity.
Qed.
End Mat.

Lemma entry_get : forall m cols rows c r, shaped m cols rows -> (c < cols)%nat -> (r < rows)%nat -> mat_get m c r = Ok (entry m c r).
Proof. intros m cols rows c r (C & L) Hc Hr. unfold mat_get, entry. apply get_comp. rewrite C, L. apply cell_lt; assumption. Qed.
Lemma mat_times_assembled : forall m n v, shaped m n n -> length v = n -> exists r, mat_times_dv m v = Ok r /\ length r = n /\
  forall row, (row < n)%nat -> comp r row = sum_to (fun col => entry m row col * comp v col) n.
Proof.
  intros m n v S L. unfold mat_times_dv. pose proof S as (C & D). rewrite C, L, Nat.eqb_refl. rewrite (rows_ok m n n S). replace (if (n =? 0)%nat then 0%nat else n) with n by (destruct n; reflexivity).
  destruct (ofor_up_inv _ n 0 (fun row r => do sum <- ofor_up n 0 (fun col sum => do a <- mat_get m row col; do b <- vec_get v col; Ok (sum + a * b)) 0; vec_set r row sum)
    (fun k r => length r = n /\ forall row, (row < k)%nat -> comp r row = sum_to (fun col => entry m row col * comp v col) n) (repeat 0 n)) as (r & E & Lr & G).
  - split; [apply repeat_length|]. intros row H. lia.
  - intros k t Hk (Lt & Gt).
    destruct (ofor_up_inv _ n 0 (fun col sum => do a <- mat_get m k col; do b <- vec_get v col; Ok (sum + a * b)) (fun j s => s = sum_to (fun col => entry m k col * comp v col) j) 0) as (s & Es & Hs); [reflexivity| |].
    { intros j u Hj ->. rewrite (entry_get m n n k j S) by lia. rewrite get_comp by lia. cbn [obind]. eexists. split; reflexivity. }
    rewrite Es. cbn [obind]. rewrite Hs. destruct (set_comp t k (sum_to (fun col => entry m k col * comp v col) (0 + n))) as (t' & E' & L' & C'); [lia|]. exists t'. split; [exact E'|]. split; [lia|].
    intros row Hr. rewrite C'. destruct (Nat.eqb_spec row k) as [->|]; [reflexivity|]. apply Gt. lia.
  - exists r. split; [exact E|]. split; [exact Lr|]. exact G.
Qed.

(** Scales. *)
Lemma sc_assembled : forall s t v, sc_mul sc_one v = v /\ sc_mul s (sc_mul t v) = sc_mul (sc_mul s t) v /\ (forall k, sc_mul (sc_uniform k) v = times k v) /\ sc_is_one sc_one = true /\ (sc_is_one s = true <-> s = sc_one) /\
  (vx s <> 0 -> vy s <> 0 -> vz s <> 0 -> sc_div (sc_mul s v) s = Ok v /\ exists w, sc_div v s = Ok w /\ sc_mul s w = v) /\ (vx s = 0 \/ vy s = 0 \/ vz s = 0 -> sc_div v s = UB).
Proof.
  intros [sx sy sz] [tx ty tz] [x y z]. unfold sc_mul, sc_one, sc_uniform, times, sc_is_one, sc_div, div_checked. cbn [vx vy vz].
  assert (R1 : Reqb 1 1 = true) by (apply reqb_iff; reflexivity).
  split; [f_equal; ring|]. split; [f_equal; ring|]. split; [intros k; reflexivity|]. split; [rewrite R1; reflexivity|]. split; [|split].
  - rewrite !andb_true_iff, !reqb_iff. split; [intros ((-> & ->) & ->); reflexivity|]. intros [= -> -> ->]. auto.
  - intros H1 H2 H3. destruct (Req_EM_T sx 0); [contradiction|]. destruct (Req_EM_T sy 0); [contradiction|]. destruct (Req_EM_T sz 0); [contradiction|]. cbn [obind]. split.
    + f_equal. f_equal; field; assumption.
    + eexists. split; [reflexivity|]. cbn [vx vy vz]. f_equal; field; assumption.
  - intros H. destruct (Req_EM_T sx 0); cbn [obind]; [reflexivity|]. destruct (Req_EM_T sy 0); cbn [obind]; [reflexivity|]. destruct (Req_EM_T sz 0); cbn [obind]; [reflexivity|]. tauto.
Qed.
