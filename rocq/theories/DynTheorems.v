(** Theorems about vectors and matrices of any size, vec4 and scale3. *)
From Coq Require Import List Arith Bool Reals Lra Lia.
From Verif Require Import Base NumModel StatModel GeoSpec GeoModel DynSpec DynModel DynProofs.
Import ListNotations.
Open Scope R_scope.

(** C101: + and - and their in-place versions work component by component and throw for different sizes *)
Theorem C101_sum : forall op v1 v2, (length v1 <> length v2 -> dv_zip op v1 v2 = Throw /\ dv_zip_in op v1 v2 = Throw) /\
  (length v1 = length v2 -> exists r, dv_zip op v1 v2 = Ok r /\ dv_zip_in op v1 v2 = Ok r /\ by_component op v1 v2 r).
Proof. exact zip_assembled. Qed.
Print Assumptions C101_sum.
(** C101: also for a vector added to itself *)
Theorem C101_self : forall v, exists r, dv_add_self v = Ok r /\ by_component Rplus v v r.
Proof. exact self_add_assembled. Qed.
Print Assumptions C101_self.
(** C101: scaling, negation and division work component by component; dividing by zero is undefined *)
Theorem C101_scale : forall s v, length (dv_scale s v) = length v /\ length (dv_neg v) = length v /\
  (forall i, (i < length v)%nat -> comp (dv_scale s v) i = s * comp v i /\ comp (dv_neg v) i = - comp v i) /\
  (s = 0 -> dv_div v s = UB) /\ (s <> 0 -> exists r, dv_div v s = Ok r /\ length r = length v /\ forall i, (i < length v)%nat -> comp r i = comp v i / s).
Proof. exact scale_assembled. Qed.
Print Assumptions C101_scale.
(** C101: == is equality for vectors of equal size, and throws otherwise *)
Theorem C101_equal : forall v1 v2, (length v1 <> length v2 -> dv_eq v1 v2 = Throw) /\ (length v1 = length v2 -> exists b, dv_eq v1 v2 = Ok b /\ (b = true <-> v1 = v2)).
Proof. exact eq_assembled. Qed.
Print Assumptions C101_equal.
(** C101: length is the Euclidean norm, zero exactly for null vectors *)
Theorem C101_length : forall v, length_dv v = magnitude v /\ squared_length v = inner v v /\ 0 <= length_dv v /\ (is_null v = true <-> length_dv v = 0).
Proof. exact length_assembled. Qed.
Print Assumptions C101_length.
(** C101: dot_product is the inner product and distance the length of the difference; both throw for different sizes *)
Theorem C101_dot : forall u v, (length u <> length v -> dv_dot u v = Throw /\ dv_distance u v = Throw) /\
  (length u = length v -> dv_dot u v = Ok (inner u v) /\ exists w, dv_sub u v = Ok w /\ dv_distance u v = Ok (magnitude w)).
Proof. exact dot_assembled. Qed.
Print Assumptions C101_dot.
(** C101: Cauchy-Schwarz and the triangle inequality hold in every dimension *)
Theorem C101_cauchy : forall u v, length u = length v -> Rabs (inner u v) <= magnitude u * magnitude v.
Proof. exact cauchy_assembled. Qed.
Print Assumptions C101_cauchy.
Theorem C101_triangle : forall a b c, length a = length b -> length b = length c -> exists x y z, dv_distance a c = Ok x /\ dv_distance a b = Ok y /\ dv_distance b c = Ok z /\ x <= y + z.
Proof. exact triangle_assembled. Qed.
Print Assumptions C101_triangle.
(** C101: normalising makes the length 1 without changing the direction and returns the old length; vectors not longer than epsilon stay as they are *)
Theorem C101_normalize : forall epsilon v, 0 <= epsilon ->
  (epsilon < magnitude v -> exists r, dv_normalize epsilon v = Ok (r, magnitude v) /\ magnitude r = 1 /\ length r = length v /\ forall i, (i < length v)%nat -> comp r i = comp v i / magnitude v) /\
  (magnitude v <= epsilon -> dv_normalize epsilon v = Ok (v, magnitude v)).
Proof. exact normalize_assembled. Qed.
Print Assumptions C101_normalize.
Example C101_case : inner [1; 2; 3] [4; 5; 6] = 32 /\ magnitude [3; 4] = 5.
Proof.
  split; [unfold inner, comp; cbn; ring|]. unfold magnitude, inner, comp. cbn [sum_to length nth]. replace (0 + 3 * 3 + 4 * 4) with (5 * 5) by ring. apply sqrt_square. lra.
Qed.

(** C102: a matrix is a table: writing an element changes that one only; numbers of columns and rows are as made *)
Theorem C102_table : forall T (m : dynmat T) cols rows, shaped m cols rows -> (0 < cols)%nat ->
  m_cols m = cols /\ mat_rows m = rows /\ (mat_empty m = true <-> rows = 0%nat) /\
  (forall c r v, (c < cols)%nat -> (r < rows)%nat -> exists m', mat_set m c r v = Ok m' /\ shaped m' cols rows /\ mat_get m' c r = Ok v /\
     forall c' r', (c' < cols)%nat -> (c', r') <> (c, r) -> mat_get m' c' r' = mat_get m c' r').
Proof. exact @table_assembled. Qed.
Print Assumptions C102_table.
(** C102: a new matrix has the given shape and value everywhere *)
Theorem C102_new : forall T cols rows (v : T), shaped (mat_new cols rows v) cols rows /\ forall c r, (c < cols)%nat -> (r < rows)%nat -> mat_get (mat_new cols rows v) c r = Ok v.
Proof. exact (fun T cols rows v => conj (new_shape cols rows v) (new_get cols rows v)). Qed.
Print Assumptions C102_new.
(** C102: resizing keeps the elements that are in both shapes; new ones get the default value *)
Theorem C102_resize : forall T (dflt : T) m cols rows newcols newrows, shaped m cols rows -> exists m', mat_resize dflt m newcols newrows = Ok m' /\ shaped m' newcols newrows /\
  (forall c r, (c < cols)%nat -> (r < rows)%nat -> (c < newcols)%nat -> (r < newrows)%nat -> mat_get m' c r = mat_get m c r) /\
  (forall c r, (c < newcols)%nat -> (r < newrows)%nat -> (cols <= c \/ rows <= r)%nat -> mat_get m' c r = Ok dflt).
Proof. exact @resize_assembled. Qed.
Print Assumptions C102_resize.
Example C102_case : shaped (Mat 3 [1; 2; 3; 4; 5; 6]%nat) 3 2 /\ mat_resize 0%nat (Mat 3 [1; 2; 3; 4; 5; 6]%nat) 2 3 = Ok (Mat 2 [1; 2; 4; 5; 0; 0]%nat).
Proof. repeat split. Qed.
(** C102: a cleared matrix is empty, has no rows and no columns *)
Theorem C102_clear : forall T (m : dynmat T), shaped (mat_clear m) 0 0 /\ mat_empty (mat_clear m) = true /\ mat_rows (mat_clear m) = 0%nat.
Proof. intros T m. repeat split. Qed.
Print Assumptions C102_clear.
(** C102: the product with a vector is that of the transposed matrix, for square matrices *)
Theorem C102_times_partial : forall m n v, shaped m n n -> length v = n -> exists r, mat_times_dv m v = Ok r /\ length r = n /\
  forall row, (row < n)%nat -> comp r row = sum_to (fun col => entry m row col * comp v col) n.
Proof. exact mat_times_assembled. Qed.
Print Assumptions C102_times_partial.
(** So it is not the product with the matrix, whose component in a row sums over the elements of that row; and for other shapes it can read outside the matrix. *)
Theorem C102_times_refuted : (exists m v r, shaped m 2 2 /\ mat_times_dv m v = Ok r /\ comp r 0 <> sum_to (fun col => entry m col 0 * comp v col) 2) /\
  (exists m v, shaped m 3 1 /\ length v = 3%nat /\ mat_times_dv m v = UB).
Proof.
  split.
  - exists (Mat 2 [0; 1; 0; 0]), [0; 1]. destruct (C102_times_partial (Mat 2 [0; 1; 0; 0]) 2 [0; 1]) as (r & E & L & H); [split; reflexivity|reflexivity|].
    exists r. split; [split; reflexivity|]. split; [exact E|]. rewrite H by lia. unfold entry, comp. cbn. lra.
  - exists (Mat 3 [1; 2; 3]), [1; 1; 1]. repeat split.
Qed.
Print Assumptions C102_times_refuted.

(** C103: adding vectors of four adds all components *)
Theorem C103_add : forall u v, v4_add u v = v4_add v u /\ v4_add u (Vec4 0 0 0 0) = u /\ x4 (v4_add u v) = x4 u + x4 v /\ y4 (v4_add u v) = y4 u + y4 v /\ z4 (v4_add u v) = z4 u + z4 v /\ w4 (v4_add u v) = w4 u + w4 v.
Proof. intros [a b c d] [e f g h]. unfold v4_add. cbn [x4 y4 z4 w4]. repeat split; f_equal; ring. Qed.
Print Assumptions C103_add.
(** C103: the other operations leave the fourth component alone: negation does not give the opposite, subtraction does not undo addition, scaling does not scale the length *)
Theorem C103_refuted : (exists v, v4_add v (v4_neg v) <> Vec4 0 0 0 0) /\ (exists u v, v4_sub_in (v4_add u v) v <> u) /\
  (exists s v, v4_squared_length (v4_scale s v) <> s * s * v4_squared_length v) /\ (exists s v r, v4_div v s = Ok r /\ v4_scale s r = v /\ w4 r <> w4 v / s).
Proof.
  repeat split.
  - exists (Vec4 0 0 0 1). unfold v4_add, v4_neg. cbn [x4 y4 z4 w4]. intros [= E]. lra.
  - exists (Vec4 0 0 0 0), (Vec4 0 0 0 1). unfold v4_add, v4_sub_in. cbn [x4 y4 z4 w4]. intros [= E]. lra.
  - exists 2, (Vec4 0 0 0 1). unfold v4_squared_length, v4_scale. cbn [x4 y4 z4 w4]. lra.
  - exists 2, (Vec4 2 2 2 1). unfold v4_div, div_checked. destruct (Req_EM_T 2 0); [lra|]. cbn [obind]. eexists. split; [reflexivity|]. unfold v4_scale. cbn [x4 y4 z4 w4]. split; [f_equal; lra|lra].
Qed.
Print Assumptions C103_refuted.

(** C103: they do treat the first three components as they should; the squared length is the sum of the squares of all four *)
Theorem C103_three_partial : forall u v s,
  (x4 (v4_sub_in u v) = x4 u - x4 v /\ y4 (v4_sub_in u v) = y4 u - y4 v /\ z4 (v4_sub_in u v) = z4 u - z4 v /\ w4 (v4_sub_in u v) = w4 u) /\
  (x4 (v4_neg u) = - x4 u /\ y4 (v4_neg u) = - y4 u /\ z4 (v4_neg u) = - z4 u /\ w4 (v4_neg u) = w4 u) /\
  (x4 (v4_scale s u) = s * x4 u /\ y4 (v4_scale s u) = s * y4 u /\ z4 (v4_scale s u) = s * z4 u /\ w4 (v4_scale s u) = w4 u) /\
  (s = 0 -> v4_div u s = UB) /\
  (s <> 0 -> exists r, v4_div u s = Ok r /\ x4 r = x4 u / s /\ y4 r = y4 u / s /\ z4 r = z4 u / s /\ w4 r = w4 u) /\
  v4_squared_length u = Rsqr (x4 u) + Rsqr (y4 u) + Rsqr (z4 u) + Rsqr (w4 u).
Proof.
  intros [a b c d] [e f g h] s. unfold v4_sub_in, v4_neg, v4_scale, v4_div, v4_squared_length, div_checked, Rsqr. cbn [x4 y4 z4 w4].
  split; [auto|]. split; [auto|]. split; [repeat split; ring|]. split; [intros ->; destruct (Req_EM_T 0 0); [reflexivity|congruence]|]. split; [|ring].
  intros Hs. destruct (Req_EM_T s 0); [congruence|]. cbn [obind]. eexists. split; [reflexivity|]. cbn [x4 y4 z4 w4]. repeat split; field; exact Hs.
Qed.
Print Assumptions C103_three_partial.

(** C104: scales: one changes nothing, scaling twice is scaling by the product, a uniform scale is multiplication by the number, dividing undoes multiplying unless a factor is zero *)
Theorem C104_scale : forall s t v, sc_mul sc_one v = v /\ sc_mul s (sc_mul t v) = sc_mul (sc_mul s t) v /\ (forall k, sc_mul (sc_uniform k) v = times k v) /\ sc_is_one sc_one = true /\ (sc_is_one s = true <-> s = sc_one) /\
  (vx s <> 0 -> vy s <> 0 -> vz s <> 0 -> sc_div (sc_mul s v) s = Ok v /\ exists w, sc_div v s = Ok w /\ sc_mul s w = v) /\ (vx s = 0 \/ vy s = 0 \/ vz s = 0 -> sc_div v s = UB).
Proof. exact sc_assembled. Qed.
Print Assumptions C104_scale.
Example C104_case : sc_mul (Vec3 2 3 4) (Vec3 1 1 2) = Vec3 2 3 8.
Proof. unfold sc_mul. cbn. f_equal; lra. Qed.
Close Scope R_scope.
