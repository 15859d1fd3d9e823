(** C52, C53, C84: regression, order statistics, covariance. *)
From Coq Require Import List Arith Bool ZArith Reals Lra Lia Sorted Permutation.
From Verif Require Import Base SigSpec StatSpec StatModel StatProofs.
Import ListNotations.
Open Scope R_scope.

(** C52: the line that linear_regression returns has a smaller sum of squared residuals than every other line. It throws for data of different lengths or no data, and divides by zero when all x values are equal. *)
Theorem C52_least_squares : forall xs ys,
  (length xs <> length ys \/ xs = [] -> linear_regression xs ys = Throw) /\
  (length xs = length ys -> xs <> [] -> (forall a b, In a xs -> In b xs -> a = b) -> linear_regression xs ys = UB) /\
  (length xs = length ys -> (exists a b, In a xs /\ In b xs /\ a <> b) ->
     exists o s, linear_regression xs ys = Ok (o, s) /\ (forall o' s', sse o s xs ys <= sse o' s' xs ys) /\ (forall o' s', sse o' s' xs ys <= sse o s xs ys -> o' = o /\ s' = s)).
Proof. exact linear_regression_assembled. Qed.
Print Assumptions C52_least_squares.
(** points (0,0), (1,1), (2,1): the line 1/6 + x/2 *)
Example C52_least_squares_case : linear_regression [0; 1; 2] [0; 1; 1] = Ok (1 / 6, 1 / 2) /\ sse (1 / 6) (1 / 2) [0; 1; 2] [0; 1; 1] < sse 0 1 [0; 1; 2] [0; 1; 1].
Proof.
  split.
  - unfold linear_regression, average, accumulate, div_checked. cbn [length Nat.eqb obind fold_left combine fst snd INR]. destruct (Req_EM_T _ 0) as [Z|_]; [exfalso; lra|]. cbn [obind]. f_equal. f_equal; field.
  - unfold sse, total. cbn. lra.
Qed.

(** C52: the version for equidistant x values gives the same line *)
Theorem C52_fixed_step : forall ys x0 h,
  (ys = [] -> linear_regression_step ys x0 h = Throw) /\ (length ys = 1%nat -> linear_regression_step ys x0 h = UB) /\
  ((2 <= length ys)%nat -> h <> 0 -> let xs := map (fun i => x0 + INR i * h) (seq 0 (length ys)) in
     exists o s, linear_regression_step ys x0 h = Ok (o, s) /\ linear_regression xs ys = Ok (o, s) /\ (forall o' s', sse o s xs ys <= sse o' s' xs ys) /\ (forall o' s', sse o' s' xs ys <= sse o s xs ys -> o' = o /\ s' = s)).
Proof. exact linear_regression_step_assembled. Qed.
Print Assumptions C52_fixed_step.
Example C52_fixed_step_case : exists o s, linear_regression_step [0; 1; 1] 0 1 = Ok (o, s) /\ linear_regression [0 + 0 * 1; 0 + 1 * 1; 0 + (1 + 1) * 1] [0; 1; 1] = Ok (o, s).
Proof. destruct (C52_fixed_step [0; 1; 1] 0 1) as (_ & _ & H). destruct H as (o & s & E1 & E2 & _); [cbn; lia|lra|]. exists o, s. split; [exact E1|exact E2]. Qed.

(** C52: linear_median_regression returns the line of points that are on a line (equidistant x values) *)
Theorem C52_median_line : forall nth_element ys x0 h a b, nth_element_contract nth_element ->
  ((length ys < 2)%nat -> linear_median_regression nth_element ys x0 h = Throw) /\
  ((2 <= length ys)%nat -> h = 0 -> linear_median_regression nth_element ys x0 h = UB) /\
  ((2 <= length ys)%nat -> h <> 0 -> (forall i y, nth_error ys i = Some y -> y = a + b * (x0 + INR i * h)) -> linear_median_regression nth_element ys x0 h = Ok (a, b)).
Proof. exact linear_median_assembled. Qed.
Print Assumptions C52_median_line.
Example C52_median_line_case : exists nth_element, nth_element_contract nth_element /\ linear_median_regression nth_element [5; 3; 1] 0 1 = Ok (5, - (2)).
Proof.
  exists (fun l _ => isort l). split; [exact isort_nth_element|]. apply (C52_median_line _ [5; 3; 1] 0 1 5 (- (2)) isort_nth_element); [cbn; lia|lra|].
  intros [|[|[|i]]] y E; cbn in E; try (injection E as <-; cbn; lra). destruct i; discriminate.
Qed.

(** C52: repeated_median_regression returns the line on which more than half of the points are (counted as: twice their number exceeds the size plus one), wherever the other points are *)
Theorem C52_repeated_median : forall nth_element xs ys, nth_element_contract nth_element ->
  ((length xs < 2)%nat \/ length xs <> length ys -> repeated_median_regression nth_element xs ys = Throw) /\
  ((2 <= length xs)%nat -> length xs = length ys -> NoDup xs ->
    (exists o s, repeated_median_regression nth_element xs ys = Ok (o, s)) /\
    forall a b (good : list nat), NoDup good -> (forall i, In i good -> (i < length xs)%nat /\ nth i ys 0 = a + b * nth i xs 0) -> (length xs + 1 < 2 * length good)%nat ->
      repeated_median_regression nth_element xs ys = Ok (a, b)).
Proof. exact repeated_median_assembled. Qed.
Print Assumptions C52_repeated_median.
(** three points on y = x and an outlier *)
Example C52_repeated_median_case : forall outlier, repeated_median_regression (fun l _ => isort l) [0; 1; 2; 3] [0; 1; outlier; 3] = Ok (0, 1).
Proof.
  intros v. destruct (C52_repeated_median _ [0; 1; 2; 3] [0; 1; v; 3] isort_nth_element) as [_ H]. destruct H as [_ H]; [cbn; lia|reflexivity|repeat constructor; cbn; intuition lra|].
  apply (H 0 1 [0; 1; 3]%nat); [repeat constructor; cbn; intuition lia| |cbn; lia]. intros i [<-|[<-|[<-|[]]]]; cbn; (split; [lia|lra]).
Qed.

(** C53: median and median_slow return the middle of the sorted data (the mean of the two middle values), which is unique, and throw on no data; for any standard library that meets the contracts of nth_element and partial_sort_copy *)
Theorem C53_median : forall nth_element partial_sort_copy l, nth_element_contract nth_element -> partial_sort_contract partial_sort_copy ->
  (l = [] -> median nth_element l = Throw /\ median_slow partial_sort_copy l = Throw) /\
  (l <> [] -> exists m, is_median l m /\ (forall m', is_median l m' -> m' = m) /\ median nth_element l = Ok m /\ median_slow partial_sort_copy l = Ok m).
Proof. exact median_assembled. Qed.
Print Assumptions C53_median.
Example C53_median_case : exists nth_element partial_sort_copy, nth_element_contract nth_element /\ partial_sort_contract partial_sort_copy /\ median nth_element [5; 1; 9; 4] = Ok (9 / 2) /\ median_slow partial_sort_copy [5; 1; 9; 4] = Ok (9 / 2).
Proof.
  eexists _, _. split; [exact isort_nth_element|]. split; [exact isort_partial_sort|]. destruct (C53_median _ _ [5; 1; 9; 4] isort_nth_element isort_partial_sort) as [_ H]. destruct H as (m & _ & U & E1 & E2); [discriminate|].
  rewrite E1, E2. assert (9 / 2 = m) as ->; [|split; reflexivity]. apply U. exists [1; 4; 5; 9]. split.
  - apply perm_trans with [1; 5; 9; 4]; [|apply perm_swap]. apply perm_skip. apply perm_trans with [5; 4; 9]; [apply perm_swap|]. apply perm_skip, perm_swap.
  - split; [unfold ascending; repeat constructor; lra|]. cbn. exists 4, 5. split; [reflexivity|]. split; [reflexivity|lra].
Qed.

(** C53: sorted_indices returns every index once, in an order in which no element is before a smaller one *)
Theorem C53_sorted_indices : forall {A} sort (d : A) cont pred, (forall lt, sort_contract lt (sort lt)) -> strict_weak pred ->
  Permutation (sorted_indices sort d cont pred) (seq 0 (length cont)) /\
  forall i j a b, (i < j)%nat -> nth_error (map (fun k => nth k cont d) (sorted_indices sort d cont pred)) i = Some a -> nth_error (map (fun k => nth k cont d) (sorted_indices sort d cont pred)) j = Some b -> pred b a = false.
Proof. exact @sorted_indices_assembled. Qed.
Print Assumptions C53_sorted_indices.
Example C53_sorted_indices_case : (forall lt : nat -> nat -> bool, sort_contract lt (isortb lt)) /\ strict_weak Nat.ltb /\ sorted_indices (fun lt => isortb lt) 0%nat [7; 3; 9; 5]%nat Nat.ltb = [1; 3; 0; 2]%nat.
Proof.
  split; [intros; apply isortb_contract|]. split; [|reflexivity]. split; [intros; apply Nat.ltb_irrefl|]. split.
  - intros a b c H1 H2. apply Nat.ltb_lt in H1, H2. apply Nat.ltb_lt. lia.
  - intros a b c H1 H2 H3 H4. apply Nat.ltb_ge in H1, H2, H3, H4. split; apply Nat.ltb_ge; lia.
Qed.

(** C53: min_element / max_element give the first smallest / largest element *)
Theorem C53_extremes : forall l, l <> [] ->
  (exists v, nth_error l (min_element l) = Some v /\ min_value l = Ok v /\ (forall k w, nth_error l k = Some w -> v <= w) /\ (forall k w, (k < min_element l)%nat -> nth_error l k = Some w -> v < w)) /\
  (exists v, nth_error l (max_element l) = Some v /\ max_value l = Ok v /\ (forall k w, nth_error l k = Some w -> w <= v) /\ (forall k w, (k < max_element l)%nat -> nth_error l k = Some w -> w < v)).
Proof. exact extremes_assembled. Qed.
Print Assumptions C53_extremes.
Example C53_extremes_case : min_value [2; 7; 1; 7] = Ok 1 /\ max_element [2; 7; 1; 7] = 1%nat.
Proof. unfold min_value, min_element, max_element. cbn [min_from max_from]. repeat destruct (Rlt_dec _ _); try lra; split; reflexivity. Qed.

(** C53: average is the arithmetic mean, which is between the smallest and largest value; it throws on no data *)
Theorem C53_average : forall l, (average l 0 = Throw <-> l = []) /\ (l <> [] -> exists m, average l 0 = Ok m /\ mean_of l m /\ forall lo hi, (forall v, In v l -> lo <= v <= hi) -> lo <= m <= hi).
Proof. exact average_assembled. Qed.
Print Assumptions C53_average.
Example C53_average_case : average [1; 2; 6] 0 = Ok 3.
Proof. unfold average, accumulate. cbn. f_equal. field. Qed.

(** C53: mean_var and mean_std return the mean, the mean squared deviation from it, and its square root *)
Theorem C53_variance : forall l, (l = [] -> mean_var l = Throw /\ mean_std l = Throw) /\
  (l <> [] -> exists m v, mean_var l = Ok (m, v) /\ mean_of l m /\ v * INR (length l) = total (map (fun x => (x - m) ^ 2) l) /\ 0 <= v /\ mean_std l = Ok (m, sqrt v)).
Proof. intros l. split; [intros ->; split; reflexivity|exact (mean_var_assembled l)]. Qed.
Print Assumptions C53_variance.
Example C53_variance_case : mean_var [1; 3] = Ok (2, 1).
Proof. unfold mean_var, average, accumulate. cbn. f_equal. f_equal; field. Qed.

(** C53: top_average is the mean of the [count] smallest elements *)
Theorem C53_top_average : forall partial_sort_copy l count, partial_sort_contract partial_sort_copy -> (0 < count <= length l)%nat ->
  exists low rest m, Permutation (low ++ rest) l /\ length low = count /\ (forall v w, In v low -> In w rest -> v <= w) /\ mean_of low m /\ top_average partial_sort_copy l count = Ok m.
Proof. exact top_average_assembled. Qed.
Print Assumptions C53_top_average.
Example C53_top_average_case : exists m, top_average (fun l out => firstn (length out) (isort l) ++ skipn (length l) out) [4; 1; 2] 2 = Ok m /\ m = 3 / 2.
Proof. eexists. split; [unfold top_average, isort, ins; repeat (destruct (Rle_dec _ _); try lra); reflexivity|]. cbn. lra. Qed.
(** It is not the mean of the highest elements, and when [count] exceeds the size, missing elements count as zero: the result is outside the range of the data. *)
Theorem C53_top_average_refuted : forall partial_sort_copy, partial_sort_contract partial_sort_copy ->
  (exists l m, top_average partial_sort_copy l 1 = Ok m /\ exists v, In v l /\ m < v) /\
  (exists l count m, l <> [] /\ (length l < count)%nat /\ top_average partial_sort_copy l count = Ok m /\ forall v, In v l -> m < v).
Proof.
  intros f C. split.
  - destruct (C53_top_average f [1; 2] 1 C) as (low & rest & m & P & L & O & M & E); [cbn; lia|]. exists [1; 2], m. split; [exact E|]. exists 2. split; [right; left; reflexivity|].
    destruct low as [|v [|]]; try discriminate. unfold mean_of, total in M. cbn in M. assert (Hv : m = v) by lra. subst m.
    assert (Iv : In v [1; 2]) by (apply (Permutation_in _ P); left; reflexivity). assert (I1 : In 1 ([v] ++ rest)) by (apply (Permutation_in _ (Permutation_sym P)); left; reflexivity).
    destruct I1 as [->|I1]; [lra|]. specialize (O v 1 (or_introl eq_refl) I1). lra.
  - destruct (top_average_ok f [3] 2 C) as (s & P & _ & E); [lia|]. exists [3], 2%nat, (total (firstn 2 s) / INR 2). apply Permutation_sym, Permutation_length_1_inv in P. subst s. split; [discriminate|]. split; [cbn; lia|]. split; [exact E|].
    intros v [<-|[]]. cbn. lra.
Qed.
Print Assumptions C53_top_average_refuted.

(** C84: channel means and covariances of frames of data: symmetric, mean of the products minus product of the means, variances on the diagonal, positive semidefinite *)
Theorem C84_covariance : forall channels frames, frames <> [] ->
  let column := fun c => map (fun fr => nth c fr 0) frames in let cov := compute_covariance channels frames in
  length (compute_channel_means channels frames) = channels /\
  (forall c, (c < channels)%nat -> mean_of (column c) (nth c (compute_channel_means channels frames) 0)) /\
  (forall i j, cov i j = cov j i) /\
  (forall i j mi mj mij, (i < channels)%nat -> (j < channels)%nat -> mean_of (column i) mi -> mean_of (column j) mj -> mean_of (map (fun fr => nth i fr 0 * nth j fr 0) frames) mij -> cov i j = mij - mi * mj) /\
  (forall c v m, (c < channels)%nat -> mean_var (column c) = Ok (m, v) -> cov c c = v) /\
  (forall w : nat -> R, 0 <= total (map (fun i => total (map (fun j => w i * cov i j * w j) (seq 0 channels))) (seq 0 channels))).
Proof. exact covariance_assembled. Qed.
Print Assumptions C84_covariance.
Example C84_covariance_case : compute_covariance 2 [[1; 5]; [3; 1]] 0 1 = - (2).
Proof. destruct (C84_covariance 2 [[1; 5]; [3; 1]]) as (_ & _ & _ & H & _); [discriminate|]. rewrite (H 0%nat 1%nat 2 3 4); try lia; unfold mean_of, total; cbn; lra. Qed.
Close Scope R_scope.
