(** C43: interpolation passes through its data. *)
From Coq Require Import List Arith Bool ZArith Reals Lra Lia.
From Coq Require Import Floats.SpecFloat.
From Verif Require Import Base NumSpec NumModel NumProofs IplSpec IplModel IplProofs.
Import ListNotations.
Open Scope R_scope.

(** C43: lerp, over the reals *)
Theorem C43_lerp : forall a b, lerp a b 0 = a /\ lerp a b 1 = b /\ (forall t, on_line 0 a 1 b t (lerp a b t)) /\ (forall t, 0 <= t <= 1 -> Rmin a b <= lerp a b t <= Rmax a b).
Proof. exact lerp_assembled. Qed.
Print Assumptions C43_lerp.
Example C43_lerp_case : lerp 10 20 (1 / 4) = 12.5.
Proof. unfold lerp. lra. Qed.

(** with doubles, lerp at 1 need not give the second value: lerp(-1, 2^-60, 1) = 0 *)
Theorem C43_lerp_double_refuted : exists v1 v2, lerp_double v1 v2 (S754_finite false 4503599627370496 (-52)) <> v2 /\ SFltb (lerp_double v1 v2 (S754_finite false 4503599627370496 (-52))) v2 = true.
Proof. exists (S754_finite true 4503599627370496 (-52)), (S754_finite false 4503599627370496 (-112)). split; [vm_compute; discriminate|vm_compute; reflexivity]. Qed.
Print Assumptions C43_lerp_double_refuted.

(** with doubles, lerp at 0 gives the first value and between equal values that value, unless the difference overflows: then lerp at 0 is not a number *)
Theorem C43_lerp_double_partial : forall v1 v2 t, finite_double v1 = true -> finite_double t = true ->
  (forall b, finite_double (d_sub v2 v1) = true -> SFeqb (lerp_double v1 v2 (S754_zero b)) v1 = true) /\ SFeqb (lerp_double v1 v1 t) v1 = true.
Proof. exact (fun v1 v2 t F1 F2 => conj (fun b => lerp_double_start v1 v2 b F1) (lerp_double_same v1 t F1 F2)). Qed.
Print Assumptions C43_lerp_double_partial.
Example C43_lerp_double_case : let x := S754_finite true 4503599627370496 (-52) in let y := S754_finite false 7205759403792794 (-56) in
  finite_double x = true /\ finite_double (d_sub y x) = true /\ lerp_double x y (S754_finite false 4503599627370496 (-53)) = S754_finite true 8106479329266892 (-54).
Proof. vm_compute. repeat split. Qed.
Theorem C43_lerp_double_overflow_refuted : exists v1 v2, finite_double v1 = true /\ finite_double v2 = true /\ lerp_double v1 v2 (S754_zero false) = S754_nan.
Proof. exists (S754_finite true 9007199254740991 971), (S754_finite false 9007199254740991 971). vm_compute. repeat split. Qed.
Print Assumptions C43_lerp_double_overflow_refuted.

(** lerp_precise has a sign error: it agrees with lerp only where that does not matter; at 0 it gives -a *)
Theorem C43_lerp_precise_refuted : (forall a b t, lerp_precise a b t = lerp a b t <-> a = 0 \/ t = 1) /\ (forall a b, lerp_precise a b 0 = - a) /\ exists a b, lerp_precise a b 0 <> a.
Proof. split; [exact lerp_precise_assembled|]. unfold lerp_precise. split; [intros a b; ring|]. exists 1, 2. lra. Qed.
Print Assumptions C43_lerp_precise_refuted.

(** C43: a piecewise linear function needs two different abscissas; it passes through the points and is linear between neighbours, and beyond the first and last one *)
Theorem C43_piecewise_linear : forall pts x,
  (piecewise_linear (insert_points pts) x = Throw <-> ~ exists a b, In a (map fst pts) /\ In b (map fst pts) /\ a <> b) /\
  ((exists a b, In a (map fst pts) /\ In b (map fst pts) /\ a <> b) -> exists y, piecewise_linear (insert_points pts) x = Ok y) /\
  (forall x1 y1 x2 y2 y, neighbours pts x1 x2 -> last_value pts x1 y1 -> last_value pts x2 y2 -> smallest pts x1 \/ x1 <= x -> largest pts x2 \/ x <= x2 ->
     piecewise_linear (insert_points pts) x = Ok y -> on_line x1 y1 x2 y2 x y /\ (x1 <= x <= x2 -> Rmin y1 y2 <= y <= Rmax y1 y2)) /\
  (forall v y, last_value pts x v -> piecewise_linear (insert_points pts) x = Ok y -> y = v).
Proof. exact linear_assembled. Qed.
Print Assumptions C43_piecewise_linear.
(** points given out of order, and one of them twice *)
Example C43_piecewise_linear_case : let pts := [(3, 7); (1, 5); (2, 0); (1, 4)] in exists y, piecewise_linear (insert_points pts) 1.5 = Ok y /\ y = 2 /\ last_value pts 1 4 /\ neighbours pts 1 2.
Proof.
  intros pts. assert (V1 : last_value pts 1 4) by (exists [(3, 7); (1, 5); (2, 0)], []; split; [reflexivity|intros []]).
  assert (V2 : last_value pts 2 0) by (exists [(3, 7); (1, 5)], [(1, 4)]; split; [reflexivity|cbn; intuition lra]).
  assert (N : neighbours pts 1 2) by (repeat split; [cbn; tauto|cbn; tauto|lra|cbn; intros x [<-|[<-|[<-|[<-|[]]]]]; lra]).
  destruct (C43_piecewise_linear pts 1.5) as (_ & T & O & _). destruct T as [y Hy]; [exists 1, 2; repeat split; [cbn; tauto|cbn; tauto|lra]|].
  exists y. split; [exact Hy|]. destruct (O 1 4 2 0 y N V1 V2) as [L _]; [right; lra|right; lra|exact Hy|]. unfold on_line in L. split; [lra|split; assumption].
Qed.

(** C43: a piecewise constant function has the value given for the greatest abscissa that is not after the argument, and the first value before the first abscissa *)
Theorem C43_piecewise_constant : forall pts x,
  (piecewise_constant (insert_points pts) x = Throw <-> pts = []) /\
  (forall x1 y1, last_value pts x1 y1 -> x1 <= x -> (forall x', In x' (map fst pts) -> x' <= x1 \/ x < x') -> piecewise_constant (insert_points pts) x = Ok y1) /\
  (forall x1 y1, last_value pts x1 y1 -> smallest pts x1 -> x < x1 -> piecewise_constant (insert_points pts) x = Ok y1) /\
  (pts <> [] -> exists y, piecewise_constant (insert_points pts) x = Ok y).
Proof. exact constant_assembled. Qed.
Print Assumptions C43_piecewise_constant.
Example C43_piecewise_constant_case : let pts := [(3, 7); (1, 5); (2, 0); (1, 4)] in piecewise_constant (insert_points pts) 1.5 = Ok 4 /\ piecewise_constant (insert_points pts) 9 = Ok 7 /\ piecewise_constant (insert_points pts) 0 = Ok 4.
Proof.
  intros pts. assert (V1 : last_value pts 1 4) by (exists [(3, 7); (1, 5); (2, 0)], []; split; [reflexivity|intros []]).
  assert (V3 : last_value pts 3 7) by (exists [], [(1, 5); (2, 0); (1, 4)]; split; [reflexivity|cbn; intuition lra]).
  split; [|split].
  - destruct (C43_piecewise_constant pts 1.5) as (_ & P & _). apply (P 1); [exact V1|lra|]. cbn; intros x [<-|[<-|[<-|[<-|[]]]]]; lra.
  - destruct (C43_piecewise_constant pts 9) as (_ & P & _). apply (P 3); [exact V3|lra|]. cbn; intros x [<-|[<-|[<-|[<-|[]]]]]; lra.
  - destruct (C43_piecewise_constant pts 0) as (_ & _ & P & _). apply (P 1); [exact V1| |lra]. split; [cbn; tauto|]. cbn; intros x [<-|[<-|[<-|[<-|[]]]]]; lra.
Qed.

(** C43: interpolation in a map: exact at the keys, linear between neighbouring keys, constant outside *)
Theorem C43_lerp_map : forall m x, sorted_keys m ->
  (lerp_map m x = Throw <-> m = []) /\
  (forall v, In (x, v) m -> lerp_map m x = Ok v) /\
  (forall x1 y1, In (x1, y1) m -> smallest m x1 -> x <= x1 -> lerp_map m x = Ok y1) /\
  (forall x1 y1, In (x1, y1) m -> largest m x1 -> x1 <= x -> lerp_map m x = Ok y1) /\
  (forall x1 y1 x2 y2, neighbours m x1 x2 -> In (x1, y1) m -> In (x2, y2) m -> x1 <= x <= x2 -> exists y, lerp_map m x = Ok y /\ on_line x1 y1 x2 y2 x y).
Proof. exact lerp_map_assembled. Qed.
Print Assumptions C43_lerp_map.
Example C43_lerp_map_case : let m := [(1, 10); (2, 20); (4, 0)] in sorted_keys m /\ (exists y, lerp_map m 3 = Ok y /\ y = 10) /\ lerp_map m 9 = Ok 0.
Proof.
  intros m. assert (S : sorted_keys m) by (repeat split; lra). split; [exact S|]. split.
  - destruct (C43_lerp_map m 3 S) as (_ & _ & _ & _ & N). destruct (N 2 20 4 0) as (y & Hy & L); [repeat split; [cbn; tauto|cbn; tauto|lra|cbn; intros x [<-|[<-|[<-|[]]]]; lra]|cbn; tauto|cbn; tauto|lra|].
    exists y. split; [exact Hy|]. unfold on_line in L. lra.
  - destruct (C43_lerp_map m 9 S) as (_ & _ & _ & P & _). apply (P 4); [cbn; tauto| |lra]. split; [cbn; tauto|]. cbn; intros x [<-|[<-|[<-|[]]]]; lra.
Qed.

(** with an integer key type the weight is computed with an integer division: the value of the lower key is used throughout *)
Theorem C43_lerp_map_int_refuted : exists m y, m = [(0%Z, 0); (2%Z, 10)] /\ lerp_map_int m 1 = Ok y /\ y = 0 /\ ~ on_line 0 0 2 10 1 y.
Proof. exists [(0%Z, 0); (2%Z, 10)], (0 + IZR 0 * (10 - 0)). split; [reflexivity|]. split; [reflexivity|]. unfold on_line. split; lra. Qed.
Print Assumptions C43_lerp_map_int_refuted.
(** what it computes for every map with integer keys: the value of the largest key that is not above [x], and that of the smallest key below all keys *)
Theorem C43_lerp_map_int : forall m x, increasing_keys m ->
  (lerp_map_int m x = Throw <-> m = []) /\
  (forall k v, In (k, v) m -> (k <= x)%Z -> (forall k', In k' (map fst m) -> (k' <= k \/ x < k')%Z) -> lerp_map_int m x = Ok v) /\
  (forall k v, In (k, v) m -> (x <= k)%Z -> (forall k', In k' (map fst m) -> (k <= k')%Z) -> lerp_map_int m x = Ok v).
Proof. exact lerp_map_int_assembled. Qed.
Print Assumptions C43_lerp_map_int.
Example C43_lerp_map_int_case : let m := [(-3, 1); (2, 10); (7, 5)]%Z in increasing_keys m.
Proof. cbn. repeat split; intros e H; repeat destruct H as [<-|H]; try destruct H; cbn; lia. Qed.

(** C43: interpolation between the elements of a sequence, for a fractional index *)
Theorem C43_lerp_span : forall l x, (Z.of_nat (length l) < 2 ^ 31)%Z ->
  (l = [] -> lerp_span l x = Throw) /\
  (forall i v, nth_error l i = Some v -> x = INR i -> lerp_span l x = Ok v) /\
  (forall i a b, nth_error l i = Some a -> nth_error l (S i) = Some b -> INR i <= x <= INR (S i) -> exists y, lerp_span l x = Ok y /\ on_line (INR i) a (INR (S i)) b x y) /\
  (forall v, nth_error l 0 = Some v -> x <= 0 -> lerp_span l x = Ok v) /\
  (forall v, nth_error l (length l - 1) = Some v -> INR (length l - 1) <= x < IZR (2 ^ 31) -> lerp_span l x = Ok v).
Proof. exact lerp_span_assembled. Qed.
Print Assumptions C43_lerp_span.
Example C43_lerp_span_case : exists y, lerp_span [5; 7; 3] 1.5 = Ok y /\ y = 5.
Proof.
  destruct (C43_lerp_span [5; 7; 3] 1.5) as (_ & _ & N & _); [cbn; lia|]. destruct (N 1%nat 7 3) as (y & Hy & L); [reflexivity|reflexivity|cbn; lra|]. exists y. split; [exact Hy|]. unfold on_line in L. cbn in L. lra.
Qed.

(** an index of 2^31 or more does not fit the int that it is converted to *)
Theorem C43_lerp_span_far_refuted : forall l x, l <> [] -> IZR (2 ^ 31) <= x -> lerp_span l x = UB.
Proof. exact lerp_span_far. Qed.
Print Assumptions C43_lerp_span_far_refuted.
Example C43_lerp_span_far_case : lerp_span [5] (IZR (2 ^ 40)) = UB.
Proof. apply C43_lerp_span_far_refuted; [discriminate|]. apply IZR_le. lia. Qed.

(** C43: a function sampled on a regular grid: linear between neighbouring nodes, extrapolating the first and last segment *)
Theorem C43_regular : forall n a b fn x i, (2 <= n)%nat -> (Z.of_nat n < 2 ^ 31)%Z -> a < b -> (S i < n)%nat -> let h := (b - a) / INR (n - 1) in let node k := a + INR k * h in
  (i = 0%nat \/ node i <= x) -> (S (S i) = n \/ x <= node (S i)) -> - IZR (2 ^ 31) <= (x - a) / h < IZR (2 ^ 31) ->
  exists y, regular_eval (make_regular n a b fn) x = Ok y /\ on_line (node i) (fn (node i)) (node (S i)) (fn (node (S i))) x y.
Proof. exact regular_assembled. Qed.
Print Assumptions C43_regular.
Example C43_regular_case : exists y, regular_eval (make_regular 3 0 2 (fun x => x * x)) 1.5 = Ok y /\ y = 2.5.
Proof.
  destruct (C43_regular 3 0 2 (fun x => x * x) 1.5 1) as (y & Hy & L); [lia|lia|lra|lia|right; cbn; lra|left; reflexivity|change (2 ^ 31)%Z with 2147483648%Z; cbn; lra|].
  exists y. split; [exact Hy|]. unfold on_line in L. cbn in L. lra.
Qed.
Close Scope R_scope.
