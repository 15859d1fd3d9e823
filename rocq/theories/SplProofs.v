(** Lemmas about the model of splines. *)
From Coq Require Import List Arith Bool Reals Lra Lia Psatz.
From Coquelicot Require Import Coquelicot.
From Verif Require Import Base BaseProofs UtilProofs GeoSpec NumModel StatModel GeoModel GeoProofs SigSpec SigProofs StatProofs ShpSpec ShpModel ShpProofs SplSpec SplModel.
Import ListNotations.
Local Open Scope R_scope.

Definition segment_curve (p0 p1 p2 p3 : vec3) : R -> vec3 := seg_at (make_segment p0 p1 p2 p3).
Lemma segment_assembled p0 p1 p2 p3 : let f := seg_at (make_segment p0 p1 p2 p3) in
  f 0 = p1 /\ f 1 = p2 /\ velocity f 0 (times (1 / 2) (minus p2 p0)) /\ velocity f 1 (times (1 / 2) (minus p3 p1)).
Proof.
  cbv zeta. unfold seg_at, make_segment. cbn [seg_a seg_b seg_c seg_d]. destruct p0 as [x0 y0 z0], p1 as [x1 y1 z1], p2 as [x2 y2 z2], p3 as [x3 y3 z3].
  split; [vec; field|]. split; [vec; field|]. split; unfold velocity; geo; repeat lazymatch goal with |- _ /\ _ => split end; auto_derive; try exact I; field.
Qed.
Lemma join_smooth p0 p1 p2 p3 p4 : let f := seg_at (make_segment p0 p1 p2 p3) in let g := seg_at (make_segment p1 p2 p3 p4) in
  f 1 = g 0 /\ exists v, velocity f 1 v /\ velocity g 0 v.
Proof.
  cbv zeta. destruct (segment_assembled p0 p1 p2 p3) as (_ & A & _ & B). destruct (segment_assembled p1 p2 p3 p4) as (C & _ & D & _). split; [rewrite A, C; reflexivity|]. eexists. split; [exact B|exact D].
Qed.
Lemma segment_line_assembled a d t : seg_at (make_segment a (plus a d) (plus a (times 2 d)) (plus a (times 3 d))) t = plus a (times (1 + t) d).
Proof. unfold seg_at, make_segment. cbn [seg_a seg_b seg_c seg_d]. vec; field. Qed.

(** ** With times from the distances *)
Lemma mix_ok x y t p q : y <> x -> mix x y t p q = Ok (plus (times ((y - t) / (y - x)) p) (times ((t - x) / (y - x)) q)).
Proof.
  intros H. unfold mix, div_checked. destruct (Req_EM_T (y - x) 0) as [Z|Z]; [exfalso; lra|]. cbn [obind]. f_equal. vec; ring.
Qed.
Lemma mix_first x y p q : y <> x -> mix x y x p q = Ok p.
Proof. intros H. rewrite mix_ok by exact H. f_equal. vec; field; lra. Qed.
Lemma mix_last x y p q : y <> x -> mix x y y p q = Ok q.
Proof. intros H. rewrite mix_ok by exact H. f_equal. vec; field; lra. Qed.
Lemma mix_same x y t p : y <> x -> mix x y t p p = Ok p.
Proof. intros H. rewrite mix_ok by exact H. f_equal. vec; field; lra. Qed.
Lemma apart_pos u v : u <> v -> 0 < apart u v.
Proof.
  intros H. destruct (Rle_lt_or_eq_dec _ _ (apart_nonneg u v)) as [P|P]; [exact P|]. exfalso. apply H. symmetry in P. apply norm_zero in P. apply vec_eq; [apply (f_equal vx) in P|apply (f_equal vy) in P|apply (f_equal vz) in P]; unfold minus, origin in P; cbn [vx vy vz] in P; lra.
Qed.
Lemma alpha_assembled pow alpha p0 p1 p2 p3 : (forall x, 0 < x -> 0 < pow x alpha) -> p0 <> p1 -> p1 <> p2 -> p2 <> p3 ->
  alpha_at pow p0 p1 p2 p3 alpha 0 = Ok p1 /\ alpha_at pow p0 p1 p2 p3 alpha 1 = Ok p2 /\ forall t, exists p, alpha_at pow p0 p1 p2 p3 alpha t = Ok p.
Proof.
  intros P A B C. unfold alpha_at, alpha_times. change (distance_v p0 p1) with (apart p0 p1). change (distance_v p1 p2) with (apart p1 p2). change (distance_v p2 p3) with (apart p2 p3).
  pose proof (P _ (apart_pos _ _ A)) as PA. pose proof (P _ (apart_pos _ _ B)) as PB. pose proof (P _ (apart_pos _ _ C)) as PC. set (t1 := pow (apart p0 p1) alpha) in *. set (t2 := t1 + pow (apart p1 p2) alpha) in *. set (t3 := t2 + pow (apart p2 p3) alpha) in *.
  assert (N : t1 <> 0 /\ t2 <> t1 /\ t3 <> t2 /\ t2 <> 0 /\ t3 <> t1) by (unfold t3, t2; lra). clearbody t3. clearbody t2. clearbody t1. destruct N as (N1 & N2 & N3 & N4 & N5). cbv beta iota zeta. split; [|split].
  - rewrite Rmult_0_l, Rplus_0_r. rewrite mix_last by exact N1. cbn [obind]. rewrite mix_first by exact N2. cbn [obind]. rewrite mix_ok by exact N3. cbn [obind]. rewrite mix_same by exact N4. cbn [obind]. rewrite mix_first by exact N5. cbn [obind]. apply mix_first, N2.
  - replace (t1 + 1 * (t2 - t1)) with t2 by ring. rewrite mix_ok by exact N1. cbn [obind]. rewrite mix_last by exact N2. cbn [obind]. rewrite mix_first by exact N3. cbn [obind]. rewrite mix_last by exact N4. cbn [obind]. rewrite mix_same by exact N5. cbn [obind]. apply mix_last, N2.
  - intros t. rewrite mix_ok by exact N1. cbn [obind]. rewrite mix_ok by exact N2. cbn [obind]. rewrite mix_ok by exact N3. cbn [obind]. rewrite mix_ok by exact N4. cbn [obind]. rewrite mix_ok by exact N5. cbn [obind]. rewrite mix_ok by exact N2. eexists. reflexivity.
Qed.
Lemma alpha_same_assembled pow alpha p1 p2 p3 t : pow 0 alpha = 0 -> alpha_at pow p1 p1 p2 p3 alpha t = UB.
Proof.
  intros P. unfold alpha_at, alpha_times. change (distance_v p1 p1) with (apart p1 p1). assert (Z : apart p1 p1 = 0). { unfold apart, norm. replace (dot (minus p1 p1) (minus p1 p1)) with 0 by (geo; ring). apply sqrt_0. } rewrite Z, P. cbv beta iota zeta. unfold mix at 1. unfold div_checked at 1. destruct (Req_EM_T (0 - 0) 0) as [_|C]; [reflexivity|lra].
Qed.

(** ** Lengths *)
Lemma polyline_seq g n : forall a, polyline_length (map g (seq a (S n))) = total (map (fun i => apart (g (S i)) (g i)) (seq a n)).
Proof.
  induction n as [|n IH]; intros a; [reflexivity|]. specialize (IH (S a)). cbn [seq map] in *. rewrite polyline_cons. rewrite IH. reflexivity.
Qed.
Lemma apart_sym u v : apart u v = apart v u.
Proof. unfold apart, norm. f_equal. geo. ring. Qed.
Lemma apart_triangle u v w : apart u w <= apart u v + apart v w.
Proof. unfold apart. replace (minus u w) with (plus (minus u v) (minus v w)) by (vec; ring). apply triangle. Qed.
Lemma chain (g : nat -> vec3) m : forall a, apart (g (a + m)%nat) (g a) <= total (map (fun i => apart (g (S i)) (g i)) (seq a m)).
Proof.
  induction m as [|m IH]; intros a; cbn [seq map].
  - rewrite Nat.add_0_r. unfold total. cbn. unfold apart, norm. replace (dot (minus (g a) (g a)) (minus (g a) (g a))) with 0 by (geo; ring). rewrite sqrt_0. lra.
  - specialize (IH (S a)). change (total (?x :: ?l)) with (x + total l). replace (a + S m)%nat with (S a + m)%nat by lia. pose proof (apart_triangle (g (S a + m)%nat) (g (S a)) (g a)). lra.
Qed.
Lemma length_loop_spec f t0 t1 steps n : let g := fun i => f (t0 + (t1 - t0) * INR i / INR steps) in forall i dist, length_loop f t0 t1 steps i n (g i) dist = dist + total (map (fun i => apart (g (S i)) (g i)) (seq i n)).
Proof.
  cbv zeta. induction n as [|n IH]; intros i dist; cbn [length_loop seq map]; [unfold total; cbn; ring|]. rewrite IH. change (total (?x :: ?l)) with (x + total l). rewrite apart_sym. change distance_v with apart. ring.
Qed.
Lemma sum_length f t0 t1 n : (0 < n)%nat -> let g := fun i => f (t0 + (t1 - t0) * INR i / INR n) in compute_spline_length f t0 t1 n = total (map (fun i => apart (g (S i)) (g i)) (seq 0 n)).
Proof.
  intros H. cbv zeta. unfold compute_spline_length. pose proof (length_loop_spec f t0 t1 n n 0 0) as L. cbv beta zeta in L. replace (t0 + (t1 - t0) * INR 0 / INR n) with t0 in L by (cbn [INR]; field; apply not_0_INR; lia). rewrite L. ring.
Qed.
Lemma spline_length_assembled f t0 t1 n : (0 < n)%nat ->
  compute_spline_length f t0 t1 n = polyline_length (samples f t0 t1 n) /\ apart (f t1) (f t0) <= compute_spline_length f t0 t1 n.
Proof.
  intros H. assert (N : INR n <> 0) by (apply not_0_INR; lia). rewrite sum_length by exact H. split.
  - unfold samples. rewrite polyline_seq. reflexivity.
  - pose proof (chain (fun i => f (t0 + (t1 - t0) * INR i / INR n)) n 0) as C. cbv beta in C. rewrite Nat.add_0_l in C. replace (t0 + (t1 - t0) * INR n / INR n) with t1 in C by (field; exact N). replace (t0 + (t1 - t0) * INR 0 / INR n) with t0 in C by (cbn [INR]; field; exact N). exact C.
Qed.
Lemma total_blocks (F : nat -> R) k n : forall a, total (map F (seq (k * a) (k * n))) = total (map (fun i => total (map F (seq (k * i) k))) (seq a n)).
Proof.
  induction n as [|n IH]; intros a; [rewrite Nat.mul_0_r; reflexivity|]. replace (k * S n)%nat with (k + k * n)%nat by lia. rewrite seq_app, map_app, total_app. replace (k * a + k)%nat with (k * S a)%nat by lia. rewrite IH. reflexivity.
Qed.
Lemma total_mono {A} (F G : A -> R) l : (forall i, In i l -> F i <= G i) -> total (map F l) <= total (map G l).
Proof.
  induction l as [|x l IH]; intros H; cbn [map]; [apply Rle_refl|]. change (total (?x :: ?l)) with (x + total l). apply Rplus_le_compat; [apply H; left; reflexivity|]. apply IH. intros i Hi. apply H. right. exact Hi.
Qed.
Lemma spline_refine_assembled f t0 t1 n k : (0 < n)%nat -> (0 < k)%nat -> compute_spline_length f t0 t1 n <= compute_spline_length f t0 t1 (k * n).
Proof.
  intros Hn Hk. assert (N : INR n <> 0) by (apply not_0_INR; lia). assert (K : INR k <> 0) by (apply not_0_INR; lia). set (g := fun i => f (t0 + (t1 - t0) * INR i / INR (k * n))).
  assert (Rf : compute_spline_length f t0 t1 (k * n) = total (map (fun i => apart (g (S i)) (g i)) (seq 0 (k * n)))) by (apply (sum_length f t0 t1 (k * n)); nia). rewrite Rf, (sum_length f t0 t1 n Hn). cbv beta zeta.
  pose proof (total_blocks (fun i => apart (g (S i)) (g i)) k n 0) as B. rewrite Nat.mul_0_r in B. rewrite B. apply total_mono. intros i _.
  assert (E : forall j, f (t0 + (t1 - t0) * INR j / INR n) = g (k * j)%nat). { intros j. unfold g. f_equal. rewrite !mult_INR. field. split; assumption. }
  rewrite !E. replace (k * S i)%nat with (k * i + k)%nat by lia. apply chain.
Qed.
Lemma apart_line a d s t : apart (plus a (times s d)) (plus a (times t d)) = Rabs (s - t) * norm d.
Proof.
  unfold apart, norm. replace (dot (minus (plus a (times s d)) (plus a (times t d))) (minus (plus a (times s d)) (plus a (times t d)))) with ((s - t) * (s - t) * dot d d) by (geo; ring). rewrite sqrt_mult; [|apply Rle_0_sqr|apply dot_nonneg]. f_equal. apply sqrt_Rsqr_abs.
Qed.
Lemma spline_straight_assembled a d t0 t1 n : (0 < n)%nat -> compute_spline_length (fun t => plus a (times t d)) t0 t1 n = apart (plus a (times t1 d)) (plus a (times t0 d)).
Proof.
  intros H. assert (N : 0 < INR n) by (apply lt_0_INR; lia). rewrite sum_length by exact H. rewrite apart_line.
  rewrite (total_ext _ (fun _ => Rabs (t1 - t0) / INR n * norm d)).
  - rewrite total_const, seq_length. field. lra.
  - intros i _. rewrite apart_line. f_equal. rewrite S_INR. replace (t0 + (t1 - t0) * (INR i + 1) / INR n - (t0 + (t1 - t0) * INR i / INR n)) with ((t1 - t0) * / INR n) by (field; lra). rewrite Rabs_mult. rewrite (Rabs_right (/ INR n)) by (apply Rle_ge, Rlt_le, Rinv_0_lt_compat, N). reflexivity.
Qed.

(** ** Splines through points *)
Definition nth_segment (pts : list vec3) (i : nat) : segment := make_segment (nth i pts origin) (nth (i + 1) pts origin) (nth (i + 2) pts origin) (nth (i + 3) pts origin).
Lemma get_pt pts i : (i < length pts)%nat -> vec_get pts i = Ok (nth i pts origin).
Proof. intros H. apply vec_get_ok, nth_error_nth', H. Qed.
Lemma segment_loop_ok pts n : forall i, (i + n + 3 <= length pts)%nat -> segment_loop pts n i = Ok (map (nth_segment pts) (seq i n)).
Proof.
  induction n as [|n IH]; intros i H; cbn [segment_loop seq map]; [reflexivity|]. rewrite !get_pt by lia. cbn [obind]. rewrite IH by lia. reflexivity.
Qed.
Lemma make_ok pts times : (4 <= length pts)%nat -> length times = (length pts - 2)%nat -> make_spline pts times = Ok (Spline (map (nth_segment pts) (seq 0 (length pts - 3))) times).
Proof.
  intros H E. unfold make_spline. rewrite (proj2 (Nat.leb_le _ _) H), (proj2 (Nat.eqb_eq _ _) E). cbn [andb]. rewrite segment_loop_ok by lia. reflexivity.
Qed.
Lemma make_throws pts times : ~ ((4 <= length pts)%nat /\ length times = (length pts - 2)%nat) -> make_spline pts times = Throw.
Proof.
  intros H. unfold make_spline. destruct (Nat.leb_spec 4 (length pts)); [|reflexivity]. destruct (Nat.eqb_spec (length times) (length pts - 2)); [exfalso; apply H; split; assumption|reflexivity].
Qed.
Lemma seg_get pts i : (i + 3 < length pts)%nat -> vec_get (map (nth_segment pts) (seq 0 (length pts - 3))) i = Ok (nth_segment pts i).
Proof.
  intros H. apply vec_get_ok. rewrite nth_error_map, nth_error_nth' with (d := 0%nat) by (rewrite seq_length; lia). rewrite seq_nth by lia. reflexivity.
Qed.
Lemma time_get ts i : (i < length ts)%nat -> vec_get ts i = Ok (nth i ts 0).
Proof. intros H. apply vec_get_ok, nth_error_nth', H. Qed.
Lemma find_time ts t n : increasing ts -> (n <= length ts)%nat -> (n = 0%nat \/ nth (n - 1) ts 0 < t) -> (n = length ts \/ t <= nth n ts 0) -> partition_search (fun x => Rltb x t) ts = n.
Proof.
  intros I L A B. apply partition_search_correct. split; [exact L|]. intros i x E. assert (Hi : (i < length ts)%nat) by (apply nth_error_Some; congruence). rewrite (nth_error_nth' ts 0 Hi) in E. inversion E; subst x. unfold Rltb.
  destruct (Nat.ltb_spec i n) as [C|C].
  - destruct (Rlt_dec (nth i ts 0) t) as [D|D]; [reflexivity|]. exfalso. destruct A as [A|A]; [lia|]. destruct (Nat.eq_dec i (n - 1)) as [Q|Q]; [subst; lra|]. pose proof (I i (n - 1)%nat ltac:(lia)). lra.
  - destruct (Rlt_dec (nth i ts 0) t) as [D|D]; [|reflexivity]. exfalso. destruct B as [B|B]; [lia|]. destruct (Nat.eq_dec i n) as [Q|Q]; [subst; lra|]. pose proof (I n i ltac:(lia)). lra.
Qed.
Lemma spline_at_segment pts times i t : (4 <= length pts)%nat -> length times = (length pts - 2)%nat -> increasing times -> (S i < length times)%nat ->
  (i = 0%nat \/ nth i times 0 <= t) -> (S (S i) = length times \/ t <= nth (S i) times 0) ->
  spline_at (Spline (map (nth_segment pts) (seq 0 (length pts - 3))) times) t = Ok (seg_at (nth_segment pts i) ((t - nth i times 0) / (nth (S i) times 0 - nth i times 0))).
Proof.
  intros H4 HL I Hi A B. unfold spline_at. cbn [sp_times sp_segments]. cbv zeta.
  assert (G : forall j, (S j < length times)%nat -> (do lo <- vec_get times (S j - 1); do hi <- vec_get times (S j); do seg <- vec_get (map (nth_segment pts) (seq 0 (length pts - 3))) (S j - 1); do f <- div_checked (t - lo) (hi - lo); Ok (seg_at seg f)) = Ok (seg_at (nth_segment pts j) ((t - nth j times 0) / (nth (S j) times 0 - nth j times 0)))).
  { intros j Hj. replace (S j - 1)%nat with j by lia. rewrite !time_get by lia. cbn [obind]. rewrite seg_get by lia. cbn [obind]. pose proof (I j (S j) ltac:(lia)). unfold div_checked. destruct (Req_EM_T _ 0) as [Z|Z]; [lra|]. reflexivity. }
  destruct (Rle_dec t (nth i times 0)) as [C|C].
  - destruct A as [A|A].
    + subst i. rewrite (find_time times t 0); [|exact I|lia|left; reflexivity|right; exact C]. destruct (Nat.eqb_spec 0 (length times)); [lia|]. cbn [Nat.eqb]. apply G. exact Hi.
    + assert (T : t = nth i times 0) by lra. destruct i as [|j].
      * rewrite (find_time times t 0); [|exact I|lia|left; reflexivity|right; exact C]. destruct (Nat.eqb_spec 0 (length times)); [lia|]. cbn [Nat.eqb]. apply G. exact Hi.
      * rewrite (find_time times t (S j)); [|exact I|lia|right; rewrite T; apply I; lia|right; lra]. destruct (Nat.eqb_spec (S j) (length times)); [lia|]. cbn [Nat.eqb]. rewrite G by lia. rewrite T.
        pose proof (I j (S j) ltac:(lia)). pose proof (I (S j) (S (S j)) ltac:(lia)). replace ((nth (S j) times 0 - nth j times 0) / (nth (S j) times 0 - nth j times 0)) with 1 by (field; lra). replace ((nth (S j) times 0 - nth (S j) times 0) / (nth (S (S j)) times 0 - nth (S j) times 0)) with 0 by (field; lra).
        unfold nth_segment. destruct (segment_assembled (nth j pts origin) (nth (j + 1) pts origin) (nth (j + 2) pts origin) (nth (j + 3) pts origin)) as (_ & E1 & _). destruct (segment_assembled (nth (S j) pts origin) (nth (S j + 1) pts origin) (nth (S j + 2) pts origin) (nth (S j + 3) pts origin)) as (E2 & _). rewrite E1, E2. do 2 f_equal. lia.
  - destruct (Rle_dec t (nth (S i) times 0)) as [D|D].
    + rewrite (find_time times t (S i)); [|exact I|lia|right; replace (S i - 1)%nat with i by lia; lra|right; exact D]. destruct (Nat.eqb_spec (S i) (length times)); [lia|]. cbn [Nat.eqb]. apply G. exact Hi.
    + destruct B as [B|B]; [|lra]. rewrite (find_time times t (length times)); [|exact I|lia|right; rewrite <- B; replace (S (S i) - 1)%nat with (S i) by lia; lra|left; reflexivity]. rewrite Nat.eqb_refl. rewrite <- B. replace (S (S i) - 1)%nat with (S i) by lia. cbn [Nat.eqb]. apply G. exact Hi.
Qed.
Lemma spline_assembled pts times : (~ ((4 <= length pts)%nat /\ length times = (length pts - 2)%nat) -> make_spline pts times = Throw) /\
  ((4 <= length pts)%nat -> length times = (length pts - 2)%nat -> increasing times -> exists s, make_spline pts times = Ok s /\
    (forall i, (i < length times)%nat -> spline_at s (nth i times 0) = Ok (nth (S i) pts origin)) /\
    (forall i t, (S i < length times)%nat -> (i = 0%nat \/ nth i times 0 <= t) -> (S (S i) = length times \/ t <= nth (S i) times 0) ->
       spline_at s t = Ok (seg_at (make_segment (nth i pts origin) (nth (i + 1) pts origin) (nth (i + 2) pts origin) (nth (i + 3) pts origin)) ((t - nth i times 0) / (nth (S i) times 0 - nth i times 0))))).
Proof.
  split; [apply make_throws|]. intros H4 HL I. eexists. split; [apply make_ok; assumption|]. split; [|intros i t A B C; apply (spline_at_segment pts times i t); assumption].
  intros i Hi. destruct i as [|j].
  - rewrite (spline_at_segment pts times 0) by (try assumption; try lia; try (left; reflexivity); right; apply Rlt_le, I; lia). pose proof (I 0%nat 1%nat ltac:(lia)). replace ((nth 0 times 0 - nth 0 times 0) / (nth 1 times 0 - nth 0 times 0)) with 0 by (field; lra). unfold nth_segment. destruct (segment_assembled (nth 0 pts origin) (nth (0 + 1) pts origin) (nth (0 + 2) pts origin) (nth (0 + 3) pts origin)) as (E & _). rewrite E. reflexivity.
  - pose proof (I j (S j) ltac:(lia)). rewrite (spline_at_segment pts times j) by (try assumption; try lia; right; lra). replace ((nth (S j) times 0 - nth j times 0) / (nth (S j) times 0 - nth j times 0)) with 1 by (field; lra). unfold nth_segment. destruct (segment_assembled (nth j pts origin) (nth (j + 1) pts origin) (nth (j + 2) pts origin) (nth (j + 3) pts origin)) as (_ & E & _). rewrite E. do 2 f_equal. lia.
Qed.
