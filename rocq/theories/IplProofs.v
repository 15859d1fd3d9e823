(** Lemmas about the models of interpolation. *)
From Coq Require Import List Arith Bool ZArith Reals Lra Lia Psatz Sorted.
From Coq Require Import Floats.SpecFloat.
From Verif Require Import Base BaseProofs FlatSpec FlatModel FlatProofs NumSpec NumModel NumProofs IplSpec IplModel.
Import ListNotations.
Local Open Scope R_scope.

(** ** lerp *)
Lemma lerp_assembled a b : lerp a b 0 = a /\ lerp a b 1 = b /\ (forall t, on_line 0 a 1 b t (lerp a b t)) /\ (forall t, 0 <= t <= 1 -> Rmin a b <= lerp a b t <= Rmax a b).
Proof.
  unfold lerp, on_line. split; [ring|]. split; [ring|]. split; [intros t; ring|]. intros t [H0 H1]. unfold Rmin, Rmax. destruct (Rle_dec a b); split; nra.
Qed.
Lemma lerp_precise_assembled a b t : lerp_precise a b t = lerp a b t <-> a = 0 \/ t = 1.
Proof.
  unfold lerp_precise, lerp. split.
  - intros H. assert (E : a * (1 - t) = 0) by lra. apply Rmult_integral in E. destruct E; [left; assumption|right; lra].
  - intros [->| ->]; ring.
Qed.
Lemma lerp_on x1 y1 x2 y2 x : x1 < x2 -> on_line x1 y1 x2 y2 x (lerp y1 y2 ((x - x1) / (x2 - x1))).
Proof. intros H. unfold on_line, lerp. field. lra. Qed.
Lemma on_line_unique x1 y1 x2 y2 x y y' : x1 < x2 -> on_line x1 y1 x2 y2 x y -> on_line x1 y1 x2 y2 x y' -> y = y'.
Proof. unfold on_line. intros L H H'. apply (Rmult_eq_reg_r (x2 - x1)); [|lra]. lra. Qed.

(** ** flat maps of reals *)
Lemma R_total : total_order Rltb Reqb.
Proof.
  unfold Rltb, Reqb. split; intros; repeat (destruct (Rlt_dec _ _)); repeat (destruct (Req_EM_T _ _)); try congruence; try lra; split; intros; try congruence; lra.
Qed.
Lemma Rltb_iff a b : Rltb a b = true <-> a < b.
Proof. unfold Rltb. destruct (Rlt_dec a b); split; intros; try congruence; lra. Qed.
Lemma Rltb_false a b : Rltb a b = false <-> b <= a.
Proof. unfold Rltb. destruct (Rlt_dec a b); split; intros; try congruence; lra. Qed.
Definition assigns (pts : list (R * R)) : list (map_op R R) := map (fun p => MAssign (fst p) (snd p)) pts.
Lemma insert_points_steps pts : insert_points pts = fold_left (fm_step Rltb Reqb 0) (assigns pts) [].
Proof. unfold insert_points, assigns. generalize (@nil (R * R)) as m. induction pts as [|p pts IH]; intros m; [reflexivity|]. cbn [fold_left map]. apply IH. Qed.
Lemma assigns_last pts x y : map_after Reqb 0 (assigns pts) x = Some y <-> last_value pts x y.
Proof.
  unfold map_after. revert y. induction pts as [|p pts IH] using rev_ind; intros y.
  - cbn. split; [discriminate|]. intros (l1 & l2 & E & _). destruct l1; discriminate.
  - unfold assigns. rewrite map_app, fold_left_app. cbn [map fold_left map_step]. unfold upd. fold (assigns pts). destruct (Reqb x (fst p)) eqn:E.
    + apply (to_eq _ _ R_total) in E. subst x. destruct p as [px py]. cbn [fst snd]. split.
      * intros [= <-]. exists pts, []. split; [reflexivity|intros []].
      * intros (l1 & l2 & Ep & N). destruct l2 as [|q l2 _] using rev_ind.
        -- apply app_inj_tail in Ep. destruct Ep as [_ [= <-]]. reflexivity.
        -- exfalso. rewrite app_comm_cons, app_assoc in Ep. apply app_inj_tail in Ep. destruct Ep as [_ <-]. apply N. rewrite map_app. apply in_or_app. right. left. reflexivity.
    + rewrite IH. assert (Nx : x <> fst p). { intros ->. assert (Reqb (fst p) (fst p) = true) by (apply (to_eq _ _ R_total); reflexivity). congruence. }
      split.
      * intros (l1 & l2 & -> & N). exists l1, (l2 ++ [p]). split; [rewrite <- app_assoc; reflexivity|]. rewrite map_app, in_app_iff. cbn. intuition.
      * intros (l1 & l2 & Ep & N). destruct l2 as [|q l2 _] using rev_ind.
        -- apply app_inj_tail in Ep. destruct Ep as [_ ->]. cbn in Nx. congruence.
        -- rewrite app_comm_cons, app_assoc in Ep. apply app_inj_tail in Ep. destruct Ep as [-> <-]. exists l1, l2. split; [reflexivity|]. intros I. apply N. rewrite map_app. apply in_or_app. left. exact I.
Qed.
Lemma last_value_in pts x : In x (map fst pts) <-> exists y, last_value pts x y.
Proof.
  split.
  - induction pts as [|p pts IH] using rev_ind; [intros []|]. rewrite map_app, in_app_iff. destruct p as [px py]. intros H. destruct (Req_EM_T x px) as [->|N].
    + exists py, pts, []. split; [reflexivity|intros []].
    + destruct H as [H|[H|[]]]; [|cbn in H; congruence]. destruct (IH H) as (y & l1 & l2 & -> & N2). exists y, l1, (l2 ++ [(px, py)]). split; [rewrite <- app_assoc; reflexivity|].
      rewrite map_app, in_app_iff. cbn. intuition.
  - intros (y & l1 & l2 & -> & _). rewrite map_app. apply in_or_app. right. left. reflexivity.
Qed.
Lemma insert_points_ok pts : increasing Rltb (map fst (insert_points pts)) /\ (forall x y, In (x, y) (insert_points pts) <-> last_value pts x y).
Proof.
  rewrite insert_points_steps. destruct (flat_map_refines_map Rltb Reqb 0 R_total (assigns pts)) as (I & E & _). split; [exact I|]. intros x y. rewrite E. apply assigns_last.
Qed.
Lemma inc_split (A B : list (R * R)) : increasing Rltb (map fst (A ++ B)) -> increasing Rltb (map fst A) /\ increasing Rltb (map fst B) /\ (forall a b, In a A -> In b B -> fst a < fst b).
Proof.
  intros H. rewrite inc_app in H. destruct H as (H1 & H2 & H3). split; [exact H1|]. split; [exact H2|]. intros a b Ha Hb. apply Rltb_iff. apply H3; assumption.
Qed.
Lemma search_at {A} (f : A -> bool) (a b : list A) : (forall x, In x a -> f x = true) -> (forall x, In x b -> f x = false) -> partition_search f (a ++ b) = length a.
Proof.
  intros Ha Hb. apply partition_search_correct. split; [rewrite app_length; lia|]. intros i x E. destruct (Nat.ltb_spec i (length a)) as [Hi|Hi].
  - rewrite nth_error_app1 in E by exact Hi. apply Ha. eapply nth_error_In. exact E.
  - rewrite nth_error_app2 in E by exact Hi. apply Hb. eapply nth_error_In. exact E.
Qed.
Lemma get_mid {A} (a b : list A) x i : i = length a -> vec_get (a ++ x :: b) i = Ok x.
Proof. intros ->. unfold vec_get. rewrite nth_error_app2, Nat.sub_diag by lia. reflexivity. Qed.
Lemma get_mid2 {A} (a b : list A) x y i : i = S (length a) -> vec_get (a ++ x :: y :: b) i = Ok y.
Proof. intros ->. unfold vec_get. rewrite nth_error_app2 by lia. replace (S (length a) - length a)%nat with 1%nat by lia. reflexivity. Qed.

(** ** piecewise linear functions *)
Definition in_segment (A : list (R * R)) (x1 x2 : R) (B : list (R * R)) (x : R) : Prop := (A = [] \/ x1 < x) /\ (B = [] \/ x <= x2).
Lemma lower_at (a b : list (R * R)) x : (forall p, In p a -> fst p < x) -> (forall p, In p b -> x <= fst p) -> fm_lower_bound Rltb (a ++ b) x = length a.
Proof. intros Ha Hb. apply search_at; intros p Hp; [apply Rltb_iff, Ha, Hp|apply Rltb_false, Hb, Hp]. Qed.
Lemma upper_at (a b : list (R * R)) x : (forall p, In p a -> fst p <= x) -> (forall p, In p b -> x < fst p) -> fm_upper_bound Rltb (a ++ b) x = length a.
Proof. intros Ha Hb. apply search_at; intros p Hp; [apply negb_true_iff, Rltb_false, Ha, Hp|apply negb_false_iff, Rltb_iff, Hb, Hp]. Qed.
Lemma linear_segment A x1 y1 x2 y2 B x : increasing Rltb (map fst (A ++ (x1, y1) :: (x2, y2) :: B)) -> in_segment A x1 x2 B x ->
  piecewise_linear (A ++ (x1, y1) :: (x2, y2) :: B) x = Ok (lerp y1 y2 ((x - x1) / (x2 - x1))).
Proof.
  intros I [HA HB]. set (m := A ++ _). assert (L : length m = (length A + 2 + length B)%nat) by (unfold m; rewrite app_length; cbn [length]; lia).
  destruct (inc_split _ _ I) as (_ & I2 & O1). destruct (inc_split [(x1, y1)] _ I2) as (_ & I3 & O2). destruct (inc_split [(x2, y2)] _ I3) as (_ & _ & O3).
  assert (L12 : x1 < x2) by (apply (O2 (x1, y1) (x2, y2)); left; reflexivity).
  assert (OA : forall p, In p A -> fst p < x1) by (intros p Hp; apply (O1 p (x1, y1)); [exact Hp|left; reflexivity]).
  assert (OB : forall p, In p B -> x2 < fst p) by (intros p Hp; apply (O3 (x2, y2) p); [left; reflexivity|exact Hp]).
  unfold piecewise_linear. rewrite (proj2 (Nat.leb_le 2 (length m))) by lia.
  set (it := fm_lower_bound Rltb m x). cbv zeta.
  assert (E : (if (it =? length m)%nat then (it - 1)%nat else if (it =? 0)%nat then (it + 1)%nat else it) = S (length A)).
  { destruct (Rle_lt_dec x x1) as [H1|H1]; [|destruct (Rle_lt_dec x x2) as [H2|H2]].
    - destruct HA as [->|HA]; [|lra]. assert (Ei : it = 0%nat).
      { apply (lower_at [] m). + intros p []. + intros p [<-|[<-|Hp]]; cbn; try lra. specialize (OB p Hp). lra. }
      rewrite Ei. rewrite L. reflexivity.
    - assert (Ei : it = length (A ++ [(x1, y1)])).
      { unfold it, m. change (A ++ (x1, y1) :: (x2, y2) :: B) with (A ++ [(x1, y1)] ++ (x2, y2) :: B). rewrite app_assoc. apply lower_at.
        + intros p Hp. apply in_app_iff in Hp. destruct Hp as [Hp|[<-|[]]]; [specialize (OA p Hp); lra|exact H1].
        + intros p [<-|Hp]; [exact H2|specialize (OB p Hp); lra]. }
      rewrite app_length in Ei. cbn [length] in Ei. destruct (Nat.eqb_spec it (length m)); [lia|]. destruct (Nat.eqb_spec it 0); lia.
    - destruct HB as [->|HB]; [|lra]. assert (Ei : it = length m).
      { unfold it. rewrite <- (app_nil_r m) at 1. apply lower_at.
        + intros p Hp. apply in_app_iff in Hp. destruct Hp as [Hp|[<-|[<-|[]]]]; cbn; try lra. specialize (OA p Hp). lra.
        + intros p []. }
      rewrite Ei, Nat.eqb_refl, L. cbn [length]. lia. }
  rewrite E. cbn [Nat.sub]. rewrite Nat.sub_0_r. unfold m. rewrite (get_mid A _ _ _ eq_refl). cbn [obind]. rewrite (get_mid2 A B _ _ _ eq_refl). reflexivity.
Qed.
Lemma segment_exists m x : increasing Rltb (map fst m) -> (2 <= length m)%nat -> exists A x1 y1 x2 y2 B, m = A ++ (x1, y1) :: (x2, y2) :: B /\ in_segment A x1 x2 B x.
Proof.
  induction m as [|[x1 y1] m IH]; intros I L; [cbn in L; lia|]. destruct m as [|[x2 y2] r]; [cbn in L; lia|].
  destruct (inc_split [(x1, y1)] _ I) as (_ & I2 & O).
  destruct r as [|q r].
  - exists [], x1, y1, x2, y2, []. split; [reflexivity|]. split; left; reflexivity.
  - destruct (Rle_lt_dec x x2) as [H|H].
    + exists [], x1, y1, x2, y2, (q :: r). split; [reflexivity|]. split; [left; reflexivity|right; exact H].
    + destruct (IH I2) as (A & a1 & b1 & a2 & b2 & B & E & [SA SB]); [cbn; lia|]. exists ((x1, y1) :: A), a1, b1, a2, b2, B. split; [rewrite E; reflexivity|].
      split; [right|exact SB]. destruct SA as [->|SA]; [|exact SA]. cbn in E. injection E as <- <- _. exact H.
Qed.
Lemma abscissa_in pts x : In x (map fst pts) <-> In x (map fst (insert_points pts)).
Proof.
  destruct (insert_points_ok pts) as [_ E]. rewrite last_value_in, in_map_iff. split.
  - intros [y Hy]. exists (x, y). split; [reflexivity|apply E, Hy].
  - intros ([x' y] & <- & H). exists y. apply E, H.
Qed.
Lemma two_abscissas pts : (2 <= length (insert_points pts))%nat <-> exists a b, In a (map fst pts) /\ In b (map fst pts) /\ a <> b.
Proof.
  destruct (insert_points_ok pts) as [I E]. split.
  - intros L. remember (insert_points pts) as m. destruct m as [|[a y] [|[b z] m]]; cbn in L; try lia. exists a, b.
    split; [apply abscissa_in; rewrite <- Heqm; left; reflexivity|]. split; [apply abscissa_in; rewrite <- Heqm; right; left; reflexivity|]. destruct (inc_split [(a, y)] _ I) as (_ & _ & O). specialize (O (a, y) (b, z) (or_introl eq_refl) (or_introl eq_refl)). cbn in O. lra.
  - intros (a & b & Ha & Hb & N). rewrite abscissa_in in Ha, Hb. destruct (insert_points pts) as [|p [|q m]]; cbn [length]; [destruct Ha| |lia].
    destruct Ha as [Ha|[]], Hb as [Hb|[]]. congruence.
Qed.
Lemma neighbours_split pts x1 y1 x2 y2 : neighbours pts x1 x2 -> last_value pts x1 y1 -> last_value pts x2 y2 ->
  exists A B, insert_points pts = A ++ (x1, y1) :: (x2, y2) :: B.
Proof.
  intros (H1 & H2 & L & N) V1 V2. destruct (insert_points_ok pts) as [I E]. apply E in V1. apply E in V2.
  destruct (in_split _ _ V1) as (A & B' & Em). rewrite Em in *. destruct (inc_split _ _ I) as (_ & I2 & O). destruct (inc_split [(x1, y1)] _ I2) as (_ & I3 & O2).
  exists A. destruct B' as [|[k z] B].
  - exfalso. apply in_app_iff in V2. destruct V2 as [V2|[V2|[]]].
    + specialize (O _ _ V2 (or_introl eq_refl)). cbn in O. lra.
    + injection V2 as -> ->. lra.
  - assert (K : k = x2).
    { assert (Kx : x1 < k) by (apply (O2 (x1, y1) (k, z)); left; reflexivity).
      assert (Ik : In k (map fst pts)). { rewrite abscissa_in, Em, map_app. apply in_or_app. right. right. left. reflexivity. }
      destruct (N k Ik) as [N'|N']; [lra|]. apply in_app_iff in V2. destruct V2 as [V2|[V2|[V2|V2]]].
      - specialize (O _ _ V2 (or_introl eq_refl)). cbn in O. lra.
      - injection V2 as -> ->. lra.
      - congruence.
      - destruct (inc_split [(k, z)] _ I3) as (_ & _ & O3). specialize (O3 _ _ (or_introl eq_refl) V2). cbn in O3. lra. }
    subst k. exists B. f_equal. f_equal. f_equal. assert (V3 : In (x2, z) (A ++ (x1, y1) :: (x2, z) :: B)) by (apply in_or_app; right; right; left; reflexivity).
    f_equal. apply E in V2. apply E in V3. apply assigns_last in V2. apply assigns_last in V3. congruence.
Qed.
Lemma smallest_front pts A p B : insert_points pts = A ++ p :: B -> smallest pts (fst p) -> A = [].
Proof.
  intros Em [_ S]. destruct A as [|q A]; [reflexivity|]. exfalso. destruct (insert_points_ok pts) as [I _]. rewrite Em in I. destruct (inc_split _ _ I) as (_ & _ & O).
  specialize (O q p (or_introl eq_refl) (or_introl eq_refl)). specialize (S (fst q)). rewrite abscissa_in, Em in S. specialize (S (or_introl eq_refl)). lra.
Qed.
Lemma largest_back pts A p B : insert_points pts = A ++ p :: B -> largest pts (fst p) -> B = [].
Proof.
  intros Em [_ S]. destruct B as [|q B]; [reflexivity|]. exfalso. destruct (insert_points_ok pts) as [I _]. rewrite Em in I. destruct (inc_split _ _ I) as (_ & I2 & _).
  destruct (inc_split [p] _ I2) as (_ & _ & O). specialize (O p q (or_introl eq_refl) (or_introl eq_refl)). specialize (S (fst q)). rewrite abscissa_in, Em, map_app, in_app_iff in S.
  specialize (S (or_intror (or_intror (or_introl eq_refl)))). lra.
Qed.
Lemma linear_assembled pts x :
  (piecewise_linear (insert_points pts) x = Throw <-> ~ exists a b, In a (map fst pts) /\ In b (map fst pts) /\ a <> b) /\
  ((exists a b, In a (map fst pts) /\ In b (map fst pts) /\ a <> b) -> exists y, piecewise_linear (insert_points pts) x = Ok y) /\
  (forall x1 y1 x2 y2 y, neighbours pts x1 x2 -> last_value pts x1 y1 -> last_value pts x2 y2 -> smallest pts x1 \/ x1 <= x -> largest pts x2 \/ x <= x2 ->
     piecewise_linear (insert_points pts) x = Ok y -> on_line x1 y1 x2 y2 x y /\ (x1 <= x <= x2 -> Rmin y1 y2 <= y <= Rmax y1 y2)) /\
  (forall v y, last_value pts x v -> piecewise_linear (insert_points pts) x = Ok y -> y = v).
Proof.
  destruct (insert_points_ok pts) as [I Eq].
  assert (OKs : (2 <= length (insert_points pts))%nat -> exists y, piecewise_linear (insert_points pts) x = Ok y).
  { intros L. destruct (segment_exists _ x I L) as (A & x1 & y1 & x2 & y2 & B & Em & S). rewrite Em in *. rewrite linear_segment by assumption. eexists. reflexivity. }
  assert (SEG : forall A x1 y1 x2 y2 B y, insert_points pts = A ++ (x1, y1) :: (x2, y2) :: B -> x1 < x2 -> (A = [] \/ x1 <= x) -> (B = [] \/ x <= x2) -> piecewise_linear (insert_points pts) x = Ok y -> on_line x1 y1 x2 y2 x y).
  { intros A x1 y1 x2 y2 B y Em L HA HB P. rewrite Em in P, I.
    assert (C : (A = [] \/ x1 < x) \/ x = x1 /\ exists A' x0 y0, A = A' ++ [(x0, y0)]).
    { destruct HA as [HA|HA]; [left; left; exact HA|]. destruct (Rle_lt_or_eq_dec _ _ HA) as [H|H]; [left; right; exact H|].
      destruct A as [|[x0 y0] A _] using rev_ind; [left; left; reflexivity|]. right. split; [symmetry; exact H|]. exists A, x0, y0. reflexivity. }
    destruct C as [C|(Ex & A' & x0 & y0 & EA)].
    - rewrite linear_segment in P by (try split; assumption). injection P as <-. apply lerp_on. exact L.
    - subst A. rewrite <- app_assoc in P, I. cbn [app] in P, I. assert (L0 : x0 < x1). { destruct (inc_split _ _ I) as (_ & I2 & _). destruct (inc_split [(x0, y0)] _ I2) as (_ & _ & O). apply (O (x0, y0) (x1, y1)); left; reflexivity. }
      rewrite linear_segment in P by (try assumption; split; right; lra). injection P as <-. subst x. unfold on_line, lerp. field. lra. }
  split; [|split; [|split]].
  - rewrite <- two_abscissas. split.
    + intros T L. destruct (OKs L) as [y Hy]. congruence.
    + intros N. unfold piecewise_linear. destruct (Nat.leb_spec 2 (length (insert_points pts))); [tauto|reflexivity].
  - rewrite <- two_abscissas. exact OKs.
  - intros x1 y1 x2 y2 y N V1 V2 S1 S2 P. destruct (neighbours_split pts x1 y1 x2 y2 N V1 V2) as (A & B & Em). assert (L : x1 < x2) by apply N.
    assert (O : on_line x1 y1 x2 y2 x y).
    { apply (SEG A x1 y1 x2 y2 B y Em L).
      - destruct S1 as [S1|S1]; [left; apply (smallest_front pts A (x1, y1) _ Em S1)|right; exact S1].
      - destruct S2 as [S2|S2]; [left|right; exact S2]. apply (largest_back pts (A ++ [(x1, y1)]) (x2, y2) B); [rewrite <- app_assoc; exact Em|exact S2].
      - exact P. }
    split; [exact O|]. intros X. assert (Ey : y = lerp y1 y2 ((x - x1) / (x2 - x1))) by (apply (on_line_unique x1 y1 x2 y2 x); [exact L|exact O|apply lerp_on, L]). subst y.
    apply lerp_assembled. split; [apply Rmult_le_pos; [lra|apply Rlt_le, Rinv_0_lt_compat; lra]|]. apply (Rmult_le_reg_r (x2 - x1)); [lra|]. unfold Rdiv. rewrite Rmult_assoc, Rinv_l by lra. lra.
  - intros v y V P. apply Eq in V.
    assert (L : (2 <= length (insert_points pts))%nat). { unfold piecewise_linear in P. destruct (Nat.leb_spec 2 (length (insert_points pts))); [assumption|discriminate]. }
    destruct (in_split _ _ V) as (A & B & Em). destruct B as [|[k z] B].
    + destruct A as [|[k z] A _] using rev_ind; [rewrite Em in L; cbn in L; lia|]. rewrite <- app_assoc in Em. cbn [app] in Em.
      assert (L0 : k < x). { rewrite Em in I. destruct (inc_split _ _ I) as (_ & I2 & _). destruct (inc_split [(k, z)] _ I2) as (_ & _ & O). apply (O (k, z) (x, v)); left; reflexivity. }
      assert (O : on_line k z x v x y) by (apply (SEG A k z x v [] y Em L0); [right; lra|right; lra|exact P]). apply (on_line_unique k z x v x); [exact L0|exact O|]. unfold on_line. ring.
    + assert (L0 : x < k). { rewrite Em in I. destruct (inc_split _ _ I) as (_ & I2 & _). destruct (inc_split [(x, v)] _ I2) as (_ & _ & O). apply (O (x, v) (k, z)); left; reflexivity. }
      assert (O : on_line x v k z x y) by (apply (SEG A x v k z B y Em L0); [right; lra|right; lra|exact P]). apply (on_line_unique x v k z x); [exact L0|exact O|]. unfold on_line. ring.
Qed.

(** ** piecewise constant functions *)
Lemma constant_at A x1 y1 B x : increasing Rltb (map fst (A ++ (x1, y1) :: B)) -> (A = [] \/ x1 <= x) -> (forall p, In p B -> x < fst p) -> piecewise_constant (A ++ (x1, y1) :: B) x = Ok y1.
Proof.
  intros I HA HB. set (m := A ++ _). assert (L : length m = (length A + 1 + length B)%nat) by (unfold m; rewrite app_length; cbn [length]; lia).
  destruct (inc_split _ _ I) as (_ & I2 & O1). destruct (inc_split [(x1, y1)] _ I2) as (_ & I3 & O2).
  assert (OA : forall p, In p A -> fst p < x1) by (intros p Hp; apply (O1 p (x1, y1)); [exact Hp|left; reflexivity]).
  assert (EQ : piecewise_constant m x = let it := fm_upper_bound Rltb m x in if (it =? length m)%nat then do e <- vec_get m (length m - 1); Ok (snd e) else if (it =? 0)%nat then do e <- vec_get m 0; Ok (snd e) else do e <- vec_get m (it - 1); Ok (snd e)).
  { unfold piecewise_constant. destruct m; [cbn in L; lia|reflexivity]. }
  rewrite EQ. clear EQ. cbv zeta.
  destruct (Rle_lt_dec x1 x) as [H|H].
  - assert (Ei : fm_upper_bound Rltb m x = length (A ++ [(x1, y1)])).
    { unfold m. change (A ++ (x1, y1) :: B) with (A ++ [(x1, y1)] ++ B). rewrite app_assoc. apply upper_at.
      + intros p Hp. apply in_app_iff in Hp. destruct Hp as [Hp|[<-|[]]]; [specialize (OA p Hp); lra|exact H].
      + exact HB. }
    rewrite app_length in Ei. cbn [length] in Ei. rewrite Ei. replace (length A + 1 =? 0)%nat with false by (symmetry; apply Nat.eqb_neq; lia).
    destruct (Nat.eqb_spec (length A + 1) (length m)) as [E|E].
    + rewrite <- E. unfold m. rewrite get_mid by lia. reflexivity.
    + unfold m. rewrite get_mid by lia. reflexivity.
  - destruct HA as [->|HA]; [|lra]. assert (Ei : fm_upper_bound Rltb m x = 0%nat).
    { apply (upper_at [] m); [intros p []|]. intros p [<-|Hp]; [exact H|apply HB, Hp]. }
    rewrite Ei. destruct (Nat.eqb_spec 0 (length m)) as [E|E]; [lia|]. reflexivity.
Qed.
Lemma constant_assembled pts x :
  (piecewise_constant (insert_points pts) x = Throw <-> pts = []) /\
  (forall x1 y1, last_value pts x1 y1 -> x1 <= x -> (forall x', In x' (map fst pts) -> x' <= x1 \/ x < x') -> piecewise_constant (insert_points pts) x = Ok y1) /\
  (forall x1 y1, last_value pts x1 y1 -> smallest pts x1 -> x < x1 -> piecewise_constant (insert_points pts) x = Ok y1) /\
  (pts <> [] -> exists y, piecewise_constant (insert_points pts) x = Ok y).
Proof.
  destruct (insert_points_ok pts) as [I Eq].
  assert (P1 : forall x1 y1, last_value pts x1 y1 -> x1 <= x -> (forall x', In x' (map fst pts) -> x' <= x1 \/ x < x') -> piecewise_constant (insert_points pts) x = Ok y1).
  { intros x1 y1 V H N. apply Eq in V. destruct (in_split _ _ V) as (A & B & Em). rewrite Em in *. apply constant_at; [exact I|right; exact H|]. intros p Hp.
    destruct (inc_split _ _ I) as (_ & I2 & _). destruct (inc_split [(x1, y1)] _ I2) as (_ & _ & O2). specialize (O2 (x1, y1) p (or_introl eq_refl) Hp). cbn in O2.
    destruct (N (fst p)); [|lra|assumption]. apply abscissa_in. rewrite Em. apply in_map. apply in_or_app. right. right. exact Hp. }
  assert (P2 : forall x1 y1, last_value pts x1 y1 -> smallest pts x1 -> x < x1 -> piecewise_constant (insert_points pts) x = Ok y1).
  { intros x1 y1 V S H. apply Eq in V. destruct (in_split _ _ V) as (A & B & Em). assert (EA : A = []) by (apply (smallest_front pts A (x1, y1) B Em S)). subst A. cbn [app] in *. rewrite Em in *.
    apply (constant_at [] x1 y1 B x); [exact I|left; reflexivity|]. intros p Hp. destruct (inc_split [(x1, y1)] _ I) as (_ & _ & O2). specialize (O2 (x1, y1) p (or_introl eq_refl) Hp). cbn in O2. lra. }
  assert (EX : forall m, increasing Rltb (map fst m) -> m <> [] -> exists y, piecewise_constant m x = Ok y).
  { intros m Im Nm. assert (D : exists A p B, m = A ++ p :: B /\ (A = [] \/ fst p <= x) /\ forall q, In q B -> x < fst q).
    { clear I Eq P1 P2. induction m as [|p m IH]; [congruence|]. destruct (inc_split [p] _ Im) as (_ & I2 & O). destruct m as [|q m].
      - exists [], p, []. split; [reflexivity|]. split; [left; reflexivity|intros q []].
      - destruct (Rle_lt_dec (fst q) x) as [H|H].
        + destruct (IH I2) as (A & r & B & E & HA & HB); [discriminate|]. exists (p :: A), r, B. split; [rewrite E; reflexivity|]. split; [right|exact HB].
          destruct HA as [->|HA]; [cbn in E; injection E as <- _; exact H|exact HA].
        + exists [], p, (q :: m). split; [reflexivity|]. split; [left; reflexivity|]. intros r [<-|Hr]; [exact H|]. destruct (inc_split [q] _ I2) as (_ & _ & O2). specialize (O2 q r (or_introl eq_refl) Hr). lra. }
    destruct D as (A & [x1 y1] & B & -> & HA & HB). exists y1. apply constant_at; assumption. }
  assert (NE : pts <> [] -> insert_points pts <> []).
  { intros N E. destruct pts as [|[a b] r]; [congruence|]. assert (H : In a (map fst (insert_points ((a, b) :: r)))) by (apply (proj1 (abscissa_in _ _)); left; reflexivity). rewrite E in H. exact H. }
  split; [|split; [exact P1|split; [exact P2|]]].
  - split; [|intros ->; reflexivity]. intros T. destruct pts as [|p r]; [reflexivity|]. exfalso. destruct (EX _ I (NE ltac:(discriminate))) as [y Hy]. congruence.
  - intros N. apply EX; [exact I|apply NE, N].
Qed.

(** ** maps *)
Lemma sorted_keys_inc m : sorted_keys m -> increasing Rltb (map fst m).
Proof.
  unfold increasing. intros H. apply Sorted_StronglySorted; [intros a b c; rewrite !Rltb_iff; lra|]. induction m as [|[k v] m IH]; [constructor|]. cbn [map fst]. destruct m as [|[k2 v2] m].
  - constructor; constructor.
  - destruct H as [H1 H2]. constructor; [apply IH, H2|]. constructor. apply Rltb_iff. exact H1.
Qed.
Lemma map_upper_at (a b : list (R * R)) x : (forall p, In p a -> fst p <= x) -> (forall p, In p b -> x < fst p) -> map_upper_bound (a ++ b) x = length a.
Proof.
  intros Ha Hb. induction a as [|[k v] a IH].
  - cbn [app length]. destruct b as [|[k v] b]; [reflexivity|]. cbn [map_upper_bound]. destruct (Rlt_dec x k) as [_|N]; [reflexivity|]. exfalso. apply N. apply (Hb (k, v)). left. reflexivity.
  - cbn [app length map_upper_bound]. destruct (Rlt_dec x k) as [N|_]; [specialize (Ha (k, v) (or_introl eq_refl)); cbn in Ha; lra|]. rewrite IH; [reflexivity|]. intros p Hp. apply Ha. right. exact Hp.
Qed.
Lemma lerp_map_unfold m x : m <> [] -> lerp_map m x =
    let ub := map_upper_bound m x in
    if (ub =? length m)%nat then do e <- vec_get m (ub - 1); Ok (snd e)
    else if (ub =? 0)%nat then do e <- vec_get m ub; Ok (snd e)
    else do lo <- vec_get m (ub - 1); do hi <- vec_get m ub; let t := (x - fst lo) / (fst hi - fst lo) in Ok (lerp (snd lo) (snd hi) t).
Proof. destruct m; [congruence|reflexivity]. Qed.
Lemma lerp_map_mid A x1 y1 x2 y2 B x : increasing Rltb (map fst (A ++ (x1, y1) :: (x2, y2) :: B)) -> x1 <= x < x2 -> lerp_map (A ++ (x1, y1) :: (x2, y2) :: B) x = Ok (lerp y1 y2 ((x - x1) / (x2 - x1))).
Proof.
  intros I [H1 H2]. rewrite lerp_map_unfold by (destruct A; discriminate). set (m := A ++ _). assert (L : length m = (length A + 2 + length B)%nat) by (unfold m; rewrite app_length; cbn [length]; lia).
  destruct (inc_split _ _ I) as (_ & I2 & O1). destruct (inc_split [(x1, y1)] _ I2) as (_ & I3 & O2). destruct (inc_split [(x2, y2)] _ I3) as (_ & _ & O3).
  assert (Ei : map_upper_bound m x = length (A ++ [(x1, y1)])).
  { unfold m. change (A ++ (x1, y1) :: (x2, y2) :: B) with (A ++ [(x1, y1)] ++ (x2, y2) :: B). rewrite app_assoc. apply map_upper_at.
    + intros p Hp. apply in_app_iff in Hp. destruct Hp as [Hp|[<-|[]]]; [|exact H1]. specialize (O1 p (x1, y1) Hp (or_introl eq_refl)). cbn in O1. lra.
    + intros p [<-|Hp]; [exact H2|]. specialize (O3 (x2, y2) p (or_introl eq_refl) Hp). cbn in O3. lra. }
  rewrite app_length in Ei. cbn [length] in Ei. cbv zeta. rewrite Ei. destruct (Nat.eqb_spec (length A + 1) (length m)); [lia|]. destruct (Nat.eqb_spec (length A + 1) 0); [lia|].
  unfold m. rewrite get_mid by lia. cbn [obind]. rewrite get_mid2 by lia. reflexivity.
Qed.
Lemma lerp_map_back A x1 y1 x : increasing Rltb (map fst (A ++ [(x1, y1)])) -> x1 <= x -> lerp_map (A ++ [(x1, y1)]) x = Ok y1.
Proof.
  intros I H. rewrite lerp_map_unfold by (destruct A; discriminate). set (m := A ++ _). destruct (inc_split _ _ I) as (_ & I2 & O1).
  assert (Ei : map_upper_bound m x = length m).
  { rewrite <- (app_nil_r m) at 1. apply map_upper_at; [|intros p []]. intros p Hp. apply in_app_iff in Hp. destruct Hp as [Hp|[<-|[]]]; [|exact H]. specialize (O1 p (x1, y1) Hp (or_introl eq_refl)). cbn in O1. lra. }
  cbv zeta. rewrite Ei, Nat.eqb_refl. unfold m. rewrite app_length. cbn [length]. rewrite get_mid by lia. reflexivity.
Qed.
Lemma lerp_map_front x1 y1 B x : increasing Rltb (map fst ((x1, y1) :: B)) -> x < x1 -> lerp_map ((x1, y1) :: B) x = Ok y1.
Proof.
  intros I H. rewrite lerp_map_unfold by discriminate. destruct (inc_split [(x1, y1)] _ I) as (_ & _ & O1).
  assert (Ei : map_upper_bound ((x1, y1) :: B) x = 0%nat).
  { apply (map_upper_at [] ((x1, y1) :: B)); [intros p []|]. intros p [<-|Hp]; [exact H|]. specialize (O1 (x1, y1) p (or_introl eq_refl) Hp). cbn in O1. lra. }
  cbv zeta. rewrite Ei. reflexivity.
Qed.
Lemma in_inc_unique m k (v w : R) : increasing Rltb (map fst m) -> In (k, v) m -> In (k, w) m -> v = w.
Proof.
  intros I V W. destruct (in_split _ _ V) as (A & B & ->). destruct (inc_split _ _ I) as (_ & I2 & O1). destruct (inc_split [(k, v)] _ I2) as (_ & _ & O2).
  apply in_app_iff in W. destruct W as [W|[W|W]]; [|congruence|].
  - specialize (O1 _ _ W (or_introl eq_refl)). cbn in O1. lra.
  - specialize (O2 _ _ (or_introl eq_refl) W). cbn in O2. lra.
Qed.
Lemma lerp_map_assembled m x : sorted_keys m ->
  (lerp_map m x = Throw <-> m = []) /\
  (forall v, In (x, v) m -> lerp_map m x = Ok v) /\
  (forall x1 y1, In (x1, y1) m -> smallest m x1 -> x <= x1 -> lerp_map m x = Ok y1) /\
  (forall x1 y1, In (x1, y1) m -> largest m x1 -> x1 <= x -> lerp_map m x = Ok y1) /\
  (forall x1 y1 x2 y2, neighbours m x1 x2 -> In (x1, y1) m -> In (x2, y2) m -> x1 <= x <= x2 -> exists y, lerp_map m x = Ok y /\ on_line x1 y1 x2 y2 x y).
Proof.
  intros S. apply sorted_keys_inc in S. rename S into I.
  assert (E1 : forall v, In (x, v) m -> lerp_map m x = Ok v).
  { intros v V. destruct (in_split _ _ V) as (A & B & ->). destruct B as [|[k z] B].
    - apply lerp_map_back; [exact I|lra].
    - assert (L : x < k). { destruct (inc_split _ _ I) as (_ & I2 & _). destruct (inc_split [(x, v)] _ I2) as (_ & _ & O). apply (O (x, v) (k, z)); left; reflexivity. }
      rewrite lerp_map_mid by (try assumption; lra). f_equal. unfold lerp. field. lra. }
  split; [|split; [exact E1|split; [|split]]].
  - split; [|intros ->; reflexivity]. intros T. destruct m as [|[k v] m]; [reflexivity|]. exfalso. destruct (Rlt_dec x k) as [H|H]; [rewrite lerp_map_front in T by assumption; discriminate|].
    assert (D : exists A x1 y1 B, (k, v) :: m = A ++ (x1, y1) :: B /\ x1 <= x /\ match B with [] => True | (x2, _) :: _ => x < x2 end).
    { clear E1 T. revert k v I H. induction m as [|[k2 v2] m IH]; intros k v I H.
      - exists [], k, v, []. split; [reflexivity|]. split; [lra|exact Logic.I].
      - destruct (Rlt_dec x k2) as [H2|H2].
        + exists [], k, v, ((k2, v2) :: m). split; [reflexivity|]. split; [lra|exact H2].
        + destruct (IH k2 v2) as (A & x1 & y1 & B & E & R1 & R2); [apply (inc_split [(k, v)] _ I)|exact H2|]. exists ((k, v) :: A), x1, y1, B. split; [rewrite E; reflexivity|]. split; assumption. }
    destruct D as (A & x1 & y1 & B & E & R1 & R2). rewrite E in *. destruct B as [|[x2 y2] B].
    + rewrite lerp_map_back in T by assumption. discriminate.
    + rewrite lerp_map_mid in T by (try assumption; lra). discriminate.
  - intros x1 y1 V [_ S] H. destruct (Req_EM_T x x1) as [->|N]; [apply E1, V|]. destruct m as [|[k v] m]; [destruct V|]. assert (k = x1).
    { destruct V as [V|V]; [congruence|]. destruct (inc_split [(k, v)] _ I) as (_ & _ & O). specialize (O _ _ (or_introl eq_refl) V). cbn in O. specialize (S k (or_introl eq_refl)). lra. }
    subst k. assert (v = y1) by (apply (in_inc_unique _ x1 v y1 I); [left; reflexivity|exact V]). subst v. apply lerp_map_front; [exact I|lra].
  - intros x1 y1 V [_ S] H. destruct (in_split _ _ V) as (A & B & ->). destruct B as [|[k z] B]; [apply lerp_map_back; assumption|].
    exfalso. destruct (inc_split _ _ I) as (_ & I2 & _). destruct (inc_split [(x1, y1)] _ I2) as (_ & _ & O). specialize (O _ _ (or_introl eq_refl) (or_introl eq_refl)). cbn in O.
    specialize (S k). rewrite map_app, in_app_iff in S. specialize (S (or_intror (or_intror (or_introl eq_refl)))). lra.
  - intros x1 y1 x2 y2 (N1 & N2 & L & N) V1 V2 H. destruct (Req_EM_T x x2) as [->|Nx].
    + exists y2. split; [apply E1, V2|]. unfold on_line. ring.
    + destruct (in_split _ _ V1) as (A & B & ->). destruct (inc_split _ _ I) as (_ & I2 & O1). destruct (inc_split [(x1, y1)] _ I2) as (_ & I3 & O2). destruct B as [|[k z] B].
      * exfalso. apply in_app_iff in V2. destruct V2 as [V2|[V2|[]]]; [|injection V2 as -> ->; lra]. specialize (O1 _ _ V2 (or_introl eq_refl)). cbn in O1. lra.
      * assert (K : k = x2).
        { assert (Kx : x1 < k) by (apply (O2 (x1, y1) (k, z)); left; reflexivity).
          destruct (N k) as [N'|N']; [rewrite map_app; apply in_or_app; right; right; left; reflexivity|lra|]. apply in_app_iff in V2. destruct V2 as [V2|[V2|[V2|V2]]].
          - specialize (O1 _ _ V2 (or_introl eq_refl)). cbn in O1. lra.
          - injection V2 as -> ->. lra.
          - congruence.
          - destruct (inc_split [(k, z)] _ I3) as (_ & _ & O3). specialize (O3 _ _ (or_introl eq_refl) V2). cbn in O3. lra. }
        subst k. assert (z = y2). { apply (in_inc_unique _ x2 z y2 I); [apply in_or_app; right; right; left; reflexivity|exact V2]. } subst z.
        rewrite lerp_map_mid by (try assumption; lra). eexists. split; [reflexivity|apply lerp_on, L].
Qed.

(** ** spans *)
Lemma in_signed_iff b z : in_signed b z = true <-> (- 2 ^ (b - 1) <= z < 2 ^ (b - 1))%Z.
Proof. unfold in_signed. rewrite andb_true_iff. lia. Qed.
Lemma int_part_nat i x : INR i <= x < INR (S i) -> Int_part x = Z.of_nat i.
Proof. intros [H1 H2]. rewrite S_INR in H2. rewrite INR_IZR_INZ in H1, H2. apply eq_IZR. apply (floor_unique x (Z.of_nat i)). lra. Qed.
Lemma get_nth {A} (l : list A) i x : nth_error l i = Some x -> vec_get l i = Ok x.
Proof. unfold vec_get. intros ->. reflexivity. Qed.
Lemma lerp_span_mid l i a b x : (Z.of_nat (length l) < 2 ^ 31)%Z -> nth_error l i = Some a -> nth_error l (S i) = Some b -> INR i <= x < INR (S i) -> lerp_span l x = Ok (lerp a b (x - INR i)).
Proof.
  intros Ln Ha Hb Hx. assert (Li : (S i < length l)%nat) by (apply nth_error_Some; congruence). destruct l as [|v l]; [cbn in Li; lia|]. unfold lerp_span.
  destruct (Rle_dec x 0) as [H|H].
  - assert (i = 0)%nat as ->. { destruct i; [reflexivity|]. pose proof (pos_INR i). rewrite S_INR in Hx. lra. }
    cbn in Hx. assert (x = 0) as -> by lra. rewrite (get_nth _ _ _ Ha). f_equal. unfold lerp. cbn. lra.
  - rewrite (int_part_nat i x Hx). unfold int_cast. rewrite (proj2 (in_signed_iff 32 (Z.of_nat i))) by (change (32 - 1)%Z with 31%Z; lia). cbn [obind].
    rewrite (proj2 (Z.leb_gt _ _)) by lia. rewrite Nat2Z.id, Nat.add_1_r, (get_nth _ _ _ Ha), (get_nth _ _ _ Hb). cbn [obind]. rewrite INR_IZR_INZ. reflexivity.
Qed.
Lemma lerp_span_last l x v : (Z.of_nat (length l) < 2 ^ 31)%Z -> nth_error l (length l - 1) = Some v -> INR (length l - 1) <= x < IZR (2 ^ 31) -> lerp_span l x = Ok v.
Proof.
  intros Ln Hv [H1 H2]. destruct l as [|w l]; [discriminate|]. unfold lerp_span. set (m := w :: l) in *. destruct (Rle_dec x 0) as [H|H].
  - assert (E : (length m - 1)%nat = 0%nat). { destruct (length m - 1)%nat; [reflexivity|]. pose proof (pos_INR n). rewrite S_INR in H1. lra. }
    rewrite E in Hv. apply get_nth, Hv.
  - destruct (floor_spec x) as [F1 F2]. assert (B : (Z.of_nat (length m - 1) <= Int_part x < 2 ^ 31)%Z).
    { unfold floor_R in *. rewrite INR_IZR_INZ in H1. split.
      - assert (Z.of_nat (length m - 1) < Int_part x + 1)%Z; [|lia]. apply lt_IZR. rewrite plus_IZR. lra.
      - apply lt_IZR. lra. }
    unfold int_cast. rewrite (proj2 (in_signed_iff 32 (Int_part x))) by (change (32 - 1)%Z with 31%Z; lia). cbn [obind]. assert (length m = S (length l)) by reflexivity.
    rewrite (proj2 (Z.leb_le _ _)) by lia. apply get_nth, Hv.
Qed.
Lemma lerp_span_assembled l x : (Z.of_nat (length l) < 2 ^ 31)%Z ->
  (l = [] -> lerp_span l x = Throw) /\
  (forall i v, nth_error l i = Some v -> x = INR i -> lerp_span l x = Ok v) /\
  (forall i a b, nth_error l i = Some a -> nth_error l (S i) = Some b -> INR i <= x <= INR (S i) -> exists y, lerp_span l x = Ok y /\ on_line (INR i) a (INR (S i)) b x y) /\
  (forall v, nth_error l 0 = Some v -> x <= 0 -> lerp_span l x = Ok v) /\
  (forall v, nth_error l (length l - 1) = Some v -> INR (length l - 1) <= x < IZR (2 ^ 31) -> lerp_span l x = Ok v).
Proof.
  intros Ln. assert (E : forall i v, nth_error l i = Some v -> x = INR i -> lerp_span l x = Ok v).
  { intros i v Hv ->. assert (Li : (i < length l)%nat) by (apply nth_error_Some; congruence). destruct (nth_error l (S i)) as [w|] eqn:Hw.
    - rewrite (lerp_span_mid l i v w); try assumption; [f_equal; unfold lerp; ring|]. rewrite S_INR. lra.
    - apply nth_error_None in Hw. replace i with (length l - 1)%nat in * by lia. apply lerp_span_last; try assumption. split; [lra|]. rewrite INR_IZR_INZ. apply IZR_lt. lia. }
  split; [intros ->; reflexivity|]. split; [exact E|]. split; [|split].
  - intros i a b Ha Hb [H1 H2]. destruct (Req_EM_T x (INR (S i))) as [Ex|Nx].
    + exists b. split; [apply (E (S i)); assumption|]. rewrite Ex. unfold on_line. ring.
    + exists (lerp a b (x - INR i)). split; [apply lerp_span_mid; try assumption; lra|]. unfold on_line, lerp. rewrite S_INR. ring.
  - intros v Hv H. destruct l as [|w l]; [discriminate|]. unfold lerp_span. destruct (Rle_dec x 0); [|contradiction]. apply get_nth, Hv.
  - intros v Hv H. apply lerp_span_last; assumption.
Qed.
Lemma lerp_span_far l x : l <> [] -> IZR (2 ^ 31) <= x -> lerp_span l x = UB.
Proof.
  intros N H. destruct l as [|w l]; [congruence|]. unfold lerp_span. assert (0 < IZR (2 ^ 31)) by (apply IZR_lt; lia). destruct (Rle_dec x 0); [lra|]. destruct (floor_spec x) as [F1 F2]. unfold floor_R in *.
  assert (B : (2 ^ 31 < Int_part x + 1)%Z) by (apply lt_IZR; rewrite plus_IZR; lra). unfold int_cast. destruct (in_signed 32 (Int_part x)) eqn:E; [|reflexivity]. apply in_signed_iff in E. change (32 - 1)%Z with 31%Z in E. lia.
Qed.

(** ** regular grids *)
Lemma regular_assembled n a b fn x i : (2 <= n)%nat -> (Z.of_nat n < 2 ^ 31)%Z -> a < b -> (S i < n)%nat -> let h := (b - a) / INR (n - 1) in let node k := a + INR k * h in
  (i = 0%nat \/ node i <= x) -> (S (S i) = n \/ x <= node (S i)) -> - IZR (2 ^ 31) <= (x - a) / h < IZR (2 ^ 31) ->
  exists y, regular_eval (make_regular n a b fn) x = Ok y /\ on_line (node i) (fn (node i)) (node (S i)) (fn (node (S i))) x y.
Proof.
  intros Hn Hb Hab Hi h node H1 H2 R. assert (Hp : 0 < INR (n - 1)) by (apply lt_0_INR; lia). assert (Hh : 0 < h) by (unfold h; apply Rdiv_lt_0_compat; lra).
  unfold regular_eval, make_regular. cbn [r_base r_step r_data]. fold h. set (xi := (x - a) / h) in *. cbv zeta.
  assert (Ex : x = a + xi * h) by (unfold xi; field; lra).
  destruct (floor_spec xi) as [F1 F2]. unfold floor_R in *. set (f := Int_part xi) in *.
  assert (B : (- 2 ^ 31 <= f < 2 ^ 31)%Z).
  { split.
    - assert (- 2 ^ 31 < f + 1)%Z; [|lia]. apply lt_IZR. rewrite plus_IZR, opp_IZR. lra.
    - apply lt_IZR. lra. }
  unfold int_cast. rewrite (proj2 (in_signed_iff 32 f)) by (change (32 - 1)%Z with 31%Z; lia). cbn [obind]. rewrite map_length, seq_length.
  assert (G : forall k, (k < n)%nat -> vec_get (map (fun i => fn (a + INR i * h)) (seq 0 n)) k = Ok (fn (node k))).
  { intros k Hk. apply get_nth. rewrite (map_nth_error _ k (seq 0 n) (d := k)); [reflexivity|]. rewrite (nth_error_nth' _ 0%nat); [rewrite seq_nth by lia; reflexivity|rewrite seq_length; lia]. }
  assert (NI : forall k, x <= node k <-> xi <= INR k). { intros k. rewrite Ex. unfold node. split; intros Q; [|nra]. apply (Rmult_le_reg_r h); lra. }
  assert (NI' : forall k, node k <= x <-> INR k <= xi). { intros k. rewrite Ex. unfold node. split; intros Q; [|nra]. apply (Rmult_le_reg_r h); lra. }
  set (c := clamped Z.ltb f 0%Z (Z.of_nat n - 2)%Z).
  assert (C : (0 <= c <= Z.of_nat n - 2)%Z /\ (c = f \/ c = 0 /\ f < 0 \/ c = Z.of_nat n - 2 /\ Z.of_nat n - 2 < f)%Z).
  { unfold c, clamped. destruct (Z.ltb_spec f 0); [lia|]. destruct (Z.ltb_spec (Z.of_nat n - 2) f); lia. }
  clearbody c. destruct C as [C1 C2]. rewrite (G (Z.to_nat c)) by lia. cbn [obind]. rewrite (G (Z.to_nat c + 1)%nat) by lia. cbn [obind]. eexists. split; [reflexivity|].
  rewrite NI' in H1. rewrite NI in H2. rewrite INR_IZR_INZ in H1, H2.
  assert (CC : c = Z.of_nat i \/ c = Z.of_nat (S i) /\ xi = IZR c).
  { assert (D1 : i = 0%nat \/ (Z.of_nat i <= f)%Z). { destruct H1 as [H1|H1]; [left; exact H1|right]. assert (Z.of_nat i < f + 1)%Z; [|lia]. apply lt_IZR. rewrite plus_IZR. lra. }
    assert (D2 : S (S i) = n \/ (f <= Z.of_nat (S i))%Z /\ (f = Z.of_nat (S i) -> xi = IZR f)).
    { destruct H2 as [H2|H2]; [left; exact H2|right]. split; [apply le_IZR; lra|]. intros E. rewrite <- E in H2. lra. }
    destruct D1 as [D1|D1], D2 as [D2|[D2 D3]]; destruct C2 as [C2|[[C2 C3]|[C2 C3]]]; try (left; lia).
    - destruct (Z.eq_dec f (Z.of_nat (S i))) as [E|E]; [right|left; lia]. split; [lia|]. rewrite C2. apply D3, E.
    - destruct (Z.eq_dec f (Z.of_nat (S i))) as [E|E]; [right|left; lia]. split; [lia|]. rewrite C2. apply D3, E. }
  destruct CC as [CC|[CC CX]].
  - rewrite CC, Nat2Z.id, Nat.add_1_r, <- INR_IZR_INZ. unfold on_line. rewrite Ex. unfold node. rewrite S_INR. ring.
  - rewrite CX. replace (IZR c - IZR c) with 0 by ring. rewrite CC, Nat2Z.id. unfold on_line. rewrite Ex, CX, CC, <- INR_IZR_INZ. fold (node (S i)). ring.
Qed.

(** ** integer keys; doubles *)
Lemma ub_int_after (m : list (Z * R)) x : (map_upper_bound_int m x <= length m)%nat /\
  (forall i, (i < map_upper_bound_int m x)%nat -> exists k v, nth_error m i = Some (k, v) /\ (k <= x)%Z) /\
  (forall k v, nth_error m (map_upper_bound_int m x) = Some (k, v) -> (x < k)%Z).
Proof.
  induction m as [|[k v] m (L & B & A)]; cbn [map_upper_bound_int length].
  - split; [lia|]. split; [intros; lia|]. intros k v H. discriminate.
  - destruct (Z.ltb_spec x k) as [H|H].
    + split; [lia|]. split; [intros; lia|]. cbn. intros k' v' [= <- <-]. exact H.
    + split; [lia|]. split.
      * intros [|i] Hi; [exists k, v; auto|]. apply B. lia.
      * exact A.
Qed.
Lemma sorted_int_nth (m : list (Z * R)) : increasing_keys m -> forall i j k v k' v', nth_error m i = Some (k, v) -> nth_error m j = Some (k', v') -> (i < j)%nat -> (k < k')%Z.
Proof.
  induction m as [|[a b] m IH]; intros S i j k v k' v' Hi Hj L; [destruct i; discriminate|].
  destruct j as [|j]; [lia|]. cbn in Hj. destruct S as [S1 S2]. destruct i as [|i].
  - cbn in Hi. injection Hi as -> ->. apply nth_error_In in Hj. apply (S1 (k', v') Hj).
  - cbn in Hi. apply (IH S2 i j k v k' v'); auto; lia.
Qed.
Lemma lerp_map_int_assembled m x : increasing_keys m ->
  (lerp_map_int m x = Throw <-> m = []) /\
  (forall k v, In (k, v) m -> (k <= x)%Z -> (forall k', In k' (map fst m) -> (k' <= k \/ x < k')%Z) -> lerp_map_int m x = Ok v) /\
  (forall k v, In (k, v) m -> (x <= k)%Z -> (forall k', In k' (map fst m) -> (k <= k')%Z) -> lerp_map_int m x = Ok v).
Proof.
  intros S. destruct (ub_int_after m x) as (L & B & A). set (u := map_upper_bound_int m x) in *.
  assert (E : m <> [] -> exists k v, (u = 0%nat /\ nth_error m 0 = Some (k, v) \/ exists p, u = Datatypes.S p /\ nth_error m p = Some (k, v)) /\ lerp_map_int m x = Ok v).
  { intros Hm. unfold lerp_map_int. fold u. destruct m as [|e0 m0] eqn:Em; [congruence|]. rewrite <- Em in *. 
    destruct (Nat.eqb_spec u (length m)) as [Hu|Hu].
    - destruct u as [|p]; [rewrite Em in Hu; discriminate|]. destruct (B p ltac:(lia)) as (k & v & N & _).
      exists k, v. split; [right; exists p; auto|]. replace (Datatypes.S p - 1)%nat with p by lia. unfold vec_get. rewrite N. reflexivity.
    - destruct (Nat.eqb_spec u 0) as [H0|H0].
      + rewrite H0. destruct e0 as [k v]. exists k, v. rewrite Em. split; [left; auto|]. reflexivity.
      + destruct u as [|p]; [lia|]. destruct (B p ltac:(lia)) as (k & v & N & Hk). destruct (nth_error m (Datatypes.S p)) as [[k2 v2]|] eqn:N2; [|apply nth_error_None in N2; lia].
        specialize (A _ _ eq_refl). exists k, v. split; [right; exists p; auto|]. replace (Datatypes.S p - 1)%nat with p by lia. unfold vec_get. rewrite N, N2. cbn [obind fst snd].
        assert (k < k2)%Z by lia. rewrite Z.quot_small by lia. unfold lerp. do 2 f_equal. cbn. ring. }
  split; [|split].
  - split; [|intros ->; reflexivity]. intros T. destruct m as [|e m]; [reflexivity|]. destruct (E ltac:(discriminate)) as (k & v & _ & E'). congruence.
  - intros k v I Hk N. destruct (E ltac:(intros ->; destruct I)) as (k1 & v1 & [[U N1]|(p & U & N1)] & ->).
    + exfalso. rewrite U in A. specialize (A _ _ N1). destruct (In_nth_error _ _ I) as (j & Nj). destruct j as [|j]; [assert (k1 = k) by congruence; lia|].
      pose proof (sorted_int_nth m S 0 (Datatypes.S j) _ _ _ _ N1 Nj ltac:(lia)). lia.
    + destruct (B p ltac:(lia)) as (k' & v' & N1' & Hk'). assert (k' = k1) by congruence. subst k'.
      destruct (N k1) as [H|H]; [apply in_map_iff; exists (k1, v1); split; [reflexivity|eapply nth_error_In; eassumption]| |lia].
      destruct (In_nth_error _ _ I) as (j & Nj). destruct (Nat.lt_trichotomy p j) as [Q|[Q|Q]].
      * exfalso. destruct (nth_error m (Datatypes.S p)) as [[k2 v2]|] eqn:N2; [|apply nth_error_None in N2; assert (j < length m)%nat by (apply nth_error_Some; congruence); lia].
        rewrite U in A. specialize (A _ _ N2). destruct (Nat.eq_dec j (Datatypes.S p)) as [->|D]; [assert (k2 = k) by congruence; lia|].
        pose proof (sorted_int_nth m S (Datatypes.S p) j _ _ _ _ N2 Nj ltac:(lia)). lia.
      * subst. congruence.
      * pose proof (sorted_int_nth m S j p _ _ _ _ Nj N1 Q). lia.
  - intros k v I Hx N. destruct (E ltac:(intros ->; destruct I)) as (k1 & v1 & [[U N1]|(p & U & N1)] & ->).
    + destruct (In_nth_error _ _ I) as (j & Nj). destruct j as [|j]; [congruence|]. pose proof (sorted_int_nth m S 0 (Datatypes.S j) _ _ _ _ N1 Nj ltac:(lia)).
      specialize (N k1 ltac:(apply in_map_iff; exists (k1, v1); split; [reflexivity|eapply nth_error_In; eassumption])). lia.
    + destruct (B p ltac:(lia)) as (k' & v' & N1' & Hk'). assert (k' = k1) by congruence. subst k'.
      specialize (N k1 ltac:(apply in_map_iff; exists (k1, v1); split; [reflexivity|eapply nth_error_In; eassumption])). assert (k1 = k) by lia. subst k1.
      destruct (In_nth_error _ _ I) as (j & Nj). destruct (Nat.lt_trichotomy p j) as [Q|[Q|Q]].
      * pose proof (sorted_int_nth m S p j _ _ _ _ N1 Nj Q). lia.
      * subst. congruence.
      * pose proof (sorted_int_nth m S j p _ _ _ _ Nj N1 Q). lia.
Qed.
Lemma lerp_double_start v1 v2 b : finite_double v1 = true -> finite_double (d_sub v2 v1) = true -> SFeqb (lerp_double v1 v2 (S754_zero b)) v1 = true.
Proof.
  intros F1 F2. unfold lerp_double, d_mul, d_add, d_sub in *. destruct (SFsub 53 1024 v2 v1) as [s|s| |s m e]; try discriminate; destruct v1 as [s1|s1| |s1 m1 e1]; try discriminate; cbn; 
  try (destruct (xorb _ _), s1; reflexivity); unfold SFeqb; cbn; destruct s1; rewrite ?Z.compare_refl, ?Pos.compare_cont_refl; reflexivity.
Qed.
Lemma lerp_double_same v t : finite_double v = true -> finite_double t = true -> SFeqb (lerp_double v v t) v = true.
Proof.
  intros F1 F2. unfold lerp_double, d_mul, d_add, d_sub. destruct v as [s|s| |s m e]; try discriminate; cbn.
  - destruct s; cbn; destruct t as [s1|s1| |s1 m1 e1]; try discriminate; cbn; destruct s1; reflexivity.
  - rewrite Z.min_id, Z.sub_diag. cbn. destruct s; cbn; rewrite ?Z.sub_diag, ?Z.pos_sub_diag; cbn;
    destruct t as [s1|s1| |s1 m1 e1]; try discriminate; cbn; unfold SFeqb; cbn; rewrite ?Z.compare_refl, ?Pos.compare_cont_refl; reflexivity.
Qed.
