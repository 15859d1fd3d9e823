(** Lemmas about the models of bounding boxes, segments, lines and paths. *)
From Coq Require Import List Arith Bool Reals Lra Lia Psatz.
From Verif Require Import Base BaseProofs UtilProofs GeoSpec NumModel NumProofs StatModel GeoModel GeoProofs SigSpec SigProofs ShpSpec ShpModel.
Import ListNotations.
Local Open Scope R_scope.

(** ** Bounding boxes *)
Lemma fold_min l : forall a, let m := fold_left set_if_smaller l a in m <= a /\ (forall x, In x l -> m <= x) /\ (m = a \/ In m l).
Proof.
  induction l as [|x l IH]; intros a; cbv zeta; cbn [fold_left].
  - repeat split; [lra|intros ? []|left; reflexivity].
  - destruct (IH (set_if_smaller a x)) as (A & B & C). assert (D : set_if_smaller a x <= a /\ set_if_smaller a x <= x /\ (set_if_smaller a x = a \/ set_if_smaller a x = x)) by (unfold set_if_smaller; destruct (Rlt_dec x a); repeat split; (lra || auto)).
    destruct D as (D1 & D2 & D3). repeat split.
    + lra.
    + intros y [<-|Hy]; [lra|apply B; exact Hy].
    + destruct C as [C|C]; [|right; right; exact C]. destruct D3 as [D3|D3]; [left; congruence|right; left; congruence].
Qed.
Lemma fold_max l : forall a, let m := fold_left set_if_bigger l a in a <= m /\ (forall x, In x l -> x <= m) /\ (m = a \/ In m l).
Proof.
  induction l as [|x l IH]; intros a; cbv zeta; cbn [fold_left].
  - repeat split; [lra|intros ? []|left; reflexivity].
  - destruct (IH (set_if_bigger a x)) as (A & B & C). assert (D : a <= set_if_bigger a x /\ x <= set_if_bigger a x /\ (set_if_bigger a x = a \/ set_if_bigger a x = x)) by (unfold set_if_bigger; destruct (Rlt_dec a x); repeat split; (lra || auto)).
    destruct D as (D1 & D2 & D3). repeat split.
    + lra.
    + intros y [<-|Hy]; [lra|apply B; exact Hy].
    + destruct C as [C|C]; [|right; right; exact C]. destruct D3 as [D3|D3]; [left; congruence|right; left; congruence].
Qed.
Lemma fold_add pts : forall b, let r := fold_left aabb_add pts b in
  vx (lower_bounds r) = fold_left set_if_smaller (map vx pts) (vx (lower_bounds b)) /\ vy (lower_bounds r) = fold_left set_if_smaller (map vy pts) (vy (lower_bounds b)) /\ vz (lower_bounds r) = fold_left set_if_smaller (map vz pts) (vz (lower_bounds b)) /\
  vx (upper_bounds r) = fold_left set_if_bigger (map vx pts) (vx (upper_bounds b)) /\ vy (upper_bounds r) = fold_left set_if_bigger (map vy pts) (vy (upper_bounds b)) /\ vz (upper_bounds r) = fold_left set_if_bigger (map vz pts) (vz (upper_bounds b)).
Proof.
  induction pts as [|p pts IH]; intros b; cbv zeta; cbn [fold_left map]; [repeat split|]. apply IH.
Qed.
Lemma min_tight (f : vec3 -> R) pts a : pts <> [] -> (forall p, In p pts -> f p <= a) ->
  let m := fold_left set_if_smaller (map f pts) a in (forall p, In p pts -> m <= f p) /\ exists p, In p pts /\ m = f p.
Proof.
  intros N B. cbv zeta. destruct (fold_min (map f pts) a) as (M1 & M2 & M3). split; [intros p Hp; apply M2, in_map, Hp|].
  destruct M3 as [M3|M3].
  - destruct pts as [|p pts]; [congruence|]. exists p. split; [left; reflexivity|]. apply Rle_antisym; [apply M2, in_map; left; reflexivity|]. rewrite M3. apply B. left. reflexivity.
  - apply in_map_iff in M3. destruct M3 as (p & E & Hp). exists p. split; [exact Hp|symmetry; exact E].
Qed.
Lemma max_tight (f : vec3 -> R) pts a : pts <> [] -> (forall p, In p pts -> a <= f p) ->
  let m := fold_left set_if_bigger (map f pts) a in (forall p, In p pts -> f p <= m) /\ exists p, In p pts /\ m = f p.
Proof.
  intros N B. cbv zeta. destruct (fold_max (map f pts) a) as (M1 & M2 & M3). split; [intros p Hp; apply M2, in_map, Hp|].
  destruct M3 as [M3|M3].
  - destruct pts as [|p pts]; [congruence|]. exists p. split; [left; reflexivity|]. apply Rle_antisym; [rewrite M3; apply B; left; reflexivity|]. apply M2, in_map. left. reflexivity.
  - apply in_map_iff in M3. destruct M3 as (p & E & Hp). exists p. split; [exact Hp|symmetry; exact E].
Qed.
Lemma bounded_cases m p : bounded m p -> (- m <= vx p <= m) /\ (- m <= vy p <= m) /\ (- m <= vz p <= m).
Proof. intros (A & B & C). repeat split; revert A B C; unfold Rabs; repeat (destruct (Rcase_abs _)); lra. Qed.
Lemma points_assembled largest pts : (forall p, In p pts -> bounded largest p) ->
  let b := fold_left aabb_add pts (aabb_default largest) in
  (pts <> [] -> tight_box (fun p => In p pts) (lower_bounds b) (upper_bounds b)) /\
  (pts = [] -> 0 < largest -> forall p, ~ inside (lower_bounds b) (upper_bounds b) p).
Proof.
  intros B. cbv zeta. split; intros N.
  - destruct (fold_add pts (aabb_default largest)) as (X1 & Y1 & Z1 & X2 & Y2 & Z2). cbn [aabb_default lower_bounds upper_bounds vx vy vz] in X1, Y1, Z1, X2, Y2, Z2.
    assert (B' : forall p, In p pts -> (- largest <= vx p <= largest) /\ (- largest <= vy p <= largest) /\ (- largest <= vz p <= largest)) by (intros p Hp; apply bounded_cases, B, Hp).
    destruct (min_tight vx pts largest N ltac:(intros p Hp; destruct (B' p Hp); lra)) as (A1 & p1 & I1 & E1). destruct (min_tight vy pts largest N ltac:(intros p Hp; destruct (B' p Hp) as (? & ? & ?); lra)) as (A2 & p2 & I2 & E2). destruct (min_tight vz pts largest N ltac:(intros p Hp; destruct (B' p Hp) as (? & ? & ?); lra)) as (A3 & p3 & I3 & E3).
    destruct (max_tight vx pts (- largest) N ltac:(intros p Hp; destruct (B' p Hp); lra)) as (C1 & q1 & J1 & F1). destruct (max_tight vy pts (- largest) N ltac:(intros p Hp; destruct (B' p Hp) as (? & ? & ?); lra)) as (C2 & q2 & J2 & F2). destruct (max_tight vz pts (- largest) N ltac:(intros p Hp; destruct (B' p Hp) as (? & ? & ?); lra)) as (C3 & q3 & J3 & F3).
    rewrite <- X1 in A1, E1. rewrite <- Y1 in A2, E2. rewrite <- Z1 in A3, E3. rewrite <- X2 in C1, F1. rewrite <- Y2 in C2, F2. rewrite <- Z2 in C3, F3.
    split.
    + intros p Hp. specialize (A1 p Hp). specialize (A2 p Hp). specialize (A3 p Hp). specialize (C1 p Hp). specialize (C2 p Hp). specialize (C3 p Hp). unfold inside. repeat split; assumption.
    + intros lo' hi' H. pose proof (H p1 I1) as G1. pose proof (H p2 I2) as G2. pose proof (H p3 I3) as G3. pose proof (H q1 J1) as G4. pose proof (H q2 J2) as G5. pose proof (H q3 J3) as G6. unfold inside in *. unfold within. rewrite E1, E2, E3, F1, F2, F3. tauto.
  - intros P p H. subst pts. unfold inside in H. cbn in H. lra.
Qed.
Lemma tight_mono (P Q : vec3 -> Prop) lo hi : (forall p, Q p -> P p) -> tight_box Q lo hi -> (forall p, P p -> inside lo hi p) -> tight_box P lo hi.
Proof. intros S (A & B) C. split; [exact C|]. intros lo' hi' H. apply B. intros p Hp. apply H, S, Hp. Qed.
Lemma join_assembled a b : let la := lower_bounds a in let ua := upper_bounds a in let lb := lower_bounds b in let ub := upper_bounds b in
  (exists p, inside la ua p) -> (exists p, inside lb ub p) ->
  tight_box (fun p => inside la ua p \/ inside lb ub p) (lower_bounds (aabb_join a b)) (upper_bounds (aabb_join a b)).
Proof.
  cbv zeta. intros (p & Hp) (q & Hq).
  assert (La : inside (lower_bounds a) (upper_bounds a) (lower_bounds a)) by (unfold inside in *; lra).
  assert (Ua : inside (lower_bounds a) (upper_bounds a) (upper_bounds a)) by (unfold inside in *; lra).
  assert (Lb : inside (lower_bounds b) (upper_bounds b) (lower_bounds b)) by (unfold inside in *; lra).
  assert (Ub : inside (lower_bounds b) (upper_bounds b) (upper_bounds b)) by (unfold inside in *; lra).
  split.
  - intros r H. unfold inside in *. unfold aabb_join, set_if_smaller, set_if_bigger. cbn [lower_bounds upper_bounds vx vy vz]. destruct H as [H|H]; repeat (destruct (Rlt_dec _ _)); lra.
  - intros lo' hi' H. pose proof (H _ (or_introl La)) as G1. pose proof (H _ (or_introl Ua)) as G2. pose proof (H _ (or_intror Lb)) as G3. pose proof (H _ (or_intror Ub)) as G4. unfold inside in G1, G2, G3, G4. unfold within, aabb_join, set_if_smaller, set_if_bigger. cbn [lower_bounds upper_bounds vx vy vz]. repeat split; destruct (Rlt_dec _ _); lra.
Qed.
Lemma join_default_assembled largest b : (bounded largest (lower_bounds b) /\ bounded largest (upper_bounds b)) -> aabb_join (aabb_default largest) b = b /\ aabb_join b (aabb_default largest) = b.
Proof.
  intros (A & B). apply bounded_cases in A. apply bounded_cases in B. destruct b as [[a1 a2 a3] [b1 b2 b3]]. cbn [lower_bounds upper_bounds vx vy vz] in *. unfold aabb_join, aabb_default, set_if_smaller, set_if_bigger. cbn [lower_bounds upper_bounds vx vy vz].
  split; (f_equal; f_equal; destruct (Rlt_dec _ _); lra).
Qed.
Lemma affine_corner B C D h p : block h p -> exists c, In c (corners h) /\ B * vx p + C * vy p + D * vz p <= B * vx c + C * vy c + D * vz c.
Proof.
  intros (X & Y & Z).
  assert (S : forall k x a, Rabs x <= Rabs a -> exists s, (s = a \/ s = - a) /\ k * x <= k * s).
  { clear. intros k x a H. assert (- Rabs a <= x <= Rabs a) by (revert H; unfold Rabs; repeat (destruct (Rcase_abs _)); lra). assert (Rabs a = a \/ Rabs a = - a) by (unfold Rabs; destruct (Rcase_abs a); auto).
    destruct (Rle_dec 0 k).
    - exists (Rabs a). split; [assumption|]. apply Rmult_le_compat_l; lra.
    - exists (- Rabs a). split; [destruct H1 as [-> | ->]; [right; reflexivity|left; ring]|]. assert (0 <= - k * (x + Rabs a)) by (apply Rmult_le_pos; lra). lra. }
  destruct (S B _ _ X) as (sx & Ex & Lx). destruct (S C _ _ Y) as (sy & Ey & Ly). destruct (S D _ _ Z) as (sz & Ez & Lz).
  exists (Vec3 sx sy sz). split; [|cbn [vx vy vz]; lra]. unfold corners. destruct Ex as [->| ->], Ey as [->| ->], Ez as [->| ->]; cbn [In]; tauto.
Qed.
Lemma corner_block h c : In c (corners h) -> block h c.
Proof.
  intros H. unfold corners in H. cbn [In] in H. unfold block. destruct H as [<-|[<-|[<-|[<-|[<-|[<-|[<-|[<-|[]]]]]]]]]; cbn [vx vy vz]; rewrite ?Rabs_Ropp; repeat split; apply Rle_refl.
Qed.
Lemma tf_affine t : exists a b c, forall v, vx (tf_apply t v) = vx (t_p t) + (vx a * vx v + vy a * vy v + vz a * vz v) /\ vy (tf_apply t v) = vy (t_p t) + (vx b * vx v + vy b * vy v + vz b * vz v) /\ vz (tf_apply t v) = vz (t_p t) + (vx c * vx v + vy c * vy v + vz c * vz v).
Proof.
  exists (Vec3 (vx (qrot (t_q t) e_x)) (vx (qrot (t_q t) e_y)) (vx (qrot (t_q t) e_z))), (Vec3 (vy (qrot (t_q t) e_x)) (vy (qrot (t_q t) e_y)) (vy (qrot (t_q t) e_z))), (Vec3 (vz (qrot (t_q t) e_x)) (vz (qrot (t_q t) e_y)) (vz (qrot (t_q t) e_z))).
  intros v. unfold tf_apply. geo. repeat split; ring.
Qed.
Lemma box_assembled largest h t : (forall p, block h p -> bounded largest (tf_apply t p)) ->
  tight_box (image (tf_apply t) (block h)) (lower_bounds (aabb_box largest h t)) (upper_bounds (aabb_box largest h t)).
Proof.
  intros B. unfold aabb_box.
  assert (E : forall l b, fold_left (fun b c => aabb_add b (tf_apply t c)) l b = fold_left aabb_add (map (tf_apply t) l) b) by (induction l as [|x l IH]; intros b; cbn [fold_left map]; [reflexivity|apply IH]).
  rewrite E. destruct (points_assembled largest (map (tf_apply t) (corners h))) as (T & _).
  { intros p Hp. apply in_map_iff in Hp. destruct Hp as (c & <- & Hc). apply B, corner_block, Hc. }
  specialize (T ltac:(unfold corners; cbn; discriminate)). destruct T as (T1 & T2).
  eapply tight_mono with (Q := fun p => In p (map (tf_apply t) (corners h))).
  - intros p Hp. apply in_map_iff in Hp. destruct Hp as (c & <- & Hc). exists c. split; [apply corner_block, Hc|reflexivity].
  - split; assumption.
  - intros q (p & Hp & ->). destruct (tf_affine t) as (a & b & c & F). assert (T : forall x, In x (corners h) -> inside _ _ (tf_apply t x)) by (intros x Hx; apply T1, in_map, Hx).
    assert (LO : forall a, exists x, In x (corners h) /\ vx a * vx x + vy a * vy x + vz a * vz x <= vx a * vx p + vy a * vy p + vz a * vz p).
    { intros k. destruct (affine_corner (- vx k) (- vy k) (- vz k) h p Hp) as (x & Hx & L). exists x. split; [exact Hx|lra]. }
    assert (HI : forall a, exists x, In x (corners h) /\ vx a * vx p + vy a * vy p + vz a * vz p <= vx a * vx x + vy a * vy x + vz a * vz x) by (intros k; apply affine_corner, Hp).
    destruct (F p) as (F1 & F2 & F3). clear E T1 T2.
    unfold inside in *. rewrite F1, F2, F3. repeat split.
    all: match goal with
      | |- _ <= _ + (vx ?a * vx _ + _ + _) => destruct (LO a) as (x & Hx & L); specialize (T x Hx); destruct (F x) as (G1 & G2 & G3); rewrite G1, G2, G3 in T; destruct T as (TA & TB & TC); lra
      | |- _ + (vx ?a * vx _ + _ + _) <= _ => destruct (HI a) as (x & Hx & L); specialize (T x Hx); destruct (F x) as (G1 & G2 & G3); rewrite G1, G2, G3 in T; destruct T as (TA & TB & TC); lra
      end.
Qed.
Lemma coord_le v : Rabs (vx v) <= norm v /\ Rabs (vy v) <= norm v /\ Rabs (vz v) <= norm v.
Proof.
  assert (S : forall x, x * x <= dot v v -> Rabs x <= norm v). { intros x H. unfold norm. rewrite <- sqrt_Rsqr_abs. apply sqrt_le_1_alt. exact H. }
  pose proof (Rle_0_sqr (vx v)). pose proof (Rle_0_sqr (vy v)). pose proof (Rle_0_sqr (vz v)). unfold Rsqr in *. repeat split; apply S; unfold dot; lra.
Qed.
Lemma sphere_assembled r t : 0 <= r -> tight_box (fun p => apart p (t_p t) <= r) (lower_bounds (aabb_sphere r t)) (upper_bounds (aabb_sphere r t)).
Proof.
  intros Hr. split.
  - intros p H. unfold apart in H. pose proof (coord_le (minus p (t_p t))) as (A & B & C). unfold minus in A, B, C. cbn [vx vy vz] in *. unfold minus in H. unfold inside, aabb_sphere, vsub, vadd. cbn [lower_bounds upper_bounds vx vy vz].
    revert A B C. unfold Rabs. repeat (destruct (Rcase_abs _)); intros; lra.
  - intros lo' hi' H. assert (N : forall k, apart (plus (t_p t) k) (t_p t) = norm k) by (intros k; unfold apart; f_equal; vec; ring).
    assert (G : forall k, dot k k = r * r -> inside lo' hi' (plus (t_p t) k)). { intros k D. apply H. rewrite N. unfold norm. rewrite D. rewrite sqrt_square by exact Hr. lra. }
    pose proof (G (Vec3 r 0 0) ltac:(unfold dot; cbn; ring)) as G1. pose proof (G (Vec3 (- r) 0 0) ltac:(unfold dot; cbn; ring)) as G2. pose proof (G (Vec3 0 r 0) ltac:(unfold dot; cbn; ring)) as G3. pose proof (G (Vec3 0 (- r) 0) ltac:(unfold dot; cbn; ring)) as G4. pose proof (G (Vec3 0 0 r) ltac:(unfold dot; cbn; ring)) as G5. pose proof (G (Vec3 0 0 (- r)) ltac:(unfold dot; cbn; ring)) as G6.
    unfold inside, plus in *. cbn [vx vy vz] in *. unfold within, aabb_sphere, vsub, vadd. cbn [lower_bounds upper_bounds vx vy vz]. lra.
Qed.

(** ** Segments and lines *)
Lemma norm_le u v : dot u u <= dot v v -> norm u <= norm v.
Proof. intros H. apply sqrt_le_1_alt, H. Qed.
Lemma segment_assembled point a b : exists r, segment_distance point a b = Ok r /\ least_distance (one_point point) (on_segment a b) r.
Proof.
  unfold segment_distance. cbv zeta. set (v := vsub b a). set (w := vsub point a).
  assert (F : forall s, dot (minus point (along a (minus b a) s)) (minus point (along a (minus b a) s)) = dot w w - 2 * s * dot w v + s * s * dot v v) by (intros s; unfold along, w, v; geo; ring).
  change dot_product with dot. pose proof (dot_nonneg v) as V.
  assert (G : forall s0, 0 <= s0 <= 1 -> (forall s, 0 <= s <= 1 -> - 2 * s0 * dot w v + s0 * s0 * dot v v <= - 2 * s * dot w v + s * s * dot v v) -> least_distance (one_point point) (on_segment a b) (apart point (along a (minus b a) s0))).
  { intros s0 Hs0 H. split.
    - exists point, (along a (minus b a) s0). repeat split. exists s0. split; [exact Hs0|reflexivity].
    - intros p q Hp (s & Hs & ->). rewrite Hp. apply norm_le. rewrite !F. specialize (H s Hs). lra. }
  destruct (Rle_dec (dot w v) 0) as [C1|C1].
  - eexists. split; [reflexivity|]. replace (distance_v point a) with (apart point (along a (minus b a) 0)).
    + apply G; [lra|]. intros s Hs. assert (0 <= s * - dot w v) by (apply Rmult_le_pos; lra). assert (0 <= s * s * dot v v) by (apply Rmult_le_pos; [apply Rle_0_sqr|exact V]). lra.
    + unfold apart, along, distance_v. change length_v with norm. f_equal. vec; ring.
  - destruct (Rle_dec (dot v v) (dot w v)) as [C2|C2].
    + eexists. split; [reflexivity|]. replace (distance_v point b) with (apart point (along a (minus b a) 1)).
      * apply G; [lra|]. intros s Hs. assert (0 <= (1 - s) * (dot w v - dot v v)) by (apply Rmult_le_pos; lra). assert (0 <= (1 - s) * (1 - s) * dot v v) by (apply Rmult_le_pos; [apply Rle_0_sqr|exact V]). lra.
      * unfold apart, along, distance_v. change length_v with norm. f_equal. vec; ring.
    + unfold div_checked. destruct (Req_EM_T (dot v v) 0) as [Z|Z]; [lra|]. cbn [obind]. eexists. split; [reflexivity|].
      set (f := dot w v / dot v v). assert (E : f * dot v v = dot w v) by (unfold f; field; exact Z).
      replace (distance_v point (vadd a (vscale f v))) with (apart point (along a (minus b a) f)).
      * apply G.
        -- assert (0 < dot v v) by lra. split; [apply Rlt_le, Rdiv_lt_0_compat; lra|]. apply Rmult_le_reg_r with (dot v v); lra.
        -- intros s Hs. rewrite <- E. assert (0 <= (s - f) * (s - f) * dot v v) by (apply Rmult_le_pos; [apply Rle_0_sqr|exact V]). lra.
      * unfold apart, along, distance_v. change length_v with norm. f_equal. unfold v. vec; ring.
Qed.
Lemma perp_least a d b e s t : let u := minus (along a d s) (along b e t) in dot u d = 0 -> dot u e = 0 ->
  least_distance (on_the_line a d) (on_the_line b e) (apart (along a d s) (along b e t)).
Proof.
  cbv zeta. intros U V. split.
  - exists (along a d s), (along b e t). repeat split; eexists; reflexivity.
  - intros p q (s' & ->) (t' & ->). apply norm_le. set (u := minus (along a d s) (along b e t)) in *. set (k := minus (times (s' - s) d) (times (t' - t) e)).
    assert (E : minus (along a d s') (along b e t') = plus u k) by (unfold u, k, along; vec; ring). rewrite E.
    assert (E2 : dot (plus u k) (plus u k) = dot u u + 2 * ((s' - s) * dot u d - (t' - t) * dot u e) + dot k k) by (unfold k; clear; destruct u, d, e; geo; ring).
    rewrite E2, U, V. pose proof (dot_nonneg k). lra.
Qed.
Lemma lagrange d e : dot d d * dot e e - dot d e * dot d e = dot (cross d e) (cross d e).
Proof. geo. ring. Qed.
Definition closest_spec (pos1 dir1 pos2 dir2 : vec3) (r : outcome (vec3 * vec3)) : Prop :=
  exists p q, r = Ok (p, q) /\ on_the_line pos1 dir1 p /\ on_the_line pos2 dir2 q /\ least_distance (on_the_line pos1 dir1) (on_the_line pos2 dir2) (apart p q).
Lemma closest_of a d b e s t : (let u := minus (along a d s) (along b e t) in dot u d = 0 /\ dot u e = 0) ->
  closest_spec a d b e (Ok (vadd a (vscale s d), vadd b (vscale t e))).
Proof.
  cbv zeta. intros (U & V). exists (along a d s), (along b e t). split; [|split; [eexists; reflexivity|split; [eexists; reflexivity|apply perp_least; assumption]]].
  f_equal. f_equal; unfold along; vec; ring.
Qed.
Lemma u_dots a d b e s t : let u := minus (along a d s) (along b e t) in let w := minus a b in
  dot u d = dot d w + s * dot d d - t * dot d e /\ dot u e = dot e w + s * dot d e - t * dot e e.
Proof. unfold along. geo. split; ring. Qed.
Lemma lines_skew ample_epsilon a d b e : 0 < ample_epsilon -> ample_epsilon <= dot (cross d e) (cross d e) -> closest_spec a d b e (closest_points ample_epsilon a d b e).
Proof.
  intros He H. unfold closest_points. change dot_product with dot. change vsub with minus. cbv zeta. rewrite <- lagrange in H.
  set (D := dot d d * dot e e - dot d e * dot d e) in *. destruct (Rlt_dec D ample_epsilon) as [C|C]; [lra|]. unfold div_checked. destruct (Req_EM_T D 0) as [Z|Z]; [lra|]. cbn [obind]. apply closest_of.
  cbv zeta. destruct (u_dots a d b e ((dot d e * dot e (minus a b) - dot e e * dot d (minus a b)) / D) ((dot d d * dot e (minus a b) - dot d e * dot d (minus a b)) / D)) as (-> & ->).
  split; apply Rmult_eq_reg_l with D; try exact Z; rewrite Rmult_0_r; unfold D in *; field; exact Z.
Qed.
Lemma lines_parallel ample_epsilon a d b e : 0 < ample_epsilon -> parallel d e -> e <> origin -> closest_spec a d b e (closest_points ample_epsilon a d b e).
Proof.
  intros He P N. unfold closest_points. change dot_product with dot. change vsub with minus. cbv zeta.
  assert (D0 : dot d d * dot e e - dot d e * dot d e = 0) by (rewrite lagrange, P; geo; ring). rewrite D0. destruct (Rlt_dec 0 ample_epsilon) as [_|C]; [|lra].
  assert (Pe : 0 < dot e e). { destruct (Rle_lt_or_eq_dec _ _ (dot_nonneg e)) as [L|L]; [exact L|]. exfalso. apply N. apply norm_zero. unfold norm. rewrite <- L. apply sqrt_0. }
  assert (K : dot e e * dot d (minus a b) = dot d e * dot e (minus a b)).
  { set (w := minus a b). clearbody w. assert (E : dot e e * dot d w - dot d e * dot e w = dot (cross d e) (cross w e)) by (clear; destruct d, e, w; geo; ring). rewrite P in E. unfold dot at 5 in E. unfold origin in E. cbn [vx vy vz] in E. lra. }
  destruct (Rlt_dec (dot e e) (dot d e)) as [C|C]; unfold div_checked.
  - destruct (Req_EM_T (dot d e) 0) as [Z|Z]; [lra|]. cbn [obind]. apply closest_of. cbv zeta. destruct (u_dots a d b e 0 (dot d (minus a b) / dot d e)) as (-> & ->). split; [field; exact Z|]. apply Rmult_eq_reg_l with (dot d e); [|exact Z]. rewrite Rmult_0_r. transitivity (dot d e * dot e (minus a b) - dot e e * dot d (minus a b)); [field; exact Z|lra].
  - destruct (Req_EM_T (dot e e) 0) as [Z|Z]; [lra|]. cbn [obind]. apply closest_of. cbv zeta. destruct (u_dots a d b e 0 (dot e (minus a b) / dot e e)) as (-> & ->). split; [|field; exact Z]. apply Rmult_eq_reg_l with (dot e e); [|exact Z]. rewrite Rmult_0_r. transitivity (dot e e * dot d (minus a b) - dot d e * dot e (minus a b)); [field; exact Z|lra].
Qed.
Lemma lines_assembled ample_epsilon a d b e : 0 < ample_epsilon -> (ample_epsilon <= dot (cross d e) (cross d e) \/ (parallel d e /\ e <> origin)) ->
  exists p q, closest_points ample_epsilon a d b e = Ok (p, q) /\ on_the_line a d p /\ on_the_line b e q /\
    least_distance (on_the_line a d) (on_the_line b e) (apart p q) /\ line_distance ample_epsilon a d b e = Ok (apart p q).
Proof.
  intros He H. assert (S : closest_spec a d b e (closest_points ample_epsilon a d b e)) by (destruct H as [H|[H H']]; [apply lines_skew|apply lines_parallel]; assumption).
  destruct S as (p & q & E & A & B & C). exists p, q. repeat lazymatch goal with |- _ /\ _ => split end; try assumption. unfold line_distance. rewrite E. reflexivity.
Qed.
Lemma lines_short_assembled ample_epsilon : 0 < ample_epsilon -> exists a d b e p q, ~ parallel d e /\ closest_points ample_epsilon a d b e = Ok (p, q) /\
  apart p q = 1 /\ least_distance (on_the_line a d) (on_the_line b e) 0.
Proof.
  intros He. set (k := ample_epsilon / (1 + ample_epsilon)). assert (K : k * (1 + ample_epsilon) = ample_epsilon) by (unfold k; field; lra). assert (K0 : 0 < k) by (apply Rdiv_lt_0_compat; lra). assert (K1 : k < 1) by nra. assert (K2 : k < ample_epsilon) by nra. assert (K3 : 0 < k * k <= k) by (split; nra). assert (K4 : k * k * (k * k) < ample_epsilon) by (assert (k * k * (k * k) <= k * k * 1) by (apply Rmult_le_compat_l; lra); lra).
  exists (Vec3 1 0 0), (Vec3 k 0 0), origin, (Vec3 0 k 0). exists (Vec3 1 0 0), origin. repeat lazymatch goal with |- _ /\ _ => split end.
  - unfold parallel. geo. intros [= E]. nra.
  - unfold closest_points. geo. destruct (Rlt_dec _ ample_epsilon) as [_|C]; [|exfalso; apply C; lra]. destruct (Rlt_dec _ _) as [C|_]; [nra|]. unfold div_checked. destruct (Req_EM_T _ 0) as [Z|_]; [nra|]. cbn [obind]. f_equal. f_equal; apply vec_eq; cbn [vx vy vz]; field; nra.
  - unfold apart, norm. geo. match goal with |- sqrt ?x = _ => replace x with 1 by ring end. apply sqrt_1.
  - split.
    + exists origin, origin. split; [exists (- / k); unfold along; vec; [field; lra|ring|ring]|]. split; [exists 0; unfold along; vec; ring|]. unfold apart, norm. geo. match goal with |- sqrt ?x = _ => replace x with 0 by ring end. apply sqrt_0.
    + intros p q _ _. apply norm_nonneg.
Qed.
Lemma lines_point_assembled ample_epsilon a d b : 0 < ample_epsilon -> closest_points ample_epsilon a d b origin = UB.
Proof.
  intros He. unfold closest_points. geo. destruct (Rlt_dec _ ample_epsilon) as [_|C]; [|exfalso; apply C; lra]. destruct (Rlt_dec _ _) as [C|_]; [lra|]. unfold div_checked. destruct (Req_EM_T _ 0) as [Z|Z]; [reflexivity|lra].
Qed.

(** ** Paths *)
Lemma polyline_cons a b m : polyline_length (a :: b :: m) = apart b a + polyline_length (b :: m).
Proof. reflexivity. Qed.
Lemma polyline_one a : polyline_length [a] = 0.
Proof. reflexivity. Qed.
Lemma polyline_app l : forall a m, polyline_length (l ++ a :: m) = polyline_length (l ++ [a]) + polyline_length (a :: m).
Proof.
  induction l as [|x l IH]; intros a m.
  - cbn [app]. rewrite polyline_one. ring.
  - cbn [app]. destruct l as [|y l].
    + cbn [app]. rewrite !polyline_cons, polyline_one. ring.
    + cbn [app] in *. rewrite !polyline_cons, (IH a m). ring.
Qed.
Lemma apart_nonneg u v : 0 <= apart u v.
Proof. apply norm_nonneg. Qed.
Lemma polyline_nonneg pts : 0 <= polyline_length pts.
Proof. unfold polyline_length. apply total_nonneg. intros v H. apply in_map_iff in H. destruct H as (pq & <- & _). apply apart_nonneg. Qed.
Lemma path_loop_spec rest : forall p len, path_loop p rest len = len + polyline_length (p :: rest).
Proof.
  induction rest as [|q rest IH]; intros p len; cbn [path_loop]; [rewrite polyline_one; ring|]. rewrite IH, polyline_cons. change length_v with norm. change vsub with minus. unfold apart. ring.
Qed.
Lemma path_length_assembled path : (path = [] -> path_length path = Throw) /\ (path <> [] -> path_length path = Ok (polyline_length path)).
Proof. split; intros H; [subst; reflexivity|]. destruct path as [|p rest]; [congruence|]. unfold path_length. rewrite path_loop_spec, Rplus_0_l. reflexivity. Qed.
Lemma travelled_at l a m : travelled (l ++ a :: m) (length l) = polyline_length (l ++ [a]).
Proof. unfold travelled. f_equal. rewrite firstn_app. rewrite firstn_all2 by lia. replace (S (length l) - length l)%nat with 1%nat by lia. reflexivity. Qed.
Lemma apart_scaled f a b : 0 <= f -> apart (along a (minus b a) f) a = f * apart b a.
Proof.
  intros H. unfold apart, norm. replace (dot (minus (along a (minus b a) f) a) (minus (along a (minus b a) f) a)) with ((f * f) * dot (minus b a) (minus b a)) by (unfold along; geo; ring). rewrite sqrt_mult; [|apply Rle_0_sqr|apply dot_nonneg]. rewrite sqrt_square by exact H. reflexivity.
Qed.
Lemma apart_rest f a b : f <= 1 -> apart b (along a (minus b a) f) = (1 - f) * apart b a.
Proof.
  intros H. unfold apart, norm. replace (dot (minus b (along a (minus b a) f)) (minus b (along a (minus b a) f))) with (((1 - f) * (1 - f)) * dot (minus b a) (minus b a)) by (unfold along; geo; ring). rewrite sqrt_mult; [|apply Rle_0_sqr|apply dot_nonneg]. rewrite sqrt_square by lra. reflexivity.
Qed.
Lemma abs_R_eq x : abs_R x = Rabs x.
Proof. unfold abs_R, Rabs. destruct (Rlt_dec x 0), (Rcase_abs x); lra. Qed.
Lemma nth_end {A} (l : list A) a m : nth_error (l ++ a :: m) (length l) = Some a.
Proof. rewrite nth_error_app2 by lia. rewrite Nat.sub_diag. reflexivity. Qed.
Lemma insert_loop_spec eps len m : 0 <= eps < 1 -> forall l a path, path = l ++ a :: m -> 0 < len -> polyline_length (l ++ [a]) < len ->
  exists path' i, insert_loop eps (length m) (S (length l)) path (len - polyline_length (l ++ [a])) = Ok (path', i) /\ (i < length path')%nat /\ polyline_length path' = polyline_length path /\
    Rabs (travelled path' i - Rmin len (polyline_length path)) <= eps * len /\
    (path' = path \/ exists q, path' = firstn i path ++ q :: skipn i path /\ (0 < i < length path)%nat /\ on_segment (nth (i - 1) path origin) (nth i path origin) q /\ travelled path' i = len).
Proof.
  intros He. induction m as [|b m IH]; intros l a path Ep Hl Ht; cbn [insert_loop length].
  - exists path, (length path - 1)%nat. assert (E : (length path - 1)%nat = length l) by (rewrite Ep, app_length; cbn; lia). rewrite E. repeat lazymatch goal with |- _ /\ _ => split end; [reflexivity|rewrite Ep, app_length; cbn; lia|reflexivity| |left; reflexivity].
    rewrite Ep, travelled_at. rewrite Rmin_right by lra. rewrite Rminus_diag_eq by reflexivity. rewrite Rabs_R0. apply Rmult_le_pos; lra.
  - set (tr := polyline_length (l ++ [a])) in *. set (r := len - tr) in *.
    assert (G1 : vec_get path (S (length l)) = Ok b).
    { unfold vec_get. replace path with ((l ++ [a]) ++ b :: m) by (rewrite Ep, <- app_assoc; reflexivity). replace (S (length l)) with (length (l ++ [a])) by (rewrite app_length; cbn; lia). rewrite nth_end. reflexivity. }
    assert (G2 : vec_get path (S (length l) - 1) = Ok a). { unfold vec_get. replace (S (length l) - 1)%nat with (length l) by lia. rewrite Ep, nth_end. reflexivity. }
    rewrite G1, G2. cbn [obind]. change length_v with norm. change (norm (vsub b a)) with (apart b a). set (slen := apart b a).
    assert (TR0 : 0 <= tr) by apply polyline_nonneg. assert (R0 : 0 < r) by (unfold r; lra).
    assert (TOT : polyline_length path = tr + (slen + polyline_length (b :: m))) by (rewrite Ep, polyline_app; reflexivity).
    pose proof (polyline_nonneg (b :: m)) as M0.
    assert (NEXT : polyline_length ((l ++ [a]) ++ [b]) = tr + slen) by (rewrite <- app_assoc; cbn [app]; rewrite polyline_app; fold tr; rewrite polyline_cons, polyline_one; fold slen; ring).
    assert (LEN : (S (length l) < length path)%nat) by (rewrite Ep, app_length; cbn; lia).
    assert (Ep2 : path = (l ++ [a]) ++ b :: m) by (rewrite Ep, <- app_assoc; reflexivity).
    assert (L2 : length (l ++ [a]) = S (length l)) by (rewrite app_length; cbn; lia).
    destruct (equal_R r slen eps) eqn:Q.
    + exists path, (S (length l)). repeat lazymatch goal with |- _ /\ _ => split end; [reflexivity|exact LEN|reflexivity| |left; reflexivity].
      unfold equal_R, Rleb in Q. rewrite !abs_R_eq in Q. destruct (Rle_dec (Rabs (r - slen)) (Rabs r * eps)) as [C|C]; [|discriminate]. rewrite (Rabs_right r) in C by lra.
      rewrite <- L2. rewrite Ep2 at 1. rewrite travelled_at, NEXT, TOT.
      assert (B : r * eps <= eps * len) by (rewrite Rmult_comm; apply Rmult_le_compat_l; unfold r; lra).
      revert C. unfold r in *. unfold Rmin. destruct (Rle_dec _ _); unfold Rabs; repeat (destruct (Rcase_abs _)); lra.
    + destruct (Rlt_dec r slen) as [C|C].
      * unfold div_checked. destruct (Req_EM_T slen 0) as [Z|Z]; [lra|]. cbn [obind]. set (f := r / slen). assert (F : f * slen = r) by (unfold f; field; exact Z). assert (S0 : 0 < slen) by lra. assert (F0 : 0 < f) by (apply Rdiv_lt_0_compat; lra). assert (F1 : f <= 1) by (apply Rmult_le_reg_r with slen; lra).
        set (q := vadd a (vscale f (vsub b a))). assert (Eq : q = along a (minus b a) f) by (unfold q, along; vec; ring).
        assert (FN : firstn (S (length l)) path = l ++ [a]) by (rewrite Ep2, <- L2, firstn_app, firstn_all, Nat.sub_diag; cbn [firstn]; apply app_nil_r).
        assert (SK : skipn (S (length l)) path = b :: m) by (rewrite Ep2, <- L2, skipn_app, skipn_all, Nat.sub_diag; reflexivity).
        assert (PP : list_insert path (S (length l)) q = (l ++ [a]) ++ q :: b :: m) by (unfold list_insert; rewrite FN, SK; reflexivity).
        assert (PA : polyline_length ((l ++ [a]) ++ [q]) = len). { rewrite <- app_assoc. cbn [app]. rewrite polyline_app. fold tr. rewrite polyline_cons, polyline_one, Eq, apart_scaled by lra. fold slen. rewrite F. unfold r. ring. }
        assert (TV : travelled (list_insert path (S (length l)) q) (S (length l)) = len) by (rewrite PP, <- L2 at 1; rewrite travelled_at; exact PA).
        exists (list_insert path (S (length l)) q), (S (length l)). repeat lazymatch goal with |- _ /\ _ => split end.
        -- reflexivity.
        -- rewrite PP. rewrite app_length. cbn [length]. lia.
        -- rewrite PP, polyline_app, PA, polyline_cons, TOT, Eq, apart_rest by exact F1. fold slen. replace ((1 - f) * slen) with (slen - r) by lra. unfold r. ring.
        -- rewrite TV, Rmin_left by (rewrite TOT; unfold r in C; lra). rewrite Rminus_diag_eq by reflexivity. rewrite Rabs_R0. apply Rmult_le_pos; lra.
        -- right. exists q. unfold list_insert. split; [reflexivity|]. split; [lia|]. split; [|exact TV].
           assert (N1 : nth (S (length l) - 1) path origin = a) by (apply nth_error_nth; replace (S (length l) - 1)%nat with (length l) by lia; rewrite Ep; apply nth_end).
           assert (N2 : nth (S (length l)) path origin = b) by (apply nth_error_nth; rewrite Ep2, <- L2; apply nth_end).
           rewrite N1, N2. exists f. split; [lra|exact Eq].
      * assert (C' : slen < r). { destruct (Req_dec r slen) as [E|E]; [|lra]. exfalso. unfold equal_R, Rleb in Q. rewrite !abs_R_eq, E, Rminus_diag_eq, Rabs_R0 in Q by reflexivity. destruct (Rle_dec _ _) as [D|D]; [discriminate|]. apply D. apply Rmult_le_pos; [apply Rabs_pos|lra]. }
        replace (r - slen) with (len - polyline_length ((l ++ [a]) ++ [b])) by (rewrite NEXT; unfold r; ring). rewrite <- L2. apply IH; [exact Ep2|exact Hl|rewrite NEXT; unfold r in C'; lra].
Qed.
Lemma insert_assembled eps path len : 0 <= eps < 1 -> (2 <= length path)%nat ->
  exists path' i, insert_path_point eps path len = Ok (path', i) /\ (i < length path')%nat /\ polyline_length path' = polyline_length path /\
    (len <= 0 -> path' = path /\ i = 0%nat) /\
    (0 < len -> Rabs (travelled path' i - Rmin len (polyline_length path)) <= eps * len) /\
    (path' = path \/ exists q, path' = firstn i path ++ q :: skipn i path /\ (0 < i < length path)%nat /\ on_segment (nth (i - 1) path origin) (nth i path origin) q /\ travelled path' i = len).
Proof.
  intros He H. unfold insert_path_point. cbv zeta. destruct (Nat.leb_spec 2 (length path)) as [_|C]; [|lia].
  destruct (less_than_or_equal len 0 eps) eqn:L.
  - exists path, 0%nat. assert (len <= 0). { unfold less_than_or_equal, equal_R, Rltb, Rleb in L. rewrite !abs_R_eq, Rminus_0_r in L. destruct (Rlt_dec len 0) as [A|A]; [lra|]. cbn [orb] in L. destruct (Rle_dec _ _) as [B|B]; [|discriminate]. rewrite (Rabs_right len) in B by lra. nra. }
    repeat lazymatch goal with |- _ /\ _ => split end; [reflexivity|lia|reflexivity|auto|lra|left; reflexivity].
  - assert (P : 0 < len). { unfold less_than_or_equal, equal_R, Rltb, Rleb in L. rewrite !abs_R_eq, Rminus_0_r in L. destruct (Rlt_dec len 0) as [A|A]; [discriminate|]. cbn [orb] in L. destruct (Rle_dec _ _) as [B|B]; [discriminate|]. destruct (Req_dec len 0) as [E|E]; [|lra]. exfalso. apply B. rewrite E, Rabs_R0. lra. }
    destruct path as [|a m]; [cbn in H; lia|]. replace (length (a :: m) - 1)%nat with (length m) by (cbn; lia). destruct (insert_loop_spec eps len m He [] a (a :: m) eq_refl P) as (path' & i & E & A & B & C & D); [cbn [app]; rewrite polyline_one; exact P|]. cbn [app length] in E. rewrite polyline_one, Rminus_0_r in E.
    exists path', i. repeat lazymatch goal with |- _ /\ _ => split end; try assumption; [intros; lra|intros _; exact C].
Qed.
Lemma insert_short_assembled eps path len : (length path < 2)%nat -> insert_path_point eps path len = Throw.
Proof. intros H. unfold insert_path_point. cbv zeta. destruct (Nat.leb_spec 2 (length path)); [lia|reflexivity]. Qed.
