(** Lemmas about the models of shapes. *)
From Coq Require Import List Reals Lra Lia Psatz.
From Coquelicot Require Import Coquelicot.
From Verif Require Import Base GeoSpec NumModel StatModel GeoModel GeoProofs ShpSpec ShpModel ShpProofs VolSpec VolModel.
Import ListNotations.
Local Open Scope R_scope.

(** ** Integrals *)
Lemma by_primitive (f F : R -> R) a b V : (forall x, is_derive F x (f x)) -> (forall x, ex_derive f x) -> V = F b - F a -> is_RInt f a b V.
Proof.
  intros D C ->. apply (is_RInt_derive F f); [intros x _; apply D|]. intros x _. exact (ex_derive_continuous f x (C x)).
Qed.
Lemma sphere_body_assembled r density : let i := 2 / 5 * volume (Sphere r) * density * (r * r) in
  revolved_volume (ball_profile r) (- r) r (volume (Sphere r)) /\ revolved_inertia_axis (ball_profile r) (- r) r density i /\ revolved_inertia_across (ball_profile r) (- r) r density i /\ inertia (Sphere r) density = Ok (Vec3 i i i).
Proof.
  cbv zeta. repeat lazymatch goal with |- _ /\ _ => split end; [..|reflexivity]; unfold revolved_volume, revolved_inertia_axis, revolved_inertia_across, ball_profile, volume, cubed.
  - apply (by_primitive _ (fun y => PI * (r * r * y - y * y * y / 3))); [intros x; auto_derive; [exact I|field]|intros x; auto_derive; exact I|field].
  - apply (by_primitive _ (fun y => density * (PI / 2 * (r * r * r * r * y - 2 / 3 * (r * r) * (y * y * y) + y * y * y * y * y / 5)))); [intros x; auto_derive; [exact I|field]|intros x; auto_derive; exact I|field].
  - apply (by_primitive _ (fun y => density * (PI / 4 * (r * r * r * r * y - 2 / 3 * (r * r) * (y * y * y) + y * y * y * y * y / 5) + PI * (r * r * (y * y * y) / 3 - y * y * y * y * y / 5)))); [intros x; auto_derive; [exact I|field]|intros x; auto_derive; exact I|field].
Qed.
Lemma cylinder_body_assembled r h density : exists ix iy,
  revolved_volume (cylinder_profile r) (- (h / 2)) (h / 2) (volume (Cylinder r h)) /\ revolved_inertia_axis (cylinder_profile r) (- (h / 2)) (h / 2) density iy /\ revolved_inertia_across (cylinder_profile r) (- (h / 2)) (h / 2) density ix /\ inertia (Cylinder r h) density = Ok (Vec3 ix iy ix).
Proof.
  do 2 eexists. rewrite <- !and_assoc. split; [|reflexivity]. rewrite !and_assoc. repeat lazymatch goal with |- _ /\ _ => split end; unfold revolved_volume, revolved_inertia_axis, revolved_inertia_across, cylinder_profile, volume, squared.
  - apply (by_primitive _ (fun y => PI * (r * r) * y)); [intros x; auto_derive; [exact I|field]|intros x; auto_derive; exact I|field].
  - apply (by_primitive _ (fun y => density * (PI / 2 * (r * r * (r * r))) * y)); [intros x; auto_derive; [exact I|field]|intros x; auto_derive; exact I|field].
  - apply (by_primitive _ (fun y => density * (PI / 4 * (r * r * (r * r)) * y + PI * (r * r) * (y * y * y / 3)))); [intros x; auto_derive; [exact I|field]|intros x; auto_derive; exact I|field].
Qed.
Lemma cone_body_assembled r h : h <> 0 -> revolved_volume (cone_profile r h) 0 h (volume (Cone r h)).
Proof.
  intros H. unfold revolved_volume, cone_profile, volume, squared.
  apply (by_primitive _ (fun y => PI * (r * r) * (y - y * y / h + y * y * y / (3 * (h * h))))); [intros x; auto_derive; [exact I|field; exact H]|intros x; auto_derive; exact I|field; exact H].
Qed.
Lemma capsule_pieces (g : R -> R -> R) r h I1 I2 I3 : 0 <= r -> 0 <= h ->
  is_RInt (fun y => g (r * r - (- y - h / 2) * (- y - h / 2)) y) (- (h / 2 + r)) (- (h / 2)) I1 ->
  is_RInt (fun y => g (r * r) y) (- (h / 2)) (h / 2) I2 ->
  is_RInt (fun y => g (r * r - (y - h / 2) * (y - h / 2)) y) (h / 2) (h / 2 + r) I3 ->
  is_RInt (fun y => g (capsule_profile r h y) y) (- (h / 2 + r)) (h / 2 + r) (I1 + I2 + I3).
Proof.
  intros Hr Hh A B C. apply (is_RInt_Chasles (V := R_NormedModule) _ _ (h / 2) _ (I1 + I2) I3); [apply (is_RInt_Chasles (V := R_NormedModule) _ _ (- (h / 2)) _ I1 I2)|].
  - eapply is_RInt_ext; [|exact A]. intros y. rewrite Rmin_left, Rmax_right by lra. intros Hy. cbv beta. f_equal. unfold capsule_profile, beyond. rewrite Rabs_left by lra. rewrite Rmax_right by lra. ring.
  - eapply is_RInt_ext; [|exact B]. intros y. rewrite Rmin_left, Rmax_right by lra. intros Hy. cbv beta. f_equal. unfold capsule_profile, beyond. rewrite Rmax_left; [ring|]. unfold Rabs. destruct (Rcase_abs y); lra.
  - eapply is_RInt_ext; [|exact C]. intros y. rewrite Rmin_left, Rmax_right by lra. intros Hy. cbv beta. f_equal. unfold capsule_profile, beyond. rewrite Rabs_right by lra. rewrite Rmax_right by lra. ring.
Qed.
(** what the moment about a horizontal axis should be *)
Definition capsule_across (r h density : R) : R :=
  PI * (r * r) * h * density * (r * r / 4 + h * h / 12) + 4 / 3 * PI * (r * r * r) * density * (2 / 5 * (r * r) + 3 / 8 * r * h + h * h / 4).
Lemma capsule_body r h density : 0 <= r -> 0 <= h ->
  revolved_volume (capsule_profile r h) (- (h / 2 + r)) (h / 2 + r) (volume (Capsule r h)) /\
  revolved_inertia_axis (capsule_profile r h) (- (h / 2 + r)) (h / 2 + r) density ((PI * (r * r) * h * density * (1 / 2) + 4 / 3 * PI * (r * r * r) * density * (2 / 5)) * (r * r)) /\
  revolved_inertia_across (capsule_profile r h) (- (h / 2 + r)) (h / 2 + r) density (capsule_across r h density).
Proof.
  intros Hr Hh. repeat lazymatch goal with |- _ /\ _ => split end; unfold revolved_volume, revolved_inertia_axis, revolved_inertia_across.
  - replace (volume (Capsule r h)) with (PI * (2 / 3 * (r * r * r)) + PI * (r * r) * h + PI * (2 / 3 * (r * r * r))) by (unfold volume, squared; field).
    apply (capsule_pieces (fun w y => PI * w)); try assumption; cbv beta.
    + apply (by_primitive _ (fun y => PI * (r * r * y - (y + h / 2) * (y + h / 2) * (y + h / 2) / 3))); [intros x; auto_derive; [exact I|field]|intros x; auto_derive; exact I|field].
    + apply (by_primitive _ (fun y => PI * (r * r) * y)); [intros x; auto_derive; [exact I|field]|intros x; auto_derive; exact I|field].
    + apply (by_primitive _ (fun y => PI * (r * r * y - (y - h / 2) * (y - h / 2) * (y - h / 2) / 3))); [intros x; auto_derive; [exact I|field]|intros x; auto_derive; exact I|field].
  - set (c := density * (PI / 2 * (8 / 15 * (r * r * r * r * r)))).
    replace ((PI * (r * r) * h * density * (1 / 2) + 4 / 3 * PI * (r * r * r) * density * (2 / 5)) * (r * r)) with (c + density * (PI / 2 * (r * r * (r * r))) * h + c) by (unfold c; field).
    apply (capsule_pieces (fun w y => density * (PI / 2 * (w * w)))); try assumption; cbv beta; unfold c.
    + apply (by_primitive _ (fun y => density * (PI / 2 * (r * r * r * r * y - 2 / 3 * (r * r) * ((y + h / 2) * (y + h / 2) * (y + h / 2)) + (y + h / 2) * (y + h / 2) * (y + h / 2) * (y + h / 2) * (y + h / 2) / 5)))); [intros x; auto_derive; [exact I|field]|intros x; auto_derive; exact I|field].
    + apply (by_primitive _ (fun y => density * (PI / 2 * (r * r * (r * r))) * y)); [intros x; auto_derive; [exact I|field]|intros x; auto_derive; exact I|field].
    + apply (by_primitive _ (fun y => density * (PI / 2 * (r * r * r * r * y - 2 / 3 * (r * r) * ((y - h / 2) * (y - h / 2) * (y - h / 2)) + (y - h / 2) * (y - h / 2) * (y - h / 2) * (y - h / 2) * (y - h / 2) / 5)))); [intros x; auto_derive; [exact I|field]|intros x; auto_derive; exact I|field].
  - set (c := density * (2 / 3 * PI * (r * r * r)) * (2 / 5 * (r * r) + 3 / 8 * r * h + h * h / 4)).
    replace (capsule_across r h density) with (c + density * (PI * (r * r) * h * (r * r / 4 + h * h / 12)) + c) by (unfold c, capsule_across; field).
    apply (capsule_pieces (fun w y => density * (PI / 4 * (w * w) + PI * w * (y * y)))); try assumption; cbv beta; unfold c.
    + apply (by_primitive _ (fun y => let u := y + h / 2 in density * (PI / 4 * (r * r * r * r * u - 2 / 3 * (r * r) * (u * u * u) + u * u * u * u * u / 5) + PI * (r * r * (u * u * u / 3 - h * (u * u) / 2 + h * h / 4 * u) - (u * u * u * u * u / 5 - h * (u * u * u * u) / 4 + h * h / 4 * (u * u * u / 3)))))); cbv zeta; [intros x; auto_derive; [exact I|field]|intros x; auto_derive; exact I|field].
    + apply (by_primitive _ (fun y => density * (PI / 4 * (r * r * (r * r)) * y + PI * (r * r) * (y * y * y / 3)))); [intros x; auto_derive; [exact I|field]|intros x; auto_derive; exact I|field].
    + apply (by_primitive _ (fun y => let u := y - h / 2 in density * (PI / 4 * (r * r * r * r * u - 2 / 3 * (r * r) * (u * u * u) + u * u * u * u * u / 5) + PI * (r * r * (u * u * u / 3 + h * (u * u) / 2 + h * h / 4 * u) - (u * u * u * u * u / 5 + h * (u * u * u * u) / 4 + h * h / 4 * (u * u * u / 3)))))); cbv zeta; [intros x; auto_derive; [exact I|field]|intros x; auto_derive; exact I|field].
Qed.
Lemma capsule_body_assembled r h density : 0 <= r -> 0 <= h -> exists ix iy,
  revolved_volume (capsule_profile r h) (- (h / 2 + r)) (h / 2 + r) (volume (Capsule r h)) /\
  revolved_inertia_axis (capsule_profile r h) (- (h / 2 + r)) (h / 2 + r) density iy /\ inertia (Capsule r h) density = Ok (Vec3 ix iy ix).
Proof.
  intros Hr Hh. destruct (capsule_body r h density Hr Hh) as (A & B & _). do 2 eexists. split; [exact A|]. split; [exact B|]. unfold inertia. cbv zeta. reflexivity.
Qed.
Lemma capsule_inertia_refuted_assembled : exists r h density ix iy i, 0 < r /\ 0 < h /\ 0 < density /\ inertia (Capsule r h) density = Ok (Vec3 ix iy ix) /\
  revolved_inertia_across (capsule_profile r h) (- (h / 2 + r)) (h / 2 + r) density i /\ ix <> i.
Proof.
  exists 1, 1, 1. do 3 eexists. split; [lra|]. split; [lra|]. split; [lra|]. split; [reflexivity|]. split; [apply capsule_body; lra|]. unfold capsule_across. pose proof PI_RGT_0. pose proof PI2_3_2. unfold PI2 in *. nra.
Qed.
Lemma block_by h f g k V : (forall x y, is_RInt (fun z => f (Vec3 x y z)) (- vz h) (vz h) (g x y)) -> (forall x, is_RInt (g x) (- vy h) (vy h) (k x)) -> is_RInt k (- vx h) (vx h) V -> block_integral h f = V.
Proof.
  intros A B C. unfold block_integral. rewrite (RInt_ext _ k); [apply is_RInt_unique, C|]. intros x _. rewrite (RInt_ext _ (g x)); [apply is_RInt_unique, B|]. intros y _. apply is_RInt_unique, A.
Qed.
Lemma box_body_assembled h density :
  block_integral h (fun _ => 1) = volume (Box h) /\
  inertia (Box h) density = Ok (Vec3 (block_integral h (fun p => density * (vy p * vy p + vz p * vz p))) (block_integral h (fun p => density * (vx p * vx p + vz p * vz p))) (block_integral h (fun p => density * (vx p * vx p + vy p * vy p)))).
Proof.
  destruct h as [a b c]. split.
  - apply block_by with (g := fun _ _ => 2 * c) (k := fun _ => 4 * b * c); cbn [vx vy vz]; intros.
    + apply (by_primitive _ (fun y => y)); [intros z; auto_derive; [exact I|ring]|intros z; auto_derive; exact I|ring].
    + apply (by_primitive _ (fun y => 2 * c * y)); [intros z; auto_derive; [exact I|ring]|intros z; auto_derive; exact I|ring].
    + unfold volume. cbn [vx vy vz]. apply (by_primitive _ (fun y => 4 * b * c * y)); [intros z; auto_derive; [exact I|ring]|intros z; auto_derive; exact I|ring].
  - unfold inertia, volume, squared. cbv zeta. cbn [vx vy vz]. f_equal. f_equal; symmetry.
    + apply block_by with (g := fun x y => density * (2 * c * (y * y) + 2 / 3 * (c * c * c))) (k := fun x => density * (4 / 3 * c * (b * b * b) + 4 / 3 * b * (c * c * c))); cbn [vx vy vz]; intros.
      * apply (by_primitive _ (fun z => density * (y * y * z + z * z * z / 3))); [intros z; auto_derive; [exact I|field]|intros z; auto_derive; exact I|field].
      * apply (by_primitive _ (fun y => density * (2 * c * (y * y * y / 3) + 2 / 3 * (c * c * c) * y))); [intros z; auto_derive; [exact I|field]|intros z; auto_derive; exact I|field].
      * apply (by_primitive _ (fun y => density * (4 / 3 * c * (b * b * b) + 4 / 3 * b * (c * c * c)) * y)); [intros z; auto_derive; [exact I|field]|intros z; auto_derive; exact I|field].
    + apply block_by with (g := fun x y => density * (2 * c * (x * x) + 2 / 3 * (c * c * c))) (k := fun x => density * (4 * b * c * (x * x) + 4 / 3 * b * (c * c * c))); cbn [vx vy vz]; intros.
      * apply (by_primitive _ (fun z => density * (x * x * z + z * z * z / 3))); [intros z; auto_derive; [exact I|field]|intros z; auto_derive; exact I|field].
      * apply (by_primitive _ (fun y => density * (2 * c * (x * x) + 2 / 3 * (c * c * c)) * y)); [intros z; auto_derive; [exact I|field]|intros z; auto_derive; exact I|field].
      * apply (by_primitive _ (fun y => density * (4 * b * c * (y * y * y / 3) + 4 / 3 * b * (c * c * c) * y))); [intros z; auto_derive; [exact I|field]|intros z; auto_derive; exact I|field].
    + apply block_by with (g := fun x y => density * (2 * c * (x * x + y * y))) (k := fun x => density * (4 * b * c * (x * x) + 4 / 3 * c * (b * b * b))); cbn [vx vy vz]; intros.
      * apply (by_primitive _ (fun z => density * ((x * x + y * y) * z))); [intros z; auto_derive; [exact I|field]|intros z; auto_derive; exact I|field].
      * apply (by_primitive _ (fun y => density * (2 * c * (x * x * y + y * y * y / 3)))); [intros z; auto_derive; [exact I|field]|intros z; auto_derive; exact I|field].
      * apply (by_primitive _ (fun y => density * (4 * b * c * (y * y * y / 3) + 4 / 3 * c * (b * b * b) * y))); [intros z; auto_derive; [exact I|field]|intros z; auto_derive; exact I|field].
Qed.

(** ** Scaling *)
Definition not_capsule (s : shape) : Prop := match s with Capsule _ _ => False | _ => True end.
Lemma scaled_volume_assembled s f : volume (scaled s f) = f * f * f * volume s.
Proof. destruct s; unfold scaled, volume, cubed, squared; geo; field. Qed.
Lemma scaled_inertia_assembled s f density i : (forall r h, s <> Capsule r h) -> inertia s density = Ok i -> inertia (scaled s f) density = Ok (times (f * f * f * f * f) i).
Proof.
  intros N H. destruct s; try discriminate; try (exfalso; apply (N radius height); reflexivity); unfold inertia, scaled, volume, cubed, squared in *; cbv zeta in *; inversion H; subst i; f_equal; vec; field.
Qed.
Lemma inertia_density_assembled s k density i : (forall r h, s <> Capsule r h) -> inertia s density = Ok i -> inertia s (k * density) = Ok (times k i).
Proof.
  intros N H. destruct s; try discriminate; try (exfalso; apply (N radius height); reflexivity); unfold inertia, scaled, volume, cubed, squared in *; cbv zeta in *; inversion H; subst i; f_equal; vec; field.
Qed.
Lemma capsule_density_refuted_assembled : exists r h density i j, 0 < r /\ 0 < h /\ 0 < density /\ inertia (Capsule r h) density = Ok i /\ inertia (Capsule r h) (2 * density) = Ok j /\ j <> times 2 i.
Proof.
  exists 1, 1, 1. do 2 eexists. split; [lra|]. split; [lra|]. split; [lra|]. split; [reflexivity|]. split; [reflexivity|]. intros E. apply (f_equal vx) in E. unfold times in E. cbn [vx] in E. pose proof PI_RGT_0. nra.
Qed.
Lemma cube_inj a b : a * a * a = b * b * b -> a = b.
Proof. intros H. assert (E : (a - b) * (a * a + a * b + b * b) = 0) by lra. apply Rmult_integral in E. destruct E as [E|E]; [lra|]. pose proof (Rle_0_sqr (a + b / 2)) as S1. pose proof (Rle_0_sqr b) as S2. pose proof (Rle_0_sqr a) as S3. unfold Rsqr in *. assert (B : b = 0) by (apply Rsqr_0_uniq; unfold Rsqr; lra). subst b. apply Rsqr_0_uniq. unfold Rsqr. lra. Qed.
Lemma scaled_by_assembled cbrt s v : (forall x, cbrt x * cbrt x * cbrt x = x) -> (forall r h, s <> Capsule r h) -> 0 <= vx v * vz v -> volume (scaled_by cbrt s v) = vx v * vy v * vz v * volume s.
Proof.
  intros C N P. destruct s; try (exfalso; apply (N radius height); reflexivity); unfold scaled_by, volume, cubed, squared; geo.
  - set (c := cbrt _). assert (E : c * c * c = vx v * vy v * vz v) by apply C. transitivity (4 / 3 * PI * (radius * radius * radius) * (c * c * c)); [ring|]. rewrite E. ring.
  - ring.
  - transitivity (PI * (radius * radius) * height * vy v * (sqrt (vx v * vz v) * sqrt (vx v * vz v))); [ring|]. rewrite sqrt_sqrt by exact P. ring.
  - transitivity (PI * (radius * radius) * height * vy v * (sqrt (vx v * vz v) * sqrt (vx v * vz v)) / 3); [field|]. rewrite sqrt_sqrt by exact P. field.
  - ring.
Qed.
Lemma scaled_by_uniform_assembled cbrt s f : (forall x, cbrt x * cbrt x * cbrt x = x) -> 0 <= f -> scaled_by cbrt s (Vec3 f f f) = scaled s f.
Proof.
  intros C P. destruct s; unfold scaled_by, scaled; geo; rewrite ?sqrt_square by exact P; try reflexivity. f_equal. f_equal. apply cube_inj. rewrite C. reflexivity.
Qed.
Lemma capsule_scaled_by_refuted_assembled : exists r h v, 0 < r /\ 0 < h /\ 0 < vx v /\ 0 < vy v /\ 0 < vz v /\ forall cbrt, volume (scaled_by cbrt (Capsule r h) v) <> vx v * vy v * vz v * volume (Capsule r h).
Proof.
  exists 1, 1, (Vec3 1 2 1). cbn [vx vy vz]. split; [lra|]. split; [lra|]. split; [lra|]. split; [lra|]. split; [lra|]. intros cbrt. unfold scaled_by, volume, squared. cbn [vx vy vz]. replace (1 * 1) with 1 by ring. rewrite sqrt_1. pose proof PI_RGT_0. nra.
Qed.

(** ** Sizes and distances *)
Lemma ball_iff r p : 0 <= r -> ball r p <-> apart p origin <= r.
Proof.
  intros Hr. unfold ball, revolved, ball_profile. assert (E : apart p origin = norm p) by (unfold apart; f_equal; vec; ring). rewrite E. pose proof (norm_sq p) as S. pose proof (norm_nonneg p) as N. unfold dot in S. split.
  - intros (_ & H). apply Rsqr_incr_0_var; [unfold Rsqr; lra|exact Hr].
  - intros H. pose proof (coord_le p) as (_ & B & _). assert (norm p * norm p <= r * r) by (apply Rmult_le_compat; lra). split; [|lra]. revert B. unfold Rabs. destruct (Rcase_abs (vy p)); lra.
Qed.
Definition half_box (d : vec3) : vec3 * vec3 := (times (- (1 / 2)) d, times (1 / 2) d).
Lemma dim_sphere r : 0 <= r -> tight_box (ball r) (times (- (1 / 2)) (Vec3 (2 * r) (2 * r) (2 * r))) (times (1 / 2) (Vec3 (2 * r) (2 * r) (2 * r))).
Proof.
  intros Hr. destruct (sphere_assembled r (Tf origin qidentity) Hr) as (A & B). unfold aabb_sphere in A, B. cbn [lower_bounds upper_bounds t_p] in A, B.
  assert (L : times (- (1 / 2)) (Vec3 (2 * r) (2 * r) (2 * r)) = vsub origin (Vec3 r r r)) by (vec; field). assert (U : times (1 / 2) (Vec3 (2 * r) (2 * r) (2 * r)) = vadd origin (Vec3 r r r)) by (vec; field). rewrite L, U.
  split; [intros p Hp; apply A, ball_iff; assumption|]. intros lo hi H. apply B. intros p Hp. apply H, ball_iff; assumption.
Qed.
Lemma dim_box h : 0 <= vx h -> 0 <= vy h -> 0 <= vz h -> tight_box (block h) (times (- (1 / 2)) (vscale 2 h)) (times (1 / 2) (vscale 2 h)).
Proof.
  intros X Y Z. assert (L : times (- (1 / 2)) (vscale 2 h) = Vec3 (- vx h) (- vy h) (- vz h)) by (vec; field). assert (U : times (1 / 2) (vscale 2 h) = h) by (vec; field). rewrite L, U. split.
  - intros p (A & B & C). unfold inside. cbn [vx vy vz]. revert A B C. rewrite (Rabs_right (vx h)), (Rabs_right (vy h)), (Rabs_right (vz h)) by lra. unfold Rabs. repeat (destruct (Rcase_abs _)); lra.
  - intros lo hi H. assert (C1 : block h h) by (unfold block; repeat split; apply Rle_refl). assert (C2 : block h (Vec3 (- vx h) (- vy h) (- vz h))) by (unfold block; cbn [vx vy vz]; rewrite !Rabs_Ropp; repeat split; apply Rle_refl).
    apply H in C1. apply H in C2. unfold inside in *. unfold within. cbn [vx vy vz] in *. lra.
Qed.
Lemma dim_cylinder r h : 0 <= r -> 0 <= h -> tight_box (upright_cylinder r h) (times (- (1 / 2)) (Vec3 (2 * r) h (2 * r))) (times (1 / 2) (Vec3 (2 * r) h (2 * r))).
Proof.
  intros Hr Hh. split.
  - intros p (A & B). unfold cylinder_profile in B. pose proof (Rle_0_sqr (vx p)). pose proof (Rle_0_sqr (vz p)). unfold Rsqr in *. assert (X : - r <= vx p <= r) by (split; nra). assert (Z : - r <= vz p <= r) by (split; nra). unfold inside, times. cbn [vx vy vz]. lra.
  - intros lo hi H. assert (G : forall x y z, x * x + z * z <= r * r -> - (h / 2) <= y <= h / 2 -> inside lo hi (Vec3 x y z)) by (intros x y z Q R; apply H; split; [exact R|exact Q]).
    pose proof (G r (h / 2) 0 ltac:(lra) ltac:(lra)) as G1. pose proof (G (- r) (- (h / 2)) 0 ltac:(lra) ltac:(lra)) as G2. pose proof (G 0 0 r ltac:(lra) ltac:(lra)) as G3. pose proof (G 0 0 (- r) ltac:(lra) ltac:(lra)) as G4. unfold inside in *. unfold within, times. cbn [vx vy vz] in *. lra.
Qed.
Lemma dim_assembled r h b : 0 <= r -> 0 <= h -> 0 <= vx b -> 0 <= vy b -> 0 <= vz b -> exists d1 d2 d3,
  dim (Sphere r) = Ok d1 /\ tight_box (ball r) (times (- (1 / 2)) d1) (times (1 / 2) d1) /\
  dim (Box b) = Ok d2 /\ tight_box (block b) (times (- (1 / 2)) d2) (times (1 / 2) d2) /\
  dim (Cylinder r h) = Ok d3 /\ tight_box (upright_cylinder r h) (times (- (1 / 2)) d3) (times (1 / 2) d3).
Proof.
  intros Hr Hh X Y Z. do 3 eexists. split; [reflexivity|]. split; [apply dim_sphere, Hr|]. split; [reflexivity|]. split; [apply dim_box; assumption|]. split; [reflexivity|]. apply dim_cylinder; assumption.
Qed.
Lemma dim_capsule_refuted_assembled : exists r h d p, 0 < r /\ 0 < h /\ dim (Capsule r h) = Ok d /\ upright_capsule r h p /\ ~ inside (times (- (1 / 2)) d) (times (1 / 2) d) p.
Proof.
  exists 1, 1. do 2 eexists. split; [lra|]. split; [lra|]. split; [reflexivity|]. split.
  - instantiate (1 := Vec3 0 (3 / 2) 0). unfold upright_capsule, revolved, capsule_profile, beyond. cbn [vx vy vz]. split; [lra|]. rewrite Rabs_right by lra. rewrite Rmax_right by lra. lra.
  - unfold inside, times. cbn [vx vy vz]. lra.
Qed.
Lemma leaves_sphere r d : 0 <= r -> unit_vec d -> leaves_at (ball r) d r.
Proof.
  intros Hr U. split; [exact Hr|]. intros t Ht. rewrite ball_iff by exact Hr. assert (E : apart (times t d) origin = t).
  { unfold apart, norm. replace (dot (minus (times t d) origin) (minus (times t d) origin)) with (t * t * dot d d) by (geo; ring). rewrite U, Rmult_1_r. apply sqrt_square, Ht. }
  rewrite E. reflexivity.
Qed.
Definition below (t : R) (e : option R) : Prop := match e with Some d => t <= d | None => True end.
Lemma extent_spec a b : 0 < a -> exists e, extent a b = Ok e /\ (b <> 0 -> e <> None) /\ below 0 e /\ forall t, 0 <= t -> (Rabs (t * b) <= Rabs a <-> below t e).
Proof.
  intros Ha. unfold extent. destruct (Req_EM_T b 0) as [Z|Z].
  - destruct (Rlt_dec 0 a) as [_|C]; [|lra]. exists None. split; [reflexivity|]. split; [congruence|]. split; [exact I|]. intros t Ht. cbn. rewrite Z, Rmult_0_r, Rabs_R0, (Rabs_right a) by lra. split; [auto|lra].
  - exists (Some (a / Rabs b)). assert (B : 0 < Rabs b) by (apply Rabs_pos_lt, Z). assert (E : a / Rabs b * Rabs b = a) by (field; lra). assert (Q : 0 < a / Rabs b) by (apply Rdiv_lt_0_compat; lra). split; [reflexivity|]. split; [congruence|]. split; [cbn; lra|]. intros t Ht. cbn. rewrite Rabs_mult, (Rabs_right t), (Rabs_right a) by lra. split; intros H.
    + apply Rmult_le_reg_r with (Rabs b); lra.
    + apply Rmult_le_compat_r with (r := Rabs b) in H; lra.
Qed.
Lemma below_min t a b : below t (min_inf a b) <-> below t a /\ below t b.
Proof. destruct a as [a|], b as [b|]; cbn; [destruct (Rlt_dec a b)|..]; intuition lra. Qed.
Lemma leaves_box h d : 0 < vx h -> 0 < vy h -> 0 < vz h -> d <> origin -> exists r, distance_from_center (Box h) d = Ok r /\ leaves_at (block h) d r.
Proof.
  intros X Y Z N. cbn [distance_from_center]. destruct (extent_spec (vx h) (vx d) X) as (ex & Ex & Nx & Px & Hx). destruct (extent_spec (vy h) (vy d) Y) as (ey & Ey & Ny & Py & Hy). destruct (extent_spec (vz h) (vz d) Z) as (ez & Ez & Nz & Pz & Hz).
  rewrite Ex, Ey, Ez. cbn [obind]. destruct (min_inf ex (min_inf ey ez)) as [r|] eqn:M.
  - exists r. split; [reflexivity|]. assert (B : forall t, below t (Some r) <-> below t ex /\ below t ey /\ below t ez) by (intros t; rewrite <- M, !below_min; reflexivity). cbn [below] in B. split; [apply B; auto|].
    intros t Ht. rewrite B, <- (Hx t Ht), <- (Hy t Ht), <- (Hz t Ht). unfold block, times. cbn [vx vy vz]. reflexivity.
  - exfalso. apply N. destruct ex as [a|], ey as [b|], ez as [c|]; cbn in M; try discriminate. apply vec_eq; cbn [origin vx vy vz].
    + destruct (Req_dec (vx d) 0) as [E|E]; [exact E|]. exfalso. apply Nx; auto.
    + destruct (Req_dec (vy d) 0) as [E|E]; [exact E|]. exfalso. apply Ny; auto.
    + destruct (Req_dec (vz d) 0) as [E|E]; [exact E|]. exfalso. apply Nz; auto.
Qed.
Section Ray.
  Context (d : vec3) (U : unit_vec d).
  Let v := sqrt (vx d * vx d + vz d * vz d).
  Let Y := Rabs (vy d).
  Lemma v_sq : v * v = vx d * vx d + vz d * vz d.
  Proof. apply sqrt_sqrt. pose proof (Rle_0_sqr (vx d)). pose proof (Rle_0_sqr (vz d)). unfold Rsqr in *. lra. Qed.
  Lemma Y_sq : Y * Y = vy d * vy d.
  Proof. unfold Y, Rabs. destruct (Rcase_abs (vy d)); ring. Qed.
  Lemma vY : v * v + Y * Y = 1.
  Proof. rewrite v_sq, Y_sq. unfold unit_vec, dot in U. lra. Qed.
  Lemma v_nonneg : 0 <= v.
  Proof. apply sqrt_pos. Qed.
  Lemma Y_nonneg : 0 <= Y.
  Proof. apply Rabs_pos. Qed.
  Lemma ray_flat t : vx (times t d) * vx (times t d) + vz (times t d) * vz (times t d) = t * t * (v * v).
  Proof. rewrite v_sq. unfold times. cbn [vx vz]. ring. Qed.
  Lemma ray_height t : 0 <= t -> Rabs (vy (times t d)) = t * Y.
  Proof. intros H. unfold times. cbn [vy]. rewrite Rabs_mult, (Rabs_right t) by lra. reflexivity. Qed.
  Lemma between_abs a b : - a <= b <= a <-> Rabs b <= a.
  Proof. unfold Rabs. destruct (Rcase_abs b); lra. Qed.
  Lemma side_v r h : 0 < r -> 0 <= h -> Y * r <= 1 / 2 * h * v -> 0 < v.
  Proof.
    intros Hr Hh C. destruct (Rle_lt_or_eq_dec 0 v v_nonneg) as [P|P]; [exact P|]. exfalso. pose proof vY as E. rewrite <- P in E, C. assert (Y * r <= 0) by lra. pose proof Y_nonneg. assert (0 <= Y * r) by (apply Rmult_le_pos; lra). assert (Y * r = 0) by lra. apply Rmult_integral in H2. destruct H2 as [H2|H2]; [rewrite H2 in E; lra|lra].
  Qed.
  Lemma side_cylinder r h : 0 < r -> 0 <= h -> Y * r <= 1 / 2 * h * v -> leaves_at (upright_cylinder r h) d (r / v).
  Proof.
    intros Hr Hh C. pose proof (side_v r h Hr Hh C) as Pv. pose proof Y_nonneg as PY. assert (Q : r / v * v = r) by (field; lra). split; [apply Rlt_le, Rdiv_lt_0_compat; lra|].
    intros t Ht. unfold upright_cylinder, revolved. rewrite ray_flat, between_abs, ray_height by exact Ht. unfold cylinder_profile. split.
    - intros (_ & H). apply Rmult_le_reg_r with v; [exact Pv|]. rewrite Q. apply Rsqr_incr_0_var; [unfold Rsqr; lra|lra].
    - intros H. assert (T : t * v <= r) by (rewrite <- Q; apply Rmult_le_compat_r; lra). split.
      + apply Rmult_le_reg_r with v; [exact Pv|]. assert (t * v * Y <= r * Y) by (apply Rmult_le_compat_r; lra). lra.
      + assert (0 <= t * v) by (apply Rmult_le_pos; lra). assert (t * v * (t * v) <= r * r) by (apply Rmult_le_compat; lra). lra.
  Qed.
  Lemma side_capsule r h : 0 < r -> 0 <= h -> Y * r <= 1 / 2 * h * v -> leaves_at (upright_capsule r h) d (r / v).
  Proof.
    intros Hr Hh C. destruct (side_cylinder r h Hr Hh C) as (A & B). split; [exact A|]. intros t Ht. rewrite <- B by exact Ht.
    unfold upright_cylinder, upright_capsule, revolved. rewrite !ray_flat, !between_abs, !ray_height by exact Ht. unfold cylinder_profile, capsule_profile, beyond. rewrite ray_height by exact Ht. split.
    - intros (H1 & H2). pose proof (Rle_0_sqr (Rmax 0 (t * Y - h / 2))) as S. unfold Rsqr in S. assert (H3 : t * t * (v * v) <= r * r) by lra. split; [|exact H3].
      pose proof (side_v r h Hr Hh C) as Pv. pose proof Y_nonneg as PY. assert (T : t * v <= r) by (apply Rsqr_incr_0_var; [unfold Rsqr; lra|lra]).
      apply Rmult_le_reg_r with v; [exact Pv|]. assert (t * v * Y <= r * Y) by (apply Rmult_le_compat_r; lra). lra.
    - intros (H1 & H2). rewrite Rmax_left by lra. lra.
  Qed.
  Lemma cap_capsule r h : 0 < r -> 0 <= h -> 1 / 2 * h * v < Y * r ->
    0 <= r * r - v * v * (h / 2 * (h / 2)) /\ leaves_at (upright_capsule r h) d (Y * (h / 2) + sqrt (r * r - v * v * (h / 2 * (h / 2)))).
  Proof.
    intros Hr Hh C. pose proof vY as E. pose proof v_nonneg as Pv. pose proof Y_nonneg as PY. set (k := h / 2). assert (K : 0 <= k) by (unfold k; lra). assert (C' : k * v < Y * r) by (unfold k; lra).
    assert (KV : 0 <= k * v) by (apply Rmult_le_pos; lra). assert (Y1 : Y <= 1). { apply Rsqr_incr_0_var; [|lra]. unfold Rsqr. pose proof (Rle_0_sqr v). unfold Rsqr in *. lra. }
    assert (PY' : 0 < Y) by (destruct (Rle_lt_or_eq_dec 0 Y PY) as [P|P]; [exact P|rewrite <- P in C'; lra]).
    assert (YR : Y * r <= r) by (rewrite <- (Rmult_1_l r) at 2; apply Rmult_le_compat_r; lra).
    assert (KR : k * v * (k * v) <= Y * r * (Y * r)) by (apply Rmult_le_compat; lra).
    assert (KR1 : k * v * (k * v) <= r * r) by (apply Rmult_le_compat; lra).
    assert (D0 : 0 <= r * r - v * v * (k * k)) by lra. split; [exact D0|]. set (S := sqrt (r * r - v * v * (k * k))). assert (S0 : 0 <= S) by apply sqrt_pos. assert (SS : S * S = r * r - v * v * (k * k)) by (apply sqrt_sqrt, D0).
    assert (YS : k * (v * v) <= Y * S).
    { apply Rsqr_incr_0_var; [|apply Rmult_le_pos; lra]. unfold Rsqr. replace (Y * S * (Y * S)) with (Y * Y * (S * S)) by ring. rewrite SS. assert (F : Y * Y * (r * r - v * v * (k * k)) - k * (v * v) * (k * (v * v)) = Y * r * (Y * r) - k * v * (k * v) * (v * v + Y * Y)) by ring. rewrite E in F. lra. }
    split; [assert (0 <= Y * k) by (apply Rmult_le_pos; lra); lra|].
    intros t Ht. unfold upright_capsule, revolved. rewrite ray_flat, between_abs, ray_height by exact Ht. unfold capsule_profile, beyond. rewrite ray_height by exact Ht. fold k.
    assert (ID : t * t * (v * v) + (t * Y - k) * (t * Y - k) - r * r = (t - Y * k) * (t - Y * k) - S * S).
    { rewrite SS. assert (F : t * t * (v * v) + (t * Y - k) * (t * Y - k) = t * t * (v * v + Y * Y) - 2 * t * (Y * k) + k * k) by ring. rewrite F, E. assert (G : (t - Y * k) * (t - Y * k) = t * t - 2 * t * (Y * k) + Y * Y * (k * k)) by ring. rewrite G. replace (Y * Y) with (1 - v * v) by lra. ring. }
    destruct (Rle_dec (t * Y) k) as [L|L].
    - rewrite Rmax_left by lra. split.
      + intros _. apply Rmult_le_reg_r with Y; [exact PY'|]. assert (F : (Y * k + S) * Y = k * (v * v + Y * Y) + (Y * S - k * (v * v))) by ring. rewrite F, E. lra.
      + intros _. split; [lra|]. assert (TV : t * v * Y <= Y * r) by (assert (t * Y * v <= k * v) by (apply Rmult_le_compat_r; lra); lra). assert (T : t * v <= r) by (apply Rmult_le_reg_r with Y; lra). assert (0 <= t * v) by (apply Rmult_le_pos; lra). assert (t * v * (t * v) <= r * r) by (apply Rmult_le_compat; lra). lra.
    - rewrite Rmax_right by lra. split.
      + intros (_ & H). assert (Q : (t - Y * k) * (t - Y * k) <= S * S) by lra. assert (t - Y * k <= S) by (apply Rsqr_incr_0_var; [unfold Rsqr; exact Q|exact S0]). lra.
      + intros H. assert (LO : - S <= t - Y * k). { assert (Y * k <= t); [|lra]. apply Rmult_le_reg_r with Y; [exact PY'|]. assert (Y * k * Y <= k) by (assert (Y * Y <= 1) by (assert (Y * Y <= 1 * 1) by (apply Rmult_le_compat; lra); lra); assert (k * (Y * Y) <= k * 1) by (apply Rmult_le_compat_l; lra); lra). lra. }
        assert (Q : (t - Y * k) * (t - Y * k) <= S * S). { assert (0 <= (S - (t - Y * k)) * (S + (t - Y * k))) by (apply Rmult_le_pos; lra). lra. }
        assert (W : t * t * (v * v) + (t * Y - k) * (t * Y - k) <= r * r) by lra. split; [|lra].
        assert (0 <= t * t * (v * v)) by (apply Rmult_le_pos; apply Rle_0_sqr). assert (t * Y - k <= r) by (apply Rsqr_incr_0_var; [unfold Rsqr; lra|lra]). lra.
  Qed.
  Lemma leaves_capsule r h : 0 < r -> 0 <= h -> exists l, distance_from_center (Capsule r h) d = Ok l /\ leaves_at (upright_capsule r h) d l.
  Proof.
    intros Hr Hh. cbn [distance_from_center]. cbv zeta. fold v. fold Y. destruct (Rlt_dec (1 / 2 * h * v) (Y * r)) as [C|C].
    - destruct (cap_capsule r h Hr Hh C) as (D & L). eexists. split; [reflexivity|].
      assert (B : 2 * vy d * - copysign (1 / 2 * h) (vy d) = - (2 * Y * (h / 2))).
      { unfold copysign, Y. rewrite (Rabs_right (1 / 2 * h)) by lra. unfold Rabs. destruct (Rlt_dec (vy d) 0), (Rcase_abs (vy d)); try lra; field. }
      rewrite B. set (S := sqrt (r * r - v * v * (h / 2 * (h / 2)))) in *. assert (S0 : 0 <= S) by apply sqrt_pos.
      assert (E : sqrt (- (2 * Y * (h / 2)) * - (2 * Y * (h / 2)) - 4 * (1 / 2 * h * (1 / 2 * h) - r * r)) = 2 * S).
      { replace (- (2 * Y * (h / 2)) * - (2 * Y * (h / 2)) - 4 * (1 / 2 * h * (1 / 2 * h) - r * r)) with (2 * 2 * (r * r - v * v * (h / 2 * (h / 2)))).
        - rewrite sqrt_mult; [|lra|exact D]. rewrite sqrt_square by lra. reflexivity.
        - pose proof vY as F. replace (v * v) with (1 - Y * Y) by lra. field. }
      rewrite E. rewrite Rmax_left by lra. replace ((- - (2 * Y * (h / 2)) + 2 * S) / 2) with (Y * (h / 2) + S) by field. exact L.
    - assert (C' : Y * r <= 1 / 2 * h * v) by lra. pose proof (side_v r h Hr Hh C') as Pv. unfold div_checked. destruct (Req_EM_T v 0) as [Z|Z]; [lra|]. eexists. split; [reflexivity|]. apply side_capsule; assumption.
  Qed.
  Lemma leaves_cylinder r h : 0 < r -> 0 <= h -> Rabs (vy d) * r <= h / 2 * sqrt (vx d * vx d + vz d * vz d) -> exists l, distance_from_center (Cylinder r h) d = Ok l /\ leaves_at (upright_cylinder r h) d l.
  Proof.
    intros Hr Hh H. cbn [distance_from_center]. cbv zeta. fold v in H |- *. fold Y in H |- *. destruct (Rlt_dec (1 / 2 * h * v) (Y * r)) as [C|C]; [lra|]. assert (C' : Y * r <= 1 / 2 * h * v) by lra. pose proof (side_v r h Hr Hh C') as Pv. unfold div_checked. destruct (Req_EM_T v 0) as [Z|Z]; [lra|]. eexists. split; [reflexivity|]. apply side_cylinder; assumption.
  Qed.
End Ray.
Lemma unit_nonzero d : unit_vec d -> d <> origin.
Proof. intros U ->. unfold unit_vec, dot, origin in U. cbn [vx vy vz] in U. lra. Qed.
Lemma distance_assembled d r h b : unit_vec d -> 0 < r -> 0 <= h -> 0 < vx b -> 0 < vy b -> 0 < vz b ->
  (exists l, distance_from_center (Sphere r) d = Ok l /\ leaves_at (ball r) d l) /\
  (exists l, distance_from_center (Box b) d = Ok l /\ leaves_at (block b) d l) /\
  (exists l, distance_from_center (Capsule r h) d = Ok l /\ leaves_at (upright_capsule r h) d l) /\
  (Rabs (vy d) * r <= h / 2 * sqrt (vx d * vx d + vz d * vz d) -> exists l, distance_from_center (Cylinder r h) d = Ok l /\ leaves_at (upright_cylinder r h) d l).
Proof.
  intros U Hr Hh X Y Z. split; [|split; [|split]].
  - exists r. split; [reflexivity|]. apply leaves_sphere; [lra|exact U].
  - apply leaves_box; try assumption. apply unit_nonzero, U.
  - apply leaves_capsule; assumption.
  - apply leaves_cylinder; assumption.
Qed.
Lemma surface_assembled s d l (S : vec3 -> Prop) : distance_from_center s d = Ok l -> leaves_at S d l -> exists p, intersection_from_center s d = Ok p /\ S p /\ forall t, l < t -> ~ S (times t d).
Proof.
  intros E (P & L). exists (times l d). unfold intersection_from_center. rewrite E. cbn [obind]. split; [f_equal; vec; ring|]. split; [apply L; lra|]. intros t Ht H. apply L in H; lra.
Qed.
Lemma cylinder_distance_refuted_assembled : exists r h d l, 0 < r /\ 0 < h /\ unit_vec d /\ distance_from_center (Cylinder r h) d = Ok l /\ ~ leaves_at (upright_cylinder r h) d l /\ leaves_at (upright_cylinder r h) d (5 / 4).
Proof.
  exists 2, 2, (Vec3 (3 / 5) (4 / 5) 0). assert (V : sqrt (3 / 5 * (3 / 5) + 0 * 0) = 3 / 5) by (replace (3 / 5 * (3 / 5) + 0 * 0) with (3 / 5 * (3 / 5)) by ring; apply sqrt_square; lra).
  cbn [distance_from_center vx vy vz]. cbv zeta. rewrite V, (Rabs_right (4 / 5)) by lra. destruct (Rlt_dec (1 / 2 * 2 * (3 / 5)) (4 / 5 * 2)) as [_|C]; [|lra]. eexists. split; [lra|]. split; [lra|]. split; [unfold unit_vec, dot; cbn [vx vy vz]; lra|]. split; [reflexivity|].
  assert (T : leaves_at (upright_cylinder 2 2) (Vec3 (3 / 5) (4 / 5) 0) (5 / 4)).
  { split; [lra|]. intros t Ht. unfold upright_cylinder, revolved, cylinder_profile, times. cbn [vx vy vz]. split; [lra|]. intros H. split; [lra|]. assert (t * t <= 5 / 4 * (5 / 4)) by (apply Rmult_le_compat; lra). lra. }
  clear V. split; [|exact T]. intros (_ & L). destruct T as (_ & T). set (l := sqrt _) in *. assert (l < 5 / 4). { apply Rsqr_incrst_0; [|apply sqrt_pos|lra]. unfold Rsqr, l. rewrite sqrt_sqrt by lra. lra. }
  assert (upright_cylinder 2 2 (times (5 / 4) (Vec3 (3 / 5) (4 / 5) 0))) by (apply T; lra). apply L in H0; lra.
Qed.
Lemma plane_assembled pos dir n t : dot dir (qrot (t_q t) n) <> 0 -> exists p, plane_intersection pos dir n t = Ok p /\ on_the_line pos dir p /\ dot (minus p (t_p t)) (qrot (t_q t) n) = 0 /\ forall p', on_the_line pos dir p' -> dot (minus p' (t_p t)) (qrot (t_q t) n) = 0 -> p' = p.
Proof.
  intros H. unfold plane_intersection. change dot_product with dot. cbv zeta. set (m := qrot (t_q t) n) in *. clearbody m. unfold div_checked. destruct (Req_EM_T (dot dir m) 0) as [Z|Z]; [contradiction|]. cbn [obind]. change vsub with minus. set (f := dot (minus pos (t_p t)) m / dot dir m). assert (F : f * dot dir m = dot (minus pos (t_p t)) m) by (unfold f; field; exact Z).
  assert (G : forall s, dot (minus (along pos dir s) (t_p t)) m = dot (minus pos (t_p t)) m + s * dot dir m) by (intros s; unfold along; generalize (t_p t); intros q; geo; ring).
  assert (A : minus pos (vscale f dir) = along pos dir (- f)) by (unfold along; vec; ring).
  exists (minus pos (vscale f dir)). split; [reflexivity|]. rewrite A. split; [eexists; reflexivity|]. split; [rewrite G; lra|]. intros p' (s & ->) E. rewrite G in E. f_equal. apply Rmult_eq_reg_r with (dot dir m); [lra|exact Z].
Qed.
Lemma centers_assembled r h t : unit_quat (t_q t) -> 0 <= h -> let '(a, b) := center_positions r h t in a = tf_apply t origin /\ b = tf_apply t (times h e_y) /\ apart a b = h.
Proof.
  intros U Hh. unfold center_positions. cbv beta iota zeta. destruct (axes_assembled (t_q t)) as (_ & Ly & _). rewrite Ly. split; [unfold tf_apply; vec; ring|]. split; [unfold tf_apply; f_equal; vec; ring|].
  destruct (rotation_assembled (t_q t) U) as (_ & _ & D & _). set (y := qrot (t_q t) e_y) in *. assert (Y1 : dot y y = 1) by (unfold y; rewrite D; geo; ring). clearbody y. unfold apart, norm. generalize (t_p t). intros q.
  replace (dot (minus q (vadd q (vscale h y))) (minus q (vadd q (vscale h y)))) with (h * h * dot y y) by (geo; ring). rewrite Y1, Rmult_1_r. apply sqrt_square, Hh.
Qed.
Lemma centers_refuted_assembled : exists r h t a b, unit_quat (t_q t) /\ 0 < r /\ 0 < h /\ center_positions r h t = (a, b) /\ times (1 / 2) (plus a b) <> t_p t.
Proof.
  exists 1, 1, (Tf origin qidentity). do 2 eexists. split; [apply unit_identity|]. split; [lra|]. split; [lra|]. split; [reflexivity|]. intros E. apply (f_equal vy) in E. unfold local_y_axis in E. cbn [t_p t_q] in E. geo. lra.
Qed.
Lemma unsupported_assembled largest r h n t d density :
  aabb_shape largest (Cylinder r h) t = Throw /\ aabb_shape largest (Capsule r h) t = Throw /\ aabb_shape largest (Cone r h) t = Throw /\ aabb_shape largest (Plane n) t = Throw /\
  dim (Plane n) = Throw /\ inertia (Cone r h) density = Throw /\ distance_from_center (Cone r h) d = Throw.
Proof. repeat split. Qed.
Definition cube_root (x : R) : R := if Rlt_dec 0 x then Rpower x (/ 3) else if Rlt_dec x 0 then - Rpower (- x) (/ 3) else 0.
Lemma third x : 0 < x -> Rpower x (/ 3) * Rpower x (/ 3) * Rpower x (/ 3) = x.
Proof. intros H. rewrite <- !Rpower_plus. replace (/ 3 + / 3 + / 3) with 1 by field. apply Rpower_1, H. Qed.
Lemma cube_root_ok x : cube_root x * cube_root x * cube_root x = x.
Proof.
  unfold cube_root. destruct (Rlt_dec 0 x) as [P|P]; [apply third, P|]. destruct (Rlt_dec x 0) as [Q|Q]; [|lra].
  transitivity (- (Rpower (- x) (/ 3) * Rpower (- x) (/ 3) * Rpower (- x) (/ 3))); [ring|]. rewrite third; lra.
Qed.
Lemma capsule_scaled_inertia_refuted_assembled : exists r h f density i j, 0 < r /\ 0 < h /\ 0 < f /\ inertia (Capsule r h) density = Ok i /\ inertia (scaled (Capsule r h) f) density = Ok j /\ j <> times (f * f * f * f * f) i.
Proof.
  exists 1, 1, 2, 1. do 2 eexists. split; [lra|]. split; [lra|]. split; [lra|]. split; [reflexivity|]. split; [reflexivity|]. intros E. apply (f_equal vx) in E. unfold times in E. cbn [vx] in E. pose proof PI_RGT_0. nra.
Qed.
