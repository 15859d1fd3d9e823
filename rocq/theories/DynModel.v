(** Models of /repo/xo/geometry/dynvec.h, dynmat.h, vec4.h and scale3.h, over real numbers. A dynvec is the list its dynarray holds (ArrModel). *)
From Coq Require Import List Arith Bool Reals Lra.
From Verif Require Import Base NumModel StatModel GeoSpec GeoModel DynSpec.
Import ListNotations.
Local Open Scope R_scope.

Definition dynvec := list R.

(** squared_length(), length(), is_null(), dynvec.h 42-44. *)
Fixpoint sq_loop (v : dynvec) (sum : R) : R := match v with [] => sum | e :: r => sq_loop r (sum + e * e) end.
Definition squared_length (v : dynvec) : R := sq_loop v 0.
Definition length_dv (v : dynvec) : R := sqrt (squared_length v).
Fixpoint is_null (v : dynvec) : bool := match v with [] => true | e :: r => if Reqb e 0 then is_null r else false end.

(** operator==, dynvec.h 54-60: throws for different sizes. [n] counts the indices left. *)
Fixpoint dv_eq_loop (v1 v2 : dynvec) (n i : nat) : outcome bool :=
  match n with
  | O => Ok true
  | S m => do a <- vec_get v1 i; do b <- vec_get v2 i; if Reqb a b then dv_eq_loop v1 v2 m (S i) else Ok false
  end.
Definition dv_eq (v1 v2 : dynvec) : outcome bool := if (length v1 =? length v2)%nat then dv_eq_loop v1 v2 (length v1) 0 else Throw.

(** operator+, 65-72, operator-, 83-90: a new vector of zeros is filled index by index. *)
Definition dv_zip (op : R -> R -> R) (v1 v2 : dynvec) : outcome dynvec :=
  if (length v1 =? length v2)%nat then
    ofor_up (length v1) 0 (fun i r => do a <- vec_get v1 i; do b <- vec_get v2 i; vec_set r i (op a b)) (repeat 0 (length v1))
  else Throw.
Definition dv_add := dv_zip Rplus.
Definition dv_sub := dv_zip Rminus.
(** operator+=, 74-80, operator-=, 92-98: the first vector is changed in place. *)
Definition dv_zip_in (op : R -> R -> R) (v1 v2 : dynvec) : outcome dynvec :=
  if (length v1 =? length v2)%nat then
    ofor_up (length v1) 0 (fun i r => do a <- vec_get r i; do b <- vec_get v2 i; vec_set r i (op a b)) v1
  else Throw.
Definition dv_add_in := dv_zip_in Rplus.
Definition dv_sub_in := dv_zip_in Rminus.
(** [v += v], where both are the same vector *)
Definition dv_add_self (v : dynvec) : outcome dynvec :=
  ofor_up (length v) 0 (fun i r => do a <- vec_get r i; do b <- vec_get r i; vec_set r i (a + b)) v.

(** negation, 101; scalar multiplication, 104-106; division by multiplying with 1 / s, 109-110, math.h 20. *)
Definition dv_neg (v : dynvec) : dynvec := map (fun e => - e) v.
Definition dv_scale (s : R) (v : dynvec) : dynvec := map (fun e => e * s) v.
Definition dv_div (v : dynvec) (s : R) : outcome dynvec := do ms <- div_checked 1 s; Ok (dv_scale ms v).

(** distance, 116-123; dot_product, 130-137. *)
Definition dv_sum (f : R -> R -> R) (v1 v2 : dynvec) : outcome R :=
  if (length v1 =? length v2)%nat then
    ofor_up (length v1) 0 (fun i sum => do a <- vec_get v1 i; do b <- vec_get v2 i; Ok (sum + f a b)) 0
  else Throw.
Definition dv_distance (v1 v2 : dynvec) : outcome R := do sum <- dv_sum (fun a b => (a - b) * (a - b)) v1 v2; Ok (sqrt sum).
Definition dv_dot : dynvec -> dynvec -> outcome R := dv_sum Rmult.

(** normalize, 126-127: returns the old length; [epsilon] is num<T>::epsilon. *)
Definition dv_normalize (epsilon : R) (v : dynvec) : outcome (dynvec * R) :=
  let l := length_dv v in if Rlt_dec epsilon l then (do v' <- dv_div v l; Ok (v', l)) else Ok (v, l).

(** dynmat.h 13-49: number of columns and elements row by row. *)
Section Mat.
Context {T : Type} (dflt : T).
Record dynmat := Mat { m_cols : nat; m_data : list T }.
Definition mat_new (cols rows : nat) (v : T) : dynmat := Mat cols (repeat v (rows * cols)).
(** operator( col, row ), 19-20 *)
Definition mat_get (m : dynmat) (col row : nat) : outcome T := vec_get (m_data m) (row * m_cols m + col).
Definition mat_set (m : dynmat) (col row : nat) (v : T) : outcome dynmat := do d <- vec_set (m_data m) (row * m_cols m + col) v; Ok (Mat (m_cols m) d).
(** empty, clear, cols, rows, 32-36 *)
Definition mat_empty (m : dynmat) : bool := match m_data m with [] => true | _ => false end.
Definition mat_clear (m : dynmat) : dynmat := Mat 0 [].
Definition mat_rows (m : dynmat) : nat := if mat_empty m then 0 else length (m_data m) / m_cols m.
(** resize, 22-30. The loop counters are of type int: sizes are taken to be below 2^31. *)
Definition mat_resize (m : dynmat) (newcols newrows : nat) : outcome dynmat :=
  let newmat := mat_new newcols newrows dflt in
  let rmin := Nat.min (mat_rows m) newrows in
  let cmin := Nat.min (m_cols m) newcols in
  ofor_up rmin 0 (fun r nm => ofor_up cmin 0 (fun c nm => do x <- mat_get m c r; mat_set nm c r x) nm) newmat.
End Mat.
Arguments dynmat : clear implicits.

(** A table of [rows] rows of [cols] elements; its element in a column and row. *)
Definition shaped {T} (m : dynmat T) (cols rows : nat) : Prop := m_cols m = cols /\ length (m_data m) = (rows * cols)%nat.
Definition entry (m : dynmat R) (col row : nat) : R := comp (m_data m) (row * m_cols m + col).

(** matrix times vector, dynmat.h 51-63. The code says flut_assert, which is not defined in the library, so using this operator does not compile;
    modelled as if it were xo_assert. The accessor takes ( col, row ) but is given ( row, col ). *)
Definition mat_times_dv (m : dynmat R) (v : dynvec) : outcome dynvec :=
  if (m_cols m =? length v)%nat then
    ofor_up (mat_rows m) 0 (fun row r =>
      do sum <- ofor_up (m_cols m) 0 (fun col sum => do a <- mat_get m row col; do b <- vec_get v col; Ok (sum + a * b)) 0;
      vec_set r row sum) (repeat 0 (mat_rows m))
  else Throw.

(** vec4.h 9-13, 19-20, 23-24, 27-34, 37-41; vec4_type.h 23-24. Binary minus, 16-17, calls a constructor that does not exist, so it has no model. *)
Definition v4_add (v1 v2 : vec4) : vec4 := Vec4 (x4 v1 + x4 v2) (y4 v1 + y4 v2) (z4 v1 + z4 v2) (w4 v1 + w4 v2).
Definition v4_sub_in (v1 v2 : vec4) : vec4 := Vec4 (x4 v1 - x4 v2) (y4 v1 - y4 v2) (z4 v1 - z4 v2) (w4 v1).
Definition v4_neg (v : vec4) : vec4 := Vec4 (- x4 v) (- y4 v) (- z4 v) (w4 v).
Definition v4_scale (s : R) (v : vec4) : vec4 := Vec4 (x4 v * s) (y4 v * s) (z4 v * s) (w4 v).
Definition v4_div (v : vec4) (s : R) : outcome vec4 := do ms <- div_checked 1 s; Ok (Vec4 (x4 v * ms) (y4 v * ms) (z4 v * ms) (w4 v)).
Definition v4_squared_length (v : vec4) : R := x4 v * x4 v + y4 v * y4 v + z4 v * z4 v + w4 v * w4 v.

(** scale3.h 42-61: a scale is a vec3 of factors. *)
Definition sc_mul (s v : vec3) : vec3 := Vec3 (vx s * vx v) (vy s * vy v) (vz s * vz v).
Definition sc_div (v s : vec3) : outcome vec3 := do x <- div_checked (vx v) (vx s); do y <- div_checked (vy v) (vy s); do z <- div_checked (vz v) (vz s); Ok (Vec3 x y z).
(** scale3.h 12-16, 28, 35-36 *)
Definition sc_one : vec3 := Vec3 1 1 1.
Definition sc_uniform (v : R) : vec3 := Vec3 v v v.
Definition sc_is_one (s : vec3) : bool := Reqb (vx s) 1 && Reqb (vy s) 1 && Reqb (vz s) 1.
