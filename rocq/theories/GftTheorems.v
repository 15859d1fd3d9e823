(** Theorems about floating-point numbers saved in property trees, texts and files: vectors, rotations, lists, bounds and shapes. *)
From Coq Require Import Ascii String List Arith Bool NArith ZArith Reals SpecFloat Lia Lra.
From Verif Require Import Base BaseProofs SerModel SerTheorems Str StrBase StrSpec StrModel CastSpec PnSpec PnModel ZmlSpec GpnSpec GpnModel GpnProofs EulSpec FltSpec FltModel FltNum FltTheorems TblNum GftSpec GftModel GftNum GftProofs GftFile.
Import ListNotations.

(** the number 3/2, 1/4 and the number nearest to 1/3 as floats *)
Definition f_3_2 : spec_float := S754_finite false 12582912 (-23).
Definition f_1_4 : spec_float := S754_finite false 8388608 (-25).
Definition f_1_3 : spec_float := S754_finite false 11184811 (-25).

(** ** C187: vectors, rotations and lists of numbers *)
(** a vector written as a tree or as a text is read as a vector that differs in no coordinate by more than a hundred-thousandth, with the same signs; coordinates of six digits are unchanged *)
Theorem C187_vec (f : format) (v : triple spec_float) : cpp_type f -> typed_triple f v ->
  (exists w, read_vec f (vec_tree v) = Ok (Some w) /\ kept_triple f v w) /\ exists w, read_vec f (pn_of_value (vec_text v)) = Ok (Some w) /\ kept_triple f v w.
Proof. intros T V. split; [apply vec_read; [exact T|exact V|apply PnProofs2.same_refl]|apply vec_text_read; assumption]. Qed.
Print Assumptions C187_vec.
Example C187_vec_case : typed_triple f_float (T3 f_3_2 (S754_zero true) f_1_3) /\ vec_text (T3 f_3_2 (S754_zero true) f_1_3) = lit "1.5 -0 0.333333" /\
  read_vec f_float (pn_of_value (vec_text (T3 f_3_2 (S754_zero true) f_1_3))) = Ok (Some (T3 f_3_2 (S754_zero true) (S754_finite false 11184799 (-25)))).
Proof. repeat split; vm_compute; reflexivity. Qed.
(** the same for the four numbers of a rotation, whatever the conversion from angles does *)
Theorem C187_quat (f : format) (order_from : str -> option euler_order) (from_euler : triple spec_float -> euler_order -> quad spec_float) (q : quad spec_float) : cpp_type f -> typed_quad f q ->
  exists p, quat_from_pn (float_from f) order_from from_euler (quat_tree q) = Ok (Some p) /\ kept_quad f q p.
Proof. intros T Q. apply quat_read; [exact T|exact Q|apply PnProofs2.same_refl]. Qed.
Print Assumptions C187_quat.
Example C187_quat_case : typed_quad f_float (T4 f_3_2 f_1_4 f_1_3 (S754_zero false)). Proof. repeat split. Qed.
(** and for a list of any length *)
Theorem C187_list (f : format) (l : list spec_float) : cpp_type f -> Forall (of_format f) l ->
  exists m, read_numbers f (numbers_tree l) = Ok (Some m) /\ Forall2 (kept f) l m.
Proof. intros T L. exists (map (read_back f) l). split; [apply numbers_read; [exact T|exact L|apply PnProofs2.same_refl]|apply numbers_kept; assumption]. Qed.
Print Assumptions C187_list.
Example C187_list_case : Forall (of_format f_double) [half; third; S754_infinity true; S754_nan] /\
  read_numbers f_double (numbers_tree [half; third; S754_infinity true; S754_nan]) = Ok (Some [half; S754_finite false 6004793498361158 (-54); S754_infinity true; S754_nan]).
Proof. split; [repeat constructor|vm_compute; reflexivity]. Qed.
(** not every vector comes back exactly *)
Theorem C187_exact_refuted : ~ (forall v, typed_triple f_float v -> read_vec f_float (vec_tree v) = Ok (Some v)).
Proof. intros H. specialize (H (T3 f_1_3 f_1_3 f_1_3) ltac:(repeat split)). vm_compute in H. discriminate. Qed.
Print Assumptions C187_exact_refuted.

(** ** C188: bounds *)
(** bounds written as a text are read as bounds that are as close, though the two points follow the first number directly *)
Theorem C188_bounds (f : format) (a b : spec_float) : cpp_type f -> of_format f a -> of_format f b ->
  exists a' b', read_bounds f (bounds_text (a, b)) = Ok (Some (a', b')) /\ kept f a a' /\ kept f b b'.
Proof. intros T A B. exists (read_back f a), (read_back f b). split; [apply bounds_read; assumption|]. split; apply kept_read; assumption. Qed.
Print Assumptions C188_bounds.
Example C188_bounds_case : bounds_text (S754_finite true 8388608 (-23), f_1_3) = lit "-1..0.333333" /\ of_format f_float (S754_finite true 8388608 (-23)) /\ of_format f_float f_1_3.
Proof. vm_compute. auto. Qed.
(** a number that is within the bounds is still within them when all three were written and read *)
Theorem C188_within (f : format) (a x b : spec_float) : cpp_type f -> of_format f a -> of_format f x -> of_format f b -> finite a -> finite x -> finite b -> (value a <= value x <= value b)%R ->
  exists a' x' b', read_bounds f (bounds_text (a, b)) = Ok (Some (a', b')) /\ read_bounds f (to_str_float x) = Ok (Some (x', x')) /\ float_from f (to_str_float x) = Some x' /\ (value a' <= value x' <= value b')%R.
Proof.
  intros T A X B FA FX FB [L1 L2]. exists (read_back f a), (read_back f x), (read_back f b). split; [apply bounds_read; assumption|]. split; [apply single_read; assumption|]. split; [apply kept_read; assumption|].
  split; apply kept_order; assumption.
Qed.
Print Assumptions C188_within.
Example C188_within_case : (value f_1_4 <= value f_1_3 <= value f_3_2)%R.
Proof. unfold value, f_1_4, f_1_3, f_3_2. rewrite !p2. cbn. lra. Qed.
(** but not when only the bounds were *)
Theorem C188_within_refuted : ~ (forall x, of_format f_float x -> finite x -> forall a' b', read_bounds f_float (bounds_text (f_1_4, x)) = Ok (Some (a', b')) -> (value x <= value b')%R).
Proof.
  intros H. specialize (H f_1_3 eq_refl I f_1_4 (S754_finite false 11184799 (-25))). assert (E : read_bounds f_float (bounds_text (f_1_4, f_1_3)) = Ok (Some (f_1_4, S754_finite false 11184799 (-25)))) by (vm_compute; reflexivity).
  specialize (H E). unfold value, f_1_3 in H. rewrite p2 in H. cbn in H. lra.
Qed.
Print Assumptions C188_within_refuted.
(** bounds that were typed are read as the nearest numbers, unless the first number ends in a point *)
Theorem C188_typed (f : format) (s t : str) (sgn sgn' : Z) (v w : R) : cpp_type f -> decimal_text s sgn v -> decimal_text t sgn' w -> last s nul <> "."%char ->
  exists a b, read_bounds f (s ++ lit ".." ++ t) = Ok (Some (a, b)) /\ nearest f v a /\ negative a = (sgn <? 0)%Z /\ nearest f w b /\ negative b = (sgn' <? 0)%Z.
Proof.
  intros T S W L. destruct (C138_decimal f [] s [] sgn v T (Forall_nil _) S I) as (A1 & A2 & A3). destruct (C138_decimal f [] t [] sgn' w T (Forall_nil _) W I) as (B1 & B2 & B3). cbn [app] in *. rewrite app_nil_r in *.
  exists (fst (from_str_float f s)), (fst (from_str_float f t)). split; [|auto]. unfold read_bounds, bounds_from_str, float_from. rewrite (read_dots f s sgn v t S).
  destruct (from_str_float f s) as [a ok]. cbn [fst snd] in *. subst ok. rewrite (proj2 (find_some (s ++ lit ".." ++ t) (lit "..") 0 (length s))) by (apply one_dot_first, (decimal_one_dot s sgn v S L)).
  unfold substr. rewrite !app_length. replace (_ <=? _)%nat with true by (symmetry; apply Nat.leb_le; cbn; lia). cbn [obind].
  replace (skipn (length s + 2) (s ++ lit ".." ++ t)) with t by (rewrite app_assoc; replace (length s + 2)%nat with (length (s ++ lit "..")) by (rewrite app_length; reflexivity); symmetry; apply skipn_length_app).
  destruct (from_str_float f t) as [b ok]. cbn [fst snd] in *. subst ok. reflexivity.
Qed.
Print Assumptions C188_typed.
Example C188_typed_case : decimal_text (lit "-1.5e+1") (-1) 15 /\ last (lit "-1.5e+1") nul <> "."%char /\ read_bounds f_float (lit "-1.5e+1..2") = Ok (Some (S754_finite true 15728640 (-20), S754_finite false 8388608 (-22))).
Proof. split; [exact C138_decimal_hyp|]. split; [discriminate|vm_compute; reflexivity]. Qed.
Theorem C188_typed_point_refuted : read_bounds f_float (lit "1." ++ lit ".." ++ lit "5") = Ok (Some (S754_finite false 8388608 (-23), S754_finite false 8388608 (-24))).
Proof. vm_compute. reflexivity. Qed.
Print Assumptions C188_typed_point_refuted.

(** ** C189: shapes *)
(** a shape is read as a shape of the same kind with the same dimensions up to six digits; twice the half sizes of a box must be within the range of the type *)
Theorem C189_shape (s : shape spec_float) : typed_shape f_float s -> exists s', read_shape (shape_tree s) = Ok (Some s') /\ kept_shape f_float s s'.
Proof. intros D. apply shape_kept; [exact D|apply PnProofs2.same_refl]. Qed.
Print Assumptions C189_shape.
Example C189_shape_case : typed_shape f_float (Box (T3 f_3_2 f_1_4 f_1_3)) /\ read_shape (shape_tree (Box (T3 f_3_2 f_1_4 f_1_3))) = Ok (Some (Box (T3 f_3_2 f_1_4 (S754_finite false 11184816 (-25))))) /\ typed_shape f_float (Capsule f_3_2 f_1_3).
Proof.
  assert (L : forall x, (Rabs (2 * x) <= 4)%R -> (Rabs (2 * x) < powerRZ 2 (top f_float))%R).
  { intros x Q. eapply Rle_lt_trans; [exact Q|]. rewrite p2. change 4%R with (Raux.bpow Zaux.radix2 2). apply Raux.bpow_lt. reflexivity. }
  assert (B : forall x, (0 <= x <= 2)%R -> (Rabs (2 * x) <= 4)%R) by (intros x Q; rewrite Rabs_pos_eq; lra).
  split; [|split; [vm_compute; reflexivity|split; reflexivity]].
  split; [|split]; (split; [reflexivity|]; split; [exact I|]; apply L, B; cbn [t_x t_y t_z]; unfold value, f_3_2, f_1_4, f_1_3; rewrite p2; cbn; lra).
Qed.
(** a larger box is written with infinite sizes *)
Theorem C189_large_refuted : exists h, of_format f_float h /\ finite h /\ read_shape (shape_tree (Box (T3 h h h))) = Ok (Some (Box (T3 (S754_infinity false) (S754_infinity false) (S754_infinity false)))).
Proof. exists (S754_finite false 8388608 104). split; [reflexivity|]. split; [exact I|vm_compute; reflexivity]. Qed.
Print Assumptions C189_large_refuted.

(** ** C190: files *)
(** saving as a ZML file succeeds and changes no other file; whatever was saved is read from the tree that any later load gives *)
Definition file_keeps {V : Type} (d : disk) (p : str) (t : pn) (ec : ecptr) (read : pn -> outcome (option V)) (good : V -> Prop) : Prop :=
  exists d', save_file d t (p ++ lit ".zml") ec = (d', Ok (saved ec, ec)) /\ (forall n, n <> p ++ lit ".zml" -> contents d' n = contents d n) /\
    exists t' v, (forall depth ec', load_file d' depth (p ++ lit ".zml") ec' = Ok (t', ec')) /\ read t' = Ok (Some v) /\ good v.
Lemma file_kept {V : Type} d p t ec (read : pn -> outcome (option V)) good : tree_ok true t = true -> can_write d (p ++ lit ".zml") = true ->
  (forall u, same_tree t u -> exists v, read u = Ok (Some v) /\ good v) -> file_keeps d p t ec read good.
Proof.
  intros K W R. destruct (C150_zml_file d p t ec K W) as (d' & S & O & t' & ST & L). exists d'. split; [exact S|]. split; [exact O|]. destruct (R t' ST) as (v & E & G). exists t', v. auto.
Qed.
Theorem C190_vec_file (d : disk) (p : str) (f : format) (v : triple spec_float) (ec : ecptr) : cpp_type f -> typed_triple f v -> can_write d (p ++ lit ".zml") = true ->
  file_keeps d p (vec_tree v) ec (read_vec f) (kept_triple f v).
Proof. intros T V W. apply file_kept; [apply (vec_node f T v V)|exact W|]. intros u S. apply vec_read; assumption. Qed.
Print Assumptions C190_vec_file.
Theorem C190_shape_file (d : disk) (p : str) (s : shape spec_float) (ec : ecptr) : typed_shape f_float s -> can_write d (p ++ lit ".zml") = true ->
  file_keeps d p (shape_tree s) ec read_shape (kept_shape f_float s).
Proof. intros D W. apply file_kept; [apply shape_node, D|exact W|]. intros u S. apply shape_kept; assumption. Qed.
Print Assumptions C190_shape_file.
(** a list under any key that ZML can represent *)
Theorem C190_list_file (d : disk) (p k : str) (f : format) (l : list spec_float) (ec : ecptr) : cpp_type f -> Forall (of_format f) l -> label_ok k = true -> can_write d (p ++ lit ".zml") = true ->
  file_keeps d p (PN [] [(k, numbers_tree l)] false) ec (fun t => do m <- get_as_key (read_numbers f) t k; Ok (Some m)) (Forall2 (kept f) l).
Proof.
  intros T L K W. apply file_kept; [|exact W|].
  - cbn [tree_ok forallb fst snd]. rewrite K, (numbers_node f T l L). reflexivity.
  - intros u S. exists (map (read_back f) l). split; [|apply numbers_kept; assumption]. destruct (same_child _ _ k _ S (child_is_hd k (numbers_tree l) [] false [])) as (c & C & Sc).
    rewrite (proj2 (get_as_key_ok (read_numbers f) u k (map (read_back f) l))); [reflexivity|]. exists c. split; [exact C|]. apply numbers_read; assumption.
Qed.
Print Assumptions C190_list_file.
Example C190_case : label_ok (lit "data") = true /\
  let '(d', o) := save_file (one (lit "old.zml") (lit "x = 1")) (PN [] [(lit "data", numbers_tree [f_3_2; f_1_3])] false) (lit "new.zml") None in
  o = Ok (true, None) /\ contents d' (lit "new.zml") <> None /\
  match load_file d' 9 (lit "new.zml") None with Ok (t, _) => get_as_key (read_numbers f_float) t (lit "data") = Ok [f_3_2; S754_finite false 11184799 (-25)] | _ => False end.
Proof. vm_compute. split; [reflexivity|]. split; [reflexivity|]. split; [discriminate|reflexivity]. Qed.
