(** Lemmas about trees of numbers: reading what was written, also after the tree was saved and loaded. *)
From Coq Require Import Ascii String List Arith Bool NArith ZArith Reals SpecFloat Lia Lra.
From Flocq Require Import Core.
From Verif Require Import Base BaseProofs Str StrBase StrSpec StrModel StrProofs CastSpec CastModel CastProofs PnSpec PnModel PnProofs2 TokSpec ZmlSpec GpnSpec GpnModel GpnProofs FltSpec FltModel FltNum FltText FltProofs FltRead TblNum FltTheorems GftSpec GftModel GftNum.
Import ListNotations.

(** ** the same tree, as far as keys and values go *)
Lemma same_child t u k c : same_tree t u -> child_is t k c -> exists d, child_is u k d /\ same_tree c d.
Proof.
  intros S (i & [K1 K2] & E). destruct (same_keys t u S) as [Q _]. inversion S as [v cs1 cs2 a1 a2 F Q1 Q2]; subst. cbn [pn_children] in *. unfold child_is, first_child, pn_keys in *. cbn [pn_children] in *.
  assert (G : exists kd, nth_error cs2 i = Some kd /\ k = fst kd /\ same_tree c (snd kd)).
  { clear -F E. revert i E. induction F as [|x y cs1 cs2 [H1 H2] F IH]; intros i E; [destruct i; discriminate|]. destruct i as [|i]; cbn [nth_error] in *; [injection E as ->; exists y; auto|apply IH; exact E]. }
  destruct G as ([k' d] & E' & Ek & Sd). cbn [fst snd] in *. subst k'. exists d. split; [|exact Sd]. exists i. split; [|exact E']. rewrite <- Q. split; assumption.
Qed.
Lemma same_value t u : same_tree t u -> pn_value t = pn_value u. Proof. intros S. apply same_keys in S. tauto. Qed.
Lemma same_length t u : same_tree t u -> length (pn_children t) = length (pn_children u).
Proof. intros S. apply same_keys in S. destruct S as [S _]. unfold pn_keys in S. rewrite <- (map_length fst (pn_children t)), S, map_length. reflexivity. Qed.
Section Same.
  Context {T : Type} (from_str : str -> option T).
  Lemma same_num t u k x : same_tree t u -> num_at from_str t k x -> num_at from_str u k x.
  Proof. intros S (c & C & E). destruct (same_child t u k c S C) as (d & D & Sd). exists d. split; [exact D|]. rewrite <- (same_value _ _ Sd). exact E. Qed.
  Lemma same_group t u v : same_tree t u -> describes_group from_str t v -> describes_group from_str u v.
  Proof. intros S (L & A & B & C). rewrite (same_length t u S) in L. split; [exact L|]. split; [|split]; eapply same_num; eauto. Qed.
  Lemma same_four t u q : same_tree t u -> describes_four from_str t q -> describes_four from_str u q.
  Proof. intros S (L & A & B & C & D). rewrite (same_length t u S) in L. split; [exact L|]. split; [|split; [|split]]; eapply same_num; eauto. Qed.
  Lemma same_list t u (l : list T) : same_tree t u -> list_from_pn (num_from_pn from_str) t = Ok (Some l) -> list_from_pn (num_from_pn from_str) u = Ok (Some l).
  Proof.
    intros S H. unfold list_from_pn in *. rewrite list_loop_ok in *. inversion S as [v cs1 cs2 a1 a2 F Q1 Q2]; subst. cbn [pn_children] in *. clear S. revert l H. induction F as [|x y cs1 cs2 [_ Sx] F IH]; intros l H; inversion H; subst; constructor.
    - unfold num_from_pn in *. rewrite <- (same_value _ _ Sx). assumption.
    - apply IH. assumption.
  Qed.
End Same.

(** ** what is read *)
Section Read.
  Context (f : format) (T : cpp_type f).
  Notation rb := (read_back f).
  Notation from := (float_from f).
  Lemma number_at t k x : of_format f x -> child_is t k (num_to_pn to_str_float x) -> num_at from t k (rb x).
  Proof. intros X C. exists (num_to_pn to_str_float x). split; [exact C|]. exact (proj1 (kept_read f x T X)). Qed.
  Ltac child := repeat (apply child_is_tl; [discriminate|]); apply child_is_hd.
  Lemma vec_group v : typed_triple f v -> describes_group from (vec_tree v) (map3 rb v).
  Proof.
    intros (X & Y & Z). unfold vec_tree. rewrite vec_to_pn_eq. split; [reflexivity|]. split; [|split]; (apply number_at; [assumption|]); child.
  Qed.
  Lemma quat_group q : typed_quad f q -> describes_four from (quat_tree q) (T4 (rb (q_w q)) (rb (q_x q)) (rb (q_y q)) (rb (q_z q))).
  Proof.
    intros (W & X & Y & Z). unfold quat_tree. rewrite quat_to_pn_eq. split; [reflexivity|]. split; [|split; [|split]]; (apply number_at; [assumption|]); child.
  Qed.
  Lemma kept_map3 v : typed_triple f v -> kept_triple f v (map3 rb v).
  Proof. intros (X & Y & Z). split; [|split]; apply kept_read; assumption. Qed.
  Lemma vec_read v u : typed_triple f v -> same_tree (vec_tree v) u -> exists w, read_vec f u = Ok (Some w) /\ kept_triple f v w.
  Proof. intros V S. exists (map3 rb v). split; [|apply kept_map3; exact V]. apply vec_from_ok. right. left. apply (same_group from _ _ _ S), vec_group, V. Qed.
  Lemma number_word x : of_format f x -> to_str_float x <> [] /\ Forall (fun c => ~ is_space_char c /\ c <> nul) (to_str_float x).
  Proof.
    intros X. assert (W := cpp_writable f T). rewrite <- (print_g_text f x W X). split; [|exact (written_no_space f x W X)]. destruct (written_head f x W X) as (c & t & -> & _). discriminate.
  Qed.
  Lemma vec_text_read v : typed_triple f v -> exists w, read_vec f (pn_of_value (vec_text v)) = Ok (Some w) /\ kept_triple f v w.
  Proof.
    intros V. exists (map3 rb v). split; [|apply kept_map3; exact V]. apply vec_from_ok. right. right. split; [reflexivity|]. destruct V as (X & Y & Z).
    exists (to_str_float (t_x v)), (to_str_float (t_y v)), (to_str_float (t_z v)). split; [|split; [|split]; apply kept_read; assumption]. apply (split_str_iff _ _ _ blanks_no_nul).
    change (pn_value (pn_of_value (vec_text v))) with (join (lit " ") [to_str_float (t_x v); to_str_float (t_y v); to_str_float (t_z v)]).
    assert (B : forall x, of_format f x -> Forall (fun c => ~ one_of (lit " " ++ [tab]) c) (to_str_float x)).
    { intros x Q. destruct (number_word x Q) as [_ W]. eapply Forall_impl; [|exact W]. intros c [C _] [E|[E|[]]]; apply C; subst c; cbn; tauto. }
    apply split_join; [exact blanks_no_nul|discriminate| |].
    - constructor; [|constructor]. left. reflexivity.
    - repeat constructor; (split; [apply number_word; assumption|apply B; assumption]) || apply number_word || apply B; assumption.
  Qed.
  Lemma quat_read order_from from_euler q u : typed_quad f q -> same_tree (quat_tree q) u -> exists p, quat_from_pn from order_from from_euler u = Ok (Some p) /\ kept_quad f q p.
  Proof.
    intros Q S. exists (T4 (rb (q_w q)) (rb (q_x q)) (rb (q_y q)) (rb (q_z q))). split; [apply quat_from_ok; left; apply (same_four from _ _ _ S), quat_group, Q|]. destruct Q as (W & X & Y & Z). split; [|split; [|split]]; apply kept_read; assumption.
  Qed.
  Lemma bounds_read a b : of_format f a -> of_format f b -> read_bounds f (bounds_text (a, b)) = Ok (Some (rb a, rb b)).
  Proof.
    intros A B. unfold read_bounds, bounds_text, bounds_from_str, bounds_to_str. cbn [fst snd]. rewrite (written_dots f a (to_str_float b) T A). rewrite (proj1 (kept_read f a T A)).
    rewrite (proj2 (find_some (to_str_float a ++ lit ".." ++ to_str_float b) (lit "..") 0 (length (to_str_float a)))) by (apply one_dot_first, (written_one_dot f a T A)).
    unfold substr. rewrite !app_length. replace (_ <=? _)%nat with true by (symmetry; apply Nat.leb_le; cbn; lia). cbn [obind].
    replace (skipn (length (to_str_float a) + 2) (to_str_float a ++ lit ".." ++ to_str_float b)) with (to_str_float b); [rewrite (proj1 (kept_read f b T B)); reflexivity|].
    rewrite app_assoc. replace (length (to_str_float a) + 2)%nat with (length (to_str_float a ++ lit "..")) by (rewrite app_length; reflexivity). symmetry. apply skipn_length_app.
  Qed.
  Lemma single_read a : of_format f a -> read_bounds f (to_str_float a) = Ok (Some (rb a, rb a)).
  Proof. intros A. unfold read_bounds, bounds_from_str. rewrite (proj1 (kept_read f a T A)), one_dot_none by exact (written_one_dot f a T A). reflexivity. Qed.
  Lemma numbers_read l u : Forall (of_format f) l -> same_tree (numbers_tree l) u -> read_numbers f u = Ok (Some (map rb l)).
  Proof.
    intros L S. apply (same_list from _ _ _ S). unfold list_from_pn, numbers_tree, list_to_pn. rewrite fold_add. cbn [pn_children pn_empty app]. apply list_loop_ok. clear S.
    induction L as [|x l X L IH]; cbn [map]; constructor; [|exact IH]. cbn [snd]. unfold num_from_pn, num_to_pn. cbn [pn_value pn_of_value]. rewrite (proj1 (kept_read f x T X)). reflexivity.
  Qed.
  Lemma numbers_kept l : Forall (of_format f) l -> Forall2 (kept f) l (map rb l).
  Proof. induction 1 as [|x l X L IH]; cbn [map]; constructor; [apply kept_read; assumption|exact IH]. Qed.
End Read.

(** ** shapes *)
Lemma half_kept x : can_double f_float x -> kept_half f_float x (times_half f_float (read_back f_float (times_two f_float x))).
Proof.
  intros D. assert (T : cpp_type f_float) by (right; reflexivity). destruct (doubled f_float usable_float x D) as (A & B & C & _). destruct (kept_read f_float _ T A) as [_ (K1 & K2 & K3)].
  destruct (K2 B) as (K4 & K5 & K6). set (d := read_back f_float (times_two f_float x)) in *. destruct (halved_num f_float usable_float d K1 K4) as (H1 & H2 & H3 & _).
  pose proof (halved_error f_float usable_float (value d) (value_format f_float d K1)) as E. rewrite <- H3 in E. rewrite C in K6. split; [exact H1|]. split; [exact H2|]. split.
  - rewrite Rabs_mult, (Rabs_pos_eq 2) in K6 by lra. rewrite p2. set (b := bpow radix2 (bottom f_float)) in *. replace (value (times_half f_float d) - value x)%R with ((value (times_half f_float d) - / 2 * value d) + / 2 * (value d - 2 * value x))%R by lra.
    eapply Rle_trans; [apply Rabs_triang|]. rewrite (Rabs_mult (/ 2)), (Rabs_pos_eq (/ 2)) by lra. lra.
  - intros S. assert (Q : d = times_two f_float x) by (apply K3; intros _; rewrite C; exact S). rewrite H3, Q, C. replace (/ 2 * (2 * value x))%R with (value x) by lra. unfold rnd2. destruct D as (D1 & _). apply round_generic; [apply valid_rnd_N|]. apply value_format, D1.
Qed.
Section Shapes.
  Let T : cpp_type f_float := or_intror eq_refl.
  Notation rb := (read_back f_float).
  Notation from := (float_from f_float).
  Ltac child := repeat (apply child_is_tl; [discriminate|]); apply child_is_hd.
  Lemma shape_kept s u : typed_shape f_float s -> same_tree (shape_tree s) u -> exists s', read_shape u = Ok (Some s') /\ kept_shape f_float s s'.
  Proof.
    intros D S. assert (TY : exists c, child_is u (lit "type") c /\ pn_value c = shape_name s).
    { assert (C : child_is (shape_tree s) (lit "type") (pn_of_value (shape_name s))) by (destruct s; apply child_is_hd). destruct (same_child _ _ _ _ S C) as (d & C' & Sd). exists d. split; [exact C'|]. rewrite <- (same_value _ _ Sd). reflexivity. }
    destruct TY as (c & TY & TN). assert (NUM : forall k x, of_format f_float x -> child_is (shape_tree s) k (num_to_pn to_str_float x) -> num_at from u k (rb x)) by (intros k x X C; apply (same_num from _ _ _ _ S), number_at; assumption).
    assert (R : forall s', pn_value c = shape_name s' -> dimensions from (times_half f_float) (times_two f_float) (minus f_float) (unit_x f_float) u s' -> read_shape u = Ok (Some s')).
    { intros s' N Q. apply (shape_read (fun _ => []) from (times_half f_float) (times_two f_float) (minus f_float) (unit_x f_float) u c s' TY N). exact Q. }
    destruct s as [r|h|r h|r h|r h|n]; cbn [typed_shape] in D.
    - exists (Sphere (rb r)). split; [|apply kept_read; assumption]. apply R; [exact TN|]. cbn [dimensions]. apply NUM; [exact D|]. child.
    - destruct D as (X & Y & Z). exists (Box (map3 (times_half f_float) (map3 rb (map3 (times_two f_float) h)))). split; [|split; [|split]; apply half_kept; assumption]. apply R; [exact TN|]. cbn [dimensions].
      assert (C : child_is (shape_tree (Box h)) (lit "dim") (vec_tree (map3 (times_two f_float) h))) by child. destruct (same_child _ _ _ _ S C) as (d & C' & Sd).
      exists d, (map3 rb (map3 (times_two f_float) h)). split; [exact C'|]. split; [|reflexivity]. right. left. apply (same_group from _ _ _ Sd), vec_group; [exact T|]. split; [|split]; apply (doubled f_float usable_float); assumption.
    - destruct D as (X & Y). exists (Cylinder (rb r) (rb h)). split; [|split; apply kept_read; assumption]. apply R; [exact TN|]. split; (apply NUM; [assumption|]); child.
    - destruct D as (X & Y). exists (Capsule (rb r) (rb h)). split; [|split; apply kept_read; assumption]. apply R; [exact TN|]. split; [apply NUM; [assumption|]; child|]. right. split; [|apply NUM; [assumption|]; child].
      destruct (same_keys _ _ S) as [<- _]. cbn. intuition discriminate.
    - destruct D as (X & Y). exists (Cone (rb r) (rb h)). split; [|split; apply kept_read; assumption]. apply R; [exact TN|]. split; (apply NUM; [assumption|]); child.
    - exists (Plane (map3 rb n)). split; [|apply kept_map3; assumption]. apply R; [exact TN|]. left. assert (C : child_is (shape_tree (Plane n)) (lit "normal") (vec_tree n)) by child. destruct (same_child _ _ _ _ S C) as (d & C' & Sd).
      exists d. split; [exact C'|]. right. left. apply (same_group from _ _ _ Sd), vec_group; [exact T|exact D].
  Qed.
End Shapes.
