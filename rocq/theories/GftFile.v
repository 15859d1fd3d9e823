(** Lemmas about numbers in ZML files. *)
From Coq Require Import Ascii String List Arith Bool NArith ZArith Reals SpecFloat Lia Lra.
From Verif Require Import Base BaseProofs Str StrBase StrSpec StrModel CastSpec CastModel CastProofs PnSpec PnModel TokSpec ZmlSpec GpnSpec GpnModel GpnProofs FltSpec FltModel FltText FltProofs FltTheorems GftSpec GftModel GftNum GftProofs.
Import ListNotations.

(** the characters of numbers *)
Definition number_chars : str := lit "0123456789+-.einfa".
Lemma digit_chars c : is_digit_char c -> In c number_chars.
Proof.
  intros H. unfold is_digit_char in H. rewrite <- (ascii_nat_embedding c). assert (Q : In (nat_of_ascii c) (seq 48 10)) by (apply in_seq; lia). cbn [seq] in Q.
  repeat (destruct Q as [<-|Q]; [cbv; tauto|]). destruct Q.
Qed.
Lemma digits_chars ds : Forall is_digit_char ds -> Forall (fun c => In c number_chars) ds.
Proof. apply Forall_impl. exact digit_chars. Qed.
Lemma sign_chars sg x : sign_text sg x -> Forall (fun c => In c number_chars) sg.
Proof. intros [| |]; repeat constructor; cbv; tauto. Qed.
Lemma neat_chars s v : neat_text s v -> s <> [] /\ Forall (fun c => In c number_chars) s.
Proof.
  assert (P : In "."%char number_chars) by (cbv; tauto). assert (E0 : In "e"%char number_chars) by (cbv; tauto).
  intros [ip N D H L|ip fp v' N D F FN FL H E B|c fp sg sgn ds v' C C0 F FL SG L D H E B].
  - split; [exact N|apply digits_chars; exact D].
  - split; [destruct ip; discriminate|]. apply Forall_app. split; [apply digits_chars; exact D|]. constructor; [exact P|apply digits_chars; exact F].
  - split; [discriminate|]. constructor; [apply digit_chars; exact C|]. apply Forall_app. split; [destruct fp as [|d fp]; [constructor|]; constructor; [exact P|apply digits_chars; exact F]|].
    constructor; [exact E0|]. apply Forall_app. split; [destruct SG as [[-> _]|[-> _]]; repeat constructor; cbv; tauto|apply digits_chars; exact D].
Qed.
Lemma written_chars f x : cpp_type f -> of_format f x -> to_str_float x <> [] /\ Forall (fun c => In c number_chars) (to_str_float x).
Proof.
  intros T X. destruct x as [s|s| |s m e]; [destruct s; split; [discriminate|repeat constructor; cbv; tauto|discriminate|repeat constructor; cbv; tauto]|destruct s; split; [discriminate|repeat constructor; cbv; tauto|discriminate|repeat constructor; cbv; tauto]|split; [discriminate|repeat constructor; cbv; tauto]|].
  destruct (C139_text f (S754_finite s m e) T X I) as (d & t & _ & N & E & _).
  { pose proof (FltNum.abs_value f s m e) as A. intros Q. rewrite Q, Rabs_R0 in A. symmetry in A. apply Flocq.Core.Float_prop.eq_0_F2R in A. discriminate. }
  rewrite E. apply neat_chars in N. destruct N as [N1 N2]. split; [destruct (negative _); [discriminate|exact N1]|]. apply Forall_app. split; [destruct (negative _); repeat constructor; cbv; tauto|exact N2].
Qed.
Lemma plain_facts : forall c, In c number_chars -> char7 c = true /\ Ascii.eqb "="%char c = false /\ Ascii.eqb squote c = false /\ c <> ":"%char /\ Ascii.eqb c "$" = false /\ Ascii.eqb c "@" = false /\ ~ In c (lit "#/{[]<").
Proof.
  intros c H. unfold number_chars in H. cbn [lit list_ascii_of_string] in H. repeat (destruct H as [<-|H]; [repeat split; try reflexivity; try discriminate; cbv; intuition discriminate|]). destruct H.
Qed.
Lemma plain_set s c : Forall (fun c => In c number_chars) s -> ~ In c number_chars -> in_set s c = false.
Proof. intros F N. destruct (in_set s c) eqn:E; [|reflexivity]. apply in_set_In in E. rewrite Forall_forall in F. destruct (N (F c E)). Qed.
Lemma plain_other s w : Forall (fun c => In c number_chars) s -> (match w with a :: _ => ~ In a number_chars | [] => s <> [] end) -> str_eqb s w = false.
Proof.
  intros F N. destruct (str_eqb s w) eqn:E; [|reflexivity]. apply str_eqb_eq in E. subst w. destruct s as [|a s]; [congruence|]. apply Forall_inv in F. tauto.
Qed.
Lemma number_element s : s <> [] -> Forall (fun c => In c number_chars) s -> element_ok s = true /\ value_ok s = true.
Proof.
  intros N F. assert (C7 : forallb char7 s = true) by (apply forallb_forall; rewrite Forall_forall in F; intros c C; apply plain_facts; auto).
  assert (OT : forall w, (match w with a :: _ => ~ In a number_chars | [] => True end) -> str_eqb s w = false) by (intros w W; apply plain_other; [exact F|destruct w; assumption]).
  assert (LC : Ascii.eqb (last s nul) ":"%char = false).
  { apply Ascii.eqb_neq. rewrite Forall_forall in F. apply plain_facts, F. destruct s as [|a s]; [congruence|]. clear. revert a. induction s as [|b s IH]; intros a; [left; reflexivity|right; apply (IH b)]. }
  assert (TK : token_ok s = true).
  { unfold token_ok. rewrite C7. rewrite (plain_set s "="%char F) by (cbv; intuition discriminate). rewrite (plain_set s squote F) by (cbv; intuition discriminate). rewrite LC. cbn [one_of_strs existsb]. rewrite !OT by (cbv; intuition discriminate). destruct (negb (bare s)); reflexivity. }
  assert (IM : has_inline_macro s = false).
  { clear -F. induction F as [|c s C _ IH]; [reflexivity|]. cbn [has_inline_macro]. apply plain_facts in C. destruct C as (_ & _ & _ & _ & -> & _). exact IH. }
  assert (V : value_ok s = true).
  { unfold value_ok. rewrite TK, IM. cbn [one_of_strs existsb]. rewrite !OT by (cbv; intuition discriminate). destruct s as [|c s]; [reflexivity|]. apply Forall_inv, plain_facts in F. destruct F as (_ & _ & _ & _ & -> & -> & _). reflexivity. }
  split; [|exact V]. unfold element_ok. rewrite V. cbn [one_of_strs existsb]. rewrite !OT by (cbv; intuition discriminate). destruct s; [congruence|reflexivity].
Qed.
Section Trees.
  Context (f : format) (T : cpp_type f).
  Lemma number_node x b : of_format f x -> node_ok true b (num_to_pn to_str_float x) = true.
  Proof. intros X. destruct (written_chars f x T X) as [N F]. destruct (number_element _ N F) as [E V]. unfold num_to_pn, pn_of_value. cbn [node_ok]. destruct b; [rewrite E|rewrite V]; reflexivity. Qed.
  Lemma vec_node v : typed_triple f v -> node_ok true false (vec_tree v) = true /\ tree_ok true (vec_tree v) = true.
  Proof.
    intros (X & Y & Z). unfold vec_tree. rewrite vec_to_pn_eq. assert (E := number_node _ false X). assert (E' := number_node _ false Y). assert (E2 := number_node _ false Z).
    cbn [node_ok tree_ok no_keys forallb fst snd]. change (match lit "x" with [] => true | _ => false end) with false. cbn [andb]. rewrite E, E', E2. split; reflexivity.
  Qed.
  Lemma quat_node q : typed_quad f q -> tree_ok true (quat_tree q) = true.
  Proof.
    intros (W & X & Y & Z). unfold quat_tree. rewrite quat_to_pn_eq. assert (E0 := number_node _ false W). assert (E := number_node _ false X). assert (E' := number_node _ false Y). assert (E2 := number_node _ false Z).
    cbn [tree_ok forallb fst snd]. rewrite E0, E, E', E2. reflexivity.
  Qed.
  Lemma numbers_node l : Forall (of_format f) l -> node_ok true false (numbers_tree l) = true.
  Proof.
    intros L. unfold numbers_tree, list_to_pn. rewrite fold_add. cbn [pn_children pn_empty app pn_value pn_flag]. destruct L as [|x l X L]; [reflexivity|]. cbn [map node_ok]. cbn [andb].
    replace (no_keys _) with true by (cbn [no_keys forallb fst]; clear; induction l; [reflexivity|assumption]). cbn [forallb snd]. rewrite (number_node x true X). cbn [andb]. induction L as [|y l Y L IH]; [reflexivity|]. cbn [map forallb snd]. rewrite (number_node y true Y). exact IH.
  Qed.
End Trees.
Lemma shape_node s : typed_shape f_float s -> tree_ok true (shape_tree s) = true.
Proof.
  assert (T : cpp_type f_float) by (right; reflexivity). assert (N := number_node f_float T). intros D. destruct s as [r|h|r h|r h|r h|n]; cbn [typed_shape] in D.
  - assert (E := N r false D). change (shape_tree (Sphere r)) with (PN [] [(lit "type", pn_of_value (lit "sphere")); (lit "radius", num_to_pn to_str_float r)] false). cbn [tree_ok forallb fst snd]. rewrite E. reflexivity.
  - destruct D as (X & Y & Z). destruct (vec_node f_float T (map3 (times_two f_float) h)) as [E _]; [split; [|split]; apply (doubled f_float FltNum.usable_float); assumption|].
    change (shape_tree (Box h)) with (PN [] [(lit "type", pn_of_value (lit "box")); (lit "dim", vec_tree (map3 (times_two f_float) h))] false). cbn [tree_ok forallb fst snd]. rewrite E. reflexivity.
  - destruct D as (X & Y). assert (E := N r false X). assert (E' := N h false Y). change (shape_tree (Cylinder r h)) with (PN [] [(lit "type", pn_of_value (lit "cylinder")); (lit "radius", num_to_pn to_str_float r); (lit "height", num_to_pn to_str_float h)] false). cbn [tree_ok forallb fst snd]. rewrite E, E'. reflexivity.
  - destruct D as (X & Y). assert (E := N r false X). assert (E' := N h false Y). change (shape_tree (Capsule r h)) with (PN [] [(lit "type", pn_of_value (lit "capsule")); (lit "radius", num_to_pn to_str_float r); (lit "height", num_to_pn to_str_float h)] false). cbn [tree_ok forallb fst snd]. rewrite E, E'. reflexivity.
  - destruct D as (X & Y). assert (E := N r false X). assert (E' := N h false Y). change (shape_tree (Cone r h)) with (PN [] [(lit "type", pn_of_value (lit "cone")); (lit "radius", num_to_pn to_str_float r); (lit "height", num_to_pn to_str_float h)] false). cbn [tree_ok forallb fst snd]. rewrite E, E'. reflexivity.
  - destruct (vec_node f_float T n D) as [E _]. change (shape_tree (Plane n)) with (PN [] [(lit "type", pn_of_value (lit "plane")); (lit "normal", vec_tree n)] false). cbn [tree_ok forallb fst snd]. rewrite E. reflexivity.
Qed.
