(** The ZML reader for any source of tokens: fuel, and readers of equal token sequences agree. *)
From Coq Require Import Ascii String List Arith Bool Lia.
From Verif Require Import Base BaseProofs Str StrModel StrBase PnSpec PnModel TokSpec TokModel ZmlModel.
Import ListNotations.

(** * more fuel does not change a result *)
Section Mono.
  Context {src : Type} (next : src -> outcome (str * src)) (include : str -> outcome pn).

  Lemma layer_mono f : forall f' close parent mc s r, f <= f' ->
    read_zml_layer next include f close parent mc s = Some r ->
    read_zml_layer next include f' close parent mc s = Some r.
  Proof.
    induction f as [|f IH]; intros f' close parent mc s r Hf H; [discriminate|].
    destruct f' as [|f']; [lia|]. cbn [read_zml_layer] in *.
    assert (Hf' : f <= f') by lia.
    destruct (tok next s) as [[t s1]| |]; cbn [zbind] in *; try exact H.
    destruct (str_eqb t close); [exact H|]. destruct t as [|x t]; [exact H|].
    destruct (str_eqb (x :: t) (lit "<<")).
    - destruct (tok next s1) as [[name s2]| |]; cbn [zbind] in *; try exact H.
      destruct (tok next s2) as [[e s3]| |]; cbn [zbind] in *; try exact H.
      destruct (str_eqb e (lit ">>")); [|exact H].
      destruct (include name) as [inc| |]; cbn [zbind] in *; try exact H.
      eapply IH; eassumption.
    - destruct (item_head next close parent (x :: t) s1) as [[[np u] s2]| |]; cbn [zbind] in *; try exact H.
      destruct (str_eqb u (lit "{")); [|destruct (str_eqb u (lit "["))].
      + destruct (read_zml_layer next include f (lit "}") np _ s2) as [r1|] eqn:E1; [|discriminate].
        rewrite (IH f' _ _ _ _ _ Hf' E1). cbn [zbind'] in *.
        destruct r1 as [s3| |]; cbn [zbind] in *; try exact H. eapply IH; eassumption.
      + destruct (read_zml_layer next include f (lit "]") np _ s2) as [r1|] eqn:E1; [|discriminate].
        rewrite (IH f' _ _ _ _ _ Hf' E1). cbn [zbind'] in *.
        destruct r1 as [s3| |]; cbn [zbind] in *; try exact H. eapply IH; eassumption.
      + destruct (assign_value np u s2) as [s3| |]; cbn [zbind] in *; try exact H. eapply IH; eassumption.
  Qed.

  Lemma layer_agree f1 f2 close parent mc s r1 r2 :
    read_zml_layer next include f1 close parent mc s = Some r1 ->
    read_zml_layer next include f2 close parent mc s = Some r2 -> r1 = r2.
  Proof.
    intros H1 H2. apply (layer_mono f1 (f1 + f2)) in H1; [|lia]. apply (layer_mono f2 (f1 + f2)) in H2; [|lia].
    congruence.
  Qed.

  (** * operations other than tok keep the source *)
  Lemma modify_src l (f : pn -> pn) (s : zst src) : z_src (modify l f s) = z_src s.
  Proof. unfold modify. destruct (in_macros l); reflexivity. Qed.
  Lemma assign_src d e (s : zst src) : z_src (assign d e s) = z_src s.
  Proof. unfold assign. destruct (_ && _); [reflexivity|]. rewrite !modify_src. reflexivity. Qed.
  Lemma assign_value_src np t (s s' : zst src) : assign_value np t s = Ok s' -> z_src s' = z_src s.
  Proof.
    unfold assign_value. destruct (str_begins_with_char t "@"%char).
    - destruct (substr t 1 None) as [q| |]; cbn [obind]; try discriminate.
      destruct (try_get_query _ _ _) as [[p|]| |]; cbn [obind]; try discriminate.
      intros [= <-]. apply assign_src.
    - destruct (_ && _).
      + destruct (last_index _ _ _ _); [|discriminate]. intros [= <-]. apply assign_src.
      + destruct (inline_loop _ _ _ _) as [v| |]; cbn [obind]; try discriminate. intros [= <-]. apply modify_src.
  Qed.
  Lemma new_child_src l key (s : zst src) : z_src (snd (new_child l key s)) = z_src s.
  Proof. apply modify_src. Qed.

  (** * sufficient fuel *)
  Context (size : src -> nat).
  Hypothesis Hsize : forall s t s', next s = Ok (t, s') -> size s' <= size s /\ (t <> [] -> size s' < size s).

  Lemma tok_size s t s' : tok next s = Ok (t, s') ->
    size (z_src s') <= size (z_src s) /\ (t <> [] -> size (z_src s') < size (z_src s)).
  Proof.
    unfold tok. destruct (next (z_src s)) as [[u x]| |] eqn:E; cbn [obind]; try discriminate.
    intros [= <- <-]. cbn [z_src fst snd]. apply Hsize. exact E.
  Qed.

  Lemma item_head_size close parent t s np u s' : item_head next close parent t s = Ok (np, u, s') ->
    size (z_src s') <= size (z_src s).
  Proof.
    unfold item_head. destruct (str_eqb close (lit "]")).
    { intros H. pose proof (new_child_src parent [] s) as E. destruct (new_child parent [] s) as [l s1].
      injection H as <- <- <-. cbn [snd] in E. rewrite E. lia. }
    destruct (_ || _).
    { destruct (length _); [discriminate|]. intros [= <- <- <-]. lia. }
    match goal with |- context [obind ?o _] => destruct o as [[l s1]| |] eqn:E end; cbn [obind]; try discriminate.
    assert (Es : z_src s1 = z_src s).
    { destruct t as [|x t]; [discriminate|]. destruct (Ascii.eqb x "$"%char).
      - destruct (in_macros parent); [discriminate|]. injection E as <- <-. apply modify_src.
      - destruct (negb (isgraph x)); [discriminate|]. injection E as <- <-. apply modify_src. }
    destruct (tok next s1) as [[t2 s2]| |] eqn:E2; cbn [obind]; try discriminate.
    apply tok_size in E2. rewrite Es in E2.
    destruct (_ || _).
    - destruct (tok next s2) as [[t3 s3]| |] eqn:E3; cbn [obind]; try discriminate.
      apply tok_size in E3. intros [= <- <- <-]. lia.
    - destruct (_ || _); [|discriminate]. intros [= <- <- <-]. lia.
  Qed.

  Lemma layer_enough f : forall close parent mc s, size (z_src s) < f ->
    exists r, read_zml_layer next include f close parent mc s = Some r /\
      forall s', r = Ok s' -> size (z_src s') <= size (z_src s).
  Proof.
    induction f as [|f IH]; intros close parent mc s Hf; [lia|]. cbn [read_zml_layer].
    destruct (tok next s) as [[t s1]| |] eqn:E; cbn [zbind]; try (eexists; split; [reflexivity|discriminate]).
    apply tok_size in E. destruct E as [E1 E2].
    destruct (str_eqb t close).
    { eexists. split; [reflexivity|]. intros s' [= <-]. exact E1. }
    destruct t as [|x t]; [eexists; split; [reflexivity|discriminate]|].
    assert (Hlt : size (z_src s1) < size (z_src s)) by (apply E2; discriminate). clear E1 E2.
    destruct (str_eqb (x :: t) (lit "<<")).
    - destruct (tok next s1) as [[name s2]| |] eqn:E; cbn [zbind]; try (eexists; split; [reflexivity|discriminate]).
      apply tok_size in E. destruct (tok next s2) as [[e s3]| |] eqn:E'; cbn [zbind]; try (eexists; split; [reflexivity|discriminate]).
      apply tok_size in E'. destruct (str_eqb e (lit ">>")); [|eexists; split; [reflexivity|discriminate]].
      destruct (include name) as [inc| |]; cbn [zbind]; try (eexists; split; [reflexivity|discriminate]).
      destruct (IH close parent mc (modify parent (fun n => append n inc) s3)) as [r [Hr1 Hr2]]; [rewrite modify_src; lia|].
      exists r. split; [exact Hr1|]. intros s' Hs'. apply Hr2 in Hs'. rewrite modify_src in Hs'. lia.
    - destruct (item_head next close parent (x :: t) s1) as [[[np u] s2]| |] eqn:E; cbn [zbind];
        try (eexists; split; [reflexivity|discriminate]).
      apply item_head_size in E.
      assert (Hnest : forall c, exists r, zbind' (read_zml_layer next include f c np (pn_size (z_macros s2)) s2)
          (read_zml_layer next include f close parent mc) = Some r /\
          forall s', r = Ok s' -> size (z_src s') <= size (z_src s)).
      { intros c. destruct (IH c np (pn_size (z_macros s2)) s2) as [r [Hr1 Hr2]]; [lia|]. rewrite Hr1. cbn [zbind'].
        destruct r as [s3| |]; cbn [zbind]; try (eexists; split; [reflexivity|discriminate]).
        specialize (Hr2 _ eq_refl).
        destruct (IH close parent mc s3) as [r [Hr3 Hr4]]; [lia|]. exists r. split; [exact Hr3|].
        intros s' Hs'. apply Hr4 in Hs'. lia. }
      destruct (str_eqb u (lit "{")); [apply Hnest|]. destruct (str_eqb u (lit "[")); [apply Hnest|].
      destruct (assign_value np u s2) as [s3| |] eqn:E3; cbn [zbind]; try (eexists; split; [reflexivity|discriminate]).
      apply assign_value_src in E3.
      destruct (IH close parent mc s3) as [r [Hr3 Hr4]]; [rewrite E3; lia|]. exists r. split; [exact Hr3|].
      intros s' Hs'. apply Hr4 in Hs'. rewrite E3 in Hs'. lia.
  Qed.
End Mono.

(** * sources that give the same tokens *)
Section Sim.
  Context {src1 src2 : Type} (next1 : src1 -> outcome (str * src1)) (next2 : src2 -> outcome (str * src2)).
  Context (include : str -> outcome pn) (R : src1 -> src2 -> Prop).

  Definition orel {A B} (Q : A -> B -> Prop) (a : outcome A) (b : outcome B) : Prop :=
    match a, b with Ok x, Ok y => Q x y | Throw, Throw => True | UB, UB => True | _, _ => False end.
  Definition zrel {A B} (Q : A -> B -> Prop) (a : zres A) (b : zres B) : Prop :=
    match a, b with Some x, Some y => orel Q x y | None, None => True | _, _ => False end.

  Hypothesis Hnext : forall a b, R a b -> orel (fun x y => fst x = fst y /\ R (snd x) (snd y)) (next1 a) (next2 b).

  Definition RS (s1 : zst src1) (s2 : zst src2) : Prop :=
    R (z_src s1) (z_src s2) /\ z_root s1 = z_root s2 /\ z_macros s1 = z_macros s2.

  Lemma tok_sim s1 s2 : RS s1 s2 -> orel (fun x y => fst x = fst y /\ RS (snd x) (snd y)) (tok next1 s1) (tok next2 s2).
  Proof.
    intros [H1 [H2 H3]]. unfold tok. pose proof (Hnext _ _ H1) as H.
    destruct (next1 (z_src s1)) as [[t a]| |], (next2 (z_src s2)) as [[u b]| |]; cbn [orel] in H; try contradiction;
      cbn [obind orel]; try exact I.
    cbn [fst snd] in *. destruct H as [-> H]. split; [reflexivity|]. split; [exact H|]. split; assumption.
  Qed.
  Lemma modify_sim l f s1 s2 : RS s1 s2 -> RS (modify l f s1) (modify l f s2).
  Proof.
    intros [H1 [H2 H3]]. unfold modify. destruct (in_macros l); (split; [exact H1|]); cbn [z_root z_macros];
      rewrite H2, H3; split; reflexivity.
  Qed.
  Lemma tree_of_sim l s1 s2 : RS s1 s2 -> tree_of l s1 = tree_of l s2.
  Proof. intros [H1 [H2 H3]]. unfold tree_of. rewrite H2, H3. reflexivity. Qed.
  Lemma children_at_sim l s1 s2 : RS s1 s2 -> children_at l s1 = children_at l s2.
  Proof. intros H. unfold children_at. rewrite (tree_of_sim l _ _ H). reflexivity. Qed.
  Lemma new_child_sim l k s1 s2 : RS s1 s2 -> fst (new_child l k s1) = fst (new_child l k s2) /\
    RS (snd (new_child l k s1)) (snd (new_child l k s2)).
  Proof.
    intros H. unfold new_child. cbn [fst snd]. rewrite (children_at_sim l _ _ H). split; [reflexivity|].
    apply modify_sim. exact H.
  Qed.
  Lemma assign_sim d e s1 s2 : RS s1 s2 -> RS (assign d e s1) (assign d e s2).
  Proof.
    intros H. unfold assign. destruct (_ && _); [exact H|]. rewrite (tree_of_sim e _ _ H).
    match goal with |- context [modify d ?f s1] => pose proof (modify_sim d f _ _ H) as H' end.
    rewrite (tree_of_sim e _ _ H'). apply modify_sim. exact H'.
  Qed.
  Lemma assign_value_sim np t s1 s2 : RS s1 s2 -> orel RS (assign_value np t s1) (assign_value np t s2).
  Proof.
    intros H. pose proof H as [_ [H2 H3]]. unfold assign_value. rewrite H2, H3.
    destruct (str_begins_with_char t "@"%char).
    - destruct (substr t 1 None) as [q| |]; cbn [obind orel]; try exact I.
      destruct (try_get_query _ _ _) as [[p|]| |]; cbn [obind orel]; try exact I. apply assign_sim. exact H.
    - destruct (_ && _).
      + destruct (last_index _ _ _ _); cbn [orel]; [|exact I]. apply assign_sim. exact H.
      + destruct (inline_loop _ _ _ _) as [v| |]; cbn [obind orel]; try exact I. apply modify_sim. exact H.
  Qed.

  Lemma orel_bind {A A' B B'} (Q : A -> A' -> Prop) (P : B -> B' -> Prop) o o' f f' :
    orel Q o o' -> (forall x y, Q x y -> orel P (f x) (f' y)) -> orel P (obind o f) (obind o' f').
  Proof.
    intros H Hf. destruct o as [x| |], o' as [y| |]; cbn [orel] in H; try contradiction; cbn [obind]; try exact I.
    apply Hf. exact H.
  Qed.
  Lemma zrel_bind {A A' B B'} (Q : A -> A' -> Prop) (P : B -> B' -> Prop) o o' f f' :
    orel Q o o' -> (forall x y, Q x y -> zrel P (f x) (f' y)) -> zrel P (zbind o f) (zbind o' f').
  Proof.
    intros H Hf. destruct o as [x| |], o' as [y| |]; cbn [orel] in H; try contradiction; cbn [zbind]; try exact I.
    apply Hf. exact H.
  Qed.
  Lemma zrel_bind' {A A' B B'} (Q : A -> A' -> Prop) (P : B -> B' -> Prop) o o' f f' :
    zrel Q o o' -> (forall x y, Q x y -> zrel P (f x) (f' y)) -> zrel P (zbind' o f) (zbind' o' f').
  Proof.
    intros H Hf. destruct o as [o|], o' as [o'|]; cbn [zrel] in H; try contradiction; cbn [zbind']; [|exact I].
    eapply zrel_bind; eassumption.
  Qed.

  Lemma item_head_sim close parent t s1 s2 : RS s1 s2 ->
    orel (fun x y => fst x = fst y /\ RS (snd x) (snd y)) (item_head next1 close parent t s1) (item_head next2 close parent t s2).
  Proof.
    intros H. unfold item_head. destruct (str_eqb close (lit "]")).
    { destruct (new_child_sim parent [] _ _ H) as [E1 E2].
      destruct (new_child parent [] s1) as [l1 x1], (new_child parent [] s2) as [l2 x2]. cbn [fst snd orel] in *.
      rewrite E1. split; [reflexivity|exact E2]. }
    destruct (_ || _).
    { rewrite (children_at_sim parent _ _ H). destruct (length _); cbn [orel fst snd]; [exact I|split; [reflexivity|exact H]]. }
    eapply (orel_bind (fun x y => fst x = fst y /\ RS (snd x) (snd y))).
    { destruct t as [|x t]; [exact I|]. destruct (Ascii.eqb x "$"%char).
      - destruct (in_macros parent); [exact I|]. apply (new_child_sim (Loc true [])). exact H.
      - destruct (negb (isgraph x)); [exact I|]. apply new_child_sim. exact H. }
    intros [l1 x1] [l2 x2] [E1 E2]. cbn [fst snd] in *. subst l2.
    eapply orel_bind; [apply tok_sim; exact E2|]. intros [t1 y1] [t2 y2] [E3 E4]. cbn [fst snd] in *. subst t2.
    destruct (_ || _).
    - eapply orel_bind; [apply tok_sim; exact E4|]. intros [t3 z1] [t4 z2] [E5 E6]. cbn [fst snd] in *. subst t4.
      cbn [orel fst snd]. split; [reflexivity|exact E6].
    - destruct (_ || _); cbn [orel fst snd]; [split; [reflexivity|exact E4]|exact I].
  Qed.

  Lemma layer_sim f : forall close parent mc s1 s2, RS s1 s2 ->
    zrel RS (read_zml_layer next1 include f close parent mc s1) (read_zml_layer next2 include f close parent mc s2).
  Proof.
    induction f as [|f IH]; intros close parent mc s1 s2 H; [exact I|]. cbn [read_zml_layer].
    eapply zrel_bind; [apply tok_sim; exact H|]. intros [t x1] [t' x2] [E1 E2]. cbn [fst snd] in *. subst t'.
    destruct (str_eqb t close).
    { cbn [zrel orel]. destruct E2 as [A [B C]]. split; [exact A|]. unfold pop_macros. cbn [z_root z_macros].
      rewrite B, C. split; reflexivity. }
    destruct t as [|x t]; [exact I|].
    destruct (str_eqb (x :: t) (lit "<<")).
    - eapply zrel_bind; [apply tok_sim; exact E2|]. intros [n1 y1] [n2 y2] [E3 E4]. cbn [fst snd] in *. subst n2.
      eapply zrel_bind; [apply tok_sim; exact E4|]. intros [e1 z1] [e2 z2] [E5 E6]. cbn [fst snd] in *. subst e2.
      destruct (str_eqb e1 (lit ">>")); [|exact I].
      destruct (include n1) as [inc| |]; cbn [zbind]; try exact I. apply IH. apply modify_sim. exact E6.
    - eapply zrel_bind; [apply item_head_sim; exact E2|]. intros [[l1 u1] y1] [[l2 u2] y2] [E3 E4]. cbn [fst snd] in *.
      injection E3 as <- <-. pose proof E4 as [_ [_ Em]].
      destruct (str_eqb u1 (lit "{")).
      { eapply zrel_bind'; [rewrite Em; apply IH; exact E4|]. intros a b. apply IH. }
      destruct (str_eqb u1 (lit "[")).
      { eapply zrel_bind'; [rewrite Em; apply IH; exact E4|]. intros a b. apply IH. }
      eapply zrel_bind; [apply assign_value_sim; exact E4|]. intros a b. apply IH.
  Qed.
End Sim.
