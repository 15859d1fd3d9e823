(** Reading with an error code: it goes as far as reading without one, and reports what that one throws. *)
From Coq Require Import Ascii String List Arith NArith Bool Lia ZArith.
From Verif Require Import Base BaseProofs Str StrSpec StrModel StrBase StrProofs PnSpec PnModel PnProofs TokSpec TokModel TokProofs
  ZmlSpec ZmlModel ZmlReader ZmlLex ZmlProofs IniModel XmlSpec XmlModel PathModel SerModel.
Import ListNotations.

Definition esize (s : est) : nat := csize (z_src (e_z s)).

Section Ec.
  Context (buffer folder : str) (load : str -> outcome (pn * option str)).

  Lemma note_z m s : e_z (note m s) = e_z s.
  Proof. destruct m; reflexivity. Qed.
  Lemma note_bad m s : m <> None \/ e_msg s <> None -> e_msg (note m s) <> None.
  Proof. destruct m; cbn; [discriminate|intros [H|H]; [congruence|exact H]]. Qed.
  Lemma fail_bad m s : e_msg (fail buffer m s) <> None.
  Proof. discriminate. Qed.

  (** * tokens *)
  Lemma token_sim f : forall s, match zml_token_loop f s with
    | Ok (t, s') => token_loop_ec buffer f s = Ok (t, s', None)
    | Throw => match token_loop_ec buffer f s with Ok (t, s', m) => m <> None | _ => True end
    | UB => token_loop_ec buffer f s = UB
    end.
  Proof.
    induction f as [|f IH]; intros s; [reflexivity|]. cbn [zml_token_loop token_loop_ec].
    destruct (get_token zml_cfg s) as [[u s1]| |] eqn:E; cbn [obind]; [|exact I|reflexivity].
    destruct (str_eqb u (lit "#") || str_eqb u (lit "//")); [apply IH|].
    destruct (str_eqb u (lit "/*")); [|reflexivity].
    destruct (seek_past (lit "*/") s1) as [[b s2]| |]; cbn [obind fst snd]; [|exact I|reflexivity].
    destruct b; [apply IH|discriminate].
  Qed.
  Lemma token_ec_progress f : forall s t s' m, token_loop_ec buffer f s = Ok (t, s', m) -> csize s' <= csize s /\ (t <> [] -> csize s' < csize s).
  Proof.
    induction f as [|f IH]; intros s t s' m H; [discriminate|]. cbn [token_loop_ec] in H.
    destruct (get_token zml_cfg s) as [[u s1]| |] eqn:E; cbn [obind] in H; try discriminate.
    apply token_progress in E. destruct (str_eqb u (lit "#") || str_eqb u (lit "//")) eqn:E1.
    { apply IH in H. pose proof (line_size s1). destruct H as [H1 H2], E as [H3 H4]. split; [lia|]. intros Ht. specialize (H2 Ht). lia. }
    destruct (str_eqb u (lit "/*")) eqn:E2.
    - destruct (seek_past (lit "*/") s1) as [[b s2]| |] eqn:E3; cbn [obind fst snd] in H; try discriminate.
      apply seek_past_size in E3. destruct b.
      + apply IH in H. destruct H as [H1 H2], E as [H3 H4]. split; [lia|]. intros Ht. specialize (H2 Ht). lia.
      + injection H as <- <- <-. split; [lia|congruence].
    - injection H as <- <- <-. exact E.
  Qed.

  Lemma tok_ec_step s t s' : tok_ec buffer s = Ok (t, s') ->
    esize s' <= esize s /\ (t <> [] -> esize s' < esize s) /\ (e_msg s <> None -> e_msg s' <> None).
  Proof.
    unfold tok_ec, get_zml_token_ec. destruct (token_loop_ec _ _ _) as [[[u c] m]| |] eqn:E; cbn [obind]; try discriminate.
    intros [= <- <-]. apply token_ec_progress in E. unfold esize. rewrite note_z. cbn [with_z e_z z_src].
    split; [apply E|]. split; [apply E|]. intros H. apply note_bad. right. exact H.
  Qed.
  Lemma tok_ec_sim s : e_msg s = None -> match tok get_zml_token (e_z s) with
    | Ok (t, z) => tok_ec buffer s = Ok (t, EST z None (e_files s))
    | Throw => match tok_ec buffer s with Ok (_, s') => e_msg s' <> None | _ => True end
    | UB => tok_ec buffer s = UB
    end.
  Proof.
    intros Hs. unfold tok, tok_ec, get_zml_token, get_zml_token_ec.
    pose proof (token_sim (S (length (cs_rest (z_src (e_z s))))) (z_src (e_z s))) as H.
    destruct (zml_token_loop _ _) as [[t c]| |]; cbn [obind fst snd].
    - rewrite H. destruct s as [z m fs]. cbn in Hs. subst m. reflexivity.
    - destruct (token_loop_ec _ _ _) as [[[t c] m]| |]; cbn [obind]; try exact I. apply note_bad. left. exact H.
    - rewrite H. reflexivity.
  Qed.

  (** * the pieces keep errors and move forward *)
  Definition step_ok {A} (s : est) (o : outcome (A * est)) : Prop :=
    forall a s', o = Ok (a, s') -> esize s' <= esize s /\ (e_msg s <> None -> e_msg s' <> None).
  Lemma item_value_step np s : step_ok s (item_value_ec buffer np s).
  Proof.
    unfold step_ok, item_value_ec. intros a s' H. destruct (tok_ec buffer s) as [[t s1]| |] eqn:E; cbn [obind] in H; try discriminate.
    apply tok_ec_step in E. destruct (_ || _).
    - destruct (tok_ec buffer s1) as [[u s2]| |] eqn:E2; cbn [obind] in H; try discriminate. apply tok_ec_step in E2.
      injection H as <- <-. intuition lia.
    - destruct (_ || _); injection H as <- <-; [intuition lia|]. split; [unfold esize in *; cbn [fail note e_z]; intuition lia|intros _; apply fail_bad].
  Qed.
  Lemma with_new_child l k s : esize (with_z (snd (new_child l k (e_z s))) s) = esize s.
  Proof. unfold esize. cbn [with_z e_z]. rewrite new_child_src. reflexivity. Qed.
  Lemma item_head_step close parent t s : step_ok s (item_head_ec buffer close parent t s).
  Proof.
    unfold step_ok, item_head_ec. intros a s' H. destruct (str_eqb close (lit "]")).
    { pose proof (with_new_child parent [] s) as E. destruct (new_child parent [] (e_z s)) as [np z]. injection H as <- <-. cbn [snd] in E.
      rewrite E. split; [lia|intros Hm; exact Hm]. }
    destruct (_ || _).
    { destruct (length _); injection H as <- <-; [|auto]. split; [unfold esize; cbn; lia|intros _; apply fail_bad]. }
    destruct t as [|x t]; [discriminate|]. destruct (Ascii.eqb x "$"%char).
    - destruct (in_macros parent); [discriminate|]. pose proof (with_new_child (Loc true []) (x :: t) s) as E.
      destruct (new_child (Loc true []) (x :: t) (e_z s)) as [np z]. apply item_value_step in H. cbn [snd] in E. rewrite E in H. exact H.
    - destruct (negb (isgraph x)).
      { injection H as <- <-. split; [unfold esize; cbn; lia|intros _; apply fail_bad]. }
      pose proof (with_new_child parent (x :: t) s) as E.
      destruct (new_child parent (x :: t) (e_z s)) as [np z]. apply item_value_step in H. cbn [snd] in E. rewrite E in H. exact H.
  Qed.
  Lemma assign_value_step np t s : step_ok s (assign_value_ec buffer np t s).
  Proof.
    unfold step_ok, assign_value_ec. intros a s' H. destruct (assign_value np t (e_z s)) as [z| |] eqn:E; try discriminate; injection H as <- <-.
    - apply assign_value_src in E. unfold esize. cbn [with_z e_z]. rewrite E. auto.
    - split; [unfold esize; cbn; lia|intros _; apply fail_bad].
  Qed.

  Lemma layer_ec_enough f : forall close parent mc s, esize s < f ->
    exists r, read_ec buffer folder load f close parent mc s = Some r /\
      forall s', r = Ok s' -> esize s' <= esize s /\ (e_msg s <> None -> e_msg s' <> None).
  Proof.
    induction f as [|f IH]; intros close parent mc s Hf; [lia|]. cbn [read_ec].
    destruct (tok_ec buffer s) as [[t s1]| |] eqn:E; cbn [zbind]; try (eexists; split; [reflexivity|discriminate]).
    apply tok_ec_step in E. destruct E as [E1 [E2 E3]].
    destruct (str_eqb t close).
    { eexists. split; [reflexivity|]. intros s' [= <-]. split; [exact E1|exact E3]. }
    destruct t as [|x t].
    { eexists. split; [reflexivity|]. intros s' [= <-]. split; [exact E1|intros _; apply fail_bad]. }
    assert (Hlt : esize s1 < esize s) by (apply E2; discriminate). clear E1 E2.
    destruct (str_eqb (x :: t) (lit "<<")).
    - destruct (tok_ec buffer s1) as [[name s2]| |] eqn:E; cbn [zbind]; try (eexists; split; [reflexivity|discriminate]).
      apply tok_ec_step in E. destruct (tok_ec buffer s2) as [[e s3]| |] eqn:E'; cbn [zbind]; try (eexists; split; [reflexivity|discriminate]).
      apply tok_ec_step in E'. cbv zeta.
      assert (Hs4 : exists s4, (if str_eqb e (lit ">>") then s3 else fail buffer (lit "'<<' has no find matching '>>'") s3) = s4 /\
        esize s4 = esize s3 /\ (e_msg s3 <> None -> e_msg s4 <> None)).
      { destruct (str_eqb e (lit ">>")); eexists; (split; [reflexivity|]); [auto|]. split; [reflexivity|intros _; apply fail_bad]. }
      destruct Hs4 as [s4 [-> [Hz Hm]]].
      destruct (include_path folder name) as [p| |]; cbn [zbind]; try (eexists; split; [reflexivity|discriminate]).
      destruct (load p) as [[inc m]| |]; cbn [zbind fst snd]; try (eexists; split; [reflexivity|discriminate]).
      cbn [with_z e_z e_msg e_files].
      match goal with |- context [read_ec _ _ _ f close parent mc ?x] => destruct (IH close parent mc x) as [r [Hr1 Hr2]]; [|exists r; split; [exact Hr1|]] end.
      + unfold esize. cbn [e_z]. rewrite modify_src. fold (esize s4). lia.
      + intros s' Hs'. apply Hr2 in Hs'. destruct Hs' as [A B]. unfold esize in A. cbn [e_z] in A. rewrite modify_src in A. fold (esize s4) (esize s') in A.
        split; [lia|]. intros Hb. apply B. cbn [e_msg]. apply note_bad. right. apply Hm, E', E, E3, Hb.
    - destruct (item_head_ec buffer close parent (x :: t) s1) as [[o s2]| |] eqn:E; cbn [zbind];
        try (eexists; split; [reflexivity|discriminate]).
      apply item_head_step in E. destruct E as [A B].
      destruct o as [[np u]|]; [|eexists; split; [reflexivity|]; intros s' [= <-]; split; [lia|auto]].
      assert (Hnest : forall c, exists r, zbind' (read_ec buffer folder load f c np (pn_size (z_macros (e_z s2))) s2)
          (read_ec buffer folder load f close parent mc) = Some r /\
          forall s', r = Ok s' -> esize s' <= esize s /\ (e_msg s <> None -> e_msg s' <> None)).
      { intros c. destruct (IH c np (pn_size (z_macros (e_z s2))) s2) as [r [Hr1 Hr2]]; [lia|]. rewrite Hr1. cbn [zbind'].
        destruct r as [s3| |]; cbn [zbind]; try (eexists; split; [reflexivity|discriminate]).
        destruct (Hr2 _ eq_refl) as [C D].
        destruct (IH close parent mc s3) as [r [Hr3 Hr4]]; [lia|]. exists r. split; [exact Hr3|].
        intros s' Hs'. apply Hr4 in Hs'. split; [lia|]. intros Hb. apply Hs', D, B, E3, Hb. }
      destruct (str_eqb u (lit "{")); [apply Hnest|]. destruct (str_eqb u (lit "[")); [apply Hnest|].
      destruct (assign_value_ec buffer np u s2) as [[go s3]| |] eqn:E4; cbn [zbind fst snd]; try (eexists; split; [reflexivity|discriminate]).
      apply assign_value_step in E4. destruct go.
      + destruct (IH close parent mc s3) as [r [Hr3 Hr4]]; [lia|]. exists r. split; [exact Hr3|].
        intros s' Hs'. apply Hr4 in Hs'. split; [lia|]. intros Hb. apply Hs', E4, B, E3, Hb.
      + eexists. split; [reflexivity|]. intros s' [= <-]. split; [lia|]. intros Hb. apply E4, B, E3, Hb.
  Qed.

  (** * the two readers side by side *)
  Context (load0 : str -> outcome pn).
  Hypothesis Hload : forall p, match load0 p with
    | Ok t => load p = Ok (t, None)
    | Throw => match load p with Ok (_, m) => m <> None | _ => True end
    | UB => load p = UB
    end.
  Let include (n : str) : outcome pn := do p <- include_path folder n; load0 p.

  (** the result without error code is related to the one with *)
  Definition esim (z : outcome (zst cs)) (o : outcome est) : Prop :=
    match z with
    | Ok z => exists fs, o = Ok (EST z None fs)
    | Throw => match o with Ok s => e_msg s <> None | _ => True end
    | UB => o = UB
    end.
  Lemma include_path_ok n : exists p, include_path folder n = Ok p.
  Proof.
    unfold include_path. destruct (is_absolute n); [eexists; reflexivity|]. unfold join_path. destruct (has_filename folder); [|eexists; reflexivity].
    destruct (trim_left_ok n slashes) as [t [E _]]. rewrite E. eexists. reflexivity.
  Qed.

  Lemma item_value_sim np s : e_msg s = None -> match (do r <- tok get_zml_token (e_z s);
      let (t, z) := r in
      if str_eqb t (lit "=") || str_eqb t (lit ": ") then do r <- tok get_zml_token z; let (t, z) := r in Ok (np, t, z)
      else if str_eqb t (lit "{") || str_eqb t (lit "[") then Ok (np, t, z) else Throw) with
    | Ok (np', t, z) => item_value_ec buffer np s = Ok (Some (np', t), EST z None (e_files s))
    | Throw => match item_value_ec buffer np s with Ok (_, s') => e_msg s' <> None | _ => True end
    | UB => item_value_ec buffer np s = UB
    end.
  Proof.
    intros Hs. unfold item_value_ec. pose proof (tok_ec_sim s Hs) as H. destruct (tok get_zml_token (e_z s)) as [[t z]| |]; cbn [obind].
    - rewrite H. cbn [obind]. destruct (_ || _).
      + pose proof (tok_ec_sim (EST z None (e_files s)) eq_refl) as H2. cbn [e_z e_files] in H2. destruct (tok get_zml_token z) as [[u z2]| |]; cbn [obind].
        * rewrite H2. reflexivity.
        * destruct (tok_ec buffer (EST z None (e_files s))) as [[u s2]| |]; cbn [obind]; try exact I. exact H2.
        * rewrite H2. reflexivity.
      + destruct (_ || _); [reflexivity|apply fail_bad].
    - destruct (tok_ec buffer s) as [[t s1]| |] eqn:E; cbn [obind]; try exact I. destruct (_ || _).
      + destruct (tok_ec buffer s1) as [[u s2]| |] eqn:E2; cbn [obind]; try exact I. apply tok_ec_step in E2. apply E2. exact H.
      + destruct (_ || _); [exact H|apply fail_bad].
    - rewrite H. reflexivity.
  Qed.
  Lemma item_head_ec_sim close parent t s : e_msg s = None -> match item_head get_zml_token close parent t (e_z s) with
    | Ok (np, u, z) => item_head_ec buffer close parent t s = Ok (Some (np, u), EST z None (e_files s))
    | Throw => match item_head_ec buffer close parent t s with Ok (_, s') => e_msg s' <> None | _ => True end
    | UB => item_head_ec buffer close parent t s = UB
    end.
  Proof.
    intros Hs. unfold item_head, item_head_ec. destruct (str_eqb close (lit "]")).
    { destruct (new_child parent [] (e_z s)) as [np z]. unfold with_z. rewrite Hs. reflexivity. }
    destruct (_ || _).
    { destruct (length _); [apply fail_bad|]. destruct s as [z m fs]. cbn in Hs. subst m. reflexivity. }
    destruct t as [|x t]; [reflexivity|]. destruct (Ascii.eqb x "$"%char).
    - destruct (in_macros parent); [reflexivity|]. cbn [obind].
      destruct (new_child (Loc true []) (x :: t) (e_z s)) as [np z] eqn:E.
      pose proof (item_value_sim np (with_z z s) Hs) as H. cbn [with_z e_z e_files] in H. exact H.
    - destruct (negb (isgraph x)); [apply fail_bad|]. cbn [obind].
      destruct (new_child parent (x :: t) (e_z s)) as [np z] eqn:E.
      pose proof (item_value_sim np (with_z z s) Hs) as H. cbn [with_z e_z e_files] in H. exact H.
  Qed.

  (** whatever follows an error *)
  Lemma after_error f close parent mc s : e_msg s <> None -> esize s < f ->
    exists r, read_ec buffer folder load f close parent mc s = Some r /\ esim Throw r.
  Proof.
    intros Hm Hf. destruct (layer_ec_enough f close parent mc s Hf) as [r [E H]]. exists r. split; [exact E|].
    destruct r as [s'| |]; cbn [esim]; try exact I. apply (H _ eq_refl). exact Hm.
  Qed.

  Lemma layer_ec_sim f : forall close parent mc s, e_msg s = None -> esize s < f ->
    exists o r, read_zml_layer get_zml_token include f close parent mc (e_z s) = Some o /\
      read_ec buffer folder load f close parent mc s = Some r /\ esim o r.
  Proof.
    induction f as [|f IH]; intros close parent mc s Hm Hf; [lia|].
    destruct (layer_enough get_zml_token include csize zml_progress (S f) close parent mc (e_z s) Hf) as [o [Eo _]].
    destruct (layer_ec_enough (S f) close parent mc s Hf) as [r [Er _]].
    exists o, r. split; [exact Eo|]. split; [exact Er|]. revert Eo Er. cbn [read_zml_layer read_ec].
    pose proof (tok_ec_sim s Hm) as H. destruct (tok get_zml_token (e_z s)) as [[t z]| |] eqn:E0; cbn [zbind].
    2:{ intros [= <-] Er. destruct (tok_ec buffer s) as [[t s1]| |] eqn:E; cbn [zbind] in Er; try (injection Er as <-; exact I).
        assert (G : S f = S f) by reflexivity. destruct r as [s'| |]; cbn [esim]; try exact I.
        destruct (layer_ec_enough (S f) close parent mc (EST (e_z s) (Some []) (e_files s)) Hf) as [r2 [Er2 _]]. clear Er2.
        apply tok_ec_step in E. destruct E as [A [B _]].
        destruct (str_eqb t close); [injection Er as <-; exact H|]. destruct t as [|x t]; [injection Er as <-; apply fail_bad|].
        specialize (B ltac:(discriminate)).
        destruct (str_eqb (x :: t) (lit "<<")).
        - destruct (tok_ec buffer s1) as [[name s2]| |] eqn:E; cbn [zbind] in Er; try discriminate. apply tok_ec_step in E.
          destruct (tok_ec buffer s2) as [[e s3]| |] eqn:E'; cbn [zbind] in Er; try discriminate. apply tok_ec_step in E'. cbv zeta in Er.
          destruct (include_path folder name) as [p| |]; cbn [zbind] in Er; try discriminate.
          destruct (load p) as [[inc m]| |]; cbn [zbind fst snd with_z e_z e_msg e_files] in Er; try discriminate.
          match type of Er with read_ec _ _ _ f close parent mc ?x = _ => destruct (after_error f close parent mc x) as [r3 [E3 S3]] end.
          + cbn [e_msg]. apply note_bad. right. destruct (str_eqb e (lit ">>")); [apply E', E, H|apply fail_bad].
          + unfold esize. cbn [e_z]. rewrite modify_src. assert (Q : esize s3 < f) by lia.
            destruct (str_eqb e (lit ">>")); exact Q.
          + rewrite E3 in Er. injection Er as ->. exact S3.
        - destruct (item_head_ec buffer close parent (x :: t) s1) as [[o s2]| |] eqn:E; cbn [zbind] in Er; try discriminate.
          apply item_head_step in E. destruct E as [C D]. destruct o as [[np u]|]; [|injection Er as <-; apply D, H].
          assert (Hnest : forall c, zbind' (read_ec buffer folder load f c np (pn_size (z_macros (e_z s2))) s2)
              (read_ec buffer folder load f close parent mc) = Some (Ok s') -> e_msg s' <> None).
          { intros c Ec. destruct (layer_ec_enough f c np (pn_size (z_macros (e_z s2))) s2) as [q [Eq Q]]; [lia|].
            rewrite Eq in Ec. cbn [zbind'] in Ec. destruct q as [s3| |]; cbn [zbind] in Ec; try discriminate.
            destruct (Q _ eq_refl) as [Q1 Q2]. destruct (after_error f close parent mc s3) as [r3 [E3 S3]]; [apply Q2, D, H|lia|].
            rewrite E3 in Ec. injection Ec as ->. exact S3. }
          destruct (str_eqb u (lit "{")); [exact (Hnest _ Er)|]. destruct (str_eqb u (lit "[")); [exact (Hnest _ Er)|].
          destruct (assign_value_ec buffer np u s2) as [[go s3]| |] eqn:E4; cbn [zbind fst snd] in Er; try discriminate.
          apply assign_value_step in E4. destruct go; [|injection Er as <-; apply E4, D, H].
          destruct (after_error f close parent mc s3) as [r3 [E3 S3]]; [apply E4, D, H|lia|]. rewrite E3 in Er. injection Er as ->. exact S3. }
    2:{ rewrite H. cbn [zbind]. intros [= <-] [= <-]. reflexivity. }
    pose proof (tok_ec_step _ _ _ H) as P. destruct P as [P1 [P2 _]].
    rewrite H. cbn [zbind]. destruct (str_eqb t close).
    { intros [= <-] [= <-]. cbn [esim]. eexists. reflexivity. }
    destruct t as [|x t]; [intros [= <-] [= <-]; apply fail_bad|]. specialize (P2 ltac:(discriminate)).
    set (s1 := EST z None (e_files s)) in *. change z with (e_z s1).
    destruct (str_eqb (x :: t) (lit "<<")).
    - pose proof (tok_ec_sim s1 eq_refl) as H1. destruct (tok get_zml_token (e_z s1)) as [[name z1]| |]; cbn [zbind].
      2:{ intros [= <-] Er. destruct (tok_ec buffer s1) as [[name s2]| |] eqn:E; cbn [zbind] in Er; try (injection Er as <-; exact I).
          apply tok_ec_step in E. destruct (tok_ec buffer s2) as [[e s3]| |] eqn:E'; cbn [zbind] in Er; try (injection Er as <-; exact I).
          apply tok_ec_step in E'. cbv zeta in Er.
          destruct (include_path folder name) as [p| |]; cbn [zbind] in Er; try (injection Er as <-; exact I).
          destruct (load p) as [[inc m]| |]; cbn [zbind fst snd with_z e_z e_msg e_files] in Er; try (injection Er as <-; exact I).
          match type of Er with read_ec _ _ _ f close parent mc ?x = _ => destruct (after_error f close parent mc x) as [r3 [E3 S3]] end.
          + cbn [e_msg]. apply note_bad. right. destruct (str_eqb e (lit ">>")); [apply E', H1|apply fail_bad].
          + unfold esize. cbn [e_z]. rewrite modify_src. assert (Q : esize s3 < f) by lia.
            destruct (str_eqb e (lit ">>")); exact Q.
          + rewrite E3 in Er. injection Er as ->. exact S3. }
      2:{ rewrite H1. cbn [zbind]. intros [= <-] [= <-]. reflexivity. }
      pose proof (tok_ec_step _ _ _ H1) as Q. rewrite H1. cbn [zbind].
      set (s2 := EST z1 None (e_files s1)) in *. change z1 with (e_z s2).
      pose proof (tok_ec_sim s2 eq_refl) as H2. destruct (tok get_zml_token (e_z s2)) as [[e z2]| |]; cbn [zbind].
      2:{ intros [= <-] Er. destruct (tok_ec buffer s2) as [[e s3]| |] eqn:E'; cbn [zbind] in Er; try (injection Er as <-; exact I).
          apply tok_ec_step in E'. cbv zeta in Er.
          destruct (include_path folder name) as [p| |]; cbn [zbind] in Er; try (injection Er as <-; exact I).
          destruct (load p) as [[inc m]| |]; cbn [zbind fst snd with_z e_z e_msg e_files] in Er; try (injection Er as <-; exact I).
          match type of Er with read_ec _ _ _ f close parent mc ?x = _ => destruct (after_error f close parent mc x) as [r3 [E3 S3]] end.
          + cbn [e_msg]. apply note_bad. right. destruct (str_eqb e (lit ">>")); [apply H2|apply fail_bad].
          + unfold esize. cbn [e_z]. rewrite modify_src. assert (G : esize s3 < f) by lia.
            destruct (str_eqb e (lit ">>")); exact G.
          + rewrite E3 in Er. injection Er as ->. exact S3. }
      2:{ rewrite H2. cbn [zbind]. intros [= <-] [= <-]. reflexivity. }
      pose proof (tok_ec_step _ _ _ H2) as Q2. rewrite H2. cbn [zbind]. cbv zeta.
      set (s3 := EST z2 None (e_files s2)) in *. change z2 with (e_z s3).
      destruct (include_path_ok name) as [p Ep]. rewrite Ep. cbn [zbind].
      destruct (str_eqb e (lit ">>")).
      2:{ intros [= <-] Er. destruct (load p) as [[inc m]| |]; cbn [zbind fst snd with_z e_z e_msg e_files] in Er; try (injection Er as <-; exact I).
          match type of Er with read_ec _ _ _ f close parent mc ?x = _ => destruct (after_error f close parent mc x) as [r3 [E3 S3]] end.
          + cbn [e_msg]. apply note_bad. right. apply fail_bad.
          + unfold esize. cbn [e_z]. rewrite modify_src. change (esize s3 < f). lia.
          + rewrite E3 in Er. injection Er as ->. exact S3. }
      assert (Ei : include name = load0 p) by (unfold include; rewrite Ep; reflexivity). rewrite Ei. pose proof (Hload p) as HL. destruct (load0 p) as [inc| |]; cbn [zbind].
      + rewrite HL. cbn [zbind fst snd note with_z e_z e_msg e_files]. intros Eo Er.
        destruct (IH close parent mc (EST (modify parent (fun n => append n inc) z2) None (e_files s ++ [p]))) as [o2 [r2 [Eo2 [Er2 S2]]]].
        { reflexivity. }
        { unfold esize. cbn [e_z]. rewrite modify_src. change (esize s3 < f). lia. }
        cbn [e_z] in Eo2. change (e_z s3) with z2 in Eo, Er. rewrite Eo2 in Eo. injection Eo as <-. change (e_msg s3) with (@None str) in Er. change (e_files s3) with (e_files s) in Er. rewrite Er2 in Er. injection Er as <-. exact S2.
      + intros [= <-] Er. destruct (load p) as [[inc m]| |]; cbn [zbind fst snd with_z e_z e_msg e_files] in Er; try (injection Er as <-; exact I).
        match type of Er with read_ec _ _ _ f close parent mc ?x = _ => destruct (after_error f close parent mc x) as [r3 [E3 S3]] end.
        * cbn [e_msg]. apply note_bad. left. exact HL.
        * unfold esize. cbn [e_z]. rewrite modify_src. change (esize s3 < f). lia.
        * rewrite E3 in Er. injection Er as ->. exact S3.
      + rewrite HL. cbn [zbind]. intros [= <-] [= <-]. reflexivity.
    - pose proof (item_head_ec_sim close parent (x :: t) s1 eq_refl) as H1.
      destruct (item_head get_zml_token close parent (x :: t) (e_z s1)) as [[[np u] z1]| |]; cbn [zbind].
      2:{ intros [= <-] Er. destruct (item_head_ec buffer close parent (x :: t) s1) as [[o2 s2]| |] eqn:E; cbn [zbind] in Er; try (injection Er as <-; exact I).
          apply item_head_step in E. destruct E as [C D]. destruct o2 as [[np u]|]; [|injection Er as <-; exact H1].
          assert (Hnest : forall c, zbind' (read_ec buffer folder load f c np (pn_size (z_macros (e_z s2))) s2)
              (read_ec buffer folder load f close parent mc) = Some r -> esim Throw r).
          { intros c Ec. destruct (layer_ec_enough f c np (pn_size (z_macros (e_z s2))) s2) as [q [Eq Q]]; [lia|].
            rewrite Eq in Ec. cbn [zbind'] in Ec. destruct q as [s3| |]; cbn [zbind] in Ec; try (injection Ec as <-; exact I).
            destruct (Q _ eq_refl) as [Q1 Q2]. destruct (after_error f close parent mc s3) as [r3 [E3 S3]]; [apply Q2, H1|lia|].
            rewrite E3 in Ec. injection Ec as <-. exact S3. }
          destruct (str_eqb u (lit "{")); [exact (Hnest _ Er)|]. destruct (str_eqb u (lit "[")); [exact (Hnest _ Er)|].
          destruct (assign_value_ec buffer np u s2) as [[go s3]| |] eqn:E4; cbn [zbind fst snd] in Er; try (injection Er as <-; exact I).
          apply assign_value_step in E4. destruct go; [|injection Er as <-; apply E4, H1].
          destruct (after_error f close parent mc s3) as [r3 [E3 S3]]; [apply E4, H1|lia|]. rewrite E3 in Er. injection Er as <-. exact S3. }
      2:{ rewrite H1. cbn [zbind]. intros [= <-] [= <-]. reflexivity. }
      pose proof (item_head_step _ _ _ _ _ _ H1) as Q. rewrite H1. cbn [zbind].
      set (s2 := EST z1 None (e_files s1)) in *. change z1 with (e_z s2).
      assert (Hnest : forall c, zbind' (read_zml_layer get_zml_token include f c np (pn_size (z_macros (e_z s2))) (e_z s2))
          (read_zml_layer get_zml_token include f close parent mc) = Some o ->
        zbind' (read_ec buffer folder load f c np (pn_size (z_macros (e_z s2))) s2)
          (read_ec buffer folder load f close parent mc) = Some r -> esim o r).
      { intros c Eo Er. destruct (IH c np (pn_size (z_macros (e_z s2))) s2 eq_refl) as [o2 [r2 [Eo2 [Er2 S2]]]]; [lia|].
        rewrite Eo2 in Eo. rewrite Er2 in Er. cbn [zbind'] in *.
        destruct (layer_ec_enough f c np (pn_size (z_macros (e_z s2))) s2) as [q [Eq W]]; [lia|]. rewrite Er2 in Eq. injection Eq as <-.
        destruct o2 as [z3| |]; cbn [esim zbind] in *.
        - destruct S2 as [fs ->]. cbn [zbind] in *. destruct (W _ eq_refl) as [W1 _].
          destruct (IH close parent mc (EST z3 None fs) eq_refl) as [o4 [r4 [Eo4 [Er4 S4]]]]; [lia|]. cbn [e_z] in Eo4.
          rewrite Eo4 in Eo. rewrite Er4 in Er. injection Eo as <-. injection Er as <-. exact S4.
        - injection Eo as <-. destruct r2 as [s3| |]; cbn [zbind] in Er; try (injection Er as <-; exact I).
          destruct (W _ eq_refl) as [W1 _]. destruct (after_error f close parent mc s3 S2) as [r3 [E3 S3]]; [lia|]. rewrite E3 in Er. injection Er as <-. exact S3.
        - subst r2. cbn [zbind] in Er. injection Eo as <-. injection Er as <-. reflexivity. }
      destruct (str_eqb u (lit "{")); [apply Hnest|]. destruct (str_eqb u (lit "[")); [apply Hnest|].
      unfold assign_value_ec. destruct (assign_value np u (e_z s2)) as [z3| |] eqn:E3; cbn [zbind fst snd].
      + apply assign_value_src in E3. cbn [with_z]. intros Eo Er.
        destruct (IH close parent mc (EST z3 None (e_files s2)) eq_refl) as [o4 [r4 [Eo4 [Er4 S4]]]].
        { unfold esize. cbn [e_z]. rewrite E3. fold (esize s2). lia. }
        cbn [e_z] in Eo4. rewrite Eo4 in Eo. change (e_msg s2) with (@None str) in Er. unfold with_z in Er. cbn [e_msg s2] in Er. rewrite Er4 in Er. injection Eo as <-. injection Er as <-. exact S4.
      + intros [= <-] [= <-]. apply fail_bad.
      + intros [= <-] [= <-]. reflexivity.
  Qed.
End Ec.

(** the whole document *)
Lemma parse_ec_sim folder load load0 text :
  (forall p, match load0 p with
    | Ok t => load p = Ok (t, None)
    | Throw => match load p with Ok (_, m) => m <> None | _ => True end
    | UB => load p = UB
    end) ->
  match parse_zml (fun n => do p <- include_path folder n; load0 p) text with
  | Ok t => exists fs, parse_zml_ec folder load text = Ok (t, None, fs)
  | Throw => match parse_zml_ec folder load text with Ok (_, m, _) => m <> None | _ => True end
  | UB => parse_zml_ec folder load text = UB
  end.
Proof.
  intros H. unfold parse_zml, parse_zml_stream, parse_zml_ec, cs_of_string. cbn [cs_rest].
  destruct (layer_ec_sim text folder load load0 H (S (length text)) [] (Loc false []) 0 (EST (ZSt (CS text false false) pn_empty pn_empty) None []) eq_refl) as [o [r [Eo [Er S]]]].
  { unfold esize, csize. cbn. lia. }
  cbn [e_z] in Eo. rewrite Eo, Er. destruct o as [z| |]; cbn [omap esim] in *.
  - destruct S as [fs ->]. exists fs. reflexivity.
  - destruct r as [s| |]; cbn [omap]; auto.
  - subst r. reflexivity.
Qed.
