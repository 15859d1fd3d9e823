(** Whole files: loading with and without an error code, saving and loading. *)
From Coq Require Import Ascii String List Arith NArith Bool Lia ZArith.
From Verif Require Import Base BaseProofs Str StrSpec StrModel StrBase StrProofs PnSpec PnModel PnProofs PnProofs2 TokSpec TokModel
  ZmlSpec ZmlModel ZmlLex ZmlProofs IniSpec IniModel IniProofs XmlSpec XmlModel XmlProofs PathModel PathProofs SerModel SerProofs SerProofs2.
Import ListNotations.

(** with and without error code *)
Definition agrees {A} (o : outcome A) (r : outcome (A * option str)) : Prop :=
  match o with
  | Ok t => r = Ok (t, None)
  | Throw => match r with Ok (_, m) => m <> None | _ => True end
  | UB => r = UB
  end.

Lemma ini_sim f : forall text s, agrees (ini_loop f text s) (ini_loop_ec f text s).
Proof.
  induction f as [|f IH]; intros text s; [reflexivity|]. cbn [ini_loop ini_loop_ec].
  destruct (getline 1023 text) as [[buf rest] []].
  - destruct (ini_process s buf); cbn; auto.
  - destruct (ini_process s buf) as [s'| |]; cbn [obind]; [apply IH|exact I|reflexivity].
  - discriminate.
Qed.
Lemma read_ini_sim text : agrees (read_ini pn_empty text) (read_ini_ec text).
Proof.
  unfold read_ini, read_ini_ec. pose proof (ini_sim (S (length text)) text (IniSt pn_empty None)) as H.
  destruct (ini_loop _ _ _) as [s| |]; cbn [agrees omap] in *.
  - rewrite H. reflexivity.
  - destruct (ini_loop_ec _ _ _) as [[s m]| |]; cbn [omap fst snd]; auto.
  - rewrite H. reflexivity.
Qed.

Lemma load_zml_sim d k : forall p, agrees (load_zml d k p) (omap fst (load_zml_ec d k p)).
Proof.
  induction k as [|k IH]; intros p; [reflexivity|]. cbn [load_zml load_zml_ec].
  destruct (load_string d p None) as [[text ec]| |]; cbn [obind fst omap]; [|exact I|reflexivity].
  destruct (parent_path p) as [folder| |]; cbn [obind omap]; [|exact I|reflexivity].
  pose proof (parse_ec_sim folder (fun p => omap fst (load_zml_ec d k p)) (load_zml d k) text) as H.
  assert (Hl : forall p, match load_zml d k p with
    | Ok t => omap fst (load_zml_ec d k p) = Ok (t, None)
    | Throw => match omap fst (load_zml_ec d k p) with Ok (_, m) => m <> None | _ => True end
    | UB => omap fst (load_zml_ec d k p) = UB end) by exact IH. specialize (H Hl).
  destruct (parse_zml _ text) as [t| |]; cbn [agrees].
  - destruct H as [fs H]. cbn beta in H. rewrite H. reflexivity.
  - cbn beta in H. destruct (parse_zml_ec _ _ text) as [[[t m] fs]| |]; cbn [omap fst]; auto.
  - cbn beta in H. rewrite H. reflexivity.
Qed.
Lemma read_zml_sim d k folder text :
  agrees (parse_zml (fun n => do p <- include_path folder n; load_zml d k p) text)
    (omap fst (parse_zml_ec folder (fun p => omap fst (load_zml_ec d k p)) text)).
Proof.
  pose proof (parse_ec_sim folder (fun p => omap fst (load_zml_ec d k p)) (load_zml d k) text (load_zml_sim d k)) as H.
  destruct (parse_zml _ text) as [t| |]; cbn [agrees].
  - destruct H as [fs H]. cbn beta in H. rewrite H. reflexivity.
  - cbn beta in H. destruct (parse_zml_ec _ _ text) as [[[t m] fs]| |]; cbn [omap fst]; auto.
  - cbn beta in H. rewrite H. reflexivity.
Qed.

(** the same for files *)
Definition file_agrees (e0 : error) (o r : outcome (pn * ecptr)) : Prop :=
  match o with
  | Ok (t, ec) => ec = None /\ r = Ok (t, Some e0)
  | Throw => match r with Ok (_, ec) => exists m, ec = Some (Err (-1) m) | _ => True end
  | UB => r = UB
  end.
Lemma read_stream_sim d k f folder text e0 : file_agrees e0 (read_stream d k f folder text None) (read_stream d k f folder text (Some e0)).
Proof.
  destruct f; cbn [read_stream].
  - destruct (xml_read pn_empty text); cbn; auto.
  - pose proof (read_ini_sim text) as H. destruct (read_ini pn_empty text) as [t| |]; cbn [agrees obind] in *.
    + rewrite H. split; reflexivity.
    + destruct (read_ini_ec text) as [[t m]| |]; cbn [obind file_agrees fst snd noted]; auto. destruct m as [m|]; [exists m; reflexivity|congruence].
    + rewrite H. reflexivity.
  - pose proof (read_zml_sim d k folder text) as H. destruct (parse_zml _ text) as [t| |]; cbn [agrees obind] in *.
    + destruct (parse_zml_ec _ _ text) as [[[u m] fs]| |]; cbn [omap fst] in H; try discriminate. injection H as -> ->. split; reflexivity.
    + destruct (parse_zml_ec _ _ text) as [[[u m] fs]| |]; cbn [omap obind file_agrees fst snd noted] in *; auto. destruct m as [m|]; [exists m; reflexivity|congruence].
    + destruct (parse_zml_ec _ _ text) as [[[u m] fs]| |]; cbn [omap fst] in H; try discriminate. reflexivity.
Qed.
Lemma serializer_load_sim d k f name e0 : file_agrees e0 (serializer_load d k f name None) (serializer_load d k f name (Some e0)).
Proof.
  unfold serializer_load. destruct (contents d name) as [text|].
  - destruct (parent_path name) as [folder| |]; cbn [obind]; [apply read_stream_sim|exact I|reflexivity].
  - cbn. eexists. reflexivity.
Qed.
Lemma load_file_as_sim d k name type e0 : file_agrees e0 (load_file_as d k name type None) (load_file_as d k name type (Some e0)).
Proof.
  unfold load_file_as, make_serializer. destruct (try_create type) as [f|]; cbn [obind fst snd]; [apply serializer_load_sim|].
  cbn. eexists. reflexivity.
Qed.
Lemma load_file_sim d k name e0 : file_agrees e0 (load_file d k name None) (load_file d k name (Some e0)).
Proof.
  unfold load_file. destruct (extension_no_dot name) as [ext| |]; cbn [obind]; [|exact I|reflexivity].
  unfold make_serializer. destruct (try_create ext) as [f|]; cbn [obind fst snd]; [apply serializer_load_sim|].
  cbn. eexists. reflexivity.
Qed.

(** * names *)
Lemma ext_of p e : ~ In "."%char e -> extension_no_dot (p ++ "."%char :: e) = Ok e.
Proof.
  intros He. unfold extension_no_dot. destruct (find_last_of_spec (p ++ "."%char :: e) (lit ".")) as [[H _]|(a & c & b & E & Hc & Hb & ->)].
  - exfalso. apply Forall_app in H. destruct H as [_ H]. inversion H; subst. apply H2. left. reflexivity.
  - destruct Hc as [<-|[]].
    assert (Eb : p = a /\ e = b).
    { assert (Hb' : ~ In "."%char b) by (intros Hi; rewrite Forall_forall in Hb; apply (Hb _ Hi); left; reflexivity).
      revert a E. induction p as [|x p IH]; intros [|y a] E; cbn [app] in E.
      - injection E as <-. auto.
      - injection E as <- ->. exfalso. apply He. apply in_or_app. right. left. reflexivity.
      - injection E as -> <-. exfalso. apply Hb'. apply in_or_app. right. left. reflexivity.
      - injection E as -> E. destruct (IH a E) as [-> ->]. auto. }
    destruct Eb as [-> ->]. pose proof (substr_end (a ++ ["."%char]) b) as S. rewrite app_length in S. cbn [length] in S. rewrite <- app_assoc in S. exact S.
Qed.
Definition ext (f : format) : str := match f with Xml => lit "xml" | Ini => lit "ini" | Zml => lit "zml" end.
Definition named (p : str) (f : format) : str := p ++ "."%char :: ext f.
Lemma named_ext p f : extension_no_dot (named p f) = Ok (ext f).
Proof. apply ext_of. destruct f; cbn; intuition discriminate. Qed.
Lemma create_ext f : try_create (ext f) = Some f.
Proof. destruct f; reflexivity. Qed.

(** * saving *)
Lemma put_same d name text : contents (put d name text) name = Some text.
Proof. unfold put. cbn. rewrite (proj2 (str_eqb_eq name name) eq_refl). reflexivity. Qed.
Lemma put_other d name text n : n <> name -> contents (put d name text) n = contents d n.
Proof. intros H. unfold put. cbn. destruct (str_eqb n name) eqn:E; [apply str_eqb_eq in E; congruence|reflexivity]. Qed.

Lemma save_ok d t p f ec text : can_write d (named p f) = true -> write_stream f t = Ok text ->
  save_file d t (named p f) ec = (put d (named p f) text, Ok (saved ec, ec)).
Proof. intros Hw Ht. unfold save_file. rewrite named_ext. cbn [obind]. unfold make_serializer. rewrite create_ext. cbn [save_with]. unfold serializer_save. rewrite Hw, Ht. reflexivity. Qed.
Lemma parent_path_ok p : exists q, parent_path p = Ok q.
Proof.
  unfold parent_path. destruct (last_separator_pos p) as [n|]; [|eexists; reflexivity]. unfold substr. cbn. eexists. reflexivity.
Qed.
Lemma load_ok d k p f text t ec : contents d (named p f) = Some text ->
  (forall folder, read_stream d k f folder text None = Ok (t, None)) -> load_file d k (named p f) ec = Ok (t, ec).
Proof.
  intros Hc Hr. assert (H : load_file d k (named p f) None = Ok (t, None)).
  { unfold load_file. rewrite named_ext. cbn [obind]. unfold make_serializer. rewrite create_ext. cbn [obind fst snd]. unfold serializer_load. rewrite Hc.
    destruct (parent_path_ok (named p f)) as [q ->]. cbn [obind]. apply Hr. }
  destruct ec as [e|]; [|exact H]. pose proof (load_file_sim d k (named p f) e) as G. rewrite H in G. apply G.
Qed.

(** trees that a format can hold *)
Definition fits (f : format) (t : pn) : Prop :=
  match f with
  | Zml => tree_ok true t = true
  | Ini => ini_tree t
  | Xml => pn_value t = [] /\ exists k c, pn_children t = [(k, c)] /\ element_name k /\ xml_like c
  end.
Lemma same_sym t : forall u, same_tree t u -> same_tree u t.
Proof.
  induction t as [v cs a IH] using pn_ind'. intros u H. inversion H as [v' cs1 cs2 a1 a2 F E1 E2]; subst. constructor.
  clear H. induction F as [|x y l l' [E S] F IHF]; constructor.
  - split; [auto|]. inversion IH; subst. auto.
  - apply IHF. inversion IH; subst. assumption.
Qed.
Lemma fits_round f t : fits f t -> exists text t', write_stream f t = Ok text /\ same_tree t t' /\
  forall d' k folder, read_stream d' k f folder text None = Ok (t', None).
Proof.
  destruct f; cbn [fits write_stream read_stream].
  - intros [Hv [k [c [Hc [Hk Hx]]]]]. destruct t as [v cs a]. cbn in Hv, Hc. subst v cs.
    destruct (roundtrip_assembled pn_empty [] k c [] a (Forall_cons (k, c) (conj Hk Hx) (Forall_nil _))) as [c' [E S]].
    exists (xml_write (PN [] [(k, c)] a)), (add_child pn_empty k c'). split; [reflexivity|]. split.
    + constructor. repeat constructor. exact S.
    + intros. rewrite E. reflexivity.
  - intros H. destruct (round_trip_assembled t H) as [t' [E S]]. exists (write_ini t), t'. split; [reflexivity|]. split; [exact S|]. intros. rewrite E. reflexivity.
  - intros H. destruct (round_trip (fun _ => UB) t H) as [text [t' [E [E2 S]]]]. exists text, t'. split; [exact E|]. split; [apply same_sym; exact S|]. intros.
    destruct (parse_deeper (fun _ => UB) (fun n => do p <- include_path folder n; load_zml d' k p) (fun n => or_introl eq_refl) text) as [Hu|Hu]; [congruence|].
    rewrite Hu, E2. reflexivity.
Qed.
Lemma save_load d p f t ec : fits f t -> can_write d (named p f) = true ->
  exists d', save_file d t (named p f) ec = (d', Ok (saved ec, ec)) /\
    (forall n, n <> named p f -> contents d' n = contents d n) /\
    exists t', same_tree t t' /\ forall k ec', load_file d' k (named p f) ec' = Ok (t', ec').
Proof.
  intros Hf Hw. destruct (fits_round f t Hf) as [text [t' [E [S R]]]]. exists (put d (named p f) text).
  split; [apply save_ok; assumption|]. split; [intros n Hn; apply put_other; exact Hn|]. exists t'. split; [exact S|].
  intros k ec'. apply (load_ok _ _ _ _ text); [apply put_same|]. intros folder. apply R.
Qed.

(** what a result of save_file means *)
Lemma save_result d t name ec d' b ec' : save_file d t name ec = (d', Ok (b, ec')) ->
  (exists f text, extension_no_dot name = Ok (ext f) /\ can_write d name = true /\ write_stream f t = Ok text /\ d' = put d name text /\ ec' = ec /\ b = saved ec) \/
  (d' = d /\ b = false /\ ec <> None /\ exists m, ec' = Some (Err (-1) m)).
Proof.
  unfold save_file. destruct (extension_no_dot name) as [e| |] eqn:Ee; cbn [obind save_with]; try discriminate.
  unfold make_serializer. destruct (try_create e) as [f|] eqn:Et.
  - cbn [save_with]. unfold serializer_save. destruct (can_write d name) eqn:Ew.
    + destruct (write_stream f t) as [text| |] eqn:Ex; cbn [omap]; try discriminate. intros [= <- <- <-]. left. exists f, text.
      assert (e = ext f).
      { unfold try_create, formats in Et. cbn [List.find fst] in Et.
        destruct (str_eqb (lit "xml") e) eqn:E1; [apply str_eqb_eq in E1; injection Et as <-; auto|].
        destruct (str_eqb (lit "ini") e) eqn:E2; [apply str_eqb_eq in E2; injection Et as <-; auto|].
        destruct (str_eqb (lit "zml") e) eqn:E3; [apply str_eqb_eq in E3; injection Et as <-; auto|discriminate]. }
      subst e. auto 8.
    + destruct ec as [e0|]; cbn; intros [= <- <- <-]. right. repeat split; try discriminate. eexists. reflexivity.
  - destruct ec as [e0|]; cbn; intros [= <- <- <-]. right. repeat split; try discriminate. eexists. reflexivity.
Qed.

(** the ZML file that consists of an included file *)
Lemma load_included d k name file folder t : contents d name = Some (includes file) -> parent_path name = Ok folder -> token_ok file = true ->
  (exists p, include_path folder file = Ok p /\ load_zml d k p = Ok t) -> load_zml d (S k) name = Ok (PN [] (pn_children t) false).
Proof.
  intros Hc Hp Hf [p [E1 E2]]. cbn [load_zml]. unfold load_string. rewrite Hc. cbn [obind fst]. rewrite Hp. cbn [obind].
  rewrite parse_includes by exact Hf. rewrite E1. cbn [obind]. rewrite E2. reflexivity.
Qed.
Lemma load_cycle d name file folder : contents d name = Some (includes file) -> parent_path name = Ok folder -> token_ok file = true ->
  include_path folder file = Ok name -> forall k, load_zml d k name = UB.
Proof.
  intros Hc Hp Hf Hi k. induction k as [|k IH]; [reflexivity|]. cbn [load_zml]. unfold load_string. rewrite Hc. cbn [obind fst]. rewrite Hp. cbn [obind].
  rewrite parse_includes by exact Hf. rewrite Hi. cbn [obind]. rewrite IH. reflexivity.
Qed.
