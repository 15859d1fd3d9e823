(** Theorems about loading and saving property trees as files: error codes, round trips through the file system, files included in ZML documents. *)
From Coq Require Import Ascii String List Arith NArith Bool Lia ZArith.
From Verif Require Import Base Str StrSpec StrModel StrBase StrProofs PnSpec PnModel TokSpec TokModel ZmlSpec ZmlModel ZmlProofs IniSpec IniModel XmlSpec XmlModel PathModel
  SerModel SerProofs SerProofs2 SerProofs3.
Import ListNotations.

Definition one (name text : str) : disk := Disk (fun n => if str_eqb n name then Some text else None) (fun _ => true).
Definition nl : str := ["010"%char].

(** ** C148: an error code instead of exceptions changes how failure is reported, not what is loaded *)
Theorem C148_same_tree (d : disk) (depth : nat) (name : str) (e : error) :
  match load_file d depth name None with
  | Ok (t, _) => load_file d depth name (Some e) = Ok (t, Some e)
  | Throw => forall t ec, load_file d depth name (Some e) = Ok (t, ec) -> exists m, ec = Some (Err (-1) m)
  | UB => load_file d depth name (Some e) = UB
  end.
Proof.
  pose proof (load_file_sim d depth name e) as H. destruct (load_file d depth name None) as [[t ec]| |]; cbn in H.
  - exact (proj2 H).
  - intros t ec E. rewrite E in H. exact H.
  - exact H.
Qed.
Print Assumptions C148_same_tree.
(** the same when the caller names the format *)
Theorem C148_same_tree_as (d : disk) (depth : nat) (name type : str) (e : error) :
  match load_file_as d depth name type None with
  | Ok (t, _) => load_file_as d depth name type (Some e) = Ok (t, Some e)
  | Throw => forall t ec, load_file_as d depth name type (Some e) = Ok (t, ec) -> exists m, ec = Some (Err (-1) m)
  | UB => load_file_as d depth name type (Some e) = UB
  end.
Proof.
  pose proof (load_file_as_sim d depth name type e) as H. destruct (load_file_as d depth name type None) as [[t ec]| |]; cbn in H.
  - exact (proj2 H).
  - intros t ec E. rewrite E in H. exact H.
  - exact H.
Qed.
Print Assumptions C148_same_tree_as.
(** so an error code that is still good after the call means that the tree is the one the call without error code gives *)
Theorem C148_good_means_loaded (d : disk) (depth : nat) (name : str) (t : pn) (e : error) :
  load_file d depth name (Some no_error) = Ok (t, Some e) -> err_good e = true -> load_file d depth name None = Ok (t, None).
Proof.
  intros H G. pose proof (load_file_sim d depth name no_error) as S. destruct (load_file d depth name None) as [[u ec]| |]; cbn in S.
  - destruct S as [-> S]. rewrite S in H. injection H as -> _. reflexivity.
  - rewrite H in S. destruct S as [m [= ->]]. discriminate.
  - rewrite S in H. discriminate.
Qed.
Print Assumptions C148_good_means_loaded.
(** a text that the reader refuses: the message is that of the last error found, which here is about the brace that the reader of the nested block left behind *)
Theorem C148_first_error_refuted :
  let text := lit "a = {" ++ nl ++ lit "b b" ++ nl ++ lit "}" ++ nl in
  load_file (one (lit "x.zml") text) 9 (lit "x.zml") None = Throw /\
  exists t, load_file (one (lit "x.zml") text) 9 (lit "x.zml") (Some no_error) = Ok (t, Some (Err (-1) (lit "Error parsing line 4: Expected '=', ':', '{' or '['"))).
Proof. vm_compute. split; [reflexivity|]. eexists. reflexivity. Qed.
Print Assumptions C148_first_error_refuted.
Example C148_case : let d := one (lit "x.zml") (lit "a = { b = 1 }") in
  load_file d 9 (lit "x.zml") None = Ok (PN [] [(lit "a", PN [] [(lit "b", PN (lit "1") [] false)] false)] false, None) /\
  load_file d 9 (lit "x.zml") (Some no_error) = Ok (PN [] [(lit "a", PN [] [(lit "b", PN (lit "1") [] false)] false)] false, Some no_error).
Proof. vm_compute. auto. Qed.

(** ** C149: with an error code there is no exception *)
(** a file that cannot be opened, and a format that is not known *)
Theorem C149_absent_partial (d : disk) (depth : nat) (name : str) (e : error) :
  (forall f, extension_no_dot name = Ok (ext f) -> contents d name = None ->
     load_file d depth name None = Throw /\ load_file d depth name (Some e) = Ok (pn_empty, Some (Err (-1) (lit "Could not open " ++ name)))) /\
  (forall type, extension_no_dot name = Ok type -> (forall f, type <> ext f) ->
     load_file d depth name None = Throw /\ load_file d depth name (Some e) = Ok (pn_empty, Some (Err (-1) (lit "Unsupported file format for " ++ name)))).
Proof.
  split.
  - intros f Hf Hc. unfold load_file. rewrite Hf. cbn [obind]. unfold make_serializer. rewrite create_ext. cbn [obind fst snd]. unfold serializer_load. rewrite Hc. split; reflexivity.
  - intros type Ht Hn. unfold load_file. rewrite Ht. cbn [obind]. assert (E : try_create type = None).
    { unfold try_create, formats. cbn [List.find fst]. destruct (str_eqb (lit "xml") type) eqn:E1; [apply str_eqb_eq in E1; exfalso; apply (Hn Xml); auto|].
      destruct (str_eqb (lit "ini") type) eqn:E2; [apply str_eqb_eq in E2; exfalso; apply (Hn Ini); auto|].
      destruct (str_eqb (lit "zml") type) eqn:E3; [apply str_eqb_eq in E3; exfalso; apply (Hn Zml); auto|reflexivity]. }
    unfold make_serializer. rewrite E. split; reflexivity.
Qed.
Print Assumptions C149_absent_partial.
(** a ZML document without "<", "$" and a last backslash: the call returns, whatever the document *)
Theorem C149_zml_returns_partial (d : disk) (depth : nat) (p text : str) (e : error) :
  let name := p ++ lit ".zml" in
  contents d name = Some text -> last text nul <> bslash -> ~ In "$"%char text -> ~ In "<"%char text ->
  exists t e', load_file d depth name (Some e) = Ok (t, Some e') /\ (e' = e \/ err_code e' = (-1)%Z).
Proof.
  cbn zeta. intros Hc H1 H2 H3. change (p ++ lit ".zml") with (named p Zml) in *.
  unfold load_file. rewrite named_ext. cbn [obind]. unfold make_serializer. rewrite create_ext. cbn [obind fst snd]. unfold serializer_load. rewrite Hc.
  destruct (parent_path_ok (named p Zml)) as [q ->]. cbn [obind read_stream].
  destruct (parse_total q (fun p0 => omap fst (load_zml_ec d depth p0)) text (conj H1 (conj H2 H3))) as [[[t m] fs] E].
  rewrite E. cbn [obind fst snd]. destruct m as [m|]; cbn [noted].
  - eexists. eexists. split; [reflexivity|right; reflexivity].
  - eexists. eexists. split; [reflexivity|left; reflexivity].
Qed.
Print Assumptions C149_zml_returns_partial.
(** exceptions in spite of the error code: a malformed XML document, an INI line without "=", an included file that is not there *)
Theorem C149_no_exception_refuted :
  load_file (one (lit "x.xml") (lit "<a>")) 9 (lit "x.xml") (Some no_error) = Throw /\
  load_file (one (lit "x.ini") (lit "a")) 9 (lit "x.ini") (Some no_error) = Throw /\
  load_file (one (lit "x.zml") (lit "<< y.zml >>")) 9 (lit "x.zml") (Some no_error) = Throw.
Proof. vm_compute. auto. Qed.
Print Assumptions C149_no_exception_refuted.
Example C149_case : exists t m, load_file (one (lit "x.zml") (lit "a = { b b } } = [")) 9 (lit "x.zml") (Some no_error) = Ok (t, Some (Err (-1) m)) /\
  load_file (one (lit "x.zml") []) 9 (lit "x.txt") (Some no_error) = Ok (pn_empty, Some (Err (-1) (lit "Unsupported file format for x.txt"))) /\
  load_file (one (lit "x.zml") []) 9 (lit "y.zml") (Some no_error) = Ok (pn_empty, Some (Err (-1) (lit "Could not open y.zml"))).
Proof. vm_compute. eexists. eexists. auto. Qed.

(** ** C150: a tree that is saved and loaded again *)
Definition survives (d : disk) (t : pn) (name : str) (ec : ecptr) : Prop :=
  exists d', save_file d t name ec = (d', Ok (saved ec, ec)) /\
    (forall n, n <> name -> contents d' n = contents d n) /\
    exists t', same_tree t t' /\ forall depth ec', load_file d' depth name ec' = Ok (t', ec').
Theorem C150_zml_file (d : disk) (p : str) (t : pn) (ec : ecptr) :
  tree_ok true t = true -> can_write d (p ++ lit ".zml") = true -> survives d t (p ++ lit ".zml") ec.
Proof. exact (save_load d p Zml t ec). Qed.
Print Assumptions C150_zml_file.
Theorem C150_ini_file (d : disk) (p : str) (t : pn) (ec : ecptr) :
  ini_tree t -> can_write d (p ++ lit ".ini") = true -> survives d t (p ++ lit ".ini") ec.
Proof. exact (save_load d p Ini t ec). Qed.
Print Assumptions C150_ini_file.
Theorem C150_xml_file (d : disk) (p k : str) (c : pn) (a : bool) (ec : ecptr) :
  element_name k -> xml_like c -> can_write d (p ++ lit ".xml") = true -> survives d (PN [] [(k, c)] a) (p ++ lit ".xml") ec.
Proof. intros Hk Hc. exact (save_load d p Xml (PN [] [(k, c)] a) ec (conj eq_refl (ex_intro _ k (ex_intro _ c (conj eq_refl (conj Hk Hc)))))). Qed.
Print Assumptions C150_xml_file.
Definition sample : pn := PN [] [(lit "run", PN [] [(lit "seed", PN (lit "42") [] false); (lit "name", PN (lit "two words") [] false)] false)] false.
Example C150_case : tree_ok true sample = true /\
  let '(d', o) := save_file (one (lit "old.zml") (lit "x = 1")) sample (lit "new.zml") None in
  o = Ok (true, None) /\ contents d' (lit "old.zml") = Some (lit "x = 1") /\ load_file d' 9 (lit "new.zml") None = Ok (sample, None).
Proof. vm_compute. auto. Qed.

(** ** C151: what the result of a save means *)
(** true: the text of the format given by the extension is in the file *)
Theorem C151_true_means_written (d : disk) (t : pn) (name : str) (ec : ecptr) (d' : disk) (ec' : ecptr) :
  save_file d t name ec = (d', Ok (true, ec')) ->
  exists f text, extension_no_dot name = Ok (ext f) /\ write_stream f t = Ok text /\
    contents d' name = Some text /\ forall n, n <> name -> contents d' n = contents d n.
Proof.
  intros H. apply save_result in H. destruct H as [(f & text & E1 & E2 & E3 & -> & -> & E4)|(_ & E & _)]; [|discriminate].
  exists f, text. split; [exact E1|]. split; [exact E3|]. split; [apply put_same|]. intros n. apply put_other.
Qed.
Print Assumptions C151_true_means_written.
(** false, for an error code that was good: nothing was written and the error code has the error *)
Theorem C151_false_means_untouched (d : disk) (t : pn) (name : str) (d' : disk) (ec' : ecptr) :
  save_file d t name (Some no_error) = (d', Ok (false, ec')) -> d' = d /\ exists e, ec' = Some e /\ err_good e = false.
Proof.
  intros H. apply save_result in H. destruct H as [(f & text & E1 & E2 & E3 & -> & -> & E4)|(-> & _ & _ & m & ->)]; [discriminate|].
  split; [reflexivity|]. eexists. split; reflexivity.
Qed.
Print Assumptions C151_false_means_untouched.
(** a file that cannot be created, and a format that is not known: an exception without error code, and false with one; the files are as before *)
Theorem C151_refused (d : disk) (t : pn) (name : str) :
  (exists type, extension_no_dot name = Ok type /\ forall f, type <> ext f) \/ (can_write d name = false /\ exists f, extension_no_dot name = Ok (ext f)) ->
  save_file d t name None = (d, Throw) /\ forall e, exists m, save_file d t name (Some e) = (d, Ok (false, Some (Err (-1) m))).
Proof.
  intros [[type [E N]]|[W [f E]]]; unfold save_file; rewrite E; cbn [obind]; unfold make_serializer.
  - assert (Et : try_create type = None).
    { unfold try_create, formats. cbn [List.find fst]. destruct (str_eqb (lit "xml") type) eqn:E1; [apply str_eqb_eq in E1; exfalso; apply (N Xml); auto|].
      destruct (str_eqb (lit "ini") type) eqn:E2; [apply str_eqb_eq in E2; exfalso; apply (N Ini); auto|].
      destruct (str_eqb (lit "zml") type) eqn:E3; [apply str_eqb_eq in E3; exfalso; apply (N Zml); auto|reflexivity]. }
    rewrite Et. split; [reflexivity|]. intros e. eexists. reflexivity.
  - rewrite create_ext. cbn [save_with]. unfold serializer_save. rewrite W. split; [reflexivity|]. intros e. eexists. reflexivity.
Qed.
Print Assumptions C151_refused.
(** an error code that has an old error makes the result false, although the file is written *)
Theorem C151_result_refuted (d : disk) (p : str) (t : pn) (e : error) :
  tree_ok true t = true -> can_write d (p ++ lit ".zml") = true -> err_good e = false ->
  exists d' text, save_file d t (p ++ lit ".zml") (Some e) = (d', Ok (false, Some e)) /\ write_zml t = Ok text /\ contents d' (p ++ lit ".zml") = Some text.
Proof.
  intros Ht Hw He. change (p ++ lit ".zml") with (named p Zml) in *. destruct (fits_round Zml t Ht) as [text [t' [E _]]].
  exists (put d (named p Zml) text), text. rewrite (save_ok d t p Zml (Some e) text Hw E). cbn [saved]. rewrite He. split; [reflexivity|]. split; [exact E|apply put_same].
Qed.
Print Assumptions C151_result_refuted.
(** a tree that cannot be written as ZML, such as a value without a label that is not in an array, throws, with an error code as well, after the file has been emptied *)
Theorem C151_keeps_old_file_refuted :
  let t := PN [] [(lit "a", PN (lit "0") [] false); ([], PN (lit "1") [] false)] false in
  forall ec, let '(d', o) := save_file (one (lit "x.zml") (lit "b = 1")) t (lit "x.zml") ec in o = Throw /\ contents d' (lit "x.zml") <> Some (lit "b = 1").
Proof. cbn zeta. intros ec. destruct ec; vm_compute; (split; [reflexivity|discriminate]). Qed.
Print Assumptions C151_keeps_old_file_refuted.
Example C151_case : snd (save_file (Disk (fun _ => None) (fun _ => false)) sample (lit "x.zml") (Some no_error)) = Ok (false, Some (Err (-1) (lit "Could not create x.zml"))) /\
  snd (save_file (one [] []) sample (lit "x.zml") (Some (Err 7 (lit "old")))) = Ok (false, Some (Err 7 (lit "old"))).
Proof. vm_compute. auto. Qed.

(** ** C152: ZML files that include others *)
(** the depth of inclusion the stack allows does not matter, once it is enough *)
Theorem C152_deeper (d : disk) (k : nat) (name : str) (t : pn) :
  load_zml d k name = Ok t -> forall j, k <= j -> load_zml d j name = Ok t.
Proof. intros H j Hj. destruct (load_deeper d k name) as [E|E]; [congruence|]. rewrite (E j Hj). exact H. Qed.
Print Assumptions C152_deeper.
(** a tree is saved, and another file includes it by its name relative to the folder of that file: loading the other file gives the children of the tree *)
Theorem C152_include_saved (d : disk) (p file folder main : str) (t : pn) :
  tree_ok true t = true -> token_ok file = true -> can_write d (p ++ lit ".zml") = true ->
  contents d (main ++ lit ".zml") = Some (includes file) -> main <> p ->
  parent_path (main ++ lit ".zml") = Ok folder -> include_path folder file = Ok (p ++ lit ".zml") ->
  exists d' cs, save_file d t (p ++ lit ".zml") None = (d', Ok (true, None)) /\
    Forall2 (fun x y => fst x = fst y /\ same_tree (snd x) (snd y)) (pn_children t) cs /\
    forall k ec, load_file d' (S k) (main ++ lit ".zml") ec = Ok (PN [] cs false, ec).
Proof.
  intros Ht Hf Hw Hc Hn Hp Hi. change (p ++ lit ".zml") with (named p Zml) in *. change (main ++ lit ".zml") with (named main Zml) in *.
  destruct (fits_round Zml t Ht) as [text [t' [E [Sm R]]]]. exists (put d (named p Zml) text), (pn_children t').
  assert (Hd : named main Zml <> named p Zml) by (unfold named; intros Q; apply app_inv_tail in Q; auto).
  split; [apply (save_ok d t p Zml None text Hw E)|]. split; [inversion Sm; subst; cbn; assumption|].
  intros k ec. assert (L : load_zml (put d (named p Zml) text) (S k) (named p Zml) = Ok t').
  { cbn [load_zml]. unfold load_string. rewrite put_same. cbn [obind fst]. destruct (parent_path_ok (named p Zml)) as [q ->]. cbn [obind].
    specialize (R (put d (named p Zml) text) k q). cbn [read_stream] in R. destruct (parse_zml _ text) as [u| |]; cbn [obind] in R; try discriminate. injection R as ->. reflexivity. }
  assert (M : load_file (put d (named p Zml) text) (S k) (named main Zml) None = Ok (PN [] (pn_children t') false, None)).
  { unfold load_file. rewrite named_ext. cbn [obind]. unfold make_serializer. rewrite create_ext. cbn [obind fst snd]. unfold serializer_load.
    rewrite put_other by exact Hd. rewrite Hc, Hp. cbn [obind read_stream]. rewrite parse_includes by exact Hf. rewrite Hi. cbn [obind]. rewrite L. reflexivity. }
  destruct ec as [e|]; [|exact M]. pose proof (load_file_sim (put d (named p Zml) text) (S k) (named main Zml) e) as G. rewrite M in G. exact (proj2 G).
Qed.
Print Assumptions C152_include_saved.
(** a document that includes itself is not refused: it is read again and again, until the stack is used up *)
Theorem C152_cycle_refuted (d : disk) (name file folder : str) :
  contents d name = Some (includes file) -> parent_path name = Ok folder -> token_ok file = true -> include_path folder file = Ok name ->
  forall depth, load_zml d depth name = UB.
Proof. exact (load_cycle d name file folder). Qed.
Print Assumptions C152_cycle_refuted.
(** included_files has the files that the document itself includes, not those that they include *)
Theorem C152_included_files_refuted :
  let d := Disk (fun n => if str_eqb n (lit "a.zml") then Some (lit "<< b.zml >>") else if str_eqb n (lit "b.zml") then Some (lit "<< c.zml >>")
                          else if str_eqb n (lit "c.zml") then Some (lit "x = 1") else None) (fun _ => true) in
  load_zml_ec d 9 (lit "a.zml") = Ok (PN [] [(lit "x", PN (lit "1") [] false)] false, None, [lit "b.zml"]).
Proof. vm_compute. reflexivity. Qed.
Print Assumptions C152_included_files_refuted.
Example C152_case :
  let d := one (lit "cfg/main.zml") (includes (lit "part.zml")) in
  parent_path (lit "cfg/main.zml") = Ok (lit "cfg") /\ include_path (lit "cfg") (lit "part.zml") = Ok (lit "cfg/part.zml") /\ token_ok (lit "part.zml") = true /\
  (let '(d', o) := save_file d sample (lit "cfg/part.zml") None in load_file d' 3 (lit "cfg/main.zml") None = Ok (sample, None)) /\
  includes (lit "part.zml") = lit "<< part.zml >>".
Proof. vm_compute. auto 8. Qed.
Example C152_cycle_case : let d := one (lit "a.zml") (lit "<< a.zml >>") in load_zml d 20 (lit "a.zml") = UB /\ include_path [] (lit "a.zml") = Ok (lit "a.zml").
Proof. vm_compute. auto. Qed.
