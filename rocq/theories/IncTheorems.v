(** C24: loading files with include directives. *)
From Coq Require Import Ascii String List Arith.
From Verif Require Import Base Str StrSpec PnSpec PnModel PathModel IncSpec IncModel IncProofs.
Import ListNotations.

Definition leaf_of (s : string) : pn := pn_of_value (lit s).
Definition inc_node (f : string) : str * pn := (lit "INCLUDE", PN [] [(lit "file", leaf_of f)] false).
Definition merge_node (f : string) : str * pn :=
  (lit "INCLUDE", PN [] [(lit "file", leaf_of f); (lit "merge_children", leaf_of "true")] false).
(** a file with an include in place and one to merge, in nested folders, and a file that includes itself *)
Definition inc_files (name : str) : outcome pn :=
  if str_eqb name (lit "m/main") then
    Ok (PN [] [(lit "a", PN [] [(lit "x", leaf_of "1"); merge_node "sub/def"; (lit "z", leaf_of "3")] true); inc_node "leg"; (lit "b", leaf_of "2")] false)
  else if str_eqb name (lit "m/sub/def") then
    Ok (PN [] [(lit "defaults", PN [] [(lit "x", leaf_of "9"); inc_node "../leg"; (lit "y", leaf_of "8")] false)] false)
  else if str_eqb name (lit "m/leg") then Ok (PN [] [(lit "leg", leaf_of "L")] true)
  else if str_eqb name (lit "m/sub/../leg") then Ok (PN [] [(lit "leg", leaf_of "M")] true)
  else if str_eqb name (lit "loop") then Ok (PN [] [(lit "r", PN [] [(lit "q", leaf_of "1"); inc_node "loop"] false)] false)
  else Throw.

(** loading ends, with a tree or an exception, whatever the files contain *)
Theorem C24_terminates : forall (files : str -> outcome pn) (directive : str), (forall name, files name <> UB) ->
  forall name, exists fuel o, o <> UB /\ forall m, fuel <= m -> load_file_with_include files directive m name = o.
Proof. exact terminates_assembled. Qed.
Print Assumptions C24_terminates.

(** and the tree is what the directives ask for *)
Theorem C24_meaning : forall (files : str -> outcome pn) (directive : str), (forall name, files name <> UB) ->
  forall name t, (exists fuel, load_file_with_include files directive fuel name = Ok t) <-> loaded files directive 100 name t.
Proof. exact meaning_assembled. Qed.
Print Assumptions C24_meaning.

Example C24_meaning_ex :
  (forall name, inc_files name <> UB) /\
  load_file_with_include inc_files (lit "INCLUDE") 20 (lit "m/main") =
    Ok (PN [] [(lit "a", PN [] [(lit "x", leaf_of "1"); (lit "z", leaf_of "3"); (lit "leg", leaf_of "M"); (lit "y", leaf_of "8")] false);
               (lit "leg", leaf_of "L"); (lit "b", leaf_of "2")] false) /\
  load_file_with_include inc_files (lit "INCLUDE") 20 (lit "loop") = Throw /\
  load_file_with_include inc_files (lit "INCLUDE") 20 (lit "other") = Throw.
Proof.
  split; [|vm_compute; auto]. intros name. unfold inc_files.
  repeat (match goal with |- context [if ?b then _ else _] => destruct b end; [discriminate|]). discriminate.
Qed.

(** no directive is left *)
Theorem C24_no_directive : forall (files : str -> outcome pn) (directive : str), (forall name, files name <> UB) ->
  forall fuel name t, load_file_with_include files directive fuel name = Ok t -> no_directive directive t.
Proof. exact no_directive_assembled. Qed.
Print Assumptions C24_no_directive.

(** files that include each other in a circle are rejected *)
Theorem C24_cycle : forall (files : str -> outcome pn) (directive : str), (forall name, files name <> UB) ->
  forall circle : str -> Prop,
  (forall name, circle name -> exists t c p, files name = Ok t /\ directive_in directive c t /\ refers name c p /\ circle p) ->
  forall name, circle name -> exists fuel, forall m, fuel <= m -> load_file_with_include files directive m name = Throw.
Proof. exact cycle_assembled. Qed.
Print Assumptions C24_cycle.

Example C24_cycle_ex : let circle := fun name => name = lit "loop" in
  forall name, circle name -> exists t c p, inc_files name = Ok t /\ directive_in (lit "INCLUDE") c t /\ refers name c p /\ circle p.
Proof.
  cbv zeta. intros name ->. eexists _, (snd (inc_node "loop")), (lit "loop"). split; [reflexivity|]. split; [|split; [|reflexivity]].
  - eapply dir_below; [left; reflexivity|discriminate|]. apply dir_here. right. left. reflexivity.
  - exists (lit "loop"). split.
    + exists 0, (leaf_of "loop"). split; [|split; reflexivity]. split; [reflexivity|]. intros j L. inversion L.
    + exists []. split; reflexivity.
Qed.

(** a file without directives loads as it is *)
Theorem C24_plain : forall (files : str -> outcome pn) (directive name : str) (t : pn),
  files name = Ok t -> no_directive directive t ->
  exists fuel, forall m, fuel <= m -> load_file_with_include files directive m name = Ok (set_accessed_recursively false t).
Proof. exact plain_assembled. Qed.
Print Assumptions C24_plain.

Example C24_plain_ex : inc_files (lit "m/leg") = Ok (PN [] [(lit "leg", leaf_of "L")] true) /\ no_directive (lit "INCLUDE") (PN [] [(lit "leg", leaf_of "L")] true).
Proof. split; [reflexivity|]. constructor. constructor; [split; [discriminate|repeat constructor]|constructor]. Qed.

(** a chain of [n] files a, aa, aaa, ... each including the next *)
Definition inc_chain (n : nat) (name : str) : outcome pn :=
  if length name <? n then Ok (PN [] [(lit "INCLUDE", PN [] [(lit "file", pn_of_value ("a"%char :: name))] false)] false)
  else Ok (PN [] [(lit "end", pn_empty)] false).
(** 100 nested files load; 101 are taken for a circle, although they are none *)
Theorem C24_depth_refuted :
  (exists fuel t, load_file_with_include (inc_chain 100) (lit "INCLUDE") fuel (lit "a") = Ok t) /\
  exists files name t, loaded files (lit "INCLUDE") 101 name t /\
    exists fuel, load_file_with_include files (lit "INCLUDE") fuel name = Throw.
Proof.
  split; [exists 10; eexists; vm_compute; reflexivity|].
  exists (inc_chain 101), (lit "a"), (PN [] [(lit "end", pn_empty)] false). split; [|exists 10; vm_compute; reflexivity].
  assert (H : forall name, inc_chain 101 name <> UB) by (intros name; unfold inc_chain; destruct (length name <? 101); discriminate).
  apply (loaded_of_load (inc_chain 101) (lit "INCLUDE") H 101 10). vm_compute. reflexivity.
Qed.
Print Assumptions C24_depth_refuted.
