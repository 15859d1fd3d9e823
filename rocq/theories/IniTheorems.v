(** C23: the INI serializer. *)
From Coq Require Import Ascii String List Arith.
From Verif Require Import Base Str StrSpec StrModel PnSpec PnModel IniSpec IniModel IniProofs.
Import ListNotations.

(** what is written for a tree that INI text can hold reads back as the same tree *)
Theorem C23_round_trip : forall t : pn, ini_tree t -> exists t', read_ini pn_empty (write_ini t) = Ok t' /\ same_tree t t'.
Proof. exact round_trip_assembled. Qed.
Print Assumptions C23_round_trip.

Definition ini_sample : pn :=
  PN [] [(lit "a", PN (lit "1 2") [] false); (lit "b", PN (lit "x=y") [] true);
         (lit "g h", PN [] [(lit "a", PN [] [] false); (lit "[c", PN (lit ";") [] false)] false);
         (lit "g h", PN [] [(lit "b", PN (lit "[z]") [] false)] false)] false.

Example C23_round_trip_ex :
  ini_tree ini_sample /\
  write_ini ini_sample = lit "a=1 2" ++ [lf] ++ lit "b=x=y" ++ [lf] ++ lit "[g h]" ++ [lf] ++ lit "a=" ++ [lf] ++
    lit "[c=;" ++ [lf] ++ lit "[g h]" ++ [lf] ++ lit "b=[z]" ++ [lf].
Proof.
  split; [|reflexivity]. split; [reflexivity|].
  assert (I : forall k v, forallb (fun c => negb (Ascii.eqb c lf) && negb (Ascii.eqb c nul))%bool (k ++ v) = true ->
    forallb (fun c => negb (Ascii.eqb c "="%char)) k = true ->
    (match k with c :: _ => negb (in_set whitespace c) && negb (Ascii.eqb c ";"%char) | [] => true end = true)%bool ->
    (match rev k with c :: _ => negb (in_set whitespace c) | [] => true end = true) ->
    (match v with c :: _ => negb (in_set whitespace c) | [] => true end = true) ->
    (match rev v with c :: _ => negb (in_set whitespace c) && (negb (Ascii.eqb c "]"%char) || match k with d :: _ => negb (Ascii.eqb d "["%char) | [] => true end) | [] => true end = true)%bool ->
    length k + 1 + length v <= 1023 -> ini_item k v).
  { intros k v H1 H2 H3 H4 H5 H6 L. rewrite forallb_app in H1. apply andb_prop in H1. destruct H1 as [Ha Hb].
    rewrite forallb_forall in Ha, Hb, H2.
    assert (O : forall s : str, (forall x, In x s -> (negb (Ascii.eqb x lf) && negb (Ascii.eqb x nul))%bool = true) -> one_line s).
    { intros s H. split; intros N; specialize (H _ N); discriminate H. }
    assert (W : forall c, negb (in_set whitespace c) = true -> ~ one_of whitespace c).
    { intros c H N. apply StrBase.in_set_In in N. rewrite N in H. discriminate H. }
    assert (R : forall (s r : str) (c : ascii), s = r ++ [c] -> rev s = c :: rev r) by (intros s r c ->; apply rev_unit).
    split; [exact (O k Ha)|]. split; [exact (O v Hb)|]. split; [|split; [|split; [|split; [|split; [|exact L]]]]].
    - split; intros c r E; [subst k; apply andb_prop in H3; apply W, (proj1 H3)|rewrite (R _ _ _ E) in H4; apply W, H4].
    - split; intros c r E; [subst v; apply W, H5|rewrite (R _ _ _ E) in H6; apply andb_prop in H6; apply W, (proj1 H6)].
    - intros N. specialize (H2 _ N). discriminate H2.
    - intros r ->. apply andb_prop in H3. destruct H3 as [_ H3]. discriminate H3.
    - intros [[r1 ->] [r2 E]]. rewrite (R _ _ _ E) in H6. apply andb_prop in H6. destruct H6 as [_ H6]. discriminate H6. }
  exists (firstn 2 (pn_children ini_sample)), (skipn 2 (pn_children ini_sample)). split; [reflexivity|].
  split; [repeat constructor; cbn; intuition discriminate|].
  split; [repeat (constructor; [split; [reflexivity|split; [discriminate|apply I; try reflexivity; cbn; repeat constructor]]|]); constructor|].
  cbn [ini_sample pn_children skipn].
  repeat (constructor; [split; [reflexivity|split; [discriminate|split; [repeat constructor; cbn; intuition discriminate|
    split; [discriminate|split; [split; cbn; intuition discriminate|split; [cbn; repeat constructor|]]]]]]|]); [| |constructor];
  repeat (constructor; [split; [reflexivity|apply I; try reflexivity; cbn; repeat constructor]|]); constructor.
Qed.

(** empty lines and comments may stand anywhere *)
Theorem C23_ignored : forall (root : pn) (a b : list str) (l : str),
  Forall ini_line a -> ini_line l -> Forall ini_line b -> ini_ignored l ->
  read_ini root (text_of (a ++ l :: b)) = read_ini root (text_of (a ++ b)).
Proof. exact (fun root a b l => ignored_assembled root a l b). Qed.
Print Assumptions C23_ignored.

(** the last line needs no line break *)
Theorem C23_last_line : forall (root : pn) (ls : list str) (l : str), Forall ini_line ls -> ini_line l ->
  read_ini root (text_of ls ++ l) = read_ini root (text_of (ls ++ [l])).
Proof. exact last_line_assembled. Qed.
Print Assumptions C23_last_line.

Example C23_ignored_ex :
  read_ini pn_empty (text_of [lit "; x=1"; lit "a = 1"; []; lit "[g]"; lit ";]"; lit "b=2"]) =
    Ok (PN [] [(lit "a", pn_of_value (lit "1")); (lit "g", PN [] [(lit "b", pn_of_value (lit "2"))] false)] false) /\
  read_ini pn_empty (text_of [lit "a = 1"; lit "[g]"] ++ lit "b=2") =
    Ok (PN [] [(lit "a", pn_of_value (lit "1")); (lit "g", PN [] [(lit "b", pn_of_value (lit "2"))] false)] false).
Proof. split; reflexivity. Qed.

(** a top-level value after a group is read into that group *)
Theorem C23_order_refuted : exists t t', read_ini pn_empty (write_ini t) = Ok t' /\ ~ same_tree t t' /\
  map fst (pn_children t) = [lit "g"; lit "a"] /\ map fst (pn_children t') = [lit "g"].
Proof.
  exists (PN [] [(lit "g", PN [] [(lit "x", pn_of_value (lit "1"))] false); (lit "a", pn_of_value (lit "2"))] false).
  eexists. split; [reflexivity|]. split; [|split; reflexivity].
  intros H. inversion H as [v cs1 cs2 a1 a2 F]; subst. inversion F as [|? ? ? ? _ F2]; subst. inversion F2.
Qed.
Print Assumptions C23_order_refuted.

(** what is written for a long value cannot be read *)
Theorem C23_long_refuted : exists t, read_ini pn_empty (write_ini t) = Throw /\ pn_children t <> [].
Proof. exists (PN [] [(lit "a", pn_of_value (repeat "x"%char 1022))] false). split; [vm_compute; reflexivity|discriminate]. Qed.
Print Assumptions C23_long_refuted.

(** values equal up to outer blanks, repeated keys, deeper levels and values of groups are lost *)
Theorem C23_lost_refuted :
  let lost t := exists t', read_ini pn_empty (write_ini t) = Ok t' /\ pn_eqb t t' = false in
  lost (PN [] [(lit "a", pn_of_value (lit " b"))] false) /\
  lost (PN [] [(lit "a", pn_of_value (lit "1")); (lit "a", pn_of_value (lit "2"))] false) /\
  lost (PN [] [(lit "g", PN [] [(lit "h", PN (lit "v") [(lit "x", pn_of_value (lit "1"))] false)] false)] false) /\
  lost (PN [] [(lit "g", PN (lit "v") [(lit "x", pn_of_value (lit "1"))] false)] false) /\
  lost (PN [] [(lit "a", pn_of_value [])] false).
Proof. cbv zeta. repeat split; eexists; split; reflexivity. Qed.
Print Assumptions C23_lost_refuted.
