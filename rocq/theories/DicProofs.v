(** Proofs about lookup tables, stacked strings, pattern matchers and tidied names. *)
From Coq Require Import Ascii String List Arith Bool Lia ZifyBool ZifyNat.
From Verif Require Import Base Str StrBase StrSpec StrModel StrProofs DicSpec DicModel.
Import ListNotations.

Lemma find_if_some {A} (p : A -> bool) l x : find_if p l = Some x <-> first_with (fun y => p y = true) l x.
Proof.
  induction l as [|y l IH]; cbn.
  - split; [discriminate|]. intros (a & b & E & _). destruct a; discriminate.
  - destruct (p y) eqn:P.
    + split; [intros [= <-]; exists [], l; repeat split; auto|]. intros (a & b & E & X & F). destruct a as [|z a]; cbn in E; injection E as <- ->; [reflexivity|]. inversion F; congruence.
    + rewrite IH. split; intros (a & b & E & X & F).
      * exists (y :: a), b. subst l. repeat split; auto. constructor; [congruence|exact F].
      * destruct a as [|z a]; cbn in E; injection E as <- ->; [congruence|]. exists a, b. inversion F; auto.
Qed.
Lemma find_if_none {A} (p : A -> bool) l : find_if p l = None <-> forall y, In y l -> p y = false.
Proof.
  induction l as [|y l IH]; cbn; [split; [intros _ y []|reflexivity]|]. destruct (p y) eqn:P.
  - split; [discriminate|]. intros H. specialize (H y (or_introl eq_refl)). congruence.
  - rewrite IH. split; [intros H z [<-|I]; auto|auto].
Qed.
Lemma first_with_ext {A} (P Q : A -> Prop) l x : (forall y, P y <-> Q y) -> first_with P l x -> first_with Q l x.
Proof.
  intros E (a & b & -> & X & F). exists a, b. split; [reflexivity|]. split; [apply E; exact X|]. eapply Forall_impl; [|exact F]. intros y N Y. apply N, E, Y.
Qed.
Section Dict.
  Context {T : Type} (eqb : T -> T -> bool) (eqb_ok : forall x y, eqb x y = true <-> x = y).
  Lemma element_ok (d : list (T * str)) s : (exists p, first_with (fun p => snd p = s) d p /\ find_if (fun p => str_eqb s (snd p)) d = Some p) \/
    ((forall p, In p d -> snd p <> s) /\ find_if (fun p => str_eqb s (snd p)) d = None).
  Proof.
    destruct (find_if (fun p => str_eqb s (snd p)) d) as [p|] eqn:E.
    - left. exists p. split; [|reflexivity]. apply find_if_some in E. eapply first_with_ext; [|exact E]. intros y. rewrite str_eqb_eq. split; congruence.
    - right. split; [|reflexivity]. rewrite find_if_none in E. intros p I X. specialize (E p I). rewrite <- X, str_eqb_refl in E. discriminate.
  Qed.
  Lemma dict_assembled (d : list (T * str)) :
    (forall e, (exists p, first_with (fun p => fst p = e) d p /\ dict_name eqb d e = Ok (snd p)) \/ ((forall p, In p d -> fst p <> e) /\ dict_name eqb d e = Throw)) /\
    (forall s, (exists p, first_with (fun p => snd p = s) d p /\ dict_element d s = Ok (fst p) /\ forall x, dict_element_or d s x = fst p) \/
       ((forall p, In p d -> snd p <> s) /\ dict_element d s = Throw /\ forall x, dict_element_or d s x = x)).
  Proof.
    split.
    - intros e. unfold dict_name. destruct (find_if (fun p => eqb e (fst p)) d) as [p|] eqn:E.
      + left. exists p. split; [|reflexivity]. apply find_if_some in E. eapply first_with_ext; [|exact E]. intros y. cbn. rewrite eqb_ok. split; congruence.
      + right. split; [|reflexivity]. rewrite find_if_none in E. intros p I X. specialize (E p I). cbn in E. assert (eqb e (fst p) = true) by (apply eqb_ok; congruence). congruence.
    - intros s. unfold dict_element, dict_element_or. destruct (element_ok d s) as [(p & F & ->)|(N & ->)]; [left; exists p; auto|right; auto].
  Qed.
  Lemma first_unique {A} (f : T * str -> A) d p q : NoDup (map f d) -> In p d -> In q d -> f p = f q -> p = q.
  Proof.
    induction d as [|x d IH]; [intros _ []|]. cbn [map]. intros N I J E. inversion N as [|? ? N1 N2]; subst. destruct I as [->|I], J as [->|J]; auto.
    - destruct N1. rewrite E. apply in_map. exact J.
    - destruct N1. rewrite <- E. apply in_map. exact I.
  Qed.
  Lemma first_in {A} (P : A -> Prop) l x : first_with P l x -> In x l /\ P x.
  Proof. intros (a & b & -> & X & _). split; [apply in_or_app; right; left; reflexivity|exact X]. Qed.
  Lemma dict_round_trip (d : list (T * str)) : NoDup (map fst d) -> NoDup (map snd d) ->
    forall e s, dict_name eqb d e = Ok s <-> dict_element d s = Ok e.
  Proof.
    intros N1 N2 e s. destruct (dict_assembled d) as [A B]. destruct (A e) as [(p & F & E)|(X & E)], (B s) as [(q & G & E' & _)|(Y & E' & _)]; rewrite E, E'.
    - apply first_in in F, G. destruct F as [F F'], G as [G G']. split; intros [= H]; f_equal.
      + assert (p = q) as -> by (apply (first_unique snd d); auto; congruence). exact F'.
      + assert (p = q) as -> by (apply (first_unique fst d); auto; congruence). exact G'.
    - apply first_in in F. split; [intros [= H]|discriminate]. destruct (Y p (proj1 F) H).
    - apply first_in in G. split; [discriminate|intros [= H]]. destruct (X q (proj1 G) H).
    - split; discriminate.
  Qed.
  Lemma lookup_assembled (table : list (str * T)) value :
    (exists p, first_with (fun p => c_str (fst p) = value) table p /\ lookup value table = Ok (snd p)) \/
    ((forall p, In p table -> c_str (fst p) <> value) /\ lookup value table = Throw).
  Proof.
    induction table as [|[k v] r IH]; [right; split; [intros p []|reflexivity]|]. cbn [lookup]. destruct (str_eqb value (c_str k)) eqn:E.
    - apply str_eqb_eq in E. left. exists (k, v). split; [|reflexivity]. exists [], r. cbn. auto.
    - apply str_eqb_neq in E. destruct IH as [(p & (a & b & -> & X & F) & ->)|(N & ->)].
      + left. exists p. split; [|reflexivity]. exists ((k, v) :: a), b. split; [reflexivity|]. split; [exact X|]. constructor; [cbn; congruence|exact F].
      + right. split; [|reflexivity]. intros p [<-|I]; [cbn; congruence|auto].
  Qed.
End Dict.
Lemma dict_ambiguous : exists (d : list (nat * str)) e s, dict_name Nat.eqb d e = Ok s /\ dict_element d s <> Ok e.
Proof. exists [(1, lit "a"); (2, lit "a")], 2, (lit "a"). split; [reflexivity|]. cbn. discriminate. Qed.

(** ** stack_string *)
Definition starts (l : list str) : list nat := rev (map (fun i => length (concat (firstn i l))) (seq 0 (length l))).
Lemma starts_snoc l s : starts (l ++ [s]) = length (concat l) :: starts l.
Proof.
  unfold starts. rewrite app_length. cbn [length]. rewrite Nat.add_1_r, seq_S, map_app, rev_app_distr. cbn [map rev app Nat.add].
  f_equal; [rewrite firstn_app, firstn_all, Nat.sub_diag; cbn; rewrite app_nil_r; reflexivity|]. f_equal. apply map_ext_in. intros i I. apply in_seq in I.
  rewrite firstn_app. replace (i - length l) with 0 by lia. cbn. rewrite app_nil_r. reflexivity.
Qed.
Definition agrees (o : option (list str)) (s : outcome stack_string) : Prop :=
  match o with Some l => s = Ok (SStr (concat l) (starts l)) | None => s = UB end.
Lemma agrees_step o s op : agrees o s -> agrees (apply_part o op) (ss_do s op).
Proof.
  destruct o as [l|]; cbn [agrees]; intros ->; [|destruct op; exact eq_refl]. cbn [ss_do obind]. destruct op as [v|v|]; cbn [apply_part].
  - cbn [agrees]. unfold ss_set. destruct v; [exact eq_refl|]. cbn. rewrite app_nil_r. exact eq_refl.
  - cbn [agrees]. unfold ss_push. cbn [value_ sizes_]. rewrite starts_snoc, concat_app. cbn [concat]. rewrite app_nil_r. reflexivity.
  - destruct l as [|x l _] using rev_ind; [exact eq_refl|]. unfold ss_pop. cbn [sizes_ value_]. rewrite starts_snoc, concat_app. cbn [concat]. rewrite app_nil_r, firstn_length_app.
    replace (length (concat l) - length (concat l ++ x)) with 0 by (rewrite app_length; lia). cbn [repeat]. rewrite app_nil_r.
    destruct (l ++ [x]) as [|y m] eqn:E; [destruct l; discriminate|]. cbn [agrees]. rewrite <- E, removelast_last. reflexivity.
Qed.
Lemma stack_assembled ops : match parts ops with Some l => exists s, ss_run ops = Ok s /\ ss_str s = concat l | None => ss_run ops = UB end.
Proof.
  assert (G : agrees (parts ops) (ss_run ops)).
  { unfold parts, ss_run. assert (H : agrees (Some []) (Ok ss_new)) by exact eq_refl. revert H. generalize (Some (@nil str)) as o, (Ok ss_new) as s.
    induction ops as [|op ops IH]; intros o s H; [exact H|]. cbn [fold_left]. apply IH, agrees_step, H. }
  destruct (parts ops) as [l|]; [|exact G]. eexists. split; [exact G|reflexivity].
Qed.

(** ** pattern_matcher *)
Section Pat.
  Context (fnmatch : str -> str -> bool).
  Lemma pm_match_iff ps s : pm_match fnmatch ps s = true <-> exists p, In p ps /\ fnmatch (c_str p) (c_str s) = true.
  Proof.
    induction ps as [|p ps IH]; cbn; [split; [discriminate|intros (p & [] & _)]|]. unfold pattern_match. destruct (fnmatch (c_str p) (c_str s)) eqn:E.
    - split; [intros _; exists p; auto|reflexivity].
    - rewrite IH. split; [intros (q & I & H); exists q; auto|intros (q & [<-|I] & H); [congruence|exists q; auto]].
  Qed.
  Lemma matcher_assembled pattern delims : ~ In nul delims -> exists ps, pm_make pattern delims = Ok ps /\ pieces (one_of delims) pattern ps /\
    (forall s, pm_match fnmatch ps s = true <-> exists p, In p ps /\ fnmatch (c_str p) (c_str s) = true) /\
    (pm_empty ps = true <-> Forall (one_of delims) pattern) /\
    ((forall p, In p ps -> ~ In ";"%char p) -> pm_make (pm_str ps) (lit ";") = Ok ps).
  Proof.
    intros N. destruct (split_str_ok pattern delims N) as (ps & E & P). exists ps. split; [exact E|]. split; [exact P|]. split; [intros s; apply pm_match_iff|].
    assert (NE : forall p, In p ps -> p <> []).
    { clear -P. induction P as [s F|s p F NE NS|s p c r ps F NE NS SC P IH]; intros q I; [destruct I|destruct I as [<-|[]]; exact NE|destruct I as [<-|I]; [exact NE|auto]]. }
    split.
    - split.
      + intros X. destruct ps; [|discriminate]. inversion P; assumption.
      + intros F. assert (ps = []) as -> by (apply (pieces_fun _ _ _ _ P); constructor; exact F). reflexivity.
    - intros H. unfold pm_make, pm_str. rewrite concat_str_ok. replace (filter (fun e => 0 <? length e) ps) with ps.
      + apply split_join; [intros [X|[]]; discriminate|discriminate|constructor; [left; reflexivity|constructor]|]. apply Forall_forall. intros p I. split; [auto|].
        apply Forall_forall. intros c C [X|[]]. subst c. exact (H p I C).
      + symmetry. clear -NE. induction ps as [|p ps IH]; [reflexivity|]. cbn. destruct p; [destruct (NE [] (or_introl eq_refl) eq_refl)|]. cbn. f_equal. apply IH. intros q I. apply NE. right. exact I.
  Qed.
End Pat.
Lemma matcher_text : exists pattern delims ps, pm_make pattern delims = Ok ps /\ pm_make (pm_str ps) (lit ";") <> Ok ps.
Proof. exists (lit "a;b,c"), (lit ","), [lit "a;b"; lit "c"]. split; [reflexivity|]. cbn. discriminate. Qed.
Lemma is_pattern_iff s : is_pattern s = true <-> In "*"%char s \/ In "?"%char s.
Proof.
  unfold is_pattern. destruct (find_first_of_spec s (lit "*?")) as [[F ->]|(a & c & b & -> & C & F & ->)].
  - split; [discriminate|]. rewrite Forall_forall in F. intros [I|I]; destruct (F _ I); unfold one_of; cbn; auto.
  - split; [intros _|reflexivity]. destruct C as [<-|[<-|[]]]; [left|right]; apply in_or_app; right; left; reflexivity.
Qed.

(** ** tidy_identifier *)
Lemma skip_ok id a : forall b pos fuel c, id = a ++ b -> pos = length a -> length b <= fuel -> c = skip_underscores fuel id pos ->
  exists u r, b = u ++ r /\ Forall (one_of (lit "_")) u /\ (forall x y, r = x :: y -> ~ one_of (lit "_") x) /\ c = length a + length u.
Proof.
  intros b. revert a. induction b as [|x b IH]; intros a pos fuel c -> -> L ->.
  - exists [], []. split; [reflexivity|]. split; [constructor|]. split; [discriminate|]. rewrite app_nil_r. cbn [length]. destruct fuel; cbn [skip_underscores]; [lia|].
    destruct (nth_error a (length a)) eqn:E; [|lia]. assert (length a < length a) by (apply nth_error_Some; congruence). lia.
  - destruct fuel as [|fuel]; [cbn in L; lia|]. cbn [skip_underscores]. rewrite nth_error_app2, Nat.sub_diag by lia. cbn [nth_error]. destruct (Ascii.eqb_spec x underscore) as [->|N].
    + cbn [length] in L. assert (L' : length b <= fuel) by lia. assert (EL : length a + 1 = length (a ++ [underscore])) by (rewrite app_length; reflexivity).
      assert (EA : a ++ underscore :: b = (a ++ [underscore]) ++ b) by (rewrite <- app_assoc; reflexivity).
      destruct (IH (a ++ [underscore]) (length a + 1) fuel _ EA EL L' eq_refl) as (u & r & -> & F & R & E).
      exists (underscore :: u), r. split; [reflexivity|]. split; [constructor; [left; reflexivity|exact F]|]. split; [exact R|]. rewrite E, <- EL. cbn [length]. lia.
    + exists [], (x :: b). split; [reflexivity|]. split; [constructor|]. split; [intros y z [= <- <-] [X|[]]; apply N; symmetry; exact X|]. cbn. lia.
Qed.
Lemma back_ok id : forall a b, id = a ++ b -> exists v w, a = v ++ w /\ Forall (one_of (lit "_")) w /\ (forall x y, v = y ++ [x] -> ~ one_of (lit "_") x) /\ back_underscores id (length a) = length v.
Proof.
  intros a. revert id. induction a as [|x a IH] using rev_ind; intros id b ->.
  - exists [], []. repeat split; [constructor|]. intros x y E. destruct y; discriminate.
  - rewrite app_length. cbn [length]. rewrite Nat.add_1_r. cbn [back_underscores]. rewrite <- app_assoc. rewrite nth_error_app2, Nat.sub_diag by lia. cbn [app nth_error].
    destruct (Ascii.eqb_spec x underscore) as [->|N].
    + destruct (IH _ (underscore :: b) eq_refl) as (v & w & -> & F & V & E). rewrite E. exists v, (w ++ [underscore]). split; [rewrite app_assoc; reflexivity|].
      split; [apply Forall_app; split; [exact F|constructor; [left; reflexivity|constructor]]|]. split; [exact V|reflexivity].
    + exists (a ++ [x]), []. rewrite app_nil_r. split; [reflexivity|]. split; [constructor|]. split; [|rewrite app_length; cbn; lia]. intros y z E. apply app_inj_tail in E. destruct E as [_ <-]. intros [X|[]]. apply N. symmetry. exact X.
Qed.
Lemma tidy_core pre rest : exists t u, substr (pre ++ rest) (skip_underscores (length (pre ++ rest)) (pre ++ rest) (length pre))
    (let p := skip_underscores (length (pre ++ rest)) (pre ++ rest) (length pre) in let e := back_underscores (pre ++ rest) (length (pre ++ rest)) in if p <=? e then Some (e - p) else None) = Ok t /\
  trimmed_left (one_of (lit "_")) rest u /\ trimmed_right (one_of (lit "_")) u t.
Proof.
  destruct (skip_ok (pre ++ rest) pre rest (length pre) (length (pre ++ rest)) _ eq_refl eq_refl ltac:(rewrite app_length; lia) eq_refl) as (u & r & -> & FU & R & ->). cbn zeta.
  destruct (back_ok (pre ++ u ++ r) (pre ++ u ++ r) [] ltac:(rewrite app_nil_r; reflexivity)) as (v & w & EV & FW & V & ->).
  destruct r as [|x r].
  - rewrite app_nil_r in *. exists [], []. split; [|split].
    + unfold substr. rewrite app_length, Nat.leb_refl. rewrite <- app_length, skipn_all. destruct (_ <=? _); [rewrite firstn_nil|]; reflexivity.
    + exists u. rewrite app_nil_r. split; [reflexivity|]. split; [exact FU|]. intros c y E. discriminate.
    + exists []. repeat split; [constructor|]. intros c y E. destruct y; discriminate.
  - (* the last character that is not an underscore lies in x :: r *)
    assert (exists z, x :: r = z ++ w /\ v = pre ++ u ++ z /\ z <> []) as (z & EZ & -> & NZ).
    { destruct (le_lt_dec (length v) (length (pre ++ u))) as [L|L].
      - exfalso. assert (X : nth_error (v ++ w) (length (pre ++ u)) = Some x) by (rewrite <- EV, app_assoc, nth_error_app2, Nat.sub_diag by lia; reflexivity).
        rewrite nth_error_app2 in X by exact L. apply nth_error_In in X. rewrite Forall_forall in FW. exact (R x r eq_refl (FW _ X)).
      - exists (skipn (length (pre ++ u)) v). assert (EF : firstn (length (pre ++ u)) v = pre ++ u).
        { pose proof (f_equal (firstn (length (pre ++ u))) EV) as X. rewrite app_assoc, firstn_length_app, firstn_app in X. replace (length (pre ++ u) - length v) with 0 in X by lia. cbn in X. rewrite app_nil_r in X. symmetry. exact X. }
        split; [|split].
        + pose proof (f_equal (skipn (length (pre ++ u))) EV) as X. rewrite app_assoc, skipn_length_app, skipn_app in X. replace (length (pre ++ u) - length v) with 0 in X by lia. exact X.
        + rewrite app_assoc. rewrite <- EF at 1. symmetry. apply firstn_skipn.
        + intros E. apply (f_equal (@length ascii)) in E. rewrite skipn_length in E. cbn in E. lia. }
    exists z, (x :: r). split; [|split].
    + rewrite !app_length. replace (length pre + length u <=? length pre + (length u + length z)) with true by lia. replace (length pre + (length u + length z) - (length pre + length u)) with (length z) by lia.
      rewrite EZ, app_assoc. rewrite <- app_length. apply substr_mid.
    + exists u. repeat split; auto.
    + exists w. split; [exact EZ|]. split; [exact FW|]. intros c y E. apply (V c (pre ++ u ++ y)). rewrite E. rewrite <- !app_assoc. reflexivity.
Qed.
Lemma tidy_id_assembled id : exists pre rest u t, id = pre ++ rest /\ Forall (fun c => ~ one_of (lit ".:") c) rest /\ (forall c q, pre = q ++ [c] -> one_of (lit ".:") c) /\
  tidy_identifier id = Ok t /\ trimmed_left (one_of (lit "_")) rest u /\ trimmed_right (one_of (lit "_")) u t.
Proof.
  unfold tidy_identifier. destruct (find_last_of_spec id (lit ".:")) as [[F ->]|(a & c & b & -> & C & F & ->)].
  - destruct (tidy_core [] id) as (t & u & E & T1 & T2). exists [], id, u, t. cbn [app length] in E. repeat split; auto. intros c q X. destruct q; discriminate.
  - destruct (tidy_core (a ++ [c]) b) as (t & u & E & T1 & T2). exists (a ++ [c]), b, u, t. split; [rewrite <- app_assoc; reflexivity|].
    split; [exact F|]. split; [intros c' q X; apply app_inj_tail in X; destruct X as [_ <-]; exact C|]. split; [|split; assumption].
    replace (a ++ c :: b) with ((a ++ [c]) ++ b) by (rewrite <- app_assoc; reflexivity). replace (length a + 1) with (length (a ++ [c])) by (rewrite app_length; reflexivity). exact E.
Qed.

(** ** tidy_type_name *)
Lemma type_assembled demangle name0 name head tail : demangle (c_str name0) = Some name -> name = head ++ tail -> Forall (fun c => ~ one_of (lit "<") c) head ->
  (forall c r, tail = c :: r -> one_of (lit "<") c) ->
  (forall scope last, head = scope ++ last -> Forall (fun c => ~ one_of (lit ": ") c) last -> (exists c q, scope = q ++ [c] /\ one_of (lit ": ") c) -> tidy_type_name demangle name0 = Ok last) /\
  (Forall (fun c => ~ one_of (lit ": ") c) head -> tidy_type_name demangle name0 = Ok name).
Proof.
  intros D -> FH TL. unfold tidy_type_name. rewrite D.
  assert (EP : find_first_of (head ++ tail) (lit "<") 0 = match tail with [] => None | _ => Some (length head) end).
  { destruct (find_first_of_spec (head ++ tail) (lit "<")) as [[F E]|(a & c & b & E1 & C & F & E)]; rewrite E.
    - destruct tail as [|c r]; [reflexivity|]. apply Forall_app in F. destruct F as [_ F]. exfalso. exact (Forall_inv F (TL c r eq_refl)).
    - destruct tail as [|x r].
      + rewrite app_nil_r in E1. subst head. apply Forall_app in FH. destruct FH as [_ FH]. exfalso. exact (Forall_inv FH C).
      + f_equal. destruct (lt_eq_lt_dec (length a) (length head)) as [[L|L]|L]; [|exact L|].
        * assert (X : nth_error (head ++ x :: r) (length a) = Some c) by (rewrite E1, nth_error_app2, Nat.sub_diag by lia; reflexivity).
          rewrite nth_error_app1 in X by exact L. apply nth_error_In in X. rewrite Forall_forall in FH. destruct (FH _ X C).
        * assert (X : nth_error (a ++ c :: b) (length head) = Some x) by (rewrite <- E1, nth_error_app2, Nat.sub_diag by lia; reflexivity).
          rewrite nth_error_app1 in X by exact L. apply nth_error_In in X. rewrite Forall_forall in F. destruct (F _ X (TL x r eq_refl)). }
  rewrite EP. cbv zeta.
  match goal with |- context [find_last_of ?p (lit ": ")] => set (part := p) end.
  assert (PP : exists z, part = head ++ z /\ Forall (fun c => ~ one_of (lit ": ") c) z).
  { unfold part. destruct tail as [|c r]; [exists []; split; [reflexivity|constructor]|]. exists [c]. split.
    - rewrite firstn_app. replace (length head + 1 - length head) with 1 by lia. rewrite firstn_all2 by lia. reflexivity.
    - constructor; [|constructor]. destruct (TL c r eq_refl) as [<-|[]]. intros [X|[X|[]]]; discriminate. }
  clearbody part. destruct PP as (z & -> & FZ). split.
  - intros scope last EH FL (c & q & -> & C). subst head.
    assert (find_last_of (((q ++ [c]) ++ last) ++ z) (lit ": ") = Some (length q)) as ->.
    { destruct (find_last_of_spec (((q ++ [c]) ++ last) ++ z) (lit ": ")) as [[F E]|(a & c' & b & E1 & C' & F & E)]; rewrite E.
      - exfalso. rewrite Forall_forall in F. apply (F c); [|exact C]. apply in_or_app. left. apply in_or_app. left. apply in_or_app. right. left. reflexivity.
      - f_equal. rewrite <- !app_assoc in E1. cbn [app] in E1. destruct (lt_eq_lt_dec (length a) (length q)) as [[L|L]|L]; [|exact L|].
        + exfalso. assert (X : nth_error (c' :: b) (length q - length a) = Some c). { rewrite <- (nth_error_app2 a) by lia. rewrite <- E1, nth_error_app2, Nat.sub_diag by lia. reflexivity. }
          destruct (length q - length a) as [|n] eqn:Q; [lia|]. cbn in X. apply nth_error_In in X. rewrite Forall_forall in F. exact (F _ X C).
        + exfalso. assert (X : nth_error (c :: last ++ z) (length a - length q) = Some c'). { rewrite <- (nth_error_app2 q) by lia. rewrite E1, nth_error_app2, Nat.sub_diag by lia. reflexivity. }
          destruct (length a - length q) as [|n] eqn:Q; [lia|]. cbn in X. apply nth_error_In in X. assert (FF : Forall (fun c => ~ one_of (lit ": ") c) (last ++ z)) by (apply Forall_app; auto). rewrite Forall_forall in FF. exact (FF _ X C'). }
    replace (length q + 1) with (length (q ++ [c])) by (rewrite app_length; reflexivity). destruct tail as [|x r].
    + rewrite app_nil_r. apply substr_end.
    + replace (length ((q ++ [c]) ++ last) - length q - 1) with (length last) by (rewrite !app_length; cbn; lia). rewrite <- (app_assoc (q ++ [c])). apply substr_mid.
  - intros FN. destruct (find_last_of_spec (head ++ z) (lit ": ")) as [[F E]|(a & c' & b & E1 & C' & F & E)]; rewrite E; [reflexivity|].
    exfalso. assert (FF : Forall (fun c => ~ one_of (lit ": ") c) (head ++ z)) by (apply Forall_app; auto). rewrite E1 in FF. apply Forall_app in FF. destruct FF as [_ FF]. exact (Forall_inv FF C').
Qed.
Lemma type_args_case : exists demangle name0 t, tidy_type_name demangle name0 = Ok t /\ In "<"%char t.
Proof. exists (fun _ => Some (lit "box<int>")), (lit "3boxIiE"). eexists. split; [reflexivity|]. cbn. auto 10. Qed.
