(** Proofs about reading and writing XML. *)
From Coq Require Import Ascii String List Arith Bool Lia ZifyBool ZifyNat NArith.
From Verif Require Import Base BaseProofs Str StrBase StrModel PnSpec PnModel PnProofs XmlSpec XmlModel.
Import ListNotations.

Ltac zl := unfold str in *; lia.

Lemma xml_ind' (P : xml -> Prop) (H1 : forall n v a k, Forall P k -> P (Elem n v a k)) (H2 : forall v, P (Data v)) (H3 : forall v, P (CData v)) : forall x, P x.
Proof. fix IH 1. intros [n v a k| |]; [|apply H2|apply H3]. apply H1. induction k as [|y k IHk]; constructor; [apply IH|exact IHk]. Qed.

(** ** parsing always comes to an end within the text *)
Definition within {A} (o : outcome (A * str)) (n : nat) : Prop := match o with Ok x => length (snd x) <= n | Throw => True | UB => False end.
Lemma within_le {A} (o : outcome (A * str)) m n : within o m -> m <= n -> within o n.
Proof. destruct o; cbn; try tauto. zl. Qed.
Lemma within_bind {A B} (o : outcome (A * str)) (k : A * str -> outcome (B * str)) m n : within o m -> (forall x, length (snd x) <= m -> within (k x) n) -> within (do x <- o; k x) n.
Proof. destruct o as [x| |]; cbn; try tauto. intros L K. apply K. exact L. Qed.
Lemma span_len p s : length (fst (span p s)) + length (snd (span p s)) = length s.
Proof. induction s as [|c s IH]; [reflexivity|]. cbn [span]. destruct (p c); cbn; zl. Qed.
Lemma skip_len s : length (skip_space s) <= length s.
Proof. unfold skip_space. pose proof (span_len ws_test s). zl. Qed.
Lemma begins_len p : forall s, begins p s = true -> length p <= length s.
Proof. induction p as [|x p IH]; intros [|y s] B; cbn in *; try zl; try discriminate. apply andb_prop in B. specialize (IH s (proj2 B)). zl. Qed.
Lemma adv_ok n s : n <= length s -> adv n s = Ok (skipn n s).
Proof. intros L. unfold adv. replace (n <=? length s) with true by zl. reflexivity. Qed.
Lemma code_digits_len base s : forall code, length (snd (code_digits base s code)) <= length s.
Proof. induction s as [|c s IH]; intros code; [reflexivity|]. cbn [code_digits]. destruct (digit_value c); cbn [length snd]; [|zl]. specialize (IH (N.modulo (code * base + n) (2 ^ 64))). zl. Qed.
Ltac use_adv p := let B := fresh in match goal with |- context [begins (lit p) ?r] => destruct (begins (lit p) r) eqn:B; [apply begins_len in B; cbn [lit list_ascii_of_string length] in B|] end.
Lemma coded_cases code : (exists b, coded code = Ok b) \/ coded code = Throw.
Proof. unfold coded. repeat match goal with |- context [if ?b then _ else _] => destruct b end; eauto. Qed.
Lemma refs_within ok : forall fuel (s : str), length s < fuel -> within (refs fuel ok s) (length s).
Proof.
  induction fuel as [|f IH]; intros s L; [zl|]. cbn [refs]. destruct s as [|c r]; [cbn; zl|]. cbn [length] in *.
  assert (copy : forall x (t : str), length t <= length r -> within (do y <- refs f ok t; Ok (x :: fst y, snd y)) (S (length r))).
  { intros x t Lt. apply (within_bind _ _ (length t)); [apply IH; zl|]. intros y Ly. cbn [within snd]. zl. }
  destruct (ok c); cbn [negb]; [|cbn; zl].
  destruct (Ascii.eqb c "&"%char); [|apply copy; zl].
  use_adv "amp;"%string; [rewrite adv_ok by zl; cbn [obind]; apply copy; rewrite skipn_length; zl|].
  use_adv "apos;"%string; [rewrite adv_ok by zl; cbn [obind]; apply copy; rewrite skipn_length; zl|].
  use_adv "quot;"%string; [rewrite adv_ok by zl; cbn [obind]; apply copy; rewrite skipn_length; zl|].
  use_adv "gt;"%string; [rewrite adv_ok by zl; cbn [obind]; apply copy; rewrite skipn_length; zl|].
  use_adv "lt;"%string; [rewrite adv_ok by zl; cbn [obind]; apply copy; rewrite skipn_length; zl|].
  use_adv "#"%string; [|apply copy; zl].
  assert (fin : forall base (t : str), length t <= length r -> within (do bytes <- coded (fst (code_digits base t 0)); match snd (code_digits base t 0) with
      | e :: t' => if Ascii.eqb e ";"%char then do x <- refs f ok t'; Ok (bytes ++ fst x, snd x) else Throw | [] => Throw end) (S (length r))).
  { intros base t Lt. destruct (coded_cases (fst (code_digits base t 0))) as [[b ->]| ->]; cbn [obind]; [|exact I].
    pose proof (code_digits_len base t 0). destruct (snd (code_digits base t 0)) as [|e t']; [exact I|]. cbn [length] in *. destruct (Ascii.eqb e ";"%char); [|exact I].
    apply (within_bind _ _ (length t')); [apply IH; zl|]. intros y Ly. cbn [within snd]. zl. }
  use_adv "#x"%string; rewrite adv_ok by zl; cbn [obind]; apply fin; rewrite skipn_length; zl.
Qed.
Lemma text_to_within ok s : within (text_to ok s) (length s).
Proof. apply refs_within. zl. Qed.
(** at least one character is taken when the first one passes the test *)
Lemma text_to_within_pos ok c (r : str) : ok c = true -> within (text_to ok (c :: r)) (length r).
Proof.
  intros K. unfold text_to. cbn [refs length]. rewrite K. cbn [negb].
  assert (copy : forall x (t : str), length t <= length r -> within (do y <- refs (S (length r)) ok t; Ok (x :: fst y, snd y)) (length r)).
  { intros x t Lt. apply (within_bind _ _ (length t)); [apply refs_within; zl|]. intros y Ly. cbn [within snd]. zl. }
  destruct (Ascii.eqb c "&"%char); [|apply copy; zl].
  use_adv "amp;"%string; [rewrite adv_ok by zl; cbn [obind]; apply copy; rewrite skipn_length; zl|].
  use_adv "apos;"%string; [rewrite adv_ok by zl; cbn [obind]; apply copy; rewrite skipn_length; zl|].
  use_adv "quot;"%string; [rewrite adv_ok by zl; cbn [obind]; apply copy; rewrite skipn_length; zl|].
  use_adv "gt;"%string; [rewrite adv_ok by zl; cbn [obind]; apply copy; rewrite skipn_length; zl|].
  use_adv "lt;"%string; [rewrite adv_ok by zl; cbn [obind]; apply copy; rewrite skipn_length; zl|].
  use_adv "#"%string; [|apply copy; zl].
  assert (fin : forall base (t : str), length t <= length r -> within (do bytes <- coded (fst (code_digits base t 0)); match snd (code_digits base t 0) with
      | e :: t' => if Ascii.eqb e ";"%char then do x <- refs (S (length r)) ok t'; Ok (bytes ++ fst x, snd x) else Throw | [] => Throw end) (length r)).
  { intros base t Lt. destruct (coded_cases (fst (code_digits base t 0))) as [[b ->]| ->]; cbn [obind]; [|exact I].
    pose proof (code_digits_len base t 0). destruct (snd (code_digits base t 0)) as [|e t']; [exact I|]. cbn [length] in *. destruct (Ascii.eqb e ";"%char); [|exact I].
    apply (within_bind _ _ (length t')); [apply refs_within; zl|]. intros y Ly. cbn [within snd]. zl. }
  use_adv "#x"%string; rewrite adv_ok by zl; cbn [obind]; apply fin; rewrite skipn_length; zl.
Qed.
Lemma skip_to_within stop : forall s, within (skip_to stop s) (length s).
Proof.
  assert (base : forall s, begins stop s = true -> within (do t <- adv (length stop) s; Ok (@nil ascii, t)) (length s)).
  { intros s B. apply begins_len in B. rewrite adv_ok by zl. cbn [obind within snd]. rewrite skipn_length. zl. }
  intros s. induction s as [|c r IH]; cbn [skip_to]; destruct (begins stop _) eqn:B; try (apply base; exact B); [exact I|].
  apply (within_bind _ _ (length r)); [exact IH|]. intros x Lx. cbn [within snd length]. zl.
Qed.
Lemma skip_doctype_ok s : forall d, match skip_doctype d s with Ok r => length r <= length s | Throw => True | UB => False end.
Proof.
  induction s as [|c r IH]; intros d; [exact I|]. cbn [skip_doctype length].
  assert (S' : forall d, match skip_doctype d r with Ok r' => length r' <= S (length r) | Throw => True | UB => False end) by (intros d'; specialize (IH d'); destruct (skip_doctype d' r); auto).
  destruct d; repeat match goal with |- context [if ?b then _ else _] => destruct b end; try apply S'; cbn [length]; zl.
Qed.
Lemma attributes_within : forall fuel (s : str), length s < fuel -> within (attributes fuel s) (length s).
Proof.
  induction fuel as [|f IH]; intros s L; [zl|]. cbn [attributes]. destruct s as [|c r0]; [cbn; zl|]. cbn [length] in *. destruct (attr_test c); [|cbn; zl].
  pose proof (span_len attr_test r0) as L1. pose proof (skip_len (snd (span attr_test r0))) as L2. destruct (skip_space (snd (span attr_test r0))) as [|e r1]; [exact I|]. cbn [length] in L2.
  destruct (Ascii.eqb e "="%char); [|exact I]. pose proof (skip_len r1) as L3. destruct (skip_space r1) as [|q r2]; [exact I|]. cbn [length] in L3. destruct (_ || _); [|exact I].
  apply (within_bind _ _ (length r2)); [apply text_to_within|]. intros [v v2] Lv. cbn [fst snd] in *. destruct v2 as [|q' r3]; [exact I|]. cbn [length] in Lv. destruct (Ascii.eqb q' q); [|exact I].
  pose proof (skip_len r3) as L4. apply (within_bind _ _ (length (skip_space r3))); [apply IH; zl|]. intros x Lx. cbn [within snd]. zl.
Qed.
Lemma skip_head s c r : skip_space s = c :: r -> ws_test c = false.
Proof. unfold skip_space. induction s as [|x s IH]; [discriminate|]. cbn [span]. destruct (ws_test x) eqn:E; [exact IH|]. cbn. intros [= <- _]. exact E. Qed.
Lemma no_text_stop c : text_test c = false -> c = nul \/ c = "<"%char.
Proof. unfold text_test, is. intros H. apply negb_false_iff, in_set_In in H. destruct H as [H|[H|[]]]; auto. Qed.
Lemma ws_text c : ws_test c = true -> text_test c = true.
Proof.
  unfold ws_test, text_test, is. intros H. apply in_set_In in H. apply negb_true_iff, in_set_not_In. intros I. cbn in H, I. destruct I as [<-|[<-|[]]]; destruct H as [H|[H|[H|[H|[]]]]]; vm_compute in H; discriminate.
Qed.
Lemma c_str_tail c s : ~ In nul (c :: s) -> ~ In nul s.
Proof. cbn. tauto. Qed.
(** no zero inside: the text has been cut at the first *)
Lemma parse_within : forall fuel, (forall s : str, length s < fuel -> within (parse_node fuel s) (length s)) /\
  (forall (s : str) v k, length s < fuel -> within (parse_contents fuel s v k) (length s)).
Proof.
  induction fuel as [|f [IHn IHc]]; [split; intros; zl|]. split.
  - intros s L. cbn [parse_node].
    assert (SK : forall stop n (k : str -> option xml), n <= length s -> within (do t <- adv n s; do x <- skip_to stop t; Ok (k (fst x), snd x)) (length s)).
    { intros stop n k Ln. rewrite adv_ok by zl. cbn [obind]. apply (within_bind _ _ (length (skipn n s))); [apply skip_to_within|]. intros x. rewrite skipn_length. cbn. zl. }
    use_adv "?"%string; [apply (SK (lit "?>") 1 (fun _ => None)); zl|].
    use_adv "!"%string.
    + use_adv "!--"%string; [apply (SK (lit "-->") 3 (fun _ => None)); zl|].
      use_adv "![CDATA["%string; [apply (SK (lit "]]>") 8 (fun x => Some (CData x))); zl|].
      destruct (begins (lit "!DOCTYPE") s) eqn:B; cbn [andb].
      * apply begins_len in B. cbn in B. destruct (skipn 8 s) as [|c r] eqn:E; [apply (SK (lit ">") 1 (fun _ => None)); zl|].
        destruct (ws_test c); [|apply (SK (lit ">") 1 (fun _ => None)); zl].
        assert (9 <= length s) by (pose proof (skipn_length 8 s) as Q; rewrite E in Q; cbn [length] in Q; zl).
        rewrite adv_ok by zl. cbn [obind]. pose proof (skip_doctype_ok (skipn 9 s) 0) as D. destruct (skip_doctype 0 (skipn 9 s)); cbn; [|exact I|exact D]. rewrite skipn_length in D. zl.
      * apply (SK (lit ">") 1 (fun _ => None)); zl.
    + pose proof (span_len name_test s) as L1. destruct (fst (span name_test s)) as [|c0 n0]; [exact I|]. cbn [length] in L1. pose proof (skip_len (snd (span name_test s))) as L2.
      apply (within_bind _ _ (length (skip_space (snd (span name_test s))))); [apply (within_le _ (length (skip_space (snd (span name_test s))))); [|zl]; apply attributes_within; zl|].
      intros [a a2] La. cbn [fst snd] in *. destruct a2 as [|c r]; [exact I|]. cbn [length] in La. destruct (Ascii.eqb c ">"%char).
      * apply (within_bind _ _ (length r)); [apply IHc; zl|]. intros x Lx. cbn [within snd]. zl.
      * destruct (Ascii.eqb c "/"%char); [|exact I]. destruct r as [|c2 r2]; [exact I|]. cbn [length] in La. destruct (Ascii.eqb c2 ">"%char); [cbn; zl|exact I].
  - intros s v k L. cbn [parse_contents]. destruct (skip_space s) as [|c r] eqn:E; [exact I|]. pose proof (skip_len s) as L1. rewrite E in L1. cbn [length] in L1. destruct (Ascii.eqb c nul) eqn:En; [exact I|]. destruct (Ascii.eqb c "<"%char) eqn:Ec.
    + use_adv "/"%string.
      * rewrite adv_ok by zl. cbn [obind]. pose proof (span_len name_test (skipn 1 r)) as L2. rewrite skipn_length in L2. pose proof (skip_len (snd (span name_test (skipn 1 r)))) as L3.
        destruct (skip_space (snd (span name_test (skipn 1 r)))) as [|e t']; [exact I|]. cbn [length] in L3. destruct (Ascii.eqb e ">"%char); [cbn; zl|exact I].
      * apply (within_bind _ _ (length r)); [apply IHn; zl|]. intros x Lx. apply (within_le _ (length (snd x))); [apply IHc; zl|zl].
    + destruct s as [|c0 s0]; [cbn in E; discriminate|]. cbn [length] in *.
      destruct (text_test c0) eqn:T.
      * apply (within_bind _ _ (length s0)); [apply text_to_within_pos; exact T|]. intros x Lx. apply (within_le _ (length (snd x))); [apply IHc; zl|zl].
      * exfalso. destruct (no_text_stop _ T) as [-> | ->].
        -- vm_compute in E. injection E as <- _. discriminate.
        -- vm_compute in E. injection E as <- _. discriminate.
Qed.
Lemma parse_nodes_ok : forall fuel (s : str) k, length s < fuel -> parse_nodes fuel s k <> UB.
Proof.
  induction fuel as [|f IH]; intros s k L; [zl|]. cbn [parse_nodes]. pose proof (skip_len s) as L1. destruct (skip_space s) as [|c r]; [discriminate|]. cbn [length] in L1.
  destruct (Ascii.eqb c "<"%char); [|discriminate]. pose proof (proj1 (parse_within (S (length r))) r ltac:(zl)) as W. destruct (parse_node (S (length r)) r) as [[x t]| |]; cbn [obind within snd] in *; [|discriminate|destruct W].
  apply IH. zl.
Qed.
Lemma parse_document_ok text : parse_document text <> UB.
Proof.
  unfold parse_document. destruct (begins bom (c_str text)) eqn:B; [apply begins_len in B; cbn in B; rewrite adv_ok by zl|]; cbn [obind]; apply parse_nodes_ok; zl.
Qed.
Lemma read_total_assembled t text : (exists t', xml_read t text = Ok t') \/ xml_read t text = Throw.
Proof.
  unfold xml_read. pose proof (parse_document_ok text) as U. destruct (parse_document text) as [doc| |]; cbn [obind]; [|auto|congruence]. left. destruct doc as [|[n v a k|v|v] r]; eauto.
Qed.

(** ** printing and parsing *)
Lemma eqb_neq (a b : ascii) : a <> b -> Ascii.eqb a b = false.
Proof. intros N. apply Ascii.eqb_neq. exact N. Qed.
Lemma space_test c : ws_test c = true <-> xml_space c.
Proof. apply in_set_In. Qed.
Lemma not_space_test c : ~ xml_space c -> ws_test c = false.
Proof. intros N. destruct (ws_test c) eqn:E; [|reflexivity]. apply space_test in E. contradiction. Qed.
Lemma name_test_ok c : name_character c -> name_test c = true.
Proof.
  intros [N1 N2]. apply negb_true_iff, in_set_not_In. intros I. cbn [lit list_ascii_of_string app] in I. destruct I as [<-|[<-|[<-|[<-|I]]]]; [apply N2; cbn; tauto..|]. exact (N1 I).
Qed.
Lemma attr_test_ok c : attribute_character c -> attr_test c = true.
Proof.
  intros [[N1 N2] N3]. apply negb_true_iff, in_set_not_In. intros I. cbn [lit list_ascii_of_string app] in I. destruct I as [<-|[<-|[<-|[<-|[<-|[<-|[<-|I]]]]]]]; [apply N2; cbn; tauto..|apply N3; cbn; tauto|apply N3; cbn; tauto|apply N3; cbn; tauto|]. exact (N1 I).
Qed.
Lemma span_all p a r : Forall (fun c => p c = true) a -> (match r with [] => True | c :: _ => p c = false end) -> span p (a ++ r) = (a, r).
Proof.
  intros F R. induction F as [|c a C F IH]; cbn [app span].
  - destruct r as [|c r]; [reflexivity|]. cbn [span]. rewrite R. reflexivity.
  - rewrite C, IH. reflexivity.
Qed.
Lemma skip_all w r : Forall xml_space w -> (match r with [] => True | c :: _ => ~ xml_space c end) -> skip_space (w ++ r) = r.
Proof.
  intros F R. unfold skip_space. rewrite (span_all ws_test w r); [reflexivity| |].
  - eapply Forall_impl; [|exact F]. intros c. apply space_test.
  - destruct r; [exact I|]. apply not_space_test. exact R.
Qed.

(** *** references *)
Lemma refs_char ok ne c f (t : str) : ok "&"%char = true -> (expand_char ne c = [c] -> ok c = true /\ c <> "&"%char) ->
  refs (S f) ok (expand_char ne c ++ t) = do x <- refs f ok t; Ok (c :: fst x, snd x).
Proof.
  intros A C.
  assert (same : expand_char ne c = [c] -> refs (S f) ok (expand_char ne c ++ t) = do x <- refs f ok t; Ok (c :: fst x, snd x)).
  { intros E. rewrite E. destruct (C E) as [C1 C2]. cbn [app refs]. rewrite C1. cbn [negb]. rewrite (eqb_neq _ _ C2). reflexivity. }
  unfold expand_char in *. destruct (match ne with Some n => Ascii.eqb c n | None => false end); [apply same; reflexivity|].
  repeat match goal with |- context [Ascii.eqb c ?x] => let E := fresh "E" in destruct (Ascii.eqb c x) eqn:E; [apply Ascii.eqb_eq in E; subst c; cbn [lit list_ascii_of_string app refs]; rewrite A; reflexivity|] end.
  apply same. reflexivity.
Qed.
Lemma expand_char_pos ne c : 1 <= length (expand_char ne c).
Proof. unfold expand_char. repeat match goal with |- context [if ?b then _ else _] => destruct b end; cbn; lia. Qed.
Lemma refs_expand ok ne (rest : str) : ok "&"%char = true -> (match rest with [] => True | c :: _ => ok c = false end) ->
  forall v f, (forall c, In c v -> expand_char ne c = [c] -> ok c = true /\ c <> "&"%char) -> length v < f -> refs f ok (expand ne v ++ rest) = Ok (v, rest).
Proof.
  intros A R. induction v as [|c v IH]; intros f C L.
  - cbn [expand flat_map app]. destruct f as [|f]; [cbn in L; lia|]. cbn [refs]. destruct rest as [|c r]; [reflexivity|]. rewrite R. reflexivity.
  - cbn [expand flat_map]. rewrite <- app_assoc. destruct f as [|f]; [cbn in L; lia|]. rewrite refs_char; [|exact A|apply C; left; reflexivity].
    fold (expand ne v). rewrite IH; [reflexivity| |cbn in L; lia]. intros c' I. apply C. right. exact I.
Qed.
Lemma expand_length ne v : length v <= length (expand ne v).
Proof. induction v as [|c v IH]; [reflexivity|]. cbn [expand flat_map]. rewrite app_length. pose proof (expand_char_pos ne c). fold (expand ne v). cbn [length]. lia. Qed.
Lemma text_expand ok ne (v rest : str) : ok "&"%char = true -> (match rest with [] => True | c :: _ => ok c = false end) ->
  (forall c, In c v -> expand_char ne c = [c] -> ok c = true /\ c <> "&"%char) -> text_to ok (expand ne v ++ rest) = Ok (v, rest).
Proof. intros A R C. apply refs_expand; [exact A|exact R|exact C|]. rewrite app_length. pose proof (expand_length ne v). zl. Qed.
(** what is left as it is *)
Lemma unexpanded ne c : expand_char ne c = [c] -> (match ne with Some n => c = n | None => False end) \/ ~ In c [ "<"%char; ">"%char; squote; dquote; "&"%char].
Proof.
  unfold expand_char. destruct ne as [n|].
  - destruct (Ascii.eqb c n) eqn:En; [apply Ascii.eqb_eq in En; auto|]. intros H. right. intros I.
    repeat match type of H with context [Ascii.eqb c ?x] => let E := fresh "E" in destruct (Ascii.eqb c x) eqn:E; [discriminate H|] end.
    destruct I as [<-|[<-|[<-|[<-|[<-|[]]]]]]; discriminate.
  - intros H. right. intros I. repeat match type of H with context [Ascii.eqb c ?x] => let E := fresh "E" in destruct (Ascii.eqb c x) eqn:E; [discriminate H|] end.
    destruct I as [<-|[<-|[<-|[<-|[<-|[]]]]]]; discriminate.
Qed.
Lemma text_ok c : c <> nul -> c <> "<"%char -> text_test c = true.
Proof. intros N1 N2. apply negb_true_iff, in_set_not_In. intros [H|[H|[]]]; congruence. Qed.
Lemma element_text_expand (v rest : str) : ~ In nul v -> text_to text_test (expand None v ++ "<"%char :: rest) = Ok (v, "<"%char :: rest).
Proof.
  intros N. apply text_expand; [reflexivity|reflexivity|]. intros c I E. destruct (unexpanded _ _ E) as [[]|U]. cbn in U. split; [|intros ->; tauto].
  apply text_ok; [intros ->; contradiction|intros ->; tauto].
Qed.
Lemma quoted_ok q c : c <> nul -> c <> q -> quoted_test q c = true.
Proof. intros N1 N2. apply negb_true_iff, in_set_not_In. intros [H|[H|[]]]; congruence. Qed.
Lemma quoted_stop q : quoted_test q q = false.
Proof. apply negb_false_iff, in_set_In. right. left. reflexivity. Qed.
Lemma squote_dquote : squote <> dquote.
Proof. vm_compute. discriminate. Qed.
Lemma quoted_expand (v rest : str) : ~ In nul v ->
  (In dquote v -> text_to (quoted_test squote) (expand (Some dquote) v ++ squote :: rest) = Ok (v, squote :: rest)) /\
  (~ In dquote v -> text_to (quoted_test dquote) (expand (Some squote) v ++ dquote :: rest) = Ok (v, dquote :: rest)).
Proof.
  intros N. split; intros D; (apply text_expand; [reflexivity|apply quoted_stop|]); intros c I E; destruct (unexpanded _ _ E) as [->|U].
  - split; [apply quoted_ok; [intros X; rewrite X in I; contradiction|intros X; apply squote_dquote; congruence]|vm_compute; discriminate].
  - cbn in U. split; [apply quoted_ok; [intros ->; contradiction|intros ->; tauto]|intros ->; tauto].
  - split; [apply quoted_ok; [intros X; rewrite X in I; contradiction|intros X; apply squote_dquote; congruence]|vm_compute; discriminate].
  - cbn in U. split; [apply quoted_ok; [intros ->; contradiction|intros ->; tauto]|intros ->; tauto].
Qed.

(** *** attributes *)
Definition attr_ok (a : str * str) : Prop := attribute_name (fst a) /\ ~ In nul (snd a).
Definition ends_tag (rest : str) : Prop := exists c r, rest = c :: r /\ (c = ">"%char \/ c = "/"%char).
Lemma tag_end_space c : c = ">"%char \/ c = "/"%char -> ~ xml_space c /\ attr_test c = false /\ name_test c = false.
Proof. intros [-> | ->]; (split; [intros H; vm_compute in H; intuition discriminate|split; reflexivity]). Qed.
Lemma skip_none c (r : str) : ~ xml_space c -> skip_space (c :: r) = c :: r.
Proof. intros N. unfold skip_space. cbn [span]. rewrite (not_space_test c N). reflexivity. Qed.
Lemma skip_one c (r : str) : xml_space c -> skip_space (c :: r) = skip_space r.
Proof. intros N. unfold skip_space. cbn [span]. apply space_test in N. rewrite N. reflexivity. Qed.
Ltac no_space := let H := fresh in intros H; vm_compute in H; intuition discriminate.
Lemma attributes_one f n q (t v more : str) : attribute_name n -> q = squote \/ q = dquote -> text_to (quoted_test q) t = Ok (v, q :: more) ->
  attributes (S f) (skip_space (" "%char :: n ++ "="%char :: q :: t)) = do x <- attributes f (skip_space more); Ok ((n, v) :: fst x, snd x).
Proof.
  intros [N1 N2] Q T. destruct n as [|c n]; [congruence|]. inversion N2 as [|? ? C N2']; subst. pose proof C as [[C1 _] _].
  rewrite skip_one by (left; reflexivity). cbn [app]. rewrite (skip_none c) by exact C1. cbn [attributes]. rewrite (attr_test_ok c C).
  rewrite (span_all attr_test n); [|eapply Forall_impl; [|exact N2']; intros x; apply attr_test_ok|reflexivity]. cbn [fst snd].
  rewrite (skip_none "="%char) by no_space. replace (Ascii.eqb "="%char "="%char) with true by reflexivity.
  rewrite (skip_none q) by (destruct Q as [-> | ->]; no_space). replace (Ascii.eqb q squote || Ascii.eqb q dquote) with true by (destruct Q as [-> | ->]; reflexivity).
  rewrite T. cbn [obind snd fst]. rewrite Ascii.eqb_refl. reflexivity.
Qed.
Lemma attributes_print (rest : str) : ends_tag rest -> forall attrs f, Forall attr_ok attrs -> length attrs < f ->
  attributes f (skip_space (flat_map print_attribute attrs ++ rest)) = Ok (attrs, rest).
Proof.
  intros (e & r & -> & E). destruct (tag_end_space e E) as (E1 & E2 & _). induction attrs as [|[n v] attrs IH]; intros f F L.
  - cbn [flat_map app]. rewrite skip_none by exact E1. destruct f as [|f]; [cbn in L; lia|]. cbn [attributes]. rewrite E2. reflexivity.
  - inversion F as [|? ? [N1 N3] F']; subst. cbn [fst snd] in *. destruct f as [|f]; [cbn in L; lia|]. cbn [length] in L.
    assert (P : exists q t, (q = squote \/ q = dquote) /\ flat_map print_attribute ((n, v) :: attrs) ++ e :: r = " "%char :: n ++ "="%char :: q :: t /\ text_to (quoted_test q) t = Ok (v, q :: flat_map print_attribute attrs ++ e :: r)).
    { destruct (quoted_expand v (flat_map print_attribute attrs ++ e :: r) N3) as [Q1 Q2]. cbn [flat_map]. unfold print_attribute at 1 3. cbn [fst snd]. destruct (is dquote v) eqn:D.
      - apply in_set_In in D. eexists squote, _. split; [auto|]. split; [|exact (Q1 D)]. cbn [app]. rewrite <- !app_assoc. cbn [app]. rewrite <- !app_assoc. reflexivity.
      - apply in_set_not_In in D. eexists dquote, _. split; [auto|]. split; [|exact (Q2 D)]. cbn [app]. rewrite <- !app_assoc. cbn [app]. rewrite <- !app_assoc. reflexivity. }
    destruct P as (q & t & Q & -> & T). rewrite (attributes_one f n q t v _ N1 Q T). rewrite (IH f F' ltac:(lia)). reflexivity.
Qed.

(** *** elements *)
(** the text of an element behind its first character *)
Definition after_lt (indent : nat) (x : xml) : str :=
  match x with
  | Elem n v attrs kids => n ++ flat_map print_attribute attrs ++
      (match kids with
       | [] => match v with [] => lit "/>" | _ => ">"%char :: expand None v ++ lit "</" ++ n ++ lit ">" end
       | [Data d] => ">"%char :: expand None d ++ lit "</" ++ n ++ lit ">"
       | _ => ">"%char :: lf :: flat_map (print_node (S indent)) kids ++ tabs indent ++ lit "</" ++ n ++ lit ">"
       end)
  | _ => []
  end.
Lemma print_elem indent n v attrs kids : print_node indent (Elem n v attrs kids) = tabs indent ++ "<"%char :: after_lt indent (Elem n v attrs kids) ++ [lf].
Proof. cbn [print_node after_lt]. rewrite <- app_assoc. cbn [app]. reflexivity. Qed.
(** what the parser makes of it *)
Fixpoint parsed (x : xml) : xml :=
  match x with Elem n v attrs kids => Elem n v attrs (match kids with [] => match v with [] => [] | _ => [Data v] end | _ => map parsed kids end) | _ => x end.
Lemma tabs_space n : Forall xml_space (tabs n).
Proof. apply Forall_forall. intros c I. apply repeat_spec in I. subst. cbn. tauto. Qed.
Lemma close_tag f (n rest : str) w v k : Forall xml_space w -> Forall name_character n ->
  parse_contents (S f) (w ++ lit "</" ++ n ++ lit ">" ++ rest) v k = Ok ((v, k), rest).
Proof.
  intros W N. cbn [parse_contents]. rewrite skip_all; [|exact W|cbn [lit list_ascii_of_string app]; no_space]. cbn [lit list_ascii_of_string app].
  replace (Ascii.eqb "<"%char nul) with false by reflexivity. replace (Ascii.eqb "<"%char "<"%char) with true by reflexivity.
  replace (begins ["/"%char] ("/"%char :: n ++ ">"%char :: rest)) with true by reflexivity. rewrite adv_ok by (cbn [length]; zl). cbn [obind skipn].
  rewrite span_all; [|eapply Forall_impl; [|exact N]; intros c; apply name_test_ok|reflexivity]. cbn [snd]. rewrite skip_none by no_space. reflexivity.
Qed.
Definition parses (x : xml) : Prop := forall fuel indent (rest : str), length (after_lt indent x ++ rest) < fuel -> parse_node fuel (after_lt indent x ++ rest) = Ok (Some (parsed x), rest).
Definition is_elem (x : xml) : Prop := match x with Elem _ _ _ _ => True | _ => False end.
Lemma head_name n (r : str) : element_name n -> exists c m, n ++ r = c :: m /\ name_character c /\ c <> "!"%char.
Proof. intros [(c & m & -> & C) F]. exists c, (m ++ r). split; [reflexivity|]. apply Forall_inv in F. auto. Qed.
Lemma contents_elems i j n (rest : str) v : Forall name_character n -> forall kids, Forall (fun x => plain x /\ parses x) kids -> forall f w k, Forall xml_space w ->
  length (w ++ flat_map (print_node i) kids ++ tabs j ++ lit "</" ++ n ++ lit ">" ++ rest) < f ->
  parse_contents f (w ++ flat_map (print_node i) kids ++ tabs j ++ lit "</" ++ n ++ lit ">" ++ rest) v k = Ok ((v, k ++ map parsed kids), rest).
Proof.
  intros N. induction kids as [|x kids IH]; intros F f w k W L.
  - cbn [flat_map app map] in *. rewrite app_nil_r. destruct f as [|f]; [lia|]. rewrite app_assoc. apply close_tag; [apply Forall_app; split; [exact W|apply tabs_space]|exact N].
  - inversion F as [|? ? [P Px] F']; subst. destruct f as [|f]; [lia|].
    assert (E : exists n' v' a' k', x = Elem n' v' a' k' /\ element_name n') by (destruct P; do 4 eexists; (split; [reflexivity|eassumption])). destruct E as (n' & v' & a' & k' & -> & EN).
    cbn [flat_map] in *. rewrite print_elem in *. set (tail := flat_map (print_node i) kids ++ tabs j ++ lit "</" ++ n ++ lit ">" ++ rest) in *.
    assert (T : w ++ ((tabs i ++ "<"%char :: after_lt i (Elem n' v' a' k') ++ [lf]) ++ flat_map (print_node i) kids) ++ tabs j ++ lit "</" ++ n ++ lit ">" ++ rest =
      (w ++ tabs i) ++ "<"%char :: after_lt i (Elem n' v' a' k') ++ [lf] ++ tail) by (subst tail; rewrite <- !app_assoc; cbn [app]; rewrite <- !app_assoc; reflexivity).
    rewrite T in *. clear T. cbn [parse_contents]. rewrite skip_all; [|apply Forall_app; split; [exact W|apply tabs_space]|no_space].
    replace (Ascii.eqb "<"%char nul) with false by reflexivity. replace (Ascii.eqb "<"%char "<"%char) with true by reflexivity.
    replace (begins (lit "/") (after_lt i (Elem n' v' a' k') ++ [lf] ++ tail)) with false.
    2:{ cbn [after_lt]. rewrite <- app_assoc. destruct (head_name n' ((flat_map print_attribute a' ++ match k' with [] => match v' with [] => lit "/>" | _ => ">"%char :: expand None v' ++ lit "</" ++ n' ++ lit ">" end
          | [Data d] => ">"%char :: expand None d ++ lit "</" ++ n' ++ lit ">" | _ => ">"%char :: lf :: flat_map (print_node (S i)) k' ++ tabs i ++ lit "</" ++ n' ++ lit ">" end) ++ [lf] ++ tail) EN) as (c & m & -> & [_ C] & _).
        symmetry. cbn [lit list_ascii_of_string begins]. apply andb_false_iff. left. apply eqb_neq. intros <-. apply C. cbn. tauto. }
    rewrite app_length in L. cbn [length] in L. rewrite Px by lia. cbn [obind fst snd add_node]. rewrite (IH F' f [lf]).
    + rewrite <- app_assoc. reflexivity.
    + constructor; [cbn; tauto|constructor].
    + fold tail. rewrite !app_length in L. rewrite app_length. cbn [length] in *. lia.
Qed.
Lemma attrs_length attrs : length attrs <= length (flat_map print_attribute attrs).
Proof. induction attrs as [|a attrs IH]; [reflexivity|]. cbn [flat_map]. rewrite app_length. cbn [print_attribute length]. lia. Qed.
Lemma elem_head f n attrs (tail : str) : element_name n -> Forall attr_ok attrs -> ends_tag tail ->
  parse_node (S f) (n ++ flat_map print_attribute attrs ++ tail) =
  match tail with
  | c :: r =>
      if Ascii.eqb c ">"%char then do x <- parse_contents f r [] []; Ok (Some (Elem n (fst (fst x)) attrs (snd (fst x))), snd x)
      else if Ascii.eqb c "/"%char then match r with c2 :: r2 => if Ascii.eqb c2 ">"%char then Ok (Some (Elem n [] attrs []), r2) else Throw | [] => Throw end
      else Throw
  | [] => Throw
  end.
Proof.
  intros N A T. cbn [parse_node]. destruct (head_name n (flat_map print_attribute attrs ++ tail) N) as (c & m & E & [C0 C] & Cx).
  assert (B : forall d p, d <> c -> begins (d :: p) (n ++ flat_map print_attribute attrs ++ tail) = false) by (intros d p D; rewrite E; cbn [begins]; apply andb_false_iff; left; apply eqb_neq; exact D).
  cbn [lit list_ascii_of_string]. rewrite (B "?"%char) by (intros <-; apply C; cbn; tauto). rewrite (B "!"%char) by congruence.
  assert (SP : span name_test (n ++ flat_map print_attribute attrs ++ tail) = (n, flat_map print_attribute attrs ++ tail)).
  { apply span_all; [eapply Forall_impl; [|exact (proj2 N)]; intros x; apply name_test_ok|]. destruct attrs as [|a attrs]; [|reflexivity].
    destruct T as (e & r & -> & T). cbn [flat_map app]. apply (tag_end_space e T). }
  rewrite SP. cbn [fst snd]. destruct n as [|n0 nr] eqn:En; [destruct N as [(? & ? & ? & _) _]; discriminate|]. rewrite <- En in *.
  rewrite attributes_print; [|exact T|exact A|]. 2:{ pose proof (attrs_length attrs). rewrite !app_length. zl. }
  cbn [obind fst snd]. reflexivity.
Qed.
Lemma text_starts (v t : str) : ~ In nul v -> (exists c, In c v /\ ~ xml_space c) -> exists c r, skip_space (expand None v ++ t) = c :: r /\ c <> nul /\ c <> "<"%char.
Proof.
  induction v as [|c v IH]; intros N [d [I D]]; [destruct I|]. cbn [expand flat_map]. rewrite <- app_assoc. fold (expand None v).
  destruct (ws_test c) eqn:W.
  - apply space_test in W. destruct I as [->|I]; [contradiction|].
    assert (E : expand_char None c = [c]) by (unfold xml_space in W; cbn in W; destruct W as [<-|[<-|[<-|[<-|[]]]]]; reflexivity). rewrite E. cbn [app]. rewrite skip_one by exact W.
    apply IH; [intros X; apply N; right; exact X|eauto].
  - assert (W' : ~ xml_space c) by (intros X; apply space_test in X; congruence).
    assert (H : exists e r, expand_char None c = e :: r /\ ~ xml_space e /\ e <> nul /\ e <> "<"%char).
    { assert (AMP : ~ xml_space "&"%char /\ "&"%char <> nul /\ "&"%char <> "<"%char) by (split; [no_space|split; [vm_compute; discriminate|discriminate]]).
      unfold expand_char. destruct (Ascii.eqb c "<"%char) eqn:E1; [do 2 eexists; split; [reflexivity|exact AMP]|].
      repeat match goal with |- context [Ascii.eqb c ?x] => let E := fresh "E" in destruct (Ascii.eqb c x) eqn:E; [do 2 eexists; split; [reflexivity|exact AMP]|] end.
      do 2 eexists. split; [reflexivity|]. split; [exact W'|]. split; [intros ->; apply N; left; reflexivity|apply Ascii.eqb_neq; exact E1]. }
    destruct H as (e & r & -> & H1 & H2 & H3). cbn [app]. rewrite skip_none by exact H1. eauto.
Qed.
Lemma contents_text f (s : str) k c r : skip_space s = c :: r -> c <> nul -> c <> "<"%char ->
  parse_contents (S f) s [] k = do d <- text_to text_test s; parse_contents f (snd d) (fst d) (k ++ [Data (fst d)]).
Proof. intros E C1 C2. cbn [parse_contents]. rewrite E, (eqb_neq _ _ C1), (eqb_neq _ _ C2). reflexivity. Qed.
Lemma after_lt_kids indent n v attrs kids : kids <> [] -> Forall plain kids ->
  after_lt indent (Elem n v attrs kids) = n ++ flat_map print_attribute attrs ++ ">"%char :: lf :: flat_map (print_node (S indent)) kids ++ tabs indent ++ lit "</" ++ n ++ lit ">".
Proof. intros K0 KP. destruct kids as [|[? ? ? ?|?|?] [|? ?]]; try congruence; try reflexivity. apply Forall_inv in KP. inversion KP. Qed.
Lemma plain_parses x : plain x -> parses x.
Proof.
  induction x as [n v attrs kids IH|v|v] using xml_ind'; intros P; [|inversion P|inversion P]. intros fuel indent rest L.
  destruct fuel as [|f]; [lia|]. inversion P as [? ? ? N TX A|? ? ? N A K0 KP]; subst.
  - cbn [after_lt parsed] in *. rewrite <- !app_assoc in *. destruct v as [|c0 v0].
    + rewrite elem_head; [|exact N|exact A|eexists "/"%char, _; split; [reflexivity|auto]]. cbn [lit list_ascii_of_string app]. reflexivity.
    + set (v := c0 :: v0) in *. destruct TX as [TN [TX|TX]]; [discriminate|].
      rewrite elem_head; [|exact N|exact A|eexists ">"%char, _; split; [reflexivity|auto]]. cbn [app] in L |- *. replace (Ascii.eqb ">"%char ">"%char) with true by reflexivity. rewrite <- !app_assoc in *.
      rewrite !app_length in L. cbn [length] in L. rewrite !app_length in L. cbn [lit list_ascii_of_string length] in L.
      destruct f as [|f]; [lia|]. destruct f as [|f]; [lia|].
      destruct (text_starts v (lit "</" ++ n ++ lit ">" ++ rest) TN TX) as (c & r & E & C1 & C2). rewrite (contents_text _ _ _ _ _ E C1 C2).
      change (lit "</" ++ n ++ lit ">" ++ rest) with ("<"%char :: (lit "/" ++ n ++ lit ">" ++ rest)). rewrite (element_text_expand v _ TN). cbn [obind fst snd app].
      pose proof (close_tag f n rest [] v [Data v] ltac:(constructor) (proj2 N)) as CT. cbn [app] in CT. change (lit "</" ++ n ++ lit ">" ++ rest) with ("<"%char :: (lit "/" ++ n ++ lit ">" ++ rest)) in CT. rewrite CT. reflexivity.
  - rewrite (after_lt_kids indent n [] attrs kids K0 KP) in L |- *. cbn [parsed]. rewrite <- ?app_assoc in L |- *. cbn [app] in L |- *. rewrite <- ?app_assoc in L |- *.
    rewrite elem_head; [|exact N|exact A|eexists ">"%char, _; split; [reflexivity|auto]]. replace (Ascii.eqb ">"%char ">"%char) with true by reflexivity.
    pose proof (contents_elems (S indent) indent n rest [] (proj2 N) kids) as CE. change (lf :: ?q) with ([lf] ++ q) in *.
    rewrite CE; [| |constructor; [cbn; tauto|constructor]|].
    + cbn [obind fst snd app]. destruct kids; [congruence|reflexivity].
    + apply Forall_forall. intros y Y. rewrite Forall_forall in IH, KP. split; [apply KP; exact Y|]. apply IH; [exact Y|]. apply KP. exact Y.
    + rewrite !app_length in L. cbn [length] in L. rewrite !app_length in L |- *. cbn [length] in *. lia.
Qed.
Lemma nodes_print : forall es, Forall plain es -> forall f w (k : list xml), Forall xml_space w -> length (w ++ flat_map (print_node 0) es ++ [lf]) < f ->
  parse_nodes f (w ++ flat_map (print_node 0) es ++ [lf]) k = Ok (k ++ map parsed es).
Proof.
  induction es as [|x es IH]; intros P f w k W L.
  - cbn [flat_map app map] in *. rewrite app_nil_r. destruct f as [|f]; [lia|]. cbn [parse_nodes]. rewrite <- (app_nil_r (w ++ [lf])). rewrite skip_all; [reflexivity| |exact I].
    apply Forall_app. split; [exact W|]. constructor; [cbn; tauto|constructor].
  - inversion P as [|? ? Px P']; subst. destruct f as [|f]; [lia|].
    assert (E : exists n' v' a' k', x = Elem n' v' a' k') by (destruct Px; do 4 eexists; reflexivity). destruct E as (n' & v' & a' & k' & ->).
    cbn [flat_map] in *. rewrite print_elem in *. cbn [tabs repeat app] in *. rewrite <- !app_assoc in *. cbn [parse_nodes]. rewrite skip_all; [|exact W|no_space].
    replace (Ascii.eqb "<"%char "<"%char) with true by reflexivity. rewrite (plain_parses _ Px) by zl. cbn [obind fst snd add_node].
    rewrite (IH P' f [lf]); [cbn [map]; rewrite <- app_assoc; reflexivity|constructor; [cbn; tauto|constructor]|].
    clear - L. repeat (rewrite ?app_length in L; cbn [length] in L). repeat (rewrite ?app_length; cbn [length]). zl.
Qed.

(** no zeros are written *)
Lemma no_nul_app (a b : str) : ~ In nul a -> ~ In nul b -> ~ In nul (a ++ b).
Proof. intros A B I. apply in_app_or in I. tauto. Qed.
Lemma no_nul_cons c (b : str) : c <> nul -> ~ In nul b -> ~ In nul (c :: b).
Proof. intros A B [I|I]; congruence. Qed.
Lemma name_no_nul n : Forall name_character n -> ~ In nul n.
Proof. intros F I. rewrite Forall_forall in F. destruct (F _ I) as [_ H]. apply H. left. reflexivity. Qed.
Lemma expand_no_nul ne v : ~ In nul v -> ~ In nul (expand ne v).
Proof.
  intros N I. unfold expand in I. apply in_flat_map in I. destruct I as (c & I & J). assert (C : c <> nul) by (intros ->; contradiction). unfold expand_char in J.
  destruct (match ne with Some n => Ascii.eqb c n | None => false end); [destruct J as [J|[]]; congruence|].
  repeat match type of J with context [Ascii.eqb c ?x] => destruct (Ascii.eqb c x); [vm_compute in J; intuition discriminate|] end. destruct J as [J|[]]; congruence.
Qed.
Ltac nn := repeat first [assumption|apply expand_no_nul; assumption|apply no_nul_app|apply no_nul_cons; [vm_compute; discriminate|]|solve [let H := fresh in intros H; vm_compute in H; intuition discriminate]].
Lemma attrs_no_nul attrs : Forall attr_ok attrs -> ~ In nul (flat_map print_attribute attrs).
Proof.
  intros F. induction F as [|[n v] attrs [[_ A] B] F IH]; [intros []|]. cbn [flat_map fst snd] in *. apply no_nul_app; [|exact IH]. unfold print_attribute. cbn [fst snd].
  assert (~ In nul n) by (intros I; rewrite Forall_forall in A; destruct (A _ I) as [[_ H] _]; apply H; left; reflexivity).
  destruct (is dquote v); nn.
Qed.
Lemma tabs_no_nul n : ~ In nul (tabs n).
Proof. intros I. apply repeat_spec in I. vm_compute in I. discriminate. Qed.
Lemma print_no_nul x : plain x -> forall i, ~ In nul (print_node i x).
Proof.
  induction x as [n v attrs kids IH|v|v] using xml_ind'; intros P; [|inversion P|inversion P]. intros i. rewrite print_elem. pose proof (tabs_no_nul i).
  inversion P as [? ? ? [_ N] [TX _] A|? ? ? [_ N] A K0 KP]; subst; pose proof (name_no_nul _ N); pose proof (attrs_no_nul _ A); apply no_nul_app; try assumption; apply no_nul_cons; try (vm_compute; discriminate); apply no_nul_app; [|nn| |nn].
  - cbn [after_lt]. apply no_nul_app; [assumption|]. apply no_nul_app; [assumption|]. destruct v; nn.
  - assert (K : ~ In nul (flat_map (print_node (S i)) kids)).
    { intros I. apply in_flat_map in I. destruct I as (y & Y & J). rewrite Forall_forall in IH, KP. exact (IH y Y (KP y Y) (S i) J). }
    cbn [after_lt]. apply no_nul_app; [assumption|]. apply no_nul_app; [assumption|]. destruct kids as [|[? ? ? ?|?|?] [|? ?]]; try congruence; nn. apply Forall_inv in KP. inversion KP.
Qed.
Lemma print_parse es : Forall plain es -> parse_document (print_document es) = Ok (map parsed es).
Proof.
  intros P. assert (N : ~ In nul (print_document es)).
  { unfold print_document. apply no_nul_app; [|nn]. intros I. apply in_flat_map in I. destruct I as (y & Y & J). rewrite Forall_forall in P. exact (print_no_nul y (P y Y) 0 J). }
  unfold parse_document. rewrite (c_str_id _ N). replace (begins bom (print_document es)) with false.
  - cbn [obind]. apply (nodes_print es P _ [] []); [constructor|]. cbn [app]. unfold print_document. zl.
  - unfold print_document. destruct es as [|x es]; [reflexivity|]. apply Forall_inv in P. destruct P; cbn [flat_map]; rewrite print_elem; reflexivity.
Qed.

(** ** documents as property trees *)
Lemma parsed_tree x : plain x -> exists n v a k, parsed x = Elem n v a k /\ c_str n = fst (element_tree x) /\ n <> [] /\ get_xml_node (parsed x) = snd (element_tree x).
Proof.
  induction x as [n v attrs kids IH|v|v] using xml_ind'; intros P; [|inversion P|inversion P]. cbn [parsed]. do 4 eexists. split; [reflexivity|].
  assert (N : element_name n /\ Forall attr_ok attrs /\ ~ In nul v) by (inversion P as [? ? ? ? [? _] ?|]; subst; [auto|split; [assumption|split; [assumption|intros []]]]).
  destruct N as (N & A & V). cbn [element_tree fst snd get_xml_node].
  assert (AT : map (fun a => (c_str (fst a), pn_of_value (c_str (snd a)))) attrs = map (fun a => (fst a, PN (snd a) [] false)) attrs).
  { apply map_ext_in. intros [a b] I. rewrite Forall_forall in A. destruct (A _ I) as [[_ A1] A2]. cbn [fst snd] in *. rewrite !c_str_id; [reflexivity|exact A2|].
    intros J. rewrite Forall_forall in A1. destruct (A1 _ J) as [[_ H] _]. apply H. left. reflexivity. }
  split; [apply c_str_id, name_no_nul, N|]. split; [destruct N as [(? & ? & -> & _) _]; discriminate|]. rewrite AT, (c_str_id v V). f_equal. f_equal.
  inversion P as [? ? ? ? ? ?|? ? ? ? ? K0 KP]; subst; [destruct v; reflexivity|].
  transitivity (flat_map (fun k => match k with Elem (c :: n0) _ _ _ => [(c_str (c :: n0), get_xml_node k)] | _ => [] end) (map parsed kids)); [destruct kids; [congruence|reflexivity]|].
  clear P K0. induction kids as [|y kids IHk]; [reflexivity|]. inversion KP as [|? ? Py KP']; subst. inversion IH as [|? ? Iy IH']; subst. cbn [map flat_map].
  destruct (Iy Py) as (n1 & v1 & a1 & k1 & E & En & NE & G). rewrite (IHk IH' KP'). rewrite E in *. destruct n1 as [|c1 n1]; [congruence|]. rewrite En, G. cbn [app]. f_equal. destruct (element_tree y); reflexivity.
Qed.
Lemma document_assembled t e es : Forall plain (e :: es) -> xml_read t (print_document (e :: es)) = Ok (add_child t (fst (element_tree e)) (snd (element_tree e))).
Proof.
  intros P. unfold xml_read. rewrite (print_parse _ P). cbn [obind map]. apply Forall_inv in P. destruct (parsed_tree e P) as (n & v & a & k & E & En & NE & G). rewrite E in *. rewrite En, G. reflexivity.
Qed.
Lemma xml_node_plain t : xml_like t -> forall k, element_name k -> plain (xml_node k t) /\ fst (element_tree (xml_node k t)) = k /\ same_tree t (snd (element_tree (xml_node k t))).
Proof.
  induction t as [v cs a IH] using PnProofs.pn_ind'; intros X k K. assert (CK : c_str k = k) by (apply c_str_id, name_no_nul, K). inversion X as [? ? TX|? ? C0 CP]; subst; cbn [xml_node map element_tree fst snd app]; rewrite CK.
  - rewrite (c_str_id v (proj1 TX)). split; [constructor; [exact K|exact TX|constructor]|]. split; [reflexivity|]. constructor. constructor.
  - cbn [c_str]. split; [|split; [reflexivity|]].
    + apply plain_elements; [exact K|constructor|destruct cs; [congruence|discriminate]|]. apply Forall_forall. intros y Y. apply in_map_iff in Y. destruct Y as ([kc c] & <- & I). rewrite Forall_forall in IH, CP.
      destruct (CP _ I) as [H1 H2]. cbn [fst snd] in *. destruct kc as [|c1 kc]; [destruct H1 as [(? & ? & ? & _) _]; discriminate|]. exact (proj1 (IH _ I H2 _ H1)).
    + constructor. rewrite map_map. clear X C0. induction cs as [|[kc c] cs IHc]; [constructor|]. inversion CP as [|? ? [H1 H2] CP']; subst. inversion IH as [|? ? Ic IH']; subst. cbn [map fst snd] in *. constructor; [|apply IHc; assumption].
      destruct kc as [|c1 kc]; [destruct H1 as [(? & ? & ? & _) _]; discriminate|]. destruct (Ic H2 _ H1) as (_ & E1 & E2). cbn [fst snd]. split; [symmetry; exact E1|exact E2].
Qed.
Lemma roundtrip_assembled t v k c rest a : Forall (fun kc => element_name (fst kc) /\ xml_like (snd kc)) ((k, c) :: rest) ->
  exists c', xml_read t (xml_write (PN v ((k, c) :: rest) a)) = Ok (add_child t k c') /\ same_tree c c'.
Proof.
  intros F. unfold xml_write. cbn [pn_children map fst snd].
  assert (P : Forall plain (map (fun kc => xml_node (match fst kc with [] => lit "_" | k => k end) (snd kc)) ((k, c) :: rest))).
  { apply Forall_forall. intros y Y. apply in_map_iff in Y. destruct Y as ([kc c1] & <- & I). rewrite Forall_forall in F. destruct (F _ I) as [H1 H2]. cbn [fst snd] in *.
    destruct kc as [|x kc]; [destruct H1 as [(? & ? & ? & _) _]; discriminate|]. exact (proj1 (xml_node_plain _ H2 _ H1)). }
  cbn [map fst snd] in P. rewrite (document_assembled t _ _ P). apply Forall_inv in F. destruct F as [H1 H2]. cbn [fst snd] in *. destruct k as [|x k]; [destruct H1 as [(? & ? & ? & _) _]; discriminate|].
  destruct (xml_node_plain _ H2 _ H1) as (_ & E1 & E2). rewrite E1. eexists. split; [reflexivity|exact E2].
Qed.

(** ** numbers of characters *)
Lemma land_mod x k : N.land (x mod 256) k = N.land x (N.land 255 k).
Proof. change 256%N with (2 ^ 8)%N. rewrite <- N.land_ones. change (N.ones 8) with 255%N. rewrite N.land_assoc. reflexivity. Qed.
Lemma low_bits n : N.land (N.lor n 128) 191 = (128 + n mod 64)%N.
Proof.
  change 64%N with (2 ^ 6)%N. rewrite <- N.land_ones. change (N.ones 6) with 63%N. rewrite N.land_lor_distr_l. change (N.land 128 191) with 128%N.
  assert (E : N.land n 191 = N.lor (N.land n 63) (N.land n 128)) by (rewrite <- N.land_lor_distr_r; reflexivity). rewrite E, <- N.lor_assoc.
  assert (E2 : N.lor (N.land n 128) 128 = 128%N) by (rewrite N.lor_comm; apply N.bits_inj; intros i; rewrite N.lor_spec, N.land_spec; destruct (N.testbit 128 i); [reflexivity|apply andb_false_r]).
  rewrite E2, N.lor_comm. symmetry. rewrite <- N.lxor_lor; [apply N.add_nocarry_lxor|]; apply N.bits_inj; intros i; rewrite !N.land_spec, N.bits_0; destruct (N.testbit 128 i) eqn:B; try reflexivity;
  (replace (N.testbit 63 i) with false; [rewrite andb_false_r; reflexivity|]; symmetry; destruct (N.eq_dec i 7) as [->|NE]; [reflexivity|]; exfalso; change 128%N with (2 ^ 7)%N in B; rewrite N.pow2_bits_false in B by congruence; discriminate).
Qed.
Lemma add_bits h l k : (h < 2 ^ k)%N -> N.lor h (l * 2 ^ k) = (l * 2 ^ k + h)%N.
Proof.
  intros H. rewrite <- N.shiftl_mul_pow2. rewrite N.lor_comm, N.add_comm. symmetry. rewrite N.add_comm. rewrite <- N.lxor_lor; [apply N.add_nocarry_lxor|]; apply N.bits_inj; intros i; rewrite N.land_spec, N.bits_0;
  (destruct (N.lt_ge_cases i k) as [L|L]; [rewrite N.shiftl_spec_low by exact L; reflexivity|]);
  (destruct (N.eq_dec h 0) as [->|NE]; [rewrite N.bits_0; apply andb_false_r|]; rewrite (N.bits_above_log2 h); [apply andb_false_r|]; apply N.log2_lt_pow2 in H; lia).
Qed.
Lemma byte_small x : (x < 256)%N -> ascii_of_N (N.land x 255) = ascii_of_N x.
Proof. intros H. change 255%N with (N.ones 8). rewrite N.land_ones. rewrite N.mod_small by exact H. reflexivity. Qed.
Lemma coded_utf8 c : (c < 1114112)%N -> coded c = Ok (map ascii_of_N (utf8 c)).
Proof.
  intros H. unfold coded, utf8. rewrite !low_bits. rewrite !N.shiftr_div_pow2. change (2 ^ 6)%N with 64%N. change (2 ^ 12)%N with 4096%N. change (2 ^ 18)%N with 262144%N.
  assert (M : forall x, (128 + x mod 64 < 256)%N) by (intros x; pose proof (N.mod_lt x 64 ltac:(discriminate)); lia).
  destruct (N.ltb_spec c 128); [cbn [map]; rewrite byte_small by lia; reflexivity|].
  destruct (N.ltb_spec c 2048).
  - assert (c / 64 < 2 ^ 5)%N by (apply N.div_lt_upper_bound; lia). change 192%N with (6 * 2 ^ 5)%N at 1. rewrite add_bits by assumption. change (6 * 2 ^ 5)%N with 192%N.
    change (2 ^ 5)%N with 32%N in *. cbn [map]. rewrite !byte_small by (try apply M; lia). reflexivity.
  - destruct (N.ltb_spec c 65536).
    + assert (c / 4096 < 2 ^ 4)%N by (apply N.div_lt_upper_bound; lia). change 224%N with (14 * 2 ^ 4)%N at 1. rewrite add_bits by assumption. change (14 * 2 ^ 4)%N with 224%N.
      change (2 ^ 4)%N with 16%N in *. cbn [map]. rewrite !byte_small by (try apply M; lia). reflexivity.
    + destruct (N.ltb_spec c 1114112); [|lia]. assert (c / 262144 < 2 ^ 3)%N by (apply N.div_lt_upper_bound; lia). change 240%N with (30 * 2 ^ 3)%N at 1. rewrite add_bits by assumption. change (30 * 2 ^ 3)%N with 240%N.
      change (2 ^ 3)%N with 8%N in *. cbn [map]. rewrite !byte_small by (try apply M; lia). reflexivity.
Qed.
Lemma digit_value_ok base c d : digit base c d -> digit_value c = Some d.
Proof.
  intros [b e L|e L|e L].
  - assert (e = 0 \/ e = 1 \/ e = 2 \/ e = 3 \/ e = 4 \/ e = 5 \/ e = 6 \/ e = 7 \/ e = 8 \/ e = 9)%N as D by lia. repeat (destruct D as [->|D]; [reflexivity|]). subst. reflexivity.
  - assert (e = 10 \/ e = 11 \/ e = 12 \/ e = 13 \/ e = 14 \/ e = 15)%N as D by lia. repeat (destruct D as [->|D]; [reflexivity|]). subst. reflexivity.
  - assert (e = 10 \/ e = 11 \/ e = 12 \/ e = 13 \/ e = 14 \/ e = 15)%N as D by lia. repeat (destruct D as [->|D]; [reflexivity|]). subst. reflexivity.
Qed.
Lemma number_mono base ds : (1 <= base)%N -> forall a, (a <= fold_left (fun a d => a * base + d) ds a)%N.
Proof. intros B. induction ds as [|d ds IH]; intros a; cbn [fold_left]; [lia|]. specialize (IH (a * base + d)%N). nia. Qed.
Lemma code_digits_ok base (rest : str) : (1 <= base)%N -> (match rest with [] => True | c :: _ => digit_value c = None end) ->
  forall s ds, Forall2 (digit base) s ds -> forall a, (fold_left (fun a d => a * base + d) ds a < 2 ^ 64)%N ->
  code_digits base (s ++ rest) a = (fold_left (fun a d => a * base + d)%N ds a, rest).
Proof.
  intros B R s ds F. induction F as [|c d s ds D F IH]; intros a H; cbn [app fold_left] in *.
  - destruct rest as [|c r]; [reflexivity|]. cbn [code_digits]. rewrite R. reflexivity.
  - cbn [code_digits]. rewrite (digit_value_ok _ _ _ D). pose proof (number_mono base ds B (a * base + d)%N). rewrite N.mod_small by lia. apply IH. exact H.
Qed.
Lemma reference_assembled (ok : ascii -> bool) s ds (rest : str) hex : ok "&"%char = true ->
  Forall2 (digit (if hex : bool then 16 else 10)%N) s ds -> s <> [] -> (number (if hex then 16 else 10)%N ds < 1114112)%N ->
  text_to ok (lit (if hex then "&#x" else "&#") ++ s ++ ";"%char :: rest) =
  do x <- text_to ok rest; Ok (map ascii_of_N (utf8 (number (if hex then 16 else 10)%N ds)) ++ fst x, snd x).
Proof.
  intros A F NE H.
  assert (enough : forall f1 f2 (t : str), length t < f1 -> length t < f2 -> refs f1 ok t = refs f2 ok t).
  { induction f1 as [|f1 IH]; intros f2 t L1 L2; [lia|]. destruct f2 as [|f2]; [lia|]. cbn [refs]. destruct t as [|c r]; [reflexivity|]. cbn [length] in *.
    assert (Q : forall t : str, length t <= length r -> refs f1 ok t = refs f2 ok t) by (intros t Lt; apply IH; lia).
    assert (Q1 : forall n, refs f1 ok (skipn n r) = refs f2 ok (skipn n r)) by (intros n; apply Q; rewrite skipn_length; lia).
    destruct (ok c); cbn [negb]; [|reflexivity]. destruct (Ascii.eqb c "&"%char); [|rewrite Q by lia; reflexivity].
    use_adv "amp;"%string; [rewrite adv_ok by lia; cbn [obind]; rewrite Q1; reflexivity|].
    use_adv "apos;"%string; [rewrite adv_ok by lia; cbn [obind]; rewrite Q1; reflexivity|].
    use_adv "quot;"%string; [rewrite adv_ok by lia; cbn [obind]; rewrite Q1; reflexivity|].
    use_adv "gt;"%string; [rewrite adv_ok by lia; cbn [obind]; rewrite Q1; reflexivity|].
    use_adv "lt;"%string; [rewrite adv_ok by lia; cbn [obind]; rewrite Q1; reflexivity|].
    use_adv "#"%string; [|rewrite Q by lia; reflexivity].
    use_adv "#x"%string; rewrite adv_ok by lia; cbn [obind];
    (match goal with |- context [code_digits ?b ?t 0%N] => pose proof (code_digits_len b t 0) as LD; rewrite skipn_length in LD; destruct (coded (fst (code_digits b t 0))); cbn [obind]; try reflexivity;
       destruct (snd (code_digits b t 0)) as [|e t']; [reflexivity|]; cbn [length] in LD; rewrite (Q t') by lia; reflexivity end). }
  assert (go : forall n, length rest < n -> refs (S n) ok (lit (if hex then "&#x" else "&#") ++ s ++ ";"%char :: rest) = do x <- text_to ok rest; Ok (map ascii_of_N (utf8 (number (if hex then 16 else 10)%N ds)) ++ fst x, snd x));
    [|unfold text_to at 1; apply go; rewrite !app_length; cbn [length]; lia].
  intros n Ln. unfold text_to. rewrite <- (enough n (S (length rest)) rest) by lia. destruct hex.
  - cbn [lit list_ascii_of_string app length refs]. rewrite A. cbn [negb]. replace (Ascii.eqb "&"%char "&"%char) with true by reflexivity.
    replace (begins ["a"%char; "m"%char; "p"%char; ";"%char] ("#"%char :: "x"%char :: s ++ ";"%char :: rest)) with false by reflexivity.
    cbn [begins]. repeat match goal with |- context [Ascii.eqb ?a ?b] => let e := eval vm_compute in (Ascii.eqb a b) in change (Ascii.eqb a b) with e end. cbn [andb]. rewrite adv_ok by (cbn [length]; lia). cbn [obind skipn].
    rewrite (code_digits_ok 16 (";"%char :: rest) ltac:(lia) eq_refl s ds F 0%N) by (unfold number in H; lia). cbn [fst snd]. fold (number 16 ds). rewrite (coded_utf8 _ H). cbn [obind].
    replace (Ascii.eqb ";"%char ";"%char) with true by reflexivity. reflexivity.
  - destruct F as [|c d s ds D F]; [congruence|]. assert (CX : Ascii.eqb "x"%char c = false).
    { apply eqb_neq. intros <-. pose proof (digit_value_ok _ _ _ D) as V. vm_compute in V. discriminate. }
    cbn [lit list_ascii_of_string app length refs]. rewrite A. cbn [negb]. replace (Ascii.eqb "&"%char "&"%char) with true by reflexivity.
    cbn [begins]. rewrite CX. repeat match goal with |- context [Ascii.eqb ?a ?b] => let e := eval vm_compute in (Ascii.eqb a b) in match e with true => idtac | false => idtac end; change (Ascii.eqb a b) with e end. cbn [andb]. rewrite adv_ok by (cbn [length]; lia). cbn [obind skipn].
    change (c :: s ++ ";"%char :: rest) with ((c :: s) ++ ";"%char :: rest).
    rewrite (code_digits_ok 10 (";"%char :: rest) ltac:(lia) eq_refl (c :: s) (d :: ds) (Forall2_cons _ _ D F) 0%N) by (unfold number in H; lia). cbn [fst snd]. fold (number 10 (d :: ds)). rewrite (coded_utf8 _ H). cbn [obind].
    replace (Ascii.eqb ";"%char ";"%char) with true by reflexivity. reflexivity.
Qed.

(** ** what precedes the document *)
Lemma parse_nodes_fuel : forall f g (s : str) k, length s < f -> length s < g -> parse_nodes f s k = parse_nodes g s k.
Proof.
  induction f as [|f IH]; intros g s k L G; [zl|]. destruct g as [|g]; [zl|]. cbn [parse_nodes]. pose proof (skip_len s) as L1. destruct (skip_space s) as [|c r]; [reflexivity|]. cbn [length] in L1.
  destruct (Ascii.eqb c "<"%char); [|reflexivity]. pose proof (proj1 (parse_within (S (length r))) r ltac:(zl)) as W. destruct (parse_node (S (length r)) r) as [[x t]| |]; cbn [obind within snd] in *; try reflexivity.
  apply IH; zl.
Qed.
Lemma begins_app p s : begins p (p ++ s) = true.
Proof. induction p as [|c p IH]; [reflexivity|]. cbn. rewrite Ascii.eqb_refl. exact IH. Qed.
Lemma begins_split p : forall s, begins p s = true -> exists r, s = p ++ r.
Proof. induction p as [|c p IH]; intros s B; [exists s; reflexivity|]. destruct s as [|d s]; [discriminate|]. cbn in B. apply andb_prop in B. destruct B as [E B]. apply Ascii.eqb_eq in E. subst d. destruct (IH s B) as [r ->]. exists r. reflexivity. Qed.
(** the last character of the stop occurs in it once *)
Lemma skip_to_stop p e b rest : ~ In e p -> (forall u v, b <> u ++ (p ++ [e]) ++ v) -> skip_to (p ++ [e]) (b ++ (p ++ [e]) ++ rest) = Ok (b, rest).
Proof.
  intros NE. induction b as [|c b IH]; intros N.
  - cbn [app]. destruct ((p ++ [e]) ++ rest) as [|x y] eqn:Q; [destruct p; discriminate|]. cbn [skip_to]. rewrite <- Q, begins_app. rewrite adv_ok by (rewrite (app_length (p ++ [e])); zl). cbn [obind]. rewrite skipn_app, skipn_all, Nat.sub_diag. reflexivity.
  - cbn [app skip_to]. destruct (begins (p ++ [e]) (c :: b ++ (p ++ [e]) ++ rest)) eqn:B.
    + exfalso. apply begins_split in B. destruct B as [r B].
      assert (X : c :: b ++ (p ++ [e]) ++ rest = (c :: b) ++ (p ++ [e]) ++ rest) by reflexivity. rewrite X in B. clear X.
      destruct (le_lt_dec (length (p ++ [e])) (length (c :: b))) as [L|L].
      * apply (N [] (skipn (length (p ++ [e])) (c :: b))). cbn [app]. rewrite <- (firstn_skipn (length (p ++ [e])) (c :: b)) at 1. f_equal.
        apply (f_equal (firstn (length (p ++ [e])))) in B. rewrite firstn_app in B. replace (length (p ++ [e]) - length (c :: b)) with 0 in B by zl. cbn [firstn] in B. rewrite app_nil_r in B.
        rewrite firstn_app, firstn_all, Nat.sub_diag in B. cbn [firstn] in B. rewrite app_nil_r in B. exact B.
      * (* the last character of the stop lies inside the stop itself, before its end *)
        apply (f_equal (fun l => nth_error l (length p))) in B. rewrite <- !app_assoc in B. rewrite (nth_error_app2 p) in B by zl. rewrite Nat.sub_diag in B. cbn [app nth_error] in B.
        rewrite app_length in L. cbn [length] in L. change (c :: b ++ p ++ e :: rest) with ((c :: b) ++ p ++ e :: rest) in B.
        rewrite nth_error_app2 in B by (cbn [length]; zl). rewrite nth_error_app1 in B by (cbn [length]; zl). apply nth_error_In in B. exact (NE B).
    + rewrite IH; [reflexivity|]. intros u v ->. apply (N (c :: u) v). reflexivity.
Qed.
Lemma balanced_skip b : balanced b -> forall d rest, skip_doctype (S d) (b ++ rest) = skip_doctype (S d) rest.
Proof.
  induction 1 as [|c r N _ IH|u r _ IHu _ IH]; intros d rest; [reflexivity| |].
  - cbn [app skip_doctype]. cbn in N. destruct (Ascii.eqb_spec c "["%char) as [->|_]; [tauto|]. destruct (Ascii.eqb_spec c "]"%char) as [->|_]; [tauto|]. apply IH.
  - cbn [app]. rewrite <- app_assoc. cbn [app skip_doctype]. rewrite Ascii.eqb_refl. rewrite IHu. cbn [skip_doctype]. change (Ascii.eqb "]" "[") with false. rewrite Ascii.eqb_refl. apply IH.
Qed.
Lemma declared_skip b : declared b -> forall rest, skip_doctype 0 (b ++ ">"%char :: rest) = Ok rest.
Proof.
  induction 1 as [|c r N _ IH|u r U _ IH]; intros rest; [reflexivity| |].
  - cbn [app skip_doctype]. cbn in N. destruct (Ascii.eqb_spec c ">"%char) as [->|_]; [tauto|]. destruct (Ascii.eqb_spec c "["%char) as [->|_]; [tauto|]. apply IH.
  - cbn [app]. rewrite <- app_assoc. cbn [app skip_doctype]. change (Ascii.eqb "[" ">") with false. rewrite Ascii.eqb_refl. rewrite (balanced_skip u U 0). cbn [skip_doctype]. change (Ascii.eqb "]" "[") with false. rewrite Ascii.eqb_refl. apply IH.
Qed.
Lemma ws_space c : xml_space c -> ws_test c = true.
Proof. intros H. apply in_set_In. exact H. Qed.
Lemma preamble_nodes p rest f k : preamble p -> length (p ++ rest) < f -> parse_nodes f (p ++ rest) k = parse_nodes f rest k.
Proof.
  intros H L. rewrite (parse_nodes_fuel f (S f) rest) by (rewrite app_length in L; zl). destruct f as [|f]; [zl|].
  assert (fin : forall s, s = "<"%char :: skipn 1 s -> parse_node (S (length (skipn 1 s))) (skipn 1 s) = Ok (None, rest) -> length s < S f -> length rest < length s -> parse_nodes (S f) s k = parse_nodes (S (S f)) rest k).
  { intros s E P Ls Lr. rewrite (parse_nodes_fuel (S (S f)) f) by zl. cbn [parse_nodes]. replace (skip_space s) with s; [|rewrite E; reflexivity]. destruct s as [|c s]; [discriminate|]. cbn [skipn] in *. injection E as ->. rewrite Ascii.eqb_refl, P. reflexivity. }
  assert (Lp : p <> []) by (destruct H; discriminate). assert (length rest < length (p ++ rest)) as Lr by (rewrite app_length; destruct p; [congruence|cbn; zl]).
  destruct H as [c C|b N|b N|c b C D].
  - apply ws_space in C. cbn [app length] in *. rewrite (parse_nodes_fuel (S (S f)) (S f)) by zl. cbn [parse_nodes]. unfold skip_space. cbn [span]. rewrite C. reflexivity.
  - apply fin; try assumption; [reflexivity|]. cbn [lit list_ascii_of_string app skipn parse_node]. cbn [begins]. rewrite Ascii.eqb_refl. cbn [andb].
    rewrite adv_ok by (cbn [length]; zl). cbn [obind skipn]. pose proof (skip_to_stop ["?"%char] ">"%char b rest) as S. rewrite <- app_assoc. cbn [app] in *. change (lit "?>") with ["?"; ">"]%char. rewrite S; [reflexivity|cbn; intuition discriminate|exact N].
  - apply fin; try assumption; [reflexivity|]. cbn [lit list_ascii_of_string app skipn parse_node]. cbn [begins]. rewrite ?Ascii.eqb_refl. change (Ascii.eqb "?" "!") with false. cbn [andb].
    rewrite adv_ok by (cbn [length]; zl). cbn [obind skipn]. pose proof (skip_to_stop ["-"; "-"]%char ">"%char b rest) as S. rewrite <- app_assoc. cbn [app] in *. change (lit "-->") with ["-"; "-"; ">"]%char. rewrite S; [reflexivity|cbn; intuition discriminate|exact N].
  - apply fin; try assumption; [reflexivity|]. cbn [lit list_ascii_of_string app skipn parse_node]. cbn [begins]. rewrite ?Ascii.eqb_refl. change (Ascii.eqb "?" "!") with false. change (Ascii.eqb "-" "D") with false. change (Ascii.eqb "[" "D") with false. cbn [andb skipn]. rewrite (ws_space c C).
    rewrite adv_ok by (cbn [length]; zl). cbn [obind skipn]. rewrite <- app_assoc. cbn [app]. rewrite (declared_skip b D). reflexivity.
Qed.
Lemma c_str_app p s : ~ In nul p -> c_str (p ++ s) = p ++ c_str s.
Proof. induction p as [|c p IH]; intros N; [reflexivity|]. cbn [app c_str]. cbn in N. destruct (Ascii.eqb_spec c nul) as [->|_]; [tauto|]. rewrite IH by tauto. reflexivity. Qed.
Lemma preamble_assembled t p text : preamble p -> ~ In nul p -> (forall r, text <> ascii_of_nat 239 :: r) -> xml_read t (p ++ text) = xml_read t text.
Proof.
  intros P Z B. unfold xml_read. f_equal. unfold parse_document. rewrite c_str_app by exact Z.
  assert (E1 : begins bom (p ++ c_str text) = false) by (destruct P as [c C|b N|b N|c b C D]; try reflexivity; unfold xml_space in C; cbn in C; destruct C as [<-|[<-|[<-|[<-|[]]]]]; reflexivity).
  assert (E2 : begins bom (c_str text) = false).
  { destruct text as [|c r]; [reflexivity|]. cbn [c_str]. destruct (Ascii.eqb c nul); [reflexivity|]. cbn [bom begins]. destruct (Ascii.eqb_spec (ascii_of_nat 239) c) as [<-|_]; [|reflexivity]. exfalso. exact (B r eq_refl). }
  rewrite E1, E2. cbn [obind]. rewrite (preamble_nodes p) by (assumption || zl). apply parse_nodes_fuel; rewrite ?app_length; zl.
Qed.
