(** Proofs about the path model. *)
From Coq Require Import Ascii String List Arith Bool Lia.
From Verif Require Import Base BaseProofs Str StrSpec StrModel StrBase StrProofs PathSpec PathModel.
Import ListNotations.

Lemma one_of_slashes c : one_of slashes c <-> separator c.
Proof. unfold one_of, separator, slashes, slash. cbn. intuition congruence. Qed.

Lemma one_of_dot c : one_of (lit ".") c <-> c = dot.
Proof.
  unfold one_of. change (lit ".") with [dot]. cbn. intuition congruence.
Qed.

Lemma Forall_slashes s : Forall (fun c => ~ one_of slashes c) s <-> component s.
Proof. unfold component. rewrite !Forall_forall. split; intros H x Hx E; apply (H x Hx), one_of_slashes, E. Qed.

Lemma Forall_dots s : Forall (fun c => ~ one_of (lit ".") c) s <-> dot_free s.
Proof. unfold dot_free. rewrite !Forall_forall. split; intros H x Hx E; apply (H x Hx), one_of_dot, E. Qed.

Lemma last_sep_bare f : component f -> last_separator_pos f = None.
Proof.
  intros H. unfold last_separator_pos. destruct (find_last_of_spec f slashes) as [[_ E]|(a & c & b & -> & Hc & _)]; [exact E|].
  exfalso. apply Forall_app_iff in H. destruct H as [_ H]. inversion H as [|? ? N _]. apply N, one_of_slashes, Hc.
Qed.

Lemma last_sep_dir d c f : separator c -> component f -> last_separator_pos (d ++ c :: f) = Some (length d).
Proof.
  intros Hc Hf. unfold last_separator_pos.
  destruct (find_last_of_spec (d ++ c :: f) slashes) as [[H _]|(a & c' & b & E & Hc' & Hb & ->)].
  - exfalso. apply Forall_app_iff in H. destruct H as [_ H]. inversion H as [|? ? N _]. apply N, one_of_slashes, Hc.
  - destruct (split_suffix (fun x => ~ one_of slashes x) _ _ _ _ _ _ E) as (-> & _ & _); try reflexivity.
    + apply Forall_slashes, Hf.
    + intros N. apply N, one_of_slashes, Hc.
    + exact Hb.
    + intros N. apply N, Hc'.
Qed.

Lemma last_dot_bare f : dot_free f -> find_last_of f (lit ".") = None.
Proof.
  intros H. destruct (find_last_of_spec f (lit ".")) as [[_ E]|(a & c & b & -> & Hc & _)]; [exact E|].
  exfalso. apply Forall_app_iff in H. destruct H as [_ H]. inversion H as [|? ? N _]. apply N, one_of_dot, Hc.
Qed.

Lemma last_dot_at a x : dot_free x -> find_last_of (a ++ dot :: x) (lit ".") = Some (length a).
Proof.
  intros Hx. destruct (find_last_of_spec (a ++ dot :: x) (lit ".")) as [[H _]|(a' & c' & b & E & Hc' & Hb & ->)].
  - exfalso. apply Forall_app_iff in H. destruct H as [_ H]. inversion H as [|? ? N _]. apply N, one_of_dot. reflexivity.
  - destruct (split_suffix (fun x => ~ one_of (lit ".") x) _ _ _ _ _ _ E) as (-> & _ & _); try reflexivity.
    + apply Forall_dots, Hx.
    + intros N. apply N, one_of_dot. reflexivity.
    + exact Hb.
    + intros N. apply N, Hc'.
Qed.

Lemma path_parts_total p : exists d f, path_parts p d f.
Proof.
  destruct (find_last_of_spec p slashes) as [[H _]|(a & c & b & -> & Hc & Hb & _)].
  - exists [], p. constructor. apply Forall_slashes, H.
  - exists a, b. constructor; [apply one_of_slashes, Hc|apply Forall_slashes, Hb].
Qed.

Lemma name_parts_total f : exists s e, name_parts f s e.
Proof.
  destruct (find_last_of_spec f (lit ".")) as [[H _]|(a & c & b & -> & Hc & Hb & _)].
  - exists f, []. constructor. apply Forall_dots, H.
  - apply one_of_dot in Hc. subst c. exists a, (dot :: b). constructor. apply Forall_dots, Hb.
Qed.

Lemma substr_prefix a b : substr (a ++ b) 0 (Some (length a)) = Ok a.
Proof. apply substr_front. Qed.

Lemma parts_ok p d f : path_parts p d f -> parent_path p = Ok d /\ filename p = Ok f.
Proof.
  unfold parent_path, filename. intros [f' H|d' c f' Hc H].
  - rewrite (last_sep_bare _ H). auto.
  - rewrite (last_sep_dir _ _ _ Hc H). split; [apply substr_front|apply substr_after].
Qed.

Lemma parts_assembled p d f : path_parts p d f <-> parent_path p = Ok d /\ filename p = Ok f.
Proof.
  split; [apply parts_ok|]. intros [H1 H2]. destruct (path_parts_total p) as (d' & f' & H).
  destruct (parts_ok _ _ _ H) as [E1 E2]. congruence.
Qed.

Lemma has_parent_iff p : has_parent_path p = true <-> exists c, separator c /\ In c p.
Proof.
  unfold has_parent_path, last_separator_pos.
  destruct (find_last_of_spec p slashes) as [[H ->]|(a & c & b & -> & Hc & _ & ->)].
  - split; [discriminate|]. intros (c & Hc & Hi). exfalso. rewrite Forall_forall in H. apply (H c Hi), one_of_slashes, Hc.
  - split; [|reflexivity]. intros _. exists c. split; [apply one_of_slashes, Hc|apply in_elt].
Qed.

Lemma dot_free_app a b : dot_free (a ++ b) <-> dot_free a /\ dot_free b.
Proof. apply Forall_app_iff. Qed.
Lemma component_app a b : component (a ++ b) <-> component a /\ component b.
Proof. apply Forall_app_iff. Qed.

Lemma dot_not_sep : ~ separator dot.
Proof. intros [H|H]; discriminate H. Qed.

Lemma sep_not_dot c : separator c -> c <> dot.
Proof. intros H ->. exact (dot_not_sep H). Qed.

Lemma substr_none s n : n <= length s -> substr s n None = Ok (skipn n s).
Proof. intros H. unfold substr. destruct (Nat.leb_spec n (length s)); [reflexivity|lia]. Qed.

(** the stem is always the file name up to its last dot *)
Lemma stem_ok p d f s e : path_parts p d f -> name_parts f s e -> stem p = Ok s.
Proof.
  intros Hp Hn. unfold stem. destruct Hp as [f Hf|d c f Hc Hf].
  - rewrite (last_sep_bare _ Hf). destruct Hn as [s Hs|s x Hx].
    + rewrite (last_dot_bare _ Hs). apply substr_none. lia.
    + rewrite (last_dot_at _ _ Hx). cbn [Nat.leb]. rewrite Nat.sub_0_r. apply substr_front.
  - rewrite (last_sep_dir _ _ _ Hc Hf). destruct Hn as [s Hs|s x Hx].
    + destruct (find_last_of_spec (d ++ c :: s) (lit ".")) as [[H ->]|(a & y & b & E & Hy & Hb & ->)].
      * replace (S (length d)) with (length d + 1) by lia. apply substr_after.
      * apply one_of_dot in Hy. subst y.
        assert (L : length a <= length d).
        { destruct (Nat.leb_spec (length a) (length d)) as [L|L]; [exact L|exfalso].
          assert (Ha : exists t, a = d ++ c :: t).
          { exists (skipn (S (length d)) a).
            assert (Hd : firstn (S (length d)) a = d ++ [c]).
            { transitivity (firstn (S (length d)) (a ++ dot :: b)).
              - rewrite firstn_app. replace (S (length d) - length a) with 0 by lia. cbn [firstn]. rewrite app_nil_r. reflexivity.
              - rewrite <- E. replace (d ++ c :: s) with ((d ++ [c]) ++ s) by (rewrite <- app_assoc; reflexivity).
                replace (S (length d)) with (length (d ++ [c])) by (rewrite app_length; cbn; lia). apply firstn_length_app. }
            rewrite <- (firstn_skipn (S (length d)) a) at 1. rewrite Hd, <- app_assoc. reflexivity. }
          destruct Ha as [t ->]. rewrite <- app_assoc in E. apply app_inv_head in E. cbn [app] in E. injection E as E.
          subst s. apply dot_free_app in Hs. destruct Hs as [_ Hs]. inversion Hs; congruence. }
        destruct (Nat.leb_spec (S (length d)) (length a)); [lia|].
        replace (S (length d)) with (length d + 1) by lia. apply substr_after.
    + replace (d ++ c :: s ++ dot :: x) with ((d ++ c :: s) ++ dot :: x) by (rewrite <- app_assoc; reflexivity).
      rewrite (last_dot_at _ _ Hx).
      destruct (Nat.leb_spec (S (length d)) (length (d ++ c :: s))) as [_|L]; [|rewrite app_length in L; cbn in L; lia].
      replace (length (d ++ c :: s) - S (length d)) with (length s) by (rewrite app_length; cbn; lia).
      replace ((d ++ c :: s) ++ dot :: x) with ((d ++ [c]) ++ s ++ dot :: x) by (rewrite <- !app_assoc; reflexivity).
      replace (S (length d)) with (length (d ++ [c])) by (rewrite app_length; cbn; lia).
      apply substr_mid.
Qed.

(** position of the last dot when the directory has none or the file name has one *)
Lemma whole_parts p d f s e :
  path_parts p d f -> name_parts f s e -> In dot f \/ ~ In dot d ->
  exists b, p = b ++ e /\ path_parts b d s /\ name_parts p b e.
Proof.
  intros Hp Hn H. destruct Hn as [s Hs|s x Hx].
  - exists p. rewrite app_nil_r. split; [reflexivity|]. split; [exact Hp|]. constructor.
    destruct H as [H|H]; [exfalso; unfold dot_free in Hs; rewrite Forall_forall in Hs; exact (Hs _ H eq_refl)|].
    destruct Hp as [f Hf|d c f Hc Hf]; [exact Hs|]. apply dot_free_app. split.
    + apply Forall_forall. intros y Hy ->. exact (H Hy).
    + constructor; [apply sep_not_dot, Hc|exact Hs].
  - inversion Hp as [f Hf Ep Ed Ef|d' c f Hc Hf Ep Ed Ef]; subst.
    + exists s. split; [reflexivity|]. split; [|constructor; exact Hx]. constructor. apply component_app in Hf. tauto.
    + exists (d ++ c :: s). rewrite <- app_assoc. split; [reflexivity|]. split.
      * constructor; [exact Hc|]. apply component_app in Hf. tauto.
      * replace (d ++ c :: s ++ dot :: x) with ((d ++ c :: s) ++ dot :: x) by (rewrite <- app_assoc; reflexivity).
        constructor; exact Hx.
Qed.

Lemma extension_name p b e : name_parts p b e -> extension p = Ok e /\ extension_no_dot p = Ok (tl e).
Proof.
  unfold extension, extension_no_dot. intros [s Hs|s x Hx].
  - rewrite (last_dot_bare _ Hs). auto.
  - rewrite (last_dot_at _ _ Hx). split; [apply substr_end|apply substr_after].
Qed.

(** the extension is right exactly when the file name has a dot or the directory has none *)
Lemma extension_iff p d f s e :
  path_parts p d f -> name_parts f s e -> (extension p = Ok e <-> In dot f \/ ~ In dot d).
Proof.
  intros Hp Hn. split; [|intros H; destruct (whole_parts _ _ _ _ _ Hp Hn H) as (b & _ & _ & Hb); exact (proj1 (extension_name _ _ _ Hb))].
  intros E. destruct Hn as [s Hs|s x Hx]; [|left; apply in_elt].
  right. intros Hd. destruct (name_parts_total p) as (b & e & Hb).
  destruct (extension_name _ _ _ Hb) as [E' _]. rewrite E in E'. injection E' as <-.
  inversion Hb as [b' Hb' E1 E2 E3|]; subst.
  unfold dot_free in Hb'. rewrite Forall_forall in Hb'. apply (Hb' dot); [|reflexivity].
  destruct Hp as [f Hf|d c f Hc Hf]; [destruct Hd|apply in_or_app; left; exact Hd].
Qed.

Lemma extension_assembled p d f s e :
  path_parts p d f -> name_parts f s e -> In dot f \/ ~ In dot d ->
  stem p = Ok s /\ extension p = Ok e /\ extension_no_dot p = Ok (tl e) /\ filename p = Ok (s ++ e).
Proof.
  intros Hp Hn H. destruct (whole_parts _ _ _ _ _ Hp Hn H) as (b & _ & _ & Hb).
  split; [exact (stem_ok _ _ _ _ _ Hp Hn)|]. destruct (extension_name _ _ _ Hb) as [E1 E2]. split; [exact E1|]. split; [exact E2|].
  destruct (parts_ok _ _ _ Hp) as [_ ->]. destruct Hn; [rewrite app_nil_r|]; reflexivity.
Qed.

(** ** replace_extension *)

Lemma dotted_ok x : (match x with [] => [] | _ => if str_begins_with_char x "."%char then x else "."%char :: x end) = dotted x.
Proof. destruct x as [|c x]; reflexivity. Qed.

Lemma replace_extension_name p b e x : name_parts p b e -> replace_extension p x = b ++ dotted x.
Proof.
  intros H. unfold replace_extension.
  assert (E : match find_last_of p (lit ".") with Some n => firstn n p | None => p end = b).
  { destruct H as [s Hs|s y Hy]; [rewrite (last_dot_bare _ Hs); reflexivity|].
    rewrite (last_dot_at _ _ Hy). apply firstn_length_app. }
  rewrite E. rewrite <- dotted_ok. destruct x; [rewrite app_nil_r|]; reflexivity.
Qed.

Lemma replace_extension_assembled p d f s e x :
  path_parts p d f -> name_parts f s e -> In dot f \/ ~ In dot d ->
  (exists b, p = b ++ e /\ replace_extension p x = b ++ dotted x) /\
  (x <> [] -> component x -> dot_free (tl (dotted x)) ->
   parent_path (replace_extension p x) = Ok d /\ stem (replace_extension p x) = Ok s /\
   extension (replace_extension p x) = Ok (dotted x) /\ filename (replace_extension p x) = Ok (s ++ dotted x)).
Proof.
  intros Hp Hn H. destruct (whole_parts _ _ _ _ _ Hp Hn H) as (b & -> & Hb & Hnb).
  pose proof (replace_extension_name _ _ _ x Hnb) as E. split; [exists b; auto|].
  intros Hx Hc Hd. rewrite E.
  destruct (dotted x) as [|y z] eqn:Ex.
  { destruct x as [|c x]; [congruence|]. cbn in Ex. destruct (Ascii.eqb c dot); discriminate. }
  assert (y = dot) as ->.
  { destruct x as [|c x]; [congruence|]. cbn in Ex. destruct (Ascii.eqb_spec c dot); congruence. }
  cbn [tl] in Hd.
  assert (Hz : component (dot :: z)).
  { rewrite <- Ex. destruct x as [|c x]; [congruence|]. cbn. destruct (Ascii.eqb_spec c dot); [exact Hc|].
    constructor; [exact dot_not_sep|exact Hc]. }
  assert (Hp' : path_parts (b ++ dot :: z) d (s ++ dot :: z)).
  { inversion Hb as [f' Hf' E1 E2 E3|d' c f' Hc' Hf' E1 E2 E3]; subst.
    - constructor. apply component_app. auto.
    - rewrite <- app_assoc. cbn [app]. constructor; [exact Hc'|]. apply component_app. auto. }
  assert (Hn' : name_parts (s ++ dot :: z) s (dot :: z)) by (constructor; exact Hd).
  destruct (parts_ok _ _ _ Hp') as [-> ->]. rewrite (stem_ok _ _ _ _ _ Hp' Hn').
  destruct (extension_name (b ++ dot :: z) b (dot :: z) ltac:(constructor; exact Hd)) as [-> _]. auto.
Qed.

(** ** Joining *)

Lemma ends_colon a c : str_ends_with (a ++ [c]) (lit ":") = true <-> c = ":"%char.
Proof.
  unfold str_ends_with. rewrite app_length. cbn [length lit list_ascii_of_string].
  destruct (Nat.leb_spec 1 (length a + 1)); [|lia]. cbn [andb].
  replace (length a + 1 - 1) with (length a) by lia. unfold compare_eq.
  rewrite skipn_length_app. cbn [firstn]. rewrite str_eqb_eq. split; [intros [=]; auto|intros ->; reflexivity].
Qed.

Lemma last_sep_last a c : last_separator_pos (a ++ [c]) = Some (length a) <-> separator c.
Proof.
  split.
  - unfold last_separator_pos. destruct (find_last_of_spec (a ++ [c]) slashes) as [[_ E]|(a' & c' & b & E & Hc & Hb & ->)]; [congruence|].
    intros [= L]. assert (length b = 0).
    { apply (f_equal (@length ascii)) in E. rewrite !app_length in E. cbn in E. lia. }
    destruct b; [|discriminate]. apply app_inj_tail in E. destruct E as [_ ->]. apply one_of_slashes, Hc.
  - intros H. apply last_sep_dir; [exact H|constructor].
Qed.

Lemma has_filename_last a c : has_filename (a ++ [c]) = true <-> ~ separator c /\ c <> ":"%char.
Proof.
  unfold has_filename. destruct (a ++ [c]) as [|y z] eqn:E; [destruct a; discriminate|]. rewrite <- E. clear y z E.
  rewrite andb_true_iff, negb_true_iff. rewrite <- (last_sep_last a c). rewrite app_length. cbn [length].
  replace (length a + 1 - 1) with (length a) by lia.
  pose proof (ends_colon a c) as Hc. destruct (str_ends_with (a ++ [c]) (lit ":")).
  - split; [intros [_ H]; discriminate H|]. intros [_ H]. exfalso. apply H, Hc. reflexivity.
  - assert (c <> ":"%char) by (intros ->; assert (false = true) by (apply Hc; reflexivity); discriminate).
    destruct (last_separator_pos (a ++ [c])) as [n|]; [rewrite negb_true_iff, Nat.eqb_neq|]; (split; [|]); intros [H1 H2]; split; auto; congruence.
Qed.

Lemma has_filename_iff p : has_filename p = true <-> open_path p.
Proof.
  destruct p as [|x p'] using rev_ind.
  - split; [discriminate|]. intros (a & c & E & _). destruct a; discriminate.
  - rewrite has_filename_last. split.
    + intros [H1 H2]. exists p', x. auto.
    + intros (a & c & E & H1 & H2). apply app_inj_tail in E. destruct E as [_ ->]. auto.
Qed.

Lemma has_filename_false p : ~ open_path p -> has_filename p = false.
Proof. intros H. destruct (has_filename p) eqn:E; [|reflexivity]. apply has_filename_iff in E. contradiction. Qed.

Lemma trimmed_slashes q t : trimmed_left (one_of slashes) q t <-> trimmed_left separator q t.
Proof.
  unfold trimmed_left. split; intros (l & E & Hl & H); exists l; split; auto; (split; [revert Hl; apply Forall_impl; intros a; apply one_of_slashes|]);
    intros c r Er N; apply (H c r Er), one_of_slashes, N.
Qed.

Lemma trimmed_left_fun (sp : ascii -> Prop) q t t' : trimmed_left sp q t -> trimmed_left sp q t' -> t = t'.
Proof.
  intros (l & -> & Hl & H) (l' & E & Hl' & H').
  revert l' Hl' E. induction Hl as [|x l Hx Hl IH]; intros l' Hl' E.
  - destruct Hl' as [|y l' Hy Hl']; [exact E|]. exfalso. cbn [app] in E. exact (H y _ E Hy).
  - destruct Hl' as [|y l' Hy Hl']; [|cbn [app] in E; injection E as _ E; apply IH in E; auto].
    exfalso. cbn [app] in E. symmetry in E. exact (H' x _ E Hx).
Qed.

Lemma join_open p q t : open_path p -> trimmed_left separator q t -> join_path p q = Ok (p ++ slash :: t).
Proof.
  intros Hp Ht. unfold join_path. rewrite (proj2 (has_filename_iff p) Hp).
  destruct (trim_left_ok q slashes) as (t' & -> & Ht'). apply trimmed_slashes in Ht'.
  rewrite (trimmed_left_fun _ _ _ _ Ht Ht'). reflexivity.
Qed.

Lemma join_closed p q : ~ open_path p -> join_path p q = Ok (p ++ q).
Proof. intros H. unfold join_path. rewrite (has_filename_false _ H). reflexivity. Qed.

Lemma trimmed_component q : component q -> trimmed_left separator q q.
Proof.
  intros H. exists []. split; [reflexivity|]. split; [constructor|]. intros c r -> N. inversion H; contradiction.
Qed.

Lemma trimmed_total q : exists t, trimmed_left separator q t.
Proof. destruct (trim_left_ok q slashes) as (t & _ & H). exists t. apply trimmed_slashes, H. Qed.

Lemma open_dec p : open_path p \/ ~ open_path p.
Proof. destruct (has_filename p) eqn:E; [left; apply has_filename_iff, E|right; intros H; apply has_filename_iff in H; congruence]. Qed.

Lemma join_assembled p q :
  (open_path p -> forall t, trimmed_left separator q t -> join_path p q = Ok (p ++ slash :: t)) /\
  (~ open_path p -> join_path p q = Ok (p ++ q)).
Proof. split; [intros Hp t Ht; apply join_open; assumption|apply join_closed]. Qed.

Lemma join_name_assembled p q :
  component q -> open_path p \/ (exists d c, p = d ++ [c] /\ separator c) ->
  exists r, join_path p q = Ok r /\ filename r = Ok q /\
    (open_path p -> parent_path r = Ok p) /\ (forall d c, p = d ++ [c] -> separator c -> parent_path r = Ok d).
Proof.
  intros Hq [Hp|(d & c & -> & Hc)].
  - exists (p ++ slash :: q). split; [apply join_open; [exact Hp|apply trimmed_component, Hq]|].
    assert (H : path_parts (p ++ slash :: q) p q) by (constructor; [left; reflexivity|exact Hq]).
    destruct (parts_ok _ _ _ H) as [E1 E2]. split; [exact E2|]. split; [intros _; exact E1|].
    intros d c -> Hc. exfalso. destruct Hp as (a & x & E & Hx & _). apply app_inj_tail in E. destruct E as [_ ->]. contradiction.
  - assert (Hno : ~ open_path (d ++ [c])).
    { intros (a & x & E & Hx & _). apply app_inj_tail in E. destruct E as [_ ->]. contradiction. }
    exists ((d ++ [c]) ++ q). split; [apply join_closed, Hno|].
    rewrite <- app_assoc. cbn [app]. assert (H : path_parts (d ++ c :: q) d q) by (constructor; assumption).
    destruct (parts_ok _ _ _ H) as [E1 E2]. split; [exact E2|]. split; [intros; contradiction|].
    intros d' c' E _. apply app_inj_tail in E. destruct E as [-> _]. exact E1.
Qed.

Lemma reconstruct_assembled p d f :
  path_parts p d f -> open_path d -> exists r, (do a <- parent_path p; do b <- filename p; join_path a b) = Ok r /\ same_but_separators p r.
Proof.
  intros Hp Hd. destruct (parts_ok _ _ _ Hp) as [-> ->]. cbn [obind].
  destruct Hp as [f Hf|d c f Hc Hf].
  - destruct Hd as (a & c & E & _). destruct a; discriminate.
  - exists (d ++ slash :: f). split; [apply join_open; [exact Hd|apply trimmed_component, Hf]|].
    assert (R : forall l, same_but_separators l l) by (induction l; constructor; auto).
    apply Forall2_app; [apply R|]. constructor; [right; split; [exact Hc|left; reflexivity]|apply R].
Qed.

Lemma open_app a b : open_path b -> open_path (a ++ b).
Proof. intros (x & c & -> & H). exists (a ++ x), c. rewrite app_assoc. auto. Qed.

Lemma open_trim q t : trimmed_left separator q t -> open_path q -> open_path t.
Proof.
  intros (l & -> & Hl & Ht) (a & c & E & Hc & Hn).
  destruct t as [|y z] using rev_ind.
  - exfalso. rewrite app_nil_r in E. subst l. apply Forall_app_iff in Hl. destruct Hl as [_ Hl]. inversion Hl; contradiction.
  - rewrite app_assoc in E. apply app_inj_tail in E. destruct E as [_ ->]. exists z, c. auto.
Qed.

Lemma trimmed_more q t r : trimmed_left separator q t -> t <> [] -> trimmed_left separator (q ++ r) (t ++ r).
Proof.
  intros (l & -> & Hl & H) Hne. exists l. rewrite app_assoc. split; [reflexivity|]. split; [exact Hl|].
  destruct t as [|y z]; [congruence|]. cbn [app]. intros c r' [= -> _]. apply (H c z). reflexivity.
Qed.

Lemma open_cons c t : open_path t -> open_path (c :: t).
Proof. intros H. change (c :: t) with ([c] ++ t). apply open_app, H. Qed.

Lemma assoc_assembled a b c :
  open_path b -> (do x <- join_path a b; join_path x c) = (do y <- join_path b c; join_path a y).
Proof.
  intros Hb. destruct (trimmed_total c) as [t Ht]. rewrite (join_open b c t Hb Ht). cbn [obind].
  destruct (open_dec a) as [Ha|Ha].
  - destruct (trimmed_total b) as [u Hu]. rewrite (join_open a b u Ha Hu). cbn [obind].
    pose proof (open_trim _ _ Hu Hb) as Ho.
    rewrite (join_open _ c t ltac:(apply open_app, open_cons, Ho) Ht).
    rewrite (join_open a (b ++ slash :: t) (u ++ slash :: t) Ha).
    + rewrite <- app_assoc. reflexivity.
    + apply trimmed_more; [exact Hu|]. destruct Ho as (x & y & -> & _). destruct x; discriminate.
  - rewrite (join_closed a b Ha). cbn [obind]. rewrite (join_open _ c t ltac:(apply open_app, Hb) Ht).
    rewrite (join_closed _ _ Ha). rewrite <- app_assoc. reflexivity.
Qed.

(** ** Replacing file name and stem *)

Lemma remove_filename_parent p : remove_filename p = parent_path p.
Proof. reflexivity. Qed.

Lemma replace_filename_assembled p d f n :
  path_parts p d f -> open_path d -> component n ->
  replace_filename p n = Ok (d ++ slash :: n) /\ path_parts (d ++ slash :: n) d n.
Proof.
  intros Hp Hd Hn. unfold replace_filename. rewrite remove_filename_parent. destruct (parts_ok _ _ _ Hp) as [-> _]. cbn [obind].
  split; [apply join_open; [exact Hd|apply trimmed_component, Hn]|]. constructor; [left; reflexivity|exact Hn].
Qed.

Lemma replace_stem_assembled p d f s e n :
  path_parts p d f -> name_parts f s e -> In dot f \/ ~ In dot d -> open_path d \/ p = f -> component n ->
  exists r, replace_stem p n = Ok r /\ path_parts r d (n ++ e) /\
    exists r', concat_stem p n = Ok r' /\ path_parts r' d (s ++ n ++ e).
Proof.
  intros Hp Hn Hdot Hd Hc.
  assert (He : component e /\ component s).
  { assert (Hf : component f) by (destruct Hp; assumption).
    destruct Hn as [s Hs|s x Hx]; [split; [constructor|exact Hf]|]. apply component_app in Hf. tauto. }
  assert (R : forall m, component m -> exists r, replace_stem p m = Ok r /\ path_parts r d (m ++ e)).
  { intros m Hm. unfold replace_stem. rewrite (proj2 (extension_iff _ _ _ _ _ Hp Hn) Hdot). cbn [obind].
    rewrite remove_filename_parent. destruct (parts_ok _ _ _ Hp) as [-> _]. cbn [obind].
    assert (Hme : component (m ++ e)) by (apply component_app; tauto).
    destruct Hd as [Hd|Hd].
    - exists (d ++ slash :: m ++ e). split; [apply join_open; [exact Hd|apply trimmed_component, Hme]|].
      constructor; [left; reflexivity|exact Hme].
    - destruct Hp as [f Hf|d c f Hc' Hf].
      + exists (m ++ e). split; [|constructor; exact Hme]. rewrite join_closed; [reflexivity|].
        intros (a & c & E & _). destruct a; discriminate.
      + exfalso. apply (f_equal (@length ascii)) in Hd. rewrite app_length in Hd. cbn in Hd. lia. }
  destruct (R n Hc) as (r & E & Hr). exists r. split; [exact E|]. split; [exact Hr|].
  destruct (R (s ++ n)) as (r' & E' & Hr'); [apply component_app; tauto|]. exists r'.
  split; [|rewrite <- app_assoc in Hr'; exact Hr']. unfold concat_stem. rewrite (stem_ok _ _ _ _ _ Hp Hn). exact E'.
Qed.

(** ** make_preferred *)

Definition pref (c : ascii) : ascii :=
  if (Ascii.eqb c "/"%char || Ascii.eqb c bslash) && negb (Ascii.eqb c "/"%char) then "/"%char else c.

Lemma pref_spec c : (c = bslash /\ pref c = slash) \/ (c <> bslash /\ pref c = c).
Proof.
  unfold pref. destruct (Ascii.eqb_spec c "/"%char) as [->|H1]; [right; split; [discriminate|reflexivity]|].
  destruct (Ascii.eqb_spec c bslash) as [->|H2]; [left|right]; auto.
Qed.

Lemma make_preferred_assembled p :
  same_but_separators p (make_preferred p) /\ ~ In bslash (make_preferred p) /\
  (forall d f, path_parts p d f -> path_parts (make_preferred p) (make_preferred d) f) /\
  (~ In bslash p -> make_preferred p = p).
Proof.
  unfold make_preferred. fold pref. split; [|split; [|split]].
  - induction p as [|c p IH]; constructor; [|exact IH].
    destruct (pref_spec c) as [[-> E]|[_ E]].
    + right. split; [right; reflexivity|]. change (separator (pref bslash)). rewrite E. left. reflexivity.
    + left. symmetry. exact E.
  - intros H. apply in_map_iff in H. destruct H as (c & E & _). change (pref c = bslash) in E.
    destruct (pref_spec c) as [[_ E']|[N E']]; rewrite E' in E; [discriminate E|contradiction].
  - intros d f Hp.
    assert (Hid : forall l, component l -> map pref l = l).
    { induction 1 as [|c l Hc _ IH]; [reflexivity|]. cbn [map]. rewrite IH. f_equal.
      destruct (pref_spec c) as [[-> _]|[_ E]]; [exfalso; apply Hc; right; reflexivity|exact E]. }
    destruct Hp as [f Hf|d c f Hc Hf]; change (fun c => _) with pref.
    + rewrite (Hid f Hf). cbn [map]. constructor. exact Hf.
    + rewrite map_app. cbn [map]. rewrite (Hid f Hf). constructor; [|exact Hf].
      destruct (pref_spec c) as [[_ ->]|[_ ->]]; [left; reflexivity|exact Hc].
  - intros H. induction p as [|c p IH]; [reflexivity|]. cbn [map]. rewrite IH; [|intros N; apply H; right; exact N]. f_equal.
    change (pref c = c). destruct (pref_spec c) as [[-> _]|[_ E]]; [exfalso; apply H; left; reflexivity|exact E].
Qed.

Lemma absolute_iff p : is_absolute p = true <-> (exists r, p = slash :: r) \/ (exists r, p = "~"%char :: r) \/ In ":"%char p.
Proof.
  unfold is_absolute. rewrite !orb_true_iff.
  assert (B : forall c, str_begins_with_char p c = true <-> exists r, p = c :: r).
  { intros c. destruct p as [|x p]; cbn [str_begins_with_char].
    - split; [discriminate|]. intros [r E]; discriminate E.
    - rewrite Ascii.eqb_eq. split; [intros ->; exists p; reflexivity|intros [r [= -> _]]; reflexivity]. }
  rewrite !B. unfold slash.
  assert (C : (match find_first_of p (lit ":") 0 with Some _ => true | None => false end) = true <-> In ":"%char p).
  { destruct (find_first_of_spec p (lit ":")) as [[H ->]|(a & c & b & -> & Hc & _ & ->)].
    - split; [discriminate|]. intros N. exfalso. rewrite Forall_forall in H. apply (H _ N). left. reflexivity.
    - split; [|reflexivity]. intros _. destruct Hc as [<-|[]]. apply in_elt. }
  rewrite C. tauto.
Qed.
