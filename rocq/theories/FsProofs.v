(** Proofs about the file system functions. *)
From Coq Require Import Ascii String List Arith ZArith Bool Lia.
From Verif Require Import Base BaseProofs Str StrSpec StrModel StrBase StrProofs CastSpec CastModel CastProofs PathSpec PathModel PathProofs FsSpec FsModel.
Import ListNotations.

Lemma numbered_candidate folder i : numbered folder i = candidate folder i.
Proof. destruct i; reflexivity. Qed.

Lemma run_bind {A B} o (x : prog A) (k : A -> prog B) f :
  run o (pbind x k) f =
  match run o x f with
  | (Ok a, f1) => run o (k a) f1
  | (Throw, f1) => (Throw, f1)
  | (UB, f1) => (UB, f1)
  end.
Proof.
  revert f. induction x as [a| | |p c IH|p c IH]; intros f; cbn [pbind run]; try reflexivity.
  - apply IH.
  - destruct (os_mkdir o f p) as [f' ok]. apply IH.
Qed.

Lemma parent_shorter p : has_parent_path p = true -> exists d c n, p = d ++ c :: n /\ separator c /\ component n /\ parent_path p = Ok d.
Proof.
  intros H. apply has_parent_iff in H. destruct H as (c & Hc & Hi). destruct (path_parts_total p) as (d & f & Hp).
  pose proof (proj1 (parts_ok _ _ _ Hp)) as E. destruct Hp as [f Hf|d c' f Hc' Hf].
  - exfalso. unfold component in Hf. rewrite Forall_forall in Hf. exact (Hf _ Hi Hc).
  - exists d, c', f. auto.
Qed.

Section Laws.
  Context (o : os) (ok : os_ok o).

  Definition keeps (f g : os_state o) : Prop :=
    forall q, (os_isdir o f q = true -> os_isdir o g q = true) /\ (os_exists o f q = true -> os_exists o g q = true).

  Lemma keeps_refl f : keeps f f.
  Proof. split; auto. Qed.
  Lemma keeps_trans f g h : keeps f g -> keeps g h -> keeps f h.
  Proof. intros H1 H2 q. destruct (H1 q), (H2 q). split; auto. Qed.
  Lemma keeps_mkdir f p f' b : os_mkdir o f p = (f', b) -> keeps f f'.
  Proof. intros H q. exact (mkdir_keeps o ok f p f' b q H). Qed.

  (** create_directories makes parents and ends with one attempt to make the folder itself *)
  Lemma create_runs fuel p f : length p < fuel ->
    exists g, keeps f g /\ run o (create_directories fuel p) f = (Ok (snd (os_mkdir o g p)), fst (os_mkdir o g p)).
  Proof.
    revert p f. induction fuel as [|n IH]; intros p f L; [lia|]. cbn [create_directories].
    assert (M : forall g, run o (MkDir p (fun ok => Ret ok)) g = (Ok (snd (os_mkdir o g p)), fst (os_mkdir o g p))).
    { intros g. cbn [run]. destruct (os_mkdir o g p); reflexivity. }
    destruct (has_parent_path p) eqn:Hp.
    - destruct (parent_shorter p Hp) as (d & c & m & E & _ & _ & ->). cbn [plift run].
      destruct (os_isdir o f d).
      + exists f. split; [apply keeps_refl|apply M].
      + rewrite run_bind. destruct (IH d f) as (g & Hg & ->); [subst p; rewrite app_length in L; cbn in L; lia|].
        destruct (os_mkdir o g d) as [g' b] eqn:Eg. cbn [fst snd].
        exists g'. split; [exact (keeps_trans _ _ _ Hg (keeps_mkdir _ _ _ _ Eg))|apply M].
    - exists f. split; [apply keeps_refl|apply M].
  Qed.

  Lemma create_unique_loop_runs folder left i f0 f :
    keeps f0 f -> (forall j, j < i -> os_isdir o f (candidate folder j) = true \/ exists g, keeps f0 g /\ keeps g f /\ os_mkdir o g (candidate folder j) = (g, false)) ->
    exists r f', run o (create_unique_loop folder i left) f = (r, f') /\ keeps f f' /\
      ((exists k, i <= k < i + left /\ r = Ok (candidate folder k) /\ os_isdir o f' (candidate folder k) = true /\
          os_exists o f0 (candidate folder k) = false /\
          forall j, j < k -> os_isdir o f' (candidate folder j) = true \/ exists g, keeps f0 g /\ keeps g f' /\ os_mkdir o g (candidate folder j) = (g, false)) \/
       (r = Throw /\ forall j, j < i + left -> os_isdir o f' (candidate folder j) = true \/ exists g, keeps f0 g /\ keeps g f' /\ os_mkdir o g (candidate folder j) = (g, false))).
  Proof.
    revert i f. induction left as [|n IH]; intros i f H0 Hj.
    - exists Throw, f. split; [reflexivity|]. split; [apply keeps_refl|]. right. split; [reflexivity|].
      intros j L. apply Hj. lia.
    - cbn [create_unique_loop run]. rewrite numbered_candidate.
      destruct (os_isdir o f (candidate folder i)) eqn:D.
      + destruct (IH (S i) f H0) as (r & f' & E & K & R).
        { intros j L. destruct (Nat.eq_dec j i) as [->|N]; [left; exact D|apply Hj; lia]. }
        exists r, f'. split; [exact E|]. split; [exact K|].
        destruct R as [(k & L & R)|(R & R')]; [left; exists k; split; [lia|exact R]|right; split; [exact R|]; intros j L; apply R'; lia].
      + rewrite run_bind. destruct (create_runs (S (length (candidate folder i))) (candidate folder i) f) as (g & Kg & ->); [lia|].
        destruct (os_mkdir o g (candidate folder i)) as [g' b] eqn:Eg. cbn [fst snd].
        pose proof (keeps_mkdir _ _ _ _ Eg) as Kg'. pose proof (keeps_trans _ _ _ Kg Kg') as Kf.
        assert (Hj' : forall j, j < i -> os_isdir o g' (candidate folder j) = true \/ exists h, keeps f0 h /\ keeps h g' /\ os_mkdir o h (candidate folder j) = (h, false)).
        { intros j L. destruct (Hj j L) as [E|(h & H1 & H2 & H3)]; [left; apply (Kf _), E|].
          right. exists h. split; [exact H1|]. split; [exact (keeps_trans _ _ _ H2 Kf)|exact H3]. }
        destruct b.
        * exists (Ok (candidate folder i)), g'. split; [reflexivity|]. split; [exact Kf|]. left. exists i.
          split; [lia|]. split; [reflexivity|]. destruct (mkdir_new o ok _ _ _ Eg) as [N1 N2]. split; [exact N2|].
          split; [|exact Hj'].
          destruct (os_exists o f0 (candidate folder i)) eqn:X; [|reflexivity].
          apply (keeps_trans _ _ _ H0 Kg) in X. congruence.
        * pose proof (mkdir_failed o ok _ _ _ Eg) as ->.
          destruct (IH (S i) g (keeps_trans _ _ _ H0 Kg)) as (r & f' & E & K & R).
          { intros j L. destruct (Nat.eq_dec j i) as [->|N]; [|apply Hj'; lia].
            right. exists g. split; [exact (keeps_trans _ _ _ H0 Kg)|]. split; [apply keeps_refl|exact Eg]. }
          exists r, f'. split; [exact E|]. split; [exact (keeps_trans _ _ _ Kg K)|].
          destruct R as [(k & L & R)|(R & R')]; [left; exists k; split; [lia|exact R]|right; split; [exact R|]; intros j L; apply R'; lia].
  Qed.

  Lemma create_unique_assembled folder n f :
    exists r f', run o (create_unique_directory folder n) f = (r, f') /\
      (forall q, os_isdir o f q = true -> os_isdir o f' q = true) /\
      ((exists k, k < n /\ r = Ok (candidate folder k) /\
          os_exists o f (candidate folder k) = false /\ os_isdir o f' (candidate folder k) = true /\
          forall j, j < k -> os_isdir o f' (candidate folder j) = true \/
            exists g, (forall q, os_isdir o f q = true -> os_isdir o g q = true) /\ os_mkdir o g (candidate folder j) = (g, false)) \/
       (r = Throw /\
          forall j, j < n -> os_isdir o f' (candidate folder j) = true \/
            exists g, (forall q, os_isdir o f q = true -> os_isdir o g q = true) /\ os_mkdir o g (candidate folder j) = (g, false))).
  Proof.
    destruct (create_unique_loop_runs folder n 0 f f (keeps_refl f)) as (r & f' & E & K & R); [intros j L; lia|].
    exists r, f'. split; [exact E|]. split; [intros q; apply K|].
    assert (W : forall j, (os_isdir o f' (candidate folder j) = true \/ exists g, keeps f g /\ keeps g f' /\ os_mkdir o g (candidate folder j) = (g, false)) ->
      os_isdir o f' (candidate folder j) = true \/ exists g, (forall q, os_isdir o f q = true -> os_isdir o g q = true) /\ os_mkdir o g (candidate folder j) = (g, false)).
    { intros j [H|(g & H1 & _ & H3)]; [left; exact H|right; exists g; split; [intros q; apply H1|exact H3]]. }
    destruct R as [(k & L & -> & H1 & H2 & H3)|(-> & H)].
    - left. exists k. split; [lia|]. split; [reflexivity|]. split; [exact H2|]. split; [exact H1|]. intros j Lj. apply W, H3, Lj.
    - right. split; [reflexivity|]. intros j L. apply W, H. lia.
  Qed.

  (** ** Several callers *)

  (** a program that returns only names it has just made *)
  Inductive safe : prog str -> Prop :=
  | safe_fail : safe Fail
  | safe_stuck : safe Stuck
  | safe_isdir p k : (forall b, safe (k b)) -> safe (IsDir p k)
  | safe_mkdir p k : safe (k false) -> safe (k true) \/ k true = Ret p -> safe (MkDir p k).

  Lemma safe_bind {A} (x : prog A) (K : A -> prog str) : (forall a, safe (K a)) -> safe (pbind x K).
  Proof.
    intros H. induction x as [a| | |q c IH|q c IH]; cbn [pbind]; try constructor; auto.
  Qed.

  Lemma safe_bind2 {A B} (x : prog A) (k : A -> prog B) (K : B -> prog str) :
    (forall a, safe (pbind (k a) K)) -> safe (pbind (pbind x k) K).
  Proof.
    intros H. induction x as [a| | |q c IH|q c IH]; cbn [pbind]; try constructor; auto.
  Qed.

  Lemma safe_create fuel p (K : bool -> prog str) :
    safe (K false) -> safe (K true) \/ K true = Ret p -> safe (pbind (create_directories fuel p) K).
  Proof.
    intros H0 H1. destruct fuel as [|n]; cbn [create_directories]; [constructor|].
    assert (M : safe (MkDir p (fun ok => pbind (Ret ok) K))) by (constructor; assumption).
    destruct (has_parent_path p) eqn:Hp; [|exact M].
    destruct (parent_shorter p Hp) as (d & c & m & _ & _ & _ & ->). cbn [plift pbind]. constructor. intros b.
    destruct b; [exact M|]. apply safe_bind2. intros _. exact M.
  Qed.

  Lemma safe_create_unique folder n : safe (create_unique_directory folder n).
  Proof.
    unfold create_unique_directory. generalize 0. induction n as [|n IH]; intros i; cbn [create_unique_loop]; [constructor|].
    constructor. intros [|]; [apply IH|]. apply safe_create; [apply IH|right; reflexivity].
  Qed.

  Definition inv (f0 : os_state o) (s : system o) : Prop :=
    let '(f, l) := s in
    (forall q, os_isdir o f0 q = true -> os_isdir o f q = true) /\
    Forall (fun x => safe x \/ exists u, x = Ret u /\ os_isdir o f u = true /\ os_isdir o f0 u = false) l /\
    (forall i j u v, i <> j -> nth_error l i = Some (Ret u) -> nth_error l j = Some (Ret v) -> u <> v).

  Lemma nth_error_mid {A} (l1 : list A) x l2 i :
    nth_error (l1 ++ x :: l2) i = if Nat.eqb i (length l1) then Some x else nth_error (l1 ++ x :: l2) i.
  Proof.
    destruct (Nat.eqb_spec i (length l1)) as [->|]; [|reflexivity].
    rewrite nth_error_app2, Nat.sub_diag by lia. reflexivity.
  Qed.

  Lemma nth_error_mid_other {A} (l1 : list A) x y l2 i :
    i <> length l1 -> nth_error (l1 ++ x :: l2) i = nth_error (l1 ++ y :: l2) i.
  Proof.
    intros N. destruct (Nat.ltb_spec i (length l1)) as [L|L].
    - rewrite !nth_error_app1 by lia. reflexivity.
    - rewrite !nth_error_app2 by lia. destruct (i - length l1) as [|m] eqn:E; [lia|]. reflexivity.
  Qed.

  Lemma safe_ret u : ~ safe (Ret u).
  Proof. intros H. inversion H. Qed.

  Lemma inv_replace_safe f0 f f' l1 x y l2 :
    inv f0 (f, l1 ++ x :: l2) -> safe y -> (forall q, os_isdir o f q = true -> os_isdir o f' q = true) ->
    inv f0 (f', l1 ++ y :: l2).
  Proof.
    intros (H1 & H2 & H3) Hy K. split; [auto|]. apply Forall_app in H2. destruct H2 as [Ha Hb]. inversion Hb as [|? ? _ Hb']; subst.
    assert (M : forall z : prog str, (safe z \/ exists u, z = Ret u /\ os_isdir o f u = true /\ os_isdir o f0 u = false) ->
      safe z \/ exists u, z = Ret u /\ os_isdir o f' u = true /\ os_isdir o f0 u = false).
    { intros z [Hz|(u & E & E1 & E2)]; [left; exact Hz|right; exists u; auto]. }
    split.
    - apply Forall_app. split; [revert Ha; apply Forall_impl, M|]. constructor; [left; exact Hy|revert Hb'; apply Forall_impl, M].
    - intros i j u v N Ei Ej.
      assert (R : forall k w, nth_error (l1 ++ y :: l2) k = Some (Ret w) -> nth_error (l1 ++ x :: l2) k = Some (Ret w)).
      { intros k w E. rewrite <- E. apply nth_error_mid_other. intros ->.
        rewrite nth_error_mid, Nat.eqb_refl in E. injection E as ->. exact (safe_ret _ Hy). }
      exact (H3 i j u v N (R _ _ Ei) (R _ _ Ej)).
  Qed.

  Lemma inv_step f0 s s' : inv f0 s -> step o s s' -> inv f0 s'.
  Proof.
    intros I S. destruct S as [f l1 p k l2|f l1 p k l2 f' b E|f f' l K].
    - pose proof I as (_ & H2 & _). apply Forall_app in H2. destruct H2 as [_ H2]. inversion H2 as [|? ? Hx _]; subst.
      destruct Hx as [Hx|(u & E & _)]; [|discriminate E]. inversion Hx as [| |p' k' Hk|]; subst.
      apply (inv_replace_safe f0 f f l1 _ _ l2 I); [apply Hk|auto].
    - pose proof I as (H1 & H2 & H3). pose proof H2 as H2'. apply Forall_app in H2. destruct H2 as [Ha Hb]. inversion Hb as [|? ? Hx Hb']; subst.
      destruct Hx as [Hx|(u & E' & _)]; [|discriminate E']. inversion Hx as [| | |p' k' Hf Ht]; subst.
      assert (K : forall q, os_isdir o f q = true -> os_isdir o f' q = true) by (intros q; apply (keeps_mkdir _ _ _ _ E q)).
      destruct b; [|apply (inv_replace_safe f0 f f' l1 _ _ l2 I); assumption].
      destruct Ht as [Ht|Ht]; [apply (inv_replace_safe f0 f f' l1 _ _ l2 I); assumption|].
      destruct (mkdir_new o ok _ _ _ E) as [N1 N2].
      assert (N3 : os_isdir o f p = false).
      { destruct (os_isdir o f p) eqn:D; [|reflexivity]. apply (dir_exists o ok) in D. congruence. }
      rewrite Ht. split; [auto|]. split.
      + assert (M : forall z : prog str, (safe z \/ exists u, z = Ret u /\ os_isdir o f u = true /\ os_isdir o f0 u = false) ->
          safe z \/ exists u, z = Ret u /\ os_isdir o f' u = true /\ os_isdir o f0 u = false).
        { intros z [Hz|(u & E1 & E2 & E3)]; [left; exact Hz|right; exists u; auto]. }
        apply Forall_app. split; [revert Ha; apply Forall_impl, M|]. constructor; [|revert Hb'; apply Forall_impl, M].
        right. exists p. split; [reflexivity|]. split; [exact N2|].
        destruct (os_isdir o f0 p) eqn:D; [|reflexivity]. apply H1 in D. congruence.
      + assert (D : forall i u, i <> length l1 -> nth_error (l1 ++ Ret p :: l2) i = Some (Ret u) ->
          nth_error (l1 ++ MkDir p k :: l2) i = Some (Ret u) /\ u <> p).
        { intros i u N Ei. rewrite (nth_error_mid_other _ _ (MkDir p k) _ _ N) in Ei. split; [exact Ei|].
          apply nth_error_In in Ei. rewrite Forall_forall in H2'. destruct (H2' _ Ei) as [Hs|(u' & [= <-] & Hu & _)]; [exfalso; exact (safe_ret _ Hs)|].
          intros ->. congruence. }
        intros i j u v N Ei Ej.
        destruct (Nat.eq_dec i (length l1)) as [->|Ni].
        * rewrite nth_error_mid, Nat.eqb_refl in Ei. injection Ei as <-. destruct (D j v) as [_ Nv]; auto.
        * destruct (D i u Ni Ei) as [Ei' Nu]. destruct (Nat.eq_dec j (length l1)) as [->|Nj].
          -- rewrite nth_error_mid, Nat.eqb_refl in Ej. injection Ej as <-. exact Nu.
          -- destruct (D j v Nj Ej) as [Ej' _]. exact (H3 i j u v N Ei' Ej').
    - destruct I as (H1 & H2 & H3). split; [auto|]. split; [|exact H3]. revert H2. apply Forall_impl.
      intros z [Hz|(u & E1 & E2 & E3)]; [left; exact Hz|right; exists u; auto].
  Qed.

  Lemma inv_steps f0 s s' : inv f0 s -> steps o s s' -> inv f0 s'.
  Proof. intros I S. induction S as [s|s s1 s2 S1 _ IH]; [exact I|]. apply IH. exact (inv_step _ _ _ I S1). Qed.

  Lemma concurrent_assembled (calls : list (str * nat)) f l f' :
    steps o (f, map (fun c => create_unique_directory (fst c) (snd c)) calls) (f', l) ->
    (forall i u, nth_error l i = Some (Ret u) -> os_isdir o f u = false /\ os_isdir o f' u = true) /\
    (forall i j u v, i <> j -> nth_error l i = Some (Ret u) -> nth_error l j = Some (Ret v) -> u <> v).
  Proof.
    intros S. assert (I : inv f (f, map (fun c => create_unique_directory (fst c) (snd c)) calls)).
    { split; [auto|]. split.
      - apply Forall_map, Forall_forall. intros c _. left. apply safe_create_unique.
      - intros i j u v _ Ei _. exfalso. apply nth_error_In in Ei. apply in_map_iff in Ei. destruct Ei as (c & E & _).
        pose proof (safe_create_unique (fst c) (snd c)) as H. rewrite E in H. exact (safe_ret _ H). }
    destruct (inv_steps _ _ _ I S) as (_ & H2 & H3). split; [|exact H3].
    intros i u E. apply nth_error_In in E. rewrite Forall_forall in H2. destruct (H2 _ E) as [Hs|(u' & [= <-] & H)]; [exfalso; exact (safe_ret _ Hs)|].
    tauto.
  Qed.

  (** ** Parents *)

  Lemma plain_parent p c : proper_name c -> has_parent_path (p ++ slash :: c) = true /\ parent_path (p ++ slash :: c) = Ok p.
  Proof.
    intros (_ & Hc & _). assert (H : path_parts (p ++ slash :: c) p c) by (constructor; [left; reflexivity|exact Hc]).
    split; [|exact (proj1 (parts_ok _ _ _ H))]. apply has_parent_iff. exists slash. split; [left; reflexivity|apply in_elt].
  Qed.

  Context (free : os_free o).

  Lemma ancestors_dir f p q : ancestor_or_self q p -> os_isdir o f p = true -> os_isdir o f q = true.
  Proof.
    induction 1 as [p|p c q Hc Hne _ IH]; [auto|]. intros H. apply IH. exact (parent_isdir o free f p c Hne Hc H).
  Qed.

  Lemma create_parents p : plain_path p -> forall fuel f, length p < fuel ->
    os_isdir o f p = false ->
    (forall q, ancestor_or_self q p -> os_exists o f q = true -> os_isdir o f q = true) ->
    exists f1 f', run o (create_directories fuel p) f = (Ok true, f') /\ os_mkdir o f1 p = (f', true) /\ keeps f f' /\
      forall q, ancestor_or_self q p -> plain_path q -> os_isdir o f' q = true.
  Proof.
    intros Hplain. assert (X : forall f p, os_isdir o f p = false -> (os_exists o f p = true -> os_isdir o f p = true) -> os_exists o f p = false).
    { intros f q D H. destruct (os_exists o f q); [|reflexivity]. rewrite H in D; [discriminate D|reflexivity]. }
    induction Hplain as [c Hc|c Hc|p c Hp IH Hc]; intros fuel f L D A; (destruct fuel as [|n]; [lia|]); cbn [create_directories].
    - assert (Hn : has_parent_path c = false).
      { destruct (has_parent_path c) eqn:E; [|reflexivity]. apply has_parent_iff in E. destruct E as (x & Hx & Hi).
        destruct Hc as (_ & Hc & _). unfold component in Hc. rewrite Forall_forall in Hc. exfalso. exact (Hc _ Hi Hx). }
      rewrite Hn. cbn [run]. destruct (os_mkdir o f c) as [f' b] eqn:E.
      pose proof (mkdir_bare o free f c Hc (X _ _ D (A _ (anc_self _)))) as M. rewrite E in M. cbn [snd] in M. subst b.
      exists f, f'. split; [reflexivity|]. split; [exact E|]. split; [exact (keeps_mkdir _ _ _ _ E)|].
      intros q Hq _. inversion Hq as [q' E1 E2|p' c' q' Hc' Hne Hq' E1 E2]; subst; [exact (proj2 (mkdir_new o ok _ _ _ E))|].
      exfalso. destruct Hc as (_ & Hc & _). apply component_app in Hc. destruct Hc as [_ Hc]. inversion Hc as [|? ? N _]. apply N. left. reflexivity.
    - destruct (plain_parent [] c Hc) as [H1 H2]. cbn [app] in H1, H2. rewrite H1, H2. cbn [plift run].
      destruct (empty_path o free f) as [E1 E2].
      assert (D0 : os_isdir o f [] = false).
      { destruct (os_isdir o f []) eqn:E0; [|reflexivity]. apply (dir_exists o ok) in E0. congruence. }
      rewrite D0, run_bind.
      destruct n as [|n]; [exfalso; destruct Hc as [Hc _]; destruct c; [congruence|cbn in L; lia]|].
      assert (R0 : run o (create_directories (S n) []) f = (Ok false, f)).
      { cbn [create_directories]. replace (has_parent_path []) with false by reflexivity. cbn [run]. rewrite E2. reflexivity. }
      rewrite R0. cbn [run]. destruct (os_mkdir o f (slash :: c)) as [f' b] eqn:E.
      pose proof (mkdir_root o free f c Hc (X _ _ D (A _ (anc_self _)))) as M. rewrite E in M. cbn [snd] in M. subst b.
      exists f, f'. split; [reflexivity|]. split; [exact E|]. split; [exact (keeps_mkdir _ _ _ _ E)|].
      intros q Hq _. inversion Hq as [q' E3 E4|p' c' q' Hc' Hne Hq' E3 E4]; subst; [exact (proj2 (mkdir_new o ok _ _ _ E))|].
      exfalso. destruct p' as [|y p']; [congruence|]. cbn [app] in E4. injection E4 as -> E4.
      destruct Hc as (_ & Hc & _). rewrite <- E4 in Hc. apply component_app in Hc. destruct Hc as [_ Hc].
      inversion Hc as [|? ? N _]. apply N. left. reflexivity.
    - destruct (plain_parent p c Hc) as [-> ->]. cbn [plift run].
      assert (Hne : p <> []).
      { intros ->. inversion Hp as [c' (N & _)|c' (N & _)|p' c' Hp' Hc']; [congruence|]. destruct p'; discriminate. }
      assert (Lp : length p < n) by (rewrite app_length in L; cbn in L; lia).
      assert (Anc : forall q, ancestor_or_self q (p ++ slash :: c) -> q = p ++ slash :: c \/ ancestor_or_self q p).
      { intros q Hq. remember (p ++ slash :: c) as r eqn:Er. destruct Hq as [q|p' c' q Hc' Hne' Hq]; [left; reflexivity|].
        destruct Hc as (_ & Hcc & _), Hc' as (_ & Hcc' & _).
        assert (P1 : path_parts (p ++ slash :: c) p c) by (constructor; [left; reflexivity|exact Hcc]).
        assert (P2 : path_parts (p' ++ slash :: c') p' c') by (constructor; [left; reflexivity|exact Hcc']).
        rewrite Er in P2. apply parts_ok in P1, P2. destruct P1 as [P1 _], P2 as [P2 _]. rewrite P1 in P2. injection P2 as ->.
        right. exact Hq. }
      destruct (os_isdir o f p) eqn:Dp.
      + cbn [run]. destruct (os_mkdir o f (p ++ slash :: c)) as [f' b] eqn:E.
        pose proof (mkdir_in o free f p c Hc Dp (X _ _ D (A _ (anc_self _)))) as M. rewrite E in M. cbn [snd] in M. subst b.
        exists f, f'. split; [reflexivity|]. split; [exact E|]. pose proof (keeps_mkdir _ _ _ _ E) as K. split; [exact K|].
        intros q Ha _. destruct (Anc q Ha) as [->|Ha']; [exact (proj2 (mkdir_new o ok _ _ _ E))|].
        apply (K q). exact (ancestors_dir f p q Ha' Dp).
      + rewrite run_bind. destruct (IH n f Lp Dp) as (f1 & f2 & R & E & K & Hq).
        { intros q Hq. apply A. apply anc_up; assumption. }
        rewrite R. cbn [run]. destruct (os_mkdir o f2 (p ++ slash :: c)) as [f' b] eqn:E'.
        pose proof (mkdir_in o free f2 p c Hc (proj2 (mkdir_new o ok _ _ _ E)) (mkdir_empty o free _ _ _ _ E Hc)) as M.
        rewrite E' in M. cbn [snd] in M. subst b. pose proof (keeps_mkdir _ _ _ _ E') as K'.
        exists f2, f'. split; [reflexivity|]. split; [exact E'|]. split; [exact (keeps_trans _ _ _ K K')|].
        intros q Ha Hpq. destruct (Anc q Ha) as [->|Ha']; [exact (proj2 (mkdir_new o ok _ _ _ E'))|].
        apply (K' q). exact (Hq q Ha' Hpq).
  Qed.

  Lemma parents_assembled p f :
    plain_path p -> os_isdir o f p = false ->
    (forall q, ancestor_or_self q p -> os_exists o f q = true -> os_isdir o f q = true) ->
    exists f', run o (create_directories (S (length p)) p) f = (Ok true, f') /\
      (forall q, os_isdir o f q = true -> os_isdir o f' q = true) /\
      forall q, ancestor_or_self q p -> plain_path q -> os_isdir o f' q = true.
  Proof.
    intros Hp D A. destruct (create_parents p Hp (S (length p)) f (Nat.lt_succ_diag_r _) D A) as (_ & f' & R & _ & K & H).
    exists f'. split; [exact R|]. split; [intros q; apply K|exact H].
  Qed.

  (** ** The candidates when the parent directory is there *)

  Lemma digit_component ds : Forall is_digit_char ds -> component ds.
  Proof. apply Forall_impl. intros c [H1 H2] [->| ->]; vm_compute in H1, H2; lia. Qed.

  Lemma to_string_component i : component (to_string (Z.of_nat i)).
  Proof.
    unfold to_string. destruct (Z.ltb_spec (Z.of_nat i) 0); [lia|].
    destruct (dec_digits_ok _ _ (size_nat_bound (Z.abs_N (Z.of_nat i)))) as (_ & H2 & _). apply digit_component, H2.
  Qed.

  Lemma candidate_proper c i : proper_name c -> proper_name (candidate c i).
  Proof.
    intros Hc. destruct i as [|i]; [exact Hc|]. unfold candidate. destruct Hc as (N & Hc & _).
    assert (L : 4 <= length (c ++ lit " (" ++ to_string (Z.of_nat (S i)) ++ lit ")")).
    { rewrite !app_length. cbn [length lit list_ascii_of_string]. destruct c; [congruence|]. cbn [length]. lia. }
    split; [intros E; rewrite E in L; cbn in L; lia|]. split.
    - apply component_app. split; [exact Hc|]. apply component_app. split; [repeat constructor; intros [E|E]; discriminate E|].
      apply component_app. split; [apply to_string_component|]. repeat constructor; intros [E|E]; discriminate E.
    - split; intros E; rewrite E in L; cbn in L; lia.
  Qed.

  Definition ready f (folder : str) : Prop :=
    exists c, proper_name c /\ (folder = c \/ folder = slash :: c \/ exists p, folder = p ++ slash :: c /\ os_isdir o f p = true).

  Lemma candidate_app p c i : candidate (p ++ c) i = p ++ candidate c i.
  Proof. destruct i; [reflexivity|]. unfold candidate. rewrite <- app_assoc. reflexivity. Qed.

  Lemma ready_candidate f folder i : ready f folder -> ready f (candidate folder i).
  Proof.
    intros (c & Hc & H). exists (candidate c i). split; [apply candidate_proper, Hc|].
    destruct H as [->|[->|(p & -> & D)]]; [left; reflexivity|right; left|right; right; exists p].
    - change (slash :: c) with ([slash] ++ c). apply candidate_app.
    - split; [|exact D]. change (slash :: c) with ([slash] ++ c). rewrite app_assoc, candidate_app, <- app_assoc. reflexivity.
  Qed.

  (** with the parent in place, create_directories makes exactly one mkdir that counts *)
  Lemma create_ready f p fuel : ready f p -> length p < fuel ->
    run o (create_directories fuel p) f = (Ok (snd (os_mkdir o f p)), fst (os_mkdir o f p)) /\
    (os_exists o f p = false -> snd (os_mkdir o f p) = true).
  Proof.
    intros (c & Hc & H) L. destruct fuel as [|n]; [lia|]. cbn [create_directories].
    assert (M : run o (MkDir p (fun ok => Ret ok)) f = (Ok (snd (os_mkdir o f p)), fst (os_mkdir o f p))).
    { cbn [run]. destruct (os_mkdir o f p); reflexivity. }
    destruct H as [->|[->|(d & -> & D)]].
    - assert (Hn : has_parent_path c = false).
      { destruct (has_parent_path c) eqn:E; [|reflexivity]. apply has_parent_iff in E. destruct E as (x & Hx & Hi).
        destruct Hc as (_ & Hc & _). unfold component in Hc. rewrite Forall_forall in Hc. exfalso. exact (Hc _ Hi Hx). }
      rewrite Hn. split; [exact M|apply mkdir_bare; assumption].
    - destruct (plain_parent [] c Hc) as [H1 H2]. cbn [app] in H1, H2. rewrite H1, H2. cbn [plift]. cbn [run] in M |- *.
      destruct (empty_path o free f) as [E1 E2].
      assert (D0 : os_isdir o f [] = false).
      { destruct (os_isdir o f []) eqn:E0; [|reflexivity]. apply (dir_exists o ok) in E0. congruence. }
      rewrite D0, run_bind.
      destruct n as [|n]; [exfalso; destruct Hc as [Hc _]; destruct c; [congruence|cbn in L; lia]|].
      assert (R0 : run o (create_directories (S n) []) f = (Ok false, f)).
      { cbn [create_directories]. replace (has_parent_path []) with false by reflexivity. cbn [run]. rewrite E2. reflexivity. }
      rewrite R0. split; [exact M|apply mkdir_root; assumption].
    - destruct (plain_parent d c Hc) as [-> ->]. cbn [plift]. cbn [run] in M |- *. rewrite D.
      split; [exact M|apply mkdir_in; assumption].
  Qed.

  Lemma loop_ready f folder left i : ready f folder ->
    (forall k, first_such (fun k => negb (os_exists o f (candidate folder k))) (seq i left) k ->
       exists f', run o (create_unique_loop folder i left) f = (Ok (candidate folder k), f')) /\
    ((forall k, i <= k < i + left -> os_exists o f (candidate folder k) = true) -> run o (create_unique_loop folder i left) f = (Throw, f)).
  Proof.
    intros Hr. revert i. induction left as [|n IH]; intros i.
    - split; [intros k H; inversion H|reflexivity].
    - cbn [create_unique_loop run seq]. rewrite numbered_candidate.
      assert (Go : os_exists o f (candidate folder i) = true ->
        run o (if os_isdir o f (candidate folder i) then create_unique_loop folder (S i) n
               else pbind (create_directories (S (length (candidate folder i))) (candidate folder i))
                 (fun ok => if ok then Ret (candidate folder i) else create_unique_loop folder (S i) n)) f =
        run o (create_unique_loop folder (S i) n) f).
      { intros X. destruct (os_isdir o f (candidate folder i)); [reflexivity|]. rewrite run_bind.
        destruct (create_ready f (candidate folder i) (S (length (candidate folder i))) (ready_candidate _ _ _ Hr) (Nat.lt_succ_diag_r _)) as [-> _].
        destruct (os_mkdir o f (candidate folder i)) as [f' b] eqn:E. cbn [fst snd].
        destruct b; [exfalso; destruct (mkdir_new o ok _ _ _ E); congruence|]. rewrite (mkdir_failed o ok _ _ _ E). reflexivity. }
      split.
      + intros k H. inversion H as [x l T E1 E2|x l y T H' E1 E2]; subst.
        * apply negb_true_iff in T.
          assert (D : os_isdir o f (candidate folder k) = false).
          { destruct (os_isdir o f (candidate folder k)) eqn:D; [|reflexivity]. apply (dir_exists o ok) in D. congruence. }
          rewrite D, run_bind.
          destruct (create_ready f (candidate folder k) (S (length (candidate folder k))) (ready_candidate _ _ _ Hr) (Nat.lt_succ_diag_r _)) as [-> S].
          rewrite (S T). eexists. reflexivity.
        * apply negb_false_iff in T. rewrite (Go T). apply (proj1 (IH (S i))). exact H'.
      + intros H. rewrite Go by (apply H; lia). apply (proj2 (IH (S i))). intros k L. apply H. lia.
  Qed.

  Lemma throws_exact_assembled f folder n : ready f folder ->
    (forall k, first_such (fun k => negb (os_exists o f (candidate folder k))) (seq 0 n) k ->
       exists f', run o (create_unique_directory folder n) f = (Ok (candidate folder k), f')) /\
    ((forall k, k < n -> os_exists o f (candidate folder k) = true) -> run o (create_unique_directory folder n) f = (Throw, f)).
  Proof.
    intros Hr. destruct (loop_ready f folder n 0 Hr) as [H1 H2]. split; [exact H1|]. intros H. apply H2. intros k L. apply H. lia.
  Qed.
End Laws.

Lemma find_unique_assembled o folder n f :
  (forall k, first_such (fun k => negb (os_isdir o f (candidate folder k))) (seq 0 n) k ->
     run o (find_unique_directory folder n) f = (Ok (candidate folder k), f)) /\
  ((forall k, k < n -> os_isdir o f (candidate folder k) = true) -> run o (find_unique_directory folder n) f = (Throw, f)).
Proof.
  unfold find_unique_directory.
  assert (H : forall i,
    (forall k, first_such (fun k => negb (os_isdir o f (candidate folder k))) (seq i n) k -> run o (find_unique_loop folder i n) f = (Ok (candidate folder k), f)) /\
    ((forall k, i <= k < i + n -> os_isdir o f (candidate folder k) = true) -> run o (find_unique_loop folder i n) f = (Throw, f))).
  { induction n as [|n IH]; intros i.
    - split; [intros k H; inversion H|reflexivity].
    - cbn [find_unique_loop run seq]. rewrite numbered_candidate. split.
      + intros k H. inversion H as [x l T E1 E2|x l y T H' E1 E2]; subst.
        * apply negb_true_iff in T. rewrite T. reflexivity.
        * apply negb_false_iff in T. rewrite T. apply (proj1 (IH (S i))), H'.
      + intros H. rewrite (H i) by lia. apply (proj2 (IH (S i))). intros k L. apply H. lia. }
  destruct (H 0) as [H1 H2]. split; [exact H1|]. intros Hk. apply H2. intros k L. apply Hk. lia.
Qed.

(** ** Finding files *)

Section Find.
  Context (file_exists : str -> bool) (here : str).

  Lemma join_ok a b : exists r, join_path a b = Ok r.
  Proof.
    destruct (open_dec a) as [H|H]; [destruct (trimmed_total b) as [t Ht]; rewrite (join_open _ _ _ H Ht)|rewrite (join_closed _ _ H)]; eauto.
  Qed.

  Lemma join_under dir f full : join_path dir f = Ok full <-> under dir f full.
  Proof.
    unfold under. destruct (open_dec dir) as [H|H].
    - destruct (trimmed_total f) as [t Ht]. rewrite (join_open _ _ _ H Ht). split.
      + intros [= <-]. left. split; [exact H|]. exists t. auto.
      + intros [[_ (t' & Ht' & ->)]|[N _]]; [|contradiction]. rewrite (trimmed_left_fun _ _ _ _ Ht Ht'). reflexivity.
    - rewrite (join_closed _ _ H). split; [intros [= <-]; right; auto|]. intros [[N _]|[_ ->]]; [contradiction|reflexivity].
  Qed.

  Lemma absolute_dec p : (is_absolute p = true /\ absolute p) \/ (is_absolute p = false /\ ~ absolute p).
  Proof.
    destruct (is_absolute p) eqn:E; [left|right]; (split; [reflexivity|]).
    - apply absolute_iff, E.
    - intros H. apply absolute_iff in H. congruence.
  Qed.

  Lemma first_such_none {A} (test : A -> bool) l r : first_such test l r -> ~ Forall (fun p => test p = false) l.
  Proof. intros H F. induction H as [x l T|x l y T H IH]; inversion F; subst; [congruence|auto]. Qed.

  Lemma find_file_assembled l ps : Forall2 (find_places here) l ps ->
    (forall r, find_file file_exists here l = Ok r <-> first_such file_exists (concat ps) r) /\
    (find_file file_exists here l = Throw <-> Forall (fun p => file_exists p = false) (concat ps)).
  Proof.
    induction 1 as [|f ls l ps Hf _ [IH1 IH2]].
    - cbn [find_file concat]. split; [|split; auto]. intros r. split; [discriminate|]. intros H; inversion H.
    - cbn [find_file concat].
      assert (J : forall full, under here f full -> join_path here f = Ok full) by (intros; apply join_under; assumption).
      assert (H1 : forall x m, file_exists x = true ->
        (forall r, Ok x = Ok r <-> first_such file_exists (x :: m) r) /\ (Ok x = Throw <-> Forall (fun p => file_exists p = false) (x :: m))).
      { intros x m Ex. split.
        - intros r. split; [intros [= <-]; constructor; exact Ex|]. intros H. inversion H; subst; [reflexivity|congruence].
        - split; [discriminate|]. intros H. inversion H; congruence. }
      assert (H2 : forall x m (o : outcome str), file_exists x = false ->
        (forall r, o = Ok r <-> first_such file_exists m r) /\ (o = Throw <-> Forall (fun p => file_exists p = false) m) ->
        (forall r, o = Ok r <-> first_such file_exists (x :: m) r) /\ (o = Throw <-> Forall (fun p => file_exists p = false) (x :: m))).
      { intros x m o Ex [G1 G2]. split.
        - intros r. rewrite G1. split; [intros H; constructor; assumption|]. intros H. inversion H; subst; [congruence|assumption].
        - rewrite G2. split; [intros H; constructor; assumption|]. intros H. inversion H; assumption. }
      destruct Hf as [full Ha Hu|full Ha Hu]; destruct (absolute_dec f) as [[-> Ha']|[-> Ha']]; try contradiction; cbn [andb app].
      + destruct (file_exists f) eqn:Ef; [apply H1, Ef|]. apply H2; [exact Ef|]. rewrite (J _ Hu). cbn [obind].
        destruct (file_exists full) eqn:Eu; [apply H1, Eu|]. apply H2; [exact Eu|]. split; assumption.
      + rewrite (J _ Hu). cbn [obind]. destruct (file_exists full) eqn:Eu; [apply H1, Eu|]. apply H2; [exact Eu|]. split; assumption.
  Qed.

  Lemma opt_first_here x m : file_exists x = true ->
    (forall r : str, Ok (Some x) = Ok (Some r) <-> first_such file_exists (x :: m) r) /\ (@Ok (option str) (Some x) = Ok None <-> Forall (fun p => file_exists p = false) (x :: m)).
  Proof.
    intros Ex. split.
    - intros r. split; [intros [= <-]; constructor; exact Ex|]. intros H. inversion H; subst; [reflexivity|congruence].
    - split; [discriminate|]. intros H. inversion H; congruence.
  Qed.

  Lemma opt_first_later x m (o : outcome (option str)) : file_exists x = false ->
    (forall r, o = Ok (Some r) <-> first_such file_exists m r) /\ (o = Ok None <-> Forall (fun p => file_exists p = false) m) ->
    (forall r, o = Ok (Some r) <-> first_such file_exists (x :: m) r) /\ (o = Ok None <-> Forall (fun p => file_exists p = false) (x :: m)).
  Proof.
    intros Ex [G1 G2]. split.
    - intros r. rewrite G1. split; [intros H; constructor; assumption|]. intros H. inversion H; subst; [congruence|assumption].
    - rewrite G2. split; [intros H; constructor; assumption|]. intros H. inversion H; assumption.
  Qed.

  Lemma try_find_file_assembled l ps : Forall2 (try_find_places here) l ps ->
    (forall r, try_find_file file_exists here l = Ok (Some r) <-> first_such file_exists (concat ps) r) /\
    (try_find_file file_exists here l = Ok None <-> Forall (fun p => file_exists p = false) (concat ps)).
  Proof.
    induction 1 as [|f ls l ps Hf _ [IH1 IH2]].
    - cbn [try_find_file concat]. split; [|split; auto]. intros r. split; [discriminate|]. intros H; inversion H.
    - cbn [try_find_file concat].
      destruct Hf as [Ha|full Ha Hu]; destruct (absolute_dec f) as [[-> Ha']|[-> Ha']]; try contradiction; cbn [app].
      + destruct (file_exists f) eqn:Ef; [apply opt_first_here, Ef|]. apply opt_first_later; [exact Ef|]. split; assumption.
      + rewrite (proj2 (join_under here f full) Hu). cbn [obind].
        destruct (file_exists full) eqn:Eu; [apply opt_first_here, Eu|]. apply opt_first_later; [exact Eu|]. split; assumption.
  Qed.

  Lemma search_dirs_ok file dirs ps : Forall2 (fun d p => under d file p) dirs ps ->
    (forall r, search_dirs file_exists file dirs = Ok (Some r) <-> first_such file_exists ps r) /\
    (search_dirs file_exists file dirs = Ok None <-> Forall (fun p => file_exists p = false) ps).
  Proof.
    induction 1 as [|d full dirs ps Hu _ IH].
    - cbn [search_dirs]. split; [|split; auto]. intros r. split; [discriminate|]. intros H; inversion H.
    - cbn [search_dirs]. rewrite (proj2 (join_under d file full) Hu). cbn [obind].
      destruct (file_exists full) eqn:Eu; [apply opt_first_here, Eu|]. apply opt_first_later; [exact Eu|]. exact IH.
  Qed.

  Lemma filename_idem p f : filename p = Ok f -> filename f = Ok f.
  Proof.
    intros H. destruct (path_parts_total p) as (d & f' & Hp). destruct (parts_ok _ _ _ Hp) as [_ E]. rewrite H in E. injection E as <-.
    assert (Hf : component f) by (destruct Hp; assumption). unfold filename. rewrite (last_sep_bare _ Hf). reflexivity.
  Qed.

  (** without an absolute name, or if an absolute name exists, or if what is left of it is relative *)
  Lemma try_find_in_assembled file name dirs ps fuel :
    (exists d, path_parts file d name) -> Forall2 (fun d p => under d name p) dirs ps -> 3 <= fuel ->
    (absolute file -> file_exists file = true -> try_find_file_in file_exists fuel file dirs = Some (Ok (Some file))) /\
    (~ absolute file -> try_find_file_in file_exists fuel file dirs = Some (search_dirs file_exists file dirs)) /\
    (absolute file -> file_exists file = false -> ~ absolute name ->
       exists r, try_find_file_in file_exists fuel file dirs = Some (Ok r) /\
         (forall x, r = Some x <-> first_such file_exists ps x) /\ (r = None <-> Forall (fun p => file_exists p = false) ps)) /\
    (absolute file -> file_exists file = false -> absolute name -> file_exists name = true ->
       try_find_file_in file_exists fuel file dirs = Some (Ok (Some name))) /\
    (absolute file -> file_exists file = false -> absolute name -> file_exists name = false ->
       forall n, try_find_file_in file_exists n file dirs = None).
  Proof.
    intros [d Hp] Hd L. destruct (parts_ok _ _ _ Hp) as [_ Ef]. pose proof (filename_idem _ _ Ef) as Ei.
    destruct fuel as [|[|[|n]]]; try lia. cbn [try_find_file_in]. rewrite Ef.
    destruct (absolute_dec file) as [[-> Ha]|[-> Ha]]; [|repeat split; intros; try contradiction; reflexivity].
    split; [intros _ ->; reflexivity|]. split; [intros; contradiction|].
    split; [|split].
    - intros _ -> Hn. destruct (absolute_dec name) as [[-> Hn']|[-> Hn']]; [contradiction|].
      destruct (search_dirs_ok name dirs ps Hd) as [S1 S2].
      destruct (search_dirs file_exists name dirs) as [r| |] eqn:E.
      + exists r. split; [reflexivity|]. split; [intros x; rewrite <- S1; split; [intros ->; reflexivity|intros [= ->]; reflexivity]|].
        rewrite <- S2. split; [intros ->; reflexivity|intros [= ->]; reflexivity].
      + exfalso. clear -E. induction dirs as [|d dirs IH]; [discriminate|]. cbn [search_dirs] in E.
        destruct (join_ok d name) as [x Ex]. rewrite Ex in E. cbn [obind] in E. destruct (file_exists x); [discriminate|auto].
      + exfalso. clear -E. induction dirs as [|d dirs IH]; [discriminate|]. cbn [search_dirs] in E.
        destruct (join_ok d name) as [x Ex]. rewrite Ex in E. cbn [obind] in E. destruct (file_exists x); [discriminate|auto].
    - intros _ -> Hn. destruct (absolute_dec name) as [[-> _]|[_ N]]; [|contradiction]. intros ->. reflexivity.
    - intros _ E1 Hn E2 m. destruct (absolute_dec name) as [[An _]|[_ N]]; [|contradiction].
      assert (R : forall m, try_find_file_in file_exists m name dirs = None).
      { induction m0 as [|m0 IH]; [reflexivity|]. cbn [try_find_file_in]. rewrite An, E2, Ei. exact IH. }
      destruct m as [|m]; [reflexivity|]. cbn [try_find_file_in]. destruct (absolute_dec file) as [[-> _]|[_ N]]; [|contradiction].
      rewrite E1, Ef. apply R.
  Qed.
End Find.

(** ** A small operating system satisfying the laws: a tree of directories and files, with the root as working
    directory *)

Inductive tree := TFile | TDir (entries : list (str * tree)).

Fixpoint assoc (c : str) (es : list (str * tree)) : option tree :=
  match es with [] => None | (k, t) :: r => if str_eqb k c then Some t else assoc c r end.
Fixpoint assoc_set (c : str) (t : tree) (es : list (str * tree)) : list (str * tree) :=
  match es with [] => [] | (k, u) :: r => if str_eqb k c then (k, t) :: r else (k, u) :: assoc_set c t r end.

Fixpoint lookup (t : tree) (cs : list str) : option tree :=
  match cs with
  | [] => Some t
  | c :: r => match t with TFile => None | TDir es => match assoc c es with Some u => lookup u r | None => None end end
  end.

Fixpoint make (t : tree) (cs : list str) : option tree :=
  match cs with
  | [] => None
  | c :: r =>
    match t with
    | TFile => None
    | TDir es =>
      match assoc c es with
      | Some u => match make u r with Some u' => Some (TDir (assoc_set c u' es)) | None => None end
      | None => match r with [] => Some (TDir ((c, TDir []) :: es)) | _ => None end
      end
    end
  end.

Definition is_tdir (o : option tree) : bool := match o with Some (TDir _) => true | _ => false end.
Definition is_some (o : option tree) : bool := match o with Some _ => true | None => false end.

Lemma assoc_set_eq c t es u : assoc c es = Some u -> assoc c (assoc_set c t es) = Some t.
Proof.
  induction es as [|[k v] es IH]; cbn [assoc assoc_set]; [discriminate|].
  destruct (str_eqb k c) eqn:E; cbn [assoc]; rewrite E; auto.
Qed.
Lemma assoc_set_neq c d t es : c <> d -> assoc d (assoc_set c t es) = assoc d es.
Proof.
  intros N. induction es as [|[k v] es IH]; cbn [assoc assoc_set]; [reflexivity|].
  destruct (str_eqb k c) eqn:E; cbn [assoc]; [|rewrite IH; reflexivity].
  apply str_eqb_eq in E. subst k. replace (str_eqb c d) with false; [reflexivity|]. symmetry. apply str_eqb_neq, N.
Qed.

Lemma make_spec t cs t' : make t cs = Some t' ->
  lookup t cs = None /\ lookup t' cs = Some (TDir []) /\
  forall ds, (is_tdir (lookup t ds) = true -> is_tdir (lookup t' ds) = true) /\ (is_some (lookup t ds) = true -> is_some (lookup t' ds) = true).
Proof.
  revert t t'. induction cs as [|c r IH]; intros t t'; cbn [make]; [discriminate|].
  destruct t as [|es]; [discriminate|]. cbn [lookup]. destruct (assoc c es) as [u|] eqn:A.
  - destruct (make u r) as [u'|] eqn:M; [|discriminate]. intros [= <-]. destruct (IH _ _ M) as (H1 & H2 & H3).
    split; [exact H1|]. rewrite (assoc_set_eq _ _ _ _ A). split; [exact H2|].
    intros [|d ds]; cbn [lookup]; [auto|]. destruct (str_eqb c d) eqn:E.
    + apply str_eqb_eq in E. subst d. rewrite A, (assoc_set_eq _ _ _ _ A). apply H3.
    + apply str_eqb_neq in E. rewrite (assoc_set_neq _ _ _ _ E). auto.
  - destruct r as [|]; [|discriminate]. intros [= <-]. split; [reflexivity|]. cbn [assoc]. rewrite str_eqb_refl. split; [reflexivity|].
    intros [|d ds]; cbn [lookup assoc]; [auto|]. destruct (str_eqb c d) eqn:E; [|auto].
    apply str_eqb_eq in E. subst d. rewrite A. split; discriminate.
Qed.

Lemma lookup_app t cs ds : lookup t (cs ++ ds) = match lookup t cs with Some u => lookup u ds | None => None end.
Proof.
  revert t. induction cs as [|c r IH]; intros t; cbn [app lookup]; [reflexivity|].
  destruct t as [|es]; [reflexivity|]. destruct (assoc c es); [apply IH|reflexivity].
Qed.

Lemma make_total t cs c es : lookup t cs = Some (TDir es) -> lookup t (cs ++ [c]) = None -> exists t', make t (cs ++ [c]) = Some t'.
Proof.
  revert t. induction cs as [|d r IH]; intros t; cbn [app lookup make].
  - intros [= ->]. destruct (assoc c es) as [u|]; [discriminate|eauto].
  - destruct t as [|es']; [discriminate|]. destruct (assoc d es') as [u|]; [|discriminate].
    intros H1 H2. destruct (IH u H1 H2) as [t' ->]. eauto.
Qed.

Fixpoint components (p : str) : list str :=
  match p with
  | [] => [[]]
  | c :: r => if Ascii.eqb c slash then [] :: components r
              else match components r with x :: l => (c :: x) :: l | [] => [] end
  end.
Definition good_name (c : str) : bool := negb (str_eqb c []) && negb (str_eqb c (lit ".")) && negb (str_eqb c (lit "..")).
Definition parse_path (p : str) : option (list str) :=
  let l := components (match p with c :: r => if Ascii.eqb c slash then r else p | [] => p end) in
  if forallb good_name l then Some l else None.

Lemma components_app p c : component c -> components (p ++ slash :: c) = components p ++ [c].
Proof.
  intros Hc. assert (B : components c = [c]).
  { induction Hc as [|x c Hx _ IH]; [reflexivity|]. cbn [components]. rewrite IH.
    destruct (Ascii.eqb_spec x slash) as [->|]; [exfalso; apply Hx; left; reflexivity|reflexivity]. }
  induction p as [|x p IH]; cbn [app components]; [rewrite B; reflexivity|].
  rewrite IH. destruct (Ascii.eqb x slash); [reflexivity|]. destruct (components p) eqn:E; [|reflexivity].
  exfalso. destruct p as [|y p]; cbn [components] in E; [discriminate|]. destruct (Ascii.eqb y slash); [discriminate|].
  clear -E. revert E. generalize p. clear p.
  intros p. destruct (components p) eqn:E; [|discriminate]. intros _.
  revert y E. induction p as [|z p IH]; intros y E; cbn [components] in E; [discriminate|].
  destruct (Ascii.eqb z slash); [discriminate|]. destruct (components p) eqn:E'; [|discriminate]. exact (IH z eq_refl).
Qed.

Lemma components_bare c : component c -> components c = [c].
Proof.
  induction 1 as [|x c Hx _ IH]; [reflexivity|]. cbn [components]. rewrite IH.
  destruct (Ascii.eqb_spec x slash) as [->|]; [exfalso; apply Hx; left; reflexivity|reflexivity].
Qed.

Lemma good_name_proper c : proper_name c -> good_name c = true.
Proof.
  intros (H1 & _ & H2 & H3). unfold good_name. apply str_eqb_neq in H1, H2, H3. rewrite H1, H2, H3. reflexivity.
Qed.

Lemma parse_bare c : proper_name c -> parse_path c = Some [c].
Proof.
  intros H. pose proof (good_name_proper _ H) as G. destruct H as (N & Hc & _). unfold parse_path. destruct c as [|x c]; [congruence|].
  destruct (Ascii.eqb_spec x slash) as [->|]; [exfalso; inversion Hc as [|? ? N' _]; apply N'; left; reflexivity|].
  rewrite (components_bare _ Hc). cbn [forallb]. rewrite G. reflexivity.
Qed.

Lemma parse_root c : proper_name c -> parse_path (slash :: c) = Some [c].
Proof.
  intros H. pose proof (good_name_proper _ H) as G. destruct H as (N & Hc & _). unfold parse_path.
  rewrite Ascii.eqb_refl, (components_bare _ Hc). cbn [forallb]. rewrite G. reflexivity.
Qed.

Lemma parse_in p c : proper_name c -> p <> [] ->
  parse_path (p ++ slash :: c) = match parse_path p with Some l => Some (l ++ [c]) | None => None end.
Proof.
  intros H N. pose proof (good_name_proper _ H) as G. destruct H as (_ & Hc & _). unfold parse_path.
  destruct p as [|x p]; [congruence|]. cbn [app].
  destruct (Ascii.eqb x slash); [|change (x :: p ++ slash :: c) with ((x :: p) ++ slash :: c)];
    rewrite (components_app _ _ Hc), forallb_app; cbn [forallb]; rewrite G, andb_true_r; destruct (forallb _ _); reflexivity.
Qed.

Lemma parse_nonempty p l : parse_path p = Some l -> l <> [].
Proof.
  unfold parse_path. destruct (forallb _ _); [|discriminate]. intros [= <-].
  generalize (match p with c :: r => if Ascii.eqb c slash then r else p | [] => p end). intros q.
  induction q as [|x q IH]; cbn [components]; [discriminate|]. destruct (Ascii.eqb x slash); [discriminate|].
  destruct (components q); [congruence|discriminate].
Qed.

Definition tree_os : os :=
  Os (list (str * tree))
    (fun es p => match parse_path p with Some l => is_some (lookup (TDir es) l) | None => false end)
    (fun es p => match parse_path p with Some l => is_tdir (lookup (TDir es) l) | None => false end)
    (fun es p => match parse_path p with
       | Some l => match make (TDir es) l with Some (TDir es') => (es', true) | _ => (es, false) end
       | None => (es, false)
       end).

Lemma make_dir es l t : make (TDir es) l = Some t -> exists es', t = TDir es'.
Proof.
  destruct l as [|c r]; cbn [make]; [discriminate|]. destruct (assoc c es).
  - destruct (make _ r); [intros [= <-]; eauto|discriminate].
  - destruct r; [intros [= <-]; eauto|discriminate].
Qed.

Lemma tree_mkdir f p f' : os_mkdir tree_os f p = (f', true) ->
  exists l, parse_path p = Some l /\ make (TDir f) l = Some (TDir f').
Proof.
  cbn. destruct (parse_path p) as [l|]; [|discriminate]. destruct (make (TDir f) l) as [[|es']|] eqn:E; try discriminate.
  intros [= <-]. eauto.
Qed.

Lemma tree_os_ok : os_ok tree_os.
Proof.
  constructor.
  - intros f p. cbn. destruct (parse_path p); [|discriminate]. destruct (lookup _ l) as [[|]|]; cbn; congruence.
  - intros f p f' H. apply tree_mkdir in H. destruct H as (l & E & M). destruct (make_spec _ _ _ M) as (H1 & H2 & _).
    cbn. rewrite E, H1, H2. auto.
  - intros f p f' [|] q H.
    + apply tree_mkdir in H. destruct H as (l & _ & M). destruct (make_spec _ _ _ M) as (_ & _ & H3). cbn.
      destruct (parse_path q); [|split; discriminate]. split; apply H3.
    + cbn in H. destruct (parse_path p) as [l|]; [|injection H as <-; auto].
      destruct (make (TDir f) l) as [[|es']|]; [injection H as <-; auto|discriminate|injection H as <-; auto].
  - intros f p f' H. cbn in H. destruct (parse_path p) as [l|]; [|injection H as <-; auto].
    destruct (make (TDir f) l) as [[|es']|]; [injection H as <-; auto|discriminate|injection H as <-; auto].
Qed.

Lemma tree_mkdir_in f p l c es : parse_path p = Some (l ++ [c]) -> lookup (TDir f) l = Some (TDir es) -> os_exists tree_os f p = false ->
  snd (os_mkdir tree_os f p) = true.
Proof.
  cbn. intros -> H1 H2. destruct (lookup (TDir f) (l ++ [c])) eqn:E; [discriminate|].
  destruct (make_total _ _ _ _ H1 E) as [t' M]. rewrite M. destruct (make_dir _ _ _ M) as [es' ->]. reflexivity.
Qed.

Lemma tree_os_free : os_free tree_os.
Proof.
  constructor.
  - intros f c Hc. apply (tree_mkdir_in f c [] c f); [apply parse_bare, Hc|reflexivity].
  - intros f c Hc. apply (tree_mkdir_in f (slash :: c) [] c f); [apply parse_root, Hc|reflexivity].
  - intros f p c Hc D X. assert (N : p <> []) by (intros ->; cbn in D; discriminate).
    cbn in D. destruct (parse_path p) as [l|] eqn:E; [|discriminate].
    destruct (lookup (TDir f) l) as [[|es]|] eqn:L; try discriminate.
    apply (tree_mkdir_in f _ l c es); [rewrite (parse_in p c Hc N), E; reflexivity|exact L|exact X].
  - intros f. split; reflexivity.
  - intros f p f' c H Hc. apply tree_mkdir in H. destruct H as (l & E & M). destruct (make_spec _ _ _ M) as (_ & H2 & _).
    assert (N : p <> []) by (intros ->; discriminate E). cbn. rewrite (parse_in p c Hc N), E, lookup_app, H2. reflexivity.
  - intros f p c N Hc. cbn. rewrite (parse_in p c Hc N). destruct (parse_path p) as [l|]; [|discriminate].
    rewrite lookup_app. destruct (lookup (TDir f) l) as [[|es]|]; cbn; try discriminate. reflexivity.
Qed.
