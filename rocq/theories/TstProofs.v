(** Proofs about test cases. *)
From Coq Require Import String List Arith Bool ZArith Lia Permutation.
From Verif Require Import Base BaseProofs Conc TstSpec TstModel.
Import ListNotations.
Open Scope Z_scope.

Definition err_of (f : list event) (e : string) : string := match find (fun x => match x with Raise _ => true | _ => false end) (executed f) with Some (Raise w) => w | _ => e end.
Definition is_check (e : event) : bool := holds_check e || broken_check e.
Definition raised (f : list event) : Prop := exists w, In (Raise w) (executed f).

Lemma how_many_cons p e f : how_many p (e :: f) = (if p e then 1 else 0) + (if stops e then 0 else how_many p f).
Proof. unfold how_many. cbn [executed filter]. destruct (p e), (stops e); cbn [filter length]; lia. Qed.

Lemma call_ok name f : forall r, contained f -> exists r1 l e, call_func name f r = (r1, l, e) /\
  checks_ r1 = checks_ r + how_many is_check f /\ passed_ r1 = passed_ r + how_many holds_check f /\ failed_ r1 = failed_ r + how_many broken_check f /\
  error_ r1 = error_ r /\
  match e with Returned => forallb (fun x => is_check x) (executed f) = true | Threw w => In (Raise w) (executed f) /\ err_of f (error_ r) = w | Escaped => False end.
Proof.
  induction f as [|e f IH]; intros r C.
  - exists r, [], Returned. cbn. repeat split; lia.
  - assert (C' : stops e = false -> contained f).
    { intros S x I. apply C. cbn [executed]. rewrite S. right. exact I. }
    destruct e as [t|t|t w|t|w|].
    + destruct (IH (fst (check name r true t)) (C' eq_refl)) as (r1 & l & e & H & A & B & D & E & G). exists r1, l, e. cbn [call_func check]. cbn [fst check] in H. rewrite H.
      rewrite !how_many_cons. cbn [fst check checks_ passed_ failed_ error_] in *. split; [reflexivity|]. cbn [stops is_check holds_check broken_check orb]. repeat split; try lia; try exact E.
      destruct e; [exact G|destruct G as [G1 G2]; split; [right; exact G1|exact G2]|exact G].
    + destruct (IH (fst (check name r false t)) (C' eq_refl)) as (r1 & l & e & H & A & B & D & E & G). exists r1, (LCheckFailed name t :: l), e. cbn [call_func check]. cbn [fst check] in H. rewrite H.
      rewrite !how_many_cons. cbn [fst check checks_ passed_ failed_ error_] in *. split; [reflexivity|]. cbn [stops is_check holds_check broken_check orb]. repeat split; try lia; try exact E.
      destruct e; [exact G|destruct G as [G1 G2]; split; [right; exact G1|exact G2]|exact G].
    + destruct (IH (fst (check name r false w)) (C' eq_refl)) as (r1 & l & e & H & A & B & D & E & G). exists r1, (LCheckFailed name w :: l), e. cbn [call_func check]. cbn [fst check] in H. rewrite H.
      rewrite !how_many_cons. cbn [fst check checks_ passed_ failed_ error_] in *. split; [reflexivity|]. cbn [stops is_check holds_check broken_check orb]. repeat split; try lia; try exact E.
      destruct e; [exact G|destruct G as [G1 G2]; split; [right; exact G1|exact G2]|exact G].
    + exfalso. apply (C (CheckEscapes t)). left. reflexivity.
    + exists r, [], (Threw w). cbn [call_func]. rewrite !how_many_cons. cbn [stops is_check holds_check broken_check orb]. repeat split; try lia. left. reflexivity.
    + exfalso. apply (C Escape). left. reflexivity.
Qed.
Lemma how_many_zero p f : how_many p f = 0 <-> forall e, In e (executed f) -> p e = false.
Proof.
  unfold how_many. induction (executed f) as [|e l IH]; [cbn; split; [intros _ x []|reflexivity]|]. cbn [filter]. destruct (p e) eqn:E; cbn [length].
  - split; [lia|]. intros H. specialize (H e (or_introl eq_refl)). congruence.
  - rewrite IH. split; [intros H x [<-|I]; auto|intros H x I; apply H; right; exact I].
Qed.
Lemma how_many_nonneg p f : 0 <= how_many p f.
Proof. unfold how_many. lia. Qed.
Lemma checks_split f : how_many is_check f = how_many holds_check f + how_many broken_check f.
Proof.
  unfold how_many, is_check. induction (executed f) as [|e l IH]; [reflexivity|]. cbn [filter]. destruct e; cbn [holds_check broken_check orb length]; lia.
Qed.
(** the result of running a fresh test *)
Lemma run_fresh name f : contained f -> exists r l, run name f no_result = Ok (r, l) /\
  checks_ r = how_many is_check f /\ passed_ r = how_many holds_check f /\ failed_ r = how_many broken_check f /\
  (forall w, In (Raise w) (executed f) -> error_ r = w) /\ ((forall w, ~ In (Raise w) (executed f)) -> error_ r = ""%string) /\
  ((forall w, In (Raise w) (executed f) -> exists l0, l = l0 ++ [LException name w])).
Proof.
  intros C. destruct (call_ok name f no_result C) as (r1 & l & e & H & A & B & D & E & G). unfold run. rewrite H. cbn [no_result checks_ passed_ failed_ error_] in A, B, D, E. rewrite Z.add_0_l in A, B, D.
  assert (One : forall w w', In (Raise w) (executed f) -> In (Raise w') (executed f) -> w = w').
  { clear. induction f as [|x f IH]; [intros ? ? []|]. intros w w' I J. cbn [executed] in I, J. destruct (stops x) eqn:S.
    - destruct I as [->|[]], J as [J|[]]. congruence.
    - destruct I as [->|I]; [discriminate|]. destruct J as [->|J]; [discriminate|]. exact (IH _ _ I J). }
  destruct e as [|w|]; [| |destruct G].
  - eexists _, _. split; [reflexivity|]. refine (conj A (conj B (conj D (conj _ (conj (fun _ => E) _))))).
    + intros w I. rewrite forallb_forall in G. specialize (G _ I). discriminate.
    + intros w I. rewrite forallb_forall in G. specialize (G _ I). discriminate.
  - destruct G as [G1 G2]. eexists _, _. split; [reflexivity|]. cbn [set_error checks_ passed_ failed_ error_]. refine (conj A (conj B (conj D (conj _ (conj _ _))))).
    + intros w' I. exact (One _ _ G1 I).
    + intros N. destruct (N _ G1).
    + intros w' I. rewrite (One _ _ I G1). exists (LStarting name :: l). reflexivity.
Qed.
Lemma clean_iff f : contained f -> (clean f = true <-> how_many broken_check f = 0 /\ forall w, ~ In (Raise w) (executed f)).
Proof.
  intros C. unfold clean. rewrite forallb_forall, how_many_zero. split.
  - intros H. split; [intros e I; specialize (H e I); destruct e; try discriminate; reflexivity|]. intros w I. specialize (H _ I). discriminate.
  - intros [H N] e I. specialize (H e I). specialize (C e I). destruct e; try discriminate; try contradiction; [reflexivity|]. destruct (N _ I).
Qed.
Lemma raise_dec f : (exists w, In (Raise w) (executed f)) \/ forall w, ~ In (Raise w) (executed f).
Proof.
  induction (executed f) as [|e l [[w I]|N]]; [right; intros w []|left; exists w; right; exact I|].
  destruct e as [t|t|t w|t|w|]; try (right; intros w' [H|H]; [discriminate|exact (N _ H)]). left. exists w. left. reflexivity.
Qed.
Lemma success_iff name f r l : contained f -> telling f -> run name f no_result = Ok (r, l) -> success r = clean f.
Proof.
  intros C T H. destruct (run_fresh name f C) as (r' & l' & H' & A & B & D & E1 & E2 & _). rewrite H in H'. injection H' as <- <-.
  apply eq_true_iff_eq. rewrite clean_iff by exact C. unfold success. rewrite andb_true_iff, Z.eqb_eq, String.eqb_eq, D. split; intros [X Y]; split; try exact X.
  - intros w I. rewrite (E1 _ I) in Y. exact (T _ I Y).
  - auto.
Qed.

Lemma run_assembled name f : contained f -> exists r l, run name f no_result = Ok (r, l) /\
  checks_ r = passed_ r + failed_ r /\ passed_ r = how_many holds_check f /\ failed_ r = how_many broken_check f /\
  (forall w, In (Raise w) (executed f) -> error_ r = w /\ In (LException name w) l) /\ ((forall w, ~ In (Raise w) (executed f)) -> error_ r = ""%string) /\
  (telling f -> success r = clean f) /\ ((exists n, In (LPassed name n) l) <-> clean f = true /\ executed f <> []).
Proof.
  intros C. destruct (run_fresh name f C) as (r & l & H & A & B & D & E1 & E2 & E3). exists r, l.
  split; [exact H|]. split; [rewrite A, B, D; apply checks_split|]. split; [exact B|]. split; [exact D|].
  split; [|split; [exact E2|split; [intros T; exact (success_iff _ _ _ _ C T H)|]]].
  - intros w I. split; [exact (E1 _ I)|]. destruct (E3 _ I) as [l0 ->]. apply in_or_app. right. left. reflexivity.
  - unfold run in H. destruct (call_ok name f no_result C) as (r1 & lc & e & HC & _ & _ & _ & _ & G). rewrite HC in H.
    assert (NP : forall n, ~ In (LPassed name n) lc).
    { clear -HC. revert HC. generalize no_result as r0. revert r1 lc e. induction f as [|x f IH]; intros r1 lc e r0 HC; cbn [call_func] in HC.
      - injection HC as <- <- <-. intros n [].
      - destruct x; cbn [check] in HC; try (injection HC as <- <- <-; intros n []);
        match type of HC with context [call_func name f ?z] => destruct (call_func name f z) as [[r2 l2] e2] eqn:Q end; injection HC as <- <- <-; intros n I; cbn [app] in I.
        + exact (IH _ _ _ _ Q _ I).
        + destruct I as [I|I]; [discriminate|]. exact (IH _ _ _ _ Q _ I).
        + destruct I as [I|I]; [discriminate|]. exact (IH _ _ _ _ Q _ I). }
    rewrite clean_iff by exact C. destruct e as [|w|]; [| |destruct G].
    + injection H as <- <-. assert (NR : forall w, ~ In (Raise w) (executed f)) by (intros w I; rewrite forallb_forall in G; specialize (G _ I); discriminate).
      specialize (E2 NR). split.
      * intros [n [I|I]]; [discriminate|]. apply in_app_or in I. destruct I as [I|I]; [destruct (NP _ I)|]. unfold report in I. destruct (success r1) eqn:S.
        -- unfold success in S. apply andb_true_iff in S. destruct S as [S _]. destruct (Z.ltb_spec 0 (passed_ r1)) as [P|P]; [|destruct I as [I|[]]; discriminate].
           split; [split; [lia|exact NR]|]. intros X. unfold how_many in B. rewrite X in B. cbn in B. lia.
        -- destruct (1 <? checks_ r1); [destruct I as [I|[]]; discriminate|destruct I].
      * intros [[X _] NE]. exists (passed_ r1). right. apply in_or_app. right. unfold report, success. rewrite E2, D, X. cbn [Z.eqb String.eqb andb].
        assert (P : 0 < passed_ r1).
        { rewrite B. pose proof (how_many_nonneg holds_check f). assert (how_many holds_check f <> 0); [|lia]. intros Z0. rewrite how_many_zero in X, Z0.
          destruct (executed f) as [|x ex] eqn:Q; [congruence|]. specialize (C x). rewrite Q in C. specialize (C (or_introl eq_refl)).
          specialize (X x (or_introl eq_refl)). specialize (Z0 x (or_introl eq_refl)). destruct x; try discriminate; try contradiction; apply (NR what); left; reflexivity. }
        replace (0 <? passed_ r1) with true by (symmetry; apply Z.ltb_lt; exact P). left. reflexivity.
    + injection H as <- <-. destruct G as [G1 _]. split.
      * intros [n [I|I]]; [discriminate|]. apply in_app_or in I. destruct I as [I|[I|[]]]; [destruct (NP _ I)|discriminate].
      * intros [[_ N] _]. destruct (N _ G1).
Qed.

Definition fresh (t : test_case) : Prop := result_ t = no_result.
Lemma loop_ok tests : (forall t, In t tests -> fresh t /\ contained (func_ t) /\ telling (func_ t)) -> forall n tot, exists ts l tot',
  run_loop tests n tot = Ok (ts, l, n + sum_over (fun t => if clean (func_ t) then 0 else 1) tests, tot') /\
  passed_ tot' = passed_ tot + sum_over (fun t => how_many holds_check (func_ t)) tests /\
  map func_ ts = map func_ tests /\ map name_ ts = map name_ tests /\ Forall2 (fun t t' => exists l0, run (name_ t) (func_ t) no_result = Ok (result_ t', l0)) tests ts /\
  (forall k m, ~ In (LAllClear k m) l).
Proof.
  induction tests as [|t tests IH]; intros F n tot.
  - exists [], [], tot. cbn. rewrite !Z.add_0_r. refine (conj eq_refl (conj eq_refl (conj eq_refl (conj eq_refl (conj _ _))))); [constructor|intros k m []].
  - destruct (F t (or_introl eq_refl)) as (F1 & F2 & F3). unfold fresh in F1. destruct (run_fresh (name_ t) (func_ t) F2) as (r & l & H & _ & P & _).
    cbn [run_loop]. rewrite F1, H. cbn [obind]. rewrite (success_iff _ _ _ _ F2 F3 H).
    destruct (IH (fun t' I => F t' (or_intror I)) (n + (if clean (func_ t) then 0 else 1)) (add_result tot r)) as (ts & l' & tot' & H' & P' & M1 & M2 & FF & NA).
    rewrite H'. cbn [obind]. eexists _, _, tot'. cbn [sum_over]. rewrite Z.add_assoc. split; [reflexivity|]. cbn [add_result passed_] in P'. split; [rewrite P', P; lia|].
    cbn [map func_ name_]. rewrite M1, M2. split; [reflexivity|]. split; [reflexivity|]. split.
    + constructor; [exists l; exact H|exact FF].
    + intros k m [I|I]; [discriminate|]. apply in_app_or in I. destruct I as [I|I]; [|exact (NA _ _ I)].
      unfold run in H. destruct (call_func (name_ t) (func_ t) no_result) as [[r1 lc] e] eqn:Q.
      assert (NC : ~ In (LAllClear k m) lc).
      { clear -Q. revert Q. generalize no_result as r0. revert r1 lc e. induction (func_ t) as [|x f IH]; intros r1 lc e r0 HC; cbn [call_func] in HC.
        - injection HC as <- <- <-. intros [].
        - destruct x; cbn [check] in HC; try (injection HC as <- <- <-; intros []);
          match type of HC with context [call_func _ f ?z] => destruct (call_func (name_ t) f z) as [[r2 l2] e2] eqn:Q end; injection HC as <- <- <-; intros I; cbn [app] in I.
          + exact (IH _ _ _ _ Q I).
          + destruct I as [I|I]; [discriminate|]. exact (IH _ _ _ _ Q I).
          + destruct I as [I|I]; [discriminate|]. exact (IH _ _ _ _ Q I). }
      destruct e; [| |discriminate]; injection H as <- <-; (destruct I as [I|I]; [discriminate|]); apply in_app_or in I; (destruct I as [I|I]; [exact (NC I)|]); unfold report in I.
      * destruct (success r1); [destruct (0 <? passed_ r1)|destruct (1 <? checks_ r1)]; try (destruct I as [I|[]]; discriminate). destruct I.
      * destruct I as [I|[]]; discriminate.
Qed.
Lemma sum_nonneg {A} (f : A -> Z) l : (forall x, 0 <= f x) -> 0 <= sum_over f l.
Proof. intros F. induction l as [|x l IH]; cbn; [lia|]. specialize (F x). lia. Qed.
Lemma sum_zero (l : list test_case) : sum_over (fun t => if clean (func_ t) then 0 else 1) l = 0 <-> forall t, In t l -> clean (func_ t) = true.
Proof.
  induction l as [|x l IH]; cbn [sum_over In]; [split; [intros _ t []|reflexivity]|]. pose proof (sum_nonneg (fun t => if clean (func_ t) then 0 else 1) l ltac:(intros y; cbv beta; destruct (clean (func_ y)); lia)).
  split.
  - intros E t I. destruct (clean (func_ x)) eqn:CX; [|exfalso; lia]. destruct I as [<-|I]; [exact CX|]. apply IH; [lia|exact I].
  - intros E. rewrite (E x (or_introl eq_refl)). apply IH. auto.
Qed.
Lemma tests_assembled tests : (forall t, In t tests -> result_ t = no_result /\ contained (func_ t) /\ telling (func_ t)) ->
  exists n ts l, run_tests tests = Ok (n, ts, l) /\ n = sum_over (fun t => if clean (func_ t) then 0 else 1) tests /\
  (n = 0 <-> forall t, In t tests -> clean (func_ t) = true) /\
  (forall k m, In (LAllClear k m) l <-> n = 0 /\ k = length tests /\ m = sum_over (fun t => how_many holds_check (func_ t)) tests) /\
  Forall2 (fun t t' => exists l0, run (name_ t) (func_ t) no_result = Ok (result_ t', l0)) tests ts.
Proof.
  intros F. destruct (loop_ok tests F 0 no_result) as (ts & l & tot & H & P & _ & _ & FF & NA). unfold run_tests. rewrite H. cbn [obind]. eexists _, _, _. split; [reflexivity|].
  rewrite !Z.add_0_l. split; [reflexivity|]. split; [apply sum_zero|]. split; [|exact FF]. cbn [no_result passed_] in P. rewrite Z.add_0_l in P.
  intros k m. rewrite in_app_iff. unfold conclude. destruct (Z.eqb_spec (sum_over (fun t => if clean (func_ t) then 0 else 1) tests) 0) as [E|E].
  - split; [intros [I|[I|[]]]; [destruct (NA _ _ I)|injection I as <- <-; auto]|]. intros (_ & -> & ->). right. left. congruence.
  - split; [intros [I|[I|[]]]; [destruct (NA _ _ I)|discriminate]|]. intros [X _]. contradiction.
Qed.
Lemma silent_case : exists name f r l, contained f /\ run name f no_result = Ok (r, l) /\ clean f = false /\ success r = true.
Proof.
  exists "t"%string, [CheckTrue "a"; Raise ""; CheckFalse "b"], (Result "" 1 1 0), [LStarting "t"; LException "t" ""]%string. split; [|repeat split].
  intros e [<-|[<-|[]]]; exact I.
Qed.
Lemma rerun_case : exists name f1 f2 r1 l1 r2 l2, run name f1 no_result = Ok (r1, l1) /\ run name f2 r1 = Ok (r2, l2) /\ clean f2 = true /\ success r2 = false.
Proof.
  exists "t"%string, [CheckFalse "a"]%string, [CheckTrue "a"]%string. eexists _, _, _, _. split; [reflexivity|]. split; [reflexivity|]. split; reflexivity.
Qed.
Lemma call_contained name f : forall r r1 l e, call_func name f r = (r1, l, e) -> e <> Escaped -> contained f.
Proof.
  induction f as [|x f IH]; intros r r1 l e Q N y I; [destruct I|]. cbn [executed] in I. destruct x; cbn [call_func check stops] in Q, I.
  - destruct (call_func name f _) as [[r2 l2] e2] eqn:Q2. injection Q as <- <- <-. destruct I as [<-|I]; [exact Logic.I|]. exact (IH _ _ _ _ Q2 N _ I).
  - destruct (call_func name f _) as [[r2 l2] e2] eqn:Q2. injection Q as <- <- <-. destruct I as [<-|I]; [exact Logic.I|]. exact (IH _ _ _ _ Q2 N _ I).
  - destruct (call_func name f _) as [[r2 l2] e2] eqn:Q2. injection Q as <- <- <-. destruct I as [<-|I]; [exact Logic.I|]. exact (IH _ _ _ _ Q2 N _ I).
  - congruence.
  - destruct I as [<-|[]]. exact Logic.I.
  - congruence.
Qed.
Lemma escape_assembled name f r : ~ contained f -> run name f r = Throw.
Proof.
  intros N. unfold run. destruct (call_func name f r) as [[r1 l] e] eqn:Q. destruct e as [|w|]; [| |reflexivity]; exfalso; apply N; apply (call_contained _ _ _ _ _ _ Q); discriminate.
Qed.

(** ** asynchronous runs *)
Definition result_of (t : thread) : option test_result :=
  match t with
  | TStart n f r | TCall n f r => match run n f r with Ok (r', _) => Some r' | _ => None end
  | TCheck n f r m => match run n f (Result (error_ r) (checks_ r) (passed_ r) (failed_ r + 1)) with Ok (r', _) => Some r' | _ => None end
  | TEnd _ _ r | TReport _ _ r | TDone r => Some r
  | TEscaped => None
  end.
Definition body (n : string) (f : list event) (r : test_result) : list line := match run n f r with Ok (_, l) => tl l | _ => [] end.
Definition pending (t : thread) : list line :=
  match t with
  | TStart n f r => LStarting n :: body n f r
  | TCall n f r => body n f r
  | TCheck n f r m => LCheckFailed n m :: body n f (Result (error_ r) (checks_ r) (passed_ r) (failed_ r + 1))
  | TEnd n b r | TReport n b r => report n b r
  | TDone _ | TEscaped => []
  end.
Definition weight (t : thread) : nat :=
  match t with
  | TStart _ f _ => S (2 * length f + 3) | TCall _ f _ => 2 * length f + 3 | TCheck _ f _ _ => 2 * length f + 4 | TEnd _ _ _ => 2 | TReport _ _ _ => 1 | TDone _ | TEscaped => 0
  end.
Lemma step_result l p l' p' : tlocal l p l' p' -> result_of p <> None -> result_of p' = result_of p /\ l' ++ pending p' = l ++ pending p /\ (weight p' < weight p)%nat.
Proof.
  intros S. destruct S as [l n f r|l n text f r|l n text f r|l n text what f r|l n f r m|l n text f r|l n f r|l n what f r|l n r|l n b r|l n b r]; intros NN.
  - cbn [result_of pending weight]. rewrite <- app_assoc. repeat split. lia.
  - cbn [result_of pending weight length] in *. unfold body, run. cbn [call_func check fst]. destruct (call_func n f _) as [[r1 lc] e]; destruct e; (split; [reflexivity|split; [reflexivity|lia]]).
  - cbn [result_of pending weight length] in *. unfold body, run, count_check in *. cbn [call_func check error_ checks_ passed_ failed_] in *. destruct (call_func n f _) as [[r1 lc] e]; destruct e; try congruence; (split; [reflexivity|split; [reflexivity|lia]]).
  - cbn [result_of pending weight length] in *. unfold body, run, count_check in *. cbn [call_func check error_ checks_ passed_ failed_] in *. destruct (call_func n f _) as [[r1 lc] e]; destruct e; try congruence; (split; [reflexivity|split; [reflexivity|lia]]).
  - cbn [result_of pending weight]. rewrite <- app_assoc. repeat split. lia.
  - cbn in NN. congruence.
  - cbn in NN. congruence.
  - cbn [result_of pending weight length]. unfold body, run. cbn [call_func tl app]. repeat split. lia.
  - cbn [result_of pending weight length]. unfold body, run. cbn [call_func tl app]. repeat split. lia.
  - cbn [result_of pending weight]. repeat split. lia.
  - cbn [result_of pending weight]. rewrite app_nil_r. repeat split. lia.
Qed.
Lemma set_split {A} (l : list A) i x y : nth_error l i = Some x -> exists a b, l = a ++ x :: b /\ list_set l i y = a ++ y :: b.
Proof.
  revert i. induction l as [|z l IH]; intros [|i] E; try discriminate; cbn in E.
  - injection E as ->. exists [], l. split; reflexivity.
  - destruct (IH _ E) as (a & b & -> & E'). exists (z :: a), b. split; [reflexivity|]. cbn. rewrite E'. reflexivity.
Qed.
Definition total_weight (ts : list thread) : nat := fold_right (fun t n => weight t + n)%nat 0%nat ts.
Lemma weight_app a b : total_weight (a ++ b) = (total_weight a + total_weight b)%nat.
Proof. induction a as [|x a IH]; cbn; [reflexivity|]. fold (total_weight (a ++ b)). rewrite IH. fold (total_weight a). lia. Qed.
Lemma async_inv k s l ts : async_steps k s (l, ts) -> (forall t, In t (snd s) -> result_of t <> None) ->
  map result_of ts = map result_of (snd s) /\ Permutation (l ++ concat (map pending ts)) (fst s ++ concat (map pending (snd s))) /\ (total_weight ts + k <= total_weight (snd s))%nat.
Proof.
  intros H. remember (l, ts) as s' eqn:E. revert l ts E. induction H as [s|k s g1 ts1 i p g2 p' H IH N L A|k s g1 g2 ts1 H IH F]; intros l ts E NN; [| |destruct F].
  - subst s. cbn [fst snd]. split; [reflexivity|split; [reflexivity|lia]].
  - injection E as <- <-. destruct (IH _ _ eq_refl NN) as (M & P & W). destruct (set_split _ _ _ p' N) as (a & b & -> & ->).
    assert (R : result_of p <> None).
    { intros X. assert (I : In None (map result_of (snd s))). { rewrite <- M, map_app. cbn [map]. rewrite X. apply in_or_app. right. left. reflexivity. }
      apply in_map_iff in I. destruct I as (t & T & I). exact (NN _ I T). }
    destruct (step_result _ _ _ _ L R) as (Q1 & Q2 & Q3). split; [|split].
    + rewrite map_app in M |- *. cbn [map] in *. rewrite Q1. exact M.
    + rewrite <- P. rewrite !map_app, !concat_app. cbn [map concat].
      transitivity ((g2 ++ pending p') ++ concat (map pending a) ++ concat (map pending b)).
      * rewrite <- app_assoc. apply Permutation_app_head. rewrite !app_assoc. apply Permutation_app_tail. apply Permutation_app_comm.
      * rewrite Q2. rewrite <- app_assoc. apply Permutation_app_head. rewrite !app_assoc. apply Permutation_app_tail. apply Permutation_app_comm.
    + rewrite weight_app in *. cbn [total_weight fold_right] in *. fold (total_weight b) in *. lia.
Qed.
Definition done (t : thread) : Prop := exists r, t = TDone r.
Lemma done_dec ts : (forall t, In t ts -> done t) \/ exists i p, nth_error ts i = Some p /\ ~ done p.
Proof.
  induction ts as [|t ts IH]; [left; intros t []|]. destruct t as [n f r|n f r|n f r m|n b r|n b r|r|];
  try (right; exists 0%nat; eexists; split; [reflexivity|intros [r' X]; discriminate]).
  destruct IH as [IH|(i & p & N & D)]; [left; intros t [<-|I]; [exists r; reflexivity|auto]|right; exists (S i), p; split; assumption].
Qed.
Lemma holder_dec ts : (exists i p, nth_error ts i = Some p /\ thold p = Exclusive) \/ forall i p, nth_error ts i = Some p -> thold p = Free.
Proof.
  induction ts as [|t ts IH]; [right; intros [|i] p H; discriminate|]. destruct (thold t) eqn:T.
  - destruct IH as [(i & p & N & D)|IH]; [left; exists (S i), p; split; assumption|]. right. intros [|i] p H; [injection H as <-; exact T|exact (IH _ _ H)].
  - destruct t; discriminate.
  - left. exists 0%nat, t. split; [reflexivity|exact T].
Qed.
Lemma progress k s l ts : async_steps k s (l, ts) -> (forall t, In t (snd s) -> result_of t <> None) ->
  (forall t, In t ts -> done t) \/ exists l' ts', async_steps (S k) s (l', ts').
Proof.
  intros H NN. destruct (done_dec ts) as [D|D]; [left; exact D|right]. destruct (async_inv _ _ _ _ H NN) as (M & _).
  assert (R : forall i p, nth_error ts i = Some p -> result_of p <> None).
  { intros i p N X. assert (I : In None (map result_of (snd s))). { rewrite <- M. apply in_map_iff. exists p. split; [exact X|]. exact (nth_error_In _ _ N). }
    apply in_map_iff in I. destruct I as (t & T & I). exact (NN _ I T). }
  assert (go : forall i p l' p', nth_error ts i = Some p -> tlocal l p l' p' -> lock_allows thold ts i (thold p) (thold p') -> exists l' ts', async_steps (S k) s (l', ts')).
  { intros i p l' p' N L A. eexists _, _. eapply tsteps_more; eassumption. }
  destruct (holder_dec ts) as [(i & p & N & E)|FF].
  - destruct p as [n f r|n f r|n f r m|n b r|n b r|r|]; try discriminate.
    + eapply go; [exact N|apply t_check|exact Logic.I].
    + eapply go; [exact N|apply t_report|exact Logic.I].
  - destruct D as (i & p & N & ND). assert (LA : lock_allows thold ts i (thold p) Exclusive) by (right; intros j q _ Nj; exact (FF _ _ Nj)).
    specialize (R _ _ N). destruct p as [n f r|n [|e f] r|n f r m|n b r|n b r|r|].
    + eapply go; [exact N|apply t_start|exact Logic.I].
    + eapply go; [exact N|apply t_return|exact Logic.I].
    + destruct e as [t|t|t w|t|w|].
      * eapply go; [exact N|apply t_true|exact Logic.I].
      * eapply go; [exact N|apply t_false|exact LA].
      * eapply go; [exact N|apply t_raises|exact LA].
      * cbn in R. congruence.
      * eapply go; [exact N|apply t_raise|exact Logic.I].
      * cbn in R. congruence.
    + specialize (FF _ _ N). discriminate.
    + eapply go; [exact N|apply t_end|exact LA].
    + specialize (FF _ _ N). discriminate.
    + destruct ND. exists r. reflexivity.
    + cbn in R. congruence.
Qed.
(** the sequential loop and the collected results *)
Lemma run_starts n f r r' l : run n f r = Ok (r', l) -> l = LStarting n :: tl l.
Proof. unfold run. destruct (call_func n f r) as [[r1 lc] e]. destruct e; intros [= <- <-]; reflexivity. Qed.
Definition no_trying (l : line) : bool := match l with LTrying _ => false | _ => true end.
Lemma run_no_trying n f r r' l : run n f r = Ok (r', l) -> filter no_trying l = l.
Proof.
  intros H. assert (A : forall x, In x l -> no_trying x = true).
  { unfold run in H. destruct (call_func n f r) as [[r1 lc] e] eqn:Q.
    assert (B : forall x, In x lc -> no_trying x = true).
    { clear H. revert r r1 lc e Q. induction f as [|x f IH]; intros r r1 lc e HC; cbn [call_func] in HC.
      - injection HC as <- <- <-. intros ? [].
      - destruct x; cbn [check] in HC; try (injection HC as <- <- <-; intros ? []);
        match type of HC with context [call_func _ f ?z] => destruct (call_func n f z) as [[r2 l2] e2] eqn:Q end; injection HC as <- <- <-; intros y I; cbn [app] in I.
        + exact (IH _ _ _ _ Q _ I).
        + destruct I as [<-|I]; [reflexivity|]. exact (IH _ _ _ _ Q _ I).
        + destruct I as [<-|I]; [reflexivity|]. exact (IH _ _ _ _ Q _ I). }
    destruct e; [| |discriminate]; injection H as <- <-; intros y [<-|I]; try reflexivity; apply in_app_or in I; (destruct I as [I|I]; [auto|]); unfold report in I.
    - destruct (success r1); [destruct (0 <? passed_ r1)|destruct (1 <? checks_ r1)]; try (destruct I as [<-|[]]; reflexivity). destruct I.
    - destruct I as [<-|[]]; reflexivity. }
  clear H. induction l as [|x l IH]; [reflexivity|]. cbn. rewrite (A x (or_introl eq_refl)). f_equal. apply IH. intros y I. apply A. right. exact I.
Qed.
Definition startt (t : test_case) : thread := TStart (name_ t) (func_ t) (result_ t).
Lemma seq_results tests : (forall t, In t tests -> contained (func_ t)) -> forall n tot, exists ts l n' tot',
  run_loop tests n tot = Ok (ts, l, n', tot') /\ map result_of (map startt tests) = map (fun t => Some (result_ t)) ts /\
  concat (map pending (map startt tests)) = filter no_trying l /\
  (forall threads, map result_of threads = map (fun t => Some (result_ t)) ts -> (forall t, In t threads -> done t) -> async_count threads n tot = Some (n', tot')).
Proof.
  induction tests as [|t tests IH]; intros C n tot.
  - exists [], [], n, tot. repeat split. intros [|x threads] E _; [reflexivity|discriminate].
  - destruct (call_ok (name_ t) (func_ t) (result_ t) (C t (or_introl eq_refl))) as (r1 & lc & e & H & _ & _ & _ & _ & G).
    assert (exists r l, run (name_ t) (func_ t) (result_ t) = Ok (r, l)) as (r & l & HR) by (unfold run; rewrite H; destruct e; [| |destruct G]; eexists _, _; reflexivity).
    destruct (IH (fun t' I => C t' (or_intror I)) (n + if success r then 0 else 1) (add_result tot r)) as (ts & l' & n' & tot' & HL & M & P & A).
    cbn [run_loop]. rewrite HR. cbn [obind]. rewrite HL. cbn [obind]. eexists _, _, n', tot'. split; [reflexivity|]. cbn [map result_ concat].
    split; [|split].
    + rewrite M. unfold startt at 1. cbn [result_of]. rewrite HR. reflexivity.
    + rewrite P. unfold startt at 1. cbn [pending filter no_trying]. unfold body. rewrite HR, filter_app, (run_no_trying _ _ _ _ _ HR). f_equal. symmetry. exact (run_starts _ _ _ _ _ HR).
    + intros [|x threads] E D; [discriminate|]. cbn [map] in E. injection E as E1 E2. destruct (D x (or_introl eq_refl)) as [r' ->]. cbn in E1. injection E1 as ->.
      cbn [async_count]. apply A; [exact E2|]. intros y I. apply D. right. exact I.
Qed.
Lemma async_assembled tests : (forall t, In t tests -> contained (func_ t)) ->
  exists n ts log tot, run_tests tests = Ok (n, ts, log ++ [conclude n (length tests) tot]) /\
  (exists bound, forall k l threads, async_steps k (async_start tests) (l, threads) -> (k <= bound)%nat) /\
  (forall k l threads, async_steps k (async_start tests) (l, threads) ->
    (exists l' threads', async_steps (S k) (async_start tests) (l', threads')) \/
    async_count threads 0 no_result = Some (n, tot) /\ threads = map (fun t => TDone (result_ t)) ts /\
    Permutation l (filter (fun x => match x with LTrying _ => false | _ => true end) log)).
Proof.
  intros C. destruct (seq_results tests C 0 no_result) as (ts & log & n & tot & H & M & P & A). exists n, ts, log, tot. split; [unfold run_tests; rewrite H; reflexivity|].
  assert (NN : forall t, In t (snd (async_start tests)) -> result_of t <> None).
  { intros t I X. assert (J : In None (map result_of (map startt tests))) by (apply in_map_iff; exists t; split; assumption). rewrite M in J.
    apply in_map_iff in J. destruct J as (y & Y & _). discriminate. }
  split.
  - exists (total_weight (snd (async_start tests))). intros k l threads S. destruct (async_inv _ _ _ _ S NN) as (_ & _ & W). lia.
  - intros k l threads S. destruct (progress _ _ _ _ S NN) as [D|G]; [right|left; exact G]. destruct (async_inv _ _ _ _ S NN) as (M' & P' & _).
    cbn [async_start fst snd app] in M', P'. fold (map startt tests) in *. change (map (fun t => TStart (name_ t) (func_ t) (result_ t)) tests) with (map startt tests) in *.
    assert (EM : map result_of threads = map (fun t => Some (result_ t)) ts) by congruence.
    split; [apply A; assumption|]. split.
    + clear -D EM. revert ts EM. induction threads as [|x threads IH]; intros [|t ts] EM; try discriminate; [reflexivity|]. cbn [map] in *. injection EM as E1 E2.
      destruct (D x (or_introl eq_refl)) as [r ->]. cbn in E1. injection E1 as ->. f_equal. apply IH; [intros y I; apply D; right; exact I|exact E2].
    + rewrite P in P'. fold no_trying. rewrite <- P'. replace (concat (map pending threads)) with (@nil line); [rewrite app_nil_r; reflexivity|].
      clear -D. induction threads as [|x threads IH]; [reflexivity|]. cbn. destruct (D x (or_introl eq_refl)) as [r ->]. cbn. apply IH. intros y I. apply D. right. exact I.
Qed.
