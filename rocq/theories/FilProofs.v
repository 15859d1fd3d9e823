(** Proofs about files as strings and listing directories. *)
From Coq Require Import Ascii String List Arith ZArith Bool Lia.
From Verif Require Import Base BaseProofs Str StrSpec StrModel StrBase StrProofs PathSpec PathModel PathProofs FsSpec FsModel FsProofs FilSpec FilModel.
From Verif Require SerModel.
Import ListNotations.

Section Os.
  Context (o : fos) (ok : fos_ok o).
  Local Notation state := (os_state (f_os o)).

  (** * running, and stopping on the way *)
  Lemma fsteps_run {A} (x : fprog A) : forall f n x' f', fsteps o n x f = (x', f') -> frun o x' f' = frun o x f.
  Proof.
    intros f n. revert x f. induction n as [|n IH]; intros x f x' f' H; cbn [fsteps] in H; [injection H as <- <-; reflexivity|].
    destruct (fstep o x f) as [x1 f1] eqn:E. rewrite (IH _ _ _ _ H). destruct x; cbn [fstep] in E; cbn [frun]; try (injection E as <- <-; reflexivity).
    - destruct (os_mkdir (f_os o) f p) as [f2 b]. injection E as <- <-. reflexivity.
    - destruct (f_trunc o f p) as [f2 b]. injection E as <- <-. reflexivity.
    - destruct (f_app o f p) as [f2 b]. injection E as <- <-. reflexivity.
    - destruct (f_put o f p c) as [f2 b]. injection E as <- <-. reflexivity.
  Qed.
  (** an invariant of all states along the way; [P] speaks about the rest of the program and the state *)
  Lemma fsteps_inv {A} (P : fprog A -> state -> Prop) : (forall x f, P x f -> P (fst (fstep o x f)) (snd (fstep o x f))) ->
    forall n x f, P x f -> P (fst (fsteps o n x f)) (snd (fsteps o n x f)).
  Proof.
    intros H. induction n as [|n IH]; intros x f Hx; [exact Hx|]. cbn [fsteps]. specialize (H x f Hx). destruct (fstep o x f) as [x1 f1]. apply IH, H.
  Qed.

  (** * making directories does not touch files *)
  Lemma frun_lift {A B} (x : prog A) (k : A -> fprog B) : forall f,
    frun o (flift x k) f = match run (f_os o) x f with (Ok a, f') => frun o (k a) f' | (Throw, f') => (Throw, f') | (UB, f') => (UB, f') end.
  Proof.
    induction x as [a| | |p c IH|p c IH]; intros f; cbn [flift frun run]; try reflexivity; [apply IH|].
    destruct (os_mkdir (f_os o) f p) as [f' b]. apply IH.
  Qed.
  Lemma run_read {A} (x : prog A) p : plain_path p -> forall f, f_read o (snd (run (f_os o) x f)) p = f_read o f p.
  Proof.
    intros Hp. induction x as [a| | |q c IH|q c IH]; intros f; cbn [run snd]; try reflexivity; [apply IH|].
    destruct (os_mkdir (f_os o) f q) as [f' b] eqn:E. rewrite IH. exact (mkdir_read o ok _ _ _ _ _ Hp E).
  Qed.
  Lemma create_result fuel d : forall f, length d < fuel -> exists b f', run (f_os o) (create_directories fuel d) f = (Ok b, f').
  Proof.
    revert d. induction fuel as [|fuel IH]; intros d f L; [lia|]. cbn [create_directories]. destruct (has_parent_path d) eqn:E.
    - destruct (parent_shorter d E) as (p & c & n & -> & _ & _ & Hp). rewrite Hp. cbn [plift run].
      destruct (os_isdir (f_os o) f p).
      + cbn [run]. destruct (os_mkdir _ _ _) as [f' b]. eexists _, _. reflexivity.
      + rewrite run_bind. destruct (IH p f) as (b & f1 & ->); [rewrite app_length in L; cbn in L; lia|]. cbn [run].
        destruct (os_mkdir _ _ _) as [f' b']. eexists _, _. reflexivity.
    - cbn [run]. destruct (os_mkdir _ _ _) as [f' b]. eexists _, _. reflexivity.
  Qed.

  Lemma parent_ok p : exists d, parent_path p = Ok d.
  Proof.
    destruct (has_parent_path p) eqn:E; [destruct (parent_shorter p E) as (d & c & n & _ & _ & _ & Hp); exists d; exact Hp|].
    unfold has_parent_path in E. unfold parent_path. destruct (last_separator_pos p); [discriminate|]. exists []. reflexivity.
  Qed.

  (** * writing *)
  Lemma put_all_run {A} p (a : A) : forall s t f, f_read o f p = Some t -> exists n f', frun o (put_all p s (FRet a)) f = (Ok a, f') /\
    f_read o f' p = Some (t ++ firstn n s) /\ ((forall f c, snd (f_put o f p c) = true) -> length s <= n) /\ (forall q, f_other o p q -> f_read o f' q = f_read o f q).
  Proof.
    induction s as [|c s IH]; intros t f H; cbn [put_all frun].
    - exists 0, f. rewrite app_nil_r. auto.
    - destruct (f_put o f p c) as [f1 b] eqn:E. pose proof (put_ok o ok _ _ _ _ _ _ H E) as H1. destruct b.
      + destruct (IH _ f1 H1) as (n & f' & R & Hr & Hn & Hq). exists (S n), f'. split; [exact R|]. cbn [firstn]. rewrite Hr, <- app_assoc. split; [reflexivity|]. split.
        * intros Hp. specialize (Hn Hp). cbn. lia.
        * intros q O. rewrite (Hq q O). pose proof (put_other o ok f p c q O) as G. rewrite E in G. exact G.
      + exists 0, f1. cbn [frun firstn]. rewrite app_nil_r. split; [reflexivity|]. split; [exact H1|]. split.
        * intros Hp. specialize (Hp f c). rewrite E in Hp. discriminate.
        * intros q O. pose proof (put_other o ok f p c q O) as G. rewrite E in G. exact G.
  Qed.
  Definition open_call (app : bool) (f : state) (p : str) : state * bool := if app then f_app o f p else f_trunc o f p.
  Definition write_string (app : bool) (p s : str) (ec : ecptr) : fprog ecptr := if app then append_string p s ec else save_string p s ec.
  Definition base (app : bool) (old : option str) : str := if app then content old else [].
  Lemma open_other app f p q : f_other o p q -> f_read o (fst (open_call app f p)) q = f_read o f q.
  Proof. destruct app; [apply (app_other o ok)|apply (trunc_other o ok)]. Qed.
  Lemma open_ok app f p f' : open_call app f p = (f', true) -> f_read o f' p = Some (base app (f_read o f p)).
  Proof. destruct app; [apply (app_ok o ok)|apply (trunc_ok o ok)]. Qed.
  Lemma open_failed app f p f' : open_call app f p = (f', false) -> f' = f.
  Proof. destruct app; [apply (app_failed o ok)|apply (trunc_failed o ok)]. Qed.

  (** the directories are made, then the file is opened *)
  Lemma write_run app p s ec f : plain_path p -> exists f1 f2 b, open_call app f1 p = (f2, b) /\
    (forall q, plain_path q -> f_read o f1 q = f_read o f q) /\
    (exists d, parent_path p = Ok d /\ snd (run (f_os o) (create_directories (S (length d)) d) f) = f1) /\
    frun o (write_string app p s ec) f =
      if b then frun o (put_all p s (FRet ec)) f2 else (SerModel.set_error_or_throw ec (could_not_open p), f2).
  Proof.
    intros Hp. destruct (parent_ok p) as [d Hd]. destruct (create_result (S (length d)) d f (Nat.lt_succ_diag_r _)) as (b0 & f1 & E1).
    destruct (open_call app f1 p) as [f2 b] eqn:E2. exists f1, f2, b. split; [exact E2|]. split.
    { intros q Hq. pose proof (run_read (create_directories (S (length d)) d) q Hq f) as G. rewrite E1 in G. exact G. }
    split; [exists d; rewrite E1; auto|].
    destruct app; unfold write_string, append_string, save_string; rewrite Hd; cbn [fout]; rewrite frun_lift, E1; cbn [frun]; cbn [open_call] in E2; rewrite E2;
      (destruct b; [reflexivity|]); destruct ec; reflexivity.
  Qed.
  (** what is in the file afterwards *)
  Lemma write_result app p s ec f : plain_path p -> exists r f', frun o (write_string app p s ec) f = (r, f') /\
    (forall q, plain_path q -> f_other o p q -> f_read o f' q = f_read o f q) /\
    ((r = Ok ec /\ exists n, f_read o f' p = Some (base app (f_read o f p) ++ firstn n s)) \/
     (r = SerModel.set_error_or_throw ec (could_not_open p) /\ f_read o f' p = f_read o f p)).
  Proof.
    intros Hp. destruct (write_run app p s ec f Hp) as (f1 & f2 & b & E2 & K & _ & R). rewrite R. destruct b.
    - pose proof (open_ok _ _ _ _ E2) as H2. destruct (put_all_run p ec s _ f2 H2) as (n & f' & R2 & Hr & _ & Hq). exists (Ok ec), f'. split; [exact R2|]. split.
      + intros q Pq O. rewrite (Hq q O). pose proof (open_other app f1 p q O) as G. rewrite E2 in G. cbn [fst] in G. rewrite G. apply K, Pq.
      + left. split; [reflexivity|]. exists n. rewrite Hr, (K p Hp). reflexivity.
    - eexists _, f2. split; [reflexivity|]. pose proof (open_failed _ _ _ _ E2) as ->. split; [intros q Pq _; apply K, Pq|]. right. split; [reflexivity|apply K, Hp].
  Qed.
  (** when the file can be opened and there is room *)
  Lemma write_full app p s ec f : plain_path p -> (forall f c, snd (f_put o f p c) = true) -> (forall f, snd (open_call app f p) = true) ->
    exists f', frun o (write_string app p s ec) f = (Ok ec, f') /\ f_read o f' p = Some (base app (f_read o f p) ++ s) /\
      (forall q, plain_path q -> f_other o p q -> f_read o f' q = f_read o f q).
  Proof.
    intros Hp Hput Hopen. destruct (write_run app p s ec f Hp) as (f1 & f2 & b & E2 & K & _ & R). rewrite R. specialize (Hopen f1). rewrite E2 in Hopen. cbn [snd] in Hopen. subst b.
    pose proof (open_ok _ _ _ _ E2) as H2. destruct (put_all_run p ec s _ f2 H2) as (n & f' & R2 & Hr & Hn & Hq). exists f'. split; [exact R2|]. split.
    - rewrite Hr, (K p Hp), firstn_all2 by (apply Hn, Hput). reflexivity.
    - intros q Pq O. rewrite (Hq q O). pose proof (open_other app f1 p q O) as G. rewrite E2 in G. cbn [fst] in G. rewrite G. apply K, Pq.
  Qed.

  (** * stopped on the way *)
  Definition final {A} (x : fprog A) : Prop := match x with FRet _ | FFail | FStuck => True | _ => False end.
  Definition opening (app : bool) (p s : str) (ec : ecptr) : bool -> fprog ecptr := fun ok =>
    if ok then put_all p s (FRet ec) else fout (SerModel.set_error_or_throw ec (could_not_open p)) (fun ec => FRet ec).
  Definition opener (app : bool) (p s : str) (ec : ecptr) : fprog ecptr := if app then FApp p (opening app p s ec) else FTrunc p (opening app p s ec).
  Definition on_the_way (app : bool) (p s : str) (ec : ecptr) (old : option str) (x : fprog ecptr) (f : state) : Prop :=
    ((exists y : prog bool, x = flift y (fun _ => opener app p s ec)) /\ f_read o f p = old) \/
    (exists t s2, s = t ++ s2 /\ x = put_all p s2 (FRet ec) /\ f_read o f p = Some (base app old ++ t)) \/
    (final x /\ (f_read o f p = old \/ exists t s2, s = t ++ s2 /\ f_read o f p = Some (base app old ++ t))).
  Lemma final_step {A} (x : fprog A) f : final x -> fstep o x f = (x, f).
  Proof. destruct x; cbn; tauto. Qed.
  Lemma way_step app p s ec old x f : plain_path p -> on_the_way app p s ec old x f ->
    on_the_way app p s ec old (fst (fstep o x f)) (snd (fstep o x f)).
  Proof.
    intros Hp [[[y ->] Hf]|[(t & s2 & Hs & -> & Hf)|[Fx Hf]]].
    - destruct y as [a| | |q c|q c]; cbn [flift].
      + assert (E : fstep o (opener app p s ec) f = (opening app p s ec (snd (open_call app f p)), fst (open_call app f p))).
        { destruct app; cbn [opener fstep open_call]; [destruct (f_app o f p)|destruct (f_trunc o f p)]; reflexivity. }
        rewrite E. cbn [fst snd]. destruct (open_call app f p) as [f' b] eqn:Eo. cbn [fst snd]. destruct b; cbn [opening].
        * right. left. exists [], s. split; [reflexivity|]. split; [reflexivity|]. rewrite (open_ok _ _ _ _ Eo), Hf, app_nil_r. reflexivity.
        * right. right. rewrite (open_failed _ _ _ _ Eo). split; [destruct ec; exact I|left; exact Hf].
      + right. right. split; [exact I|left; exact Hf].
      + right. right. split; [exact I|left; exact Hf].
      + cbn [fstep fst snd]. left. split; [eexists; reflexivity|exact Hf].
      + cbn [fstep]. destruct (os_mkdir (f_os o) f q) as [f' b] eqn:E. cbn [fst snd]. left. split; [eexists; reflexivity|]. rewrite <- Hf. exact (mkdir_read o ok _ _ _ _ _ Hp E).
    - destruct s2 as [|c s2]; cbn [put_all].
      + cbn [fstep fst snd]. right. right. split; [exact I|]. right. exists t, []. auto.
      + cbn [fstep]. destruct (f_put o f p c) as [f' b] eqn:E. cbn [fst snd]. pose proof (put_ok o ok _ _ _ _ _ _ Hf E) as H1. right. destruct b.
        * left. exists (t ++ [c]), s2. rewrite <- !app_assoc in *. cbn [List.app]. split; [exact Hs|]. split; [reflexivity|exact H1].
        * right. split; [exact I|]. right. exists t, (c :: s2). auto.
    - rewrite (final_step _ _ Fx). right. right. auto.
  Qed.
  Lemma crash app p s ec f n : plain_path p ->
    f_read o (snd (fsteps o n (write_string app p s ec) f)) p = f_read o f p \/
    exists t s2, s = t ++ s2 /\ f_read o (snd (fsteps o n (write_string app p s ec) f)) p = Some (base app (f_read o f p) ++ t).
  Proof.
    intros Hp. assert (I0 : on_the_way app p s ec (f_read o f p) (write_string app p s ec) f).
    { destruct (parent_ok p) as [d Hd]. left. split; [|reflexivity]. exists (create_directories (S (length d)) d).
      destruct app; unfold write_string, append_string, save_string; rewrite Hd; reflexivity. }
    pose proof (fsteps_inv (on_the_way app p s ec (f_read o f p)) (fun x f => way_step app p s ec _ x f Hp) n _ _ I0) as [[_ H]|[(t & s2 & Hs & _ & H)|[_ H]]].
    - left. exact H.
    - right. exists t, s2. auto.
    - exact H.
  Qed.

  (** * histories *)
  Lemma calls_run : forall h f f', Forall (fun c => plain_path (fcall_path c)) h -> (forall f p c, snd (f_put o f p c) = true) ->
    run_calls o h f = (Ok tt, f') ->
    forall p, plain_path p -> (forall c, In c h -> fcall_path c <> p -> f_other o (fcall_path c) p) -> f_read o f' p = contents_after p (f_read o f p) h.
  Proof.
    induction h as [|c h IH]; intros f f' Hh Hput R p Pp O; [injection R as <-; reflexivity|]. inversion Hh as [|? ? Hc Ht]; subst.
    set (app := match c with Save _ _ => false | Append _ _ => true end). set (s := match c with Save _ s | Append _ s => s end).
    assert (Ep : call_prog c = write_string app (fcall_path c) s None) by (destruct c; reflexivity).
    cbn [run_calls] in R. rewrite Ep in R. destruct (write_run app (fcall_path c) s None f Hc) as (f1 & f2 & b & E2 & K & _ & R1). rewrite R1 in R.
    destruct b; [|discriminate R].
    pose proof (open_ok _ _ _ _ E2) as H2. destruct (put_all_run (fcall_path c) (@None _ : ecptr) s _ f2 H2) as (n & f3 & R2 & Hr & Hn & Hq). rewrite R2 in R.
    rewrite (IH f3 f' Ht Hput R p Pp (fun c' Hi => O c' (or_intror Hi))). rewrite firstn_all2 in Hr by (apply Hn; intros; apply Hput). rewrite (K _ Hc) in Hr.
    destruct (str_eqb (fcall_path c) p) eqn:E.
    - apply str_eqb_eq in E. subst p. rewrite Hr. destruct c; cbn [contents_after fcall_path]; rewrite str_eqb_refl; reflexivity.
    - assert (N : fcall_path c <> p) by (intros X; rewrite X, str_eqb_refl in E; discriminate). specialize (O c (or_introl eq_refl) N).
      rewrite (Hq p O). pose proof (open_other app f1 (fcall_path c) p O) as G. rewrite E2 in G. cbn [fst] in G. rewrite G, (K p Pp).
      destruct c; cbn [contents_after fcall_path] in *; rewrite E; reflexivity.
  Qed.
  Lemma calls_defined : forall h f, Forall (fun c => plain_path (fcall_path c)) h -> fst (run_calls o h f) <> UB.
  Proof.
    induction h as [|c h IH]; intros f Hh; [discriminate|]. inversion Hh as [|? ? Hc Ht]; subst. cbn [run_calls].
    assert (Ep : exists app s, call_prog c = write_string app (fcall_path c) s None) by (destruct c; [exists false|exists true]; eexists; reflexivity).
    destruct Ep as (app & s & ->). destruct (write_result app (fcall_path c) s None f Hc) as (r & f1 & -> & _ & [[-> _]|[-> _]]); [apply IH, Ht|discriminate].
  Qed.

  (** * folders are made *)
  Context (dok : os_ok (f_os o)) (dfree : os_free (f_os o)).
  Lemma create_last fuel d f f' : run (f_os o) (create_directories fuel d) f = (Ok true, f') -> exists f1, os_mkdir (f_os o) f1 d = (f', true).
  Proof.
    destruct fuel as [|fuel]; [discriminate|]. cbn [create_directories]. destruct (has_parent_path d) eqn:E.
    - destruct (parent_ok d) as [q ->]. cbn [plift run]. destruct (os_isdir (f_os o) f q).
      + cbn [run]. destruct (os_mkdir (f_os o) f d) as [f1 b] eqn:E1. intros H. injection H as -> ->. eauto.
      + rewrite run_bind. destruct (run _ (create_directories fuel q) f) as [[b0| |] f1]; try discriminate. cbn [run].
        destruct (os_mkdir (f_os o) f1 d) as [f2 b] eqn:E1. intros H. injection H as -> ->. eauto.
    - cbn [run]. destruct (os_mkdir (f_os o) f d) as [f1 b] eqn:E1. intros H. injection H as -> ->. eauto.
  Qed.
  Lemma mkdir_there f d : os_isdir (f_os o) f d = true -> os_mkdir (f_os o) f d = (f, false).
  Proof.
    intros D. destruct (os_mkdir (f_os o) f d) as [f' b] eqn:E. destruct b; [|rewrite (mkdir_failed _ dok _ _ _ E); reflexivity].
    destruct (mkdir_new _ dok _ _ _ E) as [X _]. rewrite (dir_exists _ dok _ _ D) in X. discriminate.
  Qed.
  Lemma create_nothing fuel f : run (f_os o) (create_directories (S fuel) []) f = (Ok false, f).
  Proof. cbn [create_directories]. change (has_parent_path []) with false. cbn [run]. rewrite (proj2 (empty_path _ dfree f)). reflexivity. Qed.
  Lemma create_existing d f : plain_path d -> os_isdir (f_os o) f d = true -> run (f_os o) (create_directories (S (length d)) d) f = (Ok false, f).
  Proof.
    intros Hd D. remember (length d) as fuel eqn:Ef. cbn [create_directories]. destruct Hd as [c Hc|c Hc|q c Hq Hc].
    - destruct (has_parent_path c) eqn:E; [exfalso|cbn [run]; rewrite (mkdir_there _ _ D); reflexivity].
      apply has_parent_iff in E. destruct E as (x & Sx & Ix). destruct Hc as (_ & Hc & _). unfold component in Hc. rewrite Forall_forall in Hc. exact (Hc _ Ix Sx).
    - destruct (plain_parent [] c Hc) as [E1 E2]. cbn [List.app] in E1, E2. rewrite E1, E2. cbn [plift run].
      destruct (os_isdir (f_os o) f []) eqn:D0; [apply (dir_exists _ dok) in D0; rewrite (proj1 (empty_path _ dfree f)) in D0; discriminate|].
      rewrite run_bind. destruct fuel as [|fuel]; [discriminate|]. rewrite create_nothing. cbn [run]. rewrite (mkdir_there _ _ D). reflexivity.
    - destruct (plain_parent q c Hc) as [E1 E2]. rewrite E1, E2. cbn [plift run].
      rewrite (parent_isdir _ dfree f q c); [|destruct Hq as [x Hx|x Hx|x y Hx Hy]; [apply Hx|discriminate|intros X; destruct x; discriminate]|exact Hc|exact D].
      cbn [run]. rewrite (mkdir_there _ _ D). reflexivity.
  Qed.
  Lemma plain_nonempty q : plain_path q -> q <> [].
  Proof. intros [x Hx|x Hx|x y Hx Hy]; [apply Hx|discriminate|intros X; destruct x; discriminate]. Qed.
  Lemma folders_made app p s ec f : fos_free o -> plain_path p -> os_isdir (f_os o) f p = false ->
    (forall d, ancestor_or_self d p -> d <> p -> os_exists (f_os o) f d = true -> os_isdir (f_os o) f d = true) ->
    exists f', frun o (write_string app p s ec) f = (Ok ec, f') /\ f_read o f' p = Some (base app (f_read o f p) ++ s).
  Proof.
    intros Fr Hp D A. destruct (write_run app p s ec f Hp) as (f1 & f2 & b & E2 & K & (d & Hd & Ef1) & R).
    assert (Op : openable (f_os o) f1 p).
    { destruct Hp as [c Hc|c Hc|q c Hq Hc].
      - assert (E : d = []).
        { assert (P : path_parts c [] c) by (constructor; apply Hc). rewrite (proj1 (parts_ok _ _ _ P)) in Hd. congruence. }
        subst d. cbn [length] in Ef1. rewrite create_nothing in Ef1. cbn [snd] in Ef1. subst f1. apply openable_bare; assumption.
      - destruct (plain_parent [] c Hc) as [_ E]. cbn [List.app] in E. rewrite E in Hd. injection Hd as <-.
        cbn [length] in Ef1. rewrite create_nothing in Ef1. cbn [snd] in Ef1. subst f1. apply openable_root; assumption.
      - destruct (plain_parent q c Hc) as [_ E]. rewrite E in Hd. injection Hd as <-. destruct (os_isdir (f_os o) f q) eqn:Dq.
        + rewrite (create_existing q f Hq Dq) in Ef1. cbn [snd] in Ef1. subst f1. apply openable_in; assumption.
        + assert (A' : forall x, ancestor_or_self x q -> os_exists (f_os o) f x = true -> os_isdir (f_os o) f x = true).
          { intros x Ax. apply A; [apply anc_up; [exact Hc|apply plain_nonempty, Hq|exact Ax]|].
            assert (L : length x <= length q) by (clear -Ax; induction Ax as [|p c q Hc Hp H IH]; [lia|rewrite app_length; lia]).
            intros X. rewrite X, app_length in L. cbn in L. lia. }
          destruct (create_parents (f_os o) dok dfree q Hq (S (length q)) f (Nat.lt_succ_diag_r _) Dq A') as (f0 & f' & R0 & E0 & _ & H0).
          rewrite R0 in Ef1. cbn [snd] in Ef1. subst f'. apply openable_in; [exact Hc|apply H0; [apply anc_self|exact Hq]|].
          destruct (os_isdir (f_os o) f1 (q ++ slash :: c)) eqn:X; [|reflexivity]. apply (dir_exists _ dok) in X.
          rewrite (mkdir_empty _ dfree _ _ _ c E0 Hc) in X. discriminate. }
    assert (Eb : b = true).
    { destruct app; cbn [open_call] in E2; [pose proof (app_in o Fr f1 p Op) as G|pose proof (trunc_in o Fr f1 p Op) as G]; rewrite E2 in G; exact G. }
    subst b. pose proof (open_ok _ _ _ _ E2) as H2. destruct (put_all_run p ec s _ f2 H2) as (n & f' & R2 & Hr & Hn & _). exists f'. rewrite R. split; [exact R2|].
    rewrite Hr, (K p Hp), firstn_all2 by (apply Hn; intros; apply (put_room o Fr)). reflexivity.
  Qed.
End Os.

(** * listing directories *)
Section Tree.
  Context (P : ftree -> Prop) (Pf : P FileEntry) (Pd : forall es, Forall (fun x => P (snd x)) es -> P (DirEntry es)).
  Fixpoint ftree_rec (t : ftree) : P t :=
    match t with
    | FileEntry => Pf
    | DirEntry es => Pd es ((fix go (es : list (str * ftree)) : Forall (fun x => P (snd x)) es :=
        match es with [] => Forall_nil _ | x :: r => Forall_cons x (ftree_rec (snd x)) (go r) end) es)
    end.
End Tree.

Section Find.
  Context (include exclude : str -> bool) (recursive : bool).
  Local Notation entry := (find_entry include exclude recursive).
  Local Notation files := (find_files include exclude recursive).
  Definition okdir (d : str) : Prop := d <> [] /\ forall a, d <> a ++ [slash].
  Lemma entry_ok d n : okdir d -> entry_path d n = d ++ slash :: n.
  Proof.
    intros [H1 H2]. unfold entry_path. destruct (rev d) as [|x r] eqn:E; [apply (f_equal (@rev _)) in E; rewrite rev_involutive in E; contradiction|].
    destruct (Ascii.eqb x "/"%char) eqn:X; [|reflexivity]. apply Ascii.eqb_eq in X. subst x. apply (f_equal (@rev _)) in E. rewrite rev_involutive in E. cbn in E.
    destruct (H2 (rev r) E).
  Qed.
  Lemma okdir_sub d n : okdir d -> ~ In slash n -> n <> [] -> okdir (d ++ slash :: n).
  Proof.
    intros [H1 H2] Hn N. split; [intros X; destruct d; discriminate|]. intros a X. destruct (exists_last N) as (m & x & ->).
    change (d ++ slash :: m ++ [x]) with (d ++ (slash :: m) ++ [x]) in X. rewrite app_assoc in X. apply app_inj_tail in X. destruct X as [_ ->]. apply Hn, in_or_app. right. left. reflexivity.
  Qed.
  Lemma found_prefix es d k f n : found es d k f n -> exists r, f = d ++ slash :: r.
  Proof. intros H. induction H as [es d n t H|es d n sub k f name H _ [r ->]]; [exists n; reflexivity|]. exists (n ++ slash :: r). rewrite <- app_assoc. reflexivity. Qed.
  Lemma found_cons x es d k f n : found (x :: es) d k f n <-> found [x] d k f n \/ found es d k f n.
  Proof.
    split.
    - intros H. inversion H as [? ? ? t Hi|? ? m sub k' ? ? Hi Hf]; subst.
      + destruct Hi as [->|Hi]; [left; eapply found_here; left; reflexivity|right; eapply found_here; exact Hi].
      + destruct Hi as [->|Hi]; [left; eapply found_below; [left; reflexivity|exact Hf]|right; eapply found_below; [exact Hi|exact Hf]].
    - intros [H|H]; inversion H as [? ? ? t Hi|? ? m sub k' ? ? Hi Hf]; subst.
      + destruct Hi as [->|[]]. eapply found_here; left; reflexivity.
      + destruct Hi as [->|[]]. eapply found_below; [left; reflexivity|exact Hf].
      + eapply found_here; right; exact Hi.
      + eapply found_below; [right; exact Hi|exact Hf].
  Qed.
  Lemma found_one n t d k f name : found [(n, t)] d k f name <->
    (k = 0 /\ f = d ++ slash :: n /\ name = n) \/ exists sub k', t = DirEntry sub /\ k = S k' /\ found sub (d ++ slash :: n) k' f name.
  Proof.
    split.
    - intros H. inversion H as [? ? ? t' Hi|? ? m sub k' ? ? Hi Hf]; subst; destruct Hi as [Hi|[]]; injection Hi as -> ->; [left; auto|]. right. eauto.
    - intros [(-> & -> & ->)|(sub & k' & -> & -> & H)]; [eapply found_here; left; reflexivity|eapply found_below; [left; reflexivity|exact H]].
  Qed.
  Definition wanted (n : str) : bool := include n && negb (exclude n).
  Definition near (levels : Z) (k : nat) : Prop := k = 0 \/ (recursive = true /\ ((levels < 0)%Z \/ (Z.of_nat k <= levels)%Z)).
  Definition listed (es : list (str * ftree)) (d : str) (levels : Z) (r : list str) : Prop :=
    NoDup r /\ forall f, In f r <-> exists k name, found es d k f name /\ wanted name = true /\ near levels k.
  (** enough room to count down *)
  Definition counts (levels : Z) (h : nat) : Prop := recursive = false \/ (0 <= levels)%Z \/ (- 2 ^ 31 <= levels - Z.of_nat h)%Z.
  Definition heights (es : list (str * ftree)) : nat := fold_right (fun x m => max (height (snd x)) m) 0 es.

  Lemma inner_go d levels es : (fix go (es : list (str * ftree)) : outcome (list str) :=
            match es with
            | [] => Ok []
            | (n, s) :: r => do a <- entry d levels n s; do b <- go r; Ok (a ++ b)
            end) es = files d es levels.
  Proof. induction es as [|[n t] r IH]; [reflexivity|]. cbn [find_files]. rewrite IH. reflexivity. Qed.
  Lemma NoDup_app_disjoint {A} (a b : list A) : NoDup a -> NoDup b -> (forall x, In x a -> In x b -> False) -> NoDup (a ++ b).
  Proof.
    intros Ha Hb D. induction Ha as [|x a Hx Ha IH]; [exact Hb|]. cbn [List.app]. constructor; [|apply IH; intros y Y; apply D; right; exact Y].
    intros H. apply in_app_or in H. destruct H as [H|H]; [contradiction|]. exact (D x (or_introl eq_refl) H).
  Qed.
  Lemma names_differ d n m u v : ~ In slash n -> ~ In slash m -> (u = [] \/ exists r, u = slash :: r) -> (v = [] \/ exists r, v = slash :: r) ->
    d ++ slash :: n ++ u = d ++ slash :: m ++ v -> n = m.
  Proof.
    intros Hn Hm Hu Hv E. apply app_inv_head in E. injection E as E. revert m Hm E. induction n as [|x n IH]; intros [|y m] Hm E; cbn [List.app] in E; [reflexivity| | |].
    - destruct Hu as [->|[r ->]]; [discriminate|]. injection E as <- _. destruct (Hm (or_introl eq_refl)).
    - destruct Hv as [->|[r ->]]; [discriminate|]. injection E as -> _. destruct (Hn (or_introl eq_refl)).
    - injection E as <- E. f_equal. apply IH; [intros H; apply Hn; right; exact H|intros H; apply Hm; right; exact H|exact E].
  Qed.
  Lemma found_named n t d k f name : found [(n, t)] d k f name -> exists u, f = d ++ slash :: n ++ u /\ (u = [] \/ exists r, u = slash :: r).
  Proof.
    intros H. apply found_one in H. destruct H as [(_ & -> & _)|(sub & k' & _ & _ & H)]; [exists []; rewrite app_nil_r; auto|].
    apply found_prefix in H. destruct H as [r ->]. exists (slash :: r). split; [rewrite <- app_assoc; reflexivity|right; eauto].
  Qed.
  Lemma found_among es d k f name : found es d k f name -> exists n t, In (n, t) es /\ found [(n, t)] d k f name.
  Proof.
    intros H. inversion H as [? ? ? t Hi|? ? m sub k' ? ? Hi Hf]; subst; eexists _, _; (split; [exact Hi|]); [eapply found_here|eapply found_below]; try (left; reflexivity). exact Hf.
  Qed.

  Definition entry_spec (t : ftree) : Prop := forall d n levels, okdir d -> ~ In slash n -> n <> [] -> (forall sub, t = DirEntry sub -> sound_tree sub) ->
    counts levels (height t) -> exists r, entry d levels n t = Ok r /\ listed [(n, t)] d levels r.
  Lemma list_spec es : Forall (fun x => entry_spec (snd x)) es -> forall d levels, okdir d -> sound_tree es -> counts levels (heights es) ->
    exists r, files d es levels = Ok r /\ listed es d levels r.
  Proof.
    intros H d levels Hd Hs. assert (Hs' : NoDup (map fst es) /\ (forall n t, In (n, t) es -> ~ In slash n /\ n <> []) /\ (forall n sub, In (n, DirEntry sub) es -> sound_tree sub))
      by (inversion Hs; auto). clear Hs. destruct Hs' as (N & Hn & Hsub). induction H as [|[n t] es Ht H IH]; intros C.
    - exists []. split; [reflexivity|]. split; [constructor|]. intros f. split; [intros []|]. intros (k & name & F & _). apply found_among in F. destruct F as (? & ? & [] & _).
    - cbn [snd] in Ht. cbn [map fst] in N. inversion N as [|? ? Nn N']; subst. cbn [heights fold_right snd] in C. fold (heights es) in C.
      destruct (Hn n t (or_introl eq_refl)) as [Hn1 Hn2].
      destruct (Ht d n levels Hd Hn1 Hn2) as (r1 & E1 & D1 & L1).
      { cbn [snd]. intros sub ->. exact (Hsub n sub (or_introl eq_refl)). }
      { cbn [snd]. destruct C as [C|[C|C]]; [left|right; left|right; right]; auto. lia. }
      destruct IH as (r2 & E2 & D2 & L2).
      { exact N'. } { intros m u Hi. apply (Hn m u). right. exact Hi. } { intros m sub Hi. apply (Hsub m sub). right. exact Hi. }
      { destruct C as [C|[C|C]]; [left|right; left|right; right]; auto. lia. }
      exists (r1 ++ r2). split; [cbn [find_files]; rewrite E1; cbn [obind]; rewrite E2; reflexivity|]. split.
      + apply NoDup_app_disjoint; [exact D1|exact D2|]. intros f F1 F2. apply L1 in F1. apply L2 in F2. destruct F1 as (k1 & n1 & F1 & _), F2 as (k2 & n2 & F2 & _).
        apply found_among in F2. destruct F2 as (m & u & Hi & F2). apply found_named in F1, F2. destruct F1 as (v1 & -> & V1), F2 as (v2 & E & V2).
        pose proof (names_differ d n m v1 v2 Hn1 (proj1 (Hn m u (or_intror Hi))) V1 V2 E) as ->. apply Nn. apply (in_map fst) in Hi. exact Hi.
      + intros f. rewrite in_app_iff, L1, L2. split.
        * intros [(k & name & F & W)|(k & name & F & W)]; exists k, name; (split; [apply found_cons; auto|exact W]).
        * intros (k & name & F & W). apply found_cons in F. destruct F as [F|F]; [left|right]; eauto.
  Qed.
  Lemma entries_all t : entry_spec t.
  Proof.
    induction t as [|es IH] using ftree_rec; intros d n levels Hd Hn1 Hn2 Hs C.
    - cbn [find_entry obind List.app]. rewrite (entry_ok d n Hd). fold (wanted n). eexists. split; [reflexivity|]. split; [destruct (wanted n); repeat constructor; intros []|].
      intros f. split.
      + destruct (wanted n) eqn:W; [|intros []]. intros [<-|[]]. exists 0, n. split; [apply found_one; left; auto|]. split; [exact W|left; reflexivity].
      + intros (k & name & F & W & _). apply found_one in F. destruct F as [(_ & -> & ->)|(sub & k' & X & _)]; [rewrite W; left; reflexivity|discriminate].
    - cbn [find_entry]. rewrite (entry_ok d n Hd), inner_go. fold (wanted n). destruct (recursive && negb (levels =? 0)%Z) eqn:G.
      + apply andb_prop in G. destruct G as [G1 G2]. apply negb_true_iff, Z.eqb_neq in G2. destruct (levels =? - 2 ^ 31)%Z eqn:G3.
        { exfalso. apply Z.eqb_eq in G3. destruct C as [C|[C|C]]; [congruence| |]; cbn [height] in C; lia. }
        destruct (list_spec es IH (d ++ slash :: n) (levels - 1)%Z) as (r & E & Dr & Lr).
        { apply okdir_sub; assumption. } { apply Hs. reflexivity. }
        { destruct C as [C|[C|C]]; [left; exact C|right; left; lia|right; right]. cbn [height] in C. fold (heights es) in C. lia. }
        rewrite E. cbn [obind]. eexists. split; [reflexivity|]. split.
        * apply NoDup_app_disjoint; [exact Dr|destruct (wanted n); repeat constructor; intros []|]. intros f F1 F2. destruct (wanted n); [|destruct F2]. destruct F2 as [<-|[]].
          apply Lr in F1. destruct F1 as (k & name & F & _). apply found_prefix in F. destruct F as [u F]. apply (f_equal (@length _)) in F. rewrite !app_length in F. cbn in F. lia.
        * intros f. rewrite in_app_iff, Lr. split.
          -- intros [(k & name & F & W & Nr)|F].
             ++ exists (S k), name. split; [apply found_one; right; eauto|]. split; [exact W|]. right. split; [exact G1|]. destruct Nr as [->|[_ Nr]]; lia.
             ++ destruct (wanted n) eqn:W; [|destruct F]. destruct F as [<-|[]]. exists 0, n. split; [apply found_one; left; auto|]. split; [exact W|left; reflexivity].
          -- intros (k & name & F & W & Nr). apply found_one in F. destruct F as [(_ & -> & ->)|(sub & k' & X & -> & F)]; [right; rewrite W; left; reflexivity|].
             injection X as <-. left. exists k', name. split; [exact F|]. split; [exact W|]. destruct Nr as [Nr|[_ Nr]]; [discriminate|].
             destruct k' as [|k']; [left; reflexivity|right; split; [exact G1|lia]].
      + cbn [obind List.app]. eexists. split; [reflexivity|]. split; [destruct (wanted n); repeat constructor; intros []|]. intros f. split.
        * destruct (wanted n) eqn:W; [|intros []]. intros [<-|[]]. exists 0, n. split; [apply found_one; left; auto|]. split; [exact W|left; reflexivity].
        * intros (k & name & F & W & Nr). apply found_one in F. destruct F as [(_ & -> & ->)|(sub & k' & X & -> & _)]; [rewrite W; left; reflexivity|]. exfalso.
          destruct Nr as [Nr|[R Nr]]; [discriminate|]. rewrite R in G. cbn in G. apply negb_false_iff, Z.eqb_eq in G. lia.
  Qed.
  Lemma files_all es d levels : okdir d -> sound_tree es -> counts levels (heights es) -> exists r, files d es levels = Ok r /\ listed es d levels r.
  Proof. apply list_spec. apply Forall_forall. intros x _. apply entries_all. Qed.
End Find.

(** * an operating system with files, for examples: the trees of [FsProofs] and a list of contents; at most [cap] bytes fit *)
Section Instance.
  Context (cap : option nat).
  Definition st := (os_state tree_os * list (str * str))%type.
  Definition st_dirs : os := Os st (fun f => os_exists tree_os (fst f)) (fun f => os_isdir tree_os (fst f))
    (fun f d => let (t, b) := os_mkdir tree_os (fst f) d in ((t, snd f), b)).
  Fixpoint look (l : list (str * str)) (p : str) : option str :=
    match l with [] => None | (q, t) :: r => if str_eqb q p then Some t else look r p end.
  Definition used (l : list (str * str)) : nat := fold_right (fun x n => length (snd x) + n) 0 l.
  Fixpoint store (l : list (str * str)) (p s : str) : list (str * str) :=
    match l with [] => [(p, s)] | (q, t) :: r => if str_eqb q p then (q, s) :: r else (q, t) :: store r p s end.
  Definition open_file (keep : bool) (f : st) (p : str) : st * bool :=
    if os_isdir tree_os (fst f) p then (f, false) else ((fst f, store (snd f) p (if keep then content (look (snd f) p) else [])), true).
  Definition file_os : fos := Fos st_dirs (fun f p => look (snd f) p) (open_file false) (open_file true)
    (fun f p c => if match cap with None => true | Some n => used (snd f) <? n end then ((fst f, store (snd f) p (content (look (snd f) p) ++ [c])), true) else (f, false))
    (fun p q => p <> q).
  Lemma look_store l p s : look (store l p s) p = Some s.
  Proof. induction l as [|[q t] r IH]; cbn [store look]; [rewrite str_eqb_refl; reflexivity|]. destruct (str_eqb q p) eqn:E; cbn [look]; rewrite E; [reflexivity|exact IH]. Qed.
  Lemma look_other l p s q : p <> q -> look (store l p s) q = look l q.
  Proof.
    intros N. induction l as [|[x t] r IH]; cbn [store look].
    - destruct (str_eqb p q) eqn:E; [apply str_eqb_eq in E; contradiction|reflexivity].
    - destruct (str_eqb x p) eqn:E; cbn [look]; [|rewrite IH; reflexivity]. apply str_eqb_eq in E. subst x.
      destruct (str_eqb p q) eqn:E2; [apply str_eqb_eq in E2; contradiction|reflexivity].
  Qed.
  Lemma file_os_ok : fos_ok file_os.
  Proof.
    constructor; cbn; intros.
    - unfold open_file in H. destruct (os_isdir _ _ _); [discriminate|]. injection H as <-. apply look_store.
    - unfold open_file in H. destruct (os_isdir _ _ _); [injection H as <-; reflexivity|discriminate].
    - unfold open_file in H. destruct (os_isdir _ _ _); [discriminate|]. injection H as <-. apply look_store.
    - unfold open_file in H. destruct (os_isdir _ _ _); [injection H as <-; reflexivity|discriminate].
    - destruct (match cap with None => true | Some n => _ end); injection H0 as <- <-; [cbn; rewrite look_store, H; reflexivity|exact H].
    - destruct (match parse_path d with None => _ | Some l => _ end) as [t b1]. injection H0 as <- _. reflexivity.
    - unfold open_file. destruct (os_isdir _ _ _); [reflexivity|]. apply look_other, H.
    - unfold open_file. destruct (os_isdir _ _ _); [reflexivity|]. apply look_other, H.
    - destruct (match cap with None => true | Some n => _ end); [apply look_other, H|reflexivity].
  Qed.
  Lemma st_dirs_ok : os_ok st_dirs.
  Proof.
    pose proof tree_os_ok as [A B C D]. constructor; cbn [os_state os_exists os_isdir os_mkdir st_dirs].
    - intros f p. apply A.
    - intros f p f' H. destruct (os_mkdir tree_os (fst f) p) as [t b] eqn:E. injection H as <- ->. exact (B _ _ _ E).
    - intros f p f' b q H. destruct (os_mkdir tree_os (fst f) p) as [t b'] eqn:E. injection H as <- ->. exact (C _ _ _ _ q E).
    - intros f p f' H. destruct (os_mkdir tree_os (fst f) p) as [t b] eqn:E. injection H as <- ->. rewrite (D _ _ _ E). destruct f; reflexivity.
  Qed.
  Lemma st_dirs_free : os_free st_dirs.
  Proof.
    pose proof tree_os_free as [A B C D E F]. constructor; cbn [os_state os_exists os_isdir os_mkdir st_dirs].
    - intros f c Hc H. specialize (A (fst f) c Hc H). destruct (os_mkdir tree_os (fst f) c) as [t b]. exact A.
    - intros f c Hc H. specialize (B (fst f) c Hc H). destruct (os_mkdir tree_os (fst f) (slash :: c)) as [t b]. exact B.
    - intros f p c Hc Hp H. specialize (C (fst f) p c Hc Hp H). destruct (os_mkdir tree_os (fst f) (p ++ slash :: c)) as [t b]. exact C.
    - intros f. destruct (D (fst f)) as [D1 D2]. split; [exact D1|]. rewrite D2. destruct f; reflexivity.
    - intros f p f' c H. destruct (os_mkdir tree_os (fst f) p) as [t b] eqn:X. injection H as <- ->. exact (E _ _ _ c X).
    - intros f p c. apply F.
  Qed.
  Lemma file_os_free : cap = None -> fos_free file_os.
  Proof.
    intros Hc. constructor; cbn [f_os file_os f_put f_trunc f_app os_state st_dirs].
    - rewrite Hc. reflexivity.
    - intros f p H. unfold open_file. assert (X : os_isdir tree_os (fst f) p = false) by (destruct H; assumption). rewrite X. reflexivity.
    - intros f p H. unfold open_file. assert (X : os_isdir tree_os (fst f) p = false) by (destruct H; assumption). rewrite X. reflexivity.
  Qed.
End Instance.
