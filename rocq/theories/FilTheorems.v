(** Files written and read as strings, and listing directories: theorems. *)
From Coq Require Import Ascii String List Arith ZArith Bool Lia.
From Verif Require Import Base Str StrSpec StrBase PathSpec FsSpec FsProofs FilSpec FilModel FilProofs.
From Verif Require SerModel.
Import ListNotations.

(** * C161: files as strings *)
(** any sequence of saves and appends, with enough space, during which no call threw: every file holds what the last
    save put there and the appends after it, whatever was written to other files *)
Theorem C161_contents : forall (o : fos) (h : list fcall) (f f' : os_state (f_os o)) (p : str), fos_ok o ->
  (forall f p c, snd (f_put o f p c) = true) -> Forall (fun c => plain_path (fcall_path c)) h -> plain_path p ->
  (forall c, In c h -> fcall_path c <> p -> f_other o (fcall_path c) p) ->
  run_calls o h f = (Ok tt, f') -> f_read o f' p = contents_after p (f_read o f p) h.
Proof. intros o h f f' p ok Hput Hh Hp O R. exact (calls_run o ok h f f' Hh Hput R p Hp O). Qed.
Print Assumptions C161_contents.

Lemma lit_proper (c : str) : c <> [] -> Forall (fun x => x <> slash /\ x <> "\"%char) c -> c <> lit "." -> c <> lit ".." -> proper_name c.
Proof. intros A B C D. split; [exact A|]. split; [|auto]. eapply Forall_impl; [|exact B]. intros x [X Y] [Z|Z]; contradiction. Qed.
Ltac proper := apply lit_proper; [discriminate|repeat constructor; discriminate|discriminate|discriminate].
Lemma plain_dx : plain_path (lit "d/x").
Proof. apply (plain_in (lit "d") (lit "x")); [apply plain_bare|]; proper. Qed.
Lemma plain_ab : plain_path (lit "/a/b").
Proof. apply (plain_in (lit "/a") (lit "b")); [apply (plain_root (lit "a"))|]; proper. Qed.

Definition sample_calls : list fcall :=
  [Append (lit "d/x") (lit "one"); Append (lit "/a/b") (lit "B"); Append (lit "d/x") (lit "two"); Save (lit "/a/b") (lit "C")].
Example C161_contents_case : fos_ok (file_os None) /\ Forall (fun c => plain_path (fcall_path c)) sample_calls /\
  run_calls (file_os None) sample_calls ([], []) =
    (Ok tt, ([(lit "a", TDir []); (lit "d", TDir [])], [(lit "d/x", lit "onetwo"); (lit "/a/b", lit "C")])) /\
  contents_after (lit "d/x") None sample_calls = Some (lit "onetwo") /\ contents_after (lit "/a/b") None sample_calls = Some (lit "C").
Proof.
  split; [apply file_os_ok|]. split; [repeat (apply Forall_cons; [first [exact plain_dx|exact plain_ab]|]); apply Forall_nil|]. vm_compute. repeat split.
Qed.

(** what was saved is what is loaded *)
Theorem C161_load : forall (o : fos) (f f' : os_state (f_os o)) (p s : str) (ec : ecptr), fos_ok o ->
  (forall f p c, snd (f_put o f p c) = true) -> plain_path p ->
  frun o (save_string p s None) f = (Ok None, f') -> frun o (load_string p ec) f' = (Ok (s, ec), f').
Proof.
  intros o f f' p s ec ok Hput Hp R. cbn [load_string frun].
  assert (E : f_read o f' p = Some s); [|rewrite E; reflexivity].
  rewrite (calls_run o ok [Save p s] f f' (Forall_cons (Save p s) (Hp : plain_path (fcall_path (Save p s))) (Forall_nil _)) Hput) with (p := p); [|cbn [run_calls call_prog]; rewrite R; reflexivity|exact Hp|].
  - cbn [contents_after]. rewrite str_eqb_refl. reflexivity.
  - intros c [<-|[]] N. destruct (N eq_refl).
Qed.
Print Assumptions C161_load.
Example C161_load_case : exists f', frun (file_os None) (save_string (lit "d/x") (lit "text") None) ([], [(lit "d/x", lit "older text")]) = (Ok None, f') /\
  frun (file_os None) (load_string (lit "d/x") None) f' = (Ok (lit "text", None), f').
Proof. eexists. split; vm_compute; reflexivity. Qed.

(** an error is reported exactly if the file could not be opened, and then no file has changed; without an error code it
    is an exception, with one it never is; a file that is not named is never changed *)
Theorem C161_errors : forall (o : fos) (f : os_state (f_os o)) (p s : str) (ec : ecptr) (append : bool), fos_ok o -> plain_path p ->
  exists r f', frun o (if append then append_string p s ec else save_string p s ec) f = (r, f') /\
    (forall q, plain_path q -> f_other o p q -> f_read o f' q = f_read o f q) /\
    ((r = Ok ec /\ exists t u, s = t ++ u /\ f_read o f' p = Some ((if append then content (f_read o f p) else []) ++ t)) \/
     (f_read o f' p = f_read o f p /\
      match ec with None => r = Throw | Some _ => r = Ok (Some (SerModel.Err (-1) (lit "Could not open " ++ p))) end)).
Proof.
  intros o f p s ec a ok Hp. destruct (write_result o ok a p s ec f Hp) as (r & f' & R & Q & H). exists r, f'. split; [exact R|]. split; [exact Q|].
  destruct H as [[-> (n & E)]|[-> E]].
  - left. split; [reflexivity|]. exists (firstn n s), (skipn n s). split; [symmetry; apply firstn_skipn|exact E].
  - right. split; [exact E|]. destruct ec; reflexivity.
Qed.
Print Assumptions C161_errors.
Example C161_errors_case :
  frun (file_os None) (save_string (lit "d") (lit "text") (Some (SerModel.Err 0 []))) ([(lit "d", TDir [])], []) = (Ok (Some (SerModel.Err (-1) (lit "Could not open d"))), ([(lit "d", TDir [])], [])) /\
  frun (file_os None) (append_string (lit "d") (lit "text") None) ([(lit "d", TDir [])], []) = (Throw, ([(lit "d", TDir [])], [])).
Proof. vm_compute. split; reflexivity. Qed.

(** with enough space and permissions, saving makes all missing folders and never fails, unless the path names a
    directory or passes through a file *)
Theorem C161_folders : forall (o : fos) (f : os_state (f_os o)) (p s : str) (ec : ecptr) (append : bool), fos_ok o -> fos_free o ->
  os_ok (f_os o) -> os_free (f_os o) -> plain_path p -> os_isdir (f_os o) f p = false ->
  (forall d, ancestor_or_self d p -> d <> p -> os_exists (f_os o) f d = true -> os_isdir (f_os o) f d = true) ->
  exists f', frun o (if append then append_string p s ec else save_string p s ec) f = (Ok ec, f') /\
    f_read o f' p = Some ((if append then content (f_read o f p) else []) ++ s).
Proof. intros o f p s ec a ok fr dok dfree Hp D A. exact (folders_made o ok dok dfree a p s ec f fr Hp D A). Qed.
Print Assumptions C161_folders.
Example C161_folders_case : fos_ok (file_os None) /\ fos_free (file_os None) /\ os_ok (f_os (file_os None)) /\ os_free (f_os (file_os None)) /\
  plain_path (lit "/a/b") /\ frun (file_os None) (save_string (lit "/a/b") (lit "text") None) ([], []) =
    (Ok None, ([(lit "a", TDir [])], [(lit "/a/b", lit "text")])).
Proof.
  split; [apply file_os_ok|]. split; [apply file_os_free; reflexivity|]. split; [apply st_dirs_ok|]. split; [apply st_dirs_free|]. split; [apply plain_ab|].
  vm_compute. reflexivity.
Qed.

(** a text that does not fit is cut off and no error is reported, neither by exception nor by error code *)
Theorem C161_full_refuted : exists (o : fos) (f f' : os_state (f_os o)) (p s : str), fos_ok o /\ plain_path p /\
  frun o (save_string p s (Some (SerModel.Err 0 []))) f = (Ok (Some (SerModel.Err 0 [])), f') /\ frun o (save_string p s None) f = (Ok None, f') /\
  f_read o f p = Some (lit "old") /\ f_read o f' p = Some (lit "new te") /\ s = lit "new text".
Proof.
  exists (file_os (Some 6)), ([(lit "d", TDir [])], [(lit "d/x", lit "old")]), ([(lit "d", TDir [])], [(lit "d/x", lit "new te")]), (lit "d/x"), (lit "new text").
  split; [apply file_os_ok|]. split; [apply plain_dx|]. vm_compute. repeat split.
Qed.
Print Assumptions C161_full_refuted.

(** * C162: stopped at any point *)
(** a program that is stopped after any number of system calls, each byte written being one, leaves an appended file
    with what it held and a beginning of the new text *)
Theorem C162_append : forall (o : fos) (n : nat) (f : os_state (f_os o)) (p s : str) (ec : ecptr), fos_ok o -> plain_path p ->
  let f' := snd (fsteps o n (append_string p s ec) f) in
  f_read o f' p = f_read o f p \/ exists t u, s = t ++ u /\ f_read o f' p = Some (content (f_read o f p) ++ t).
Proof. intros o n f p s ec ok Hp. exact (crash o ok true p s ec f n Hp). Qed.
Print Assumptions C162_append.
Example C162_append_case : snd (fsteps (file_os None) 4 (append_string (lit "d/x") (lit "new") None) ([(lit "d", TDir [])], [(lit "d/x", lit "old")])) =
  ([(lit "d", TDir [])], [(lit "d/x", lit "oldne")]).
Proof. vm_compute. reflexivity. Qed.
(** and a saved file with what it held, or a beginning of the new text *)
Theorem C162_save : forall (o : fos) (n : nat) (f : os_state (f_os o)) (p s : str) (ec : ecptr), fos_ok o -> plain_path p ->
  let f' := snd (fsteps o n (save_string p s ec) f) in
  f_read o f' p = f_read o f p \/ exists t u, s = t ++ u /\ f_read o f' p = Some t.
Proof. intros o n f p s ec ok Hp. exact (crash o ok false p s ec f n Hp). Qed.
Print Assumptions C162_save.
Example C162_save_case : snd (fsteps (file_os None) 4 (save_string (lit "d/x") (lit "new") None) ([(lit "d", TDir [])], [(lit "d/x", lit "old")])) =
  ([(lit "d", TDir [])], [(lit "d/x", lit "ne")]).
Proof. vm_compute. reflexivity. Qed.
(** so a program that is stopped while saving can lose the old text without having written the new one *)
Theorem C162_save_refuted : exists (o : fos) (f : os_state (f_os o)) (p s : str) (n : nat), fos_ok o /\ fos_free o /\ plain_path p /\
  f_read o f p = Some (lit "old") /\ s = lit "new" /\ f_read o (snd (fsteps o n (save_string p s None) f)) p = Some [].
Proof.
  exists (file_os None), ([(lit "d", TDir [])], [(lit "d/x", lit "old")]), (lit "d/x"), (lit "new"), 2.
  split; [apply file_os_ok|]. split; [apply file_os_free; reflexivity|]. split; [apply plain_dx|]. vm_compute. repeat split.
Qed.
Print Assumptions C162_save_refuted.
(** a program that is not stopped does the same in steps as in one go *)
Theorem C162_complete : forall (o : fos) (A : Type) (x : fprog A) (f f' : os_state (f_os o)) (a : A) (n : nat),
  fsteps o n x f = (FRet a, f') -> frun o x f = (Ok a, f').
Proof. intros o A x f f' a n H. rewrite <- (fsteps_run o x f n _ _ H). reflexivity. Qed.
Print Assumptions C162_complete.
Example C162_complete_case : fsteps (file_os None) 6 (save_string (lit "d/x") (lit "new") None) ([(lit "d", TDir [])], [(lit "d/x", lit "old")]) =
  (FRet None, ([(lit "d", TDir [])], [(lit "d/x", lit "new")])).
Proof. vm_compute. reflexivity. Qed.

(** * C163: listing *)
(** find_files returns every entry whose name is included and not excluded, each once: those of the directory itself and,
    if recursive, those at most [levels] directories further down, or at any depth if [levels] is negative *)
Theorem C163_find : forall (include exclude : str -> bool) (recursive : bool) (dir : str) (es : list (str * ftree)) (levels : Z),
  dir <> [] -> (forall a, dir <> a ++ [slash]) -> sound_tree es ->
  recursive = false \/ (0 <= levels)%Z \/ (- 2 ^ 31 < levels - Z.of_nat (height (DirEntry es)))%Z ->
  exists r, find_files include exclude recursive dir es levels = Ok r /\ NoDup r /\
    forall f, In f r <-> exists depth name, found es dir depth f name /\ include name = true /\ exclude name = false /\
      (depth = 0 \/ (recursive = true /\ ((levels < 0)%Z \/ (Z.of_nat depth <= levels)%Z))).
Proof.
  intros include exclude recursive dir es levels D1 D2 Hs C. destruct (files_all include exclude recursive es dir levels (conj D1 D2) Hs) as (r & E & N & L).
  { destruct C as [C|[C|C]]; [left; exact C|right; left; exact C|right; right]. cbn [height] in C. fold (heights es) in C. lia. }
  exists r. split; [exact E|]. split; [exact N|]. intros f. rewrite L. unfold wanted, near. split; intros (k & name & F & W).
  - destruct W as [W Nr]. apply andb_prop in W. destruct W as [W1 W2]. apply negb_true_iff in W2. eauto 10.
  - destruct W as (W1 & W2 & Nr). exists k, name. rewrite W1, W2. auto.
Qed.
Print Assumptions C163_find.
Definition sample_tree : list (str * ftree) := [(lit "a.txt", FileEntry); (lit "sub", DirEntry [(lit "b.txt", FileEntry); (lit "deep", DirEntry [(lit "c.txt", FileEntry)])])].
Example C163_find_case : sound_tree sample_tree /\
  find_files (fun _ => true) (fun n => str_eqb n (lit "deep")) true (lit "/d") sample_tree (-1) = Ok [lit "/d/a.txt"; lit "/d/sub/b.txt"; lit "/d/sub/deep/c.txt"; lit "/d/sub"] /\
  find_files (fun _ => true) (fun n => str_eqb n (lit "deep")) true (lit "/d") sample_tree 1 = Ok [lit "/d/a.txt"; lit "/d/sub/b.txt"; lit "/d/sub"] /\
  find_files (fun _ => true) (fun n => str_eqb n (lit "deep")) false (lit "/d") sample_tree 1 = Ok [lit "/d/a.txt"; lit "/d/sub"].
Proof.
  split; [|vm_compute; repeat split].
  assert (Nd : forall a b : str, a <> b -> NoDup [a; b]) by (intros a b H; repeat constructor; cbn; intuition).
  constructor; [apply Nd; discriminate|cbn; intros n t [H|[H|[]]]; injection H as <- _; split; try discriminate; cbn; intuition discriminate|].
  cbn. intros n sub [H|[H|[]]]; [discriminate|]. injection H as _ <-.
  constructor; [apply Nd; discriminate|cbn; intros m t [H|[H|[]]]; injection H as <- _; split; try discriminate; cbn; intuition discriminate|].
  cbn. intros m s [H|[H|[]]]; [discriminate|]. injection H as _ <-.
  constructor; [repeat constructor; intros []|cbn; intros k t [H|[]]; injection H as <- _; split; try discriminate; cbn; intuition discriminate|].
  cbn. intros k u [H|[]]. discriminate.
Qed.
(** so it also returns directories, not only files *)
Theorem C163_files_only_refuted : exists (dir : str) (es sub : list (str * ftree)) (n : str) (r : list str), sound_tree es /\
  find_files (fun _ => true) (fun _ => false) true dir es (-1) = Ok r /\ In (n, DirEntry sub) es /\ In (dir ++ slash :: n) r.
Proof.
  exists (lit "/d"), [(lit "sub", DirEntry [])], [], (lit "sub"), [lit "/d/sub"]. split; [|split; [reflexivity|split; left; reflexivity]].
  constructor; [repeat constructor; intros []|intros n t [H|[]]; injection H as <- _; split; [cbn; intuition discriminate|discriminate]|].
  intros n sub [H|[]]. injection H as _ <-. constructor; [constructor|intros ? ? []|intros ? ? []].
Qed.
Print Assumptions C163_files_only_refuted.
