(** C59, C72, C73: making directories, finding files. *)
From Coq Require Import Ascii String List Arith.
From Verif Require Import Base Str StrSpec PathSpec PathModel FsSpec FsModel FsProofs.
Import ListNotations.

(** create_unique_directory returns one of its candidates, which did not exist before and is a directory afterwards;
    all directories stay; every earlier candidate was taken or could not be made; it throws only if that holds for all *)
Theorem C59_create_unique : forall (o : os) (folder : str) (n : nat) (f : os_state o), os_ok o ->
  exists r f', run o (create_unique_directory folder n) f = (r, f') /\
    (forall q, os_isdir o f q = true -> os_isdir o f' q = true) /\
    ((exists k, k < n /\ r = Ok (candidate folder k) /\
        os_exists o f (candidate folder k) = false /\ os_isdir o f' (candidate folder k) = true /\
        forall j, j < k -> os_isdir o f' (candidate folder j) = true \/
          exists g, (forall q, os_isdir o f q = true -> os_isdir o g q = true) /\ os_mkdir o g (candidate folder j) = (g, false)) \/
     (r = Throw /\
        forall j, j < n -> os_isdir o f' (candidate folder j) = true \/
          exists g, (forall q, os_isdir o f q = true -> os_isdir o g q = true) /\ os_mkdir o g (candidate folder j) = (g, false))).
Proof. exact (fun o folder n f ok => create_unique_assembled o ok folder n f). Qed.
Print Assumptions C59_create_unique.

(** a tree with directory d containing directory x, and a file "x (1)" *)
Definition sample : list (str * tree) := [(lit "d", TDir [(lit "x", TDir []); (lit "x (1)", TFile)])].

Example C59_create_unique_ex :
  os_ok tree_os /\
  run tree_os (create_unique_directory (lit "d/x") 10) sample =
    (Ok (lit "d/x (2)"), [(lit "d", TDir [(lit "x (2)", TDir []); (lit "x", TDir []); (lit "x (1)", TFile)])]) /\
  run tree_os (create_unique_directory (lit "d/x") 2) sample = (Throw, sample).
Proof. split; [exact tree_os_ok|]. vm_compute. repeat split. Qed.

(** with the parent directory in place and nothing else in the way, it returns the first candidate that does not exist
    and throws if all exist *)
Theorem C59_first_free : forall (o : os) (f : os_state o) (folder : str) (n : nat), os_ok o -> os_free o ->
  (exists c, proper_name c /\ (folder = c \/ folder = slash :: c \/ exists p, folder = p ++ slash :: c /\ os_isdir o f p = true)) ->
  (forall k, first_such (fun k => negb (os_exists o f (candidate folder k))) (seq 0 n) k ->
     exists f', run o (create_unique_directory folder n) f = (Ok (candidate folder k), f')) /\
  ((forall k, k < n -> os_exists o f (candidate folder k) = true) -> run o (create_unique_directory folder n) f = (Throw, f)).
Proof. exact (fun o f folder n ok free => throws_exact_assembled o ok free f folder n). Qed.
Print Assumptions C59_first_free.

Example C59_first_free_ex :
  os_free tree_os /\ proper_name (lit "x") /\ os_isdir tree_os sample (lit "d") = true /\
  first_such (fun k => negb (os_exists tree_os sample (candidate (lit "d/x") k))) (seq 0 10) 2.
Proof.
  split; [exact tree_os_free|]. split; [split; [discriminate|]; split; [repeat constructor; intros [H|H]; discriminate H|split; discriminate]|].
  split; [reflexivity|]. apply first_later; [reflexivity|]. apply first_later; [reflexivity|]. apply first_here. reflexivity.
Qed.

(** any number of simultaneous callers, in any interleaving, with others changing the file system meanwhile: each
    directory returned did not exist when all began, exists now, and no two callers get the same one *)
Theorem C59_concurrent : forall (o : os) (calls : list (str * nat)) (f f' : os_state o) (l : list (prog str)), os_ok o ->
  steps o (f, map (fun c => create_unique_directory (fst c) (snd c)) calls) (f', l) ->
  (forall i u, nth_error l i = Some (Ret u) -> os_isdir o f u = false /\ os_isdir o f' u = true) /\
  (forall i j u v, i <> j -> nth_error l i = Some (Ret u) -> nth_error l j = Some (Ret v) -> u <> v).
Proof. exact (fun o calls f f' l ok => concurrent_assembled o ok calls f l f'). Qed.
Print Assumptions C59_concurrent.

(** both callers see that x is free, the first makes it, the second goes on to "x (1)" *)
Example C59_concurrent_ex :
  steps tree_os ([], [create_unique_directory (lit "x") 5; create_unique_directory (lit "x") 5])
    ([(lit "x (1)", TDir []); (lit "x", TDir [])], [Ret (lit "x"); Ret (lit "x (1)")]).
Proof.
  eapply steps_more; [apply (step_isdir tree_os _ [] _ _ [_])|].
  eapply steps_more; [apply (step_isdir tree_os _ [_] _ _ [])|].
  eapply steps_more; [apply (step_mkdir tree_os _ [] _ _ [_] [(lit "x", TDir [])] true); reflexivity|].
  eapply steps_more; [apply (step_mkdir tree_os _ [_] _ _ [] [(lit "x", TDir [])] false); reflexivity|].
  eapply steps_more; [apply (step_isdir tree_os _ [_] _ _ [])|].
  eapply steps_more; [apply (step_mkdir tree_os _ [_] _ _ [] [(lit "x (1)", TDir []); (lit "x", TDir [])] true); reflexivity|].
  apply steps_none.
Qed.

(** create_directories makes the directory and all missing parents, if no file is in the way *)
Theorem C59_parents : forall (o : os) (p : str) (f : os_state o), os_ok o -> os_free o ->
  plain_path p -> os_isdir o f p = false ->
  (forall q, ancestor_or_self q p -> os_exists o f q = true -> os_isdir o f q = true) ->
  exists f', run o (create_directories (S (length p)) p) f = (Ok true, f') /\
    (forall q, os_isdir o f q = true -> os_isdir o f' q = true) /\
    forall q, ancestor_or_self q p -> plain_path q -> os_isdir o f' q = true.
Proof. exact (fun o p f ok free => parents_assembled o ok free p f). Qed.
Print Assumptions C59_parents.

Example C59_parents_ex :
  run tree_os (create_directories 20 (lit "/d/y/z")) sample =
    (Ok true, [(lit "d", TDir [(lit "y", TDir [(lit "z", TDir [])]); (lit "x", TDir []); (lit "x (1)", TFile)])]) /\
  run tree_os (create_directories 20 (lit "a/b")) [] = (Ok true, [(lit "a", TDir [(lit "b", TDir [])])]).
Proof. vm_compute. split; reflexivity. Qed.

(** create_directories of a directory that is already there reports failure *)
Theorem C59_existing_refuted : exists (o : os) (f : os_state o) (p : str),
  os_ok o /\ os_free o /\ os_isdir o f p = true /\ run o (create_directories (S (length p)) p) f = (Ok false, f).
Proof. exists tree_os, sample, (lit "d/x"). split; [exact tree_os_ok|]. split; [exact tree_os_free|]. split; reflexivity. Qed.
Print Assumptions C59_existing_refuted.

(** find_unique_directory returns the first candidate that is not a directory, and throws only if all are *)
Theorem C59_find_unique : forall (o : os) (folder : str) (n : nat) (f : os_state o),
  (forall k, first_such (fun k => negb (os_isdir o f (candidate folder k))) (seq 0 n) k ->
     run o (find_unique_directory folder n) f = (Ok (candidate folder k), f)) /\
  ((forall k, k < n -> os_isdir o f (candidate folder k) = true) -> run o (find_unique_directory folder n) f = (Throw, f)).
Proof. exact find_unique_assembled. Qed.
Print Assumptions C59_find_unique.

Example C59_find_unique_ex :
  run tree_os (find_unique_directory (lit "d/y") 3) sample = (Ok (lit "d/y"), sample) /\
  run tree_os (find_unique_directory (lit "d/x") 1) sample = (Throw, sample).
Proof. split; reflexivity. Qed.

(** its result may be the name of an existing file *)
Theorem C59_find_unique_refuted : exists (o : os) (f : os_state o) (folder u : str),
  os_ok o /\ run o (find_unique_directory folder 10) f = (Ok u, f) /\ os_exists o f u = true.
Proof. exists tree_os, sample, (lit "d/x"), (lit "d/x (1)"). split; [exact tree_os_ok|]. split; reflexivity. Qed.
Print Assumptions C59_find_unique_refuted.

(** find_file returns the first existing of: the path itself if absolute, the path under the search folder, then the
    same for the next path; it throws exactly if none exists *)
Theorem C72_find_file : forall (file_exists : str -> bool) (here : str) (l : list str) (ps : list (list str)),
  Forall2 (find_places here) l ps ->
  (forall r, find_file file_exists here l = Ok r <-> first_such file_exists (concat ps) r) /\
  (find_file file_exists here l = Throw <-> Forall (fun p => file_exists p = false) (concat ps)).
Proof. exact find_file_assembled. Qed.
Print Assumptions C72_find_file.

(** try_find_file likewise, but an absolute path is not tried under the search folder *)
Theorem C72_try_find_file : forall (file_exists : str -> bool) (here : str) (l : list str) (ps : list (list str)),
  Forall2 (try_find_places here) l ps ->
  (forall r, try_find_file file_exists here l = Ok (Some r) <-> first_such file_exists (concat ps) r) /\
  (try_find_file file_exists here l = Ok None <-> Forall (fun p => file_exists p = false) (concat ps)).
Proof. exact try_find_file_assembled. Qed.
Print Assumptions C72_try_find_file.

Example C72_ex :
  find_file (fun p => str_eqb p (lit "h/b") || str_eqb p (lit "h/c"))%bool (lit "h") [lit "a"; lit "/b"; lit "c"] = Ok (lit "h/b") /\
  try_find_file (fun p => str_eqb p (lit "h/b") || str_eqb p (lit "h/c"))%bool (lit "h") [lit "a"; lit "/b"; lit "c"] = Ok (Some (lit "h/c")).
Proof. split; reflexivity. Qed.

(** so the two search functions disagree *)
Theorem C72_agree_refuted : exists (file_exists : str -> bool) (here : str) (l : list str) (r : str),
  find_file file_exists here l = Ok r /\ try_find_file file_exists here l = Ok None.
Proof. exists (fun p => str_eqb p (lit "h/b")), (lit "h"), [lit "/b"], (lit "h/b"). split; reflexivity. Qed.
Print Assumptions C72_agree_refuted.

(** try_find_file with search folders: an existing absolute path is returned; of a missing one the file name is looked
    for in the folders in order; if the file name is itself absolute and missing, the call never ends *)
Theorem C73_search : forall (file_exists : str -> bool) (file name : str) (dirs ps : list str) (fuel : nat),
  (exists d, path_parts file d name) -> Forall2 (fun d p => under d name p) dirs ps -> 3 <= fuel ->
  (absolute file -> file_exists file = true -> try_find_file_in file_exists fuel file dirs = Some (Ok (Some file))) /\
  (~ absolute file -> try_find_file_in file_exists fuel file dirs = Some (search_dirs file_exists file dirs)) /\
  (absolute file -> file_exists file = false -> ~ absolute name ->
     exists r, try_find_file_in file_exists fuel file dirs = Some (Ok r) /\
       (forall x, r = Some x <-> first_such file_exists ps x) /\ (r = None <-> Forall (fun p => file_exists p = false) ps)) /\
  (absolute file -> file_exists file = false -> absolute name -> file_exists name = true ->
     try_find_file_in file_exists fuel file dirs = Some (Ok (Some name))) /\
  (absolute file -> file_exists file = false -> absolute name -> file_exists name = false ->
     forall n, try_find_file_in file_exists n file dirs = None).
Proof. exact try_find_in_assembled. Qed.
Print Assumptions C73_search.

Theorem C73_search_relative : forall (file_exists : str -> bool) (file : str) (dirs ps : list str),
  Forall2 (fun d p => under d file p) dirs ps ->
  (forall r, search_dirs file_exists file dirs = Ok (Some r) <-> first_such file_exists ps r) /\
  (search_dirs file_exists file dirs = Ok None <-> Forall (fun p => file_exists p = false) ps).
Proof. exact search_dirs_ok. Qed.
Print Assumptions C73_search_relative.

Example C73_search_ex :
  try_find_file_in (fun p => str_eqb p (lit "e/b")) 3 (lit "/a/b") [lit "d"; lit "e/"] = Some (Ok (Some (lit "e/b"))) /\
  try_find_file_in (fun p => str_eqb p (lit "e/a/b")) 3 (lit "a/b") [lit "d"; lit "e/"] = Some (Ok (Some (lit "e/a/b"))).
Proof. split; reflexivity. Qed.

(** looking for a missing file called ~x does not return *)
Theorem C73_terminates_refuted : exists (file_exists : str -> bool) (file : str) (dirs : list str),
  forall fuel, try_find_file_in file_exists fuel file dirs = None.
Proof. exists (fun _ => false), (lit "~x"), []. induction fuel as [|n IH]; [reflexivity|exact IH]. Qed.
Print Assumptions C73_terminates_refuted.
