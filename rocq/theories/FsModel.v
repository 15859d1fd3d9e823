(** Model of /repo/xo/filesystem/filesystem.cpp: finding files and making directories. *)
From Coq Require Import Ascii String List Arith ZArith Bool.
From Verif Require Import Base Str StrModel CastModel PathModel FsSpec.
Import ListNotations.

(** A program that talks to the operating system: it returns, throws, exceeds its fuel, or makes a system call and
    continues with the answer. *)
Inductive prog (A : Type) : Type :=
| Ret (a : A)
| Fail
| Stuck
| IsDir (p : str) (k : bool -> prog A)
| MkDir (p : str) (k : bool -> prog A).
Arguments Ret {A} a.
Arguments Fail {A}.
Arguments Stuck {A}.
Arguments IsDir {A} p k.
Arguments MkDir {A} p k.

Fixpoint pbind {A B} (x : prog A) (f : A -> prog B) : prog B :=
  match x with
  | Ret a => f a
  | Fail => Fail
  | Stuck => Stuck
  | IsDir p k => IsDir p (fun b => pbind (k b) f)
  | MkDir p k => MkDir p (fun b => pbind (k b) f)
  end.

Definition plift {A B} (o : outcome A) (f : A -> prog B) : prog B :=
  match o with Ok a => f a | Throw => Fail | UB => Stuck end.

(** filesystem.cpp 149-163 (POSIX branch): directory_exists is one stat call, [IsDir]
    filesystem.cpp 222-233 (POSIX branch): the result of the recursive call is ignored.  [fuel] bounds the recursion. *)
Fixpoint create_directories (fuel : nat) (folder : str) : prog bool :=
  match fuel with
  | O => Stuck
  | S n =>
    let make := MkDir folder (fun ok => Ret ok) in
    if has_parent_path folder then
      plift (parent_path folder) (fun parent =>
        IsDir parent (fun there => if there then make else pbind (create_directories n parent) (fun _ => make)))
    else make
  end.

(** stringf( " (%d)", i ) appended, filesystem.cpp 240-241 and 254-255 *)
Definition numbered (folder : str) (i : nat) : str :=
  if 0 <? i then folder ++ lit " (" ++ to_string (Z.of_nat i) ++ lit ")" else folder.

(** filesystem.cpp 235-246, the iterations from i on; max_attempts - i iterations remain *)
Fixpoint find_unique_loop (folder : str) (i left : nat) : prog str :=
  match left with
  | O => Fail
  | S n => IsDir (numbered folder i) (fun there => if there then find_unique_loop folder (S i) n else Ret (numbered folder i))
  end.
Definition find_unique_directory (folder : str) (max_attempts : nat) : prog str := find_unique_loop folder 0 max_attempts.

(** filesystem.cpp 248-263; the recursion of create_directories is never deeper than the path is long *)
Fixpoint create_unique_loop (folder : str) (i left : nat) : prog str :=
  match left with
  | O => Fail
  | S n =>
    let u := numbered folder i in
    IsDir u (fun there =>
      if there then create_unique_loop folder (S i) n
      else pbind (create_directories (S (length u)) u) (fun ok => if ok then Ret u else create_unique_loop folder (S i) n))
  end.
Definition create_unique_directory (folder : str) (max_attempts : nat) : prog str := create_unique_loop folder 0 max_attempts.

(** running a program without interference *)
Fixpoint run {A} (o : os) (x : prog A) (f : os_state o) : outcome A * os_state o :=
  match x with
  | Ret a => (Ok a, f)
  | Fail => (Throw, f)
  | Stuck => (UB, f)
  | IsDir p k => run o (k (os_isdir o f p)) f
  | MkDir p k => let '(f', ok) := os_mkdir o f p in run o (k ok) f'
  end.

(** several programs running at the same time: in each step one of them makes its next system call, or someone else
    changes the file system without removing a directory *)
Definition system (o : os) : Type := (os_state o * list (prog str))%type.

Inductive step (o : os) : system o -> system o -> Prop :=
| step_isdir f l1 p k l2 :
    step o (f, l1 ++ IsDir p k :: l2) (f, l1 ++ k (os_isdir o f p) :: l2)
| step_mkdir f l1 p k l2 f' ok :
    os_mkdir o f p = (f', ok) -> step o (f, l1 ++ MkDir p k :: l2) (f', l1 ++ k ok :: l2)
| step_other f f' l :
    (forall q, os_isdir o f q = true -> os_isdir o f' q = true) -> step o (f, l) (f', l).

Inductive steps (o : os) : system o -> system o -> Prop :=
| steps_none s : steps o s s
| steps_more s s1 s2 : step o s s1 -> steps o s1 s2 -> steps o s s2.

(** ** Finding files.  [file_exists] is the file system during the call, [here] is current_find_file_path(). *)
Section Find.
  Context (file_exists : str -> bool) (here : str).

  (** filesystem.cpp 175-185 *)
  Fixpoint find_file (l : list str) : outcome str :=
    match l with
    | [] => Throw
    | f :: t =>
      if is_absolute f && file_exists f then Ok f
      else do full <- join_path here f; if file_exists full then Ok full else find_file t
    end.

  (** filesystem.cpp 187-202 *)
  Fixpoint try_find_file (l : list str) : outcome (option str) :=
    match l with
    | [] => Ok None
    | f :: t =>
      if is_absolute f then (if file_exists f then Ok (Some f) else try_find_file t)
      else do full <- join_path here f; if file_exists full then Ok (Some full) else try_find_file t
    end.

  (** filesystem.cpp 213-219 *)
  Fixpoint search_dirs (file : str) (dirs : list str) : outcome (option str) :=
    match dirs with
    | [] => Ok None
    | d :: t => do full <- join_path d file; if file_exists full then Ok (Some full) else search_dirs file t
    end.

  (** filesystem.cpp 204-220; [None]: not finished after [fuel] nested calls *)
  Fixpoint try_find_file_in (fuel : nat) (file : str) (dirs : list str) : option (outcome (option str)) :=
    match fuel with
    | O => None
    | S n =>
      if is_absolute file then
        if file_exists file then Some (Ok (Some file))
        else match filename file with
             | Ok name => try_find_file_in n name dirs
             | Throw => Some Throw
             | UB => Some UB
             end
      else Some (search_dirs file dirs)
    end.
End Find.
