(** Model of /repo/xo/filesystem/filesystem.cpp: whole files as strings, and listing directories. *)
From Coq Require Import Ascii String List Arith ZArith Bool.
From Verif Require Import Base Str StrModel PathModel FsSpec FsModel FilSpec.
From Verif Require SerModel.
Import ListNotations.
Notation ecptr := SerModel.ecptr.

(** A program that talks to the operating system, with files; see [FsModel.prog].  Every byte written is a system call of its
    own, so that a program can be stopped between any two bytes. *)
Inductive fprog (A : Type) : Type :=
| FRet (a : A)
| FFail
| FStuck
| FIsDir (p : str) (k : bool -> fprog A)
| FMkDir (p : str) (k : bool -> fprog A)
| FRead (p : str) (k : option str -> fprog A)
| FTrunc (p : str) (k : bool -> fprog A)
| FApp (p : str) (k : bool -> fprog A)
| FPut (p : str) (c : ascii) (k : bool -> fprog A).
Arguments FRet {A} a.
Arguments FFail {A}.
Arguments FStuck {A}.
Arguments FIsDir {A} p k.
Arguments FMkDir {A} p k.
Arguments FRead {A} p k.
Arguments FTrunc {A} p k.
Arguments FApp {A} p k.
Arguments FPut {A} p c k.

(** a program of [FsModel], then [k] *)
Fixpoint flift {A B} (x : prog A) (k : A -> fprog B) : fprog B :=
  match x with
  | Ret a => k a
  | Fail => FFail
  | Stuck => FStuck
  | IsDir p c => FIsDir p (fun b => flift (c b) k)
  | MkDir p c => FMkDir p (fun b => flift (c b) k)
  end.
Definition fout {A B} (x : outcome A) (k : A -> fprog B) : fprog B :=
  match x with Ok a => k a | Throw => FFail | UB => FStuck end.

(** ofstr << s: stops at the first byte that cannot be written; the state of the stream is not looked at afterwards *)
Fixpoint put_all {A} (p s : str) (k : fprog A) : fprog A :=
  match s with
  | [] => k
  | c :: r => FPut p c (fun ok => if ok then put_all p r k else k)
  end.
Definition could_not_open (p : str) : str := lit "Could not open " ++ p.

(** filesystem.cpp 265-276; the result is the text and the error code *)
Definition load_string (p : str) (ec : ecptr) : fprog (str * ecptr) :=
  FRead p (fun r =>
    match r with
    | None => fout (SerModel.set_error_or_throw ec (could_not_open p)) (fun ec => FRet ([], ec))
    | Some t => FRet (t, ec)
    end).
(** filesystem.cpp 278-285; the result of create_directories is ignored *)
Definition save_string (p s : str) (ec : ecptr) : fprog ecptr :=
  fout (parent_path p) (fun d => flift (create_directories (S (length d)) d) (fun _ =>
    FTrunc p (fun ok => if ok then put_all p s (FRet ec) else fout (SerModel.set_error_or_throw ec (could_not_open p)) (fun ec => FRet ec)))).
(** filesystem.cpp 287-294 *)
Definition append_string (p s : str) (ec : ecptr) : fprog ecptr :=
  fout (parent_path p) (fun d => flift (create_directories (S (length d)) d) (fun _ =>
    FApp p (fun ok => if ok then put_all p s (FRet ec) else fout (SerModel.set_error_or_throw ec (could_not_open p)) (fun ec => FRet ec)))).

(** one system call *)
Definition fstep {A} (o : fos) (x : fprog A) (f : os_state (f_os o)) : fprog A * os_state (f_os o) :=
  match x with
  | FRet _ | FFail | FStuck => (x, f)
  | FIsDir p k => (k (os_isdir (f_os o) f p), f)
  | FMkDir p k => let (f', b) := os_mkdir (f_os o) f p in (k b, f')
  | FRead p k => (k (f_read o f p), f)
  | FTrunc p k => let (f', b) := f_trunc o f p in (k b, f')
  | FApp p k => let (f', b) := f_app o f p in (k b, f')
  | FPut p c k => let (f', b) := f_put o f p c in (k b, f')
  end.
(** the first [n] system calls; a process that is stopped there leaves the state behind *)
Fixpoint fsteps {A} (o : fos) (n : nat) (x : fprog A) (f : os_state (f_os o)) : fprog A * os_state (f_os o) :=
  match n with O => (x, f) | S n => let (x', f') := fstep o x f in fsteps o n x' f' end.
(** until the end *)
Fixpoint frun {A} (o : fos) (x : fprog A) (f : os_state (f_os o)) : outcome A * os_state (f_os o) :=
  match x with
  | FRet a => (Ok a, f)
  | FFail => (Throw, f)
  | FStuck => (UB, f)
  | FIsDir p k => frun o (k (os_isdir (f_os o) f p)) f
  | FMkDir p k => let (f', b) := os_mkdir (f_os o) f p in frun o (k b) f'
  | FRead p k => frun o (k (f_read o f p)) f
  | FTrunc p k => let (f', b) := f_trunc o f p in frun o (k b) f'
  | FApp p k => let (f', b) := f_app o f p in frun o (k b) f'
  | FPut p c k => let (f', b) := f_put o f p c in frun o (k b) f'
  end.
Definition call_prog (c : fcall) : fprog ecptr :=
  match c with Save p s => save_string p s None | Append p s => append_string p s None end.
Fixpoint run_calls (o : fos) (h : list fcall) (f : os_state (f_os o)) : outcome unit * os_state (f_os o) :=
  match h with
  | [] => (Ok tt, f)
  | c :: r => match frun o (call_prog c) f with
              | (Ok _, f') => run_calls o r f'
              | (Throw, f') => (Throw, f')
              | (UB, f') => (UB, f')
              end
  end.

(** * find_files, filesystem.cpp 330-342 and 344-356.  The directories form a tree (no links that lead back up) and do not change meanwhile. *)
Section Find.
  Context (include exclude : str -> bool) (recursive : bool).
  (** fs_path.string(): directory_iterator appends the name, with a separator unless the directory ends in one *)
  Definition entry_path (dir name : str) : str :=
    match rev dir with
    | [] => name
    | x :: _ => if Ascii.eqb x "/"%char then dir ++ name else dir ++ "/"%char :: name
    end.
  (** [levels] is recurse_levels, an int; below -2^31 it is undefined (levels is lowered once per level) *)
  Fixpoint find_entry (dir : str) (levels : Z) (name : str) (t : ftree) : outcome (list str) :=
    let fs_path := entry_path dir name in
    do below <- (match t with
      | DirEntry es =>
        if recursive && negb (levels =? 0)%Z then
          if (levels =? - 2 ^ 31)%Z then UB
          else (fix go (es : list (str * ftree)) : outcome (list str) :=
            match es with
            | [] => Ok []
            | (n, s) :: r => do a <- find_entry fs_path (levels - 1) n s; do b <- go r; Ok (a ++ b)
            end) es
        else Ok []
      | FileEntry => Ok []
      end);
    Ok (below ++ if include name && negb (exclude name) then [fs_path] else []).
  Fixpoint find_files (dir : str) (es : list (str * ftree)) (levels : Z) : outcome (list str) :=
    match es with
    | [] => Ok []
    | (n, s) :: r => do a <- find_entry dir levels n s; do b <- find_files dir r levels; Ok (a ++ b)
    end.
End Find.
