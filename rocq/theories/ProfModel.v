(** Model of /repo/xo/system/profiler.h and profiler.cpp (without XO_PROFILER_MEASURE_OVERHEAD). *)
From Coq Require Import List ZArith Bool.
From Verif Require Import Base ProfSpec.
Import ListNotations.
Local Open Scope Z_scope.

(** profiler.h 28-41; the id of a section is its position; [None] is no_index.  Names are pointers and are compared as such *)
Record section := Sec { s_name : nat; s_parent : option nat; s_total : Z; s_epoch : Z; s_count : nat }.
(** profiler.h 58-61; current_section_ as a position *)
Record profiler := Prof { p_sections : list section; p_current : option nat; p_enabled : bool }.
Definition prof_init : profiler := Prof [] None false.

(** profiler.cpp 99-103 find_section: the first section after the parent that has this name and parent *)
Fixpoint find_from (l : list section) (i : nat) (n p : nat) : option nat :=
  match l with
  | [] => None
  | s :: r => if (s_name s =? n)%nat && match s_parent s with Some q => (q =? p)%nat | None => false end then Some i else find_from r (S i) n p
  end.
Definition find_section (l : list section) (n p : nat) : option nat := find_from (skipn (S p) l) (S p) n p.
(** 105-109 add_section *)
Definition add_section (l : list section) (n : nat) (p : option nat) : list section * nat := (l ++ [Sec n p 0 0 0], length l).
(** 111-116 acquire_section *)
Definition acquire_section (l : list section) (n p : nat) : list section * nat :=
  match find_section l n p with Some i => (l, i) | None => add_section l n (Some p) end.
Definition set_epoch (s : section) (t : Z) : section := Sec (s_name s) (s_parent s) (s_total s) t (s_count s).

(** 32-43 start, at clock reading [t]; what init_overhead_estimate puts into the sections is cleared (39) *)
Definition prof_start (p : profiler) (label : nat) (t : Z) : outcome profiler :=
  if p_enabled p || match p_current p with Some _ => true | None => false end then Throw
  else let (l, i) := add_section [] label None in
    do s <- vec_get l i; do l' <- vec_set l i (set_epoch s t); Ok (Prof l' (Some i) true).
(** 45-59 stop *)
Definition prof_stop (p : profiler) (t : Z) : outcome profiler :=
  match p_sections p with
  | [] => if p_enabled p then UB else Throw
  | s :: r =>
    if negb (p_enabled p) || negb match p_current p with Some i => (i =? 0)%nat | None => false end then Throw
    else Ok (Prof (Sec (s_name s) (s_parent s) (t - s_epoch s) (s_epoch s) (S (s_count s)) :: r) None false)
  end.
(** 61-71 start_section *)
Definition start_section (p : profiler) (n : nat) (t : Z) : outcome profiler :=
  match p_current p with
  | None => UB
  | Some c =>
    let (l, i) := acquire_section (p_sections p) n c in
    do s <- vec_get l i; do l' <- vec_set l i (set_epoch s t); Ok (Prof l' (Some i) (p_enabled p))
  end.
(** 73-91 end_section *)
Definition end_section (p : profiler) (t : Z) : outcome profiler :=
  match p_current p with
  | None => UB
  | Some i =>
    do s <- vec_get (p_sections p) i;
    match s_parent s with
    | None => UB
    | Some q =>
      do l' <- vec_set (p_sections p) i (Sec (s_name s) (s_parent s) (s_total s + (t - s_epoch s)) (s_epoch s) (S (s_count s)));
      Ok (Prof l' (Some q) (p_enabled p))
    end
  end.
Definition prof_step (p : profiler) (op : prof_op) : outcome profiler :=
  match op with Enter n c => start_section p n c | Leave c => end_section p c end.
Fixpoint prof_run (p : profiler) (ops : list prof_op) : outcome profiler :=
  match ops with [] => Ok p | op :: r => do p' <- prof_step p op; prof_run p' r end.

(** 172-179 exclusive_time *)
Definition exclusive_time (l : list section) (i : nat) (s : section) : Z :=
  fold_left (fun t cs => match s_parent cs with Some q => if (q =? i)%nat then t - s_total cs else t | None => t end) l (s_total s).

(** 126-134 report, up to the text: stops if enabled, then needs a root section *)
Definition prof_report_root (p : profiler) (t : Z) : outcome section :=
  do p' <- (if p_enabled p then prof_stop p t else Ok p); vec_get (p_sections p') 0.

(** the names on the way from the root to section [i] *)
Inductive call_path (l : list section) : nat -> list nat -> Prop :=
| path_root s : nth_error l 0 = Some s -> call_path l 0 []
| path_child i s p q : nth_error l i = Some s -> s_parent s = Some p -> call_path l p q -> call_path l i (q ++ [s_name s]).

(** a measurement: start, the calls, stop *)
Definition prof_session (p : profiler) (label : nat) (t0 : Z) (ops : list prof_op) (t1 : Z) : outcome profiler :=
  do p0 <- prof_start p label t0; do p1 <- prof_run p0 ops; prof_stop p1 t1.
