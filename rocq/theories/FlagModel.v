(** Model of /repo/xo/container/flag_set.h with its default 64-bit unsigned storage (line 10).
    The overloads taking the flag as a template argument have the same bodies. *)
From Coq Require Import List Arith Bool NArith.
From Verif Require Import Base FlagSpec.
Import ListNotations.
Local Open Scope N_scope.

Definition width : nat := 64.

(** flag_set.h 86: shifting by the width or more is undefined *)
Definition storage_bit (i : nat) : outcome N :=
  if (i <? width)%nat then Ok (N.shiftl 1 (N.of_nat i)) else UB.
(** flag_set.h 87 *)
Definition storage_bit_val (i : nat) (v : bool) : outcome N :=
  if (i <? width)%nat then Ok (N.shiftl (if v then 1 else 0) (N.of_nat i)) else UB.

(** flag_set.h 21-29 *)
Definition fs_get (d : N) (i : nat) : outcome bool :=
  do b <- storage_bit i; Ok (negb (N.land d b =? 0)).
(** flag_set.h 30-37 *)
Definition fs_set_to (d : N) (i : nat) (v : bool) : outcome N :=
  do b <- storage_bit i; do c <- storage_bit_val i v;
  Ok (N.lor (N.land d (N.lnot b (N.of_nat width))) c).
(** flag_set.h 38-45 *)
Definition fs_set (d : N) (i : nat) : outcome N := do b <- storage_bit i; Ok (N.lor d b).
(** flag_set.h 46-49 *)
Definition fs_clear (d : N) (i : nat) : outcome N :=
  do b <- storage_bit i; Ok (N.land d (N.lnot b (N.of_nat width))).
(** flag_set.h 50-57 *)
Definition fs_toggle (d : N) (i : nat) : outcome N := do g <- fs_get d i; fs_set_to d i (negb g).
(** flag_set.h 58-61 *)
Fixpoint fs_set_list (d : N) (l : list nat) : outcome N :=
  match l with [] => Ok d | f :: t => do d' <- fs_set d f; fs_set_list d' t end.
(** flag_set.h 66-69 *)
Fixpoint fs_set_list_to (d : N) (l : list nat) (v : bool) : outcome N :=
  match l with [] => Ok d | f :: t => do d' <- fs_set_to d f v; fs_set_list_to d' t v end.
(** flag_set.h 70-74 *)
Fixpoint fs_any_of (d : N) (l : list nat) : outcome bool :=
  match l with [] => Ok false | f :: t => do g <- fs_get d f; if (g : bool) then Ok true else fs_any_of d t end.
(** flag_set.h 75-80 *)
Fixpoint fs_count_loop (d : N) (l : list nat) (c : nat) : outcome nat :=
  match l with [] => Ok c | f :: t => do g <- fs_get d f; fs_count_loop d t (c + (if (g : bool) then 1 else 0))%nat end.
Definition fs_count (d : N) (l : list nat) : outcome nat := fs_count_loop d l 0.
(** flag_set.h 82 *)
Definition fs_any (d : N) : bool := negb (d =? 0).
(** flag_set.h 13, 15, 16 *)
Definition fs_empty : N := 0.
Definition fs_of_list (l : list nat) : outcome N := fs_set_list 0 l.
Definition fs_of_flag (i : nat) : outcome N := storage_bit i.

Definition fs_call (d : N) (o : flag_op) : outcome N :=
  match o with
  | FSet i => fs_set d i
  | FSetTo i v => fs_set_to d i v
  | FClear i => fs_clear d i
  | FToggle i => fs_toggle d i
  | FSetList l => fs_set_list d l
  | FSetListTo l v => fs_set_list_to d l v
  | FClearAll => Ok 0
  end.
Fixpoint fs_run (d : N) (ops : list flag_op) : outcome N :=
  match ops with [] => Ok d | o :: t => do d' <- fs_call d o; fs_run d' t end.
