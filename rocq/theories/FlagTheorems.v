(** C13: flag_set. *)
From Coq Require Import List Arith Bool NArith.
From Verif Require Import Base FlagSpec FlagModel FlagProofs.
Import ListNotations.

(** After any operations, on flags below 64, starting from any stored value: every flag is what the
    operations say, the other observers agree, and the stored value is determined by the flags. *)
Theorem C13_flag_set (d : N) (ops : list flag_op) :
  (d < 2 ^ 64)%N -> Forall (fun o => Forall (fun i => i < 64) (op_flags o)) ops ->
  exists d', fs_run d ops = Ok d' /\ (d' < 2 ^ 64)%N /\
    let m := flags_after ops (fun f => N.testbit d (N.of_nat f)) in
    (forall f, f < 64 -> fs_get d' f = Ok (m f)) /\
    (forall f, f < 64 -> N.testbit d' (N.of_nat f) = m f) /\
    (fs_any d' = true <-> exists f, f < 64 /\ m f = true) /\
    (forall l, Forall (fun i => i < 64) l -> fs_any_of d' l = Ok (existsb m l) /\ fs_count d' l = Ok (length (filter m l))) /\
    (forall d2, (d2 < 2 ^ 64)%N -> (forall f, f < 64 -> fs_get d2 f = fs_get d' f) -> d2 = d').
Proof. exact (flag_assembled d ops). Qed.
Print Assumptions C13_flag_set.

Example C13_flag_set_ex :
  let ops := [FSetList [0; 5; 63]; FToggle 5; FSetTo 7 true; FClear 0; FToggle 3] in
  Forall (fun o => Forall (fun i => i < 64) (op_flags o)) ops /\
  fs_run fs_empty ops = Ok (2 ^ 63 + 2 ^ 7 + 2 ^ 3)%N.
Proof. split; [repeat constructor|vm_compute; reflexivity]. Qed.

(** C13: the constructors from a list and from a single flag are the same as setting those flags. *)
Theorem C13_constructors (l : list nat) (i : nat) :
  fs_of_list l = fs_run fs_empty [FSetList l] /\ fs_of_flag i = fs_run fs_empty [FSet i].
Proof. exact (conj (of_list_run l) (of_flag_run i)). Qed.
Print Assumptions C13_constructors.

Example C13_constructors_ex : fs_of_list [1; 4] = Ok 18%N /\ fs_of_flag 4 = Ok 16%N.
Proof. vm_compute. split; reflexivity. Qed.
