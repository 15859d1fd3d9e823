(** Theorems about dynarray. *)
From Coq Require Import List Arith Bool Lia.
From Verif Require Import Base ArrSpec ArrModel ArrProofs.
Import ListNotations.

(** C100: variables of type dynarray behave as values: in any program that does not assign a variable to itself and uses moved-from variables only to give them a new value or destroy them, nothing goes wrong, every variable shows the list that copying, moving, resizing, clearing, filling and writing give it (so copies are independent), all memory in use belongs to a variable, and none is left when all variables are gone *)
Theorem C100_values_partial : forall T (junk : T) p vs, effects nothing p = Some vs -> exists s, run junk start p = Ok s /\
  (forall i l, vs i = Holds l -> shows s i l) /\
  (forall b l, nth_error (mem s) b = Some (Some l) -> exists i, vs i = Holds l) /\
  ((forall i, vs i = Absent) -> forall b l, nth_error (mem s) b <> Some (Some l)).
Proof. exact @program_assembled. Qed.
Print Assumptions C100_values_partial.
(** C100: == compares the lists *)
Theorem C100_equal : forall T (junk : T) (eqb : T -> T -> bool), (forall x y, eqb x y = true <-> x = y) -> forall p vs i j la lb, effects nothing p = Some vs -> vs i = Holds la -> vs j = Holds lb ->
  exists s a b r, run junk start p = Ok s /\ vars s i = Some a /\ vars s j = Some b /\ equal eqb s a b = Ok r /\ (r = true <-> la = lb).
Proof. exact @equal_assembled. Qed.
Print Assumptions C100_equal.
Example C100_case : let p := [New 0 3 5; NewCopy 1 0; SetAt 1 1 7; NewMove 2 0; Assign 0 1; MoveAssign 1 2; Resize 2 2 9; Fill 0 4; Destroy 1; Clear 2] in
  exists vs, effects nothing p = Some vs /\ vs 0 = Holds [4; 4; 4] /\ vs 1 = Absent /\ vs 2 = Holds [] /\ exists s, run 0 start p = Ok s /\ mem s = [None; None; Some [4; 4; 4]; None].
Proof. eexists. split; [reflexivity|]. repeat split. eexists. split; reflexivity. Qed.
Example C100_copy_case : exists vs, effects nothing [New 0 3 5; NewCopy 1 0; SetAt 1 1 7] = Some vs /\ vs 0 = Holds [5; 5; 5] /\ vs 1 = Holds [5; 7; 5].
Proof. eexists. split; reflexivity || split; reflexivity. Qed.

(** C100: assigning a variable to itself always goes wrong *)
Theorem C100_self_assign_refuted : forall T (junk : T) p vs i l, effects nothing p = Some vs -> vs i = Holds l -> run junk start (p ++ [Assign i i]) = UB.
Proof. exact @self_assembled. Qed.
Print Assumptions C100_self_assign_refuted.
(** C100: a moved-from variable is not empty: its size is undefined, and copying it goes wrong *)
Theorem C100_moved_refuted : exists p vs s a, effects nothing p = Some vs /\ vs 0 = Moved /\ run 0 start p = Ok s /\ vars s 0 = Some a /\ empty a = false /\ size a = UB /\ run 0 start (p ++ [NewCopy 2 0]) = UB.
Proof. exists [New 0 3 5; NewMove 1 0]. do 3 eexists. repeat split; reflexivity. Qed.
Print Assumptions C100_moved_refuted.
