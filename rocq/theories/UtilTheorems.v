(** C54, C55, C56, C61, C76, C77, C78: hash, enum and date text, optional, stop tokens, side names, integer ranges, result. *)
From Coq Require Import Ascii String List Arith Bool NArith ZArith Lia.
From Verif Require Import Base Str StrSpec StrModel CastSpec CastModel UtilSpec UtilModel UtilProofs.
Import ListNotations.

(** C54: the run time and compile time variants agree on every string, are FNV-1a for 7-bit characters, and otherwise FNV-1a of the sign-extended characters *)
Theorem C54_hash : forall s, ~ In nul s ->
  hash_string s = hash_literal s /\ hash_cstr s = hash_literal s /\ ((forall c, In c s -> (octet c < 128)%N) -> hash_literal s = fnv1a (map octet s)) /\
  hash_literal s = fnv1a (map (fun c => if (octet c <? 128)%N then octet c else (octet c + (2 ^ 64 - 256))%N) s).
Proof. exact hash_assembled. Qed.
Print Assumptions C54_hash.
(* published FNV-1a test vectors *)
Example C54_hash_case : ~ In nul (lit "foobar") /\ (forall c, In c (lit "foobar") -> (octet c < 128)%N) /\ hash_string (lit "foobar") = 0x85944171f73967e8%N /\ hash_literal (lit "a") = 0xaf63dc4c8601ec8c%N.
Proof.
  split; [cbn; intuition discriminate|]. split; [|split; vm_compute; reflexivity]. intros c Hc. cbn in Hc. repeat (destruct Hc as [<-|Hc]; [reflexivity|]). contradiction.
Qed.

(** strings that differ in one character have different hashes *)
Theorem C54_one_character : forall a c d b, ~ In nul (a ++ c :: d :: b) -> c <> d -> hash_string (a ++ c :: b) <> hash_string (a ++ d :: b).
Proof. exact hash_one_char_assembled. Qed.
Print Assumptions C54_one_character.
Example C54_one_character_case : ~ In nul (lit "na" ++ "m"%char :: "n"%char :: lit "e") /\ "m"%char <> "n"%char /\ hash_string (lit "name") <> hash_string (lit "nane").
Proof. split; [cbn; intuition discriminate|]. split; [discriminate|]. vm_compute. discriminate. Qed.

(** with one character above 127 the hash is never FNV-1a of the octets *)
Theorem C54_high_refuted : forall a c b, ~ In nul (a ++ c :: b) -> (forall x, In x (a ++ b) -> (octet x < 128)%N) -> (128 <= octet c)%N -> hash_string (a ++ c :: b) <> fnv1a (map octet (a ++ c :: b)).
Proof. exact hash_high_assembled. Qed.
Print Assumptions C54_high_refuted.
Example C54_high_refuted_case : hash_string [ascii_of_nat 233] <> fnv1a [233%N].
Proof. vm_compute. discriminate. Qed.

(** C55: to_str gives the name at the value of the enum; from_str the first position of the name; nothing for other strings *)
Theorem C55_enum_to : forall text names e, enumerators text names -> enum_to_str e text = match nth_error names (Z.to_nat e) with Some n => n | None => [] end.
Proof. exact enum_to_assembled. Qed.
Print Assumptions C55_enum_to.
Lemma abc_enumerators : enumerators (lit "left, left_up,right") [lit "left"; lit "left_up"; lit "right"].
Proof.
  split; [|split; [intros c r E; injection E as <- _; cbn; intuition discriminate|cbn; intuition discriminate]].
  change (lit "left, left_up,right") with (lit "left" ++ [","%char; " "%char] ++ lit "left_up" ++ [","%char] ++ lit "right").
  apply (StrProofs.split_str_iff _ enum_sep); [cbn; intuition discriminate|]. vm_compute. reflexivity.
Qed.
Example C55_enum_to_case : enum_to_str 1 (lit "left, left_up,right") = lit "left_up".
Proof. rewrite (C55_enum_to _ _ 1 abc_enumerators). reflexivity. Qed.

Theorem C55_enum_from : forall s text names, enumerators text names ->
  (forall i, enum_from_str s text = Ok (Some i) <-> nth_error names i = Some s /\ forall j, j < i -> nth_error names j <> Some s) /\ (enum_from_str s text = Ok None <-> ~ In s names).
Proof. exact enum_from_assembled. Qed.
Print Assumptions C55_enum_from.
Example C55_enum_from_case : enum_from_str (lit "left_up") (lit "left, left_up,right") = Ok (Some 1) /\ enum_from_str (lit "lef") (lit "left, left_up,right") = Ok None.
Proof. split; vm_compute; reflexivity. Qed.

(** the round trip, for the value of every enumerator *)
Theorem C55_enum_round : forall text names i, enumerators text names -> NoDup names -> i < List.length names -> enum_from_str (enum_to_str (Z.of_nat i) text) text = Ok (Some i).
Proof.
  exact (fun text names i H N L => enum_round_assembled text names i H N L).
Qed.
Print Assumptions C55_enum_round.
Example C55_enum_round_case : enumerators (lit "left, left_up,right") [lit "left"; lit "left_up"; lit "right"] /\ NoDup [lit "left"; lit "left_up"; lit "right"] /\ enum_from_str (enum_to_str 2 (lit "left, left_up,right")) (lit "left, left_up,right") = Ok (Some 2).
Proof. split; [exact abc_enumerators|]. split; [repeat constructor; cbn; intuition discriminate|vm_compute; reflexivity]. Qed.

(** an enum whose enumerators have explicit values: the name of the second enumerator is converted to the wrong value, the first value has no name of its own *)
Theorem C55_explicit_values_refuted : enum_to_str 1 (lit "a = 1, b") = lit "=" /\ enum_from_str (lit "b") (lit "a = 1, b") = Ok (Some 3) /\ enum_to_str (-1) (lit "a, b") = lit "a".
Proof. repeat split; vm_compute; reflexivity. Qed.
Print Assumptions C55_explicit_values_refuted.

Theorem C55_date_round : forall y m d v, (0 <= y <= 2 ^ 31 - 1)%Z -> (0 <= m <= 2 ^ 31 - 1)%Z -> (0 <= d <= 2 ^ 31 - 1)%Z -> date_from_str (date_to_str (Date y m d)) v = Ok (Date y m d, true).
Proof. exact date_round_assembled. Qed.
Print Assumptions C55_date_round.
Example C55_date_round_case : date_to_str (Date 2024 2 9) = lit "2024-02-09" /\ date_from_str (lit "2024-02-09") (Date 0 0 0) = Ok (Date 2024 2 9, true).
Proof. split; vm_compute; reflexivity. Qed.

(** what from_str accepts as a date *)
Theorem C55_date_from : forall s v, exists w b, date_from_str s v = Ok (w, b) /\
  (b = true <-> exists p1 p2 p3, pieces (one_of (lit "-./")) s [p1; p2; p3] /\ forall p, In p [p1; p2; p3] -> exists t r z, p = t ++ r /\ int_text t z) /\
  (forall p1 p2 p3 y m d, pieces (one_of (lit "-./")) s [p1; p2; p3] -> int_text p1 y -> int_text p2 m -> int_text p3 d ->
     (- 2 ^ 31 <= y < 2 ^ 31)%Z -> (- 2 ^ 31 <= m < 2 ^ 31)%Z -> (- 2 ^ 31 <= d < 2 ^ 31)%Z -> w = Date y m d /\ b = true).
Proof. exact date_from_assembled. Qed.
Print Assumptions C55_date_from.
Example C55_date_from_case : date_from_str (lit "1.12/1999") (Date 0 0 0) = Ok (Date 1 12 1999, true) /\ date_from_str (lit "1999-12") (Date 5 5 5) = Ok (Date 5 5 5, false).
Proof. split; vm_compute; reflexivity. Qed.

Theorem C55_date_negative_refuted : date_from_str (date_to_str (Date (-44) 3 15)) (Date 0 0 0) = Ok (Date 44 3 15, true).
Proof. vm_compute. reflexivity. Qed.
Print Assumptions C55_date_negative_refuted.

(** C56: an optional that uses a blank value (the sentinel of integers, NaN) behaves like option, if no blank value is stored *)
Theorem C56_compact : forall (T : Type) (none : T) (blank : T -> bool) (eqb : T -> T -> bool), blank none = true -> forall ops x,
  holds ops x -> (forall v, In (OAssign v) ops \/ In (OWrite v) ops -> blank v = false) ->
  copt_has blank (copt_run none ops) = (match x with Some _ => true | None => false end) /\
  copt_value blank (copt_run none ops) = (match x with Some v => Ok v | None => Throw end) /\
  (forall d, copt_value_or blank (copt_run none ops) d = match x with Some v => v | None => d end) /\
  (forall v, copt_eq_value blank eqb (copt_run none ops) v = match x with Some w => eqb w v | None => false end) /\
  (forall v, copt_ne_value blank eqb (copt_run none ops) v = negb (copt_eq_value blank eqb (copt_run none ops) v)) /\
  (forall ops' x', holds ops' x' -> (forall v, In (OAssign v) ops' \/ In (OWrite v) ops' -> blank v = false) ->
     copt_eq blank eqb (copt_run none ops) (copt_run none ops') = match x, x' with Some v, Some w => eqb w v | None, None => true | _, _ => false end).
Proof. exact (@copt_assembled). Qed.
Print Assumptions C56_compact.
Example C56_compact_case : let blank := Z.eqb (sentinel KInt) in
  blank (sentinel KInt) = true /\ holds [OAssign 5%Z; OReset; OAssign 7%Z; OWrite 8%Z] (Some 8%Z) /\ copt_value blank (copt_run (sentinel KInt) [OAssign 5%Z; OReset; OAssign 7%Z; OWrite 8%Z]) = Ok 8%Z /\
  copt_value blank (copt_run (sentinel KInt) [OAssign 5%Z; OReset]) = Throw.
Proof.
  cbv zeta. split; [reflexivity|]. split; [|split; reflexivity].
  apply (holds_write [OAssign 5%Z; OReset; OAssign 7%Z] 8%Z 7%Z). apply (holds_assign [OAssign 5%Z; OReset] 7%Z None). apply (holds_reset [OAssign 5%Z] (Some 5%Z)). apply (holds_assign [] 5%Z None). constructor.
Qed.

(** an optional with a flag behaves like option *)
Theorem C56_flagged : forall (T : Type) (dflt : T) (eqb : T -> T -> bool) ops x, holds ops x ->
  f_has (fopt_run dflt ops) = (match x with Some _ => true | None => false end) /\
  fopt_value (fopt_run dflt ops) = (match x with Some v => Ok v | None => Throw end) /\
  (forall d, fopt_value_or (fopt_run dflt ops) d = match x with Some v => v | None => d end) /\
  (forall v, fopt_eq_value eqb (fopt_run dflt ops) v = match x with Some w => eqb w v | None => false end) /\
  (forall v, fopt_ne_value eqb (fopt_run dflt ops) v = negb (fopt_eq_value eqb (fopt_run dflt ops) v)) /\
  (forall ops' x', holds ops' x' -> fopt_eq eqb (fopt_run dflt ops) (fopt_run dflt ops') = match x, x' with Some v, Some w => eqb w v | None, None => true | _, _ => false end).
Proof. exact (@fopt_assembled). Qed.
Print Assumptions C56_flagged.
Example C56_flagged_case : fopt_value (fopt_run false [OAssign true; OReset; OAssign false]) = Ok false /\ fopt_eq Bool.eqb (fopt_run false [OAssign true; OReset]) (fopt_run false []) = true.
Proof. split; reflexivity. Qed.

(** assigning the sentinel leaves an integer optional empty *)
Theorem C56_sentinel_refuted : forall k : int_kind, exists v : Z, (kind_min k <= v <= kind_max k)%Z /\ holds [OAssign v] (Some v) /\ copt_value (Z.eqb (sentinel k)) (copt_run (sentinel k) [OAssign v]) = Throw.
Proof.
  intros k. exists (sentinel k). split; [destruct k; split; discriminate|]. split; [apply (holds_assign [] (sentinel k) None); constructor|].
  unfold copt_run. cbn [fold_left copt_step]. unfold copt_value, copt_has. rewrite Z.eqb_refl. reflexivity.
Qed.
Print Assumptions C56_sentinel_refuted.

(** != of two optionals never returns *)
Theorem C56_not_equal_refuted : forall (O : Type) (fuel : nat) (a b : O), opt_ne fuel a b = None.
Proof. exact (fun O fuel a b => @opt_ne_never O fuel a b). Qed.
Print Assumptions C56_not_equal_refuted.
Example C56_not_equal_refuted_case : opt_ne 1000 (Fopt true true) (Fopt false true) = None.
Proof. reflexivity. Qed.

(** writing through *o of an empty optional: an integer optional then has the value, one with a flag stays empty *)
Theorem C56_write_empty_refuted : copt_value (Z.eqb (sentinel KInt)) (copt_run (sentinel KInt) [OWrite 3%Z]) = Ok 3%Z /\ fopt_value (fopt_run (lit "") [OWrite (lit "x")]) = Throw.
Proof. split; reflexivity. Qed.
Print Assumptions C56_write_empty_refuted.

(** C61: after every history, a token or source reports a stop exactly if one was requested through a source of the same origin *)
Theorem C61_requested : forall h, valid_history h -> exists s, stop_run h = Ok s /\
  (forall i, i < tokens h -> exists b, token_requested s i = Ok b /\ (b = true <-> exists o, token_origin h i = Some o /\ requested h o)) /\
  (forall i, i < sources h -> exists b, source_requested s i = Ok b /\ (b = true <-> exists o, source_origin h i = Some o /\ requested h o)) /\
  (forall i, i < tokens h -> exists b, token_possible s i = Ok b /\ (b = true <-> token_origin h i <> None)).
Proof. exact stop_assembled. Qed.
Print Assumptions C61_requested.
(* two sources; a copy of the first requests; oldest operation last *)
Definition history_case : list stop_op := [TGet 1; TCopy 0; SRequest 2; SCopy 0; SNew; TNew; TGet 0; SNew].
Example C61_requested_case : valid_history history_case /\ tokens history_case = 4 /\ exists s, stop_run history_case = Ok s /\
  token_requested s 0 = Ok true /\ token_requested s 1 = Ok false /\ token_requested s 2 = Ok true /\ token_requested s 3 = Ok false.
Proof. split; [cbn; repeat split; try lia; discriminate|]. split; [reflexivity|]. eexists. split; [reflexivity|]. repeat split; reflexivity. Qed.

(** a stop stays reported, whatever happens later to other tokens and to the sources *)
Theorem C61_forever : forall later h s t i, valid_history (later ++ h) -> i < tokens h -> stop_run h = Ok s -> stop_run (later ++ h) = Ok t ->
  (forall op, In op later -> op <> TMove i /\ forall j, op <> TAssign i j) -> token_requested s i = Ok true -> token_requested t i = Ok true.
Proof. exact stop_forever_assembled. Qed.
Print Assumptions C61_forever.
Example C61_forever_case : exists s t, stop_run history_case = Ok s /\ stop_run ([SMove 0; SAssign 1 0; TMove 1; SAssign 0 1] ++ history_case) = Ok t /\ token_requested s 2 = Ok true /\ token_requested t 2 = Ok true /\
  valid_history ([SMove 0; SAssign 1 0; TMove 1; SAssign 0 1] ++ history_case).
Proof. eexists. eexists. split; [reflexivity|]. split; [reflexivity|]. split; [reflexivity|]. split; [reflexivity|]. cbn; repeat split; try lia; discriminate. Qed.

(** requesting through a source that was moved from is undefined *)
Theorem C61_moved_refuted : stop_run [SRequest 0; SMove 0; SNew] = UB.
Proof. reflexivity. Qed.
Print Assumptions C61_moved_refuted.

(** C76: every name is one base with one side suffix; the helpers read and change that suffix and keep the base *)
Theorem C76_side : forall s, exists base x, has_side s base x /\ (forall base' x', has_side s base' x' -> base' = base /\ x' = x) /\
  str_get_side s = x /\ str_remove_side s = Ok base /\ str_mirror_side s = Ok (base ++ side_suffix (opposite x)) /\ str_mirrored_side s = Ok (base ++ side_suffix (opposite x)) /\
  (forall y, str_set_side s y = Ok (base ++ side_suffix y)) /\ (forall p, str_append_before_side s p = Ok (base ++ p ++ side_suffix x)).
Proof. exact side_assembled. Qed.
Print Assumptions C76_side.
Example C76_side_case : has_side (lit "femur_r") (lit "femur") Right /\ str_mirrored_side (lit "femur_r") = Ok (lit "femur_l") /\ str_append_before_side (lit "femur_r") (lit "_mesh") = Ok (lit "femur_mesh_r") /\ str_get_side (lit "l") = NoSide.
Proof. split; [split; [reflexivity|discriminate]|]. repeat split; vm_compute; reflexivity. Qed.

(** mirroring twice gives the name back *)
Theorem C76_mirror : forall s, exists t, str_mirrored_side s = Ok t /\ str_mirrored_side t = Ok s /\ str_get_side t = opposite (str_get_side s).
Proof. exact mirror_twice_assembled. Qed.
Print Assumptions C76_mirror.
Example C76_mirror_case : str_mirrored_side (lit "a_l") = Ok (lit "a_r") /\ str_mirrored_side (lit "torso") = Ok (lit "torso").
Proof. split; vm_compute; reflexivity. Qed.

Theorem C76_set : forall s x, exists t, str_set_side s x = Ok t /\ (x <> NoSide -> str_get_side t = x).
Proof. exact set_side_get_assembled. Qed.
Print Assumptions C76_set.
Example C76_set_case : str_set_side (lit "a_l") Right = Ok (lit "a_r") /\ str_set_side (lit "a") Left = Ok (lit "a_l").
Proof. split; vm_compute; reflexivity. Qed.

(** a name with two suffixes still has a side after its side was set to none *)
Theorem C76_set_none_refuted : exists s t, str_set_side s NoSide = Ok t /\ str_get_side t <> NoSide.
Proof. exists (lit "a_l_r"), (lit "a_l"). split; [vm_compute; reflexivity|]. vm_compute. discriminate. Qed.
Print Assumptions C76_set_none_refuted.

(** C77: a range visits begin, begin + 1, ..., end - 1; it never ends if end < begin *)
Theorem C77_range : forall b e,
  ((b <= e)%Z -> forall fuel, (e - b <= Z.of_nat fuel)%Z -> irange_values fuel b e = Some (map (fun i => (b + Z.of_nat i)%Z) (seq 0 (Z.to_nat (e - b))))) /\
  ((e < b)%Z -> forall fuel, irange_values fuel b e = None).
Proof. exact irange_assembled. Qed.
Print Assumptions C77_range.
Example C77_range_case : irange_values 9 3 6 = Some [3; 4; 5]%Z /\ irange_values 1000 3 2 = None.
Proof. split; vm_compute; reflexivity. Qed.

(** with a step it visits every step-th value if the steps reach the end, and never ends otherwise *)
Theorem C77_step : forall b e s, (s <> 0)%Z ->
  (forall n, e = (b + Z.of_nat n * s)%Z -> forall fuel, n <= fuel -> irange_step_values fuel b e s = Some (map (fun i => (b + Z.of_nat i * s)%Z) (seq 0 n))) /\
  ((forall n : nat, e <> (b + Z.of_nat n * s)%Z) -> forall fuel, irange_step_values fuel b e s = None).
Proof. exact irange_step_assembled. Qed.
Print Assumptions C77_step.
Example C77_step_case : irange_step_values 9 9 1 (-2) = Some [9; 7; 5; 3]%Z /\ irange_step_values 1000 0 5 2 = None.
Proof. split; vm_compute; reflexivity. Qed.

(** C78: a result reports what was assigned to it last *)
Theorem C78_result : forall (T : Type) (dflt : T) (first : res_op) (ops : list res_op),
  match List.last ops first with
  | RValue v => res_has (res_run dflt first ops) = true /\ r_value (res_run dflt first ops) = v /\ r_error (res_run dflt first ops) = []
  | RError e => r_error (res_run dflt first ops) = e /\ (e <> [] -> res_has (res_run dflt first ops) = false)
  end.
Proof. exact (@res_assembled). Qed.
Print Assumptions C78_result.
Example C78_result_case : res_has (res_run 0 (RValue 1) [RError (lit "bad"); RValue 3]) = true /\ res_has (res_run 0 (RValue 1) [RError (lit "bad")]) = false.
Proof. split; reflexivity. Qed.

(** an error with an empty message counts as success *)
Theorem C78_empty_error_refuted : forall (T : Type) (dflt : T), res_has (res_run dflt (RError []) []) = true /\ forall v, r_value (res_run dflt (RValue v) [RError []]) = v.
Proof. split; reflexivity. Qed.
Print Assumptions C78_empty_error_refuted.
