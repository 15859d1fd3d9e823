(** Integer and bool text, version order and text, command line arguments: property theorems. *)
From Coq Require Import Ascii String List Arith Bool NArith ZArith Lia.
From Verif Require Import Base Str StrSpec StrModel CastSpec CastModel StrProofs CastProofs.
Import ListNotations.
Local Open Scope Z_scope.

(** C29: writing an integer and reading it back gives the integer and success, for every type and every value of the type *)
Theorem C29_int_round_trip : forall (k : int_kind) (z : Z),
  kind_min k <= z <= kind_max k -> from_str_int k (to_str_int k z) = (z, true).
Proof. exact roundtrip_int. Qed.
Print Assumptions C29_int_round_trip.
Example C29_int_round_trip_ex : kind_min KLong <= -9223372036854775808 <= kind_max KLong /\
  to_str_int KLong (-9223372036854775808) = lit "-9223372036854775808".
Proof. vm_compute. repeat split; discriminate. Qed.

(** what is written is the decimal notation *)
Theorem C29_int_written : forall (k : int_kind) (z : Z), int_text (to_str_int k z) z.
Proof. exact (fun k z => proj1 (to_string_text z)). Qed.
Print Assumptions C29_int_written.
Example C29_int_written_ex : to_str_int KInt (-1024) = lit "-1024" /\ to_str_int KUInt 0 = lit "0".
Proof. split; reflexivity. Qed.

(** any text that is (blanks, sign,) digits denoting a value of the type is read as that value *)
Theorem C29_int_read : forall (k : int_kind) (s : str) (z : Z),
  int_text s z -> kind_min k <= z <= kind_max k -> from_str_int k s = (z, true).
Proof. exact from_str_value. Qed.
Print Assumptions C29_int_read.
Example C29_int_read_ex : int_text (lit "  +007") 7 /\ from_str_int KUInt (lit "  +007") = (7, true).
Proof.
  split; [|reflexivity]. exists (lit "  "), (lit "+"), (lit "007"), 1.
  split; [reflexivity|]. split; [repeat constructor|]. split; [constructor|]. split; [discriminate|].
  split; [|reflexivity]. repeat constructor; vm_compute; repeat constructor.
Qed.

(** reading fails exactly on texts that do not begin with a number *)
Theorem C29_int_failure : forall (k : int_kind) (s : str),
  snd (from_str_int k s) = false <-> ~ exists p r z, s = p ++ r /\ int_text p z.
Proof. exact from_str_fail. Qed.
Print Assumptions C29_int_failure.
Example C29_int_failure_ex : snd (from_str_int KInt (lit "- 5")) = false /\ snd (from_str_int KInt (lit "")) = false.
Proof. split; reflexivity. Qed.

(** what a caller may expect but does not get: rejection of trailing text and of values outside the type *)
Theorem C29_int_strict_refuted :
  (exists s z, ~ (exists v, int_text s v) /\ from_str_int KInt s = (z, true)) /\
  (exists s z v, int_text s v /\ ~ (kind_min KInt <= v <= kind_max KInt) /\ from_str_int KInt s = (z, true) /\ z <> v) /\
  (exists s z v, int_text s v /\ v < 0 /\ from_str_int KUInt s = (z, true) /\ z <> v).
Proof.
  split; [|split].
  - exists (lit "12abc"), 12. split; [|reflexivity].
    intros (v & ws & sg & ds & sgn & E & Hw & Hs & Hne & Hd & _).
    apply (f_equal (fun l => last l nul)) in E. rewrite app_assoc in E.
    destruct (exists_last Hne) as (ds' & c & ->). rewrite app_assoc, last_last in E.
    apply Forall_app in Hd. destruct Hd as [_ Hd]. inversion Hd as [|? ? Hc]; subst.
    vm_compute in Hc. destruct Hc as [_ Hc]. repeat apply le_S_n in Hc. inversion Hc.
  - exists (lit "4294967297"), 1, 4294967297. split.
    + exists [], [], (lit "4294967297"), 1. split; [reflexivity|]. split; [constructor|]. split; [constructor|].
      split; [discriminate|]. split; [|reflexivity]. apply Forall_forall. intros c Hc. apply isdigit_iff.
      cbn in Hc. repeat destruct Hc as [<-|Hc]; try reflexivity. destruct Hc.
    + split; [vm_compute; intros [_ H]; apply H; reflexivity|]. split; [reflexivity|discriminate].
  - exists (lit "-1"), 4294967295, (-1). split.
    + exists [], ["-"%char], (lit "1"), (-1). split; [reflexivity|]. split; [constructor|]. split; [constructor|].
      split; [discriminate|]. split; [|reflexivity]. apply Forall_forall. intros c Hc. apply isdigit_iff.
      cbn in Hc. repeat destruct Hc as [<-|Hc]; try reflexivity. destruct Hc.
    + split; [reflexivity|]. split; [reflexivity|discriminate].
Qed.
Print Assumptions C29_int_strict_refuted.

(** bool: round trip, the accepted words, and an unchanged variable on failure *)
Theorem C29_bool : forall (b v : bool) (s : str),
  from_str_bool (to_str_bool b) v = (b, true) /\
  (from_str_bool s v = (true, true) <-> In s (map lit ["1"; "true"; "yes"]%string)) /\
  (from_str_bool s v = (false, true) <-> In s (map lit ["0"; "false"; "no"]%string)) /\
  (snd (from_str_bool s v) = false -> fst (from_str_bool s v) = v).
Proof. exact bool_assembled. Qed.
Print Assumptions C29_bool.
Example C29_bool_ex : from_str_bool (lit "yes") false = (true, true) /\ from_str_bool (lit "TRUE") false = (false, false).
Proof. split; reflexivity. Qed.

(** C30: the comparison operators are the lexicographic order on (major, minor, patch), with build last when both builds are
    positive; they are mutually consistent and [<] is a strict order *)
Theorem C30_version_order_partial : forall a b c : ver,
  let both := (0 <? v_build a) && (0 <? v_build b) in
  (ver_lt a b = true <-> lex_lt (ver_numbers both a) (ver_numbers both b)) /\
  (ver_eq a b = true <-> ver_numbers both a = ver_numbers both b) /\
  ver_gt a b = ver_lt b a /\ ver_le a b = negb (ver_gt a b) /\ ver_ge a b = negb (ver_lt a b) /\
  ver_ne a b = negb (ver_eq a b) /\ ver_le a b = (ver_lt a b || ver_eq a b) /\
  (ver_le a b = true -> ver_le b a = true -> ver_eq a b = true) /\
  ver_lt a a = false /\ (ver_lt a b = true -> ver_lt b c = true -> ver_lt a c = true) /\
  is_at_least a (v_major b) (v_minor b) (v_patch b) (v_build b) =
    negb (is_below a (v_major b) (v_minor b) (v_patch b) (v_build b)).
Proof. exact ver_order_assembled. Qed.
Print Assumptions C30_version_order_partial.
Example C30_version_order_ex :
  ver_lt (Ver 1 2 3 4 []) (Ver 1 2 3 5 []) = true /\ ver_lt (Ver 1 9 0 0 []) (Ver 1 10 0 0 []) = true /\
  ver_eq (Ver 1 2 3 4 []) (Ver 1 2 3 0 []) = true.
Proof. repeat split. Qed.

(** [<=] and [==] are transitive among versions that all have, or all lack, a build number ... *)
Theorem C30_version_transitive_partial : forall a b c : ver,
  (0 < v_build a /\ 0 < v_build b /\ 0 < v_build c) \/ (v_build a <= 0 /\ v_build b <= 0 /\ v_build c <= 0) ->
  (ver_le a b = true -> ver_le b c = true -> ver_le a c = true) /\
  (ver_eq a b = true -> ver_eq b c = true -> ver_eq a c = true).
Proof. exact ver_trans_partial. Qed.
Print Assumptions C30_version_transitive_partial.
Example C30_version_transitive_ex :
  ver_le (Ver 1 0 0 1 []) (Ver 1 0 0 7 []) = true /\ ver_le (Ver 1 0 0 7 []) (Ver 1 1 0 2 []) = true.
Proof. repeat split. Qed.

(** ... but not in general *)
Theorem C30_version_total_order_refuted : exists a b c : ver,
  ver_eq a b = true /\ ver_eq b c = true /\ ver_eq a c = false /\ ver_le a b = true /\ ver_le b c = true /\ ver_le a c = false.
Proof. exists (Ver 1 0 0 2 []), (Ver 1 0 0 0 []), (Ver 1 0 0 1 []). repeat split. Qed.
Print Assumptions C30_version_total_order_refuted.

(** C67: a version without postfix survives text; a build number that is not positive is not written and leaves
    the variable's own build number in place *)
Theorem C67_version_text_partial : forall v v0 : ver,
  - 2 ^ 31 <= v_major v < 2 ^ 31 -> - 2 ^ 31 <= v_minor v < 2 ^ 31 -> - 2 ^ 31 <= v_patch v < 2 ^ 31 -> - 2 ^ 31 <= v_build v < 2 ^ 31 ->
  v_postfix v = [] ->
  from_str_version (to_str_version v) v0 =
  Ok (Ver (v_major v) (v_minor v) (v_patch v) (if 0 <? v_build v then v_build v else v_build v0) [], true).
Proof. exact version_text. Qed.
Print Assumptions C67_version_text_partial.
Example C67_version_text_ex :
  to_str_version (Ver 2 0 13 77 []) = lit "2.0.13.77" /\
  from_str_version (lit "2.0.13.77") (Ver 9 9 9 9 (lit "x")) = Ok (Ver 2 0 13 77 [], true).
Proof. split; reflexivity. Qed.

Theorem C67_version_text_refuted :
  (exists v v0 r, from_str_version (to_str_version v) v0 = Ok (r, true) /\ v_postfix v <> [] /\ r <> v) /\
  (exists v v0 r, from_str_version (to_str_version v) v0 = Ok (r, true) /\ v_postfix v = [] /\ r <> v).
Proof.
  split.
  - exists (Ver 1 2 3 0 (lit "beta")), (Ver 0 0 0 0 []), (Ver 1 2 3 0 []). split; [reflexivity|]. split; discriminate.
  - exists (Ver 1 2 3 0 []), (Ver 0 0 0 8 []), (Ver 1 2 3 8 []). split; [reflexivity|]. split; [reflexivity|discriminate].
Qed.
Print Assumptions C67_version_text_refuted.

(** C39: flags are recognised with any positive number of dashes; a flag's value is the argument after its first occurrence,
    unless that is missing or begins with a dash *)
Theorem C39_flags : forall (T : Type) (from_str : str -> T -> T * bool) (args : list str) (f : str) (def : T),
  (forall t, f <> dash :: t) ->
  (has_flag args f = true <-> Exists (fun a => exists n, a = repeat dash (S n) ++ f) args) /\
  (Forall (fun a => ~ exists n, a = repeat dash (S n) ++ f) args -> ap_get_flag from_str args f def = Ok def) /\
  (forall pre a post, args = pre ++ a :: post -> (exists n, a = repeat dash (S n) ++ f) ->
     Forall (fun x => ~ exists n, x = repeat dash (S n) ++ f) pre ->
     find_flag args f = Some (length pre) /\
     ap_get_flag from_str args f def =
     Ok (match post with
         | v :: _ => if str_begins_with_char v dash then def else fst (from_str v def)
         | [] => def end)).
Proof. exact (fun T from_str => ap_assembled from_str). Qed.
Print Assumptions C39_flags.
Example C39_flags_ex :
  let args := map lit ["in.txt"; "--n"; "12"; "-v"; "-n"; "13"]%string in
  ap_get_flag (fun s _ => from_str_int KInt s) args (lit "n") 5 = Ok 12 /\ has_flag args (lit "v") = true /\
  ap_get_flag (fun s _ => from_str_int KInt s) args (lit "v") 5 = Ok 5 /\ has_flag args (lit "12") = false.
Proof. repeat split. Qed.

(** positional arguments: the leading arguments before the first one that begins with a dash *)
Theorem C39_positional : forall (T : Type) (from_str : str -> T -> T * bool) (args : list str) (idx : nat) (def : T),
  (exists a, nth_error args idx = Some a /\ Forall (fun x => ~ exists t, x = dash :: t) (firstn (S idx) args) /\
     ap_get_index from_str args idx def = fst (from_str a def)) \/
  ((nth_error args idx = None \/ Exists (fun x => exists t, x = dash :: t) (firstn (S idx) args)) /\
     ap_get_index from_str args idx def = def).
Proof. exact (fun T from_str => ap_get_from_spec from_str). Qed.
Print Assumptions C39_positional.
Example C39_positional_ex :
  let args := map lit ["7"; "8"; "-v"; "9"]%string in
  ap_get_index (fun s _ => from_str_int KInt s) args 1 0 = 8 /\ ap_get_index (fun s _ => from_str_int KInt s) args 3 0 = 0.
Proof. repeat split. Qed.

(** names that begin with a dash are never found *)
Theorem C39_dashed_name : forall (args : list str) (f : str), has_flag args (dash :: f) = false.
Proof. exact (fun args f => f_equal (fun o => match o with Some _ => true | None => false end) (find_flag_from_dash args f 0)). Qed.
Print Assumptions C39_dashed_name.
Example C39_dashed_name_ex : has_flag [lit "--n"] (lit "-n") = false /\ has_flag [lit "--n"] (lit "n") = true.
Proof. split; reflexivity. Qed.

(** the default is not used when the value cannot be read: an integer becomes 0; and negative numbers are never taken as values *)
Theorem C39_default_refuted :
  (exists args f def, (exists a, In a args /\ snd (from_str_int KInt a) = false) /\ has_flag args f = true /\
     def <> 0 /\ ap_get_flag (fun s _ => from_str_int KInt s) args f def = Ok 0) /\
  (exists args f v, from_str_int KInt v = (-5, true) /\ args = [dash :: f; v] /\
     ap_get_flag (fun s _ => from_str_int KInt s) args f 3 = Ok 3).
Proof.
  split.
  - exists [lit "-n"; lit "many"], (lit "n"), 4. split; [exists (lit "many"); split; [right; left; reflexivity|reflexivity]|].
    split; [reflexivity|]. split; [discriminate|reflexivity].
  - exists [lit "-n"; lit "-5"], (lit "n"), (lit "-5"). repeat split.
Qed.
Print Assumptions C39_default_refuted.

(** C29: a number outside the range of the type is read as the nearest value of long, or wraps around for the unsigned types; int and unsigned int keep the last 32 bits of that *)
Theorem C29_int_limits : forall (s : str) (z : Z), int_text s z ->
  (from_str_int KLong s = (Z.max (- 2 ^ 63) (Z.min (2 ^ 63 - 1) z), true)) /\
  (from_str_int KLLong s = from_str_int KLong s) /\
  (from_str_int KULong s = (if 2 ^ 64 <=? Z.abs z then 2 ^ 64 - 1 else z mod 2 ^ 64, true)) /\
  (from_str_int KULLong s = from_str_int KULong s) /\
  (exists r, from_str_int KInt s = (r, true) /\ - 2 ^ 31 <= r < 2 ^ 31 /\ (r - fst (from_str_int KLong s)) mod 2 ^ 32 = 0) /\
  (from_str_int KUInt s = (fst (from_str_int KULong s) mod 2 ^ 32, true)).
Proof.
  intros s z Ht. pose proof (int_text_no_nul s z Ht) as Hn. unfold from_str_int. rewrite StrBase.c_str_id by exact Hn.
  destruct Ht as (ws & sg & ds & sgn & -> & Hw & Hs & Hne & Hd & ->).
  destruct (scan_ok ws sg sgn ds [] Hw Hs Hne Hd I) as (neg & v & E & Hv & Hsgn).
  rewrite app_nil_r in E. rewrite E. cbn [fst]. rewrite <- Hv in *. unfold strtol, strtoul, wrap32. cbn [fst snd]. subst sgn.
  assert (H0 : 0 <= Z.of_N v) by lia. generalize dependent (Z.of_N v). clear. intros v _ H0.
  set (w := (if neg then -1 else 1) * v) in *. assert (Ew : (if neg then - v else v) = w) by (unfold w; destruct neg; lia). rewrite Ew.
  split; [|split; [reflexivity|split; [|split; [reflexivity|split; [|reflexivity]]]]].
  - f_equal. destruct (Z.ltb_spec w (- 2 ^ 63)); [lia|]. destruct (Z.ltb_spec (2 ^ 63 - 1) w); lia.
  - f_equal. assert (Ea : Z.abs w = v) by (unfold w; destruct neg; lia). rewrite Ea. destruct (Z.ltb_spec (2 ^ 64 - 1) v); destruct (Z.leb_spec (2 ^ 64) v); try lia.
    unfold w. destruct neg; [f_equal; lia|]. rewrite Z.mul_1_l, Z.mod_small by lia. reflexivity.
  - eexists. split; [reflexivity|]. set (y := if w <? - 2 ^ 63 then _ else _). split; [pose proof (Z.mod_pos_bound (y + 2 ^ 31) (2 ^ 32) eq_refl); lia|].
    replace ((y + 2 ^ 31) mod 2 ^ 32 - 2 ^ 31 - y) with (- ((y + 2 ^ 31) / 2 ^ 32) * 2 ^ 32); [apply Z.mod_mul; discriminate|].
    pose proof (Z.div_mod (y + 2 ^ 31) (2 ^ 32) ltac:(discriminate)). lia.
Qed.
Print Assumptions C29_int_limits.
Example C29_int_limits_ex :
  from_str_int KLong (lit "-9999999999999999999") = (-9223372036854775808, true) /\ from_str_int KLong (lit "9223372036854775808") = (9223372036854775807, true) /\
  from_str_int KULong (lit "-1") = (18446744073709551615, true) /\ from_str_int KULong (lit "18446744073709551616") = (18446744073709551615, true) /\
  from_str_int KInt (lit "2147483648") = (-2147483648, true) /\ from_str_int KUInt (lit "-1") = (4294967295, true).
Proof. repeat split. Qed.

(** C30: the result of compare tells which number differs first, 1 for major to 4 for build, with the sign of the order *)
Theorem C30_version_level : forall (a b : ver) (n : nat) (x y : Z),
  let both := (0 <? v_build a) && (0 <? v_build b) in
  firstn n (ver_numbers both a) = firstn n (ver_numbers both b) ->
  nth_error (ver_numbers both a) n = Some x -> nth_error (ver_numbers both b) n = Some y -> x <> y ->
  version_compare a b = (if x <? y then - Z.of_nat (S n) else Z.of_nat (S n)).
Proof.
  intros [a1 a2 a3 a4 ap] [b1 b2 b3 b4 bp] n x y. cbn zeta. unfold version_compare, ver_numbers. cbn [v_major v_minor v_patch v_build].
  destruct ((0 <? a4) && (0 <? b4)) eqn:B; destruct n as [|[|[|[|n]]]]; cbn [app firstn nth_error]; intros E E1 E2 H; try discriminate; try (destruct n; discriminate).
  all: injection E1 as <-; injection E2 as <-; try injection E as ->; try subst; repeat rewrite Z.ltb_irrefl.
  all: match goal with |- context [?p <? ?q] => destruct (Z.ltb_spec p q) end; try reflexivity; match goal with |- context [?p <? ?q] => destruct (Z.ltb_spec p q) end; try reflexivity; lia.
Qed.
Print Assumptions C30_version_level.
Example C30_version_level_ex : version_compare (Ver 1 2 3 4 []) (Ver 1 3 0 0 []) = -2 /\ version_compare (Ver 1 2 3 7 []) (Ver 1 2 3 4 []) = 4.
Proof. split; reflexivity. Qed.

(** C67: a text is read as a version exactly when its first word has at least three parts between dots that begin with numbers; otherwise reading reports failure *)
Definition begins_with_number (s : str) : Prop := exists p r z, s = p ++ r /\ int_text p z.
Theorem C67_version_read : forall (s w post : str) (v : ver) (ps : list str),
  (exists c, s = w ++ c :: post /\ one_of whitespace c /\ Forall (fun x => ~ one_of whitespace x) w) \/ (Forall (fun x => ~ one_of whitespace x) s /\ w = s /\ post = []) ->
  pieces (one_of (lit ".")) w ps ->
  exists v' ok, from_str_version s v = Ok (v', ok) /\
    (ok = true <-> exists a b c rest, ps = a :: b :: c :: rest /\ begins_with_number a /\ begins_with_number b /\ begins_with_number c) /\
    (forall a b c rest x y z, ps = a :: b :: c :: rest -> int_text a x -> int_text b y -> int_text c z ->
       kind_min KInt <= x <= kind_max KInt -> kind_min KInt <= y <= kind_max KInt -> kind_min KInt <= z <= kind_max KInt ->
       v_major v' = x /\ v_minor v' = y /\ v_patch v' = z /\ v_postfix v' = post /\ (rest = [] -> v_build v' = v_build v) /\
       forall d rest' u, rest = d :: rest' -> int_text d u -> kind_min KInt <= u <= kind_max KInt -> v_build v' = u).
Proof.
  intros s w post v ps Hs Hp. apply split_str_iff in Hp; [|vm_compute; intuition discriminate].
  assert (Ws : ~ In nul whitespace) by (vm_compute; intuition discriminate).
  apply (split_first_ok s whitespace w post Ws) in Hs. unfold from_str_version. rewrite Hs. cbn [obind fst snd]. rewrite Hp. cbn [obind].
  assert (R : forall a z, from_str_int KInt a = (z, true) -> begins_with_number a).
  { intros a z E. destruct (scan_int (c_str a)) as [[neg u]|] eqn:Es; unfold from_str_int in E; rewrite Es in E; [|discriminate].
    apply scan_some in Es. destruct Es as (p & r & E' & Ht & _). destruct (c_str_prefix a) as (t & Et). exists p, (r ++ t), ((if neg then -1 else 1) * Z.of_N u). split; [|exact Ht].
    rewrite Et, E', <- app_assoc. reflexivity. }
  assert (F : forall a z, from_str_int KInt a = (z, false) -> ~ begins_with_number a).
  { intros a z E. apply (f_equal snd) in E. cbn [snd] in E. apply from_str_fail in E. exact E. }
  assert (V : forall a z z' ok, from_str_int KInt a = (z', ok) -> int_text a z -> kind_min KInt <= z <= kind_max KInt -> z' = z /\ ok = true).
  { intros a z z' ok E Ht Hk. rewrite (from_str_value KInt a z Ht Hk) in E. injection E as <- <-. auto. }
  destruct ps as [|a [|b [|c rest]]].
  1-3: eexists _, _; split; [reflexivity|]; split; [split; [discriminate|intros (a1 & b1 & c1 & r1 & Q & _); discriminate Q]|intros a1 b1 c1 r1 x y z Q; discriminate Q].
  destruct (from_str_int KInt a) as [ma [|]] eqn:Ea.
  2: { eexists _, _; split; [reflexivity|]; split.
       - split; [discriminate|]. intros (a1 & b1 & c1 & r1 & [= -> -> -> ->] & Q & _). destruct (F _ _ Ea Q).
       - intros a1 b1 c1 r1 x y z [= -> -> -> ->] Q1 Q2 Q3 K1 K2 K3. destruct (V _ _ _ _ Ea Q1 K1) as [_ Q]. discriminate Q. }
  destruct (from_str_int KInt b) as [mi [|]] eqn:Eb.
  2: { eexists _, _; split; [reflexivity|]; split.
       - split; [discriminate|]. intros (a1 & b1 & c1 & r1 & [= -> -> -> ->] & _ & Q & _). destruct (F _ _ Eb Q).
       - intros a1 b1 c1 r1 x y z [= -> -> -> ->] Q1 Q2 Q3 K1 K2 K3. destruct (V _ _ _ _ Eb Q2 K2) as [_ Q]. discriminate Q. }
  destruct (from_str_int KInt c) as [pa [|]] eqn:Ec.
  2: { eexists _, _; split; [reflexivity|]; split.
       - split; [discriminate|]. intros (a1 & b1 & c1 & r1 & [= -> -> -> ->] & _ & _ & Q). destruct (F _ _ Ec Q).
       - intros a1 b1 c1 r1 x y z [= -> -> -> ->] Q1 Q2 Q3 K1 K2 K3. destruct (V _ _ _ _ Ec Q3 K3) as [_ Q]. discriminate Q. }
  eexists _, _; split; [reflexivity|]; split.
  - split; [|reflexivity]. intros _. exists a, b, c, rest. split; [reflexivity|]. split; [exact (R _ _ Ea)|]. split; [exact (R _ _ Eb)|exact (R _ _ Ec)].
  - intros a1 b1 c1 r1 x y z [= <- <- <- <-] Q1 Q2 Q3 K1 K2 K3. cbn [v_major v_minor v_patch v_postfix v_build].
    destruct (V _ _ _ _ Ea Q1 K1) as [-> _], (V _ _ _ _ Eb Q2 K2) as [-> _], (V _ _ _ _ Ec Q3 K3) as [-> _]. repeat split.
    + intros ->. reflexivity.
    + intros d rest' u -> Q4 K4. rewrite (from_str_value KInt d u Q4 K4). reflexivity.
Qed.
Print Assumptions C67_version_read.
Example C67_version_read_ex :
  from_str_version (lit "3.1.4.15 beta 2") (Ver 0 0 0 9 []) = Ok (Ver 3 1 4 15 (lit "beta 2"), true) /\
  from_str_version (lit "3.1") (Ver 0 0 0 9 []) = Ok (Ver 0 0 0 9 [], false) /\ from_str_version (lit "3.x.1") (Ver 7 7 7 7 []) = Ok (Ver 3 0 7 7 [], false).
Proof. repeat split. Qed.
