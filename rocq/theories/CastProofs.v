From Coq Require Import Ascii String List Arith Bool NArith ZArith Lia.
From Coq Require Import ZifyBool ZifyNat ZifyN.
From Verif Require Import Base Str StrSpec StrModel StrBase StrProofs CastSpec CastModel.
Import ListNotations.
Local Open Scope Z_scope.

(** ** Characters *)

Lemma isspace_iff c : isspace c = true <-> is_space_char c.
Proof. apply in_set_In. Qed.

Lemma N_nat_ascii c : N_of_ascii c = N.of_nat (nat_of_ascii c).
Proof. unfold nat_of_ascii. symmetry. apply N2Nat.id. Qed.

Lemma isdigit_iff c : isdigit c = true <-> is_digit_char c.
Proof. unfold isdigit, is_digit_char. rewrite N_nat_ascii. rewrite andb_true_iff. lia. Qed.

Lemma digit_nat n : (n < 10)%N -> nat_of_ascii (digit n) = (48 + N.to_nat n)%nat.
Proof.
  intros H. unfold digit, nat_of_ascii. rewrite N_ascii_embedding by lia. lia.
Qed.

Lemma digit_is_digit n : (n < 10)%N -> is_digit_char (digit n).
Proof. intros H. unfold is_digit_char. rewrite digit_nat by exact H. lia. Qed.

Lemma digit_not_space c : is_digit_char c -> isspace c = false /\ Ascii.eqb c "-" = false /\ Ascii.eqb c "+" = false /\ c <> nul /\ c <> "."%char.
Proof.
  intros H. apply isdigit_iff in H.
  assert (Hb : (negb (isdigit c) || (negb (isspace c) && negb (Ascii.eqb c "-") && negb (Ascii.eqb c "+") && negb (Ascii.eqb c nul) && negb (Ascii.eqb c "."))) = true).
  { revert c H. intros c _. revert c. apply forall_bytes. vm_compute. reflexivity. }
  rewrite H in Hb. cbn [negb orb] in Hb. rewrite !andb_true_iff, !negb_true_iff in Hb.
  destruct Hb as [[[[H1 H2] H3] H4] H5]. repeat split; auto.
  - intros E. subst. discriminate.
  - intros E. subst. discriminate.
Qed.

Lemma sign_not_space c : c = "-"%char \/ c = "+"%char -> isspace c = false /\ c <> nul.
Proof. intros [-> | ->]; split; try reflexivity; discriminate. Qed.

(** ** Decimal digits *)

Lemma decimal_value_snoc ds c : decimal_value (ds ++ [c]) = 10 * decimal_value ds + (Z.of_nat (nat_of_ascii c) - 48).
Proof. unfold decimal_value. rewrite fold_left_app. reflexivity. Qed.

Lemma dec_digits_ok fuel : forall n, (n < 10 ^ N.of_nat (S fuel))%N ->
  dec_digits fuel n <> [] /\ Forall is_digit_char (dec_digits fuel n) /\ decimal_value (dec_digits fuel n) = Z.of_N n.
Proof.
  induction fuel as [|f IH]; intros n Hn; cbn [dec_digits].
  - change (10 ^ N.of_nat 1)%N with 10%N in Hn. rewrite N.mod_small by exact Hn.
    split; [discriminate|]. split; [constructor; [apply digit_is_digit, Hn|constructor]|].
    unfold decimal_value. cbn [fold_left]. rewrite digit_nat by exact Hn. lia.
  - destruct (N.ltb_spec n 10) as [H|H].
    + split; [discriminate|]. split; [constructor; [apply digit_is_digit, H|constructor]|].
      unfold decimal_value. cbn [fold_left]. rewrite digit_nat by exact H. lia.
    + destruct (IH (n / 10)%N) as (H1 & H2 & H3).
      { apply N.div_lt_upper_bound; [lia|]. replace (N.of_nat (S (S f))) with (N.succ (N.of_nat (S f))) in Hn by lia.
        rewrite N.pow_succ_r' in Hn. exact Hn. }
      assert (Hm : (n mod 10 < 10)%N) by (apply N.mod_lt; lia).
      split; [destruct (dec_digits f (n / 10)); discriminate|]. split.
      * apply Forall_app_iff. split; [exact H2|]. constructor; [apply digit_is_digit, Hm|constructor].
      * rewrite decimal_value_snoc, H3, digit_nat by exact Hm. pose proof (N.div_mod' n 10). lia.
Qed.

Lemma size_nat_bound n : (n < 10 ^ N.of_nat (S (N.size_nat n)))%N.
Proof.
  assert (H : (n < 2 ^ N.of_nat (N.size_nat n))%N).
  { replace (N.of_nat (N.size_nat n)) with (N.size n).
    - apply N.size_gt.
    - destruct n as [|p]; [reflexivity|]. cbn. induction p; cbn; lia. }
  eapply N.lt_le_trans; [exact H|]. etransitivity; [apply (N.pow_le_mono_l 2 10); lia|].
  apply N.pow_le_mono_r; lia.
Qed.

Lemma to_string_text z : int_text (to_string z) z /\ Forall (fun c => c <> nul /\ c <> "."%char /\ isspace c = false) (to_string z).
Proof.
  unfold to_string. destruct (dec_digits_ok _ _ (size_nat_bound (Z.abs_N z))) as (H1 & H2 & H3).
  assert (Hd : Forall (fun c => c <> nul /\ c <> "."%char /\ isspace c = false) (dec_digits (N.size_nat (Z.abs_N z)) (Z.abs_N z))).
  { revert H2. apply Forall_impl. intros c Hc. apply digit_not_space in Hc. tauto. }
  destruct (z <? 0) eqn:Hz.
  - split.
    + exists [], ["-"%char], (dec_digits (N.size_nat (Z.abs_N z)) (Z.abs_N z)), (-1).
      split; [reflexivity|]. split; [constructor|]. split; [constructor|]. split; [exact H1|]. split; [exact H2|].
      rewrite H3. lia.
    + constructor; [|exact Hd]. repeat split; discriminate.
  - split; [|exact Hd].
    exists [], [], (dec_digits (N.size_nat (Z.abs_N z)) (Z.abs_N z)), 1.
    split; [reflexivity|]. split; [constructor|]. split; [constructor|]. split; [exact H1|]. split; [exact H2|].
    rewrite H3. lia.
Qed.

(** ** Scanning *)

Definition no_digit_head (r : str) : Prop := match r with [] => True | c :: _ => ~ is_digit_char c end.

Lemma take_digits_ok ds : forall r acc n, Forall is_digit_char ds -> no_digit_head r ->
  exists v, take_digits (ds ++ r) acc n = (v, (n + length ds)%nat) /\
    Z.of_N v = fold_left (fun a c => 10 * a + (Z.of_nat (nat_of_ascii c) - 48)) ds (Z.of_N acc).
Proof.
  induction ds as [|c ds IH]; intros r acc n Hd Hr; cbn [app take_digits fold_left length].
  - exists acc. split; [|reflexivity]. rewrite Nat.add_0_r. destruct r as [|c r]; [reflexivity|].
    cbn [take_digits]. destruct (isdigit c) eqn:E; [|reflexivity]. apply isdigit_iff in E. contradiction.
  - inversion Hd as [|? ? Hc Hds]; subst. rewrite (proj2 (isdigit_iff c) Hc).
    destruct (IH r (acc * 10 + (N_of_ascii c - 48))%N (S n) Hds Hr) as (v & E & Hv).
    exists v. split; [rewrite E; f_equal; lia|]. rewrite Hv. f_equal. rewrite N_nat_ascii.
    unfold is_digit_char in Hc. lia.
Qed.

Lemma skip_space_app ws r : Forall is_space_char ws -> (forall c t, r = c :: t -> isspace c = false) -> skip_space (ws ++ r) = r.
Proof.
  induction ws as [|c ws IH]; intros Hw Hr; cbn [app].
  - destruct r as [|c t]; [reflexivity|]. cbn [skip_space]. rewrite (Hr c t eq_refl). reflexivity.
  - inversion Hw; subst. cbn [skip_space]. rewrite (proj2 (isspace_iff c)) by assumption. apply IH; assumption.
Qed.

Lemma scan_ok ws sg sgn ds r : Forall is_space_char ws -> sign_text sg sgn -> ds <> [] -> Forall is_digit_char ds -> no_digit_head r ->
  exists neg v, scan_int (ws ++ sg ++ ds ++ r) = Some (neg, v) /\ Z.of_N v = decimal_value ds /\ sgn = (if neg then -1 else 1).
Proof.
  intros Hw Hs Hne Hd Hr. unfold scan_int.
  destruct ds as [|c ds]; [congruence|]. inversion Hd as [|? ? Hc Hds]; subst.
  destruct (digit_not_space c Hc) as (N1 & N2 & N3 & N4 & N5).
  assert (Hskip : skip_space (ws ++ sg ++ (c :: ds) ++ r) = sg ++ (c :: ds) ++ r).
  { apply skip_space_app; [exact Hw|]. intros x t E. destruct Hs; cbn in E; injection E as <- _; auto. }
  rewrite Hskip.
  assert (Hsign : scan_sign (sg ++ (c :: ds) ++ r) = ((if sgn =? -1 then true else false), (c :: ds) ++ r)).
  { destruct Hs; cbn [app scan_sign]; rewrite ?N2, ?N3; reflexivity. }
  rewrite Hsign.
  destruct (take_digits_ok (c :: ds) r 0%N 0%nat Hd Hr) as (v & E & Hv). rewrite E. cbn [length Nat.add Nat.eqb].
  exists (if sgn =? -1 then true else false), v. split; [reflexivity|]. split; [exact Hv|]. destruct Hs; reflexivity.
Qed.

Lemma split_digits r : exists r1 r2, r = r1 ++ r2 /\ Forall is_digit_char r1 /\ no_digit_head r2.
Proof.
  induction r as [|c r (r1 & r2 & -> & H1 & H2)].
  - exists [], []. repeat split; constructor.
  - destruct (isdigit c) eqn:E.
    + exists (c :: r1), r2. split; [reflexivity|]. split; [constructor; [apply isdigit_iff, E|exact H1]|exact H2].
    + exists [], (c :: r1 ++ r2). split; [reflexivity|]. split; [constructor|]. cbn. intros H. apply isdigit_iff in H. congruence.
Qed.

Lemma scan_prefix s p r z : s = p ++ r -> int_text p z -> scan_int s <> None.
Proof.
  intros -> (ws & sg & ds & sgn & -> & Hw & Hs & Hne & Hd & _).
  destruct (split_digits r) as (r1 & r2 & -> & H1 & H2).
  destruct (scan_ok ws sg sgn (ds ++ r1) r2) as (neg & v & E & _); auto.
  - destruct ds; [congruence|discriminate].
  - apply Forall_app_iff. auto.
  - rewrite <- !app_assoc in *. rewrite E. discriminate.
Qed.

Lemma skip_space_split s : exists ws, s = ws ++ skip_space s /\ Forall is_space_char ws.
Proof.
  induction s as [|c s (ws & E & H)]; [exists []; auto|].
  cbn [skip_space]. destruct (isspace c) eqn:Ec.
  - exists (c :: ws). split; [cbn; rewrite <- E; reflexivity|]. constructor; [apply isspace_iff, Ec|exact H].
  - exists []. auto.
Qed.

Lemma scan_some s neg v : scan_int s = Some (neg, v) ->
  exists p r, s = p ++ r /\ int_text p ((if neg then -1 else 1) * Z.of_N v) /\ no_digit_head r.
Proof.
  unfold scan_int. destruct (skip_space_split s) as (ws & E & Hw).
  destruct (scan_sign (skip_space s)) as [ng t] eqn:Es.
  assert (Hsg : exists sg, skip_space s = sg ++ t /\ sign_text sg (if ng then -1 else 1)).
  { unfold scan_sign in Es. destruct (skip_space s) as [|c u]; [injection Es as <- <-; exists []; split; [reflexivity|constructor]|].
    destruct (Ascii.eqb_spec c "-") as [->|]; [injection Es as <- <-; exists ["-"%char]; split; [reflexivity|constructor]|].
    destruct (Ascii.eqb_spec c "+") as [->|]; injection Es as <- <-.
    - exists ["+"%char]; split; [reflexivity|constructor].
    - exists []; split; [reflexivity|constructor]. }
  destruct Hsg as (sg & E2 & Hsg).
  destruct (split_digits t) as (ds & r & -> & Hd & Hr).
  destruct (take_digits_ok ds r 0%N 0%nat Hd Hr) as (w & Ew & Hv). rewrite Ew. cbn [Nat.add].
  destruct ds as [|c ds]; [discriminate|]. cbn [length Nat.eqb].
  intros [= -> ->]. exists (ws ++ sg ++ c :: ds), r. split.
  - rewrite E, E2, <- !app_assoc. reflexivity.
  - split; [|exact Hr]. exists ws, sg, (c :: ds), (if neg then -1 else 1).
    split; [reflexivity|]. split; [exact Hw|]. split; [exact Hsg|]. split; [discriminate|]. split; [exact Hd|].
    f_equal. exact Hv.
Qed.

Lemma int_text_no_nul p z : int_text p z -> ~ In nul p.
Proof.
  intros (ws & sg & ds & sgn & -> & Hw & Hs & _ & Hd & _) H.
  rewrite !in_app_iff in H. destruct H as [H|[H|H]].
  - rewrite Forall_forall in Hw. specialize (Hw _ H). vm_compute in Hw. intuition discriminate.
  - destruct Hs; vm_compute in H; intuition discriminate.
  - rewrite Forall_forall in Hd. specialize (Hd _ H). apply digit_not_space in Hd. destruct Hd as (_ & _ & _ & N & _). congruence.
Qed.

Lemma c_str_app p r : ~ In nul p -> c_str (p ++ r) = p ++ c_str r.
Proof.
  induction p as [|c p IH]; intros H; [reflexivity|]. cbn [app c_str].
  destruct (Ascii.eqb_spec c nul) as [->|]; [exfalso; apply H; left; reflexivity|].
  rewrite IH; [reflexivity|]. intros Hi. apply H. right. exact Hi.
Qed.

Lemma c_str_prefix s : exists r, s = c_str s ++ r.
Proof.
  induction s as [|c s (r & E)]; [exists []; reflexivity|]. cbn [c_str]. destruct (Ascii.eqb c nul).
  - eexists. reflexivity.
  - exists r. cbn. rewrite <- E. reflexivity.
Qed.

Lemma from_str_fail k s : snd (from_str_int k s) = false <-> ~ exists p r z, s = p ++ r /\ int_text p z.
Proof.
  unfold from_str_int. destruct (scan_int (c_str s)) as [[neg v]|] eqn:E.
  - split; [discriminate|]. intros H. exfalso. apply H. apply scan_some in E.
    destruct E as (p & r & E & Ht & _). destruct (c_str_prefix s) as (u & Eu).
    exists p, (r ++ u), ((if neg then -1 else 1) * Z.of_N v). split; [|exact Ht].
    rewrite Eu, E, <- app_assoc. reflexivity.
  - split; [|reflexivity]. intros _ (p & r & z & -> & Ht).
    rewrite c_str_app in E by (eapply int_text_no_nul; eauto).
    apply (scan_prefix (p ++ c_str r) p (c_str r) z eq_refl Ht). exact E.
Qed.

Lemma from_str_value k s z : int_text s z -> kind_min k <= z <= kind_max k -> from_str_int k s = (z, true).
Proof.
  intros Ht Hk. pose proof (int_text_no_nul s z Ht) as Hn. unfold from_str_int. rewrite c_str_id by exact Hn.
  destruct Ht as (ws & sg & ds & sgn & -> & Hw & Hs & Hne & Hd & ->).
  destruct (scan_ok ws sg sgn ds [] Hw Hs Hne Hd I) as (neg & v & E & Hv & Hsgn).
  rewrite app_nil_r in E. rewrite E. f_equal. rewrite <- Hv in *. unfold strtol, strtoul, wrap32. cbn [fst snd].
  subst sgn. assert (H0 : 0 <= Z.of_N v) by lia. generalize dependent (Z.of_N v). clear. intros v Hk H0.
  destruct neg, k; cbn [kind_min kind_max] in Hk.
  all: repeat match goal with |- context [Z.ltb ?a ?b] => destruct (Z.ltb_spec a b) end; try lia.
  all: try (rewrite Z.mod_small by lia; lia).
  all: try (assert (v = 0) as -> by lia; reflexivity).
Qed.

Lemma roundtrip_int k z : kind_min k <= z <= kind_max k -> from_str_int k (to_str_int k z) = (z, true).
Proof. intros H. apply from_str_value; [|exact H]. apply to_string_text. Qed.

Lemma bool_assembled (b v : bool) (s : str) :
  from_str_bool (to_str_bool b) v = (b, true) /\
  (from_str_bool s v = (true, true) <-> In s (map lit ["1"; "true"; "yes"]%string)) /\
  (from_str_bool s v = (false, true) <-> In s (map lit ["0"; "false"; "no"]%string)) /\
  (snd (from_str_bool s v) = false -> fst (from_str_bool s v) = v).
Proof.
  split; [destruct b; reflexivity|]. unfold from_str_bool.
  assert (H : forall l, equals_any s l = true <-> In s (map lit l)).
  { intros l. unfold equals_any. rewrite existsb_exists, in_map_iff. split.
    - intros (x & Hx & E). apply str_eqb_eq in E. eauto.
    - intros (x & <- & Hx). exists x. split; [exact Hx|apply str_eqb_refl]. }
  pose proof (H ["1"; "true"; "yes"]%string) as H1. pose proof (H ["0"; "false"; "no"]%string) as H2.
  destruct (equals_any s ["1"; "true"; "yes"]%string) eqn:E1; destruct (equals_any s ["0"; "false"; "no"]%string) eqn:E2; cbn [fst snd].
  - exfalso. assert (In s (map lit ["1"; "true"; "yes"]%string)) as [<-|[<-|[<-|[]]]] by (apply H1; reflexivity); discriminate.
  - rewrite <- H1, <- H2. split; [tauto|]. split; [split; [discriminate|discriminate]|discriminate].
  - rewrite <- H1, <- H2. split; [split; discriminate|]. split; [tauto|discriminate].
  - rewrite <- H1, <- H2. split; [split; [intros [=]|discriminate]|]. split; [split; [intros [=]|discriminate]|auto].
Qed.

(** ** Versions *)

Definition both_builds (a b : ver) : bool := (0 <? v_build a) && (0 <? v_build b).

Lemma compare_spec a b :
  let x := ver_numbers (both_builds a b) a in let y := ver_numbers (both_builds a b) b in
  (version_compare a b < 0 <-> lex_lt x y) /\ (version_compare a b > 0 <-> lex_lt y x) /\ (version_compare a b = 0 <-> x = y).
Proof.
  cbv zeta. unfold version_compare, ver_numbers. fold (both_builds a b).
  destruct (both_builds a b); cbn [app lex_lt];
  repeat match goal with |- context [Z.ltb ?p ?q] => destruct (Z.ltb_spec p q) end;
  (split; [|split]); split; intros HH; try discriminate HH; try lia;
  try (injection HH; intros; lia); repeat (f_equal; try lia).
Qed.

Lemma both_builds_sym a b : both_builds a b = both_builds b a.
Proof. unfold both_builds. apply andb_comm. Qed.

Lemma ver_order_assembled (a b c : ver) :
  let both := (0 <? v_build a) && (0 <? v_build b) in
  (ver_lt a b = true <-> lex_lt (ver_numbers both a) (ver_numbers both b)) /\
  (ver_eq a b = true <-> ver_numbers both a = ver_numbers both b) /\
  ver_gt a b = ver_lt b a /\ ver_le a b = negb (ver_gt a b) /\ ver_ge a b = negb (ver_lt a b) /\
  ver_ne a b = negb (ver_eq a b) /\ ver_le a b = (ver_lt a b || ver_eq a b) /\
  (ver_le a b = true -> ver_le b a = true -> ver_eq a b = true) /\
  ver_lt a a = false /\ (ver_lt a b = true -> ver_lt b c = true -> ver_lt a c = true) /\
  is_at_least a (v_major b) (v_minor b) (v_patch b) (v_build b) =
    negb (is_below a (v_major b) (v_minor b) (v_patch b) (v_build b)).
Proof.
  cbv zeta. fold (both_builds a b).
  destruct (compare_spec a b) as (S1 & S2 & S3).
  unfold ver_lt, ver_gt, ver_le, ver_ge, ver_eq, ver_ne, is_at_least, is_below, ver_ge, ver_lt.
  split; [rewrite <- S1; lia|]. split; [rewrite <- S3; lia|].
  destruct (compare_spec b a) as (T1 & T2 & T3). rewrite both_builds_sym in T1, T2, T3.
  assert (Hsym : (0 < version_compare a b <-> version_compare b a < 0) /\ (version_compare a b = 0 <-> version_compare b a = 0)).
  { split; [rewrite T1, <- S2; lia|rewrite S3, T3; split; auto]. }
  split; [lia|]. split; [lia|]. split; [lia|]. split; [reflexivity|]. split; [lia|]. split; [lia|].
  split.
  { destruct (compare_spec a a) as (_ & _ & U). rewrite (proj2 U eq_refl). reflexivity. }
  split; [|lia].
  clear. unfold version_compare.
  repeat match goal with |- context [Z.ltb (?f ?p) (?g ?q)] => destruct (Z.ltb_spec (f p) (g q)) end;
  repeat match goal with |- context [Z.ltb 0 ?q] => destruct (Z.ltb_spec 0 q) end; cbn [andb]; intros; try reflexivity; try discriminate; lia.
Qed.

Lemma ver_trans_partial (a b c : ver) :
  (0 < v_build a /\ 0 < v_build b /\ 0 < v_build c) \/ (v_build a <= 0 /\ v_build b <= 0 /\ v_build c <= 0) ->
  (ver_le a b = true -> ver_le b c = true -> ver_le a c = true) /\
  (ver_eq a b = true -> ver_eq b c = true -> ver_eq a c = true).
Proof.
  intros H. unfold ver_le, ver_eq, version_compare.
  repeat match goal with |- context [Z.ltb 0 ?q] => destruct (Z.ltb_spec 0 q) end; cbn [andb]; try lia;
  repeat match goal with |- context [Z.ltb (?f ?p) (?g ?q)] => destruct (Z.ltb_spec (f p) (g q)) end; split; intros; try reflexivity; try discriminate; lia.
Qed.

(** ** Version text *)

Lemma to_string_piece z : to_string z <> [] /\ Forall (fun c => ~ one_of (lit ".") c) (to_string z) /\ Forall (fun c => ~ one_of whitespace c) (to_string z).
Proof.
  destruct (to_string_text z) as [(ws & sg & ds & sgn & E & _ & _ & Hne & _) H].
  split; [rewrite E; destruct ws, sg, ds; discriminate || congruence|]. split; revert H; apply Forall_impl; intros c (H1 & H2 & H3).
  - intros [H|[]]. apply H2. symmetry. exact H.
  - intros H. assert (isspace c = true); [|congruence]. apply isspace_iff. unfold is_space_char. unfold one_of, whitespace in H.
    cbn [In] in H |- *. tauto.
Qed.

Definition int_fields (v : ver) : Prop :=
  - 2 ^ 31 <= v_major v < 2 ^ 31 /\ - 2 ^ 31 <= v_minor v < 2 ^ 31 /\ - 2 ^ 31 <= v_patch v < 2 ^ 31 /\ - 2 ^ 31 <= v_build v < 2 ^ 31.

Lemma version_text v v0 :
  - 2 ^ 31 <= v_major v < 2 ^ 31 -> - 2 ^ 31 <= v_minor v < 2 ^ 31 -> - 2 ^ 31 <= v_patch v < 2 ^ 31 -> - 2 ^ 31 <= v_build v < 2 ^ 31 ->
  v_postfix v = [] ->
  from_str_version (to_str_version v) v0 =
  Ok (Ver (v_major v) (v_minor v) (v_patch v) (if 0 <? v_build v then v_build v else v_build v0) [], true).
Proof.
  intros H1 H2 H3 H4 Hp. unfold from_str_version.
  set (l := [to_string (v_major v); to_string (v_minor v); to_string (v_patch v)] ++ (if 0 <? v_build v then [to_string (v_build v)] else [])).
  assert (El : to_str_version v = join ["."%char] l).
  { unfold to_str_version, l. rewrite Hp, app_nil_r. destruct (0 <? v_build v); cbn [app join]; rewrite ?app_nil_r; reflexivity. }
  assert (Hnws : Forall (fun c => ~ one_of whitespace c) (to_str_version v)).
  { unfold to_str_version. rewrite Hp, app_nil_r.
    assert (Hdot : ~ one_of whitespace "."%char) by (intros H; vm_compute in H; intuition discriminate).
    rewrite !Forall_app_iff. split; [apply to_string_piece|]. constructor; [exact Hdot|].
    rewrite !Forall_app_iff. split; [apply to_string_piece|]. constructor; [exact Hdot|].
    rewrite !Forall_app_iff. split; [apply to_string_piece|].
    destruct (0 <? v_build v); [constructor; [exact Hdot|apply to_string_piece]|constructor]. }
  assert (E1 : split_str_at_first (to_str_version v) whitespace = Ok (to_str_version v, [])).
  { apply split_first_ok; [vm_compute; intuition discriminate|]. right. auto. }
  rewrite E1. cbn [obind fst snd].
  assert (E2 : split_str (to_str_version v) (lit ".") = Ok l).
  { rewrite El. apply split_join.
    - vm_compute. intuition discriminate.
    - discriminate.
    - constructor; [left; reflexivity|constructor].
    - unfold l. rewrite Forall_app_iff. split.
      + repeat constructor; apply to_string_piece.
      + destruct (0 <? v_build v); repeat constructor; apply to_string_piece. }
  rewrite E2. cbn [obind]. unfold l. cbn [app].
  pose proof (fun z H => roundtrip_int KInt z H) as R. unfold to_str_int in R. cbn [kind_min kind_max] in R.
  rewrite !R by lia. f_equal. destruct (0 <? v_build v); cbn; [|reflexivity].
  rewrite R by lia. reflexivity.
Qed.

(** ** Arguments *)

Lemma count_dashes_spec a : exists r, a = repeat dash (count_dashes a) ++ r /\ (forall t, r <> dash :: t).
Proof.
  induction a as [|c a (r & E & H)]; [exists []; split; [reflexivity|discriminate]|].
  cbn [count_dashes]. destruct (Ascii.eqb_spec c dash) as [->|Hn].
  - exists r. cbn [repeat app]. rewrite <- E. auto.
  - exists (c :: a). split; [reflexivity|]. intros t [= -> _]. congruence.
Qed.

Lemma count_dashes_repeat n f : (forall t, f <> dash :: t) -> count_dashes (repeat dash n ++ f) = n.
Proof.
  intros H. induction n as [|n IH]; cbn [repeat app count_dashes].
  - destruct f as [|c f]; [reflexivity|]. cbn [count_dashes]. destruct (Ascii.eqb_spec c dash) as [->|]; [exfalso; eapply H; reflexivity|reflexivity].
  - rewrite Ascii.eqb_refl, IH. reflexivity.
Qed.

Definition flag_arg (f a : str) : Prop := exists n, a = repeat dash (S n) ++ f.

Lemma flag_test f a : (forall t, f <> dash :: t) ->
  ((0 <? count_dashes a)%nat && str_eqb (skipn (count_dashes a) a) f = true <-> flag_arg f a).
Proof.
  intros Hf. rewrite andb_true_iff, str_eqb_eq. split.
  - intros [H E]. exists (count_dashes a - 1)%nat. replace (S (count_dashes a - 1)) with (count_dashes a) by lia.
    destruct (count_dashes_spec a) as (r & Ea & _). rewrite Ea in E at 2.
    pose proof (skipn_length_app (repeat dash (count_dashes a)) r) as Hs. rewrite repeat_length in Hs.
    rewrite Hs in E. subst r. exact Ea.
  - intros (n & ->). rewrite count_dashes_repeat by exact Hf. split; [reflexivity|].
    pose proof (skipn_length_app (repeat dash (S n)) f) as Hs. rewrite repeat_length in Hs. exact Hs.
Qed.

Lemma find_flag_from_some args f i j : (forall t, f <> dash :: t) ->
  (find_flag_from args f i = Some j <->
   exists pre a post, args = pre ++ a :: post /\ j = (i + length pre)%nat /\ flag_arg f a /\ Forall (fun x => ~ flag_arg f x) pre).
Proof.
  intros Hf. revert i; induction args as [|x args IH]; intros i; cbn [find_flag_from].
  - split; [discriminate|]. intros (pre & a & post & E & _). destruct pre; discriminate.
  - pose proof (flag_test f x Hf) as Ht. destruct ((0 <? count_dashes x)%nat && str_eqb (skipn (count_dashes x) x) f).
    + split.
      * intros [= <-]. exists [], x, args. repeat split; [cbn; lia|apply Ht; reflexivity|constructor].
      * intros (pre & a & post & E & -> & Ha & Hp). destruct pre as [|y pre]; [cbn; f_equal; lia|].
        injection E as -> ->. inversion Hp; subst. exfalso. apply H1. apply Ht. reflexivity.
    + rewrite IH. assert (Hx : ~ flag_arg f x) by (intros H; apply Ht in H; discriminate). split.
      * intros (pre & a & post & -> & -> & Ha & Hp). exists (x :: pre), a, post. repeat split; auto. cbn [length]. lia.
      * intros (pre & a & post & E & -> & Ha & Hp). destruct pre as [|y pre]; [injection E as -> _; contradiction|].
        injection E as -> ->. inversion Hp; subst. exists pre, a, post. repeat split; auto. cbn [length]. lia.
Qed.

Lemma find_flag_from_none args f i : (forall t, f <> dash :: t) ->
  (find_flag_from args f i = None <-> Forall (fun x => ~ flag_arg f x) args).
Proof.
  intros Hf. revert i; induction args as [|x args IH]; intros i; cbn [find_flag_from]; [split; auto|].
  pose proof (flag_test f x Hf) as Ht. destruct ((0 <? count_dashes x)%nat && str_eqb (skipn (count_dashes x) x) f).
  - split; [discriminate|]. intros H. inversion H; subst. exfalso. apply H2, Ht. reflexivity.
  - rewrite IH. assert (Hx : ~ flag_arg f x) by (intros H; apply Ht in H; discriminate).
    split; [intros H; constructor; auto|intros H; inversion H; auto].
Qed.

Lemma find_flag_from_dash args f i : find_flag_from args (dash :: f) i = None.
Proof.
  revert i; induction args as [|x args IH]; intros i; cbn [find_flag_from]; [reflexivity|].
  replace (_ && _) with false; [apply IH|]. symmetry. apply andb_false_iff. right. apply str_eqb_neq. intros E.
  destruct (count_dashes_spec x) as (r & Ex & Hr). rewrite Ex in E at 2.
  pose proof (skipn_length_app (repeat dash (count_dashes x)) r) as Hs. rewrite repeat_length in Hs. rewrite Hs in E.
  eapply Hr. exact E.
Qed.

Lemma begins_dash_flag a : str_begins_with_char a dash = is_flag a.
Proof. unfold is_flag. destruct a as [|c t]; [reflexivity|]. cbn. unfold dash. destruct (Ascii.eqb c "-"); reflexivity. Qed.

Lemma is_flag_iff a : is_flag a = true <-> exists t, a = dash :: t.
Proof. rewrite <- begins_dash_flag. apply begins_with_char_iff. Qed.

Lemma ap_get_from_spec {T} (from_str : str -> T -> T * bool) args idx def :
  ((exists a, nth_error args idx = Some a /\ Forall (fun x => ~ exists t, x = dash :: t) (firstn (S idx) args) /\
      ap_get_index from_str args idx def = fst (from_str a def)) \/
   ((nth_error args idx = None \/ Exists (fun x => exists t, x = dash :: t) (firstn (S idx) args)) /\
      ap_get_index from_str args idx def = def)).
Proof.
  unfold ap_get_index. revert idx; induction args as [|x args IH]; intros idx; cbn [ap_get_from].
  - right. split; [left; destruct idx; reflexivity|reflexivity].
  - destruct (is_flag x) eqn:E.
    + right. split; [|reflexivity]. right. cbn [firstn]. constructor. apply is_flag_iff, E.
    + assert (Hx : ~ exists t, x = dash :: t) by (intros H; apply is_flag_iff in H; congruence).
      destruct idx as [|j].
      * left. exists x. split; [reflexivity|]. split; [repeat constructor; exact Hx|reflexivity].
      * destruct (IH j) as [(a & H1 & H2 & H3)|[H1 H2]].
        -- left. exists a. cbn [nth_error]. split; [exact H1|]. split; [|exact H3]. cbn [firstn] in *. constructor; assumption.
        -- right. split; [|exact H2]. destruct H1 as [H1|H1]; [left; exact H1|right]. cbn [firstn]. constructor 2. exact H1.
Qed.

Lemma ap_assembled {T} (from_str : str -> T -> T * bool) (args : list str) (f : str) (def : T) :
  (forall t, f <> dash :: t) ->
  (has_flag args f = true <-> Exists (flag_arg f) args) /\
  (Forall (fun x => ~ flag_arg f x) args -> ap_get_flag from_str args f def = Ok def) /\
  (forall pre a post, args = pre ++ a :: post -> flag_arg f a -> Forall (fun x => ~ flag_arg f x) pre ->
     find_flag args f = Some (length pre) /\
     ap_get_flag from_str args f def =
     Ok (match post with
         | v :: _ => if str_begins_with_char v dash then def else fst (from_str v def)
         | [] => def end)).
Proof.
  intros Hf. split; [|split].
  - unfold has_flag, find_flag. destruct (find_flag_from args f 0) as [j|] eqn:E.
    + split; [intros _|reflexivity]. apply find_flag_from_some in E; [|exact Hf].
      destruct E as (pre & a & post & -> & _ & Ha & _). apply Exists_app. right. constructor. exact Ha.
    + split; [discriminate|]. intros H. apply find_flag_from_none in E; [|exact Hf].
      apply Exists_exists in H. destruct H as (x & Hx & Hfx). rewrite Forall_forall in E. exfalso. eapply E; eauto.
  - intros H. unfold ap_get_flag, find_flag. rewrite (proj2 (find_flag_from_none args f 0 Hf) H). reflexivity.
  - intros pre a post E Ha Hp.
    assert (Ef : find_flag args f = Some (length pre)).
    { unfold find_flag. apply find_flag_from_some; [exact Hf|]. exists pre, a, post. auto. }
    split; [exact Ef|]. unfold ap_get_flag. rewrite Ef, E, app_length. cbn [length].
    destruct post as [|v post].
    + cbn [length]. replace (length pre <? length pre + 1 - 1)%nat with false by lia. reflexivity.
    + cbn [length]. replace (length pre <? length pre + S (S (length post)) - 1)%nat with true by lia.
      unfold vec_get. rewrite nth_error_app2 by lia. replace (length pre + 1 - length pre)%nat with 1%nat by lia.
      cbn [nth_error obind]. destruct (str_begins_with_char v dash); reflexivity.
Qed.
