(** Lemmas about the models of small utilities. *)
From Coq Require Import Ascii String List Arith Bool NArith ZArith Lia ZifyBool ZifyNat ZifyN.
From Verif Require Import Base BaseProofs Str StrSpec StrModel StrBase StrProofs CastSpec CastModel CastProofs UtilSpec UtilModel.
Import ListNotations.

(** ** hash *)
Definition M64 : N := (2 ^ 64)%N.
Definition hstep (h o : N) : N := ((N.lxor h o * fnv_prime) mod M64)%N.
Lemma M64_pos : (0 < M64)%N.
Proof. reflexivity. Qed.
Lemma lxor_bound a b : (a < M64)%N -> (b < M64)%N -> (N.lxor a b < M64)%N.
Proof.
  unfold M64. intros Ha Hb. destruct (N.eq_dec (N.lxor a b) 0) as [->|Hz]; [reflexivity|]. apply N.log2_lt_pow2; [lia|].
  eapply N.le_lt_trans; [apply N.log2_lxor|]. apply N.max_lub_lt.
  - destruct (N.eq_dec a 0) as [->|Na]; [reflexivity|]. apply N.log2_lt_pow2; [lia|exact Ha].
  - destruct (N.eq_dec b 0) as [->|Nb]; [reflexivity|]. apply N.log2_lt_pow2; [lia|exact Hb].
Qed.
Definition inv_prime : N := 0xce965057aff6957b.
Lemma inv_prime_ok : ((fnv_prime * inv_prime) mod M64 = 1)%N.
Proof. vm_compute. reflexivity. Qed.
Lemma mul_prime_inj x y : (x < M64)%N -> (y < M64)%N -> ((x * fnv_prime) mod M64 = (y * fnv_prime) mod M64)%N -> x = y.
Proof.
  intros Hx Hy E. assert (K : forall z, (z < M64)%N -> ((((z * fnv_prime) mod M64) * inv_prime) mod M64 = z)%N).
  { intros z Hz. rewrite N.mul_mod_idemp_l by discriminate. rewrite <- N.mul_assoc. rewrite <- N.mul_mod_idemp_r by discriminate. rewrite inv_prime_ok, N.mul_1_r. apply N.mod_small. exact Hz. }
  rewrite <- (K x Hx), <- (K y Hy), E. reflexivity.
Qed.
Lemma hstep_bound h o : (hstep h o < M64)%N.
Proof. apply N.mod_lt. discriminate. Qed.
Lemma lxor_cancel_r a b c : N.lxor a c = N.lxor b c -> a = b.
Proof. intros E. rewrite <- (N.lxor_0_r a), <- (N.lxor_0_r b), <- (N.lxor_nilpotent c), <- !N.lxor_assoc, E. reflexivity. Qed.
Lemma hstep_inj_h a b o : (a < M64)%N -> (b < M64)%N -> (o < M64)%N -> hstep a o = hstep b o -> a = b.
Proof. intros Ha Hb Ho E. apply mul_prime_inj in E; [|apply lxor_bound; assumption|apply lxor_bound; assumption]. exact (lxor_cancel_r _ _ _ E). Qed.
Lemma hstep_inj_o a o o' : (a < M64)%N -> (o < M64)%N -> (o' < M64)%N -> hstep a o = hstep a o' -> o = o'.
Proof.
  intros Ha Ho Ho' E. apply mul_prime_inj in E; [|apply lxor_bound; assumption|apply lxor_bound; assumption]. rewrite (N.lxor_comm a o), (N.lxor_comm a o') in E. exact (lxor_cancel_r _ _ _ E).
Qed.
Lemma char_u64_bound c : (char_u64 c < M64)%N.
Proof.
  unfold char_u64, M64. pose proof (Z.mod_pos_bound (char_z c) (2 ^ 64) ltac:(reflexivity)) as H. change (2 ^ 64)%N with (Z.to_N (2 ^ 64)). lia.
Qed.
Lemma octet_bound c : (octet c < 256)%N.
Proof. unfold octet. apply N_ascii_bounded. Qed.
Lemma char_u64_low c : (octet c < 128)%N -> char_u64 c = octet c.
Proof.
  unfold octet, char_u64, char_z. intros H. destruct (Z.ltb_spec (Z.of_N (N_of_ascii c)) 128); [|lia]. rewrite Z.mod_small; [lia|]. change (2 ^ 64)%Z with 18446744073709551616%Z. lia.
Qed.
Lemma char_u64_high c : (128 <= octet c)%N -> char_u64 c = (octet c + (2 ^ 64 - 256))%N.
Proof.
  unfold octet, char_u64, char_z. intros H. pose proof (N_ascii_bounded c) as B. destruct (Z.ltb_spec (Z.of_N (N_of_ascii c)) 128); [lia|].
  rewrite <- (Z.mod_add _ 1) by discriminate. rewrite Z.mod_small; change (2 ^ 64)%Z with 18446744073709551616%Z; change (2 ^ 64)%N with 18446744073709551616%N; lia.
Qed.
Lemma char_u64_inj c d : char_u64 c = char_u64 d -> c = d.
Proof.
  intros E. rewrite <- (ascii_N_embedding c), <- (ascii_N_embedding d). f_equal. change (octet c = octet d).
  pose proof (octet_bound c) as B1. pose proof (octet_bound d) as B2. destruct (N.lt_ge_cases (octet c) 128) as [H1|H1], (N.lt_ge_cases (octet d) 128) as [H2|H2];
    rewrite ?(char_u64_low c) in E by assumption; rewrite ?(char_u64_low d) in E by assumption; rewrite ?(char_u64_high c) in E by assumption; rewrite ?(char_u64_high d) in E by assumption;
    change (2 ^ 64 - 256)%N with 18446744073709551360%N in E; lia.
Qed.
Lemma hash_same s : forall l, hash_constexpr s l = hash_loop s l.
Proof. induction s as [|c s IH]; intros l; [reflexivity|]. cbn [hash_constexpr hash_loop]. destruct (Ascii.eqb c nul); [reflexivity|]. rewrite (N.lxor_comm l). apply IH. Qed.
Lemma hash_loop_fold s : ~ In nul s -> forall l, hash_loop s l = fold_left hstep (map char_u64 s) l.
Proof.
  induction s as [|c s IH]; intros N l; [reflexivity|]. cbn [hash_loop map fold_left]. destruct (Ascii.eqb_spec c nul) as [->|Nc]; [exfalso; apply N; left; reflexivity|].
  rewrite IH by (intros X; apply N; right; exact X). reflexivity.
Qed.
Lemma c_str_nul_free s : ~ In nul s -> c_str s = s.
Proof. intros H. rewrite <- (app_nil_r s) at 1. rewrite c_str_app by exact H. apply app_nil_r. Qed.
Lemma hash_assembled s : ~ In nul s ->
  hash_string s = hash_literal s /\ hash_cstr s = hash_literal s /\ ((forall c, In c s -> (octet c < 128)%N) -> hash_literal s = fnv1a (map octet s)) /\
  hash_literal s = fnv1a (map (fun c => if (octet c <? 128)%N then octet c else (octet c + (2 ^ 64 - 256))%N) s).
Proof.
  intros N. unfold hash_string, hash_literal, hash_cstr. rewrite (c_str_nul_free s N), hash_same. split; [reflexivity|]. split; [reflexivity|].
  rewrite (hash_loop_fold s N). split.
  - intros L. unfold fnv1a. change (fold_left hstep (map char_u64 s) fnv_basis = fold_left hstep (map octet s) fnv_basis). f_equal. apply map_ext_in. intros c Hc. apply char_u64_low, L, Hc.
  - unfold fnv1a. match goal with |- _ = fold_left _ (map ?f s) _ => change (fold_left hstep (map char_u64 s) fnv_basis = fold_left hstep (map f s) fnv_basis) end. f_equal. apply map_ext. intros c.
    destruct (N.ltb_spec (octet c) 128); [apply char_u64_low; assumption|apply char_u64_high; assumption].
Qed.
Lemma fold_hstep_bound os : forall h, (h < M64)%N -> (fold_left hstep os h < M64)%N.
Proof. induction os as [|o os IH]; intros h H; [exact H|]. apply IH, hstep_bound. Qed.
Lemma fold_hstep_inj os : Forall (fun o => (o < M64)%N) os -> forall a b, (a < M64)%N -> (b < M64)%N -> fold_left hstep os a = fold_left hstep os b -> a = b.
Proof.
  induction 1 as [|o os Ho F IH]; intros a b Ha Hb E; [exact E|]. cbn [fold_left] in E. apply IH in E; [|apply hstep_bound|apply hstep_bound]. exact (hstep_inj_h _ _ _ Ha Hb Ho E).
Qed.
Lemma hash_one_char_assembled a c d b : ~ In nul (a ++ c :: d :: b) -> c <> d -> hash_string (a ++ c :: b) <> hash_string (a ++ d :: b).
Proof.
  intros N H E. assert (N1 : ~ In nul (a ++ c :: b)) by (rewrite in_app_iff in *; cbn in *; tauto). assert (N2 : ~ In nul (a ++ d :: b)) by (rewrite in_app_iff in *; cbn in *; tauto).
  unfold hash_string, hash_cstr in E. rewrite (c_str_nul_free _ N1), (c_str_nul_free _ N2), (hash_loop_fold _ N1), (hash_loop_fold _ N2), !map_app, !fold_left_app in E. cbn [map fold_left] in E.
  apply fold_hstep_inj in E; [|apply Forall_forall; intros o Ho; apply in_map_iff in Ho; destruct Ho as (x & <- & _); apply char_u64_bound|apply hstep_bound|apply hstep_bound].
  apply hstep_inj_o in E; [|apply fold_hstep_bound; reflexivity|apply char_u64_bound|apply char_u64_bound]. exact (H (char_u64_inj _ _ E)).
Qed.
Lemma hash_high_assembled a c b : ~ In nul (a ++ c :: b) -> (forall x, In x (a ++ b) -> (octet x < 128)%N) -> (128 <= octet c)%N -> hash_string (a ++ c :: b) <> fnv1a (map octet (a ++ c :: b)).
Proof.
  intros N L H E. unfold hash_string, hash_cstr in E. rewrite (c_str_nul_free _ N), (hash_loop_fold _ N), !map_app in E. unfold fnv1a in E.
  change (fold_left hstep (map char_u64 a ++ map char_u64 (c :: b)) fnv_basis = fold_left hstep (map octet a ++ map octet (c :: b)) fnv_basis) in E.
  rewrite !fold_left_app in E. cbn [map fold_left] in E. assert (Ea : map char_u64 a = map octet a) by (apply map_ext_in; intros x Hx; apply char_u64_low, L, in_or_app; auto).
  assert (Eb : map char_u64 b = map octet b) by (apply map_ext_in; intros x Hx; apply char_u64_low, L, in_or_app; auto). rewrite Ea, Eb in E.
  assert (B : (octet c < M64)%N) by (pose proof (octet_bound c); unfold M64; change (2 ^ 64)%N with 18446744073709551616%N; lia).
  apply fold_hstep_inj in E; [|apply Forall_forall; intros o Ho; apply in_map_iff in Ho; destruct Ho as (x & <- & _); pose proof (octet_bound x); unfold M64; change (2 ^ 64)%N with 18446744073709551616%N; lia|apply hstep_bound|apply hstep_bound].
  apply hstep_inj_o in E; [|apply fold_hstep_bound; reflexivity|apply char_u64_bound|exact B]. rewrite char_u64_high in E by exact H. change (2 ^ 64 - 256)%N with 18446744073709551360%N in E. lia.
Qed.

(** ** enums *)
Lemma span_out n r : Forall (fun c => ~ one_of enum_sep c) n -> (r = [] \/ exists c r', r = c :: r' /\ one_of enum_sep c) -> strcspn (n ++ r) sep_chars = length n.
Proof.
  intros F R. induction F as [|c n Hc F IH]; cbn [app strcspn length].
  - destruct R as [->|(c & r' & -> & Hc)]; [reflexivity|]. cbn [strcspn]. assert (in_set sep_chars c = true) as -> by (apply in_set_In; exact Hc). reflexivity.
  - assert (in_set sep_chars c = false) as -> by (apply in_set_not_In; exact Hc). rewrite IH. reflexivity.
Qed.
Lemma span_in seps t : Forall (one_of enum_sep) seps -> (forall c r, t = c :: r -> ~ one_of enum_sep c) -> strspn (seps ++ t) sep_chars = length seps.
Proof.
  intros F R. induction F as [|c n Hc F IH]; cbn [app strspn length].
  - destruct t as [|c t]; [reflexivity|]. cbn [strspn]. assert (in_set sep_chars c = false) as -> by (apply in_set_not_In, (R c t eq_refl)). reflexivity.
  - assert (in_set sep_chars c = true) as -> by (apply in_set_In; exact Hc). rewrite IH. reflexivity.
Qed.
Lemma skipn_exact (a b : str) : skipn (length a) (a ++ b) = b.
Proof. rewrite skipn_app, Nat.sub_diag, skipn_all. reflexivity. Qed.
Inductive etext : list str -> str -> Prop :=
| et_nil : etext [] []
| et_cons n seps names t : n <> [] -> Forall (fun c => ~ one_of enum_sep c) n -> Forall (one_of enum_sep) seps -> (seps = [] -> names = []) -> etext names t -> etext (n :: names) (n ++ seps ++ t).
Lemma etext_start names t : etext names t -> forall c r, t = c :: r -> ~ one_of enum_sep c.
Proof.
  intros H c r E. destruct H as [|n seps names t N F _ _ _]; [discriminate|]. destruct n as [|x n]; [congruence|]. injection E as <- _. inversion F; assumption.
Qed.
Lemma pieces_etext text names : pieces (one_of enum_sep) text names -> exists seps t, text = seps ++ t /\ Forall (one_of enum_sep) seps /\ etext names t.
Proof.
  induction 1 as [s F|s p F N P|s p c r ps F N P C H (seps & t & E & Fs & T)].
  - exists s, []. rewrite app_nil_r. repeat split; [exact F|constructor].
  - exists s, (p ++ [] ++ []). rewrite !app_nil_r. split; [reflexivity|]. split; [exact F|]. rewrite <- (app_nil_r p) at 2. apply (et_cons p [] [] []); [exact N|exact P|constructor|reflexivity|constructor].
  - exists s, (p ++ seps ++ t). split; [rewrite E; reflexivity|]. split; [exact F|]. apply et_cons; [exact N|exact P|exact Fs| |exact T].
    intros ->. cbn [app] in E. exfalso. exact (etext_start _ _ T c r (eq_sym E) C).
Qed.
Lemma enumerators_etext text names : enumerators text names -> etext names text /\ ~ In nul text.
Proof.
  intros (P & S & N). split; [|exact N]. destruct (pieces_etext _ _ P) as (seps & t & E & F & T). destruct seps as [|c seps]; [rewrite E; exact T|]. exfalso.
  inversion F; subst. exact (S c (seps ++ t) eq_refl H1).
Qed.
Lemma etext_after seps names t : (seps = [] -> names = []) -> Forall (one_of enum_sep) seps -> etext names t -> seps ++ t = [] \/ exists c r', seps ++ t = c :: r' /\ one_of enum_sep c.
Proof.
  intros E F T. destruct seps as [|c seps]; [|right; exists c, (seps ++ t); inversion F; auto]. specialize (E eq_refl). subst names. inversion T. left. reflexivity.
Qed.
Lemma strncmp_prefix n : forall a r, strncmp_eq a (n ++ r) (length n) = true <-> exists a', a = n ++ a'.
Proof.
  induction n as [|x n IH]; intros a r; cbn [length strncmp_eq app]; [split; [exists a; reflexivity|reflexivity]|]. destruct a as [|y a]; [split; [discriminate|intros (a' & E); discriminate]|].
  rewrite andb_true_iff, IH, Ascii.eqb_eq. split; [intros (-> & a' & ->); exists a'; reflexivity|intros (a' & [= -> ->]); split; [reflexivity|exists a'; reflexivity]].
Qed.
Lemma enum_match s n r : ~ In nul n -> (length s =? length n)%nat && strncmp_eq (c_str s) (n ++ r) (length n) = str_eqb s n.
Proof.
  intros N. destruct (str_eqb s n) eqn:E.
  - apply str_eqb_eq in E. subst s. rewrite Nat.eqb_refl. cbn [andb]. apply strncmp_prefix. exists []. rewrite app_nil_r. apply c_str_nul_free. exact N.
  - apply str_eqb_neq in E. apply andb_false_iff. destruct (Nat.eqb_spec (length s) (length n)) as [L|L]; [right|left; reflexivity].
    destruct (strncmp_eq (c_str s) (n ++ r) (length n)) eqn:Es; [|reflexivity]. exfalso. apply strncmp_prefix in Es. destruct Es as (a' & Ea). destruct (c_str_prefix s) as (z & Ez).
    apply E. rewrite Ez, Ea in L. rewrite !app_length in L. assert (a' = []) as -> by (destruct a'; [reflexivity|cbn in L; lia]). assert (z = []) as -> by (destruct z; [reflexivity|cbn in L; lia]).
    rewrite Ez, Ea, !app_nil_r. reflexivity.
Qed.
Fixpoint first_index (names : list str) (s : str) (i : nat) : option nat := match names with [] => None | n :: r => if str_eqb s n then Some i else first_index r s (S i) end.
Lemma enum_from_loop_ok s names text : etext names text -> ~ In nul text -> forall fuel i, length text < fuel -> enum_from_loop fuel s text i = Ok (first_index names s i).
Proof.
  induction 1 as [|n seps names t Nn P F E T IH]; intros N fuel i L; (destruct fuel as [|fuel]; [lia|]); [reflexivity|].
  assert (Nt : ~ In nul t) by (rewrite !in_app_iff in N; tauto). assert (Nm : ~ In nul n) by (rewrite !in_app_iff in N; tauto).
  cbn [enum_from_loop first_index]. rewrite (span_out n (seps ++ t) P) by (eapply etext_after; eauto). rewrite enum_match by exact Nm.
  destruct n as [|c n]; [congruence|]. cbn [app]. destruct (str_eqb s (c :: n)); [reflexivity|].
  change (c :: n ++ seps ++ t) with ((c :: n) ++ seps ++ t). rewrite (skipn_exact (c :: n)), (span_in seps t F) by (eapply etext_start; eauto).
  rewrite app_assoc. rewrite <- app_length. rewrite (skipn_exact ((c :: n) ++ seps) t). apply IH; [exact Nt|]. rewrite !app_length in L. cbn [length] in L. lia.
Qed.
Lemma first_index_spec names s : forall i k, first_index names s i = Some k <-> exists j, k = i + j /\ nth_error names j = Some s /\ forall j', j' < j -> nth_error names j' <> Some s.
Proof.
  induction names as [|n names IH]; intros i k; cbn [first_index].
  - split; [discriminate|]. intros (j & _ & H & _). destruct j; discriminate.
  - destruct (str_eqb s n) eqn:E.
    + apply str_eqb_eq in E. subst n. split; [intros [= <-]; exists 0; split; [lia|]; split; [reflexivity|intros j' Hj; lia]|].
      intros (j & -> & H & H2). destruct j; [f_equal; lia|]. exfalso. apply (H2 0); [lia|reflexivity].
    + apply str_eqb_neq in E. rewrite IH. split.
      * intros (j & -> & H & H2). exists (S j). split; [lia|]. split; [exact H|]. intros [|j'] Hj; cbn; [congruence|apply H2; lia].
      * intros (j & -> & H & H2). destruct j as [|j]; [cbn in H; congruence|]. exists j. split; [lia|]. split; [exact H|]. intros j' Hj. apply (H2 (S j')). lia.
Qed.
Lemma first_index_none names s : forall i, first_index names s i = None <-> ~ In s names.
Proof.
  induction names as [|n names IH]; intros i; cbn [first_index In]; [tauto|]. destruct (str_eqb s n) eqn:E.
  - apply str_eqb_eq in E. subst. split; [discriminate|]. intros H. exfalso. apply H. left. reflexivity.
  - apply str_eqb_neq in E. rewrite IH. split; [intros H [X|X]; [congruence|tauto]|tauto].
Qed.
Lemma enum_from_assembled s text names : enumerators text names ->
  (forall i, enum_from_str s text = Ok (Some i) <-> nth_error names i = Some s /\ forall j, j < i -> nth_error names j <> Some s) /\ (enum_from_str s text = Ok None <-> ~ In s names).
Proof.
  intros H. apply enumerators_etext in H. destruct H as [T N]. unfold enum_from_str. rewrite (enum_from_loop_ok s names text T N) by lia. split.
  - intros i. split; [intros [= E]; apply first_index_spec in E; destruct E as (j & -> & E1 & E2); auto|]. intros [E1 E2]. f_equal. apply first_index_spec. exists i. auto.
  - rewrite <- (first_index_none names s 0). split; [intros [= E]; exact E|intros ->; reflexivity].
Qed.
Lemma enum_to_loop_ok names text : etext names text -> forall k, etext (skipn k names) (enum_to_loop k text).
Proof.
  induction 1 as [|n seps names t Nn P F E T IH]; intros k.
  - destruct k; constructor.
  - destruct k as [|k]; cbn [skipn].
    + cbn [enum_to_loop]. apply et_cons; assumption.
    + destruct n as [|c n]; [congruence|]. cbn [app enum_to_loop]. change (c :: n ++ seps ++ t) with ((c :: n) ++ seps ++ t). rewrite (span_out (c :: n) (seps ++ t) P) by (eapply etext_after; eauto).
      rewrite (skipn_exact (c :: n)), (span_in seps t F) by (eapply etext_start; eauto).
      rewrite (skipn_exact seps t). apply IH.
Qed.
Lemma enum_to_assembled text names e : enumerators text names -> enum_to_str e text = match nth_error names (Z.to_nat e) with Some n => n | None => [] end.
Proof.
  intros H. apply enumerators_etext in H. destruct H as [T _]. unfold enum_to_str. pose proof (enum_to_loop_ok names text T (Z.to_nat e)) as K.
  assert (E : nth_error names (Z.to_nat e) = match skipn (Z.to_nat e) names with n :: _ => Some n | [] => None end).
  { clear. generalize (Z.to_nat e) as k. induction names as [|n names IH]; intros [|k]; cbn; try reflexivity. apply IH. }
  rewrite E. inversion K as [|n seps ns t Nn P F Es Tt]; [reflexivity|].
  rewrite (span_out n (seps ++ t) P) by (eapply etext_after; eauto). rewrite firstn_app, Nat.sub_diag, firstn_all, firstn_O, app_nil_r. reflexivity.
Qed.

(** ** dates *)
Lemma decimal_value_zeros k ds : decimal_value (repeat "0"%char k ++ ds) = decimal_value ds.
Proof. unfold decimal_value. rewrite fold_left_app. f_equal. induction k as [|k IH]; [reflexivity|]. cbn [repeat fold_left]. exact IH. Qed.
Lemma to_string_digits z : (0 <= z)%Z -> to_string z <> [] /\ Forall is_digit_char (to_string z) /\ decimal_value (to_string z) = z.
Proof.
  intros H. unfold to_string. destruct (Z.ltb_spec z 0); [lia|]. destruct (dec_digits_ok _ _ (size_nat_bound (Z.abs_N z))) as (H1 & H2 & H3). repeat split; [exact H1|exact H2|]. rewrite H3. lia.
Qed.
Lemma pad_int_ok w z : (0 <= z)%Z -> pad_int w z <> [] /\ Forall is_digit_char (pad_int w z) /\ int_text (pad_int w z) z /\ length (pad_int w z) = Nat.max w (length (to_string z)).
Proof.
  intros H. destruct (to_string_digits z H) as (H1 & H2 & H3). unfold pad_int. destruct (Z.ltb_spec z 0); [lia|]. rewrite Z.abs_eq by exact H.
  assert (F : Forall is_digit_char (repeat "0"%char (w - length (to_string z)) ++ to_string z)).
  { apply Forall_app. split; [|exact H2]. apply Forall_forall. intros c Hc. apply repeat_spec in Hc. subst c. unfold is_digit_char. cbn. lia. }
  assert (Ne : repeat "0"%char (w - length (to_string z)) ++ to_string z <> []) by (intros X; apply app_eq_nil in X; tauto).
  split; [exact Ne|]. split; [exact F|]. split; [|rewrite app_length, repeat_length; lia].
  exists [], [], (repeat "0"%char (w - length (to_string z)) ++ to_string z), 1%Z. split; [reflexivity|]. split; [constructor|]. split; [constructor|]. split; [exact Ne|]. split; [exact F|]. rewrite decimal_value_zeros. lia.
Qed.
Lemma date_round_assembled y m d v : (0 <= y <= 2 ^ 31 - 1)%Z -> (0 <= m <= 2 ^ 31 - 1)%Z -> (0 <= d <= 2 ^ 31 - 1)%Z ->
  date_from_str (date_to_str (Date y m d)) v = Ok (Date y m d, true).
Proof.
  intros Hy Hm Hd. unfold date_from_str, date_to_str. cbn [d_year d_month d_day].
  destruct (pad_int_ok 4 y ltac:(lia)) as (Y1 & Y2 & Y3 & _). destruct (pad_int_ok 2 m ltac:(lia)) as (A1 & A2 & A3 & _). destruct (pad_int_ok 2 d ltac:(lia)) as (D1 & D2 & D3 & _).
  assert (Dg : forall s, Forall is_digit_char s -> Forall (fun c => ~ one_of (lit "-./") c) s).
  { intros s. apply Forall_impl. intros c Hc I. cbn in I. unfold is_digit_char in Hc. destruct I as [<-|[<-|[<-|[]]]]; cbn in Hc; lia. }
  pose proof (split_join [pad_int 4 y; pad_int 2 m; pad_int 2 d] (lit "-") (lit "-./")) as S. cbn [join lit list_ascii_of_string app] in S. unfold lit in *. cbn [list_ascii_of_string] in *. rewrite S; clear S.
  - cbn [obind]. rewrite (from_str_value KInt _ y Y3), (from_str_value KInt _ m A3), (from_str_value KInt _ d D3) by (cbn; lia). reflexivity.
  - cbn. intuition discriminate.
  - discriminate.
  - repeat constructor.
  - repeat constructor; auto.
Qed.
Lemma date_from_assembled s v : exists w b, date_from_str s v = Ok (w, b) /\
  (b = true <-> exists p1 p2 p3, pieces (one_of (lit "-./")) s [p1; p2; p3] /\ forall p, In p [p1; p2; p3] -> exists t r z, p = t ++ r /\ int_text t z) /\
  (forall p1 p2 p3 y m d, pieces (one_of (lit "-./")) s [p1; p2; p3] -> int_text p1 y -> int_text p2 m -> int_text p3 d ->
     (- 2 ^ 31 <= y < 2 ^ 31)%Z -> (- 2 ^ 31 <= m < 2 ^ 31)%Z -> (- 2 ^ 31 <= d < 2 ^ 31)%Z -> w = Date y m d /\ b = true).
Proof.
  assert (Nn : ~ In nul (lit "-./")) by (cbn; intuition discriminate). destruct (split_str_ok s (lit "-./") Nn) as (ps & E & P). unfold date_from_str. rewrite E. cbn [obind].
  assert (U : forall l, pieces (one_of (lit "-./")) s l -> l = ps) by (intros l Hl; apply (split_str_iff s (lit "-./") l Nn) in Hl; congruence).
  assert (Ok1 : forall p, snd (from_str_int KInt p) = true <-> exists t r z, p = t ++ r /\ int_text t z).
  { intros p. pose proof (from_str_fail KInt p) as F. destruct (snd (from_str_int KInt p)).
    - split; [intros _|reflexivity]. assert (D : (exists t r z, p = t ++ r /\ int_text t z) \/ ~ (exists t r z, p = t ++ r /\ int_text t z)).
      { destruct (scan_int p) as [[neg v0]|] eqn:Es; [left; apply scan_some in Es|right].
        - destruct Es as (t & r & -> & Ht & _). eauto.
        - intros (t & r & z & -> & Ht). exact (scan_prefix _ t r z eq_refl Ht Es). }
      destruct D as [D|D]; [exact D|]. apply F in D. discriminate.
    - split; [discriminate|]. intros X. exfalso. exact (proj1 F eq_refl X). }
  destruct ps as [|a [|b [|c [|e ps]]]].
  1-3, 5: eexists; eexists; (split; [reflexivity|]); (split; [split; [discriminate|intros (p1 & p2 & p3 & Hp & _); apply U in Hp; discriminate]|]); intros p1 p2 p3 y m d Hp; apply U in Hp; discriminate.
  destruct (from_str_int KInt a) as [y1 o1] eqn:E1. destruct (from_str_int KInt b) as [y2 o2] eqn:E2. destruct (from_str_int KInt c) as [y3 o3] eqn:E3.
  eexists. eexists. split; [reflexivity|]. split.
  - rewrite !andb_true_iff. split.
    + intros [[-> ->] ->]. exists a, b, c. split; [exact P|]. intros p [<-|[<-|[<-|[]]]]; apply Ok1; [rewrite E1|rewrite E2|rewrite E3]; reflexivity.
    + intros (p1 & p2 & p3 & Hp & K). apply U in Hp. injection Hp as -> -> ->. assert (snd (from_str_int KInt a) = true) by (apply Ok1, K; cbn; auto). assert (snd (from_str_int KInt b) = true) by (apply Ok1, K; cbn; auto).
      assert (snd (from_str_int KInt c) = true) by (apply Ok1, K; cbn; auto). rewrite E1 in *. rewrite E2 in *. rewrite E3 in *. auto.
  - intros p1 p2 p3 y m d Hp T1 T2 T3 B1 B2 B3. apply U in Hp. injection Hp as -> -> ->.
    rewrite (from_str_value KInt a y T1) in E1 by (cbn; lia). rewrite (from_str_value KInt b m T2) in E2 by (cbn; lia). rewrite (from_str_value KInt c d T3) in E3 by (cbn; lia).
    injection E1 as <- <-. injection E2 as <- <-. injection E3 as <- <-. auto.
Qed.

(** ** optional *)
Section CompactProofs.
  Context {T : Type} (none : T) (blank : T -> bool) (eqb : T -> T -> bool) (none_blank : blank none = true).
  Lemma copt_holds ops x : holds ops x -> (forall v, In (OAssign v) ops \/ In (OWrite v) ops -> blank v = false) ->
    match x with Some v => copt_run none ops = v /\ blank v = false | None => copt_run none ops = none end.
  Proof.
    unfold copt_run. induction 1 as [|ops v x H IH|ops x H IH|ops v w H IH]; intros B; [reflexivity|..]; rewrite fold_left_app; cbn [fold_left copt_step].
    - split; [reflexivity|]. apply B. left. apply in_or_app. right. left. reflexivity.
    - reflexivity.
    - split; [reflexivity|]. apply B. right. apply in_or_app. right. left. reflexivity.
  Qed.
  Lemma copt_assembled ops x : holds ops x -> (forall v, In (OAssign v) ops \/ In (OWrite v) ops -> blank v = false) ->
    copt_has blank (copt_run none ops) = (match x with Some _ => true | None => false end) /\
    copt_value blank (copt_run none ops) = (match x with Some v => Ok v | None => Throw end) /\
    (forall d, copt_value_or blank (copt_run none ops) d = match x with Some v => v | None => d end) /\
    (forall v, copt_eq_value blank eqb (copt_run none ops) v = match x with Some w => eqb w v | None => false end) /\
    (forall v, copt_ne_value blank eqb (copt_run none ops) v = negb (copt_eq_value blank eqb (copt_run none ops) v)) /\
    (forall ops' x', holds ops' x' -> (forall v, In (OAssign v) ops' \/ In (OWrite v) ops' -> blank v = false) ->
       copt_eq blank eqb (copt_run none ops) (copt_run none ops') = match x, x' with Some v, Some w => eqb w v | None, None => true | _, _ => false end).
  Proof.
    intros H B. pose proof (copt_holds ops x H B) as K.
    unfold copt_value, copt_value_or, copt_eq_value, copt_ne_value, copt_eq, copt_has.
    assert (G : forall ops' x', holds ops' x' -> (forall v, In (OAssign v) ops' \/ In (OWrite v) ops' -> blank v = false) -> blank (copt_run none ops') = match x' with Some _ => false | None => true end).
    { intros ops' x' H' B'. pose proof (copt_holds ops' x' H' B') as K'. destruct x'; [destruct K' as [-> ->]; reflexivity|rewrite K'; exact none_blank]. }
    rewrite (G ops x H B). split; [destruct x; reflexivity|]. split; [destruct x as [v|]; [destruct K as [-> _]|]; reflexivity|].
    split; [intros d; destruct x as [v|]; [destruct K as [-> _]|]; reflexivity|]. split; [intros v; destruct x as [w|]; [destruct K as [-> _]|]; reflexivity|].
    split; [intros v; unfold copt_eq_value, copt_has; rewrite (G ops x H B); reflexivity|].
    intros ops' x' H' B'. rewrite (G ops' x' H' B'). pose proof (copt_holds ops' x' H' B') as K'. destruct x as [v|]; [destruct K as [-> _]|]; (destruct x' as [w|]; [destruct K' as [-> _]|]); cbn; try reflexivity; rewrite ?orb_false_r; reflexivity.
  Qed.
End CompactProofs.
Section FlaggedProofs.
  Context {T : Type} (dflt : T) (eqb : T -> T -> bool).
  Lemma fopt_holds ops x : holds ops x -> match x with Some v => fopt_run dflt ops = Fopt v true | None => fopt_run dflt ops = Fopt dflt false end.
  Proof.
    unfold fopt_run. induction 1 as [|ops v x H IH|ops x H IH|ops v w H IH]; [reflexivity|..]; rewrite fold_left_app; cbn [fold_left fopt_step]; try reflexivity. rewrite IH. reflexivity.
  Qed.
  Lemma fopt_assembled ops x : holds ops x ->
    f_has (fopt_run dflt ops) = (match x with Some _ => true | None => false end) /\
    fopt_value (fopt_run dflt ops) = (match x with Some v => Ok v | None => Throw end) /\
    (forall d, fopt_value_or (fopt_run dflt ops) d = match x with Some v => v | None => d end) /\
    (forall v, fopt_eq_value eqb (fopt_run dflt ops) v = match x with Some w => eqb w v | None => false end) /\
    (forall v, fopt_ne_value eqb (fopt_run dflt ops) v = negb (fopt_eq_value eqb (fopt_run dflt ops) v)) /\
    (forall ops' x', holds ops' x' -> fopt_eq eqb (fopt_run dflt ops) (fopt_run dflt ops') = match x, x' with Some v, Some w => eqb w v | None, None => true | _, _ => false end).
  Proof.
    intros H. pose proof (fopt_holds ops x H) as K. unfold fopt_value, fopt_value_or, fopt_eq_value, fopt_ne_value, fopt_eq.
    destruct x as [v|]; rewrite K; cbn; (repeat split); intros ops' x' H'; pose proof (fopt_holds ops' x' H') as K'; destruct x'; rewrite K'; cbn; rewrite ?orb_false_r; reflexivity.
  Qed.
End FlaggedProofs.
Lemma opt_ne_never {O} fuel : forall a b : O, opt_ne fuel a b = None.
Proof. induction fuel as [|fuel IH]; intros a b; [reflexivity|]. cbn [opt_ne]. apply IH. Qed.

(** ** result *)
Section ResultProofs.
  Context {T : Type} (dflt : T).
  Lemma res_run_snoc first ops op : res_run dflt first (ops ++ [op]) = res_assign (res_run dflt first ops) op.
  Proof. unfold res_run. rewrite fold_left_app. reflexivity. Qed.
  Lemma res_assembled first ops : let last := List.last ops first in
    match last with
    | RValue v => res_has (res_run dflt first ops) = true /\ r_value (res_run dflt first ops) = v /\ r_error (res_run dflt first ops) = []
    | RError e => r_error (res_run dflt first ops) = e /\ (e <> [] -> res_has (res_run dflt first ops) = false)
    end.
  Proof.
    cbv zeta. destruct ops as [|op ops _] using rev_ind.
    - cbn. destruct first as [v|e]; cbn; [auto|]. split; [reflexivity|]. intros H. unfold res_has. cbn. destruct e; [congruence|reflexivity].
    - rewrite last_last, res_run_snoc. destruct op as [v|e]; cbn; [auto|]. split; [reflexivity|]. intros H. unfold res_has. cbn. destruct e; [congruence|reflexivity].
  Qed.
End ResultProofs.

(** ** stop tokens *)
Lemma vec_get_ok {A} (l : list A) i a : nth_error l i = Some a -> vec_get l i = Ok a.
Proof. unfold vec_get. intros ->. reflexivity. Qed.
Lemma vec_set_ok {A} (l : list A) i a : i < length l -> vec_set l i a = Ok (list_set l i a).
Proof. unfold vec_set. intros H. destruct (Nat.ltb_spec i (length l)); [reflexivity|lia]. Qed.
Lemma nth_snoc {A} (l : list A) a i : nth_error (l ++ [a]) i = if i =? length l then Some a else nth_error l i.
Proof.
  destruct (Nat.eqb_spec i (length l)) as [->|N]; [rewrite nth_error_app2, Nat.sub_diag by lia; reflexivity|]. destruct (Nat.lt_ge_cases i (length l)); [apply nth_error_app1; lia|].
  rewrite (proj2 (nth_error_None l i)) by lia. apply nth_error_None. rewrite app_length. cbn. lia.
Qed.
Lemma nth_set {A} (l : list A) i j a : i < length l -> nth_error (list_set l i a) j = if j =? i then Some a else nth_error l j.
Proof. intros L. destruct (Nat.eqb_spec j i) as [->|N]; [apply nth_error_list_set_eq; lia|apply nth_error_list_set_neq; lia]. Qed.
Definition agrees (h : list stop_op) (s : stop_sys) : Prop :=
  length (st_sources s) = sources h /\ length (st_tokens s) = tokens h /\ length (st_heap s) = made h /\
  (forall i, i < sources h -> nth_error (st_sources s) i = Some (source_origin h i)) /\
  (forall i, i < tokens h -> nth_error (st_tokens s) i = Some (token_origin h i)) /\
  (forall o, o < made h -> exists b, nth_error (st_heap s) o = Some b /\ (b = true <-> requested h o)).
Lemma origin_made h : valid_history h -> (forall i o, source_origin h i = Some o -> o < made h) /\ (forall i o, token_origin h i = Some o -> o < made h).
Proof.
  induction h as [|op h IH]; [intros _; split; discriminate|]. intros [V _]. destruct (IH V) as [I1 I2].
  destruct op; split; intros k o; cbn [source_origin token_origin made]; intros E;
    repeat match type of E with context [if ?c then _ else _] => destruct c end;
    first [discriminate E | injection E as <-; lia | (apply I1 in E; lia) | (apply I2 in E; lia)].
Qed.
Lemma requested_cons op h o : requested (op :: h) o <-> requested h o \/ exists i, op = SRequest i /\ source_origin h i = Some o.
Proof.
  split.
  - intros (later & i & earlier & E & O). destruct later as [|x later]; [injection E as -> ->; right; eauto|]. injection E as -> ->. left. exists later, i, earlier. auto.
  - intros [(later & i & earlier & -> & O)|(i & -> & O)]; [exists (op :: later), i, earlier; auto|exists [], i, h; auto].
Qed.
Lemma requested_made h o : valid_history h -> requested h o -> o < made h.
Proof.
  revert o. induction h as [|op h IH]; intros o V R; [destruct R as (later & ? & ? & E & _); destruct later; discriminate|].
  pose proof V as V0. destruct V as [V _]. apply requested_cons in R. assert (o < made h) by (destruct R as [R|(i & -> & O)]; [auto|exact (proj1 (origin_made h V) i o O)]). destruct op; cbn [made]; lia.
Qed.
Lemma stop_agrees h : valid_history h -> exists s, stop_run h = Ok s /\ agrees h s.
Proof.
  induction h as [|op h IH]; intros V.
  - exists stop_init. split; [reflexivity|]. repeat split; cbn; intros; lia.
  - pose proof V as V0. destruct V as [V C]. destruct (IH V) as (s & E & Ls & Lt & Lh & As & At & Ah). cbn [stop_run]. rewrite E. cbn [obind].
    assert (NR : forall o, (forall i, op <> SRequest i) -> (requested (op :: h) o <-> requested h o)).
    { intros o N. rewrite requested_cons. split; [intros [R|(i & -> & _)]; [exact R|exfalso; exact (N i eq_refl)]|auto]. }
    destruct op as [|i|i|i j| |i|i|i|i j|i]; cbn [stop_step].
    + eexists. split; [reflexivity|]. unfold agrees. cbn [st_heap st_sources st_tokens sources tokens made source_origin token_origin]. rewrite !app_length. cbn [length].
      split; [lia|]. split; [lia|]. split; [lia|]. split; [|split; [exact At|]].
      * intros k Hk. rewrite nth_snoc, Ls, Lh. destruct (Nat.eqb_spec k (sources h)); [reflexivity|]. apply As. lia.
      * intros o Ho. rewrite nth_snoc, Lh. destruct (Nat.eqb_spec o (made h)) as [->|N].
        -- exists false. split; [reflexivity|]. split; [discriminate|]. intros R. apply NR in R; [|discriminate]. apply (requested_made h _ V) in R. lia.
        -- destruct (Ah o ltac:(lia)) as (b & Hb & R). exists b. split; [exact Hb|]. rewrite R. symmetry. apply NR. discriminate.
    + rewrite (vec_get_ok _ _ _ (As i C)). cbn [obind]. eexists. split; [reflexivity|]. unfold agrees. cbn [st_heap st_sources st_tokens sources tokens made source_origin token_origin]. rewrite app_length. cbn [length].
      split; [lia|]. split; [lia|]. split; [lia|]. split; [|split; [exact At|]].
      * intros k Hk. rewrite nth_snoc, Ls. destruct (Nat.eqb_spec k (sources h)); [reflexivity|]. apply As. lia.
      * intros o Ho. destruct (Ah o Ho) as (b & Hb & R). exists b. split; [exact Hb|]. rewrite R. symmetry. apply NR. discriminate.
    + rewrite (vec_get_ok _ _ _ (As i C)). cbn [obind]. rewrite vec_set_ok by lia. cbn [obind]. eexists. split; [reflexivity|]. unfold agrees. cbn [st_heap st_sources st_tokens sources tokens made source_origin token_origin].
      rewrite app_length, list_set_length. cbn [length]. split; [lia|]. split; [lia|]. split; [lia|]. split; [|split; [exact At|]].
      * intros k Hk. rewrite nth_snoc, list_set_length, Ls. destruct (Nat.eqb_spec k (sources h)); [reflexivity|]. rewrite nth_set by lia. destruct (k =? i); [reflexivity|]. apply As. lia.
      * intros o Ho. destruct (Ah o Ho) as (b & Hb & R). exists b. split; [exact Hb|]. rewrite R. symmetry. apply NR. discriminate.
    + destruct C as [Ci Cj]. rewrite (vec_get_ok _ _ _ (As j Cj)). cbn [obind]. rewrite vec_set_ok by lia. cbn [obind]. eexists. split; [reflexivity|]. unfold agrees.
      cbn [st_heap st_sources st_tokens sources tokens made source_origin token_origin]. rewrite list_set_length. split; [lia|]. split; [lia|]. split; [lia|]. split; [|split; [exact At|]].
      * intros k Hk. rewrite nth_set by lia. destruct (k =? i); [reflexivity|]. apply As. lia.
      * intros o Ho. destruct (Ah o Ho) as (b & Hb & R). exists b. split; [exact Hb|]. rewrite R. symmetry. apply NR. discriminate.
    + eexists. split; [reflexivity|]. unfold agrees. cbn [st_heap st_sources st_tokens sources tokens made source_origin token_origin]. rewrite app_length. cbn [length].
      split; [lia|]. split; [lia|]. split; [lia|]. split; [exact As|]. split.
      * intros k Hk. rewrite nth_snoc, Lt. destruct (Nat.eqb_spec k (tokens h)); [reflexivity|]. apply At. lia.
      * intros o Ho. destruct (Ah o Ho) as (b & Hb & R). exists b. split; [exact Hb|]. rewrite R. symmetry. apply NR. discriminate.
    + rewrite (vec_get_ok _ _ _ (As i C)). cbn [obind]. eexists. split; [reflexivity|]. unfold agrees. cbn [st_heap st_sources st_tokens sources tokens made source_origin token_origin]. rewrite app_length. cbn [length].
      split; [lia|]. split; [lia|]. split; [lia|]. split; [exact As|]. split.
      * intros k Hk. rewrite nth_snoc, Lt. destruct (Nat.eqb_spec k (tokens h)); [reflexivity|]. apply At. lia.
      * intros o Ho. destruct (Ah o Ho) as (b & Hb & R). exists b. split; [exact Hb|]. rewrite R. symmetry. apply NR. discriminate.
    + rewrite (vec_get_ok _ _ _ (At i C)). cbn [obind]. eexists. split; [reflexivity|]. unfold agrees. cbn [st_heap st_sources st_tokens sources tokens made source_origin token_origin]. rewrite app_length. cbn [length].
      split; [lia|]. split; [lia|]. split; [lia|]. split; [exact As|]. split.
      * intros k Hk. rewrite nth_snoc, Lt. destruct (Nat.eqb_spec k (tokens h)); [reflexivity|]. apply At. lia.
      * intros o Ho. destruct (Ah o Ho) as (b & Hb & R). exists b. split; [exact Hb|]. rewrite R. symmetry. apply NR. discriminate.
    + rewrite (vec_get_ok _ _ _ (At i C)). cbn [obind]. rewrite vec_set_ok by lia. cbn [obind]. eexists. split; [reflexivity|]. unfold agrees. cbn [st_heap st_sources st_tokens sources tokens made source_origin token_origin].
      rewrite app_length, list_set_length. cbn [length]. split; [lia|]. split; [lia|]. split; [lia|]. split; [exact As|]. split.
      * intros k Hk. rewrite nth_snoc, list_set_length, Lt. destruct (Nat.eqb_spec k (tokens h)); [reflexivity|]. rewrite nth_set by lia. destruct (k =? i); [reflexivity|]. apply At. lia.
      * intros o Ho. destruct (Ah o Ho) as (b & Hb & R). exists b. split; [exact Hb|]. rewrite R. symmetry. apply NR. discriminate.
    + destruct C as [Ci Cj]. rewrite (vec_get_ok _ _ _ (At j Cj)). cbn [obind]. rewrite vec_set_ok by lia. cbn [obind]. eexists. split; [reflexivity|]. unfold agrees.
      cbn [st_heap st_sources st_tokens sources tokens made source_origin token_origin]. rewrite list_set_length. split; [lia|]. split; [lia|]. split; [lia|]. split; [exact As|]. split.
      * intros k Hk. rewrite nth_set by lia. destruct (k =? i); [reflexivity|]. apply At. lia.
      * intros o Ho. destruct (Ah o Ho) as (b & Hb & R). exists b. split; [exact Hb|]. rewrite R. symmetry. apply NR. discriminate.
    + destruct C as [Ci Cn]. rewrite (vec_get_ok _ _ _ (As i Ci)). cbn [obind]. destruct (source_origin h i) as [a|] eqn:Eo; [|congruence].
      pose proof (proj1 (origin_made h V) i a Eo) as La. rewrite vec_set_ok by lia. cbn [obind]. eexists. split; [reflexivity|]. unfold agrees.
      cbn [st_heap st_sources st_tokens sources tokens made source_origin token_origin]. rewrite list_set_length. split; [lia|]. split; [lia|]. split; [lia|]. split; [exact As|]. split; [exact At|].
      intros o Ho. rewrite nth_set by lia. destruct (Nat.eqb_spec o a) as [->|N].
      * exists true. split; [reflexivity|]. split; [|reflexivity]. intros _. apply requested_cons. right. eauto.
      * destruct (Ah o Ho) as (b & Hb & R). exists b. split; [exact Hb|]. rewrite R, requested_cons. split; [auto|]. intros [X|(k & [= <-] & X)]; [exact X|congruence].
Qed.
Lemma stop_assembled h : valid_history h -> exists s, stop_run h = Ok s /\
  (forall i, i < tokens h -> exists b, token_requested s i = Ok b /\ (b = true <-> exists o, token_origin h i = Some o /\ requested h o)) /\
  (forall i, i < sources h -> exists b, source_requested s i = Ok b /\ (b = true <-> exists o, source_origin h i = Some o /\ requested h o)) /\
  (forall i, i < tokens h -> exists b, token_possible s i = Ok b /\ (b = true <-> token_origin h i <> None)).
Proof.
  intros V. destruct (stop_agrees h V) as (s & E & Ls & Lt & Lh & As & At & Ah). exists s. split; [exact E|]. destruct (origin_made h V) as [O1 O2]. split; [|split].
  - intros i L. unfold token_requested. rewrite (vec_get_ok _ _ _ (At i L)). cbn [obind]. destruct (token_origin h i) as [o|] eqn:Eo; cbn [stop_requested].
    + destruct (Ah o (O2 i o Eo)) as (b & Hb & R). exists b. split; [apply vec_get_ok; exact Hb|]. rewrite R. split; [eauto|]. intros (o' & [= <-] & X). exact X.
    + exists false. split; [reflexivity|]. split; [discriminate|]. intros (o & X & _). discriminate.
  - intros i L. unfold source_requested. rewrite (vec_get_ok _ _ _ (As i L)). cbn [obind]. destruct (source_origin h i) as [o|] eqn:Eo; cbn [stop_requested].
    + destruct (Ah o (O1 i o Eo)) as (b & Hb & R). exists b. split; [apply vec_get_ok; exact Hb|]. rewrite R. split; [eauto|]. intros (o' & [= <-] & X). exact X.
    + exists false. split; [reflexivity|]. split; [discriminate|]. intros (o & X & _). discriminate.
  - intros i L. unfold token_possible. rewrite (vec_get_ok _ _ _ (At i L)). cbn [obind]. eexists. split; [reflexivity|]. destruct (token_origin h i); split; congruence.
Qed.
(** tokens that were not moved from or assigned over keep reporting *)
Lemma token_origin_later later h i : valid_history (later ++ h) -> i < tokens h ->
  (forall op, In op later -> op <> TMove i /\ forall j, op <> TAssign i j) -> token_origin (later ++ h) i = token_origin h i.
Proof.
  induction later as [|op later IH]; intros V L N; [reflexivity|]. cbn [app] in *. destruct V as [V C]. specialize (IH V L (fun o I => N o (or_intror I))).
  assert (Le : tokens h <= tokens (later ++ h)) by (clear; induction later as [|op later IH]; [cbn; lia|]; cbn [app]; destruct op; cbn [tokens]; lia).
  destruct (N op (or_introl eq_refl)) as [N1 N2]. destruct op as [|k|k|k j| |k|k|k|k j|k]; cbn [token_origin]; try exact IH;
    try (destruct (Nat.eqb_spec i (tokens (later ++ h))); [lia|exact IH]).
  - destruct (Nat.eqb_spec i (tokens (later ++ h))); [lia|]. destruct (Nat.eqb_spec i k) as [->|]; [congruence|exact IH].
  - destruct (Nat.eqb_spec i k) as [->|]; [exfalso; exact (N2 j eq_refl)|exact IH].
Qed.
Lemma stop_forever_assembled later h s t i : valid_history (later ++ h) -> i < tokens h -> stop_run h = Ok s -> stop_run (later ++ h) = Ok t ->
  (forall op, In op later -> op <> TMove i /\ forall j, op <> TAssign i j) -> token_requested s i = Ok true -> token_requested t i = Ok true.
Proof.
  intros V L Es Et N R. assert (Vh : valid_history h) by (clear - V; induction later as [|op later IH]; [exact V|destruct V as [V _]; auto]).
  destruct (stop_assembled h Vh) as (s' & Es' & A1 & _). rewrite Es in Es'. injection Es' as <-. destruct (A1 i L) as (b & Eb & Rb). rewrite R in Eb. injection Eb as <-.
  destruct (proj1 Rb eq_refl) as (o & Oo & Ro). destruct (stop_assembled _ V) as (t' & Et' & B1 & _). rewrite Et in Et'. injection Et' as <-.
  assert (Le : i < tokens (later ++ h)) by (clear - L; induction later as [|op later IH]; [exact L|]; cbn [app]; destruct op; cbn [tokens]; lia).
  destruct (B1 i Le) as (b & Eb & Rb'). rewrite Eb. f_equal. apply Rb'. exists o. rewrite (token_origin_later later h i V L N). split; [exact Oo|].
  clear - Ro. induction later as [|op later IH]; [exact Ro|]. apply requested_cons. left. exact IH.
Qed.

(** ** sides *)
Lemma side_eqb_eq a b : side_eqb a b = true <-> a = b.
Proof. destruct a, b; cbn; split; congruence. Qed.
Lemma lr_absurd a b : a ++ lit "_l" <> b ++ lit "_r".
Proof.
  intros E. apply (f_equal (@rev ascii)) in E. rewrite !rev_app_distr in E. discriminate E.
Qed.
Lemma get_side_iff s x : str_get_side s = x <-> exists base, has_side s base x.
Proof.
  unfold str_get_side, has_side. destruct (str_ends_with s (lit "_l")) eqn:El.
  - apply ends_with_iff in El. destruct El as (r & ->). split.
    + intros <-. exists r. split; [reflexivity|discriminate].
    + intros (b & E & N). destruct x; [reflexivity|exfalso; exact (N eq_refl r Left ltac:(discriminate) eq_refl)|]. exfalso. exact (lr_absurd _ _ E).
  - destruct (str_ends_with s (lit "_r")) eqn:Er.
    + apply ends_with_iff in Er. destruct Er as (r & ->). split.
      * intros <-. exists r. split; [reflexivity|discriminate].
      * intros (b & E & N). destruct x; [|exfalso; exact (N eq_refl r Right ltac:(discriminate) eq_refl)|reflexivity]. exfalso. assert (X : str_ends_with (r ++ lit "_r") (lit "_l") = true) by (apply ends_with_iff; exists b; exact E). congruence.
    + split.
      * intros <-. exists s. split; [symmetry; apply app_nil_r|]. intros _ b y Ny E. destruct y; [|congruence|].
        -- assert (X : str_ends_with s (lit "_l") = true) by (apply ends_with_iff; exists b; exact E). congruence.
        -- assert (X : str_ends_with s (lit "_r") = true) by (apply ends_with_iff; exists b; exact E). congruence.
      * intros (b & E & N). destruct x; [exfalso|reflexivity|exfalso].
        -- assert (X : str_ends_with s (lit "_l") = true) by (apply ends_with_iff; exists b; exact E). congruence.
        -- assert (X : str_ends_with s (lit "_r") = true) by (apply ends_with_iff; exists b; exact E). congruence.
Qed.
Lemma side_base_unique s b b' x x' : has_side s b x -> has_side s b' x' -> b = b' /\ x = x'.
Proof.
  intros H H'. assert (x = x') as <-. { rewrite <- (proj2 (get_side_iff s x) (ex_intro _ b H)). exact (proj2 (get_side_iff s x') (ex_intro _ b' H')). }
  split; [|reflexivity]. destruct H as [H _], H' as [H' _]. rewrite H in H'. apply app_inv_tail in H'. exact H'.
Qed.
Lemma remove_side_ok s base x : has_side s base x -> str_remove_side s = Ok base.
Proof.
  intros H. unfold str_remove_side. rewrite (proj2 (get_side_iff s x) (ex_intro _ base H)). destruct H as [-> _].
  destruct x; cbn [side_eqb negb side_suffix]; [|rewrite app_nil_r; reflexivity|]; unfold left_str; cbn [Z.leb]; change (0 <=? -2)%Z with false; cbv iota; rewrite app_length; cbn [lit list_ascii_of_string length];
    (replace (Z.to_nat (Z.max 0 (Z.of_nat (length base + 2) + -2))) with (length base) by lia); apply substr_front.
Qed.
Lemma set_back_ok base a c d : set_back (base ++ [a; c]) d = Ok (base ++ [a; d]).
Proof.
  unfold set_back. assert (E : base ++ [a; c] = (base ++ [a]) ++ [c]) by (rewrite <- app_assoc; reflexivity). destruct (base ++ [a; c]) as [|x l] eqn:El; [destruct base; discriminate|]. rewrite E. clear El E.
  rewrite vec_set_ok by (rewrite !app_length; cbn; lia). rewrite !app_length. cbn [length]. rewrite list_set_app2 by (rewrite app_length; cbn; lia). rewrite app_length. cbn [length].
  replace (length base + 1 + 1 - 1 - (length base + 1)) with 0 by lia. cbn. rewrite <- app_assoc. reflexivity.
Qed.
Lemma set_side_ok s base cur x : has_side s base cur -> str_set_side s x = Ok (base ++ side_suffix x).
Proof.
  intros H. unfold str_set_side. rewrite (proj2 (get_side_iff s cur) (ex_intro _ base H)). pose proof (remove_side_ok s base cur H) as R. destruct H as [-> _].
  destruct cur, x; cbn [side_eqb]; cbv iota; cbn [side_suffix] in *; rewrite ?app_nil_r in *; try reflexivity; try exact R; unfold lit; cbn [list_ascii_of_string]; rewrite set_back_ok; reflexivity.
Qed.
Lemma mirrored_side_ok s base x : has_side s base x -> str_mirrored_side s = Ok (base ++ side_suffix (opposite x)).
Proof.
  intros H. unfold str_mirrored_side. rewrite (proj2 (get_side_iff s x) (ex_intro _ base H)). destruct H as [-> _].
  destruct x; cbn [side_eqb negb opposite side_suffix]; try reflexivity; unfold lit; cbn [list_ascii_of_string]; rewrite set_back_ok; reflexivity.
Qed.
Lemma mirror_side_same s : str_mirror_side s = str_mirrored_side s.
Proof.
  unfold str_mirror_side, str_mirrored_side, str_get_side. destruct (str_ends_with s (lit "_l")) eqn:El, (str_ends_with s (lit "_r")) eqn:Er; cbn [side_eqb negb]; try reflexivity.
  exfalso. apply ends_with_iff in El, Er. destruct El as (r & ->), Er as (r' & E). exact (lr_absurd _ _ E).
Qed.
Lemma has_side_suffix base x : x <> NoSide -> has_side (base ++ side_suffix x) base x.
Proof. intros N. split; [reflexivity|congruence]. Qed.
Lemma has_side_total s : exists base x, has_side s base x.
Proof. destruct (proj1 (get_side_iff s _) eq_refl) as (b & H). eauto. Qed.
Lemma side_assembled s : exists base x, has_side s base x /\ (forall base' x', has_side s base' x' -> base' = base /\ x' = x) /\
  str_get_side s = x /\ str_remove_side s = Ok base /\ str_mirror_side s = Ok (base ++ side_suffix (opposite x)) /\ str_mirrored_side s = Ok (base ++ side_suffix (opposite x)) /\
  (forall y, str_set_side s y = Ok (base ++ side_suffix y)) /\ (forall p, str_append_before_side s p = Ok (base ++ p ++ side_suffix x)).
Proof.
  destruct (has_side_total s) as (base & x & H). exists base, x. split; [exact H|]. split; [intros b' x' H'; destruct (side_base_unique s b' base x' x H' H); auto|].
  pose proof (proj2 (get_side_iff s x) (ex_intro _ base H)) as G. split; [exact G|]. split; [apply (remove_side_ok _ _ _ H)|]. split; [rewrite mirror_side_same; apply (mirrored_side_ok _ _ _ H)|].
  split; [apply (mirrored_side_ok _ _ _ H)|]. split; [intros y; apply (set_side_ok _ _ _ y H)|]. intros p. unfold str_append_before_side. rewrite (remove_side_ok _ _ _ H). cbn [obind]. rewrite G. destruct x; reflexivity.
Qed.
Lemma mirror_twice_assembled s : exists t, str_mirrored_side s = Ok t /\ str_mirrored_side t = Ok s /\ str_get_side t = opposite (str_get_side s).
Proof.
  destruct (has_side_total s) as (base & x & H). pose proof (proj2 (get_side_iff s x) (ex_intro _ base H)) as G. exists (base ++ side_suffix (opposite x)). split; [apply (mirrored_side_ok _ _ _ H)|].
  assert (H2 : has_side (base ++ side_suffix (opposite x)) base (opposite x)).
  { destruct x; [apply has_side_suffix; discriminate| |apply has_side_suffix; discriminate]. cbn [opposite]. pose proof H as [E _]. rewrite <- E. exact H. }
  rewrite (mirrored_side_ok _ _ _ H2), G. split; [destruct H as [-> _]; destruct x; reflexivity|]. apply get_side_iff. exists base. exact H2.
Qed.
Lemma set_side_get_assembled s x : exists t, str_set_side s x = Ok t /\ (x <> NoSide -> str_get_side t = x).
Proof.
  destruct (has_side_total s) as (base & y & H). exists (base ++ side_suffix x). split; [apply (set_side_ok _ _ _ x H)|]. intros N. apply get_side_iff. exists base. apply has_side_suffix, N.
Qed.

(** ** irange *)
Lemma irange_loop_ok n : forall fuel b s, (s <> 0)%Z -> n <= fuel -> irange_loop fuel b (b + Z.of_nat n * s)%Z s = Some (map (fun i => (b + Z.of_nat i * s)%Z) (seq 0 n)).
Proof.
  induction n as [|n IH]; intros fuel b s Ns L.
  - replace (b + Z.of_nat 0 * s)%Z with b by lia. destruct fuel; cbn [irange_loop]; rewrite Z.eqb_refl; reflexivity.
  - destruct fuel as [|fuel]; [lia|]. cbn [irange_loop]. destruct (Z.eqb_spec (b + Z.of_nat (S n) * s) b) as [E|E]; [exfalso; nia|].
    replace (b + Z.of_nat (S n) * s)%Z with ((b + s) + Z.of_nat n * s)%Z by lia. rewrite (IH fuel (b + s)%Z s Ns) by lia. cbn [option_map seq map]. f_equal. f_equal; [lia|]. rewrite <- seq_shift, map_map. apply map_ext. intros i. lia.
Qed.
Lemma irange_loop_none fuel : forall b e s, (forall n : nat, e <> b + Z.of_nat n * s)%Z -> irange_loop fuel b e s = None.
Proof.
  induction fuel as [|fuel IH]; intros b e s N; cbn [irange_loop]; (destruct (Z.eqb_spec e b) as [E|E]; [exfalso; apply (N 0); lia|]); [reflexivity|].
  rewrite IH; [reflexivity|]. intros n X. apply (N (S n)). lia.
Qed.
Lemma irange_assembled b e :
  ((b <= e)%Z -> forall fuel, (e - b <= Z.of_nat fuel)%Z -> irange_values fuel b e = Some (map (fun i => (b + Z.of_nat i)%Z) (seq 0 (Z.to_nat (e - b))))) /\
  ((e < b)%Z -> forall fuel, irange_values fuel b e = None).
Proof.
  unfold irange_values. split.
  - intros L fuel F. replace e with (b + Z.of_nat (Z.to_nat (e - b)) * 1)%Z at 1 by lia. rewrite irange_loop_ok by lia. f_equal. apply map_ext. intros i. lia.
  - intros L fuel. apply irange_loop_none. intros n. lia.
Qed.
Lemma irange_step_assembled b e s : (s <> 0)%Z ->
  (forall n, e = (b + Z.of_nat n * s)%Z -> forall fuel, n <= fuel -> irange_step_values fuel b e s = Some (map (fun i => (b + Z.of_nat i * s)%Z) (seq 0 n))) /\
  ((forall n : nat, e <> (b + Z.of_nat n * s)%Z) -> forall fuel, irange_step_values fuel b e s = None).
Proof. intros N. split; [intros n -> fuel L; apply irange_loop_ok; assumption|intros X fuel; apply irange_loop_none; exact X]. Qed.
Lemma enum_round_assembled text names i : enumerators text names -> NoDup names -> i < length names -> enum_from_str (enum_to_str (Z.of_nat i) text) text = Ok (Some i).
Proof.
  intros H N L. rewrite (enum_to_assembled text names (Z.of_nat i) H), Nat2Z.id. destruct (nth_error names i) as [n|] eqn:E; [|apply nth_error_None in E; lia].
  apply (enum_from_assembled n text names H). split; [exact E|]. intros j Hj Ej. pose proof (proj1 (NoDup_nth_error names) N j i ltac:(lia) ltac:(congruence)). lia.
Qed.
