(** Properties of the string helpers: C19, C25, C26, C27, C64, C65, C66. *)
From Coq Require Import Ascii String List Arith Bool ZArith Lia.
From Verif Require Import Base Str StrSpec StrModel StrProofs.
Import ListNotations.

(** C25: search predicates mean what their names say. *)
Theorem C25_search (s sub : str) (c : ascii) (p i : nat) :
  (str_begins_with s sub = true <-> exists r, s = sub ++ r) /\
  (str_ends_with s sub = true <-> exists r, s = r ++ sub) /\
  (str_contains s sub = true <-> exists a b, s = a ++ sub ++ b) /\
  (str_begins_with_char s c = true <-> exists r, s = c :: r) /\
  (str_ends_with_char s c = true <-> exists r, s = r ++ [c]) /\
  (str_contains_char s c = true <-> In c s) /\
  (str_begins_with_at s sub p = true <-> p < length s /\ occurs_at s sub p) /\
  (in_str s sub p = Some i <-> first_occurrence s sub p i) /\
  (in_str s sub p = None <-> forall j, p <= j -> ~ occurs_at s sub j).
Proof. exact (search_assembled s sub c p i). Qed.
Print Assumptions C25_search.

Example C25_search_ex :
  str_begins_with (lit "abab") (lit "ab") = true /\ str_ends_with (lit "abab") (lit "bab") = true /\
  str_contains (lit "abab") (lit "ba") = true /\ str_contains (lit "abab") (lit "bb") = false /\
  in_str (lit "abab") (lit "ab") 1 = Some 2 /\ in_str (lit "abab") (lit "ab") 3 = None.
Proof. vm_compute. repeat split. Qed.

(** C25: left_str, right_str, mid_str (n counts from the named end, negative n leaves n characters out). *)
Theorem C25_substring (s : str) (n p : nat) :
  (exists b t, left_str s (Z.of_nat n) = Ok t /\ s = t ++ b /\ length t = Nat.min n (length s)) /\
  (0 < n -> exists b t, left_str s (- Z.of_nat n) = Ok t /\ s = t ++ b /\ length t = length s - n) /\
  (n <= length s -> exists a t, right_str s (Z.of_nat n) = Ok t /\ s = a ++ t /\ length t = n) /\
  (0 < n <= length s -> exists a t, right_str s (- Z.of_nat n) = Ok t /\ s = a ++ t /\ length a = n) /\
  (length s < n -> right_str s (Z.of_nat n) = Throw /\ right_str s (- Z.of_nat n) = Throw) /\
  (p <= length s -> exists a b t, mid_str s p (Some n) = Ok t /\ s = a ++ t ++ b /\ length a = p /\ length t = Nat.min n (length s - p)) /\
  (p <= length s -> exists a t, mid_str s p None = Ok t /\ s = a ++ t /\ length a = p) /\
  (length s < p -> mid_str s p (Some n) = Throw /\ mid_str s p None = Throw).
Proof. exact (substring_assembled s n p). Qed.
Print Assumptions C25_substring.

Example C25_substring_ex :
  left_str (lit "hello") 2 = Ok (lit "he") /\ left_str (lit "hello") (-2) = Ok (lit "hel") /\
  right_str (lit "hello") 2 = Ok (lit "lo") /\ right_str (lit "hello") (-2) = Ok (lit "llo") /\
  right_str (lit "hello") 6 = Throw /\ mid_str (lit "hello") 1 (Some 3) = Ok (lit "ell") /\ mid_str (lit "hello") 6 None = Throw.
Proof. vm_compute. repeat split. Qed.

(** C25: find_nth_str, for text that does not start with the searched string. *)
Theorem C25_find_nth_partial (s sub : str) (n i : nat) :
  ~ occurs_at s sub 0 ->
  (find_nth_str s sub (S n) = Some i <->
   exists is, length is = n /\ occurrences_from s sub 0 (is ++ [i])).
Proof. exact (find_nth_str_ok s sub n i). Qed.
Print Assumptions C25_find_nth_partial.

Example C25_find_nth_ex : find_nth_str (lit "xaaxa") (lit "a") 3 = Some 4 /\ find_nth_str (lit "xaaxa") (lit "a") 4 = None.
Proof. vm_compute. repeat split. Qed.

(** C25: when the searched string stands at position 0, every n-th occurrence is reported there. *)
Theorem C25_find_nth_refuted :
  exists s sub n i, ~ (find_nth_str s sub (S n) = Some i <->
    exists is, length is = n /\ occurrences_from s sub 0 (is ++ [i])).
Proof.
  exists (lit "aba"), (lit "a"), 1, 2. intros [_ H].
  assert (Hx : exists is, length is = 1 /\ occurrences_from (lit "aba") (lit "a") 0 (is ++ [2])).
  { exists [0]. split; [reflexivity|]. cbn [app occurrences_from]. split; [|split; [|exact I]].
    - split; [lia|]. split; [exists [], (lit "ba"); auto|lia].
    - split; [lia|]. split; [exists (lit "ab"), []; auto|]. intros j Hj (a & b & E & Hl).
      assert (j = 1) as -> by lia. destruct a as [|x [|y a]]; try discriminate. }
  specialize (H Hx). vm_compute in H. discriminate.
Qed.
Print Assumptions C25_find_nth_refuted.

(** C26: replace_str. *)
Theorem C26_replace (s f w r : str) :
  f <> [] ->
  (replace_str s f w = Ok r <-> replaced f w s r) /\ (exists r, replace_str s f w = Ok r).
Proof. exact (fun H => conj (replace_str_iff s f w r H) (replace_str_total s f w H)). Qed.
Print Assumptions C26_replace.

Example C26_replace_ex :
  replace_str (lit "aaaba") (lit "aa") (lit "aab") = Ok (lit "aababa") /\
  replace_str (lit "x.y.z") (lit ".") (lit "") = Ok (lit "xyz") /\ replace_str (lit "x") (lit "") (lit "y") = Throw.
Proof. vm_compute. repeat split. Qed.

Theorem C26_replaced_unique (f w s r1 r2 : str) : replaced f w s r1 -> replaced f w s r2 -> r1 = r2.
Proof. exact (replaced_fun f w s r1 r2). Qed.
Print Assumptions C26_replaced_unique.

Example C26_replaced_unique_ex : replaced (lit "b") (lit "xx") (lit "aba") (lit "axxa").
Proof.
  apply (replaced_first (lit "b") (lit "xx") (lit "a") (lit "a") (lit "a")).
  - split; [cbn; lia|]. split; [exists (lit "a"), (lit "a"); auto|].
    intros j Hj (a & b & E & Hl). assert (j = 0) as -> by (cbn in Hj; lia). destruct a; discriminate.
  - apply replaced_none. intros i (a & b & E & _). destruct a as [|x [|y a]]; discriminate.
Qed.

(** C27: split_str returns exactly the maximal separator-free pieces (which are unique). *)
Theorem C27_split (s seps : str) (ps : list str) :
  ~ In nul seps -> (split_str s seps = Ok ps <-> pieces (one_of seps) s ps).
Proof. exact (split_str_iff s seps ps). Qed.
Print Assumptions C27_split.

Example C27_split_ex : split_str (lit ", a,,bc ,") (lit ", ") = Ok [lit "a"; lit "bc"].
Proof. vm_compute. reflexivity. Qed.

Theorem C27_pieces_exist (s seps : str) :
  ~ In nul seps -> exists ps, split_str s seps = Ok ps /\ pieces (one_of seps) s ps.
Proof. exact (split_str_ok s seps). Qed.
Print Assumptions C27_pieces_exist.

Theorem C27_split_join (l : list str) (d seps : str) :
  ~ In nul seps -> d <> [] -> Forall (one_of seps) d ->
  Forall (fun p => p <> [] /\ Forall (fun c => ~ one_of seps c) p) l ->
  split_str (join d l) seps = Ok l.
Proof. exact (split_join l d seps). Qed.
Print Assumptions C27_split_join.

Example C27_split_join_ex :
  let l := [lit "a"; lit "bc"] in
  ~ In nul (lit ";, ") /\ lit ", " <> [] /\ Forall (one_of (lit ";, ")) (lit ", ") /\
  Forall (fun p => p <> [] /\ Forall (fun c => ~ one_of (lit ";, ") c) p) l /\ join (lit ", ") l = lit "a, bc".
Proof.
  cbn. unfold one_of. repeat split; repeat constructor; cbn; intuition discriminate.
Qed.

(** C27: trimming. *)
Theorem C27_trim (s chars : str) :
  (exists t, trim_left_str s chars = Ok t /\ trimmed_left (one_of chars) s t) /\
  (exists t, trim_right_str s chars = Ok t /\ trimmed_right (one_of chars) s t) /\
  (exists t u, trim_str s chars = Ok t /\ trimmed_left (one_of chars) s u /\ trimmed_right (one_of chars) u t).
Proof. exact (conj (trim_left_ok s chars) (conj (trim_right_ok s chars) (trim_ok s chars))). Qed.
Print Assumptions C27_trim.

Example C27_trim_ex :
  trim_str (lit "  a b ") whitespace = Ok (lit "a b") /\ trim_left_str (lit "  a b ") whitespace = Ok (lit "a b ") /\
  trim_right_str (lit "  a b ") whitespace = Ok (lit "  a b") /\ trim_right_str (lit "  ") whitespace = Ok [].
Proof. vm_compute. repeat split. Qed.

(** C27: splitting at the first / last separator. *)
Theorem C27_split_at (s seps a b : str) :
  ~ In nul seps ->
  (split_str_at_first s seps = Ok (a, b) <->
   (exists c, s = a ++ c :: b /\ one_of seps c /\ Forall (fun x => ~ one_of seps x) a) \/
   (Forall (fun x => ~ one_of seps x) s /\ a = s /\ b = [])) /\
  (split_str_at_last s seps = Ok (a, b) <->
   (exists c, s = a ++ c :: b /\ one_of seps c /\ Forall (fun x => ~ one_of seps x) b) \/
   (Forall (fun x => ~ one_of seps x) s /\ a = s /\ b = [])).
Proof. exact (fun H => conj (split_first_ok s seps a b H) (split_last_ok s seps a b H)). Qed.
Print Assumptions C27_split_at.

Example C27_split_at_ex :
  split_str_at_first (lit "a=b=c") (lit "=") = Ok (lit "a", lit "b=c") /\
  split_str_at_last (lit "a=b=c") (lit "=") = Ok (lit "a=b", lit "c") /\
  split_str_at_last (lit "abc") (lit "=") = Ok (lit "abc", []).
Proof. vm_compute. repeat split. Qed.

(** C19: quoting round-trips exactly for strings of 7-bit characters other than NUL; decoding a quoted
    string always ends, and quoted text has no control characters. *)
Theorem C19_quoting_partial (s special : str) :
  (try_unquoted (quoted s) = Ok s <-> Forall seven_bit s) /\
  (try_unquoted (try_quoted s special) = Ok s <-> Forall seven_bit s) /\
  (exists t, try_unquoted (quoted s) = Ok t) /\
  Forall (fun c => (32 <= char_z c)%Z) (quoted s).
Proof. exact (quoting_assembled s special). Qed.
Print Assumptions C19_quoting_partial.

Example C19_quoting_ex :
  let s := dquote :: bslash :: lf :: ascii_of_nat 1 :: lit "7a" in
  Forall seven_bit s /\ quoted s = lit """\""\\\n\0017a""" /\ try_unquoted (quoted s) = Ok s.
Proof. split; [repeat constructor|vm_compute; split; reflexivity]. Qed.

Theorem C19_quoting_refuted :
  exists s, try_unquoted (quoted s) <> Ok s /\ s = [ascii_of_nat 195; ascii_of_nat 169].
Proof. exists [ascii_of_nat 195; ascii_of_nat 169]. split; [vm_compute; discriminate|reflexivity]. Qed.
Print Assumptions C19_quoting_refuted.

(** C19: not every string is decoded within its bounds: a lone quote, or an escaped closing quote. *)
Theorem C19_unquote_bounds_refuted :
  exists s1 s2, try_unquoted s1 = UB /\ s1 = [dquote] /\ try_unquoted s2 = UB /\ s2 = [dquote; "a"%char; bslash; dquote].
Proof. exists [dquote], [dquote; "a"%char; bslash; dquote]. vm_compute. repeat split. Qed.
Print Assumptions C19_unquote_bounds_refuted.

(** C64: joining. *)
Theorem C64_concat (l : list str) (d : str) (s1 s2 : str) (c : ascii) :
  concat_str l d = join d (filter (fun e => 0 <? length e) l) /\
  concat_str2 s1 s2 c = join [c] (filter (fun e => 0 <? length e) [s1; s2]).
Proof. exact (conj (concat_str_ok l d) (concat_str2_ok s1 s2 c)). Qed.
Print Assumptions C64_concat.

Example C64_concat_ex : concat_str [lit ""; lit "a"; lit ""; lit "b"] (lit ", ") = lit "a, b".
Proof. vm_compute. reflexivity. Qed.

Theorem C64_split_concat (l : list str) (d seps : str) :
  ~ In nul seps -> d <> [] -> Forall (one_of seps) d -> Forall (Forall (fun c => ~ one_of seps c)) l ->
  split_str (concat_str l d) seps = Ok (filter (fun e => 0 <? length e) l).
Proof. exact (concat_split l d seps). Qed.
Print Assumptions C64_split_concat.

Example C64_split_concat_ex :
  Forall (one_of (lit ",")) (lit ",") /\ Forall (Forall (fun c => ~ one_of (lit ",") c)) [lit "a"; []; lit "b"].
Proof. unfold one_of. repeat split; repeat constructor; cbn; intuition discriminate. Qed.

Theorem C64_append (s a d : str) :
  (s = [] -> append_str s a d = a) /\
  ((exists r, s = r ++ d) -> append_str s a d = s ++ a) /\
  (s <> [] -> (~ exists r, s = r ++ d) -> append_str s a d = s ++ d ++ a).
Proof. exact (append_str_assembled s a d). Qed.
Print Assumptions C64_append.

Example C64_append_ex : append_str (lit "a") (lit "b") (lit "/") = lit "a/b" /\ append_str (lit "a/") (lit "b") (lit "/") = lit "a/b".
Proof. vm_compute. repeat split. Qed.

(** C65: key/value text. *)
Theorem C65_key_value (s sep : str) : ~ In nul sep ->
  (Forall (fun c => ~ one_of sep c) s -> make_key_value_str s sep = Ok (s, [])) /\
  (forall a c b, s = a ++ c :: b -> one_of sep c -> Forall (fun x => ~ one_of sep x) a ->
    exists k v u w, make_key_value_str s sep = Ok (k, v) /\
      trimmed_left (one_of whitespace) a u /\ trimmed_right (one_of whitespace) u k /\
      trimmed_left (one_of whitespace) b w /\ trimmed_right (one_of whitespace) w v).
Proof. exact (key_value_assembled s sep). Qed.
Print Assumptions C65_key_value.

Example C65_key_value_ex :
  make_key_value_str (lit " a = b=c ") (lit "=") = Ok (lit "a", lit "b=c") /\
  make_key_value_str (lit " a ") (lit "=") = Ok (lit " a ", []).
Proof. vm_compute. repeat split. Qed.

(** C66: file names. *)
Theorem C66_extension (s : str) :
  (get_filename_ext s = Ok [] /\ get_filename_without_ext s = Ok s /\
    ~ exists a e, s = a ++ dot :: e /\ e <> [] /\ Forall (fun x => x <> dot /\ ~ one_of slashes x) e) \/
  (exists a e, s = a ++ dot :: e /\ e <> [] /\ Forall (fun x => x <> dot /\ ~ one_of slashes x) e /\
    get_filename_ext s = Ok e /\ get_filename_without_ext s = Ok a).
Proof. exact (ext_spec s). Qed.
Print Assumptions C66_extension.

Example C66_extension_ex :
  get_filename_ext (lit "a.b/c.tar.gz") = Ok (lit "gz") /\ get_filename_without_ext (lit "a.b/c.tar.gz") = Ok (lit "a.b/c.tar") /\
  get_filename_ext (lit "a.b/c") = Ok [] /\ get_filename_without_ext (lit "a.b/c") = Ok (lit "a.b/c").
Proof. vm_compute. repeat split. Qed.

Theorem C66_folder_partial (s : str) :
  (Forall (fun c => ~ one_of slashes c) s ->
    get_filename_folder s = Ok s /\ get_filename_without_folder s = Ok s) /\
  (forall a c b, s = a ++ c :: b -> one_of slashes c -> Forall (fun x => ~ one_of slashes x) b ->
    get_filename_folder s = Ok (a ++ [c]) /\ get_filename_without_folder s = Ok b).
Proof. exact (folder_assembled s). Qed.
Print Assumptions C66_folder_partial.

Example C66_folder_ex :
  get_filename_folder (lit "a/b/c.txt") = Ok (lit "a/b/") /\ get_filename_without_folder (lit "a/b/c.txt") = Ok (lit "c.txt").
Proof. vm_compute. repeat split. Qed.

(** C66: folder and file name do not always make up the whole: without a slash the folder is the file itself. *)
Theorem C66_folder_refuted :
  exists s f n, get_filename_folder s = Ok f /\ get_filename_without_folder s = Ok n /\ f ++ n <> s.
Proof. exists (lit "c.txt"), (lit "c.txt"), (lit "c.txt"). vm_compute. repeat split; discriminate. Qed.
Print Assumptions C66_folder_refuted.

(** C26: replace_char changes the character f into w wherever it stands, and nothing else *)
Theorem C26_replace_char (s : str) (f w : ascii) :
  length (replace_char s f w) = length s /\
  forall i c, nth_error s i = Some c -> (c = f -> nth_error (replace_char s f w) i = Some w) /\ (c <> f -> nth_error (replace_char s f w) i = Some c).
Proof.
  unfold replace_char. split; [apply map_length|]. intros i c H. rewrite nth_error_map, H. cbn [option_map]. destruct (Ascii.eqb_spec c f); split; congruence.
Qed.
Print Assumptions C26_replace_char.
Example C26_replace_char_ex : replace_char (lit "a/b//c") "/"%char "\"%char = lit "a\b\\c".
Proof. reflexivity. Qed.

(** C19: try_quoted leaves a text alone exactly when it is not empty and has no blanks, control characters, characters outside ASCII, double quotes or special characters *)
Theorem C19_unquoted (s special : str) :
  try_quoted s special = s <-> s <> [] /\ Forall (fun c => (33 <= nat_of_ascii c < 128)%nat /\ c <> dquote /\ ~ In c special) s.
Proof.
  assert (Z33 : forall c, (char_z c <? 33)%Z = negb ((33 <=? nat_of_ascii c)%nat && (nat_of_ascii c <? 128)%nat)) by (intros [[] [] [] [] [] [] [] []]; reflexivity).
  assert (N : needs_quotes s special = false <-> s <> [] /\ Forall (fun c => (33 <= nat_of_ascii c < 128)%nat /\ c <> dquote /\ ~ In c special) s).
  { unfold needs_quotes. rewrite orb_false_iff. split.
    - intros [H1 H2]. split; [destruct s; [discriminate|discriminate]|]. apply Forall_forall. intros c Hc.
      assert (E : (char_z c <? 33)%Z || Ascii.eqb c dquote || strchr special c = false).
      { destruct ((char_z c <? 33)%Z || Ascii.eqb c dquote || strchr special c) eqn:E; [|reflexivity]. rewrite <- H1. symmetry. apply existsb_exists. exists c. auto. }
      apply orb_false_iff in E. destruct E as [E E3]. apply orb_false_iff in E. destruct E as [E1 E2].
      rewrite Z33 in E1. apply negb_false_iff, andb_true_iff in E1. destruct E1 as [E1 E1']. apply Nat.leb_le in E1. apply Nat.ltb_lt in E1'.
      split; [lia|]. split; [intros ->; discriminate E2|]. unfold strchr in E3. apply orb_false_iff in E3. destruct E3 as [E3 _].
      intros Hi. unfold in_set in E3. assert (existsb (Ascii.eqb c) special = true) by (apply existsb_exists; exists c; split; [exact Hi|apply Ascii.eqb_refl]). congruence.
    - intros [H1 H2]. split; [|destruct s; [congruence|reflexivity]]. destruct (existsb _ s) eqn:E; [|reflexivity]. apply existsb_exists in E. destruct E as (c & Hc & E).
      rewrite Forall_forall in H2. destruct (H2 c Hc) as (Q1 & Q2 & Q3). rewrite Z33 in E. rewrite !orb_true_iff in E. destruct E as [[E|E]|E].
      + apply negb_true_iff, andb_false_iff in E. destruct E as [E|E]; [apply Nat.leb_gt in E|apply Nat.ltb_ge in E]; lia.
      + apply Ascii.eqb_eq in E. congruence.
      + unfold strchr in E. apply orb_true_iff in E. destruct E as [E|E].
        * unfold in_set in E. apply existsb_exists in E. destruct E as (d & Hd & E). apply Ascii.eqb_eq in E. subst d. contradiction.
        * apply Ascii.eqb_eq in E. subst c. change (nat_of_ascii nul) with 0 in Q1. lia. }
  unfold try_quoted. destruct (needs_quotes s special) eqn:E; [|split; auto; intros _; apply N; reflexivity].
  split; [|intros H; apply N in H; discriminate]. intros H. exfalso. apply (f_equal (@length ascii)) in H. unfold quoted in H. cbn [length] in H. rewrite app_length in H. cbn [length] in H.
  assert (L : forall l, length l <= length (flat_map (fun c => if Ascii.eqb c dquote || Ascii.eqb c bslash || (char_z c <? 32)%Z then encode_char c else [c]) l)).
  { clear. induction l as [|c l IH]; [reflexivity|]. cbn [flat_map]. rewrite app_length. apply (Nat.add_le_mono 1 _ (length l) _); [|exact IH].
    destruct c as [[] [] [] [] [] [] [] []]; vm_compute; repeat constructor. }
  specialize (L s). unfold str in *. lia.
Qed.
Print Assumptions C19_unquoted.
Example C19_unquoted_ex : try_quoted (lit "key!") (lit "=") = lit "key!" /\ try_quoted (lit "k=v") (lit "=") = dquote :: lit "k=v" ++ [dquote] /\ try_quoted [] [] = [dquote; dquote].
Proof. repeat split. Qed.

(** C19: how one character is written in a quoted text: itself, a backslash and a letter, or a backslash and the octal digits of its code; a character outside ASCII is written
    with eleven digits, those of its code minus 256 as a 32-bit number *)
Definition octal_value (ds : str) : N := fold_left (fun a c => (8 * a + (N_of_ascii c - 48))%N) ds 0%N.
Theorem C19_encoded (c : ascii) :
  (c = dquote \/ c = bslash -> encode_char c = [bslash; c]) /\
  (c = cr -> encode_char c = lit "\r") /\ (c = lf -> encode_char c = lit "\n") /\ (c = tab -> encode_char c = lit "\t") /\
  (32 <= nat_of_ascii c < 128 -> c <> dquote -> c <> bslash -> encode_char c = [c]) /\
  (nat_of_ascii c < 32 -> c <> cr -> c <> lf -> c <> tab ->
    exists ds, encode_char c = bslash :: ds /\ length ds = 3 /\ Forall (fun d => 48 <= nat_of_ascii d <= 55) ds /\ octal_value ds = N_of_ascii c) /\
  (128 <= nat_of_ascii c ->
    exists ds, encode_char c = bslash :: ds /\ length ds = 11 /\ Forall (fun d => 48 <= nat_of_ascii d <= 55) ds /\ octal_value ds = (N_of_ascii c + (2 ^ 32 - 256))%N).
Proof.
  assert (F : forall ds, forallb (fun d => (48 <=? nat_of_ascii d) && (nat_of_ascii d <=? 55)) ds = true -> Forall (fun d => 48 <= nat_of_ascii d <= 55) ds).
  { intros ds H. apply Forall_forall. intros d Hd. rewrite forallb_forall in H. apply H in Hd. apply andb_true_iff in Hd. destruct Hd as [A B]. apply Nat.leb_le in A, B. lia. }
  split; [intros [-> | ->]; reflexivity|]. split; [intros ->; reflexivity|]. split; [intros ->; reflexivity|]. split; [intros ->; reflexivity|].
  split; [|split].
  - intros H H1 H2. revert H H1 H2. destruct c as [[] [] [] [] [] [] [] []]; try reflexivity; intros H H1 H2; exfalso; try (apply H1; reflexivity); try (apply H2; reflexivity); cbn in H; lia.
  - intros H H1 H2 H3. revert H H1 H2 H3. destruct c as [[] [] [] [] [] [] [] []]; intros H H1 H2 H3;
      try (exfalso; first [apply H1; reflexivity|apply H2; reflexivity|apply H3; reflexivity|cbn in H; lia]);
      (eexists; split; [vm_compute; reflexivity|]; split; [reflexivity|]; split; [apply F; reflexivity|vm_compute; reflexivity]).
  - intros H. destruct c as [[] [] [] [] [] [] [] []]; try (exfalso; cbn in H; lia);
      (eexists; split; [vm_compute; reflexivity|]; split; [reflexivity|]; split; [apply F; reflexivity|vm_compute; reflexivity]).
Qed.
Print Assumptions C19_encoded.
Example C19_encoded_ex : encode_char (ascii_of_nat 200) = lit "\37777777710" /\ encode_char (ascii_of_nat 7) = lit "\007".
Proof. split; reflexivity. Qed.

(** C19: an escape of one to three octal digits, with a code below 32, is read as that character and takes the backslash and the digits *)
Theorem C19_decoded (ds rest : str) :
  1 <= length ds <= 3 -> Forall (fun d => 48 <= nat_of_ascii d <= 55) ds -> (0 < octal_value ds < 32)%N ->
  (length ds = 3 \/ forall d, hd_error rest = Some d -> ~ (48 <= nat_of_ascii d <= 55)) ->
  decode_char (bslash :: ds ++ rest) = Ok (ascii_of_N (octal_value ds), 1 + length ds).
Proof.
  intros Hl Hd Hv Hr.
  assert (D : forall d, ((48 <=? N_of_ascii d)%N && (N_of_ascii d <? 56)%N) = true <-> 48 <= nat_of_ascii d <= 55).
  { intros d. rewrite andb_true_iff, N.leb_le, N.ltb_lt. unfold nat_of_ascii. lia. }
  assert (R : forall ds n v k, Forall (fun d => 48 <= nat_of_ascii d <= 55) ds -> length ds <= n -> (length ds = n \/ forall d, hd_error rest = Some d -> ~ (48 <= nat_of_ascii d <= 55)) ->
    read_octal n (ds ++ rest) v k = (fold_left (fun a c => (8 * a + (N_of_ascii c - 48))%N) ds v, k + length ds)).
  { clear - D. induction ds as [|d ds IH]; intros n v k Hd Hn Hr; cbn [app fold_left length].
    - destruct n as [|n]; [destruct rest; cbn [read_octal]; f_equal; lia|]. destruct rest as [|d rest]; cbn [read_octal]; [f_equal; lia|].
      destruct ((48 <=? N_of_ascii d)%N && (N_of_ascii d <? 56)%N) eqn:E; [|f_equal; lia]. apply D in E. destruct Hr as [Hr|Hr]; [discriminate|]. exfalso. exact (Hr d eq_refl E).
    - destruct n as [|n]; [cbn in Hn; lia|]. cbn [read_octal]. inversion Hd as [|? ? H1 H2]; subst. rewrite (proj2 (D d) H1).
      rewrite IH; [f_equal; [f_equal; lia|lia]|exact H2|cbn in Hn; lia|]. destruct Hr as [Hr|Hr]; [left; cbn in Hr; lia|right; exact Hr]. }
  destruct ds as [|e ds']; [cbn in Hl; lia|]. set (ds := e :: ds') in *. cbn [decode_char]. change (Ascii.eqb bslash bslash) with true. cbn [negb].
  assert (He : 48 <= nat_of_ascii e <= 55) by (inversion Hd; assumption).
  assert (Q : forall c, ~ (48 <= nat_of_ascii c <= 55) -> Ascii.eqb e c = false) by (intros c Hc; apply Ascii.eqb_neq; intros ->; exact (Hc He)).
  change (ds ++ rest) with (e :: ds' ++ rest). cbv iota beta. rewrite !Q by (vm_compute; lia).
  change (e :: ds' ++ rest) with (ds ++ rest).
  destruct Hr as [Hr|Hr].
  - replace (Nat.min (length (ds ++ rest)) 3) with (length ds) by (rewrite app_length; unfold str in *; lia).
    rewrite (R ds (length ds) 0%N 0 Hd (le_n _) (or_introl eq_refl)). cbn [Nat.add]. fold (octal_value ds).
    replace (0 <? length ds) with true by (symmetry; apply Nat.ltb_lt; lia). rewrite (proj2 (N.ltb_lt _ _) (proj1 Hv)), (proj2 (N.ltb_lt _ _) (proj2 Hv)). reflexivity.
  - rewrite (R ds _ 0%N 0 Hd); [|rewrite app_length; unfold str in *; lia|right; exact Hr]. cbn [Nat.add]. fold (octal_value ds).
    replace (0 <? length ds) with true by (symmetry; apply Nat.ltb_lt; lia). rewrite (proj2 (N.ltb_lt _ _) (proj1 Hv)), (proj2 (N.ltb_lt _ _) (proj2 Hv)). reflexivity.
Qed.
Print Assumptions C19_decoded.
Example C19_decoded_ex : decode_char (lit "\7x") = Ok (ascii_of_nat 7, 2) /\ decode_char (lit "\0331") = Ok (ascii_of_nat 27, 4).
Proof. split; reflexivity. Qed.
