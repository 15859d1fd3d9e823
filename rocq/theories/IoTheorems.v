(** Element streams, data files and debug recordings. *)
From Coq Require Import Ascii String List Arith Bool Lia ZArith.
From Verif Require Import Base Str StrModel AssocSpec AssocModel GridSpec GridModel IoSpec IoModel IoProofs.
Import ListNotations.

(** C131: numbers, vectors and quaternions written to a sequence take their elements in order from the position of the stream on, leave the rest
    of the sequence alone, and reading the same kinds from the same position gives them back. *)
Theorem C131_stream {T V : Type} (to_v : T -> V) (of_v : V -> T) (b : list V) (pos : nat) (l : list (item T)) :
    (pos + length (all_elements l) <= length b ->
      exists b', put_all to_v (b, pos) l = Ok (b', pos + length (all_elements l)) /\ length b' = length b /\
      (forall k x, nth_error (all_elements l) k = Some x -> nth_error b' (pos + k) = Some (to_v x)) /\
      (forall k, k < pos \/ pos + length (all_elements l) <= k -> nth_error b' k = nth_error b k) /\
      ((forall x, In x (all_elements l) -> of_v (to_v x) = x) -> get_all of_v b' pos (map kind_of l) = Ok (l, pos + length (all_elements l)))) /\
    (length b < pos + length (all_elements l) -> all_elements l <> [] -> put_all to_v (b, pos) l = UB).
Proof. exact (stream_assembled to_v of_v b pos l). Qed.
Print Assumptions C131_stream.
Example C131_stream_case : put_all (fun x => x + 10) ([0; 0; 0; 0; 0; 0; 0], 1) [Num 1; Quat 2 3 4 5] = Ok ([0; 11; 12; 13; 14; 15; 0], 6) /\
  get_all (fun x => x - 10) [0; 11; 12; 13; 14; 15; 0] 1 [KNum; KQuat] = Ok ([Num 1; Quat 2 3 4 5], 6).
Proof. split; reflexivity. Qed.

Theorem C131_push_back {T V : Type} (to_v : T -> V) (b : list V) (xs : list T) : fold_left (push_back to_v) xs b = b ++ map to_v xs.
Proof. exact (push_assembled to_v b xs). Qed.
Print Assumptions C131_push_back.
Example C131_push_back_case : fold_left (push_back Z.of_nat) [1; 2] [7%Z] = [7%Z; 1%Z; 2%Z].
Proof. reflexivity. Qed.

(** C132: a file with values, each followed by white space, is read completely; without white space behind the last value that one is dropped, in
    silence; something that is no value in between is reported, and so is a file that cannot be opened. *)
Theorem C132_read_partial {T : Type} (parse : str -> option T * nat) lead (l : list (str * T * str)) : spaces lead -> well_spaced parse l ->
  (forall ec, l <> [] -> read_data parse (Some (lead ++ words_text l)) ec = Ok (values l, [])) /\
  (forall ec w t, is_word parse w t -> l <> [] -> read_data parse (Some (lead ++ words_text l ++ w)) ec = Ok (values l, [])) /\
  (forall c r, ~ In c whitespace -> fst (parse (c :: r)) = None -> snd (parse (c :: r)) < length (c :: r) ->
     read_data parse (Some (lead ++ words_text l ++ c :: r)) false = Throw /\
     exists m, read_data parse (Some (lead ++ words_text l ++ c :: r)) true = Ok (values l, m) /\ In NotAllRead m).
Proof. exact (data_assembled parse lead l). Qed.
Print Assumptions C132_read_partial.
(** a reader of words without digits of one letter: "a" is 1 *)
Definition letter (s : str) : option nat * nat :=
  match s with c :: _ => if Ascii.eqb c "a"%char then (Some 1, 1) else if Ascii.eqb c "b"%char then (Some 2, 1) else (None, 0) | [] => (None, 0) end.
Example C132_read_case : well_spaced letter [(["a"%char], 1, [" "%char]); (["b"%char], 2, [" "%char; " "%char])] /\ is_word letter ["a"%char] 1 /\
  read_data letter (Some (lit "a b  ")) false = Ok ([1; 2], []) /\ read_data letter (Some (lit "a x b")) false = Throw.
Proof.
  assert (W : forall c : ascii, In c ["a"%char; "b"%char] -> ~ In c whitespace) by (intros c [<-|[<-|[]]] I; cbv in I; intuition discriminate).
  refine (conj _ (conj _ (conj eq_refl eq_refl))).
  - repeat constructor; cbn; try discriminate; auto; apply W; cbn; auto.
  - repeat constructor; cbn; try discriminate; auto; apply W; cbn; auto.
Qed.

(** the last value of a file that does not end in white space is not read, and nothing is reported *)
Theorem C132_last_refuted : exists (parse : str -> option nat * nat) (w1 w2 : str), is_word parse w1 1 /\ is_word parse w2 2 /\
  read_data parse (Some (w1 ++ lit " " ++ w2)) true = Ok ([1], []) /\ read_data parse (Some (w1 ++ lit " " ++ w2)) false = Ok ([1], []).
Proof.
  exists letter, ["a"%char], ["b"%char].
  assert (W : forall c : ascii, In c ["a"%char; "b"%char] -> ~ In c whitespace) by (intros c [<-|[<-|[]]] I; cbv in I; intuition discriminate).
  refine (conj _ (conj _ (conj eq_refl eq_refl))); repeat constructor; cbn; try discriminate; auto; apply W; cbn; auto.
Qed.
Print Assumptions C132_last_refuted.

Theorem C132_missing {T : Type} (parse : str -> option T * nat) : read_data parse None false = Throw /\ read_data parse None true = Ok ([], [CannotOpen]).
Proof. exact (missing_assembled parse). Qed.
Print Assumptions C132_missing.
Example C132_missing_case : read_data letter None true = Ok ([], [CannotOpen]).
Proof. reflexivity. Qed.

(** C133: a debug recording has a frame for every group of values with distinct labels; each frame holds the values of its group, and the value for
    'nothing' in the channels that were not written. *)
Theorem C133_recording {T L : Type} (leq : L -> L -> bool) (ldef : L) (tdef : T) (neq : T -> T -> bool) (sentinel : T) :
  eq_test leq -> neq sentinel sentinel = false ->
  forall h, (forall l v, In (l, v) h -> neq v sentinel = true) -> exists s, dbg_run leq ldef neq sentinel (st_make ldef 0 0 tdef) h = Ok s /\
    st_frames s = length (recording leq h) /\
    (forall l, st_find_channel leq s l <> None <-> exists v, In (l, v) h) /\
    (forall f l c, f < st_frames s -> st_find_channel leq s l = Some c ->
       st_get s f c = Ok (match value_in leq (nth f (recording leq h) []) l with Some v => v | None => sentinel end)).
Proof. exact (debug_assembled leq ldef tdef neq sentinel). Qed.
Print Assumptions C133_recording.
Definition nneq (a b : nat) := negb (a =? b).
Example C133_recording_case :
  let h := [(1, 5); (2, 6); (1, 7); (3, 8); (2, 9); (2, 10)] in
  recording Nat.eqb h = [[(1, 5); (2, 6)]; [(1, 7); (3, 8); (2, 9)]; [(2, 10)]] /\ eq_test Nat.eqb /\
  exists s, dbg_run Nat.eqb 0 nneq 0 (st_make 0 0 0 0) h = Ok s /\ st_frames s = 3 /\ st_data s = [5; 6; 0; 7; 9; 8; 0; 10; 0].
Proof.
  cbv zeta. refine (conj eq_refl (conj _ _)); [intros a b; apply Nat.eqb_eq|]. eexists. split; [vm_compute; reflexivity|]. split; reflexivity.
Qed.

(** writing the value for 'nothing' itself is not recorded: the next value takes its place *)
Theorem C133_sentinel_refuted : exists (h : list (nat * nat)) s, length (recording Nat.eqb h) = 2 /\ dbg_run Nat.eqb 0 nneq 0 (st_make 0 0 0 0) h = Ok s /\ st_frames s = 1.
Proof. exists [(1, 0); (1, 5)]. eexists. split; [reflexivity|]. split; [vm_compute; reflexivity|]. reflexivity. Qed.
Print Assumptions C133_sentinel_refuted.
