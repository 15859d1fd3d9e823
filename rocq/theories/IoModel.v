(** Models of /repo/xo/container/stream_wrapper.h, serialization/container_io.h and system/debug_storage.cpp. *)
From Coq Require Import Ascii String List Arith Bool.
From Verif Require Import Base Str StrModel AssocSpec AssocModel GridSpec GridModel IoSpec.
Import ListNotations.

(** ** stream_wrapper.h: iterators are positions in a sequence; dereferencing past the end is undefined *)
Section Streams.
  Context {T V : Type} (to_v : T -> V) (of_v : V -> T).
  (** 25-26, 44 *)
  Definition put (s : list V * nat) (x : T) : outcome (list V * nat) := do b <- vec_set (fst s) (snd s) (to_v x); Ok (b, snd s + 1).
  (** 44, 50-52, 60-62 *)
  Definition put_item (s : list V * nat) (i : item T) : outcome (list V * nat) :=
    match i with
    | Num x => put s x
    | Vec x y z => do s1 <- put s x; do s2 <- put s1 y; put s2 z
    | Quat w x y z => do s1 <- put s w; do s2 <- put s1 x; do s3 <- put s2 y; put s3 z
    end.
  Fixpoint put_all (s : list V * nat) (l : list (item T)) : outcome (list V * nat) :=
    match l with [] => Ok s | i :: r => do s1 <- put_item s i; put_all s1 r end.
  (** 14-15, 46: the value and the position behind it *)
  Definition get (b : list V) (pos : nat) : outcome (T * nat) := do v <- vec_get b pos; Ok (of_v v, pos + 1).
  (** 46, 54-56, 64-66 *)
  Definition get_item (b : list V) (pos : nat) (k : kind) : outcome (item T * nat) :=
    match k with
    | KNum => do r <- get b pos; Ok (Num (fst r), snd r)
    | KVec => do x <- get b pos; do y <- get b (snd x); do z <- get b (snd y); Ok (Vec (fst x) (fst y) (fst z), snd z)
    | KQuat => do w <- get b pos; do x <- get b (snd w); do y <- get b (snd x); do z <- get b (snd y); Ok (Quat (fst w) (fst x) (fst y) (fst z), snd z)
    end.
  Fixpoint get_all (b : list V) (pos : nat) (ks : list kind) : outcome (list (item T) * nat) :=
    match ks with [] => Ok ([], pos) | k :: r => do x <- get_item b pos k; do y <- get_all b (snd x) r; Ok (fst x :: fst y, snd y) end.
  (** 36-37 *)
  Definition push_back (cont : list V) (x : T) : list V := cont ++ [to_v x].
End Streams.

(** ** container_io.h: an istream is what is left to read and the eof and fail flags *)
Section Reader.
  (** the value read from a text that does not begin with white space, if there is one, and the number of characters it takes; reading goes
      on to the first character that is not part of the value, so the end of the file is noticed when all characters are taken *)
  Context {T : Type} (parse : str -> option T * nat).
  Record istream := IS { rest : str; eofbit : bool; failbit : bool }.
  Definition good (s : istream) : bool := negb (eofbit s || failbit s).
  Fixpoint skip_ws (s : str) : str := match s with c :: r => if in_set whitespace c then skip_ws r else s | [] => [] end.
  (** is >> element, for the standard types *)
  Definition extract (s : istream) : istream * option T :=
    if good s then
      match skip_ws (rest s) with
      | [] => (IS [] true true, None)
      | t => let '(o, n) := parse t in
             (IS (skipn n t) (length t <=? n) (match o with None => true | Some _ => false end), o)
      end
    else (IS (rest s) (eofbit s) true, None).
  (** 16-24; [None] when out of fuel *)
  Fixpoint read_vector (fuel : nat) (s : istream) (v : list T) : option (istream * list T) :=
    match fuel with
    | O => None
    | S f =>
        if good s then
          let '(s', o) := extract s in
          read_vector f s' (match o with Some x => if good s' then v ++ [x] else v | None => v end)
        else Some (s, v)
    end.
  (** 26-38 with T = std::vector; [file] is the text of the file if it can be opened. The result, and the messages given to the error code;
      without an error code the first of these is thrown *)
  Inductive message := NotAllRead | NoData | CannotOpen.
  Definition read_data (file : option str) (has_ec : bool) : outcome (list T * list message) :=
    let finish (r : list T * list message) := match snd r with [] => Ok r | _ => if has_ec then Ok r else Throw end in
    match file with
    | None => finish ([], [CannotOpen])
    | Some text =>
        match read_vector (S (S (length text))) (IS text false false) [] with
        | None => UB
        | Some (s, v) => finish (v, (if eofbit s then [] else [NotAllRead]) ++ (match v with [] => [NoData] | _ => [] end))
        end
    end.
End Reader.

(** ** debug_storage.cpp 20-25 *)
Section Debug.
  Context {T L : Type} (leq : L -> L -> bool) (ldef : L) (tdef : T) (neq : T -> T -> bool) (sentinel : T).
  Definition dbg_write (s : @sto T L) (label : L) (value : T) : outcome (@sto T L) :=
    let '(s1, r) := st_find_or_add_channel leq ldef s label sentinel in
    do idx <- r;
    do fresh <- (match st_data s1 with [] => Ok true | _ => do x <- st_get s1 (st_frames s1 - 1) idx; Ok (neq x sentinel) end);
    let s2 := if (fresh : bool) then st_add_frame s1 sentinel else s1 in
    st_put s2 (st_frames s2 - 1) idx value.
  Fixpoint dbg_run (s : @sto T L) (h : list (L * T)) : outcome (@sto T L) :=
    match h with [] => Ok s | (l, v) :: r => do s1 <- dbg_write s l v; dbg_run s1 r end.
End Debug.
