(** Storages and tables as text: /repo/xo/container/storage.h 26-41, 104-124, 167-196, storage_tools.h 51-75, table.h 72-118, and the reading of
    numbers by /repo/xo/serialization/char_stream.h.  Streams that write do not fail; std::endl writes a newline. *)
From Coq Require Import Ascii String List Arith Bool NArith ZArith Reals SpecFloat.
From Verif Require Import Base Str StrModel CastSpec CastModel TokSpec TokModel AssocSpec AssocModel GridSpec GridModel FltSpec FltModel IoModel TblSpec.
Import ListNotations.
Local Open Scope nat_scope.

(** ** strtod, strtof: what *endptr points at when a number was read *)
Definition after_exponent (letters s : str) : str :=
  match s with
  | c :: t =>
      if in_set letters c then
        let (_, t') := scan_sign t in
        let '(_, n, r) := take_base 10 t' 0 0 in
        if (n =? 0)%nat then s else r
      else s
  | [] => []
  end.
(** the parenthesised text behind nan: letters, digits and underscores *)
Definition nan_char (c : ascii) : bool :=
  let n := N_of_ascii c in
  (((48 <=? n) && (n <=? 57)) || ((65 <=? n) && (n <=? 90)) || ((97 <=? n) && (n <=? 122)) || (n =? 95))%N.
Fixpoint skip_nan (s : str) : str := match s with c :: t => if nan_char c then skip_nan t else s | [] => [] end.
Definition after_nan (s : str) : str :=
  match s with
  | c :: t => if Ascii.eqb c "(" then match skip_nan t with d :: u => if Ascii.eqb d ")" then u else s | [] => s end else s
  | [] => []
  end.
Definition after_number (s : str) : str :=
  let (_, r) := scan_sign (skip_space s) in
  if starts_word (lit "infinity") r then skipn 8 r
  else if starts_word (lit "inf") r then skipn 3 r
  else if starts_word (lit "nan") r then after_nan (skipn 3 r)
  else
    match (if starts_word (lit "0x") r then scan_mantissa 16 (skipn 2 r) else None) with
    | Some (_, _, r2) => after_exponent (lit "pP") r2
    | None => match scan_mantissa 10 r with Some (_, _, r2) => after_exponent (lit "eE") r2 | None => s end
    end.

(** ** char_stream *)
(** char_stream.h 20, xo_types.h 33: the settings of a stream made without any *)
Definition plain_stream : lexcfg := make_cfg [] whitespace [dquote].
(** char_stream.h 32-33, 72: reading a number; the text has no zero characters (the stream is made from a C string) *)
Definition cs_number (f : format) (s : cs) : cs * spec_float :=
  let s1 := skip_delimiters plain_stream s in
  match strtod f (cs_rest s1) with
  | Some x => (CS (after_number (cs_rest s1)) (cs_fail s1) (cs_eof s1), x)
  | None => (CS (cs_rest s1) true (cs_eof s1), S754_zero false)
  end.

(** ** std::getline until there are no more lines *)
Fixpoint lines (s : str) : list str :=
  match s with
  | [] => []
  | c :: t => if Ascii.eqb c lf then [] :: lines t else match lines t with [] => [[c]] | l :: r => (c :: l) :: r end
  end.

(** ** storage.  [put] is how << writes a value, [read] how char_stream reads one *)
Section Storage.
  Context {T : Type} (zero : T) (put : T -> str) (read : cs -> cs * T).
  (** storage.h 168-171, 173-176: a line of labels or samples; no character at all when there are no channels *)
  Fixpoint put_line (n ci : nat) (item : nat -> outcome str) : outcome str :=
    match n with
    | O => Ok []
    | S m => do x <- item ci; do r <- put_line m (S ci) item; Ok (x ++ (match m with O => lf | _ => Str.tab end) :: r)
    end.
  Fixpoint put_frames (s : sto T str) (n fi : nat) : outcome str :=
    match n with
    | O => Ok []
    | S m =>
        do l <- put_line (st_channels s) 0 (fun ci => do x <- st_get s fi ci; Ok (put x));
        do r <- put_frames s m (S fi);
        Ok (l ++ r)
    end.
  (** storage.h 167-179 *)
  Definition sto_write (s : sto T str) : outcome str :=
    do h <- put_line (st_channels s) 0 (lv_get (st_labels s));
    do r <- put_frames s (st_frames s) 0;
    Ok (h ++ r).
  (** storage.h 185-186 *)
  Fixpoint add_channels (s : sto T str) (ls : list str) : outcome (sto T str) :=
    match ls with
    | [] => Ok s
    | l :: r => let (s', i) := st_add_channel str_eqb [] s l zero in do _ <- i; add_channels s' r
    end.
  (** storage.h 189-191, 38: [n] channels still to be read *)
  Fixpoint read_samples (n ci fi : nat) (c : cs) (s : sto T str) : outcome (sto T str) :=
    match n with
    | O => Ok s
    | S m =>
        if TokModel.good c then
          let (c', x) := read c in
          do s' <- st_put s fi ci x;
          read_samples m (S ci) fi c' s'
        else Ok s
    end.
  (** storage.h 187-192 *)
  Fixpoint read_frames (s : sto T str) (ls : list str) : outcome (sto T str) :=
    match ls with
    | [] => Ok s
    | l :: r =>
        let s1 := st_add_frame s zero in
        do s2 <- read_samples (st_channels s1) 0 (st_frames s1 - 1) (cs_of_cstr l) s1;
        read_frames s2 r
    end.
  (** storage.h 181-196 *)
  Definition sto_read (s : sto T str) (text : str) : outcome (sto T str) :=
    match lines text with
    | [] => Ok s
    | h :: ls => do labels <- split_str h [Str.tab; " "%char]; do s1 <- add_channels s labels; read_frames s1 ls
    end.
End Storage.
(** storage< double >() or storage< float >(); ostream << double is %g with six digits *)
Definition new_storage : sto spec_float str := st_make [] 0 0 (S754_zero false).
Definition write_storage : sto spec_float str -> outcome str := sto_write print_g.
Definition read_storage (f : format) : sto spec_float str -> str -> outcome (sto spec_float str) := sto_read (S754_zero false) (cs_number f).

(** ** numbers read by istream >>, as libstdc++ does: the longest text that has the form of a number is taken, and must be one; a number too large
    for the type is an error.  (Only the failure is of interest when it is none.) *)
Definition take_sign (s : str) : str := match s with c :: _ => if in_set (lit "+-") c then [c] else [] | [] => [] end.
Fixpoint take_digits_of (s : str) : str := match s with c :: t => if isdigit c then c :: take_digits_of t else [] | [] => [] end.
Definition number_form (s : str) : str :=
  let sg := take_sign s in
  let r := skipn (length sg) s in
  let ip := take_digits_of r in
  let r1 := skipn (length ip) r in
  let pf := match r1 with c :: t => if Ascii.eqb c "." then c :: take_digits_of t else [] | [] => [] end in
  let r2 := skipn (length pf) r1 in
  let ex := match r2 with
            | c :: t => if in_set (lit "eE") c && ((0 <? length ip) || (1 <? length pf))%nat then
                          let es := take_sign t in c :: es ++ take_digits_of (skipn (length es) t)
                        else []
            | [] => []
            end in
  sg ++ ip ++ pf ++ ex.
Definition num_get (f : format) (s : str) : option spec_float * nat :=
  let p := number_form s in
  (match strtod f p with
   | Some x => match x with S754_infinity _ => None | _ => match after_number p with [] => Some x | _ => None end end
   | None => None
   end, length p).

(** ** table *)
Section Table.
  Context {T : Type} (tdef zero : T) (put : T -> str) (parse : str -> option T * nat).
  (** table.h 85-88 *)
  Definition put_header (t : tab T str) : str := lit "Row" ++ flat_map (fun l => Str.tab :: l) (lv_labels (tb_cols t)) ++ [lf].
  Fixpoint put_cells (t : tab T str) (row n col : nat) : outcome str :=
    match n with
    | O => Ok [lf]
    | S m => do x <- tb_get t row col; do r <- put_cells t row m (S col); Ok (Str.tab :: put x ++ r)
    end.
  (** table.h 90-96 *)
  Fixpoint put_rows (t : tab T str) (n row : nat) : outcome str :=
    match n with
    | O => Ok []
    | S m => do l <- lv_get (tb_rows t) row; do c <- put_cells t row (tb_col_size t) 0; do r <- put_rows t m (S row); Ok (l ++ c ++ r)
    end.
  (** table.h 84-99 *)
  Definition tab_write (t : tab T str) : outcome str := do r <- put_rows t (tb_row_size t) 0; Ok (put_header t ++ r).

  (** std::getline on a stream without errors: the line, and what is left; nothing there at all is an error as well as the end *)
  Fixpoint first_line (s : str) : str * option str :=
    match s with [] => ([], None) | c :: t => if Ascii.eqb c lf then ([], Some t) else let (l, r) := first_line t in (c :: l, r) end.
  (** istream >> string *)
  Fixpoint take_word (s : str) : str := match s with c :: t => if in_set whitespace c then [] else c :: take_word t | [] => [] end.
  Definition parse_word (s : str) : option str * nat := (Some (take_word s), length (take_word s)).
  (** table.h 107-108 *)
  Fixpoint add_columns (t : tab T str) (ls : list str) : outcome (tab T str) :=
    match ls with [] => Ok t | l :: r => let (t', i) := tb_add_column str_eqb [] tdef t l tdef in do _ <- i; add_columns t' r end.
  (** table.h 113-115: a value that cannot be read is set to 0, one after the stream failed is left *)
  Fixpoint read_cells (s : istream) (t : tab T str) (n col : nat) : outcome (istream * tab T str) :=
    match n with
    | O => Ok (s, t)
    | S m =>
        let g := IoModel.good s in
        let (s', o) := extract parse s in
        do t' <- (match o with Some x => tb_put t (tb_row_size t - 1) col x | None => if g then tb_put t (tb_row_size t - 1) col zero else Ok t end);
        read_cells s' t' m (S col)
    end.
  (** table.h 109-117; every round but the last takes a character *)
  Fixpoint read_rows (fuel : nat) (s : istream) (t : tab T str) : outcome (tab T str) :=
    match fuel with
    | O => UB
    | S k =>
        if IoModel.good s then
          let (s1, o) := extract parse_word s in
          match IoModel.good s1, o with
          | true, Some l =>
              do r <- tb_add_row str_eqb t l tdef;
              do u <- read_cells s1 (fst r) (tb_col_size (fst r)) 0;
              read_rows k (fst u) (snd u)
          | _, _ => read_rows k s1 t
          end
        else Ok t
    end.
  (** table.h 101-118 *)
  Definition tab_read (text : str) (first_row_has_header : bool) : outcome (tab T str) :=
    let (header, rest) := first_line text in
    do columns <- split_str header [" "%char; Str.tab];
    do t <- add_columns (tb_make [] tdef 0 0) (if first_row_has_header then skipn 1 columns else columns);
    match rest with
    | Some r => read_rows (S (S (length r))) (IS r false false) t
    | None => Ok t
    end.
End Table.
Definition write_table : tab spec_float str -> outcome str := tab_write print_g.
Definition read_table (f : format) : str -> bool -> outcome (tab spec_float str) := tab_read (S754_zero false) (S754_zero false) (num_get f).

(** ** frames of a storage *)
Section Frames.
  Context {T : Type} (tdef : T).
  (** storage.h 39: f[ label ] = x; the channel is added when there is none *)
  Definition frame_put (s : sto T str) (fi : nat) (label : str) (x : T) : outcome (sto T str) :=
    let (s', i) := st_find_or_add_channel str_eqb [] s label tdef in do c <- i; st_put s' fi c x.
  Fixpoint frame_puts (s : sto T str) (fi : nat) (fields : list (str * T)) : outcome (sto T str) :=
    match fields with [] => Ok s | (l, x) :: r => do s' <- frame_put s fi l x; frame_puts s' fi r end.
  (** storage_tools.h 51-55, 57-62 *)
  Definition write_vec (s : sto T str) (fi : nat) (name : str) (x y z : T) : outcome (sto T str) :=
    frame_puts s fi [(name ++ lit ".x", x); (name ++ lit ".y", y); (name ++ lit ".z", z)].
  Definition write_quat (s : sto T str) (fi : nat) (name : str) (w x y z : T) : outcome (sto T str) :=
    frame_puts s fi [(name ++ lit ".w", w); (name ++ lit ".x", x); (name ++ lit ".y", y); (name ++ lit ".z", z)].
  (** storage.h 29, 32: the place of the first sample of a frame, when the const_frame is made *)
  Definition const_frame (s : sto T str) (fi : nat) : nat := fi * st_channels s.
  (** storage.h 31: without such a channel the index is no_index, and adding it subtracts one *)
  Definition frame_get (s : sto T str) (ofs : nat) (label : str) : outcome T :=
    match st_find_channel str_eqb s label with
    | Some c => vec_get (st_data s) (ofs + c)
    | None => if ofs =? 0 then UB else vec_get (st_data s) (ofs - 1)
    end.
  (** storage_tools.h 64-68, 70-75 *)
  Definition read_vec (s : sto T str) (ofs : nat) (name : str) : outcome (T * T * T) :=
    do x <- frame_get s ofs (name ++ lit ".x"); do y <- frame_get s ofs (name ++ lit ".y"); do z <- frame_get s ofs (name ++ lit ".z"); Ok (x, y, z).
  Definition read_quat (s : sto T str) (ofs : nat) (name : str) : outcome (T * T * T * T) :=
    do w <- frame_get s ofs (name ++ lit ".w"); do x <- frame_get s ofs (name ++ lit ".x"); do y <- frame_get s ofs (name ++ lit ".y"); do z <- frame_get s ofs (name ++ lit ".z"); Ok (w, x, y, z).
End Frames.

(** storage.h 117-124, without rounding; making a number below zero an index is undefined *)
Definition get_interpolated_value (s : sto R str) (frame_idx : R) (channel : nat) : outcome R :=
  let frame_f := Int_part frame_idx in
  let w := (frame_idx - IZR frame_f)%R in
  if (frame_f <? 0)%Z then UB
  else
    let frame0 := Z.to_nat frame_f in
    if frame0 + 1 <? st_frames s then
      let ofs := frame0 * st_channels s + channel in
      do a <- vec_get (st_data s) ofs;
      do b <- vec_get (st_data s) (ofs + st_channels s);
      Ok ((1 - w) * a + w * b)%R
    else Throw.
