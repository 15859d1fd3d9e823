(** Small utilities: what they are for; independent of the models. *)
From Coq Require Import Ascii String List Arith Bool NArith ZArith.
From Verif Require Import Base Str StrSpec.
Import ListNotations.

(** the 64-bit FNV-1a hash of a string of octets *)
Definition fnv_prime : N := 0x100000001B3.
Definition fnv_basis : N := 0xCBF29CE484222325.
Definition fnv1a (octets : list N) : N := fold_left (fun h o => (N.lxor h o * fnv_prime) mod 2 ^ 64)%N octets fnv_basis.
Definition octet (c : ascii) : N := N_of_ascii c.

(** characters between enumerators *)
Definition enum_sep : str := [" "%char; ","%char; tab; lf; cr].
(** [names] are the enumerators in the text of an enum *)
Definition enumerators (text : str) (names : list str) : Prop :=
  pieces (one_of enum_sep) text names /\ (forall c r, text = c :: r -> ~ one_of enum_sep c) /\ ~ In nul text.

Record date := Date { d_year : Z; d_month : Z; d_day : Z }.

(** operations on an optional: assign a value, reset, write to *o *)
Inductive opt_op (T : Type) := OAssign (v : T) | OReset | OWrite (v : T).
Arguments OAssign {T}. Arguments OReset {T}. Arguments OWrite {T}.
(** what an optional holds after a history; writing to *o is for optionals that have a value *)
Inductive holds {T} : list (opt_op T) -> option T -> Prop :=
| holds_none : holds [] None
| holds_assign ops v x : holds ops x -> holds (ops ++ [OAssign v]) (Some v)
| holds_reset ops x : holds ops x -> holds (ops ++ [OReset]) None
| holds_write ops v w : holds ops (Some w) -> holds (ops ++ [OWrite v]) (Some v).

(** operations on stop sources and tokens, which are numbered in the order in which they are made *)
Inductive stop_op :=
| SNew                       (* stop_source() *)
| SCopy (i : nat)            (* stop_source( source i ) *)
| SMove (i : nat)            (* stop_source( std::move( source i ) ) *)
| SAssign (i j : nat)        (* source i = source j *)
| TNew                       (* stop_token() *)
| TGet (i : nat)             (* source i .get_token() *)
| TCopy (i : nat)            (* stop_token( token i ) *)
| TMove (i : nat)            (* stop_token( std::move( token i ) ) *)
| TAssign (i j : nat)        (* token i = token j *)
| SRequest (i : nat).        (* source i .request_stop() *)
(** number of sources and tokens made; newest operation first *)
Fixpoint sources (h : list stop_op) : nat := match h with [] => 0 | (SNew | SCopy _ | SMove _) :: h => S (sources h) | _ :: h => sources h end.
Fixpoint tokens (h : list stop_op) : nat := match h with [] => 0 | (TNew | TGet _ | TCopy _ | TMove _) :: h => S (tokens h) | _ :: h => tokens h end.
Fixpoint made (h : list stop_op) : nat := match h with [] => 0 | SNew :: h => S (made h) | _ :: h => made h end.
(** the stop_source() that a source or token goes back to; they are numbered in the order of the calls *)
Fixpoint source_origin (h : list stop_op) (i : nat) : option nat :=
  match h with
  | [] => None
  | op :: h =>
    match op with
    | SNew => if i =? sources h then Some (made h) else source_origin h i
    | SCopy j => if i =? sources h then source_origin h j else source_origin h i
    | SMove j => if i =? sources h then source_origin h j else if i =? j then None else source_origin h i
    | SAssign k j => if i =? k then source_origin h j else source_origin h i
    | _ => source_origin h i
    end
  end.
Fixpoint token_origin (h : list stop_op) (i : nat) : option nat :=
  match h with
  | [] => None
  | op :: h =>
    match op with
    | TNew => if i =? tokens h then None else token_origin h i
    | TGet j => if i =? tokens h then source_origin h j else token_origin h i
    | TCopy j => if i =? tokens h then token_origin h j else token_origin h i
    | TMove j => if i =? tokens h then token_origin h j else if i =? j then None else token_origin h i
    | TAssign k j => if i =? k then token_origin h j else token_origin h i
    | _ => token_origin h i
    end
  end.
(** a stop was requested through some source that goes back to [o] *)
Definition requested (h : list stop_op) (o : nat) : Prop := exists later i earlier, h = later ++ SRequest i :: earlier /\ source_origin earlier i = Some o.
(** sources and tokens exist when they are used, and requests are not made through a source that was moved from *)
Fixpoint valid_history (h : list stop_op) : Prop :=
  match h with
  | [] => True
  | op :: h => valid_history h /\
    match op with
    | SNew | TNew => True
    | SCopy i | SMove i | TGet i => i < sources h
    | SAssign i j => i < sources h /\ j < sources h
    | TCopy i | TMove i => i < tokens h
    | TAssign i j => i < tokens h /\ j < tokens h
    | SRequest i => i < sources h /\ source_origin h i <> None
    end
  end.

(** sides of names *)
Inductive side := Left | NoSide | Right.
Definition side_suffix (x : side) : str := match x with Left => lit "_l" | NoSide => [] | Right => lit "_r" end.
Definition opposite (x : side) : side := match x with Left => Right | NoSide => NoSide | Right => Left end.
(** [s] is [base] with the suffix of [x]; [x] is NoSide only if [s] ends with neither suffix *)
Definition has_side (s base : str) (x : side) : Prop :=
  s = base ++ side_suffix x /\ (x = NoSide -> forall b y, y <> NoSide -> s <> b ++ side_suffix y).
